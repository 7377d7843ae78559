(** Round trips through a planned transform and its planned inverse, in rounded arithmetic (C61). *)
From Coq Require Import List Arith Lia Reals Lra ZArith.
From Verif Require Import Prog Num Model_Common Model_Plan Model_Api Spec Spec_Api Spec_Fft Spec_Plan Spec_Methods Spec_Round Spec_Trip
  Methods Round_Binary Trip.
Import ListNotations.
Open Scope R_scope.

(** C61: in any arithmetic that rounds as in C48, take the planned DCT2, DCT3, DST2 or DST3 of size 2^k
    (DCT4 or DST4 for k at least 3) and the planned transform that inverts it up to the factor 2^k / 2, from
    two planners that may have planned anything before.  However often the two are called in turns on one
    buffer, with any scratch, every call returns, and after [j] round trips the buffer holds its original
    contents times that factor to the [j], up to a relative error of [growth u v (k-1) ^ (2 j) - 1] in norm. *)
Theorem round_trips_restore : forall u v (N : Num R R), rounding u v N -> forall pf : nat -> fft R, fft_fits pf -> forall cs cs' k c,
  (1 <= k)%nat /\ In c [CDct2 (2 ^ k); CDct3 (2 ^ k); CDst2 (2 ^ k); CDst3 (2 ^ k)] \/
  (3 <= k)%nat /\ In c [CDct4 (2 ^ k); CDst4 (2 ^ k)] ->
  exists f sl g sl', planned_method (N := N) c (after (N := N) pf cs) = Some (f, sl) /\
  planned_method (N := N) (inverse_of c) (after (N := N) pf cs') = Some (g, sl') /\
  trips_return (N := N) f sl g sl' (2 ^ k) /\
  trips_restore (N := N) f sl g sl' (2 ^ k) (INR (2 ^ k) / 2) (fun j => (growth u v (k - 1) ^ (2 * j) - 1) * loss (inverse_of c)).
Proof. intros u v N HN pf Hpf. exact (planned_trips u v N HN pf Hpf). Qed.
Print Assumptions round_trips_restore.

(** C61, in closed form: the error grows in proportion to the number of trips and the logarithm of the
    size.  With tables no less accurate than the samples. *)
Theorem round_trips_restore_closed : forall u v (N : Num R R), rounding u v N -> v <= u -> u <= / 1024 ->
  forall pf : nat -> fft R, fft_fits pf -> forall cs cs' k c,
  (1 <= k)%nat /\ In c [CDct2 (2 ^ k); CDct3 (2 ^ k); CDst2 (2 ^ k); CDst3 (2 ^ k)] \/
  (3 <= k)%nat /\ In c [CDct4 (2 ^ k); CDst4 (2 ^ k)] ->
  exists f sl g sl', planned_method (N := N) c (after (N := N) pf cs) = Some (f, sl) /\
  planned_method (N := N) (inverse_of c) (after (N := N) pf cs') = Some (g, sl') /\
  forall x j z, length x = (2 ^ k)%nat -> round_trips (N := N) f sl g sl' j x z -> 52 * INR j * INR k * u < 1 ->
  dist z (scale ((INR (2 ^ k) / 2) ^ j) x) <=
    52 * INR j * INR k * u / (1 - 52 * INR j * INR k * u) * loss (inverse_of c) * norm (scale ((INR (2 ^ k) / 2) ^ j) x).
Proof. exact planned_trips_26. Qed.
Print Assumptions round_trips_restore_closed.

(** C61, with tables much more accurate than the samples, as for [f32] samples with [f64] tables. *)
Theorem round_trips_restore_wide_tables : forall u v (N : Num R R), rounding u v N -> v <= u * u -> u <= / 1024 ->
  forall pf : nat -> fft R, fft_fits pf -> forall cs cs' k c,
  (1 <= k)%nat /\ In c [CDct2 (2 ^ k); CDct3 (2 ^ k); CDst2 (2 ^ k); CDst3 (2 ^ k)] \/
  (3 <= k)%nat /\ In c [CDct4 (2 ^ k); CDst4 (2 ^ k)] ->
  exists f sl g sl', planned_method (N := N) c (after (N := N) pf cs) = Some (f, sl) /\
  planned_method (N := N) (inverse_of c) (after (N := N) pf cs') = Some (g, sl') /\
  forall x j z, length x = (2 ^ k)%nat -> round_trips (N := N) f sl g sl' j x z -> 20 * INR j * INR k * u < 1 ->
  dist z (scale ((INR (2 ^ k) / 2) ^ j) x) <=
    20 * INR j * INR k * u / (1 - 20 * INR j * INR k * u) * loss (inverse_of c) * norm (scale ((INR (2 ^ k) / 2) ^ j) x).
Proof. exact planned_trips_10. Qed.
Print Assumptions round_trips_restore_wide_tables.

(** A hundred round trips of DCT2 and DCT3 of size 1024 with the precisions of [f32] and [f64]: they can be
    made, and the result is 512^100 times the buffer up to one part in 800. *)
Example round_trips_case : exists f sl g sl',
  planned_method (N := Binary 24 53) (CDct2 (2 ^ 10)) (after (N := Binary 24 53) reference_fft []) = Some (f, sl) /\
  planned_method (N := Binary 24 53) (CDct3 (2 ^ 10)) (after (N := Binary 24 53) reference_fft [CDct2 7]) = Some (g, sl') /\
  forall x, length x = (2 ^ 10)%nat -> exists z, round_trips (N := Binary 24 53) f sl g sl' 100 x z /\
  dist z (scale ((INR (2 ^ 10) / 2) ^ 100) x) <= / 800 * norm (scale ((INR (2 ^ 10) / 2) ^ 100) x).
Proof.
  assert (U : powerRZ 2 (- (24)) = / 16777216) by (change (/ 2 ^ 24 = / 16777216); f_equal; rewrite pow_IZR; reflexivity).
  assert (V : powerRZ 2 (- (53)) = / 9007199254740992) by (change (/ 2 ^ 53 = / 9007199254740992); f_equal; rewrite pow_IZR; reflexivity).
  pose proof (binary_rounding 24 53 ltac:(lia) ltac:(lia)) as HN. rewrite U, V in HN.
  assert (Hc : (1 <= 10)%nat /\ In (CDct2 (2 ^ 10) : pcall R) [CDct2 (2 ^ 10); CDct3 (2 ^ 10); CDst2 (2 ^ 10); CDst3 (2 ^ 10)] \/
    (3 <= 10)%nat /\ In (CDct2 (2 ^ 10) : pcall R) [CDct4 (2 ^ 10); CDst4 (2 ^ 10)]) by (left; split; [lia|cbn [In]; auto]).
  destruct (round_trips_restore _ _ _ HN reference_fft (proj1 reference_fft_fits) [] [CDct2 7] 10 _ Hc) as (f & sl & g & sl' & E & E' & T & _).
  destruct (round_trips_restore_wide_tables _ _ _ HN ltac:(lra) ltac:(lra) reference_fft (proj1 reference_fft_fits) [] [CDct2 7] 10 _ Hc)
    as (f2 & sl2 & g2 & sl2' & E2 & E2' & D).
  rewrite E in E2. rewrite E' in E2'. injection E2 as <- <-. injection E2' as <- <-.
  exists f, sl, g, sl'. split; [exact E|]. split; [exact E'|]. intros x Hx. destruct (T x Hx 100%nat) as (z & Hz). exists z. split; [exact Hz|].
  replace (INR 100) with 100 in D by (rewrite INR_IZR_INZ; reflexivity).
  specialize (D x 100%nat z Hx Hz). rewrite !INR_IZR_INZ in D. change (IZR (Z.of_nat 100)) with 100 in D. change (IZR (Z.of_nat 10)) with 10 in D.
  rewrite !INR_IZR_INZ. eapply Rle_trans; [apply D; lra|]. apply Rmult_le_compat_r; [apply sqrt_pos|]. cbn [inverse_of loss]. lra.
Qed.
