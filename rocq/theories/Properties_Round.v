(** Rounding errors of the planned power-of-two transforms (C48). *)
From Coq Require Import List Arith Lia Bool Reals Lra ZArith.
From Verif Require Import Prog Num Model_Common Model_Plan Model_Api Spec Spec_Api Spec_Fft Spec_Plan Spec_Methods Spec_Round
  Methods Round_Binary Round_Theorems.
Import ListNotations.
Open Scope R_scope.

(** C48: in any arithmetic that rounds every operation of the sample type with relative error at most
    [u], and every operation of the table computation with error at most [v], whatever was planned
    before, whatever the FFT planner returns, and whatever the scratch holds, the planned DCT2, DCT3,
    DST2 and DST3 of size 2^k, and DCT4 and DST4 for k at least 3, return a result whose distance to
    the exact transform of the buffer is at most (growth u v (k-1) - 1) times its norm (times the
    square root of two for type 2): the error grows only with the logarithm of the size. *)
Theorem power_of_two_rounding : forall u v (N : Num R R), rounding u v N -> forall pf : nat -> fft R, fft_fits pf -> forall cs k c,
  (1 <= k)%nat /\ In c [CDct2 (2 ^ k); CDct3 (2 ^ k); CDst2 (2 ^ k); CDst3 (2 ^ k)] \/
  (3 <= k)%nat /\ In c [CDct4 (2 ^ k); CDst4 (2 ^ k)] ->
  exists f sl, planned_method (N := N) c (after (N := N) pf cs) = Some (f, sl) /\
  relative_error (N := N) f (2 ^ k) sl (reference c) ((growth u v (k - 1) - 1) * loss c).
Proof. exact planned_rounding. Qed.
Print Assumptions power_of_two_rounding.

(** C48, in closed form: with tables no less accurate than the samples. *)
Theorem power_of_two_rounding_closed : forall u v (N : Num R R), rounding u v N -> v <= u -> u <= / 1024 ->
  forall pf : nat -> fft R, fft_fits pf -> forall cs k c,
  (1 <= k)%nat /\ In c [CDct2 (2 ^ k); CDct3 (2 ^ k); CDst2 (2 ^ k); CDst3 (2 ^ k)] \/
  (3 <= k)%nat /\ In c [CDct4 (2 ^ k); CDst4 (2 ^ k)] -> 26 * INR k * u < 1 ->
  exists f sl, planned_method (N := N) c (after (N := N) pf cs) = Some (f, sl) /\
  relative_error (N := N) f (2 ^ k) sl (reference c) (26 * INR k * u / (1 - 26 * INR k * u) * loss c).
Proof. exact planned_rounding_26. Qed.
Print Assumptions power_of_two_rounding_closed.

(** C48, with tables much more accurate than the samples, as for [f32] samples with [f64] tables. *)
Theorem power_of_two_rounding_wide_tables : forall u v (N : Num R R), rounding u v N -> v <= u * u -> u <= / 1024 ->
  forall pf : nat -> fft R, fft_fits pf -> forall cs k c,
  (1 <= k)%nat /\ In c [CDct2 (2 ^ k); CDct3 (2 ^ k); CDst2 (2 ^ k); CDst3 (2 ^ k)] \/
  (3 <= k)%nat /\ In c [CDct4 (2 ^ k); CDst4 (2 ^ k)] -> 10 * INR k * u < 1 ->
  exists f sl, planned_method (N := N) c (after (N := N) pf cs) = Some (f, sl) /\
  relative_error (N := N) f (2 ^ k) sl (reference c) (10 * INR k * u / (1 - 10 * INR k * u) * loss c).
Proof. exact planned_rounding_10. Qed.
Print Assumptions power_of_two_rounding_wide_tables.

(** Rounding to nearest with [p] bits for the samples and [p'] bits for the tables is such an arithmetic. *)
Theorem binary_arithmetic_rounds : forall p p', (1 <= p)%Z -> (1 <= p')%Z ->
  rounding (powerRZ 2 (- p)) (powerRZ 2 (- p')) (Binary p p').
Proof. exact binary_rounding. Qed.
Print Assumptions binary_arithmetic_rounds.

(** So is exact arithmetic, with no error. *)
Example exact_arithmetic_rounds : rounding 0 0 NumR.
Proof. exact exact_rounding. Qed.

(** A DST3 of size 1024 with the precisions of [f32] and [f64]. *)
Example power_of_two_rounding_case : exists f sl,
  planned_method (N := Binary 24 53) (CDst3 (2 ^ 10)) (after (N := Binary 24 53) reference_fft [CDct2 7]) = Some (f, sl) /\
  relative_error (N := Binary 24 53) f (2 ^ 10) sl dst3 (1 / 160000).
Proof.
  assert (U : powerRZ 2 (- (24)) = / 16777216) by (change (/ 2 ^ 24 = / 16777216); f_equal; rewrite pow_IZR; reflexivity).
  assert (V : powerRZ 2 (- (53)) = / 9007199254740992) by (change (/ 2 ^ 53 = / 9007199254740992); f_equal; rewrite pow_IZR; reflexivity).
  pose proof (binary_arithmetic_rounds 24 53 ltac:(lia) ltac:(lia)) as HN. rewrite U, V in HN.
  destruct (power_of_two_rounding_wide_tables _ _ _ HN ltac:(lra) ltac:(lra) reference_fft (proj1 reference_fft_fits) [CDct2 7] 10 (CDst3 (2 ^ 10))) as (f & sl & E & H).
  - left. split; [lia|]. cbn [In]. auto.
  - cbn [INR]. lra.
  - exists f, sl. split; [exact E|]. eapply relative_error_mono; [|exact H]. cbn [loss INR]. lra.
Qed.
