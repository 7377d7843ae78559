(** Rounding errors of the MDCT and of its inverse (C50). *)
From Coq Require Import List Arith Lia Bool Reals Lra ZArith.
From Verif Require Import Prog Num Model_Common Model_Naive Model_Mdct Model_Plan Model_Api Spec Spec_Api Spec_Fft Spec_Plan
  Spec_Round Spec_Entry Spec_Mdct_Round Properties_Round Properties_Mdct Properties_Entry Round_Entry_Plan Round_Mdct.
Import ListNotations.
Open Scope R_scope.

(** C50: in any arithmetic that rounds every operation of the sample type with relative error at most
    [u], and every operation of the table computation with error at most [v] less than a quarter, and
    with FFTs accurate up to [phi], whatever was planned before and whatever the scratch holds, every
    coefficient of a planned MDCT is within the bound times the sum of the magnitudes of the windowed
    samples of the exact one, and the planned IMDCT adds the exact one to each output up to the
    bound times the magnitudes involved.  The reference uses the window as it is stored. *)
Theorem planned_mdct_rounding : forall u v (N : Num R R), rounding u v N -> forall pf : nat -> fft R, fft_fits pf ->
  forall phi cs n w, 4 * v < 1 -> fft_all_clean pf -> 0 <= phi -> (forall m, (m <= n)%nat -> fft_error phi (pf m)) ->
  (n mod 2 = 0)%nat -> length (window_in_force cs n w (n * 2)) = (n * 2)%nat -> (forall k, (3 <= k)%nat -> n <> (2 ^ k)%nat) ->
  exists a, snd (plan_mdct (N := N) n w (after (N := N) pf cs)) = Ok a /\
    mdct_error (N := N) (t_mdct (arc_val a)) n (m_scratch (arc_val a)) (window_in_force cs n w (n * 2)) total
      ((1 + u) ^ 2 * (1 + entry_bound u v phi (CDct4 n)) - 1) /\
    imdct_error (N := N) (t_imdct (arc_val a)) n (m_scratch (arc_val a)) (window_in_force cs n w (n * 2)) total
      ((1 + u) ^ 2 * (1 + entry_bound u v phi (CDct4 n)) - 1).
Proof. exact planned_mdct_entry. Qed.
Print Assumptions planned_mdct_rounding.

(** C50, in closed form: with tables no less accurate than the samples. *)
Theorem planned_mdct_rounding_closed : forall u v (N : Num R R), rounding u v N -> u <= / 1024 -> forall pf : nat -> fft R, fft_fits pf ->
  forall phi cs n w, v <= u -> 281 * u < 1 -> fft_all_clean pf -> (forall m, (m <= n)%nat -> fft_error phi (pf m)) ->
  (n mod 2 = 0)%nat -> length (window_in_force cs n w (n * 2)) = (n * 2)%nat -> (forall k, (3 <= k)%nat -> n <> (2 ^ k)%nat) ->
  exists a, snd (plan_mdct (N := N) n w (after (N := N) pf cs)) = Ok a /\
    mdct_error (N := N) (t_mdct (arc_val a)) n (m_scratch (arc_val a)) (window_in_force cs n w (n * 2)) total (2 * closed 281 (phi * (2 + phi)) u) /\
    imdct_error (N := N) (t_imdct (arc_val a)) n (m_scratch (arc_val a)) (window_in_force cs n w (n * 2)) total (2 * closed 281 (phi * (2 + phi)) u).
Proof. exact planned_mdct_90. Qed.
Print Assumptions planned_mdct_rounding_closed.

(** C50, with tables much more accurate than the samples, as for [f32] samples with [f64] tables. *)
Theorem planned_mdct_rounding_wide_tables : forall u v (N : Num R R), rounding u v N -> u <= / 1024 -> forall pf : nat -> fft R, fft_fits pf ->
  forall phi cs n w, v <= u * u -> 20 * u < 1 -> fft_all_clean pf -> (forall m, (m <= n)%nat -> fft_error phi (pf m)) ->
  (n mod 2 = 0)%nat -> length (window_in_force cs n w (n * 2)) = (n * 2)%nat -> (forall k, (3 <= k)%nat -> n <> (2 ^ k)%nat) ->
  exists a, snd (plan_mdct (N := N) n w (after (N := N) pf cs)) = Ok a /\
    mdct_error (N := N) (t_mdct (arc_val a)) n (m_scratch (arc_val a)) (window_in_force cs n w (n * 2)) total (2 * closed 20 (phi * (2 + phi)) u) /\
    imdct_error (N := N) (t_imdct (arc_val a)) n (m_scratch (arc_val a)) (window_in_force cs n w (n * 2)) total (2 * closed 20 (phi * (2 + phi)) u).
Proof. exact planned_mdct_3. Qed.
Print Assumptions planned_mdct_rounding_wide_tables.

(** C50, for powers of two from 8: no FFT is involved, and errors are relative to the Euclidean norm. *)
Theorem planned_mdct_rounding_pow2 : forall u v (N : Num R R), rounding u v N -> forall pf : nat -> fft R, fft_fits pf ->
  forall cs n w k, (3 <= k)%nat -> n = (2 ^ k)%nat -> length (window_in_force cs n w (n * 2)) = (n * 2)%nat ->
  exists a, snd (plan_mdct (N := N) n w (after (N := N) pf cs)) = Ok a /\
    mdct_error (N := N) (t_mdct (arc_val a)) n (m_scratch (arc_val a)) (window_in_force cs n w (n * 2)) spread ((1 + u) ^ 2 * growth u v (k - 1) - 1) /\
    imdct_error (N := N) (t_imdct (arc_val a)) n (m_scratch (arc_val a)) (window_in_force cs n w (n * 2)) spread ((1 + u) ^ 2 * growth u v (k - 1) - 1).
Proof. exact planned_mdct_spread. Qed.
Print Assumptions planned_mdct_rounding_pow2.
Theorem planned_mdct_rounding_pow2_closed : forall u v (N : Num R R), rounding u v N -> u <= / 1024 -> forall pf : nat -> fft R, fft_fits pf ->
  forall cs n w k, v <= u -> (3 <= k)%nat -> n = (2 ^ k)%nat -> 26 * INR k * u < 1 -> length (window_in_force cs n w (n * 2)) = (n * 2)%nat ->
  exists a, snd (plan_mdct (N := N) n w (after (N := N) pf cs)) = Ok a /\
    mdct_error (N := N) (t_mdct (arc_val a)) n (m_scratch (arc_val a)) (window_in_force cs n w (n * 2)) spread (26 * INR k * u / (1 - 26 * INR k * u)) /\
    imdct_error (N := N) (t_imdct (arc_val a)) n (m_scratch (arc_val a)) (window_in_force cs n w (n * 2)) spread (26 * INR k * u / (1 - 26 * INR k * u)).
Proof. exact planned_mdct_pow_26. Qed.
Print Assumptions planned_mdct_rounding_pow2_closed.
Theorem planned_mdct_rounding_pow2_wide_tables : forall u v (N : Num R R), rounding u v N -> u <= / 1024 -> forall pf : nat -> fft R, fft_fits pf ->
  forall cs n w k, v <= u * u -> (3 <= k)%nat -> n = (2 ^ k)%nat -> 10 * INR k * u < 1 -> length (window_in_force cs n w (n * 2)) = (n * 2)%nat ->
  exists a, snd (plan_mdct (N := N) n w (after (N := N) pf cs)) = Ok a /\
    mdct_error (N := N) (t_mdct (arc_val a)) n (m_scratch (arc_val a)) (window_in_force cs n w (n * 2)) spread (10 * INR k * u / (1 - 10 * INR k * u)) /\
    imdct_error (N := N) (t_imdct (arc_val a)) n (m_scratch (arc_val a)) (window_in_force cs n w (n * 2)) spread (10 * INR k * u / (1 - 10 * INR k * u)).
Proof. exact planned_mdct_pow_10. Qed.
Print Assumptions planned_mdct_rounding_pow2_wide_tables.

(** C50: the naive struct, of any size. *)
Theorem naive_mdct_rounding : forall u v (N : Num R R) n w d, rounding u v N -> 4 * v < 1 -> MdctNaive_new (N := N) n w = Ok d ->
  mdct_error (N := N) (t_mdct (MdctNaive_obj (N := N) d)) n (m_scratch (MdctNaive_obj (N := N) d)) (w (n * 2)%nat) total (dot_error u v (2 * n)) /\
  imdct_error (N := N) (t_imdct (MdctNaive_obj (N := N) d)) n (m_scratch (MdctNaive_obj (N := N) d)) (w (n * 2)%nat) total (dot_error u v (n + 1)).
Proof. exact naive_error. Qed.
Print Assumptions naive_mdct_rounding.

(** MDCTs of size 12 and 1024 with the precisions of [f32] and [f64]. *)
Example planned_mdct_rounding_case : exists a,
  snd (plan_mdct (N := Binary 24 53) 12 (window_mp3 (N := Binary 24 53)) (after (N := Binary 24 53) (rounded_fft 24) [CDct4 12])) = Ok a /\
  mdct_error (N := Binary 24 53) (t_mdct (arc_val a)) 12 (m_scratch (arc_val a)) (window_mp3 (N := Binary 24 53) 24) total (1 / 300000) /\
  imdct_error (N := Binary 24 53) (t_imdct (arc_val a)) 12 (m_scratch (arc_val a)) (window_mp3 (N := Binary 24 53) 24) total (1 / 300000).
Proof.
  assert (U : powerRZ 2 (- (24)) = / 16777216) by (change (/ 2 ^ 24 = / 16777216); f_equal; rewrite pow_IZR; reflexivity).
  assert (V : powerRZ 2 (- (53)) = / 9007199254740992) by (change (/ 2 ^ 53 = / 9007199254740992); f_equal; rewrite pow_IZR; reflexivity).
  pose proof (binary_arithmetic_rounds 24 53 ltac:(lia) ltac:(lia)) as HN. rewrite U, V in HN.
  destruct (rounded_fft_accurate 24) as (A & B & C). rewrite U in C.
  destruct (planned_mdct_rounding_wide_tables _ _ _ HN ltac:(lra) (rounded_fft 24) A (/ 16777216) [CDct4 12] 12 (window_mp3 (N := Binary 24 53)) ltac:(lra) ltac:(lra) B) as (a & E & H & K).
  - intros m _. exact (C m).
  - reflexivity.
  - reflexivity.
  - intros k Hk H. destruct (le_lt_dec k 3) as [L|L].
    + replace k with 3%nat in H by lia. discriminate.
    + pose proof (Nat.pow_le_mono_r 2 4 k ltac:(lia) L) as P. rewrite <- H in P. revert P. clear. cbn. lia.
  - exists a. split; [exact E|].
    assert (Q : 2 * closed 20 (/ 16777216 * (2 + / 16777216)) (/ 16777216) <= 1 / 300000).
    { unfold closed. assert (P : 0 < / (1 - 20 * / 16777216) <= 101 / 100) by (split; [apply Rinv_0_lt_compat; lra|apply Rmult_le_reg_r with (1 - 20 * / 16777216); [lra|rewrite Rinv_l; lra]]).
      unfold Rdiv. set (w := / (1 - _)) in * . clearbody w. clear - P. lra. }
    split; [exact (mdct_error_mono _ _ _ _ _ _ _ Q total_ge0 H)|exact (imdct_error_mono _ _ _ _ _ _ _ Q total_ge0 K)].
Qed.
Example planned_mdct_rounding_pow2_case : exists a,
  snd (plan_mdct (N := Binary 24 53) (2 ^ 10) (window_vorbis (N := Binary 24 53)) (after (N := Binary 24 53) reference_fft [])) = Ok a /\
  mdct_error (N := Binary 24 53) (t_mdct (arc_val a)) (2 ^ 10) (m_scratch (arc_val a)) (window_vorbis (N := Binary 24 53) (2 ^ 10 * 2)) spread (1 / 160000).
Proof.
  assert (U : powerRZ 2 (- (24)) = / 16777216) by (change (/ 2 ^ 24 = / 16777216); f_equal; rewrite pow_IZR; reflexivity).
  assert (V : powerRZ 2 (- (53)) = / 9007199254740992) by (change (/ 2 ^ 53 = / 9007199254740992); f_equal; rewrite pow_IZR; reflexivity).
  pose proof (binary_arithmetic_rounds 24 53 ltac:(lia) ltac:(lia)) as HN. rewrite U, V in HN.
  destruct (planned_mdct_rounding_pow2_wide_tables _ _ _ HN ltac:(lra) reference_fft (proj1 reference_fft_fits) [] (2 ^ 10) (window_vorbis (N := Binary 24 53)) 10 ltac:(lra) ltac:(lia) eq_refl) as (a & E & H & _).
  - cbn [INR]. lra.
  - cbn [window_in_force]. apply (window_lengths (N := Binary 24 53)).
  - exists a. split; [exact E|]. refine (mdct_error_mono _ _ _ _ _ _ _ _ spread_ge0 H). cbn [INR]. lra.
Qed.
(** A naive MDCT of size 2. *)
Example naive_mdct_rounding_case : exists d, MdctNaive_new (N := Binary 24 53) 2 (window_one (N := Binary 24 53)) = Ok d /\
  mdct_error (N := Binary 24 53) (t_mdct (MdctNaive_obj (N := Binary 24 53) d)) 2 (m_scratch (MdctNaive_obj (N := Binary 24 53) d)) (window_one (N := Binary 24 53) 4) total
    (dot_error (powerRZ 2 (- (24))) (powerRZ 2 (- (53))) 4).
Proof.
  assert (V : powerRZ 2 (- (53)) = / 9007199254740992) by (change (/ 2 ^ 53 = / 9007199254740992); f_equal; rewrite pow_IZR; reflexivity).
  destruct (MdctNaive_new (N := Binary 24 53) 2 (window_one (N := Binary 24 53))) as [d|] eqn:E; [|discriminate].
  exists d. split; [reflexivity|].
  assert (H4 : 4 * powerRZ 2 (- (53)) < 1) by (rewrite V; lra).
  destruct (naive_mdct_rounding _ _ _ 2 _ d (binary_arithmetic_rounds 24 53 ltac:(lia) ltac:(lia)) H4 E) as [H _]. exact H.
Qed.
