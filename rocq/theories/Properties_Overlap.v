(** Rounding errors of overlap-add (C55). *)
From Coq Require Import List Arith Lia Bool Reals Lra ZArith.
From Verif Require Import Prog Num Model_Common Model_Naive Model_Mdct Model_Plan Model_Api Spec Spec_Api Spec_Fft Spec_Plan
  Spec_Round Spec_Entry Spec_Mdct_Round Spec_Overlap Properties_Round Properties_Mdct Properties_Entry Overlap_Add Overlap_Plan.
Import ListNotations.
Open Scope R_scope.

(** C55: an instance whose MDCT and IMDCT are accurate up to [e] in the Euclidean norm and whose stored window is
    within [eta] of a symmetric one with Princen-Bradley constant [c] reconstructs every inner block of any signal. *)
Theorem overlap_add_rounding : forall (N : Num R R) o n w w0 c eta e, (0 < n)%nat -> (n mod 2 = 0)%nat -> 0 <= e ->
  mdct_norm_error (N := N) (t_mdct o) n (m_scratch o) w e -> imdct_norm_error (N := N) (t_imdct o) n (m_scratch o) w e ->
  symmetric w0 -> princen_bradley c n w0 -> entries_within eta w w0 -> reconstructs_within (N := N) o n c eta e.
Proof. exact @reconstructs. Qed.
Print Assumptions overlap_add_rounding.

(** C55: the window functions of the crate are accurate. *)
Theorem crate_windows_accurate : forall u v (N : Num R R) n w c eta, rounding u v N -> 4 * v < 1 -> (0 < n)%nat -> crate_window (N := N) u v n w c eta ->
  exists w0, symmetric w0 /\ princen_bradley c n w0 /\ entries_within eta (w (n * 2)%nat) w0.
Proof. exact crate_window_close. Qed.
Print Assumptions crate_windows_accurate.

(** C55: planned instances of a power of two from 8, whatever was planned before. *)
Theorem planned_overlap_add_rounding_pow2 : forall u v (N : Num R R), rounding u v N -> forall pf : nat -> fft R, fft_fits pf ->
  forall cs n w k w0 c eta, (3 <= k)%nat -> n = (2 ^ k)%nat ->
  symmetric w0 -> princen_bradley c n w0 -> entries_within eta (window_in_force cs n w (n * 2)) w0 ->
  exists a, snd (plan_mdct (N := N) n w (after (N := N) pf cs)) = Ok a /\
    reconstructs_within (N := N) (arc_val a) n c eta ((1 + u) ^ 2 * growth u v (k - 1) - 1).
Proof. exact planned_overlap_pow. Qed.
Print Assumptions planned_overlap_add_rounding_pow2.
Theorem planned_overlap_add_rounding_pow2_closed : forall u v (N : Num R R), rounding u v N -> forall pf : nat -> fft R, fft_fits pf ->
  u <= / 1024 -> v <= u -> forall cs n w k w0 c eta, (3 <= k)%nat -> n = (2 ^ k)%nat -> 26 * INR k * u < 1 ->
  symmetric w0 -> princen_bradley c n w0 -> entries_within eta (window_in_force cs n w (n * 2)) w0 ->
  exists a, snd (plan_mdct (N := N) n w (after (N := N) pf cs)) = Ok a /\
    reconstructs_within (N := N) (arc_val a) n c eta (26 * INR k * u / (1 - 26 * INR k * u)).
Proof. exact planned_overlap_26. Qed.
Print Assumptions planned_overlap_add_rounding_pow2_closed.
Theorem planned_overlap_add_rounding_pow2_wide_tables : forall u v (N : Num R R), rounding u v N -> forall pf : nat -> fft R, fft_fits pf ->
  u <= / 1024 -> v <= u * u -> forall cs n w k w0 c eta, (3 <= k)%nat -> n = (2 ^ k)%nat -> 10 * INR k * u < 1 ->
  symmetric w0 -> princen_bradley c n w0 -> entries_within eta (window_in_force cs n w (n * 2)) w0 ->
  exists a, snd (plan_mdct (N := N) n w (after (N := N) pf cs)) = Ok a /\
    reconstructs_within (N := N) (arc_val a) n c eta (10 * INR k * u / (1 - 10 * INR k * u)).
Proof. exact planned_overlap_10. Qed.
Print Assumptions planned_overlap_add_rounding_pow2_wide_tables.

(** C55: planned instances of the other even sizes, over FFTs accurate up to [phi], and the naive struct. *)
Theorem planned_overlap_add_rounding : forall u v (N : Num R R), rounding u v N -> forall pf : nat -> fft R, fft_fits pf ->
  forall phi cs n w w0 c eta, 4 * v < 1 -> fft_all_clean pf -> 0 <= phi -> (forall m, (m <= n)%nat -> fft_error phi (pf m)) ->
  (n mod 2 = 0)%nat -> (0 < n)%nat -> (forall k, (3 <= k)%nat -> n <> (2 ^ k)%nat) ->
  symmetric w0 -> princen_bradley c n w0 -> entries_within eta (window_in_force cs n w (n * 2)) w0 ->
  exists a, snd (plan_mdct (N := N) n w (after (N := N) pf cs)) = Ok a /\
    reconstructs_within (N := N) (arc_val a) n c eta (sqrt (2 * INR n) * ((1 + u) ^ 2 * (1 + entry_bound u v phi (CDct4 n)) - 1)).
Proof. exact planned_overlap_entry. Qed.
Print Assumptions planned_overlap_add_rounding.
Theorem naive_overlap_add_rounding : forall u v (N : Num R R) n w d w0 c eta, rounding u v N -> 4 * v < 1 -> (0 < n)%nat ->
  MdctNaive_new (N := N) n w = Ok d -> symmetric w0 -> princen_bradley c n w0 -> entries_within eta (w (n * 2)%nat) w0 ->
  reconstructs_within (N := N) (MdctNaive_obj (N := N) d) n c eta (sqrt (2 * INR n) * dot_error u v (2 * n)).
Proof. exact naive_overlap. Qed.
Print Assumptions naive_overlap_add_rounding.

(** The sine window of a block of 1024 samples with the precisions of [f32] and [f64]: every inner block of 1024
    samples comes back times 512, up to the stated fraction of the norms around it. *)
Example planned_overlap_add_rounding_pow2_case : exists a,
  snd (plan_mdct (N := Binary 24 53) (2 ^ 10) (window_mp3 (N := Binary 24 53)) (after (N := Binary 24 53) reference_fft [])) = Ok a /\
  forall signal m y scratch, length signal = ((m + 1) * 2 ^ 10)%nat -> length y = (2 ^ 10)%nat -> (m_scratch (arc_val a) <= length scratch)%nat ->
  exists out y' scratch', overlap_add (N := Binary 24 53) (arc_val a) (2 ^ 10) signal y scratch m = Some (out, y', scratch') /\
    forall j, (1 <= j < m)%nat -> dist (block (2 ^ 10) out j) (scale (1 * INR (2 ^ 10) / 2) (block (2 ^ 10) signal j)) <=
      INR (2 ^ 10) * (1 / 50000 * (norm (block (2 ^ 10) signal (j - 1) ++ block (2 ^ 10) signal j) + norm (block (2 ^ 10) signal j ++ block (2 ^ 10) signal (j + 1)))
        + 1 / 3000000 * norm (block (2 ^ 10) signal j)).
Proof.
  assert (U : powerRZ 2 (- (24)) = / 16777216) by (change (/ 2 ^ 24 = / 16777216); f_equal; rewrite pow_IZR; reflexivity).
  assert (V : powerRZ 2 (- (53)) = / 9007199254740992) by (change (/ 2 ^ 53 = / 9007199254740992); f_equal; rewrite pow_IZR; reflexivity).
  pose proof (binary_arithmetic_rounds 24 53 ltac:(lia) ltac:(lia)) as HN. rewrite U, V in HN.
  destruct (crate_windows_accurate _ _ _ (2 ^ 10) _ _ _ HN ltac:(lra) ltac:(apply Nat.neq_0_lt_0, Nat.pow_nonzero; lia) (W_mp3 _ _ _)) as (w0 & S & P & C).
  destruct (planned_overlap_add_rounding_pow2_wide_tables _ _ _ HN reference_fft (proj1 reference_fft_fits) ltac:(lra) ltac:(lra) [] (2 ^ 10)
    (window_mp3 (N := Binary 24 53)) 10 w0 1 _ ltac:(lia) eq_refl ltac:(cbn [INR]; lra) S P C) as (a & E & H).
  exists a. split; [exact E|]. intros signal m y scratch L1 L2 L3. destruct (H signal m y scratch L1 L2 L3) as (out & y' & s' & O & _ & W).
  exists out, y', s'. split; [exact O|]. intros j Hj. eapply Rle_trans; [exact (W j Hj)|]. unfold overlap_bound.
  set (eta := (1 + / 16777216) * (1 + sine_error (/ 9007199254740992)) - 1).
  set (e := 10 * INR 10 * / 16777216 / (1 - 10 * INR 10 * / 16777216)).
  assert (E1 : 0 <= e <= 6 / 1000000) by (unfold e; cbn [INR]; split; lra).
  assert (E2 : 0 <= eta <= 7 / 100000000).
  { assert (Q : 0 <= rho_any (/ 9007199254740992) <= / 100000000000) by (unfold rho_any; lra). unfold eta, sine_error. pose proof PI_RGT_0. pose proof PI_4.
    set (r := rho_any _) in * . assert (Q2 : 0 <= PI * r <= 4 * / 100000000000) by (split; [apply Rmult_le_pos; lra|apply Rmult_le_compat; lra]). lra. }
  rewrite sqrt_1. apply Rmult_le_compat_l; [apply pos_INR|]. apply Rplus_le_compat; apply Rmult_le_compat_r.
  - apply Rplus_le_le_0_compat; apply sqrt_pos.
  - assert (A1 : 0 <= (1 + eta) ^ 2 <= 1000001 / 1000000) by (split; [apply pow2_ge_0|nra]).
    assert (A2 : 0 <= (1 + e) ^ 3 - 1 <= 19 / 1000000) by (replace ((1 + e) ^ 3 - 1) with (3 * e + 3 * (e * e) + e * e * e) by ring; split; nra).
    nra.
  - apply sqrt_pos.
  - nra.
Qed.
(** A naive instance of size 2 with the constant window, which is stored exactly. *)
Example naive_overlap_add_rounding_case : exists d, MdctNaive_new (N := Binary 24 53) 2 (window_one (N := Binary 24 53)) = Ok d /\
  reconstructs_within (N := Binary 24 53) (MdctNaive_obj (N := Binary 24 53) d) 2 2 0
    (sqrt (2 * INR 2) * dot_error (powerRZ 2 (- (24))) (powerRZ 2 (- (53))) 4).
Proof.
  assert (V : powerRZ 2 (- (53)) = / 9007199254740992) by (change (/ 2 ^ 53 = / 9007199254740992); f_equal; rewrite pow_IZR; reflexivity).
  destruct (MdctNaive_new (N := Binary 24 53) 2 (window_one (N := Binary 24 53))) as [d|] eqn:E; [|discriminate].
  exists d. split; [reflexivity|]. assert (H4 : 4 * powerRZ 2 (- (53)) < 1) by (rewrite V; lra).
  pose proof (binary_arithmetic_rounds 24 53 ltac:(lia) ltac:(lia)) as HN.
  destruct (crate_windows_accurate _ _ _ 2 _ _ _ HN H4 ltac:(lia) (W_one _ _ _)) as (w0 & S & P & C).
  exact (naive_overlap_add_rounding _ _ _ 2 _ d w0 2 0 HN H4 ltac:(lia) E S P C).
Qed.
(** Size 12, over rounded FFTs. *)
Example planned_overlap_add_rounding_case : exists a,
  snd (plan_mdct (N := Binary 24 53) 12 (window_vorbis_invertible (N := Binary 24 53)) (after (N := Binary 24 53) (rounded_fft 24) [CDct4 12])) = Ok a /\
  let u := powerRZ 2 (- (24)) in let v := powerRZ 2 (- (53)) in
  reconstructs_within (N := Binary 24 53) (arc_val a) 12 (2 / INR 12)
    (((1 + u) * ((1 + v) * (1 + vorbis_error v) * (1 + root_error v)) - 1) * sqrt (2 / INR 12))
    (sqrt (2 * INR 12) * ((1 + u) ^ 2 * (1 + entry_bound u v u (CDct4 12)) - 1)).
Proof.
  assert (V : powerRZ 2 (- (53)) = / 9007199254740992) by (change (/ 2 ^ 53 = / 9007199254740992); f_equal; rewrite pow_IZR; reflexivity).
  pose proof (binary_arithmetic_rounds 24 53 ltac:(lia) ltac:(lia)) as HN. assert (H4 : 4 * powerRZ 2 (- (53)) < 1) by (rewrite V; lra).
  destruct (rounded_fft_accurate 24) as (A & B & C). destruct (crate_windows_accurate _ _ _ 12 _ _ _ HN H4 ltac:(lia) (W_vorbis_invertible _ _ _)) as (w0 & S & P & D).
  assert (K : forall k, (3 <= k)%nat -> 12%nat <> (2 ^ k)%nat).
  { intros k Hk Q. destruct (le_lt_dec k 3) as [L|L].
    - replace k with 3%nat in Q by lia. discriminate.
    - pose proof (Nat.pow_le_mono_r 2 4 k ltac:(lia) L) as T. rewrite <- Q in T. revert T. clear. cbn. lia. }
  destruct (planned_overlap_add_rounding _ _ _ HN (rounded_fft 24) A (powerRZ 2 (- (24))) [CDct4 12] 12 (window_vorbis_invertible (N := Binary 24 53)) w0 (2 / INR 12) _ H4 B
    (r_u _ _ _ HN) (fun m _ => C m) eq_refl ltac:(lia) K S P D) as (a & E & H).
  exists a. split; [exact E|exact H].
Qed.
