(** Rounding errors of every other planned transform, and of the naive structs (C49). *)
From Coq Require Import List Arith Lia Bool Reals Lra ZArith.
From Verif Require Import Prog Num Model_Common Model_Naive Model_Plan Model_Api Spec Spec_Api Spec_Fft Spec_Plan Spec_Methods Spec_Round Spec_Entry
  Properties_Round Round_Entry_Plan.
Import ListNotations.
Open Scope R_scope.

(** C49: in any arithmetic that rounds every operation of the sample type with relative error at most
    [u], and every operation of the table computation with error at most [v] less than a quarter, and with FFTs accurate
    up to [phi], whatever was planned before, every planned transform but those of C48 returns a result whose every
    entry is within [entry_bound] times the sum of the magnitudes of the buffer of the exact one.  But for
    types 5 to 8 (which the crate only has naive code for) the bound does not grow with the size.  Large DST1,
    DST6 and DST7 need scratch that is zero at first (C24). *)
Theorem planned_entry_rounding : forall u v (N : Num R R), rounding u v N -> 4 * v < 1 ->
  forall (pf : nat -> fft R) phi, fft_fits pf -> fft_all_clean pf -> forall cs c, legal c -> ~ halving c ->
  (forall m, (m <= 2 * size c + 2)%nat -> fft_error phi (pf m)) ->
  exists f sl, planned_method (N := N) c (after (N := N) pf cs) = Some (f, sl) /\
  (clean c -> entry_error (N := N) f (size c) sl (reference c) (entry_bound u v phi c)) /\
  entry_error_zeroed (N := N) f (size c) sl (reference c) (entry_bound u v phi c).
Proof. exact planned_entry_all. Qed.
Print Assumptions planned_entry_rounding.

(** C49, in closed form: with tables no less accurate than the samples. *)
Theorem planned_entry_rounding_closed : forall u v (N : Num R R), rounding u v N -> v <= u -> u <= / 1024 ->
  forall (pf : nat -> fft R) phi, fft_fits pf -> fft_all_clean pf -> forall cs c, legal c -> ~ halving c ->
  (forall m, (m <= 2 * size c + 2)%nat -> fft_error phi (pf m)) -> (INR (size c) + 316) * u < 1 ->
  exists f sl, planned_method (N := N) c (after (N := N) pf cs) = Some (f, sl) /\
  (clean c -> entry_error (N := N) f (size c) sl (reference c) (closed_bound 90 u phi c)) /\
  entry_error_zeroed (N := N) f (size c) sl (reference c) (closed_bound 90 u phi c).
Proof. exact planned_entry_same. Qed.
Print Assumptions planned_entry_rounding_closed.

(** C49, with tables much more accurate than the samples, as for [f32] samples with [f64] tables. *)
Theorem planned_entry_rounding_wide_tables : forall u v (N : Num R R), rounding u v N -> v <= u * u -> u <= / 1024 ->
  forall (pf : nat -> fft R) phi, fft_fits pf -> fft_all_clean pf -> forall cs c, legal c -> ~ halving c ->
  (forall m, (m <= 2 * size c + 2)%nat -> fft_error phi (pf m)) -> (INR (size c) + 55) * u < 1 ->
  exists f sl, planned_method (N := N) c (after (N := N) pf cs) = Some (f, sl) /\
  (clean c -> entry_error (N := N) f (size c) sl (reference c) (closed_bound 3 u phi c)) /\
  entry_error_zeroed (N := N) f (size c) sl (reference c) (closed_bound 3 u phi c).
Proof. exact planned_entry_wide. Qed.
Print Assumptions planned_entry_rounding_wide_tables.

(** C49: the naive structs, of any size. *)
Theorem naive_entry_rounding : forall u v (N : Num R R), rounding u v N -> 4 * v < 1 -> forall n, let e := dot_error u v n in
  (forall d, Dct1Naive_new n = Ok d -> entry_error (Dct1Naive_dct1 d) n n dct1 e) /\
  entry_error (Type2And3Naive_dct2 (Type2And3Naive_new n)) n n dct2 e /\
  ((1 <= n)%nat -> entry_error (Type2And3Naive_dct3 (Type2And3Naive_new n)) n n dct3 e) /\
  entry_error (Type4Naive_dct4 (Type4Naive_new n)) n n dct4 e /\
  (forall d, Dct5Naive_new n = Ok d -> entry_error (Dct5Naive_dct5 d) n n dct5 e) /\
  (forall d, Dct6And7Naive_new n = Ok d -> entry_error (Dct6And7Naive_dct6 d) n n dct6 e /\ entry_error (Dct6And7Naive_dct7 d) n n dct7 e) /\
  entry_error (Dct8Naive_dct8 (Dct8Naive_new n)) n n dct8 e /\
  entry_error (Dst1Naive_dst1 (Dst1Naive_new n)) n n dst1 e /\
  entry_error (Type2And3Naive_dst2 (Type2And3Naive_new n)) n n dst2 e /\
  ((1 <= n)%nat -> entry_error (Type2And3Naive_dst3 (Type2And3Naive_new n)) n n dst3 e) /\
  entry_error (Type4Naive_dst4 (Type4Naive_new n)) n n dst4 e /\
  entry_error (Dst5Naive_dst5 (Dst5Naive_new n)) n n dst5 e /\
  entry_error (Dst6And7Naive_dst6 (Dst6And7Naive_new n)) n n dst6 e /\
  entry_error (Dst6And7Naive_dst7 (Dst6And7Naive_new n)) n n dst7 e /\
  (forall d, Dst8Naive_new n = Ok d -> entry_error (Dst8Naive_dst8 d) n n dst8 e).
Proof. exact naive_entry. Qed.
Print Assumptions naive_entry_rounding.

(** The exact FFT with rounded results meets the assumptions on FFTs. *)
Theorem rounded_fft_accurate : forall p, fft_fits (rounded_fft p) /\ fft_all_clean (rounded_fft p) /\
  forall m, fft_error (powerRZ 2 (- p)) (rounded_fft p m).
Proof. exact rounded_fft_ok. Qed.
Print Assumptions rounded_fft_accurate.

(** A DCT4 of size 48 with the precisions of [f32] and [f64]. *)
Example planned_entry_rounding_case : exists f sl,
  planned_method (N := Binary 24 53) (CDct4 48) (after (N := Binary 24 53) (rounded_fft 24) [CDct2 7]) = Some (f, sl) /\
  entry_error (N := Binary 24 53) f 48 sl dct4 (1 / 400000).
Proof.
  assert (U : powerRZ 2 (- (24)) = / 16777216) by (change (/ 2 ^ 24 = / 16777216); f_equal; rewrite pow_IZR; reflexivity).
  assert (V : powerRZ 2 (- (53)) = / 9007199254740992) by (change (/ 2 ^ 53 = / 9007199254740992); f_equal; rewrite pow_IZR; reflexivity).
  pose proof (binary_arithmetic_rounds 24 53 ltac:(lia) ltac:(lia)) as HN. rewrite U, V in HN.
  destruct (rounded_fft_accurate 24) as (A & B & C). rewrite U in C.
  destruct (planned_entry_rounding_wide_tables _ _ _ HN ltac:(lra) ltac:(lra) (rounded_fft 24) (/ 16777216) A B [CDct2 7] (CDct4 48) I) as (f & sl & E & H & _).
  - intros (k & Hk & H). destruct (le_lt_dec k 5) as [L|L].
    + pose proof (Nat.pow_le_mono_r 2 k 5 ltac:(lia) L) as P. rewrite <- H in P. revert P. clear. cbn. lia.
    + pose proof (Nat.pow_le_mono_r 2 6 k ltac:(lia) L) as P. rewrite <- H in P. revert P. clear. cbn. lia.
  - intros m _. exact (C m).
  - cbn [size]. simpl. lra.
  - exists f, sl. split; [exact E|]. eapply entry_error_mono; [|exact (H I)]. cbn [closed_bound]. unfold closed.
    assert (P : 0 < / (1 - (9 + 3 * 3) * / 16777216) <= 101 / 100) by (split; [apply Rinv_0_lt_compat; lra|apply Rmult_le_reg_r with (1 - (9 + 3 * 3) * / 16777216); [lra|rewrite Rinv_l; lra]]).
    unfold Rdiv. set (w := / (1 - _)) in * . clearbody w. clear - P. lra.
Qed.
(** A naive DST2 of size 3. *)
Example naive_entry_rounding_case : entry_error (N := Binary 24 53) (Type2And3Naive_dst2 (N := Binary 24 53) (Type2And3Naive_new (N := Binary 24 53) 3)) 3 3 dst2
  (dot_error (powerRZ 2 (- (24))) (powerRZ 2 (- (53))) 3).
Proof.
  assert (V : powerRZ 2 (- (53)) = / 9007199254740992) by (change (/ 2 ^ 53 = / 9007199254740992); f_equal; rewrite pow_IZR; reflexivity).
  destruct (naive_entry_rounding _ _ _ (binary_arithmetic_rounds 24 53 ltac:(lia) ltac:(lia)) ltac:(rewrite V; lra) 3) as (_ & _ & _ & _ & _ & _ & _ & _ & H & _).
  exact H.
Qed.
