(** Calls on planned instances, for every numeric type: C24, C25, C28, C41.

    [fft_fits pf] and [fft_all_clean pf] are what is assumed of rustfft.  The numeric
    type is arbitrary: no law of arithmetic is used. *)
From Coq Require Import List Reals Lia.
From Verif Require Import Prog Num Model_Common Model_Mdct Model_Plan Model_Api Spec Spec_Api Spec_Fft Spec_Plan Spec_Methods
  Methods Dirty Mdct_Theorems Exact_Fft.
Import ListNotations.
Open Scope nat_scope.

Example reference_fft_clean : fft_all_clean reference_fft.
Proof. intros n. apply fft_exact_clean, (proj2 reference_fft_fits). Qed.

(** C24, for the requests whose instance is [clean]: all but DST1 from length 25 and
    DST6 and DST7 from length 45. *)
Theorem planned_scratch_content_ignored : forall {T F} {N : Num T F} (pf : nat -> fft T) cs c,
  fft_fits pf -> fft_all_clean pf -> legal c -> clean c ->
  exists f sl, planned_method c (after pf cs) = Some (f, sl) /\
  forall x s1 s2, length x = size c -> sl <= length s1 -> sl <= length s2 ->
  exists y s1' s2', call f x s1 = Returned (y, s1') /\ call f x s2 = Returned (y, s2').
Proof. intros T F N pf cs c Hf Hc. exact (planned_same pf Hf Hc c cs). Qed.
Print Assumptions planned_scratch_content_ignored.
Example planned_scratch_content_ignored_case : exists f sl y s1' s2',
  planned_method (CDct4 12) (after reference_fft [CDct2 12]) = Some (f, sl) /\
  call f (repeat 1%R 12) (repeat 5%R sl) = Returned (y, s1') /\ call f (repeat 1%R 12) (repeat 7%R (sl + 1)) = Returned (y, s2').
Proof.
  destruct (planned_scratch_content_ignored reference_fft [CDct2 12] (CDct4 12) (proj1 reference_fft_fits) reference_fft_clean I I) as (f & sl & E & H).
  destruct (H (repeat 1%R 12) (repeat 5%R sl) (repeat 7%R (sl + 1))) as (y & a & b & A & B); [reflexivity|rewrite repeat_length; lia|rewrite repeat_length; lia|].
  exists f, sl, y, a, b. auto.
Qed.
Theorem planned_mdct_scratch_content_ignored : forall {T F} {N : Num T F} (pf : nat -> fft T) cs n w a,
  fft_fits pf -> fft_all_clean pf -> snd (plan_mdct n w (after pf cs)) = Ok a ->
  (exists t, implements_mdct (t_mdct (arc_val a)) n (m_scratch (arc_val a)) t) /\
  (exists t, implements_imdct (t_imdct (arc_val a)) n (m_scratch (arc_val a)) t).
Proof. intros T F N pf cs n w a Hf Hc. exact (planned_mdct_determined pf Hf cs n w a Hc). Qed.
Print Assumptions planned_mdct_scratch_content_ignored.
Example planned_mdct_scratch_content_ignored_case : exists a, snd (plan_mdct 4 window_one (planner_new reference_fft)) = Ok a /\
  exists t, implements_mdct (t_mdct (arc_val a)) 4 (m_scratch (arc_val a)) t.
Proof.
  destruct (planned_mdct_in_force reference_fft (proj1 reference_fft_fits) (proj2 reference_fft_fits) [] 4 window_one eq_refl eq_refl) as (a & A & _).
  exists a. split; [exact A|]. apply (planned_mdct_scratch_content_ignored reference_fft [] 4 window_one a (proj1 reference_fft_fits) reference_fft_clean A).
Qed.

(** C24 fails for exactly the other requests: whatever FFTs the planner is given, some
    two scratch contents give different results. *)
Theorem planned_scratch_content_ignored_refuted : forall pf cs c, fft_fits pf -> fft_all_exact pf -> ~ clean c ->
  exists f sl, planned_method c (after pf cs) = Some (f, sl) /\ depends_on_scratch f (size c) sl.
Proof. intros pf cs c F E. exact (planned_dirty pf F E c cs). Qed.
Print Assumptions planned_scratch_content_ignored_refuted.
Example planned_scratch_content_ignored_refuted_case : exists f sl,
  planned_method (CDst6 45) (planner_new reference_fft) = Some (f, sl) /\ depends_on_scratch f 45 sl.
Proof.
  apply (planned_scratch_content_ignored_refuted reference_fft [] (CDst6 45) (proj1 reference_fft_fits) (proj2 reference_fft_fits)).
  intros H. cbn in H. lia.
Qed.

(** C25 *)
Theorem planned_oversized_scratch : forall {T F} {N : Num T F} (pf : nat -> fft T) cs c,
  fft_fits pf -> fft_all_clean pf -> legal c ->
  exists f sl, planned_method c (after pf cs) = Some (f, sl) /\
  forall x s, length x = size c -> sl <= length s ->
  exists y s1 s2, call f x s = Returned (y, s1) /\ call f x (firstn sl s) = Returned (y, s2) /\
    length s1 = length s /\ skipn sl s1 = skipn sl s.
Proof. intros T F N pf cs c Hf Hc. exact (planned_cut pf Hf Hc c cs). Qed.
Print Assumptions planned_oversized_scratch.
Example planned_oversized_scratch_case : exists f sl y s1 s2,
  planned_method (CDst1 30) (planner_new reference_fft) = Some (f, sl) /\
  call f (repeat 1%R 30) (repeat 5%R (sl + 3)) = Returned (y, s1) /\ call f (repeat 1%R 30) (repeat 5%R sl) = Returned (y, s2) /\
  skipn sl s1 = [5; 5; 5]%R.
Proof.
  destruct (planned_oversized_scratch reference_fft [] (CDst1 30) (proj1 reference_fft_fits) reference_fft_clean I) as (f & sl & E & H).
  destruct (H (repeat 1%R 30) (repeat 5%R sl ++ repeat 5%R 3)) as (y & a & b & A & B & _ & K);
    [reflexivity|rewrite app_length, repeat_length; apply PeanoNat.Nat.le_add_r|].
  assert (L : length (repeat 5%R sl) = sl) by apply repeat_length.
  rewrite firstn_app, L, PeanoNat.Nat.sub_diag, firstn_O, app_nil_r, firstn_all2 in B by lia.
  rewrite skipn_app, L, PeanoNat.Nat.sub_diag, (skipn_all2 (repeat 5%R sl)) in K by lia.
  exists f, sl, y, a, b. rewrite repeat_app. auto.
Qed.

(** C28 *)
Theorem planned_scratch_len_suffices : forall {T F} {N : Num T F} (pf : nat -> fft T) cs c,
  fft_fits pf -> fft_all_clean pf -> legal c ->
  exists f sl, planned_method c (after pf cs) = Some (f, sl) /\
  forall x s, length x = size c -> sl <= length s -> exists y s', call f x s = Returned (y, s').
Proof. intros T F N pf cs c Hf Hc. exact (planned_returns pf Hf Hc c cs). Qed.
Print Assumptions planned_scratch_len_suffices.
Example planned_scratch_len_suffices_case : exists f sl y s',
  planned_method (CDct3 64) (planner_new reference_fft) = Some (f, sl) /\ call f (repeat 1%R 64) (repeat 5%R sl) = Returned (y, s').
Proof.
  destruct (planned_scratch_len_suffices reference_fft [] (CDct3 64) (proj1 reference_fft_fits) reference_fft_clean ltac:(cbn; lia)) as (f & sl & E & H).
  destruct (H (repeat 1%R 64) (repeat 5%R sl)) as (y & s' & A); [reflexivity|rewrite repeat_length; lia|].
  exists f, sl, y, s'. auto.
Qed.

(** C41 *)
Theorem planned_result_depends_on_buffer_only : forall {T F} {N : Num T F} (pf : nat -> fft T) cs c,
  fft_fits pf -> fft_all_clean pf -> legal c -> clean c ->
  exists f sl, planned_method c (after pf cs) = Some (f, sl) /\ determined_anywhere f (size c) sl.
Proof. intros T F N pf cs c Hf Hc. exact (planned_anywhere pf Hf Hc c cs). Qed.
Print Assumptions planned_result_depends_on_buffer_only.
Example planned_result_depends_on_buffer_only_case : exists f sl,
  planned_method (CDct2 32) (planner_new reference_fft) = Some (f, sl) /\
  forall m1 m2 : mem R, vals m1 (mkS 100 32) = vals m2 (mkS 7 32) ->
  exists m1' m2', run (f (mkS 100 32) (mkS 200 sl)) m1 = Done tt m1' /\ run (f (mkS 7 32) (mkS 300 sl)) m2 = Done tt m2' /\
    vals m1' (mkS 100 32) = vals m2' (mkS 7 32).
Proof.
  destruct (planned_result_depends_on_buffer_only reference_fft [] (CDct2 32) (proj1 reference_fft_fits) reference_fft_clean I I) as (f & sl & E & t & H).
  exists f, sl. split; [exact E|]. intros m1 m2 Hm.
  destruct (H m1 (mkS 100 32) (mkS 200 sl) eq_refl (le_n sl)) as (m1' & A & B & _); [cbn; lia|].
  destruct (H m2 (mkS 7 32) (mkS 300 sl) eq_refl (le_n sl)) as (m2' & C & D & _); [cbn; lia|].
  exists m1', m2'. split; [exact A|]. split; [exact C|]. rewrite B, D, Hm. reflexivity.
Qed.
