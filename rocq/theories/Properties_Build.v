(** Calls on every instance that can be built from the public constructors, planned or
    not: C26, C27, C30, C37, C38, C43.

    Everything but the refutations holds for every numeric type and for every FFT,
    correct or not. *)
From Coq Require Import List Arith Lia Bool Reals Lra.
From Verif Require Import Prog Num Model_Common Model_Naive Model_Fft Model_Butterflies Model_SplitRadix Model_Mdct Model_Plan
  Model_Api Spec Spec_Api Spec_Fft Spec_Plan Spec_Methods Spec_Memory Spec_Build Wp Exact_Fft Methods Interleave Build_Conf Build_Reject Build_Plan.
Import ListNotations.
Open Scope nat_scope.

(** What a planner returns is among the instances that can be built. *)
Theorem planned_instances_are_built : forall {T F} {N : Num T F} (pf : nat -> fft T) cs c f sl, fft_fits pf ->
  planned_method c (after pf cs) = Some (f, sl) -> built_method (planned_fft pf) roomy c f sl.
Proof. intros T F N pf cs c f sl H. exact (planned_built pf H c cs f sl). Qed.
Print Assumptions planned_instances_are_built.
Theorem planned_mdcts_are_built : forall {T F} {N : Num T F} (pf : nat -> fft T) cs n w a, fft_fits pf ->
  snd (plan_mdct n w (after pf cs)) = Ok a -> built_mdct (planned_fft pf) roomy (arc_val a) /\ m_len (arc_val a) = n.
Proof. intros T F N pf cs n w a H. exact (planned_mdct_built pf H n w cs a). Qed.
Print Assumptions planned_mdcts_are_built.
Example planned_instances_are_built_case : exists f sl,
  planned_method (CDct3 64) (after reference_fft [CDct2 32]) = Some (f, sl) /\
  built_method (planned_fft reference_fft) roomy (CDct3 64) f sl.
Proof.
  destruct (planned_good reference_fft (proj1 reference_fft_fits)
    (fun n => fft_exact_clean _ (proj2 reference_fft_fits n)) (CDct3 64) [CDct2 32] ltac:(cbn; lia)) as (f & sl & E & _).
  exists f, sl. split; [exact E|]. exact (planned_instances_are_built _ _ _ _ _ (proj1 reference_fft_fits) E).
Qed.

(** C26, C27: a wrong buffer length or too little scratch always panics. *)
Theorem wrong_lengths_panic : forall {T F} {N : Num T F} usable joined c f sl,
  built_method usable joined c f sl -> rejects_somehow f (size c) sl.
Proof. intros T F N. exact built_rejects_somehow. Qed.
Print Assumptions wrong_lengths_panic.
(** The panic is the right one and nothing has changed, except for DST2 and DST3 of split radix. *)
Theorem wrong_lengths_panic_cleanly : forall {T F} {N : Num T F} usable joined c f sl,
  built_method usable joined c f sl -> ~ is_split_dst2 f (size c) -> ~ is_split_dst3 f (size c) -> rejects_cleanly f (size c) sl.
Proof.
  intros T F N. exact built_rejects_others.
Qed.
Print Assumptions wrong_lengths_panic_cleanly.
Theorem planned_wrong_lengths_panic_cleanly : forall {T F} {N : Num T F} (pf : nat -> fft T) cs c f sl, fft_fits pf ->
  planned_method c (after pf cs) = Some (f, sl) -> (forall k, 5 <= k -> c <> CDst2 (2 ^ k) /\ c <> CDst3 (2 ^ k)) ->
  rejects_cleanly f (size c) sl.
Proof. intros T F N pf cs c f sl H. exact (planned_rejects pf H c cs f sl). Qed.
Print Assumptions planned_wrong_lengths_panic_cleanly.
(** Split radix: DST2 has negated the odd cells, DST3 has reversed the buffer; DST2 on
    a short buffer fails by an index. *)
Theorem split_dst2_wrong_lengths : forall {T F} {N : Num T F} (f : meth T) n,
  is_split_dst2 f n -> rejects_with f n n EIndex (negate_odd_below n).
Proof. intros T F N. exact split_dst2_rejects. Qed.
Print Assumptions split_dst2_wrong_lengths.
Theorem split_dst3_wrong_lengths : forall {T F} {N : Num T F} (f : meth T) n,
  is_split_dst3 f n -> rejects_with f n n EBufLen (@rev T).
Proof. intros T F N. exact split_dst3_rejects. Qed.
Print Assumptions split_dst3_wrong_lengths.
(** So C26 and C27 fail for the planned DST2 and DST3 of every power of two from 32. *)
Theorem planned_wrong_lengths_panic_cleanly_refuted : forall pf cs k, fft_fits pf -> 5 <= k -> exists f g,
  planned_method (CDst2 (2 ^ k)) (after pf cs) = Some (f, 2 ^ k) /\
  planned_method (CDst3 (2 ^ k)) (after pf cs) = Some (g, 2 ^ k) /\
  edits_when_rejecting f (2 ^ k) (2 ^ k) /\ edits_when_rejecting g (2 ^ k) (2 ^ k).
Proof. intros pf cs k F. exact (planned_split_edits pf k cs F). Qed.
Print Assumptions planned_wrong_lengths_panic_cleanly_refuted.
Example planned_wrong_lengths_case : exists f sl e r,
  planned_method (CDct4 12) (planner_new reference_fft) = Some (f, sl) /\ call f (repeat 1%R 13) (repeat 0%R 99) = Panics e r /\
  e = EBufLen /\ r = (repeat 1%R 13, repeat 0%R 99).
Proof.
  destruct (planned_good reference_fft (proj1 reference_fft_fits)
    (fun n => fft_exact_clean _ (proj2 reference_fft_fits n)) (CDct4 12) [] I) as (f & sl & E & _).
  exists f, sl, EBufLen, (repeat 1%R 13, repeat 0%R 99). split; [exact E|]. split; [|auto].
  apply (planned_wrong_lengths_panic_cleanly reference_fft [] (CDct4 12) f sl (proj1 reference_fft_fits) E); [|cbn; lia].
  intros k _. split; discriminate.
Qed.
Example planned_wrong_lengths_refuted_case : exists f g,
  planned_method (CDst2 64) (planner_new reference_fft) = Some (f, 64) /\
  planned_method (CDst3 64) (planner_new reference_fft) = Some (g, 64) /\
  edits_when_rejecting f 64 64 /\ edits_when_rejecting g 64 64.
Proof. exact (planned_wrong_lengths_panic_cleanly_refuted reference_fft [] 6 (proj1 reference_fft_fits) ltac:(lia)). Qed.

(** C43 *)
Theorem mdct_wrong_lengths_panic_cleanly : forall {T F} {N : Num T F} usable joined (o : mdct T),
  built_mdct usable joined o ->
  rejects_mdct (t_mdct o) (m_len o) (m_scratch o) /\ rejects_mdct (t_imdct o) (m_len o) (m_scratch o).
Proof. intros T F N. exact built_mdct_rejects. Qed.
Print Assumptions mdct_wrong_lengths_panic_cleanly.
Example mdct_wrong_lengths_case : exists d, MdctNaive_new 4 (window_one (T:=R)) = Ok d /\
  call4 (t_mdct (MdctNaive_obj d)) [1;2;3;4]%R [1;2;3]%R [0;0;0;0]%R [] = Panics EMdctLen ([1;2;3;4]%R, [1;2;3]%R, [0;0;0;0]%R, []).
Proof.
  destruct (MdctNaive_new 4 (window_one (T:=R))) as [d|] eqn:E; [|discriminate]. exists d. split; [reflexivity|].
  apply (mdct_wrong_lengths_panic_cleanly any_fft any_inner (MdctNaive_obj d) (builtm_naive _ _ _ _ _ E)).
  apply Ok_inj in E. subst d. right. left. cbn. lia.
Qed.

(** C30: whatever the lengths and contents of the slices, and whether or not they overlap. *)
Theorem calls_stay_inside : forall {T F} {N : Num T F} (j : job (T:=T)), built_job j -> safe_within (program j) (may_write j).
Proof. intros T F N. exact job_safe. Qed.
Print Assumptions calls_stay_inside.
Theorem calls_see_only_their_slices : forall {T F} {N : Num T F} (j : job (T:=T)), built_job j ->
  sees_only (program j) (may_read j) (may_write j).
Proof. intros T F N. exact job_sees. Qed.
Print Assumptions calls_see_only_their_slices.
Lemma some_split : exists d, Type2And3SplitRadix_new (T:=R) (Type2And3Butterfly4_obj Butterfly4_new) Type2And3Butterfly2_obj = Ok d.
Proof. eexists. reflexivity. Qed.
(** A split radix instance of length 8 called on slices of lengths 5 and 3. *)
Example calls_stay_inside_case : exists d, built_job (Transform (Type2And3SplitRadix_dst2 (T:=R) d) (mkS 10 5) (mkS 20 3)) /\
  safe_within (Type2And3SplitRadix_dst2 (T:=R) d (mkS 10 5) (mkS 20 3)) (fun q => 10 <= q < 10 + 5 \/ 20 <= q < 20 + 3).
Proof.
  destruct some_split as [d E]. exists d.
  assert (B : built_job (Transform (Type2And3SplitRadix_dst2 (T:=R) d) (mkS 10 5) (mkS 20 3))).
  { exists (CDst2 8), 8. exists (Type2And3SplitRadix_obj d). split.
    - apply (built23_split _ _ (Type2And3Butterfly4_obj Butterfly4_new) Type2And3Butterfly2_obj); [constructor|constructor|exact I|exact E].
    - apply Ok_inj in E. subst d. repeat split. }
  split; [exact B|]. exact (calls_stay_inside _ B).
Qed.

(** C38: [may_write] has no cell of the inputs. *)
Theorem mdct_inputs_unchanged : forall {T F} {N : Num T F} (o : mdct T) a b out s, built_mdct any_fft any_inner o ->
  safe_within (t_mdct o a b out s) (fun q => cell_of out q \/ cell_of s q).
Proof. intros T F N o a b out s. exact (job_safe (Mdct o a b out s)). Qed.
Print Assumptions mdct_inputs_unchanged.
Theorem imdct_input_unchanged : forall {T F} {N : Num T F} (o : mdct T) x a b s, built_mdct any_fft any_inner o ->
  safe_within (t_imdct o x a b s) (fun q => cell_of a q \/ cell_of b q \/ cell_of s q).
Proof. intros T F N o x a b s. exact (job_safe (Imdct o x a b s)). Qed.
Print Assumptions imdct_input_unchanged.
Example mdct_inputs_unchanged_case : exists d, MdctNaive_new 4 (window_one (T:=R)) = Ok d /\
  safe_within (t_mdct (MdctNaive_obj d) (mkS 0 4) (mkS 4 4) (mkS 8 4) (mkS 12 0)) (fun q => 8 <= q < 8 + 4 \/ 12 <= q < 12 + 0).
Proof.
  destruct (MdctNaive_new 4 (window_one (T:=R))) as [d|] eqn:E; [|discriminate]. exists d. split; [reflexivity|].
  exact (mdct_inputs_unchanged (MdctNaive_obj d) (mkS 0 4) (mkS 4 4) (mkS 8 4) (mkS 12 0) (builtm_naive _ _ _ _ _ E)).
Qed.

(** C37: however the accesses of the calls are interleaved, no state reached has
    undefined behaviour, the calls can go on until all have ended, and the memory and
    endings are then those of running them one after the other. *)
Theorem concurrent_calls_as_if_one_by_one : forall {T F} {N : Num T F} (js : list (job (T:=T))) m ps m',
  Forall built_job js -> all_separate js -> interleaved (map program js) m ps m' ->
  ~ In UB ps /\
  ((exists es, ended ps es) \/ exists c, advances (ps, m') c) /\
  (forall es, ended ps es -> exists m1, one_by_one (map program js) m = Some (es, m1) /\ forall q, m' q = m1 q).
Proof. intros T F N. exact jobs_interleaved. Qed.
Print Assumptions concurrent_calls_as_if_one_by_one.
Theorem concurrent_calls_end : forall {T} (sched : nat -> list (prog T unit) * mem T),
  ~ forall i, advances (sched i) (sched (S i)).
Proof. intros T. exact no_infinite. Qed.
Print Assumptions concurrent_calls_end.
(** Two threads use one instance, a third an MDCT that shares an input slice with a fourth. *)
Example concurrent_calls_case : exists (d : R) (e : mdct_naive R),
  let o := Type2And3Butterfly3_obj d in
  let js := [Transform (t_dct2 o) (mkS 0 3) (mkS 3 0); Transform (t_dst3 o) (mkS 3 3) (mkS 6 0);
             Mdct (MdctNaive_obj e) (mkS 10 2) (mkS 12 2) (mkS 14 2) (mkS 16 0);
             Mdct (MdctNaive_obj e) (mkS 10 2) (mkS 12 2) (mkS 16 2) (mkS 18 0)] in
  Forall built_job js /\ all_separate js.
Proof.
  destruct (MdctNaive_new 2 (window_one (T:=R))) as [e|] eqn:E; [|discriminate]. exists Butterfly3_new, e. cbv zeta. split.
  - repeat constructor.
    + exists (CDct2 3), 0. exists (Type2And3Butterfly3_obj Butterfly3_new). repeat split. constructor.
    + exists (CDst3 3), 0. exists (Type2And3Butterfly3_obj Butterfly3_new). repeat split. constructor.
    + econstructor. exact E.
    + econstructor. exact E.
  - cbn [all_separate]. repeat (split || constructor); unfold may_write, may_read, cell_of; cbn [base slen]; lia.
Qed.
