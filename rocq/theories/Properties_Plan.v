(** What the instances returned by a [DctPlanner] compute, for every length and
    every history of calls on that planner: C01-C16, C31-C36. *)
From Coq Require Import List Reals Lia.
From Verif Require Import Prog Num Model_Common Model_Plan Model_Api Spec Spec_Api Spec_Fft Spec_Plan
  Plan_Theorems Planner_Ids.
Import ListNotations.
Open Scope nat_scope.

(** ** C01-C16.  [cs] are the earlier calls, [pf] is rustfft's planner. *)

(** C01 *)
Theorem planned_dct1_exact : forall pf cs n, fft_fits pf -> fft_all_exact pf -> 2 <= n -> 
  exists a, snd (plan_dct1 n (after pf cs)) = Ok a /\ x_len (arc_val a) = n /\ 
    does (x_run (arc_val a)) n (x_scratch (arc_val a)) dct1.
Proof. intros pf cs n F E. exact (planned_dct1 pf F E cs n). Qed.
Print Assumptions planned_dct1_exact.
Example planned_dct1_exact_case : exists a,
  snd (plan_dct1 12 (after reference_fft [CDct4 12; CDct1 1; CDst6 45; CDct2 12])) = Ok a /\
  process (x_run (arc_val a)) (x_scratch (arc_val a)) (repeat 1%R 12) = Returned (dct1 (repeat 1%R 12)).
Proof.
  destruct reference_fft_fits as [F E].
  destruct (planned_dct1_exact reference_fft [CDct4 12; CDct1 1; CDst6 45; CDct2 12] 12 F E ltac:(lia)) as (a & A & _ & _ & P).
  exists a. split; [exact A|]. apply P, repeat_length.
Qed.

(** C05 *)
Theorem planned_dct5_exact : forall pf cs n, fft_fits pf -> fft_all_exact pf -> 1 <= n -> 
  exists a, snd (plan_dct5 n (after pf cs)) = Ok a /\ x_len (arc_val a) = n /\ 
    does (x_run (arc_val a)) n (x_scratch (arc_val a)) dct5.
Proof. intros pf cs n _ _. exact (planned_dct5 pf cs n). Qed.
Print Assumptions planned_dct5_exact.
Example planned_dct5_exact_case : exists a,
  snd (plan_dct5 7 (after reference_fft [CDct4 12; CDct1 1; CDst6 45; CDct2 7])) = Ok a /\
  process (x_run (arc_val a)) (x_scratch (arc_val a)) (repeat 1%R 7) = Returned (dct5 (repeat 1%R 7)).
Proof.
  destruct reference_fft_fits as [F E].
  destruct (planned_dct5_exact reference_fft [CDct4 12; CDct1 1; CDst6 45; CDct2 7] 7 F E ltac:(lia)) as (a & A & _ & _ & P).
  exists a. split; [exact A|]. apply P, repeat_length.
Qed.

(** C08 *)
Theorem planned_dct8_exact : forall pf cs n, fft_fits pf -> fft_all_exact pf -> 
  exists a, snd (plan_dct8 n (after pf cs)) = Ok a /\ x_len (arc_val a) = n /\ 
    does (x_run (arc_val a)) n (x_scratch (arc_val a)) dct8.
Proof. intros pf cs n _ _. exact (planned_dct8 pf cs n). Qed.
Print Assumptions planned_dct8_exact.
Example planned_dct8_exact_case : exists a,
  snd (plan_dct8 7 (after reference_fft [CDct4 12; CDct1 1; CDst6 45; CDct2 7])) = Ok a /\
  process (x_run (arc_val a)) (x_scratch (arc_val a)) (repeat 1%R 7) = Returned (dct8 (repeat 1%R 7)).
Proof.
  destruct reference_fft_fits as [F E].
  destruct (planned_dct8_exact reference_fft [CDct4 12; CDct1 1; CDst6 45; CDct2 7] 7 F E) as (a & A & _ & _ & P).
  exists a. split; [exact A|]. apply P, repeat_length.
Qed.

(** C13 *)
Theorem planned_dst5_exact : forall pf cs n, fft_fits pf -> fft_all_exact pf -> 
  exists a, snd (plan_dst5 n (after pf cs)) = Ok a /\ x_len (arc_val a) = n /\ 
    does (x_run (arc_val a)) n (x_scratch (arc_val a)) dst5.
Proof. intros pf cs n _ _. exact (planned_dst5 pf cs n). Qed.
Print Assumptions planned_dst5_exact.
Example planned_dst5_exact_case : exists a,
  snd (plan_dst5 7 (after reference_fft [CDct4 12; CDct1 1; CDst6 45; CDct2 7])) = Ok a /\
  process (x_run (arc_val a)) (x_scratch (arc_val a)) (repeat 1%R 7) = Returned (dst5 (repeat 1%R 7)).
Proof.
  destruct reference_fft_fits as [F E].
  destruct (planned_dst5_exact reference_fft [CDct4 12; CDct1 1; CDst6 45; CDct2 7] 7 F E) as (a & A & _ & _ & P).
  exists a. split; [exact A|]. apply P, repeat_length.
Qed.

(** C16 *)
Theorem planned_dst8_exact : forall pf cs n, fft_fits pf -> fft_all_exact pf -> 1 <= n -> 
  exists a, snd (plan_dst8 n (after pf cs)) = Ok a /\ x_len (arc_val a) = n /\ 
    does (x_run (arc_val a)) n (x_scratch (arc_val a)) dst8.
Proof. intros pf cs n _ _. exact (planned_dst8 pf cs n). Qed.
Print Assumptions planned_dst8_exact.
Example planned_dst8_exact_case : exists a,
  snd (plan_dst8 7 (after reference_fft [CDct4 12; CDct1 1; CDst6 45; CDct2 7])) = Ok a /\
  process (x_run (arc_val a)) (x_scratch (arc_val a)) (repeat 1%R 7) = Returned (dst8 (repeat 1%R 7)).
Proof.
  destruct reference_fft_fits as [F E].
  destruct (planned_dst8_exact reference_fft [CDct4 12; CDct1 1; CDst6 45; CDct2 7] 7 F E ltac:(lia)) as (a & A & _ & _ & P).
  exists a. split; [exact A|]. apply P, repeat_length.
Qed.

(** C09 *)
Theorem planned_dst1_exact : forall pf cs n, fft_fits pf -> fft_all_exact pf -> 
  exists a, snd (plan_dst1 n (after pf cs)) = Ok a /\ x_len (arc_val a) = n /\ 
    does_zeroed (x_run (arc_val a)) n (x_scratch (arc_val a)) dst1 /\
    (n < 25 -> does (x_run (arc_val a)) n (x_scratch (arc_val a)) dst1).
Proof. intros pf cs n F E. exact (planned_dst1 pf F E cs n). Qed.
Print Assumptions planned_dst1_exact.
Example planned_dst1_exact_case : exists a,
  snd (plan_dst1 30 (after reference_fft [CDct4 12; CDct1 1; CDst6 45; CDct2 30])) = Ok a /\
  process (x_run (arc_val a)) (x_scratch (arc_val a)) (repeat 1%R 30) = Returned (dst1 (repeat 1%R 30)).
Proof.
  destruct reference_fft_fits as [F E].
  destruct (planned_dst1_exact reference_fft [CDct4 12; CDct1 1; CDst6 45; CDct2 30] 30 F E) as (a & A & _ & (_ & P) & _).
  exists a. split; [exact A|]. apply P, repeat_length.
Qed.

(** C02 *)
Theorem planned_dct2_exact : forall pf cs n, fft_fits pf -> fft_all_exact pf -> 
  exists a, snd (plan_dct2 n (after pf cs)) = Ok a /\ t23_len (arc_val a) = n /\ 
    does (t_dct2 (arc_val a)) n (t23_scratch (arc_val a)) dct2.
Proof. intros pf cs n F E. destruct (planned_23 pf F E cs n) as (a & A & L & K2 & S2 & K3 & S3). exact (ex_intro _ a (conj A (conj L K2))). Qed.
Print Assumptions planned_dct2_exact.
Example planned_dct2_exact_case : exists a,
  snd (plan_dct2 32 (after reference_fft [CDct4 12; CDct1 1; CDst6 45; CDct2 32])) = Ok a /\
  process (t_dct2 (arc_val a)) (t23_scratch (arc_val a)) (repeat 1%R 32) = Returned (dct2 (repeat 1%R 32)).
Proof.
  destruct reference_fft_fits as [F E].
  destruct (planned_dct2_exact reference_fft [CDct4 12; CDct1 1; CDst6 45; CDct2 32] 32 F E) as (a & A & _ & _ & P).
  exists a. split; [exact A|]. apply P, repeat_length.
Qed.

(** C03 *)
Theorem planned_dct3_exact : forall pf cs n, fft_fits pf -> fft_all_exact pf -> 0 < n -> 
  exists a, snd (plan_dct3 n (after pf cs)) = Ok a /\ t23_len (arc_val a) = n /\ 
    does (t_dct3 (arc_val a)) n (t23_scratch (arc_val a)) dct3.
Proof. intros pf cs n F E H. destruct (planned_23 pf F E cs n) as (a & A & L & K2 & S2 & K3 & S3). exact (ex_intro _ a (conj A (conj L (K3 H)))). Qed.
Print Assumptions planned_dct3_exact.
Example planned_dct3_exact_case : exists a,
  snd (plan_dct3 32 (after reference_fft [CDct4 12; CDct1 1; CDst6 45; CDct2 32])) = Ok a /\
  process (t_dct3 (arc_val a)) (t23_scratch (arc_val a)) (repeat 1%R 32) = Returned (dct3 (repeat 1%R 32)).
Proof.
  destruct reference_fft_fits as [F E].
  destruct (planned_dct3_exact reference_fft [CDct4 12; CDct1 1; CDst6 45; CDct2 32] 32 F E ltac:(lia)) as (a & A & _ & _ & P).
  exists a. split; [exact A|]. apply P, repeat_length.
Qed.

(** C10 *)
Theorem planned_dst2_exact : forall pf cs n, fft_fits pf -> fft_all_exact pf -> 
  exists a, snd (plan_dst2 n (after pf cs)) = Ok a /\ t23_len (arc_val a) = n /\ 
    does (t_dst2 (arc_val a)) n (t23_scratch (arc_val a)) dst2.
Proof. intros pf cs n F E. destruct (planned_23 pf F E cs n) as (a & A & L & K2 & S2 & K3 & S3). exact (ex_intro _ a (conj A (conj L S2))). Qed.
Print Assumptions planned_dst2_exact.
Example planned_dst2_exact_case : exists a,
  snd (plan_dst2 30 (after reference_fft [CDct4 12; CDct1 1; CDst6 45; CDct2 30])) = Ok a /\
  process (t_dst2 (arc_val a)) (t23_scratch (arc_val a)) (repeat 1%R 30) = Returned (dst2 (repeat 1%R 30)).
Proof.
  destruct reference_fft_fits as [F E].
  destruct (planned_dst2_exact reference_fft [CDct4 12; CDct1 1; CDst6 45; CDct2 30] 30 F E) as (a & A & _ & _ & P).
  exists a. split; [exact A|]. apply P, repeat_length.
Qed.

(** C11 *)
Theorem planned_dst3_exact : forall pf cs n, fft_fits pf -> fft_all_exact pf -> 0 < n -> 
  exists a, snd (plan_dst3 n (after pf cs)) = Ok a /\ t23_len (arc_val a) = n /\ 
    does (t_dst3 (arc_val a)) n (t23_scratch (arc_val a)) dst3.
Proof. intros pf cs n F E H. destruct (planned_23 pf F E cs n) as (a & A & L & K2 & S2 & K3 & S3). exact (ex_intro _ a (conj A (conj L (S3 H)))). Qed.
Print Assumptions planned_dst3_exact.
Example planned_dst3_exact_case : exists a,
  snd (plan_dst3 32 (after reference_fft [CDct4 12; CDct1 1; CDst6 45; CDct2 32])) = Ok a /\
  process (t_dst3 (arc_val a)) (t23_scratch (arc_val a)) (repeat 1%R 32) = Returned (dst3 (repeat 1%R 32)).
Proof.
  destruct reference_fft_fits as [F E].
  destruct (planned_dst3_exact reference_fft [CDct4 12; CDct1 1; CDst6 45; CDct2 32] 32 F E ltac:(lia)) as (a & A & _ & _ & P).
  exists a. split; [exact A|]. apply P, repeat_length.
Qed.

(** C04 *)
Theorem planned_dct4_exact : forall pf cs n, fft_fits pf -> fft_all_exact pf -> 
  exists a, snd (plan_dct4 n (after pf cs)) = Ok a /\ t4_len (arc_val a) = n /\ 
    does (t_dct4 (arc_val a)) n (t4_scratch (arc_val a)) dct4.
Proof. intros pf cs n F E. destruct (planned_4 pf F E cs n) as (a & A & L & K & S). exact (ex_intro _ a (conj A (conj L K))). Qed.
Print Assumptions planned_dct4_exact.
Example planned_dct4_exact_case : exists a,
  snd (plan_dct4 14 (after reference_fft [CDct4 12; CDct1 1; CDst6 45; CDct2 14])) = Ok a /\
  process (t_dct4 (arc_val a)) (t4_scratch (arc_val a)) (repeat 1%R 14) = Returned (dct4 (repeat 1%R 14)).
Proof.
  destruct reference_fft_fits as [F E].
  destruct (planned_dct4_exact reference_fft [CDct4 12; CDct1 1; CDst6 45; CDct2 14] 14 F E) as (a & A & _ & _ & P).
  exists a. split; [exact A|]. apply P, repeat_length.
Qed.

(** C12 *)
Theorem planned_dst4_exact : forall pf cs n, fft_fits pf -> fft_all_exact pf -> 
  exists a, snd (plan_dst4 n (after pf cs)) = Ok a /\ t4_len (arc_val a) = n /\ 
    does (t_dst4 (arc_val a)) n (t4_scratch (arc_val a)) dst4.
Proof. intros pf cs n F E. destruct (planned_4 pf F E cs n) as (a & A & L & K & S). exact (ex_intro _ a (conj A (conj L S))). Qed.
Print Assumptions planned_dst4_exact.
Example planned_dst4_exact_case : exists a,
  snd (plan_dst4 9 (after reference_fft [CDct4 12; CDct1 1; CDst6 45; CDct2 9])) = Ok a /\
  process (t_dst4 (arc_val a)) (t4_scratch (arc_val a)) (repeat 1%R 9) = Returned (dst4 (repeat 1%R 9)).
Proof.
  destruct reference_fft_fits as [F E].
  destruct (planned_dst4_exact reference_fft [CDct4 12; CDct1 1; CDst6 45; CDct2 9] 9 F E) as (a & A & _ & _ & P).
  exists a. split; [exact A|]. apply P, repeat_length.
Qed.

(** C06 *)
Theorem planned_dct6_exact : forall pf cs n, fft_fits pf -> fft_all_exact pf -> 1 <= n -> 
  exists a, snd (plan_dct6 n (after pf cs)) = Ok a /\ c67_len (arc_val a) = n /\ 
    does (t_dct6 (arc_val a)) n (c67_scratch (arc_val a)) dct6.
Proof. intros pf cs n _ _ H. destruct (planned_c67 pf cs n H) as (a & A & L & K & S). exact (ex_intro _ a (conj A (conj L K))). Qed.
Print Assumptions planned_dct6_exact.
Example planned_dct6_exact_case : exists a,
  snd (plan_dct6 9 (after reference_fft [CDct4 12; CDct1 1; CDst6 45; CDct2 9])) = Ok a /\
  process (t_dct6 (arc_val a)) (c67_scratch (arc_val a)) (repeat 1%R 9) = Returned (dct6 (repeat 1%R 9)).
Proof.
  destruct reference_fft_fits as [F E].
  destruct (planned_dct6_exact reference_fft [CDct4 12; CDct1 1; CDst6 45; CDct2 9] 9 F E ltac:(lia)) as (a & A & _ & _ & P).
  exists a. split; [exact A|]. apply P, repeat_length.
Qed.

(** C07 *)
Theorem planned_dct7_exact : forall pf cs n, fft_fits pf -> fft_all_exact pf -> 1 <= n -> 
  exists a, snd (plan_dct7 n (after pf cs)) = Ok a /\ c67_len (arc_val a) = n /\ 
    does (t_dct7 (arc_val a)) n (c67_scratch (arc_val a)) dct7.
Proof. intros pf cs n _ _ H. destruct (planned_c67 pf cs n H) as (a & A & L & K & S). exact (ex_intro _ a (conj A (conj L S))). Qed.
Print Assumptions planned_dct7_exact.
Example planned_dct7_exact_case : exists a,
  snd (plan_dct7 9 (after reference_fft [CDct4 12; CDct1 1; CDst6 45; CDct2 9])) = Ok a /\
  process (t_dct7 (arc_val a)) (c67_scratch (arc_val a)) (repeat 1%R 9) = Returned (dct7 (repeat 1%R 9)).
Proof.
  destruct reference_fft_fits as [F E].
  destruct (planned_dct7_exact reference_fft [CDct4 12; CDct1 1; CDst6 45; CDct2 9] 9 F E ltac:(lia)) as (a & A & _ & _ & P).
  exists a. split; [exact A|]. apply P, repeat_length.
Qed.

(** C14 *)
Theorem planned_dst6_exact : forall pf cs n, fft_fits pf -> fft_all_exact pf -> 
  exists a, snd (plan_dst6 n (after pf cs)) = Ok a /\ s67_len (arc_val a) = n /\ 
    does_zeroed (t_dst6 (arc_val a)) n (s67_scratch (arc_val a)) dst6 /\
    (n < 45 -> does (t_dst6 (arc_val a)) n (s67_scratch (arc_val a)) dst6).
Proof. intros pf cs n F E. destruct (planned_s67 pf F E cs n) as (a & A & L & K & S & C). exact (ex_intro _ a (conj A (conj L (conj K (fun H => proj1 (C H)))))). Qed.
Print Assumptions planned_dst6_exact.
Example planned_dst6_exact_case : exists a,
  snd (plan_dst6 50 (after reference_fft [CDct4 12; CDct1 1; CDst6 45; CDct2 50])) = Ok a /\
  process (t_dst6 (arc_val a)) (s67_scratch (arc_val a)) (repeat 1%R 50) = Returned (dst6 (repeat 1%R 50)).
Proof.
  destruct reference_fft_fits as [F E].
  destruct (planned_dst6_exact reference_fft [CDct4 12; CDct1 1; CDst6 45; CDct2 50] 50 F E) as (a & A & _ & (_ & P) & _).
  exists a. split; [exact A|]. apply P, repeat_length.
Qed.

(** C15 *)
Theorem planned_dst7_exact : forall pf cs n, fft_fits pf -> fft_all_exact pf -> 
  exists a, snd (plan_dst7 n (after pf cs)) = Ok a /\ s67_len (arc_val a) = n /\ 
    does_zeroed (t_dst7 (arc_val a)) n (s67_scratch (arc_val a)) dst7 /\
    (n < 45 -> does (t_dst7 (arc_val a)) n (s67_scratch (arc_val a)) dst7).
Proof. intros pf cs n F E. destruct (planned_s67 pf F E cs n) as (a & A & L & K & S & C). exact (ex_intro _ a (conj A (conj L (conj S (fun H => proj2 (C H)))))). Qed.
Print Assumptions planned_dst7_exact.
Example planned_dst7_exact_case : exists a,
  snd (plan_dst7 50 (after reference_fft [CDct4 12; CDct1 1; CDst6 45; CDct2 50])) = Ok a /\
  process (t_dst7 (arc_val a)) (s67_scratch (arc_val a)) (repeat 1%R 50) = Returned (dst7 (repeat 1%R 50)).
Proof.
  destruct reference_fft_fits as [F E].
  destruct (planned_dst7_exact reference_fft [CDct4 12; CDct1 1; CDst6 45; CDct2 50] 50 F E) as (a & A & _ & (_ & P) & _).
  exists a. split; [exact A|]. apply P, repeat_length.
Qed.

(** ** The planner itself, for every numeric type. *)
Section AnyType.
Context {T F : Type} {N : Num T F}.

(** C31 *)
Theorem planned_instances_have_the_requested_length : forall pf cs c (i : instance (T:=T)), fft_fits pf ->
  returned_instance c (after pf cs) = Ok i -> instance_len i = snd (request c).
Proof. intros pf cs c i H. exact (planned_len pf H c cs i). Qed.

(** C32: two calls return the same [Arc] exactly when they ask for the same length
    of the same group of transforms; asking again does not change the planner. *)
Theorem planned_arcs_are_shared : forall (pf : nat -> fft T) cs1 c cs2 d i j,
  returned_arc c (after pf cs1) = Some i ->
  returned_arc d (after pf (cs1 ++ c :: cs2)) = Some j ->
  (i = j <-> request c = request d).
Proof. exact arcs_shared. Qed.
Theorem planned_again_returns_an_arc : forall (pf : nat -> fft T) cs c cs2 d i,
  returned_arc c (after pf cs) = Some i -> request c = request d ->
  returned_arc d (after pf (cs ++ c :: cs2)) = Some i.
Proof. exact arcs_again. Qed.
Theorem planning_again_changes_nothing : forall (pf : nat -> fft T) c cs d cs2 i,
  request c = request d -> returned_arc c (after pf cs) = Some i ->
  exec d (after pf (cs ++ c :: cs2)) = after pf (cs ++ c :: cs2).
Proof. exact repeat_idle. Qed.

(** C33: equal instances, so in particular equal outcomes on all slices. *)
Theorem planned_instances_ignore_history : forall (pf : nat -> fft T) c cs, not_mdct c ->
  returned_instance c (after pf cs) = returned_instance c (planner_new pf).
Proof. exact history_independent. Qed.
Theorem planned_mdct_ignores_history_up_to_windows : forall (pf : nat -> fft T) n w cs, fft_fits pf ->
  (forall w', In (CMdct n w') cs -> w' (n * 2) = w (n * 2)) ->
  returned_instance (CMdct n w) (after pf cs) = returned_instance (CMdct n w) (planner_new pf).
Proof. intros pf n w cs H. exact (mdct_history pf H n w cs). Qed.

(** C34, what does hold: the window is that of the first acceptable request. *)
Theorem planned_mdct_uses_the_first_acceptable_window : forall (pf : nat -> fft T) n w cs, fft_fits pf ->
  returned_instance (CMdct n w) (after pf cs) =
  returned_instance (CMdct n (window_in_force cs n w)) (planner_new pf).
Proof. intros pf n w cs H. exact (mdct_new_window pf H n w cs). Qed.

(** C35 *)
Theorem planner_panics_exactly : forall (pf : nat -> fft T) c cs, fft_fits pf ->
  (returned_arc c (after pf cs) = None <-> refuses cs c).
Proof. intros pf c cs H. exact (panics_exactly pf H c cs). Qed.
Theorem planner_recursion_terminates : forall (pf : nat -> fft T) c cs, fft_fits pf ->
  returned_instance c (after pf cs) <> Err EFuel.
Proof. intros pf c cs H. exact (returned_no_fuel pf H c cs). Qed.

(** C36 *)
Theorem panicking_plan_call_is_forgotten : forall (pf : nat -> fft T) cs c cs2 d, fft_fits pf ->
  returned_arc c (after pf cs) = None ->
  returned_instance d (after pf (cs ++ c :: cs2)) = returned_instance d (after pf (cs ++ cs2)).
Proof. intros pf cs c cs2 d H. exact (panic_forgotten pf H cs c cs2 d). Qed.
End AnyType.
Print Assumptions planned_instances_have_the_requested_length.
Print Assumptions planned_arcs_are_shared.
Print Assumptions planned_again_returns_an_arc.
Print Assumptions planning_again_changes_nothing.
Print Assumptions planned_instances_ignore_history.
Print Assumptions planned_mdct_ignores_history_up_to_windows.
Print Assumptions planned_mdct_uses_the_first_acceptable_window.
Print Assumptions planner_panics_exactly.
Print Assumptions planner_recursion_terminates.
Print Assumptions panicking_plan_call_is_forgotten.

(** A history with shared, distinct and refused requests. *)
Example history_case : let p := after reference_fft [CDct2 64; CDct1 1; CDst3 64] in
  returned_arc (CDct2 64) p = returned_arc (CDst3 64) p /\
  returned_arc (CDct2 64) p <> returned_arc (CDct2 32) p /\ returned_arc (CDct2 64) p <> None /\
  returned_arc (CDct1 1) p = None /\ returned_arc (CDst8 0) p = None.
Proof. repeat split; vm_compute; congruence. Qed.
