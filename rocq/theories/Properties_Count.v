(** How many instances the planner creates: C54. For every numeric type and FFT planner. *)
From Coq Require Import List Arith Lia Bool Reals.
From Verif Require Import Prog Num Model_Common Model_Naive Model_Fft Model_Butterflies Model_SplitRadix Model_Mdct Model_Plan
  Spec Spec_Api Spec_Fft Spec_Plan Spec_Methods Spec_Count Exact_Fft Planner_Count.
Import ListNotations.
Open Scope nat_scope.

(** C54: one call on any planner whatsoever creates no more instances than it would need
    on a new one, so at most about the logarithm of the length; without the cache the
    recursion of [plan_dct2] would create a number that grows like a power of the length. *)
Theorem planning_creates_few : forall {T F} {N : Num T F} (c : pcall T) (p : planner T),
  instances p <= instances (exec c p) <= instances p + chain c.
Proof. intros T F N. exact instances_bounded. Qed.
Print Assumptions planning_creates_few.
Theorem planning_is_logarithmic : forall {T F} {N : Num T F} (c : pcall T) (p : planner T),
  instances (exec c p) <= instances p + 3 + Nat.log2 (snd (request c)).
Proof. intros T F N. exact planning_log. Qed.
Print Assumptions planning_is_logarithmic.

(** On a new planner it is exactly that number, unless the call panics. *)
Theorem planning_anew_creates_exactly : forall {T F} {N : Num T F} (pf : nat -> fft T) (c : pcall T),
  returned_arc c (planner_new pf) <> None -> instances (exec c (planner_new pf)) = chain c.
Proof. intros T F N. exact new_counts. Qed.
Print Assumptions planning_anew_creates_exactly.

(** After any history, every instance ever created is what some request returns. *)
Theorem no_instance_is_wasted : forall {T F} {N : Num T F} (pf : nat -> fft T) cs i,
  i < instances (after pf cs) -> exists c, returned_arc c (after pf cs) = Some i.
Proof. intros T F N. exact nothing_wasted. Qed.
Print Assumptions no_instance_is_wasted.

(** A DCT4 of length 2^11 on a new planner: itself and the sizes 2^10 to 2^3. *)
Example planning_case :
  chain (T:=R) (CDct2 (2 ^ 10)) = 8 /\ chain (T:=R) (CDct4 (2 ^ 11)) = 9 /\ chain (T:=R) (CDct2 16) = 1 /\ chain (T:=R) (CDct2 1000) = 1 /\
  instances (exec (CDct4 (2 ^ 7)) (planner_new reference_fft)) = 5.
Proof.
  split; [reflexivity|]. split; [reflexivity|]. split; [reflexivity|]. split; [reflexivity|].
  rewrite planning_anew_creates_exactly; [reflexivity|]. cbv. discriminate.
Qed.
