(** Which cells a call touches, in which order, and whether it panics, does not depend on
    the data: C53. For every numeric type and every FFT, correct or not. *)
From Coq Require Import List Arith Lia Bool Reals Lra.
From Verif Require Import Prog Num Model_Common Model_Naive Model_Fft Model_Butterflies Model_SplitRadix Model_Mdct Model_Plan
  Model_Api Spec Spec_Api Spec_Fft Spec_Plan Spec_Methods Spec_Memory Spec_Build Spec_Trace Wp Exact_Fft Methods
  Build_Conf Build_Plan Oblivious.
Import ListNotations.
Open Scope nat_scope.

(** C53: for every instance that can be built, and slices of any length at any place. *)
Theorem calls_are_oblivious : forall {T F} {N : Num T F} (j : job (T:=T)), built_job j -> oblivious (program j).
Proof. intros T F N. exact job_oblivious. Qed.
Print Assumptions calls_are_oblivious.

(** The same for what a planner returns after any history. *)
Theorem planned_calls_are_oblivious : forall {T F} {N : Num T F} (pf : nat -> fft T) cs c f sl, fft_fits pf ->
  planned_method c (after pf cs) = Some (f, sl) -> forall b s, oblivious (f b s).
Proof. intros T F N pf cs c f sl Hpf H. exact (planned_oblivious pf Hpf cs c f sl H). Qed.
Print Assumptions planned_calls_are_oblivious.
Theorem planned_mdct_calls_are_oblivious : forall {T F} {N : Num T F} (pf : nat -> fft T) cs n w a, fft_fits pf ->
  snd (plan_mdct n w (after pf cs)) = Ok a -> forall x y z s,
  oblivious (t_mdct (arc_val a) x y z s) /\ oblivious (t_imdct (arc_val a) x y z s).
Proof. intros T F N pf cs n w a Hpf H. exact (planned_mdct_oblivious pf Hpf cs n w a H). Qed.
Print Assumptions planned_mdct_calls_are_oblivious.

(** Whether and how a call panics is decided by the slices alone. *)
Theorem calls_end_alike : forall {T F} {N : Num T F} (j : job (T:=T)), built_job j -> forall m1 m2,
  (forall e, (exists m, run (program j) m1 = Panicked e m) <-> (exists m, run (program j) m2 = Panicked e m)) /\
  ((exists m, run (program j) m1 = Done tt m) <-> (exists m, run (program j) m2 = Done tt m)).
Proof. intros T F N. exact job_ends_alike. Qed.
Print Assumptions calls_end_alike.

(** A call with its accesses; a call that panics; and the definition tells programs apart. *)
Example calls_are_oblivious_case :
  built_job (Transform (t_dst2 (Type2And3Butterfly2_obj (T:=R))) (mkS 10 2) (mkS 20 0)) /\
  (forall m, trace (t_dst2 (Type2And3Butterfly2_obj (T:=R)) (mkS 10 2) (mkS 20 0)) m =
    [Reads 10; Reads 11; Reads 10; Reads 11; Writes 11; Writes 10; Returns]) /\
  (forall m, trace (t_dst2 (Type2And3Butterfly2_obj (T:=R)) (mkS 10 3) (mkS 20 0)) m = [Panicking EBufLen]).
Proof.
  split; [|split; reflexivity].
  exists (CDst2 2), 0. exists Type2And3Butterfly2_obj. split; [constructor|]. repeat split.
Qed.
Example some_programs_are_not_oblivious :
  ~ oblivious (bind (rd (T:=bool) (mkS 0 2) 0) (fun x => if x then wr (mkS 0 2) 1 true else Ret tt)) /\
  ~ oblivious (bind (rd (T:=bool) (mkS 0 2) 0) (fun x => if x then Panic EAssert else Ret tt)).
Proof. split; intros H; specialize (H (fun _ => true) (fun _ => false)); discriminate H. Qed.
Example planned_calls_are_oblivious_case : exists f sl,
  planned_method (CDct3 64) (after reference_fft [CDct2 32]) = Some (f, sl) /\
  forall m1 m2, trace (f (mkS 0 64) (mkS 64 sl)) m1 = trace (f (mkS 0 64) (mkS 64 sl)) m2.
Proof.
  destruct (planned_good reference_fft (proj1 reference_fft_fits)
    (fun n => fft_exact_clean _ (proj2 reference_fft_fits n)) (CDct3 64) [CDct2 32] ltac:(cbn; lia)) as (f & sl & E & _).
  exists f, sl. split; [exact E|]. apply (planned_calls_are_oblivious _ _ _ _ _ (proj1 reference_fft_fits) E).
Qed.
