(** Cost of all planned transforms (C63), for every numeric type. *)
From Coq Require Import List Arith Lia Bool Reals.
From Verif Require Import Prog Num Model_Common Model_Mdct Model_Plan
  Model_Api Spec Spec_Api Spec_Fft Spec_Plan Spec_Methods Spec_Memory Spec_Cost Cost_All Methods.
Import ListNotations.
Open Scope nat_scope.

(** C63: whatever was planned before, whatever the scratch and the memory, a planned
    transform makes at most [budget] reads and writes of single cells of its buffer and
    scratch: n log n of them for types 2, 3 and 4 of power-of-two length, and otherwise a
    linear number besides one or two FFTs, except for the six types that have only the
    quadratic algorithm. *)
Theorem planned_transform_cost : forall {T F} {N : Num T F} (pf : nat -> fft T), fft_fits pf -> forall cs c, legal c ->
  exists f sl, planned_method c (after pf cs) = Some (f, sl) /\
  forall m b s, slen b = size c -> accesses (f b s) m <= budget pf c.
Proof. intros T F N. exact planned_budget. Qed.
Print Assumptions planned_transform_cost.
Example planned_transform_cost_case : exists f sl,
  planned_method (CDct4 64) (after reference_fft [CDct3 32; CDst4 64]) = Some (f, sl) /\
  accesses (f (mkS 0 64) (mkS 64 64)) (fun _ => 0%R) <= 2048.
Proof.
  destruct (planned_transform_cost reference_fft (proj1 reference_fft_fits) [CDct3 32; CDst4 64] (CDct4 64) I) as (f & sl & E & H).
  exists f, sl. split; [exact E|]. exact (H _ (mkS 0 64) _ eq_refl).
Qed.
Example planned_transform_cost_fft_case : exists f sl,
  planned_method (CDst7 100) (after reference_fft []) = Some (f, sl) /\
  accesses (f (mkS 0 100) (mkS 100 402)) (fun _ => 0%R) <= 160 * 100 + 4 * fft_scratch (reference_fft 201).
Proof.
  destruct (planned_transform_cost reference_fft (proj1 reference_fft_fits) [] (CDst7 100) I) as (f & sl & E & H).
  exists f, sl. split; [exact E|]. exact (H _ (mkS 0 100) _ eq_refl).
Qed.

(** C63: the same for both directions of a planned MDCT of even length. *)
Theorem planned_mdct_cost : forall {T F} {N : Num T F} (pf : nat -> fft T), fft_fits pf -> forall cs n w,
  n mod 2 = 0 -> length (window_in_force cs n w (n * 2)) = n * 2 ->
  exists a, snd (plan_mdct n w (after pf cs)) = Ok a /\ forall m x y z s, slen x = n ->
    accesses (t_mdct (arc_val a) x y z s) m <= budget pf (CMdct n w) /\
    accesses (t_imdct (arc_val a) x y z s) m <= budget pf (CMdct n w).
Proof. intros T F N. exact planned_mdct_budget. Qed.
Print Assumptions planned_mdct_cost.
Example planned_mdct_cost_case : exists a,
  snd (plan_mdct 32 (window_mp3 (T:=R)) (after reference_fft [CMdct 8 (window_one (T:=R))])) = Ok a /\
  accesses (t_mdct (arc_val a) (mkS 0 32) (mkS 32 32) (mkS 64 32) (mkS 96 64)) (fun _ => 0%R) <= 1152.
Proof.
  destruct (planned_mdct_cost reference_fft (proj1 reference_fft_fits) [CMdct 8 (window_one (T:=R))] 32 (window_mp3 (T:=R))) as (a & E & H);
    [reflexivity|reflexivity|].
  exists a. split; [exact E|]. exact (proj1 (H _ (mkS 0 32) _ _ _ eq_refl)).
Qed.
