(** Cost of the planned power-of-two transforms (C46), for every numeric type. *)
From Coq Require Import List Arith Lia Bool Reals.
From Verif Require Import Prog Num Model_Common Model_Naive Model_Fft Model_Butterflies Model_SplitRadix Model_Mdct Model_Plan
  Model_Api Spec Spec_Api Spec_Fft Spec_Plan Spec_Methods Spec_Memory Spec_Build Cost Methods.
Import ListNotations.
Open Scope nat_scope.

(** C46: whatever was planned before, whatever the scratch and the memory, a planned
    DCT2, DCT3, DST2 or DST3 of size 2^k makes at most 6 * 2^k * (k + 1) reads and writes
    of single cells of its buffer and scratch. *)
Theorem power_of_two_cost : forall {T F} {N : Num T F} (pf : nat -> fft T), fft_fits pf -> forall cs k c, 1 <= k ->
  In c [CDct2 (2 ^ k); CDct3 (2 ^ k); CDst2 (2 ^ k); CDst3 (2 ^ k)] -> exists f sl,
  planned_method c (after pf cs) = Some (f, sl) /\
  forall m b s, slen b = 2 ^ k -> accesses (f b s) m <= 6 * 2 ^ k * (k + 1).
Proof. intros T F N. exact planned_cost. Qed.
Print Assumptions power_of_two_cost.
Example power_of_two_cost_case : exists f sl,
  planned_method (CDct3 (2 ^ 5)) (after reference_fft [CDct2 7]) = Some (f, sl) /\
  accesses (f (mkS 0 32) (mkS 32 32)) (fun _ => 0%R) <= 1152.
Proof.
  destruct (power_of_two_cost reference_fft (proj1 reference_fft_fits) [CDct2 7] 5 (CDct3 (2 ^ 5))) as (f & sl & E & H); [lia|cbn; auto|].
  exists f, sl. split; [exact E|]. apply (H _ (mkS 0 32)). reflexivity.
Qed.
