(** C44: the naive structs compute their defining sums, for every legal length. *)
From Coq Require Import List Reals Lia.
From Verif Require Import Prog Num Model_Common Model_Naive Model_Api Spec Spec_Api Naive_Objects.
Import ListNotations.
Open Scope nat_scope.

Theorem naive_dct1_meets_definition : forall n, 2 <= n ->
  exists d, Dct1Naive_new n = Ok d /\ correct_x (Dct1Naive_obj d) n dct1.
Proof. exact Dct1Naive_correct. Qed.
Print Assumptions naive_dct1_meets_definition.

Theorem naive_dst1_meets_definition : forall n, correct_x (Dst1Naive_obj (Dst1Naive_new n)) n dst1.
Proof. exact Dst1Naive_correct. Qed.
Print Assumptions naive_dst1_meets_definition.

Theorem naive_type2and3_meets_definition : forall n, 1 <= n ->
  correct_t23 (Type2And3Naive_obj (Type2And3Naive_new n)) n.
Proof. exact Type2And3Naive_correct. Qed.
Print Assumptions naive_type2and3_meets_definition.

Theorem naive_type4_meets_definition : forall n, correct_t4 (Type4Naive_obj (Type4Naive_new n)) n.
Proof. exact Type4Naive_correct. Qed.
Print Assumptions naive_type4_meets_definition.

Theorem naive_dct5_meets_definition : forall n, 1 <= n ->
  exists d, Dct5Naive_new n = Ok d /\ correct_x (Dct5Naive_obj d) n dct5.
Proof. exact Dct5Naive_correct. Qed.
Print Assumptions naive_dct5_meets_definition.

Theorem naive_dst5_meets_definition : forall n, correct_x (Dst5Naive_obj (Dst5Naive_new n)) n dst5.
Proof. exact Dst5Naive_correct. Qed.
Print Assumptions naive_dst5_meets_definition.

Theorem naive_dct6and7_meets_definition : forall n, 1 <= n ->
  exists d, Dct6And7Naive_new n = Ok d /\ correct_c67 (Dct6And7Naive_obj d) n.
Proof. exact Dct6And7Naive_correct. Qed.
Print Assumptions naive_dct6and7_meets_definition.

Theorem naive_dst6and7_meets_definition : forall n,
  correct_s67 (Dst6And7Naive_obj (Dst6And7Naive_new n)) n.
Proof. exact Dst6And7Naive_correct. Qed.
Print Assumptions naive_dst6and7_meets_definition.

Theorem naive_dct8_meets_definition : forall n, correct_x (Dct8Naive_obj (Dct8Naive_new n)) n dct8.
Proof. exact Dct8Naive_correct. Qed.
Print Assumptions naive_dct8_meets_definition.

Theorem naive_dst8_meets_definition : forall n, 1 <= n ->
  exists d, Dst8Naive_new n = Ok d /\ correct_x (Dst8Naive_obj d) n dst8.
Proof. exact Dst8Naive_correct. Qed.
Print Assumptions naive_dst8_meets_definition.

(** A case: the naive DCT2 of three samples, with dirty scratch one cell too long. *)
Example naive_dct2_of_three :
  exists s', call (t_dct2 (Type2And3Naive_obj (Type2And3Naive_new 3))) [1; 2; 3]%R [7; 7; 7; 9]%R
             = Returned (dct2 [1; 2; 3]%R, s') /\ skipn 3 s' = [9%R].
Proof.
  destruct (naive_type2and3_meets_definition 3 ltac:(lia)) as (_ & H & _).
  change (t23_scratch (Type2And3Naive_obj (Type2And3Naive_new 3))) with 3 in H.
  destruct (H [1; 2; 3]%R [7; 7; 7; 9]%R eq_refl ltac:(simpl; lia)) as (s' & A & _ & B).
  exists s'. split; [exact A|exact B].
Qed.
