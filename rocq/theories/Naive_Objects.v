(** The naive structs as instances of the transform traits. *)
From Coq Require Import List Arith Lia Bool Reals ZArith ZifyNat.
From Verif Require Import Prog Num Model_Common Model_Naive Model_Api Spec Spec_Api Wp Api Sem_Naive Exact_Naive.
Import ListNotations.
Open Scope nat_scope.
Ltac Zify.zify_post_hook ::= Z.div_mod_to_equations.

Ltac naive_len := rewrite map_length, seq_length; lia.

Section Lens.
Context {T F : Type} {N : Num T F}.

Lemma Type2And3Naive_len_new n : Type2And3Naive_len (Type2And3Naive_new (T:=T) n) = n.
Proof. unfold Type2And3Naive_len, Type2And3Naive_new. cbn [t23n_tw]. naive_len. Qed.
Lemma Type4Naive_len_new n : Type4Naive_len (Type4Naive_new (T:=T) n) = n.
Proof. unfold Type4Naive_len, Type4Naive_new. cbn [t4n_tw]. naive_len. Qed.
Lemma Dst1Naive_len_new n : Dst1Naive_len (Dst1Naive_new (T:=T) n) = n.
Proof. unfold Dst1Naive_len, Dst1Naive_new. cbn [dst1n_tw]. naive_len. Qed.
Lemma Dct8Naive_len_new n : Dct8Naive_len (Dct8Naive_new (T:=T) n) = n.
Proof. unfold Dct8Naive_len, Dct8Naive_new. cbn [dct8n_tw]. naive_len. Qed.
Lemma Dst5Naive_len_new n : Dst5Naive_len (Dst5Naive_new (T:=T) n) = n.
Proof. unfold Dst5Naive_len, Dst5Naive_new. cbn [dst5n_tw]. naive_len. Qed.
Lemma Dst6And7Naive_len_new n : Dst6And7Naive_len (Dst6And7Naive_new (T:=T) n) = n.
Proof. unfold Dst6And7Naive_len, Dst6And7Naive_new. cbn [s67n_tw]. naive_len. Qed.
End Lens.

Lemma computes_transform (p : meth R) n sl t :
  computes p n sl t -> implements p n sl (transform t).
Proof. apply computes_implements. Qed.

Lemma Type2And3Naive_correct n : 1 <= n -> correct_t23 (Type2And3Naive_obj (Type2And3Naive_new n)) n.
Proof.
  intros Hn. unfold correct_t23, Type2And3Naive_obj. cbn [t23_len t23_scratch t_dct2 t_dct3 t_dst2 t_dst3].
  unfold Type2And3Naive_scratch. rewrite Type2And3Naive_len_new.
  repeat split; apply computes_transform.
  - apply dct2_naive_computes. - apply dst2_naive_computes.
  - apply dct3_naive_computes, Hn. - apply dst3_naive_computes, Hn.
Qed.
Lemma Type4Naive_correct n : correct_t4 (Type4Naive_obj (Type4Naive_new n)) n.
Proof.
  unfold correct_t4, Type4Naive_obj. cbn [t4_len t4_scratch t_dct4 t_dst4].
  unfold Type4Naive_scratch. rewrite Type4Naive_len_new.
  repeat split; apply computes_transform; [apply dct4_naive_computes|apply dst4_naive_computes].
Qed.
Lemma Dst1Naive_correct n : correct_x (Dst1Naive_obj (Dst1Naive_new n)) n dst1.
Proof.
  unfold correct_x, Dst1Naive_obj. cbn [x_len x_scratch x_run].
  unfold Dst1Naive_scratch. rewrite Dst1Naive_len_new. split; [reflexivity|].
  apply computes_transform, dst1_naive_computes.
Qed.
Lemma Dst5Naive_correct n : correct_x (Dst5Naive_obj (Dst5Naive_new n)) n dst5.
Proof.
  unfold correct_x, Dst5Naive_obj. cbn [x_len x_scratch x_run].
  unfold Dst5Naive_scratch. rewrite Dst5Naive_len_new. split; [reflexivity|].
  apply computes_transform, dst5_naive_computes.
Qed.
Lemma Dct8Naive_correct n : correct_x (Dct8Naive_obj (Dct8Naive_new n)) n dct8.
Proof.
  unfold correct_x, Dct8Naive_obj. cbn [x_len x_scratch x_run].
  unfold Dct8Naive_scratch. rewrite Dct8Naive_len_new. split; [reflexivity|].
  apply computes_transform, dct8_naive_computes.
Qed.
Lemma Dst6And7Naive_correct n : correct_s67 (Dst6And7Naive_obj (Dst6And7Naive_new n)) n.
Proof.
  unfold correct_s67, Dst6And7Naive_obj. cbn [s67_len s67_scratch t_dst6 t_dst7].
  unfold Dst6And7Naive_scratch. rewrite Dst6And7Naive_len_new.
  repeat split; apply computes_transform; [apply dst6_naive_computes|apply dst7_naive_computes].
Qed.

Lemma Dct1Naive_len_new {T F} {N : Num T F} n d : Dct1Naive_new (T:=T) n = Ok d -> Dct1Naive_len d = n.
Proof.
  unfold Dct1Naive_new, rassert, rsub. destruct (Nat.eqb_spec n 1); [discriminate|].
  cbn [negb rbind]. destruct (Nat.leb_spec 1 n); [|discriminate]. cbn [rbind]. intros E. apply Ok_inj in E. subst d.
  unfold Dct1Naive_len. cbn [dct1n_tw]. naive_len.
Qed.
Lemma Dct5Naive_len_new {T F} {N : Num T F} n d : Dct5Naive_new (T:=T) n = Ok d -> Dct5Naive_len d = n.
Proof.
  unfold Dct5Naive_new, rsub. destruct (Nat.leb_spec 1 (n * 2)); [|discriminate]. cbn [rbind].
  intros E. apply Ok_inj in E. subst d.
  unfold Dct5Naive_len. cbn [dct5n_tw]. naive_len.
Qed.
Lemma Dct6And7Naive_len_new {T F} {N : Num T F} n d : Dct6And7Naive_new (T:=T) n = Ok d -> Dct6And7Naive_len d = n.
Proof.
  unfold Dct6And7Naive_new, rsub. destruct (Nat.leb_spec 1 (n * 2)); [|discriminate]. cbn [rbind].
  destruct (Nat.leb_spec 2 (n * 4)); [|discriminate]. cbn [rbind].
  intros E. apply Ok_inj in E. subst d.
  unfold Dct6And7Naive_len. cbn [c67n_tw]. naive_len.
Qed.
Lemma Dst8Naive_len_new {T F} {N : Num T F} n d : Dst8Naive_new (T:=T) n = Ok d -> Dst8Naive_len d = n.
Proof.
  unfold Dst8Naive_new, rsub. destruct (Nat.leb_spec 1 (n * 2)); [|discriminate]. cbn [rbind].
  destruct (Nat.leb_spec 2 (n * 4)); [|discriminate]. cbn [rbind].
  intros E. apply Ok_inj in E. subst d.
  unfold Dst8Naive_len. cbn [dst8n_tw]. naive_len.
Qed.

Lemma Dct1Naive_correct n : 2 <= n ->
  exists d, Dct1Naive_new n = Ok d /\ correct_x (Dct1Naive_obj d) n dct1.
Proof.
  intros Hn. eexists. split; [apply Dct1Naive_new_ok, Hn|].
  unfold correct_x, Dct1Naive_obj. cbn [x_len x_scratch x_run]. unfold Dct1Naive_scratch.
  rewrite (Dct1Naive_len_new n) by (apply Dct1Naive_new_ok, Hn). split; [reflexivity|].
  apply computes_transform, dct1_naive_computes; [exact Hn|apply Dct1Naive_new_ok, Hn].
Qed.
Lemma Dct5Naive_correct n : 1 <= n ->
  exists d, Dct5Naive_new n = Ok d /\ correct_x (Dct5Naive_obj d) n dct5.
Proof.
  intros Hn. eexists. split; [apply Dct5Naive_new_ok, Hn|].
  unfold correct_x, Dct5Naive_obj. cbn [x_len x_scratch x_run]. unfold Dct5Naive_scratch.
  rewrite (Dct5Naive_len_new n) by (apply Dct5Naive_new_ok, Hn). split; [reflexivity|].
  apply computes_transform, dct5_naive_computes; [exact Hn|apply Dct5Naive_new_ok, Hn].
Qed.
Lemma Dst8Naive_correct n : 1 <= n ->
  exists d, Dst8Naive_new n = Ok d /\ correct_x (Dst8Naive_obj d) n dst8.
Proof.
  intros Hn. eexists. split; [apply Dst8Naive_new_ok, Hn|].
  unfold correct_x, Dst8Naive_obj. cbn [x_len x_scratch x_run]. unfold Dst8Naive_scratch.
  rewrite (Dst8Naive_len_new n) by (apply Dst8Naive_new_ok, Hn). split; [reflexivity|].
  apply computes_transform, dst8_naive_computes; [exact Hn|apply Dst8Naive_new_ok, Hn].
Qed.
Lemma Dct6And7Naive_correct n : 1 <= n ->
  exists d, Dct6And7Naive_new n = Ok d /\ correct_c67 (Dct6And7Naive_obj d) n.
Proof.
  intros Hn. eexists. split; [apply Dct6And7Naive_new_ok, Hn|].
  unfold correct_c67, Dct6And7Naive_obj. cbn [c67_len c67_scratch t_dct6 t_dct7]. unfold Dct6And7Naive_scratch.
  rewrite (Dct6And7Naive_len_new n) by (apply Dct6And7Naive_new_ok, Hn).
  repeat split; apply computes_transform; [apply dct6_naive_computes|apply dct7_naive_computes];
    try exact Hn; apply Dct6And7Naive_new_ok, Hn.
Qed.
