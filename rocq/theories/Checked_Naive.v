(** The naive algorithms with the arithmetic of Model_Checked.v. *)
From Coq Require Import List Arith Bool Lia ZArith ZifyNat.
From Verif Require Import Prog Num Model_Common Model_Naive Model_Plan Model_Checked Model_Checked_Naive Checked_Eq.
Import ListNotations.
Ltac Zify.zify_post_hook ::= Z.div_mod_to_equations.

Section CheckedNaiveEq.
Context {T F : Type} {N : Num T F}.
Variable B : build.
Variable MAX : nat.

Lemma Dct1Naive_dct1_eq (self : dct1_naive T) b s : 2 * length (dct1n_tw self) + 2 <= MAX -> 
  follows B (Dct1Naive_dct1_ck B MAX self b s) (Dct1Naive_dct1 self b s).
Proof. intros H. unfold Dct1Naive_dct1_ck, Dct1Naive_dct1, Dct1Naive_scratch_ck, Dct1Naive_len_ck, Dct1Naive_scratch, Dct1Naive_len. cbv zeta. ck ltac:(lia). Qed.

Lemma Dct1Naive_obj_eq (self : dct1_naive T) : 2 * length (dct1n_tw self) + 2 <= MAX -> 
  exists x, Dct1Naive_obj_ck B MAX self = Ok x /\ x_follows B x (Dct1Naive_obj self).
Proof.
  intros H. eexists. split.
  - unfold Dct1Naive_obj_ck, Dct1Naive_scratch_ck, Dct1Naive_len_ck, Dct1Naive_scratch, Dct1Naive_len. rck ltac:(lia).
  - do 2 (split; [reflexivity|]). repeat split; intros b s; [now apply Dct1Naive_dct1_eq].
Qed.

Lemma Dct1Naive_make_eq len : 8 * len + 8 <= MAX ->
  res_follows B (x_follows B) (rbind (Dct1Naive_new_ck B MAX len) (Dct1Naive_obj_ck B MAX)) (rmap Dct1Naive_obj (Dct1Naive_new len)).
Proof.
  intros H. destruct (Nat.eq_dec len 0) as [->|Hl].
  { destruct B; [left; reflexivity | right; split; reflexivity]. }
  assert (En : Dct1Naive_new_ck B MAX len = Dct1Naive_new len).
  { unfold Dct1Naive_new_ck, Dct1Naive_new. cbv zeta. apply rbind_ext2; [reflexivity|intros _ _].
    rewrite !rsub_ok by lia. cbn [rbind]. rck ltac:(lia). }
  left. rewrite En. destruct (Dct1Naive_new len) as [x|e] eqn:E; [|reflexivity]. cbn [rbind rmap].
  destruct (Dct1Naive_obj_eq x) as [x' [-> Hx]]; [|exact Hx].
  revert E. unfold Dct1Naive_new, rassert, rsub. cbv zeta.
  repeat (match goal with |- context [if ?c then _ else _] => destruct c eqn:? end; cbn [rbind]); try discriminate.
  intros [= <-]. cbn. rewrite map_length, seq_length. lia.
Qed.

Lemma Dst1Naive_dst1_eq (self : dst1_naive T) b s : 2 <= length (dst1n_tw self) -> 2 * length (dst1n_tw self) + 2 <= MAX -> 
  follows B (Dst1Naive_dst1_ck B MAX self b s) (Dst1Naive_dst1 self b s).
Proof. intros H0 H. unfold Dst1Naive_dst1_ck, Dst1Naive_dst1, Dst1Naive_scratch_ck, Dst1Naive_len_ck, Dst1Naive_scratch, Dst1Naive_len. cbv zeta. ck ltac:(lia). Qed.

Lemma Dst1Naive_obj_eq (self : dst1_naive T) : 2 <= length (dst1n_tw self) -> 2 * length (dst1n_tw self) + 2 <= MAX -> 
  exists x, Dst1Naive_obj_ck B MAX self = Ok x /\ x_follows B x (Dst1Naive_obj self).
Proof.
  intros H0 H. eexists. split.
  - unfold Dst1Naive_obj_ck, Dst1Naive_scratch_ck, Dst1Naive_len_ck, Dst1Naive_scratch, Dst1Naive_len. rck ltac:(lia).
  - do 2 (split; [reflexivity|]). repeat split; intros b s; [now apply Dst1Naive_dst1_eq].
Qed.

Lemma Dst1Naive_make_eq len : 8 * len + 8 <= MAX ->
  res_follows B (x_follows B) (rbind (Dst1Naive_new_ck B MAX len) (Dst1Naive_obj_ck B MAX)) (Ok (Dst1Naive_obj (Dst1Naive_new len))).
Proof.
  intros H. assert (En : Dst1Naive_new_ck B MAX len = Ok (Dst1Naive_new len)).
  { unfold Dst1Naive_new_ck, Dst1Naive_new. cbv zeta. rck ltac:(lia). }
  left. rewrite En. cbn [rbind].
  destruct (Dst1Naive_obj_eq (Dst1Naive_new len)) as [x' [-> Hx]]; [..|exact Hx]; cbn; rewrite map_length, seq_length; lia.
Qed.

Lemma Type2And3Naive_dct2_eq (self : t23_naive T) b s : 2 * length (t23n_tw self) + 2 <= MAX -> 
  follows B (Type2And3Naive_dct2_ck B MAX self b s) (Type2And3Naive_dct2 self b s).
Proof. intros H. unfold Type2And3Naive_dct2_ck, Type2And3Naive_dct2, Type2And3Naive_scratch_ck, Type2And3Naive_len_ck, Type2And3Naive_scratch, Type2And3Naive_len. cbv zeta. ck ltac:(lia). Qed.

Lemma Type2And3Naive_dct3_eq (self : t23_naive T) b s : 2 * length (t23n_tw self) + 2 <= MAX -> 
  follows B (Type2And3Naive_dct3_ck B MAX self b s) (Type2And3Naive_dct3 self b s).
Proof. intros H. unfold Type2And3Naive_dct3_ck, Type2And3Naive_dct3, Type2And3Naive_scratch_ck, Type2And3Naive_len_ck, Type2And3Naive_scratch, Type2And3Naive_len. cbv zeta. ck ltac:(lia). Qed.

Lemma Type2And3Naive_dst2_eq (self : t23_naive T) b s : 2 * length (t23n_tw self) + 2 <= MAX -> 
  follows B (Type2And3Naive_dst2_ck B MAX self b s) (Type2And3Naive_dst2 self b s).
Proof. intros H. unfold Type2And3Naive_dst2_ck, Type2And3Naive_dst2, Type2And3Naive_scratch_ck, Type2And3Naive_len_ck, Type2And3Naive_scratch, Type2And3Naive_len. cbv zeta. ck ltac:(lia). Qed.

Lemma Type2And3Naive_dst3_eq (self : t23_naive T) b s : 2 * length (t23n_tw self) + 2 <= MAX -> 
  follows B (Type2And3Naive_dst3_ck B MAX self b s) (Type2And3Naive_dst3 self b s).
Proof. intros H. unfold Type2And3Naive_dst3_ck, Type2And3Naive_dst3, Type2And3Naive_scratch_ck, Type2And3Naive_len_ck, Type2And3Naive_scratch, Type2And3Naive_len. cbv zeta. ck ltac:(lia). Qed.

Lemma Type2And3Naive_obj_eq (self : t23_naive T) : 2 * length (t23n_tw self) + 2 <= MAX -> 
  exists x, Type2And3Naive_obj_ck B MAX self = Ok x /\ t23_follows B x (Type2And3Naive_obj self).
Proof.
  intros H. eexists. split.
  - unfold Type2And3Naive_obj_ck, Type2And3Naive_scratch_ck, Type2And3Naive_len_ck, Type2And3Naive_scratch, Type2And3Naive_len. rck ltac:(lia).
  - do 2 (split; [reflexivity|]). repeat split; intros b s; [now apply Type2And3Naive_dct2_eq | now apply Type2And3Naive_dct3_eq | now apply Type2And3Naive_dst2_eq | now apply Type2And3Naive_dst3_eq].
Qed.

Lemma Type2And3Naive_make_eq len : 8 * len + 8 <= MAX ->
  res_follows B (t23_follows B) (rbind (Type2And3Naive_new_ck B MAX len) (Type2And3Naive_obj_ck B MAX)) (Ok (Type2And3Naive_obj (Type2And3Naive_new len))).
Proof.
  intros H. assert (En : Type2And3Naive_new_ck B MAX len = Ok (Type2And3Naive_new len)).
  { unfold Type2And3Naive_new_ck, Type2And3Naive_new. cbv zeta. rck ltac:(lia). }
  left. rewrite En. cbn [rbind].
  destruct (Type2And3Naive_obj_eq (Type2And3Naive_new len)) as [x' [-> Hx]]; [..|exact Hx]; cbn; rewrite map_length, seq_length; lia.
Qed.

Lemma Type4Naive_dct4_eq (self : t4_naive T) b s : 2 * length (t4n_tw self) + 2 <= MAX -> 
  follows B (Type4Naive_dct4_ck B MAX self b s) (Type4Naive_dct4 self b s).
Proof. intros H. unfold Type4Naive_dct4_ck, Type4Naive_dct4, Type4Naive_scratch_ck, Type4Naive_len_ck, Type4Naive_scratch, Type4Naive_len. cbv zeta. ck ltac:(lia). Qed.

Lemma Type4Naive_dst4_eq (self : t4_naive T) b s : 2 * length (t4n_tw self) + 2 <= MAX -> 
  follows B (Type4Naive_dst4_ck B MAX self b s) (Type4Naive_dst4 self b s).
Proof. intros H. unfold Type4Naive_dst4_ck, Type4Naive_dst4, Type4Naive_scratch_ck, Type4Naive_len_ck, Type4Naive_scratch, Type4Naive_len. cbv zeta. ck ltac:(lia). Qed.

Lemma Type4Naive_obj_eq (self : t4_naive T) : 2 * length (t4n_tw self) + 2 <= MAX -> 
  exists x, Type4Naive_obj_ck B MAX self = Ok x /\ t4_follows B x (Type4Naive_obj self).
Proof.
  intros H. eexists. split.
  - unfold Type4Naive_obj_ck, Type4Naive_scratch_ck, Type4Naive_len_ck, Type4Naive_scratch, Type4Naive_len. rck ltac:(lia).
  - do 2 (split; [reflexivity|]). repeat split; intros b s; [now apply Type4Naive_dct4_eq | now apply Type4Naive_dst4_eq].
Qed.

Lemma Type4Naive_make_eq len : 8 * len + 8 <= MAX ->
  res_follows B (t4_follows B) (rbind (Type4Naive_new_ck B MAX len) (Type4Naive_obj_ck B MAX)) (Ok (Type4Naive_obj (Type4Naive_new len))).
Proof.
  intros H. assert (En : Type4Naive_new_ck B MAX len = Ok (Type4Naive_new len)).
  { unfold Type4Naive_new_ck, Type4Naive_new. cbv zeta. rck ltac:(lia). }
  left. rewrite En. cbn [rbind].
  destruct (Type4Naive_obj_eq (Type4Naive_new len)) as [x' [-> Hx]]; [..|exact Hx]; cbn; rewrite map_length, seq_length; lia.
Qed.

Lemma Dct5Naive_dct5_eq (self : dct5_naive T) b s : 2 * length (dct5n_tw self) + 2 <= MAX -> 
  follows B (Dct5Naive_dct5_ck B MAX self b s) (Dct5Naive_dct5 self b s).
Proof. intros H. unfold Dct5Naive_dct5_ck, Dct5Naive_dct5, Dct5Naive_scratch_ck, Dct5Naive_len_ck, Dct5Naive_scratch, Dct5Naive_len. cbv zeta. ck ltac:(lia). Qed.

Lemma Dct5Naive_obj_eq (self : dct5_naive T) : 2 * length (dct5n_tw self) + 2 <= MAX -> 
  exists x, Dct5Naive_obj_ck B MAX self = Ok x /\ x_follows B x (Dct5Naive_obj self).
Proof.
  intros H. eexists. split.
  - unfold Dct5Naive_obj_ck, Dct5Naive_scratch_ck, Dct5Naive_len_ck, Dct5Naive_scratch, Dct5Naive_len. rck ltac:(lia).
  - do 2 (split; [reflexivity|]). repeat split; intros b s; [now apply Dct5Naive_dct5_eq].
Qed.

Lemma Dct5Naive_make_eq len : 8 * len + 8 <= MAX ->
  res_follows B (x_follows B) (rbind (Dct5Naive_new_ck B MAX len) (Dct5Naive_obj_ck B MAX)) (rmap Dct5Naive_obj (Dct5Naive_new len)).
Proof.
  intros H. destruct (Nat.eq_dec len 0) as [->|Hl].
  { destruct B; [left; reflexivity | right; split; reflexivity]. }
  assert (En : Dct5Naive_new_ck B MAX len = Dct5Naive_new len).
  { unfold Dct5Naive_new_ck, Dct5Naive_new. cbv zeta.
    rewrite !rsub_ok by lia. cbn [rbind]. rck ltac:(lia). }
  left. rewrite En. destruct (Dct5Naive_new len) as [x|e] eqn:E; [|reflexivity]. cbn [rbind rmap].
  destruct (Dct5Naive_obj_eq x) as [x' [-> Hx]]; [|exact Hx].
  revert E. unfold Dct5Naive_new, rassert, rsub. cbv zeta.
  repeat (match goal with |- context [if ?c then _ else _] => destruct c eqn:? end; cbn [rbind]); try discriminate.
  intros [= <-]. cbn. rewrite map_length, seq_length. lia.
Qed.

Lemma Dst5Naive_dst5_eq (self : dst5_naive T) b s : 1 <= length (dst5n_tw self) -> 2 * length (dst5n_tw self) + 2 <= MAX -> 
  follows B (Dst5Naive_dst5_ck B MAX self b s) (Dst5Naive_dst5 self b s).
Proof. intros H0 H. unfold Dst5Naive_dst5_ck, Dst5Naive_dst5, Dst5Naive_scratch_ck, Dst5Naive_len_ck, Dst5Naive_scratch, Dst5Naive_len. cbv zeta. ck ltac:(lia). Qed.

Lemma Dst5Naive_obj_eq (self : dst5_naive T) : 1 <= length (dst5n_tw self) -> 2 * length (dst5n_tw self) + 2 <= MAX -> 
  exists x, Dst5Naive_obj_ck B MAX self = Ok x /\ x_follows B x (Dst5Naive_obj self).
Proof.
  intros H0 H. eexists. split.
  - unfold Dst5Naive_obj_ck, Dst5Naive_scratch_ck, Dst5Naive_len_ck, Dst5Naive_scratch, Dst5Naive_len. rck ltac:(lia).
  - do 2 (split; [reflexivity|]). repeat split; intros b s; [now apply Dst5Naive_dst5_eq].
Qed.

Lemma Dst5Naive_make_eq len : 8 * len + 8 <= MAX ->
  res_follows B (x_follows B) (rbind (Dst5Naive_new_ck B MAX len) (Dst5Naive_obj_ck B MAX)) (Ok (Dst5Naive_obj (Dst5Naive_new len))).
Proof.
  intros H. assert (En : Dst5Naive_new_ck B MAX len = Ok (Dst5Naive_new len)).
  { unfold Dst5Naive_new_ck, Dst5Naive_new. cbv zeta. rck ltac:(lia). }
  left. rewrite En. cbn [rbind].
  destruct (Dst5Naive_obj_eq (Dst5Naive_new len)) as [x' [-> Hx]]; [..|exact Hx]; cbn; rewrite map_length, seq_length; lia.
Qed.

Lemma Dct6And7Naive_dct6_eq (self : c67_naive T) b s : 2 * length (c67n_tw self) + 2 <= MAX -> 
  follows B (Dct6And7Naive_dct6_ck B MAX self b s) (Dct6And7Naive_dct6 self b s).
Proof. intros H. unfold Dct6And7Naive_dct6_ck, Dct6And7Naive_dct6, Dct6And7Naive_scratch_ck, Dct6And7Naive_len_ck, Dct6And7Naive_scratch, Dct6And7Naive_len. cbv zeta. ck ltac:(lia). Qed.

Lemma Dct6And7Naive_dct7_eq (self : c67_naive T) b s : 2 * length (c67n_tw self) + 2 <= MAX -> 
  follows B (Dct6And7Naive_dct7_ck B MAX self b s) (Dct6And7Naive_dct7 self b s).
Proof. intros H. unfold Dct6And7Naive_dct7_ck, Dct6And7Naive_dct7, Dct6And7Naive_scratch_ck, Dct6And7Naive_len_ck, Dct6And7Naive_scratch, Dct6And7Naive_len. cbv zeta. ck ltac:(lia). Qed.

Lemma Dct6And7Naive_obj_eq (self : c67_naive T) : 2 * length (c67n_tw self) + 2 <= MAX -> 
  exists x, Dct6And7Naive_obj_ck B MAX self = Ok x /\ c67_follows B x (Dct6And7Naive_obj self).
Proof.
  intros H. eexists. split.
  - unfold Dct6And7Naive_obj_ck, Dct6And7Naive_scratch_ck, Dct6And7Naive_len_ck, Dct6And7Naive_scratch, Dct6And7Naive_len. rck ltac:(lia).
  - do 2 (split; [reflexivity|]). repeat split; intros b s; [now apply Dct6And7Naive_dct6_eq | now apply Dct6And7Naive_dct7_eq].
Qed.

Lemma Dct6And7Naive_make_eq len : 8 * len + 8 <= MAX ->
  res_follows B (c67_follows B) (rbind (Dct6And7Naive_new_ck B MAX len) (Dct6And7Naive_obj_ck B MAX)) (rmap Dct6And7Naive_obj (Dct6And7Naive_new len)).
Proof.
  intros H. destruct (Nat.eq_dec len 0) as [->|Hl].
  { destruct B; [left; reflexivity | right; split; reflexivity]. }
  assert (En : Dct6And7Naive_new_ck B MAX len = Dct6And7Naive_new len).
  { unfold Dct6And7Naive_new_ck, Dct6And7Naive_new. cbv zeta.
    rewrite !rsub_ok by lia. cbn [rbind]. rck ltac:(lia). }
  left. rewrite En. destruct (Dct6And7Naive_new len) as [x|e] eqn:E; [|reflexivity]. cbn [rbind rmap].
  destruct (Dct6And7Naive_obj_eq x) as [x' [-> Hx]]; [|exact Hx].
  revert E. unfold Dct6And7Naive_new, rassert, rsub. cbv zeta.
  repeat (match goal with |- context [if ?c then _ else _] => destruct c eqn:? end; cbn [rbind]); try discriminate.
  intros [= <-]. cbn. rewrite map_length, seq_length. lia.
Qed.

Lemma Dst6And7Naive_dst6_eq (self : s67_naive T) b s : 2 <= length (s67n_tw self) -> 2 * length (s67n_tw self) + 2 <= MAX -> 
  follows B (Dst6And7Naive_dst6_ck B MAX self b s) (Dst6And7Naive_dst6 self b s).
Proof. intros H0 H. unfold Dst6And7Naive_dst6_ck, Dst6And7Naive_dst6, Dst6And7Naive_scratch_ck, Dst6And7Naive_len_ck, Dst6And7Naive_scratch, Dst6And7Naive_len. cbv zeta. ck ltac:(lia). Qed.

Lemma Dst6And7Naive_dst7_eq (self : s67_naive T) b s : 2 <= length (s67n_tw self) -> 2 * length (s67n_tw self) + 2 <= MAX -> 
  follows B (Dst6And7Naive_dst7_ck B MAX self b s) (Dst6And7Naive_dst7 self b s).
Proof. intros H0 H. unfold Dst6And7Naive_dst7_ck, Dst6And7Naive_dst7, Dst6And7Naive_scratch_ck, Dst6And7Naive_len_ck, Dst6And7Naive_scratch, Dst6And7Naive_len. cbv zeta. ck ltac:(lia). Qed.

Lemma Dst6And7Naive_obj_eq (self : s67_naive T) : 2 <= length (s67n_tw self) -> 2 * length (s67n_tw self) + 2 <= MAX -> 
  exists x, Dst6And7Naive_obj_ck B MAX self = Ok x /\ s67_follows B x (Dst6And7Naive_obj self).
Proof.
  intros H0 H. eexists. split.
  - unfold Dst6And7Naive_obj_ck, Dst6And7Naive_scratch_ck, Dst6And7Naive_len_ck, Dst6And7Naive_scratch, Dst6And7Naive_len. rck ltac:(lia).
  - do 2 (split; [reflexivity|]). repeat split; intros b s; [now apply Dst6And7Naive_dst6_eq | now apply Dst6And7Naive_dst7_eq].
Qed.

Lemma Dst6And7Naive_make_eq len : 8 * len + 8 <= MAX ->
  res_follows B (s67_follows B) (rbind (Dst6And7Naive_new_ck B MAX len) (Dst6And7Naive_obj_ck B MAX)) (Ok (Dst6And7Naive_obj (Dst6And7Naive_new len))).
Proof.
  intros H. assert (En : Dst6And7Naive_new_ck B MAX len = Ok (Dst6And7Naive_new len)).
  { unfold Dst6And7Naive_new_ck, Dst6And7Naive_new. cbv zeta. rck ltac:(lia). }
  left. rewrite En. cbn [rbind].
  destruct (Dst6And7Naive_obj_eq (Dst6And7Naive_new len)) as [x' [-> Hx]]; [..|exact Hx]; cbn; rewrite map_length, seq_length; lia.
Qed.

Lemma Dct8Naive_dct8_eq (self : dct8_naive T) b s : 2 <= length (dct8n_tw self) -> 2 * length (dct8n_tw self) + 2 <= MAX -> 
  follows B (Dct8Naive_dct8_ck B MAX self b s) (Dct8Naive_dct8 self b s).
Proof. intros H0 H. unfold Dct8Naive_dct8_ck, Dct8Naive_dct8, Dct8Naive_scratch_ck, Dct8Naive_len_ck, Dct8Naive_scratch, Dct8Naive_len. cbv zeta. ck ltac:(lia). Qed.

Lemma Dct8Naive_obj_eq (self : dct8_naive T) : 2 <= length (dct8n_tw self) -> 2 * length (dct8n_tw self) + 2 <= MAX -> 
  exists x, Dct8Naive_obj_ck B MAX self = Ok x /\ x_follows B x (Dct8Naive_obj self).
Proof.
  intros H0 H. eexists. split.
  - unfold Dct8Naive_obj_ck, Dct8Naive_scratch_ck, Dct8Naive_len_ck, Dct8Naive_scratch, Dct8Naive_len. rck ltac:(lia).
  - do 2 (split; [reflexivity|]). repeat split; intros b s; [now apply Dct8Naive_dct8_eq].
Qed.

Lemma Dct8Naive_make_eq len : 8 * len + 8 <= MAX ->
  res_follows B (x_follows B) (rbind (Dct8Naive_new_ck B MAX len) (Dct8Naive_obj_ck B MAX)) (Ok (Dct8Naive_obj (Dct8Naive_new len))).
Proof.
  intros H. assert (En : Dct8Naive_new_ck B MAX len = Ok (Dct8Naive_new len)).
  { unfold Dct8Naive_new_ck, Dct8Naive_new. cbv zeta. rck ltac:(lia). }
  left. rewrite En. cbn [rbind].
  destruct (Dct8Naive_obj_eq (Dct8Naive_new len)) as [x' [-> Hx]]; [..|exact Hx]; cbn; rewrite map_length, seq_length; lia.
Qed.

Lemma Dst8Naive_dst8_eq (self : dst8_naive T) b s : 2 * length (dst8n_tw self) + 2 <= MAX -> 
  follows B (Dst8Naive_dst8_ck B MAX self b s) (Dst8Naive_dst8 self b s).
Proof. intros H. unfold Dst8Naive_dst8_ck, Dst8Naive_dst8, Dst8Naive_scratch_ck, Dst8Naive_len_ck, Dst8Naive_scratch, Dst8Naive_len. cbv zeta. ck ltac:(lia). Qed.

Lemma Dst8Naive_obj_eq (self : dst8_naive T) : 2 * length (dst8n_tw self) + 2 <= MAX -> 
  exists x, Dst8Naive_obj_ck B MAX self = Ok x /\ x_follows B x (Dst8Naive_obj self).
Proof.
  intros H. eexists. split.
  - unfold Dst8Naive_obj_ck, Dst8Naive_scratch_ck, Dst8Naive_len_ck, Dst8Naive_scratch, Dst8Naive_len. rck ltac:(lia).
  - do 2 (split; [reflexivity|]). repeat split; intros b s; [now apply Dst8Naive_dst8_eq].
Qed.

Lemma Dst8Naive_make_eq len : 8 * len + 8 <= MAX ->
  res_follows B (x_follows B) (rbind (Dst8Naive_new_ck B MAX len) (Dst8Naive_obj_ck B MAX)) (rmap Dst8Naive_obj (Dst8Naive_new len)).
Proof.
  intros H. destruct (Nat.eq_dec len 0) as [->|Hl].
  { destruct B; [left; reflexivity | right; split; reflexivity]. }
  assert (En : Dst8Naive_new_ck B MAX len = Dst8Naive_new len).
  { unfold Dst8Naive_new_ck, Dst8Naive_new. cbv zeta.
    rewrite !rsub_ok by lia. cbn [rbind]. rck ltac:(lia). }
  left. rewrite En. destruct (Dst8Naive_new len) as [x|e] eqn:E; [|reflexivity]. cbn [rbind rmap].
  destruct (Dst8Naive_obj_eq x) as [x' [-> Hx]]; [|exact Hx].
  revert E. unfold Dst8Naive_new, rassert, rsub. cbv zeta.
  repeat (match goal with |- context [if ?c then _ else _] => destruct c eqn:? end; cbn [rbind]); try discriminate.
  intros [= <-]. cbn. rewrite map_length, seq_length. lia.
Qed.

End CheckedNaiveEq.
