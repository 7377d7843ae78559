(** The conversions to an FFT with the arithmetic of Model_Checked.v. *)
From Coq Require Import List Arith Bool Lia ZArith ZifyNat ZifyBool.
From Verif Require Import Prog Num Model_Common Model_Fft Model_Plan Model_Checked Model_Checked_Fft Checked_Eq.
Import ListNotations.
Ltac Zify.zify_post_hook ::= Z.div_mod_to_equations.

Section CheckedFftEq.
Context {T F : Type} {N : Num T F}.
Variable B : build.
Variable MAX : nat.

Lemma Type2And3ConvertToFft_dct2_eq (self : t23_fft T) b s : 4 * (length (t23f_tw self)) + 8 <= MAX -> 
  follows B (Type2And3ConvertToFft_dct2_ck B MAX self b s) (Type2And3ConvertToFft_dct2 self b s).
Proof. intros H. unfold Type2And3ConvertToFft_dct2_ck, Type2And3ConvertToFft_dct2, Type2And3ConvertToFft_len. cbv zeta. ck ltac:(cbn [clen slen] in *; lia). Qed.

Lemma Type2And3ConvertToFft_dct3_eq (self : t23_fft T) b s : 4 * (length (t23f_tw self)) + 8 <= MAX -> 
  follows B (Type2And3ConvertToFft_dct3_ck B MAX self b s) (Type2And3ConvertToFft_dct3 self b s).
Proof. intros H. unfold Type2And3ConvertToFft_dct3_ck, Type2And3ConvertToFft_dct3, Type2And3ConvertToFft_len. cbv zeta. ck ltac:(cbn [clen slen] in *; lia). Qed.

Lemma Type2And3ConvertToFft_dst2_eq (self : t23_fft T) b s : 4 * (length (t23f_tw self)) + 8 <= MAX -> 
  follows B (Type2And3ConvertToFft_dst2_ck B MAX self b s) (Type2And3ConvertToFft_dst2 self b s).
Proof. intros H. unfold Type2And3ConvertToFft_dst2_ck, Type2And3ConvertToFft_dst2, Type2And3ConvertToFft_len. cbv zeta. ck ltac:(cbn [clen slen] in *; lia). Qed.

Lemma Type2And3ConvertToFft_dst3_eq (self : t23_fft T) b s : 4 * (length (t23f_tw self)) + 8 <= MAX -> 
  follows B (Type2And3ConvertToFft_dst3_ck B MAX self b s) (Type2And3ConvertToFft_dst3 self b s).
Proof. intros H. unfold Type2And3ConvertToFft_dst3_ck, Type2And3ConvertToFft_dst3, Type2And3ConvertToFft_len. cbv zeta. ck ltac:(cbn [clen slen] in *; lia). Qed.

Lemma Type2And3ConvertToFft_obj_eq (self : t23_fft T) : 4 * (length (t23f_tw self)) + 8 <= MAX -> 
  t23_follows B (Type2And3ConvertToFft_obj_ck B MAX self) (Type2And3ConvertToFft_obj self).
Proof.
  intros H. unfold t23_follows, Type2And3ConvertToFft_obj_ck, Type2And3ConvertToFft_obj. cbn [t23_len t23_scratch t_dct2 t_dct3 t_dst2 t_dst3].
  do 2 (split; [reflexivity|]). repeat split; intros b s; [now apply Type2And3ConvertToFft_dct2_eq | now apply Type2And3ConvertToFft_dct3_eq | now apply Type2And3ConvertToFft_dst2_eq | now apply Type2And3ConvertToFft_dst3_eq].
Qed.

Lemma Type4ConvertToFftOdd_dct4_eq (self : t4_fft T) b s : 4 * (t4f_len self) + 8 <= MAX -> 
  follows B (Type4ConvertToFftOdd_dct4_ck B MAX self b s) (Type4ConvertToFftOdd_dct4 self b s).
Proof. intros H. unfold Type4ConvertToFftOdd_dct4_ck, Type4ConvertToFftOdd_dct4. cbv zeta. ck ltac:(cbn [clen slen] in *; lia). Qed.

Lemma Type4ConvertToFftOdd_dst4_eq (self : t4_fft T) b s : 4 * (t4f_len self) + 8 <= MAX -> 
  follows B (Type4ConvertToFftOdd_dst4_ck B MAX self b s) (Type4ConvertToFftOdd_dst4 self b s).
Proof. intros H. unfold Type4ConvertToFftOdd_dst4_ck, Type4ConvertToFftOdd_dst4. cbv zeta. ck ltac:(cbn [clen slen] in *; lia). Qed.

Lemma Type4ConvertToFftOdd_obj_eq (self : t4_fft T) : 4 * (t4f_len self) + 8 <= MAX -> 
  t4_follows B (Type4ConvertToFftOdd_obj_ck B MAX self) (Type4ConvertToFftOdd_obj self).
Proof.
  intros H. unfold t4_follows, Type4ConvertToFftOdd_obj_ck, Type4ConvertToFftOdd_obj. cbn [t4_len t4_scratch t_dct4 t_dst4].
  do 2 (split; [reflexivity|]). repeat split; intros b s; [now apply Type4ConvertToFftOdd_dct4_eq | now apply Type4ConvertToFftOdd_dst4_eq].
Qed.

Lemma Dst6And7ConvertToFft_dst6_eq (self : s67_fft T) b s : 4 * (s67f_len self) + 8 <= MAX -> 
  follows B (Dst6And7ConvertToFft_dst6_ck B MAX self b s) (Dst6And7ConvertToFft_dst6 self b s).
Proof. intros H. unfold Dst6And7ConvertToFft_dst6_ck, Dst6And7ConvertToFft_dst6. cbv zeta. ck ltac:(cbn [clen slen] in *; lia). Qed.

Lemma Dst6And7ConvertToFft_dst7_eq (self : s67_fft T) b s : 4 * (s67f_len self) + 8 <= MAX -> 
  follows B (Dst6And7ConvertToFft_dst7_ck B MAX self b s) (Dst6And7ConvertToFft_dst7 self b s).
Proof. intros H. unfold Dst6And7ConvertToFft_dst7_ck, Dst6And7ConvertToFft_dst7. cbv zeta. ck ltac:(cbn [clen slen] in *; lia). Qed.

Lemma Dst6And7ConvertToFft_obj_eq (self : s67_fft T) : 4 * (s67f_len self) + 8 <= MAX -> 
  s67_follows B (Dst6And7ConvertToFft_obj_ck B MAX self) (Dst6And7ConvertToFft_obj self).
Proof.
  intros H. unfold s67_follows, Dst6And7ConvertToFft_obj_ck, Dst6And7ConvertToFft_obj. cbn [s67_len s67_scratch t_dst6 t_dst7].
  do 2 (split; [reflexivity|]). repeat split; intros b s; [now apply Dst6And7ConvertToFft_dst6_eq | now apply Dst6And7ConvertToFft_dst7_eq].
Qed.

Lemma Dct1ConvertToFft_make_eq (f : fft T) : 2 * (fft_len f + fft_scratch f) + 1 <= MAX ->
  res_follows B (x_follows B) (rmap Dct1ConvertToFft_obj (Dct1ConvertToFft_new_ck B MAX f))
    (rmap Dct1ConvertToFft_obj (Dct1ConvertToFft_new f)).
Proof.
  intros H. assert (E : Dct1ConvertToFft_new_ck B MAX f = Dct1ConvertToFft_new f).
  { unfold Dct1ConvertToFft_new_ck, Dct1ConvertToFft_new. cbv zeta. rck ltac:(lia). }
  left. rewrite E. clear E. destruct (Dct1ConvertToFft_new f) as [x|e]; [|reflexivity].
  cbn [rmap]. repeat split. intros b s. apply follows_refl.
Qed.

Lemma Dst1ConvertToFft_make_eq (f : fft T) : 2 * (fft_len f + fft_scratch f) + 1 <= MAX ->
  res_follows B (x_follows B) (rmap Dst1ConvertToFft_obj (Dst1ConvertToFft_new_ck B MAX f))
    (rmap Dst1ConvertToFft_obj (Dst1ConvertToFft_new f)).
Proof.
  intros H. assert (E : Dst1ConvertToFft_new_ck B MAX f = Dst1ConvertToFft_new f \/
    (B = Release /\ Dst1ConvertToFft_new f = Err EOverflow)).
  { unfold Dst1ConvertToFft_new_ck, Dst1ConvertToFft_new. cbv zeta. unfold rassert.
    destruct (fft_len f mod 2 =? 0); [|left; reflexivity]. cbn [rbind].
    destruct (dir_eqb _ _); [|left; reflexivity]. cbn [rbind].
    destruct (Nat.le_gt_cases 1 (fft_len f / 2)) as [Hl|Hl].
    - left. rewrite rsub_ok by exact Hl. rck ltac:(lia).
    - unfold rsub, ulift, usub_ck. cbn [bind]. destruct (Nat.leb_spec 1 (fft_len f / 2)); [lia|].
      unfold overflow. destruct B; [left | right]; auto. }
  destruct E as [E|[E1 E2]].
  - left. rewrite E. clear E. destruct (Dst1ConvertToFft_new f) as [x|e]; [|reflexivity].
    cbn [rmap]. repeat split. intros b s. apply follows_refl.
  - right. rewrite E2. auto.
Qed.

Lemma Type2And3ConvertToFft_make_eq (f : fft T) :
  2 * (fft_len f + fft_scratch f) + 1 <= MAX -> 4 * fft_len f + 8 <= MAX ->
  res_follows B (t23_follows B) (rmap (Type2And3ConvertToFft_obj_ck B MAX) (Type2And3ConvertToFft_new_ck B MAX f))
    (rmap Type2And3ConvertToFft_obj (Type2And3ConvertToFft_new f)).
Proof.
  intros H H'. assert (E : Type2And3ConvertToFft_new_ck B MAX f = Type2And3ConvertToFft_new f).
  { unfold Type2And3ConvertToFft_new_ck, Type2And3ConvertToFft_new. cbv zeta. rck ltac:(lia). }
  left. rewrite E. clear E. destruct (Type2And3ConvertToFft_new f) as [x|e] eqn:E; [|cbn [rmap]; reflexivity].
  cbn [rmap]. apply Type2And3ConvertToFft_obj_eq. revert E. unfold Type2And3ConvertToFft_new, rassert, rsub. cbv zeta.
  repeat (match goal with |- context [if ?c then _ else _] => destruct c end; cbn [rbind]); try discriminate.
  intros [= <-]. cbn [t23f_tw]. rewrite map_length, seq_length. lia.
Qed.

Lemma Type4ConvertToFftOdd_make_eq (f : fft T) :
  2 * (fft_len f + fft_scratch f) + 1 <= MAX -> 4 * fft_len f + 8 <= MAX ->
  res_follows B (t4_follows B) (rmap (Type4ConvertToFftOdd_obj_ck B MAX) (Type4ConvertToFftOdd_new_ck B MAX f))
    (rmap Type4ConvertToFftOdd_obj (Type4ConvertToFftOdd_new f)).
Proof.
  intros H H'. assert (E : Type4ConvertToFftOdd_new_ck B MAX f = Type4ConvertToFftOdd_new f).
  { unfold Type4ConvertToFftOdd_new_ck, Type4ConvertToFftOdd_new. cbv zeta. rck ltac:(lia). }
  left. rewrite E. clear E. destruct (Type4ConvertToFftOdd_new f) as [x|e] eqn:E; [|cbn [rmap]; reflexivity].
  cbn [rmap]. apply Type4ConvertToFftOdd_obj_eq. revert E. unfold Type4ConvertToFftOdd_new, rassert, rsub. cbv zeta.
  repeat (match goal with |- context [if ?c then _ else _] => destruct c end; cbn [rbind]); try discriminate.
  intros [= <-]. exact H'.
Qed.

Lemma Dst6And7ConvertToFft_make_eq (f : fft T) :
  2 * (fft_len f + fft_scratch f) + 1 <= MAX -> 4 * fft_len f + 8 <= MAX ->
  res_follows B (s67_follows B) (rmap (Dst6And7ConvertToFft_obj_ck B MAX) (Dst6And7ConvertToFft_new_ck B MAX f))
    (rmap Dst6And7ConvertToFft_obj (Dst6And7ConvertToFft_new f)).
Proof.
  intros H H'. assert (E : Dst6And7ConvertToFft_new_ck B MAX f = Dst6And7ConvertToFft_new f).
  { unfold Dst6And7ConvertToFft_new_ck, Dst6And7ConvertToFft_new. cbv zeta.
    unfold rassert. destruct (Nat.eqb_spec (fft_len f mod 2) 1); [|reflexivity]. cbn [rbind].
    destruct (dir_eqb _ _); [|reflexivity]. cbn [rbind].
    rewrite rsub_ok by lia. rck ltac:(lia). }
  left. rewrite E. clear E. destruct (Dst6And7ConvertToFft_new f) as [x|e] eqn:E; [|cbn [rmap]; reflexivity].
  cbn [rmap]. apply Dst6And7ConvertToFft_obj_eq. revert E. unfold Dst6And7ConvertToFft_new, rassert, rsub. cbv zeta.
  repeat (match goal with |- context [if ?c then _ else _] => destruct c end; cbn [rbind]); try discriminate.
  intros [= <-]. cbn [s67f_len].
  match goal with |- 4 * ?d + 8 <= _ => change d with ((fft_len f - 1) / 2) end. lia.
Qed.

End CheckedFftEq.
