(** The MDCT implementations with the arithmetic of Model_Checked.v. *)
From Coq Require Import List Arith Bool Lia ZArith ZifyNat ZifyBool.
From Verif Require Import Prog Num Model_Common Model_Mdct Model_Plan Model_Checked Model_Checked_Mdct Checked_Eq.
Import ListNotations.
Ltac Zify.zify_post_hook ::= Z.div_mod_to_equations.

Section CheckedMdctEq.
Context {T F : Type} {N : Num T F}.
Variable B : build.
Variable MAX : nat.

(** ** Via DCT4 *)

Lemma MdctViaDct4_mdct_eq (d' d : t4 T) w scr : t4_follows B d' d ->
  meth4_follows B (MdctViaDct4_mdct (mkMdctDct4 d' w scr)) (MdctViaDct4_mdct (mkMdctDct4 d w scr)).
Proof.
  intros (H1 & _ & H2 & _) ia ib o s. unfold meth_follows in H2.
  unfold MdctViaDct4_mdct, MdctViaDct4_len. cbv zeta. cbn [md_dct md_window md_scratch]. rewrite H1. ck ltac:(lia).
Qed.
Lemma MdctViaDct4_imdct_eq (d' d : t4 T) w scr : t4_follows B d' d ->
  meth4_follows B (MdctViaDct4_imdct (mkMdctDct4 d' w scr)) (MdctViaDct4_imdct (mkMdctDct4 d w scr)).
Proof.
  intros (H1 & _ & H2 & _) i oa ob s. unfold meth_follows in H2.
  unfold MdctViaDct4_imdct, MdctViaDct4_len. cbv zeta. cbn [md_dct md_window md_scratch]. rewrite H1. ck ltac:(lia).
Qed.

Lemma MdctViaDct4_make_eq (d' d : t4 T) (w : nat -> list T) : t4_follows B d' d ->
  2 * t4_len d <= MAX -> t4_len d + t4_scratch d <= MAX ->
  res_follows B (mdct_follows B) (rmap MdctViaDct4_obj (MdctViaDct4_new_ck B MAX d' w))
    (rmap MdctViaDct4_obj (MdctViaDct4_new d w)).
Proof.
  intros Hd H H'. left.
  assert (Ld : t4_len d' = t4_len d) by apply Hd. assert (Sd : t4_scratch d' = t4_scratch d) by apply Hd.
  unfold MdctViaDct4_new_ck, MdctViaDct4_new. cbv zeta. rewrite Ld, Sd.
  unfold rassert. destruct (_ =? 0); [|reflexivity]. cbn [rbind].
  erewrite (rof_bind _ (t4_len d * 2)); [|ueval ltac:(lia)|cbv beta; reflexivity].
  erewrite (rof_bind _ (t4_len d * 2)); [|ueval ltac:(lia)|cbv beta; reflexivity].
  destruct (_ =? _); [|reflexivity]. cbn [rbind].
  erewrite (rof_bind _ (t4_len d + t4_scratch d)); [|ueval ltac:(lia)|cbv beta; reflexivity].
  cbn [rmap]. split; [exact Ld|]. split; [reflexivity|].
  split; [now apply MdctViaDct4_mdct_eq | now apply MdctViaDct4_imdct_eq].
Qed.

(** ** Naive *)

Lemma mn_advance_eq tw ti st : ti + st <= MAX -> follows B (mn_advance_ck B MAX tw ti st) (mn_advance (T := T) tw ti st).
Proof. intros H. unfold mn_advance_ck, mn_advance. ck ltac:(lia). Qed.

Lemma sq_bound n k : k < n -> k * (n + 1) <= (n - 1) * (n + 1).
Proof. intros H. apply Nat.mul_le_mono_r. lia. Qed.

Lemma MdctNaive_mdct_eq (self : mdct_naive T) :
  2 * length (mn_tw self) + 2 <= MAX ->
  MdctNaive_len self / 2 + (MdctNaive_len self - 1) * (MdctNaive_len self + 1) <= MAX ->
  meth4_follows B (MdctNaive_mdct_ck B MAX self) (MdctNaive_mdct self).
Proof.
  intros H H' ia ib o s. unfold MdctNaive_mdct_ck, MdctNaive_mdct. cbv zeta.
  apply validate_mdct_ext. intros La Lb Lo s' _. rewrite <- Lo in * .
  assert (Hn : 4 * slen o <= length (mn_tw self)) by (rewrite Lo; unfold MdctNaive_len; lia).
  clear Lo. remember (slen o) as n eqn:En. 
  apply for_range_ext. intros k Hk. pose proof (sq_bound n k (proj2 Hk)) as Hs. ckstep idtac. ckstep idtac.
  eapply ret_bind; [ueval ltac:(first [lia | nia])|cbv beta].
  apply bind_ext. intros ti.
  eapply ret_bind; [ueval ltac:(lia)|cbv beta].
  apply bind_ext2.
  - apply fold_range_ext. intros i t Hi. do 5 (ckstep idtac). apply mn_advance_eq. lia.
  - intros t1. apply bind_ext2; [|intros ?; apply follows_refl].
    apply fold_range_ext. intros i t Hi. do 3 (ckstep idtac).
    eapply ret_bind; [ueval ltac:(lia)|cbv beta]. do 2 (ckstep idtac). apply mn_advance_eq. lia.
Qed.

Lemma MdctNaive_imdct_eq (self : mdct_naive T) :
  2 * length (mn_tw self) + 2 <= MAX ->
  meth4_follows B (MdctNaive_imdct_ck B MAX self) (MdctNaive_imdct self).
Proof.
  intros H i oa ob s. unfold MdctNaive_imdct_ck, MdctNaive_imdct. cbv zeta.
  apply validate_mdct_ext. intros Li La Lb s' _.
  assert (Hn : 4 * slen i <= length (mn_tw self)) by (rewrite Li; unfold MdctNaive_len; lia).
  clear Li. remember (slen i) as n eqn:En.
  apply bind_ext2.
  - apply for_range_ext. intros k Hk.
    eapply ret_bind; [ueval ltac:(lia)|cbv beta]. eapply ret_bind; [ueval ltac:(lia)|cbv beta].
    apply bind_ext2; [|intros st; apply follows_refl].
    apply fold_range_ext. intros j [v t] Hj. do 2 (ckstep idtac).
    apply bind_ext2; [apply mn_advance_eq; lia | intros ?; apply follows_refl].
  - intros _. apply for_range_ext. intros k Hk.
    assert (E : exists kk, 2 * kk <= n - 1 /\ forall f g : nat -> prog T unit,
       (f kk) = (f kk) -> follows B (f kk) (g kk) ->
       follows B (bind (if k <? n / 2 then Ret k else j <- usub_ck B MAX n k ;; usub_ck B MAX j 1) f)
         (bind (if k <? n / 2 then Ret k else j <- usub n k ;; usub j 1) g)).
    { destruct (Nat.ltb_spec k (n / 2)).
      - exists k. split; [lia|]. intros f g _ Hf. exact Hf.
      - exists (n - k - 1). split; [lia|]. intros f g _ Hf. unfold usub_ck, usub.
        destruct (Nat.leb_spec k n); [|lia]. cbn [bind]. destruct (Nat.leb_spec 1 (n - k)); [|lia]. exact Hf. }
    destruct E as (kk & Hkk & E). apply E; [reflexivity|]. clear E.
    repeat (rewrite usub_ok by lia; cbn [bind]).
    eapply ret_bind; [ueval ltac:(lia)|cbv beta]. eapply ret_bind; [ueval ltac:(lia)|cbv beta].
    apply bind_ext2.
    + apply fold_range_ext. intros j [v t] Hj. do 2 (ckstep idtac).
      apply bind_ext2; [apply mn_advance_eq; lia | intros ?; apply follows_refl].
    + intros st. ckstep idtac. eapply ret_bind; [ueval ltac:(lia)|cbv beta]. apply follows_refl.
Qed.

End CheckedMdctEq.
