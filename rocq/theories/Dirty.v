(** The FFT based DST1, DST6 and DST7 read scratch cells they never wrote. *)
From Coq Require Import List Arith Lia Bool Reals Lra ZArith ZifyNat.
From Verif Require Import Prog Num Model_Common Model_Fft Model_Plan Model_Api Spec Spec_Api Spec_Fft Spec_Plan Spec_Methods
  Wp Api Sem_Naive Sem_Fft Sem_Fft2 Exact_Fft Contracts Objects Planner Canon Plan_Theorems Methods Trig Ref.
Import ListNotations.
Open Scope nat_scope.
Ltac Zify.zify_post_hook ::= Z.div_mod_to_equations.

Definition dirt (sl : nat) : list R := 1%R :: 1%R :: repeat 0%R (sl - 2).
Lemma dirt_length sl : 2 <= sl -> length (dirt sl) = sl.
Proof. intros H. unfold dirt. cbn [length]. rewrite repeat_length. lia. Qed.
Lemma at_dirt sl i : at_ (T:=R) (dirt sl) i = if i <? 2 then 1%R else 0%R.
Proof. unfold at_, dirt. destruct i as [|[|i]]; [reflexivity|reflexivity|]. cbn [nth]. apply nth_repeat. Qed.
Lemma at_zeros n i : at_ (T:=R) (repeat 0%R n) i = 0%R.
Proof. unfold at_. apply nth_repeat. Qed.

Lemma Dim_impulse L v k : 0 < L -> snd (v 0) = 1%R -> (forall j, 0 < j < L -> v j = (0, 0)%R) -> Dim L v k = 1%R.
Proof.
  intros HL H0 Hj. unfold Dim. rewrite (sum_single _ L 0 HL).
  - change (zn 0) with 0%Z. rewrite Z.mul_0_r, Z.mul_0_l, cz_0, sz_0 by lia. rewrite H0. lra.
  - intros i Hi Hi0. rewrite Hj by lia. cbn [fst snd]. lra.
Qed.
Lemma Dre_impulse L v k : 0 < L -> fst (v 0) = 1%R -> (forall j, 0 < j < L -> v j = (0, 0)%R) -> Dre L v k = 1%R.
Proof.
  intros HL H0 Hj. unfold Dre. rewrite (sum_single _ L 0 HL).
  - change (zn 0) with 0%Z. rewrite Z.mul_0_r, Z.mul_0_l, cz_0, sz_0 by lia. rewrite H0. lra.
  - intros i Hi Hi0. rewrite Hj by lia. cbn [fst snd]. lra.
Qed.

(** From the function of buffer and scratch that the method computes. *)
Lemma depends f n sl G : computes2 f n sl G -> 0 < n -> 2 <= sl ->
  G (repeat 0%R n) (dirt sl) 0 <> G (repeat 0%R n) (repeat 0%R sl) 0 -> depends_on_scratch f n sl.
Proof.
  intros Hc Hn Hs Hd. set (x := repeat 0%R n) in * .
  assert (Lx : length x = n) by apply repeat_length.
  destruct (computes2_call f n sl G x (dirt sl) Hc Lx) as (s1' & A & _); [rewrite dirt_length; lia|].
  destruct (computes2_call f n sl G x (repeat 0%R sl) Hc Lx) as (s2' & B & _); [rewrite repeat_length; lia|].
  rewrite firstn_all2 in A by (rewrite dirt_length; lia). rewrite firstn_all2 in B by (rewrite repeat_length; lia).
  exists x, (dirt sl), (repeat 0%R sl). do 4 eexists.
  split; [exact Lx|]. split; [apply dirt_length, Hs|]. split; [apply repeat_length|].
  split; [exact A|]. split; [exact B|]. intros E. apply Hd. apply (f_equal (fun l => nth 0 l 0%R)) in E.
  rewrite Lx in E. rewrite !nth_map_seq in E by exact Hn. exact E.
Qed.

Section Dirty.
Variable pf : nat -> fft R.
Hypothesis Hpf : fft_fits pf.
Hypothesis Hex : fft_all_exact pf.

Lemma dst1_dirty n : 25 <= n -> exists o, canon_dst1 pf n = Ok o /\ depends_on_scratch (x_run o) n (x_scratch o).
Proof.
  intros Hn. unfold canon_dst1. destruct (Nat.ltb_spec n 25); [lia|].
  set (f := pf ((n + 1) * 2)). assert (HL : fft_len f = (n + 1) * 2) by apply Hpf.
  assert (Hf : fft_exact f) by apply Hex.
  destruct (dst1_fft_new_ok pf Hpf ((n + 1) * 2)) as [d Ed]; [lia|lia|]. fold f in Ed. rewrite Ed. eexists. split; [reflexivity|].
  pose proof (sem_dst1_fft_ok f d Ed (fft_exact_clean f Hf)) as K. replace (fft_len f / 2 - 1) with n in K by lia.
  assert (Es : x_scratch (Dst1ConvertToFft_obj d) = 2 * (fft_len f + fft_scratch f)).
  { revert Ed. unfold Dst1ConvertToFft_new, rassert, rsub. destruct (_ =? 0); [|discriminate]. cbn [rbind].
    destruct (dir_eqb _ _); [|discriminate]. cbn [rbind]. destruct (1 <=? _); [|discriminate]. cbn [rbind].
    intros E. apply Ok_inj in E. subst d. reflexivity. }
  rewrite Es. apply (depends _ n _ _ K); [lia|lia|].
  unfold sem_dst1_fft. rewrite !fft_out_nth by (try assumption; lia). cbn [snd].
  rewrite (Dim_impulse _ (pre_dst1_fft n (repeat 0%R n) (dirt _))).
  - replace (Dim (fft_len f) (pre_dst1_fft n (repeat 0%R n) (repeat 0%R (2 * (fft_len f + fft_scratch f)))) (zn (2 * n + 1 - 0))) with 0%R.
    + change (mul (T:=R)) with Rmult. change (half (T:=R)) with (/ 2)%R. lra.
    + symmetry. apply sum_zero'. intros j Hj. unfold pre_dst1_fft, c_from. rewrite !at_zeros. change (neg (T:=R)) with Ropp. change (zero (T:=R)) with 0%R.
      destruct (j =? 0); [|destruct (j <? n + 1); [|destruct (j =? n + 1)]]; cbn [fst snd]; lra.
  - lia.
  - unfold pre_dst1_fft. cbn [Nat.eqb snd]. rewrite at_dirt. reflexivity.
  - intros j Hj. unfold pre_dst1_fft, c_from. rewrite !at_zeros, !at_dirt. change (neg (T:=R)) with Ropp. change (zero (T:=R)) with 0%R.
    destruct (Nat.eqb_spec j 0); [lia|]. destruct (j <? n + 1); [reflexivity|]. rewrite Ropp_0.
    destruct (j =? n + 1); [|reflexivity]. destruct (Nat.ltb_spec (2 * (n + 1)) 2); [lia|]. destruct (Nat.ltb_spec (2 * (n + 1) + 1) 2); [lia|]. reflexivity.
Qed.
Lemma s67_dirty n : 45 <= n -> exists o, canon_s67 pf n = Ok o /\
  depends_on_scratch (t_dst6 o) n (s67_scratch o) /\ depends_on_scratch (t_dst7 o) n (s67_scratch o).
Proof.
  intros Hn. unfold canon_s67. destruct (Nat.ltb_spec n 45); [lia|].
  set (f := pf (n * 2 + 1)). assert (HL : fft_len f = n * 2 + 1) by apply Hpf.
  assert (Hf : fft_exact f) by apply Hex.
  destruct (s67_fft_new_ok pf Hpf (n * 2 + 1)) as [d Ed]; [lia|]. fold f in Ed. rewrite Ed. eexists. split; [reflexivity|].
  apply Dst6And7ConvertToFft_new_inv in Ed. destruct Ed as [_ ->]. replace ((fft_len f - 1) / 2) with n by lia.
  assert (Z : forall z, z = repeat 0%R (2 * (fft_len f + fft_scratch f)) -> forall j,
      pre_dst6_fft (repeat 0%R n) z j = (0, 0)%R /\
      pre_dst7_fft (repeat 0%R n) z j = (if j =? 0 then (0, 0)%R else if j <? n + 1 then (-0, -0)%R else (0, 0)%R)).
  { intros z -> j. unfold pre_dst6_fft, pre_dst7_fft, up_dst7_fft, c_neg. cbv zeta. rewrite !at_zeros, repeat_length. split; [destruct (is_odd j); reflexivity|].
    destruct (j =? 0); [reflexivity|]. destruct (j <? n + 1); [destruct (_ <? _); reflexivity|destruct (_ <? _); reflexivity]. }
  split.
  - pose proof (sem_dst6_fft_ok f n ltac:(lia) (fft_exact_clean f Hf)) as K. apply (depends _ n _ _ K); [lia|cbn [s67_scratch]; lia|].
    unfold sem_dst6_fft. rewrite repeat_length. pose proof (post_dst6_pos_lt n 0 ltac:(lia)).
    rewrite !fft_out_nth by (try assumption; lia). cbn [fst].
    rewrite (Dre_impulse _ (pre_dst6_fft (repeat 0%R n) (dirt _))).
    + replace (Dre _ (pre_dst6_fft (repeat 0%R n) (repeat 0%R _)) _) with 0%R; [lra|].
      symmetry. apply sum_zero'. intros j Hj. rewrite (proj1 (Z _ eq_refl j)). cbn [fst snd]. lra.
    + lia.
    + unfold pre_dst6_fft. cbn [Nat.eqb fst]. rewrite at_dirt. reflexivity.
    + intros j Hj. unfold pre_dst6_fft. rewrite !at_zeros, !at_dirt. destruct (Nat.ltb_spec (2 * j) 2); [lia|]. destruct (Nat.ltb_spec (2 * j + 1) 2); [lia|].
      destruct (is_odd j); reflexivity.
  - pose proof (sem_dst7_fft_ok f n ltac:(lia) (fft_exact_clean f Hf)) as K. apply (depends _ n _ _ K); [lia|cbn [s67_scratch]; lia|].
    unfold sem_dst7_fft. rewrite !fft_out_nth by (try assumption; lia). cbn [snd].
    rewrite (Dim_impulse _ (pre_dst7_fft (repeat 0%R n) (dirt _))).
    + replace (Dim _ (pre_dst7_fft (repeat 0%R n) (repeat 0%R _)) _) with 0%R.
      * change (mul (T:=R)) with Rmult. change (half (T:=R)) with (/ 2)%R. lra.
      * symmetry. apply sum_zero'. intros j Hj. rewrite (proj2 (Z _ eq_refl j)). destruct (j =? 0); [|destruct (j <? n + 1)]; cbn [fst snd]; lra.
    + lia.
    + unfold pre_dst7_fft. cbn [Nat.eqb snd]. rewrite at_dirt. reflexivity.
    + intros j Hj. unfold pre_dst7_fft, up_dst7_fft, c_neg. cbv zeta. rewrite !at_zeros, repeat_length. destruct (Nat.eqb_spec j 0); [lia|].
      change (neg (T:=R)) with Ropp. change (zero (T:=R)) with 0%R.
      destruct (j <? n + 1); [|destruct (_ <? _); reflexivity]. destruct (_ <? _); cbn [fst snd]; rewrite Ropp_0; reflexivity.
Qed.

Lemma planned_dirty c cs : ~ clean c -> exists f sl, planned_method c (after pf cs) = Some (f, sl) /\ depends_on_scratch f (size c) sl.
Proof.
  intros Hc. destruct c as [n|n|n|n|n|n|n|n|n|n|n|n|n|n|n|n|n w]; cbn [clean planned_method size] in * ; try (exfalso; apply Hc; exact I);
    unfold plan_dst7.
  - eapply use_ex; [apply plan_dst1_ok|apply dst1_dirty; lia|]. auto.
  - eapply use_ex; [apply plan_dst6_ok|apply s67_dirty; lia|]. intros o [A B]. exact A.
  - eapply use_ex; [apply plan_dst6_ok|apply s67_dirty; lia|]. intros o [A B]. exact B.
Qed.
End Dirty.
