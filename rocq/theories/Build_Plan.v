(** What the planner returns is one of the instances that can be built. *)
From Coq Require Import List Arith Lia Bool ZArith ZifyNat Reals Lra.
From Verif Require Import Prog Num Model_Common Model_Naive Model_Fft Model_Butterflies Model_SplitRadix
  Model_Mdct Model_Plan Model_Api Spec Spec_Api Spec_Fft Spec_Plan Spec_Methods Spec_Memory Spec_Build
  Wp Api Contracts Naive_Objects Objects Planner Planner_Ids Canon Plan_Theorems Confine Confine_Meth Interleave Build_Conf Build_Reject.
Import ListNotations.
Open Scope nat_scope.
Ltac Zify.zify_post_hook ::= Z.div_mod_to_equations.

Section Plan.
Context {T F : Type} {N : Num T F}.
Variable pf : nat -> fft T.
Hypothesis Hpf : fft_fits pf.
Notation from_planner := (planned_fft pf).

Lemma canon23_built n : exists o, canon23 pf n = Ok o /\ built23 from_planner roomy o /\ t23_len o = n.
Proof.
  destruct (canon23_ind pf Hpf (fun o k => built23 from_planner roomy o /\ t23_len o = k)) with (n := n) as (o & A & B & _).
  - intros o k H; apply H.
  - split; [constructor|reflexivity]. - split; [constructor|reflexivity]. - split; [constructor|reflexivity].
  - split; [constructor|reflexivity]. - split; [constructor|reflexivity].
  - intros k d E. split; [econstructor; [exists k; reflexivity|exact E]|].
    apply Sem_Fft.Type2And3ConvertToFft_new_inv in E. subst d. cbn. unfold Type2And3ConvertToFft_len. cbn.
    rewrite map_length, seq_length. apply Hpf.
  - intros h q d k E [Bh Lh] [Bq Lq] Sh Sq. split.
    + econstructor; [exact Bh|exact Bq| |exact E]. unfold roomy. lia.
    + apply Type2And3SplitRadix_new_inv in E. destruct E as (_ & _ & ->).
      cbn. unfold Type2And3SplitRadix_len. cbn. rewrite map_length, seq_length. lia.
  - exists o. split; [exact A|exact B].
Qed.
Lemma canon4_built n : exists o, canon4 pf n = Ok o /\ built4 from_planner roomy o.
Proof.
  apply (canon4_ind pf Hpf (fun o k => built23 from_planner roomy o) (fun o k => built4 from_planner roomy o)).
  - intros k. destruct (canon23_built k) as (o & A & B & _). eauto.
  - constructor.
  - intros i k Hi _. constructor. exact Hi.
  - intros k d E. econstructor; [exists k; reflexivity|exact E].
Qed.
Lemma canon_dct1_built n o : canon_dct1 pf n = Ok o -> built_dct1 from_planner o.
Proof.
  unfold canon_dct1. destruct (n <? 10).
  - destruct (Dct1Naive_new n) eqn:E; [|discriminate]. intros X. apply Ok_inj in X. subst o. econstructor. exact E.
  - destruct (Dct1ConvertToFft_new _) eqn:E; [|discriminate]. intros X. apply Ok_inj in X. subst o. econstructor; [eexists; reflexivity|exact E].
Qed.
Lemma canon_dst1_built n o : canon_dst1 pf n = Ok o -> built_dst1 from_planner o.
Proof.
  unfold canon_dst1. destruct (n <? 25).
  - intros X. apply Ok_inj in X. subst o. econstructor.
  - destruct (Dst1ConvertToFft_new _) eqn:E; [|discriminate]. intros X. apply Ok_inj in X. subst o. econstructor; [eexists; reflexivity|exact E].
Qed.
Lemma canon_s67_built n o : canon_s67 pf n = Ok o -> built_s67 from_planner o.
Proof.
  unfold canon_s67. destruct (n <? 45).
  - intros X. apply Ok_inj in X. subst o. econstructor.
  - destruct (Dst6And7ConvertToFft_new _) eqn:E; [|discriminate]. intros X. apply Ok_inj in X. subst o. econstructor; [eexists; reflexivity|exact E].
Qed.
Lemma canon_dct5_built n o : canon_dct5 n = Ok o -> built_dct5 o.
Proof. unfold canon_dct5. destruct (Dct5Naive_new n) eqn:E; [|discriminate]. intros X. apply Ok_inj in X. subst o. econstructor. exact E. Qed.
Lemma canon_c67_built n o : canon_c67 n = Ok o -> built_c67 o.
Proof. unfold canon_c67. destruct (Dct6And7Naive_new n) eqn:E; [|discriminate]. intros X. apply Ok_inj in X. subst o. econstructor. exact E. Qed.
Lemma canon_dst8_built n o : canon_dst8 n = Ok o -> built_dst8 o.
Proof. unfold canon_dst8. destruct (Dst8Naive_new n) eqn:E; [|discriminate]. intros X. apply Ok_inj in X. subst o. econstructor. exact E. Qed.
Lemma canon_dct8_built n o : canon_dct8 n = Ok o -> built_dct8 o.
Proof. intros X. apply Ok_inj in X. subst o. constructor. Qed.
Lemma canon_dst5_built n o : canon_dst5 n = Ok o -> built_dst5 o.
Proof. intros X. apply Ok_inj in X. subst o. constructor. Qed.
Lemma canon23_built' n o : canon23 pf n = Ok o -> built23 from_planner roomy o.
Proof. destruct (canon23_built n) as (o' & -> & B & _). intros X. apply Ok_inj in X. subst o'. exact B. Qed.
Lemma canon4_built' n o : canon4 pf n = Ok o -> built4 from_planner roomy o.
Proof. destruct (canon4_built n) as (o' & -> & B). intros X. apply Ok_inj in X. subst o'. exact B. Qed.

Lemma use_built {A} (m : PM (arc A)) (r : result A) cs (k : A -> instance (T:=T)) (run : A -> meth T) (sc : A -> nat) f sl (B : A -> Prop) (len : A -> nat) n :
  plans pf (fun _ _ => True) m (eq r) -> (forall o, r = Ok o -> B o) ->
  (forall i, value_of k (snd (m (after pf cs))) = Ok i -> instance_len i = n) -> (forall o, instance_len (k o) = len o) ->
  use (T:=T) run sc (snd (m (after pf cs))) = Some (f, sl) -> is_method B len sc run n f sl.
Proof.
  intros H HB HL Hk. pose proof (planned pf m r cs H) as E. destruct (snd (m (after pf cs))) as [a|e]; [|discriminate].
  cbn [use]. intros X. injection X as <- <-. exists (arc_val a). split; [apply HB; rewrite <- E; reflexivity|].
  split; [rewrite <- Hk; apply HL; reflexivity|]. auto.
Qed.

Lemma planned_built c cs f sl : planned_method c (after pf cs) = Some (f, sl) -> built_method from_planner roomy c f sl.
Proof.
  pose proof (planned_len pf Hpf c cs) as L. destruct c as [n|n|n|n|n|n|n|n|n|n|n|n|n|n|n|n|n w]; cbn [planned_method built_method returned_instance request snd] in * ; try discriminate;
    unfold plan_dct3, plan_dst2, plan_dst3, plan_dst4, plan_dct7, plan_dst7 in * ;
    (eapply use_built; [| |exact L|intros o; reflexivity]).
  - apply plan_dct1_ok. - apply canon_dct1_built.
  - apply plan_dct2_ok. - apply canon23_built'.
  - apply plan_dct2_ok. - apply canon23_built'.
  - apply plan_dct4_ok. - apply canon4_built'.
  - apply plan_dct5_ok. - apply canon_dct5_built.
  - apply plan_dct6_ok. - apply canon_c67_built.
  - apply plan_dct6_ok. - apply canon_c67_built.
  - apply plan_dct8_ok. - apply canon_dct8_built.
  - apply plan_dst1_ok. - apply canon_dst1_built.
  - apply plan_dct2_ok. - apply canon23_built'.
  - apply plan_dct2_ok. - apply canon23_built'.
  - apply plan_dct4_ok. - apply canon4_built'.
  - apply plan_dst5_ok. - apply canon_dst5_built.
  - apply plan_dst6_ok. - apply canon_s67_built.
  - apply plan_dst6_ok. - apply canon_s67_built.
  - apply plan_dst8_ok. - apply canon_dst8_built.
Qed.
Lemma planned_mdct_built n w cs a : snd (plan_mdct n w (after pf cs)) = Ok a ->
  built_mdct from_planner roomy (arc_val a) /\ m_len (arc_val a) = n.
Proof.
  intros E. split; [|apply (planned_len pf Hpf (CMdct n w) cs (IM (arc_val a))); cbn [returned_instance]; rewrite E; reflexivity].
  destruct (mdct_some_window pf n w cs) as (w' & _ & H). cbn [returned_instance canon_of] in H. rewrite E in H. cbn [value_of] in H.
  unfold canon_mdct in H. destruct (canon4_built n) as (i & Ei & Bi). rewrite Ei in H. cbn [rbind] in H.
  destruct (MdctViaDct4_new i w') as [d|e] eqn:Ed; [|discriminate]. cbn [rmap] in H. apply Ok_inj in H. injection H as ->.
  econstructor; [exact Bi|exact Ed].
Qed.

(** From length 32 the powers of two are planned as split radix. *)
Lemma canon23_split k : 5 <= k -> exists h q d, Type2And3SplitRadix_new h q = Ok d /\ canon23 pf (2 ^ k) = Ok (Type2And3SplitRadix_obj d).
Proof.
  intros Hk. destruct (canon23_built (2 ^ k)) as (o & E & _). rewrite E. revert E. rewrite canon23_eq. unfold canon23_step.
  assert (H32 : 32 <= 2 ^ k) by (change 32 with (2 ^ 5); apply Nat.pow_le_mono_r; lia).
  replace (existsb (Nat.eqb (2 ^ k)) DCT2_BUTTERFLIES) with false.
  2: { symmetry. unfold DCT2_BUTTERFLIES. cbn [existsb]. rewrite !orb_false_iff, !Nat.eqb_neq. repeat split; lia. }
  replace (is_power_of_two (2 ^ k)) with true by (symmetry; apply is_pow2_iff; eauto).
  replace (2 <? 2 ^ k) with true by (symmetry; apply Nat.ltb_lt; lia). cbn [andb].
  destruct (canon23 pf (2 ^ k / 2)) as [h|]; [|discriminate]. destruct (canon23 pf (2 ^ k / 4)) as [q|]; [|discriminate]. cbn [rbind].
  destruct (Type2And3SplitRadix_new h q) as [d|] eqn:Ed; [|discriminate]. cbn [rmap]. intros X. apply Ok_inj in X. subst o. eauto.
Qed.
Lemma planned_split k cs : 5 <= k -> exists h q d, Type2And3SplitRadix_new h q = Ok d /\ Type2And3SplitRadix_len d = 2 ^ k /\
  planned_method (CDst2 (2 ^ k)) (after pf cs) = Some (Type2And3SplitRadix_dst2 d, 2 ^ k) /\
  planned_method (CDst3 (2 ^ k)) (after pf cs) = Some (Type2And3SplitRadix_dst3 d, 2 ^ k).
Proof.
  intros Hk. destruct (canon23_split k Hk) as (h & q & d & Ed & E). exists h, q, d. split; [exact Ed|].
  assert (L : Type2And3SplitRadix_len d = 2 ^ k).
  { destruct (canon23_built (2 ^ k)) as (o & E' & _ & L). rewrite E in E'. apply Ok_inj in E'. subst o. exact L. }
  split; [exact L|]. cbn [planned_method]. unfold plan_dst2, plan_dst3.
  pose proof (planned pf _ _ cs (plan_dct2_ok pf (fun _ _ => True) (2 ^ k))) as K. rewrite E in K.
  destruct (snd (plan_dct2 (2 ^ k) (after pf cs))) as [a|]; [|discriminate]. cbn [rmap] in K. apply Ok_inj in K. cbn [use]. rewrite K.
  cbn [Type2And3SplitRadix_obj t_dst2 t_dst3 t23_scratch]. unfold Type2And3SplitRadix_scratch. rewrite L. auto.
Qed.

Lemma planned_rejects_somehow c cs f sl : planned_method c (after pf cs) = Some (f, sl) -> rejects_somehow f (size c) sl.
Proof. intros H. apply planned_built in H. eapply built_rejects_somehow. exact H. Qed.
Lemma canon23_rej n : (forall k, 5 <= k -> n <> 2 ^ k) -> exists o, canon23 pf n = Ok o /\
  rej (t_dst2 o) (t23_len o) (t23_scratch o) /\ rej (t_dst3 o) (t23_len o) (t23_scratch o).
Proof.
  intros Hn. destruct (canon23_built n) as (o & E & _). exists o. split; [exact E|]. revert E. rewrite canon23_eq. unfold canon23_step.
  destruct (existsb (Nat.eqb n) DCT2_BUTTERFLIES) eqn:Eb.
  - unfold DCT2_BUTTERFLIES in Eb. cbn [existsb] in Eb. rewrite !orb_true_iff, !Nat.eqb_eq in Eb.
    destruct Eb as [->|[->|[->|[->|[->|]]]]]; [..|discriminate]; cbn [canon_bf]; intros X; apply Ok_inj in X; subst o;
      (split; eapply rej_buffer; intros; reflexivity).
  - destruct (is_power_of_two n && (2 <? n)) eqn:Ep.
    + exfalso. apply andb_prop in Ep. destruct Ep as [Ep El]. apply Nat.ltb_lt in El.
      destruct (big_pow2 n Ep El Eb) as (q & -> & Hq & _). apply is_pow2_iff in Ep. destruct Ep as [k Ek].
      apply (Hn k); [|exact Ek]. destruct (le_lt_dec 5 k) as [|Hk]; [assumption|].
      assert (2 ^ k <= 2 ^ 4) by (apply Nat.pow_le_mono_r; lia). change (2 ^ 4) with 16 in * . lia.
    + destruct (Type2And3ConvertToFft_new (pf n)) as [d|] eqn:Ed; [|discriminate]. cbn [rmap]. intros X. apply Ok_inj in X. subst o.
      split; eapply rej_buffers; intros; reflexivity.
Qed.
Lemma planned_rejects c cs f sl : planned_method c (after pf cs) = Some (f, sl) ->
  (forall k, 5 <= k -> c <> CDst2 (2 ^ k) /\ c <> CDst3 (2 ^ k)) -> rejects_cleanly f (size c) sl.
Proof.
  intros H Hk. pose proof (planned_len pf Hpf c cs) as L.
  destruct (built_rejects _ _ c f sl (planned_built _ _ _ _ H)) as [A|[(n & -> & _)|(n & -> & _)]]; [exact A|..].
  - cbn [planned_method returned_instance request snd size] in * . unfold plan_dst2 in * .
    destruct (canon23_rej n) as (o & E & R & _); [intros k K ->; destruct (Hk k K); congruence|].
    pose proof (planned pf _ _ cs (plan_dct2_ok pf (fun _ _ => True) n)) as P. rewrite E in P.
    destruct (snd (plan_dct2 n (after pf cs))) as [a|]; [|discriminate]. cbn [rmap] in P. apply Ok_inj in P. cbn [use value_of] in * . injection H as <- <-.
    pose proof (L _ eq_refl) as La. cbn [instance_len] in La. rewrite P in La |- * . apply rej_cleanly. rewrite <- La. exact R.
  - cbn [planned_method returned_instance request snd size] in * . unfold plan_dst3 in * .
    destruct (canon23_rej n) as (o & E & _ & R); [intros k K ->; destruct (Hk k K); congruence|].
    pose proof (planned pf _ _ cs (plan_dct2_ok pf (fun _ _ => True) n)) as P. rewrite E in P.
    destruct (snd (plan_dct2 n (after pf cs))) as [a|]; [|discriminate]. cbn [rmap] in P. apply Ok_inj in P. cbn [use value_of] in * . injection H as <- <-.
    pose proof (L _ eq_refl) as La. cbn [instance_len] in La. rewrite P in La |- * . apply rej_cleanly. rewrite <- La. exact R.
Qed.
(** DST2 and DST3 of those lengths are rejected after the buffer has been edited. *)
Lemma planned_split_rejects k cs : 5 <= k -> exists f g,
  planned_method (CDst2 (2 ^ k)) (after pf cs) = Some (f, 2 ^ k) /\ planned_method (CDst3 (2 ^ k)) (after pf cs) = Some (g, 2 ^ k) /\
  rejects_with f (2 ^ k) (2 ^ k) EIndex (negate_odd_below (2 ^ k)) /\ rejects_with g (2 ^ k) (2 ^ k) EBufLen (@rev T).
Proof.
  intros Hk. destruct (planned_split k cs Hk) as (h & q & d & Ed & L & E2 & E3). do 2 eexists. split; [exact E2|]. split; [exact E3|].
  split; [apply split_dst2_rejects|apply split_dst3_rejects]; exists h, q, d; auto.
Qed.
End Plan.

(** Over the reals, with a buffer one cell too long, and with a scratch one cell too short. *)
Lemma planned_split_edits pf k cs : fft_fits pf -> 5 <= k -> exists f g,
  planned_method (CDst2 (2 ^ k)) (after pf cs) = Some (f, 2 ^ k) /\ planned_method (CDst3 (2 ^ k)) (after pf cs) = Some (g, 2 ^ k) /\
  edits_when_rejecting f (2 ^ k) (2 ^ k) /\ edits_when_rejecting g (2 ^ k) (2 ^ k).
Proof.
  intros Hpf Hk. destruct (planned_split_rejects pf Hpf k cs Hk) as (f & g & Ef & Eg & Rf & Rg). exists f, g. split; [exact Ef|]. split; [exact Eg|].
  assert (H32 : 32 <= 2 ^ k) by (change 32 with (2 ^ 5); apply Nat.pow_le_mono_r; lia). set (n := 2 ^ k) in * . clearbody n.
  assert (N1 : forall m, 2 <= m -> negate_odd_below n (repeat 1%R m) <> repeat 1%R m).
  { intros m Hm E. apply (f_equal (fun l => nth 1 l 0%R)) in E. unfold negate_odd_below in E. rewrite repeat_length in E.
    rewrite nth_map_seq in E by lia. replace (1 <? n) with true in E by (symmetry; apply Nat.ltb_lt; lia). cbn [Nat.odd Nat.even negb andb] in E.
    rewrite (nth_indep _ 0%R 1%R) in E by (rewrite repeat_length; lia). change (@zero R R NumR) with 0%R in E. rewrite (nth_indep _ 0%R 1%R) in E by (rewrite repeat_length; lia). rewrite nth_repeat in E. change (@neg R R NumR) with Ropp in E. lra. }
  assert (N2 : forall m, 2 <= m -> rev (1%R :: repeat 0%R (m - 1)) <> 1%R :: repeat 0%R (m - 1)).
  { intros m Hm E. apply (f_equal (fun l => nth 0 l 0%R)) in E. cbn [rev] in E. rewrite app_nth1 in E by (rewrite rev_length, repeat_length; lia).
    rewrite rev_nth in E by (rewrite repeat_length; lia). rewrite nth_repeat in E. cbn [nth] in E. lra. }
  split; (split; [|split]).
  - exists (repeat 1%R (n - 1)), [], (negate_odd_below n (repeat 1%R (n - 1))). split; [rewrite repeat_length; lia|].
    split; [exists EIndex; apply Rf; rewrite repeat_length; lia|apply N1; lia].
  - exists (repeat 1%R (n + 1)), [], (negate_odd_below n (repeat 1%R (n + 1))). split; [rewrite repeat_length; lia|].
    split; [exists EBufLen; apply Rf; rewrite repeat_length; lia|apply N1; lia].
  - exists (repeat 1%R n), [], (negate_odd_below n (repeat 1%R n)). split; [rewrite repeat_length; lia|]. split; [cbn; lia|].
    split; [exists EScratchLen; apply Rf; rewrite ?repeat_length; cbn; lia|apply N1; lia].
  - exists (1%R :: repeat 0%R (n - 1 - 1)), [], (rev (1%R :: repeat 0%R (n - 1 - 1))). split; [cbn [length]; rewrite repeat_length; lia|].
    split; [exists EBufLen; apply (proj1 (Rg _ _)); cbn [length]; rewrite repeat_length; lia|apply N2; lia].
  - exists (1%R :: repeat 0%R (n + 1 - 1)), [], (rev (1%R :: repeat 0%R (n + 1 - 1))). split; [cbn [length]; rewrite repeat_length; lia|].
    split; [exists EBufLen; apply (proj1 (proj2 (Rg _ _))); cbn [length]; rewrite repeat_length; lia|apply N2; lia].
  - exists (1%R :: repeat 0%R (n - 1)), [], (rev (1%R :: repeat 0%R (n - 1))). split; [cbn [length]; rewrite repeat_length; lia|]. split; [cbn; lia|].
    split; [exists EScratchLen; apply Rg; cbn [length]; rewrite ?repeat_length; lia|apply N2; lia].
Qed.
