(** Counting accesses. *)
From Coq Require Import List Arith Lia Bool ZArith ZifyNat.
From Verif Require Import Prog Num Model_Common Model_Naive Model_Fft Model_Butterflies Model_SplitRadix
  Model_Plan Model_Api Spec_Fft Spec_Plan Spec_Methods Spec_Memory Spec_Build Wp Planner Canon Plan_Theorems Objects Build_Plan.
Import ListNotations.
Open Scope nat_scope.
Ltac Zify.zify_post_hook ::= Z.div_mod_to_equations.

(** At most [c] accesses, whatever the reads give. *)
Fixpoint costs {T A} (p : prog T A) (c : nat) : Prop :=
  match p with
  | Ret _ | Panic _ | UB => True
  | Rd _ k => match c with 0 => False | S c => forall v, costs (k v) c end
  | Wr _ _ k => match c with 0 => False | S c => costs k c end
  end.
Lemma costs_accesses {T A} (p : prog T A) : forall c m, costs p c -> accesses p m <= c.
Proof.
  induction p as [a|q k IH|q v k IH|e|]; intros c m H; cbn [accesses costs] in * ; try lia; destruct c as [|c]; try contradiction.
  - specialize (IH (m q) c m (H _)). lia.
  - specialize (IH c (upd m q v) H). lia.
Qed.
Lemma costs_mono {T A} (p : prog T A) : forall c c', costs p c -> c <= c' -> costs p c'.
Proof.
  induction p as [a|q k IH|q v k IH|e|]; intros c c' H L; cbn [costs] in * ; try exact I; (destruct c as [|c]; [contradiction|]); (destruct c' as [|c']; [lia|]).
  - intros x. apply (IH x c); [apply H|lia].
  - apply (IH c); [exact H|lia].
Qed.
Lemma costs_bind {T A B} (p : prog T A) : forall (f : A -> prog T B) a b, costs p a -> (forall x, costs (f x) b) -> costs (bind p f) (a + b).
Proof.
  induction p as [x|q k IH|q v k IH|e|]; intros f a b H K; cbn [costs bind] in * ; try exact I.
  - apply (costs_mono _ b); [apply K|lia].
  - destruct a as [|a]; [contradiction|]. intros v. apply IH; [apply H|exact K].
  - destruct a as [|a]; [contradiction|]. apply IH; [exact H|exact K].
Qed.
Lemma costs_bind_le {T A B} (p : prog T A) (f : A -> prog T B) a b c : costs p a -> a + b <= c -> (forall x, costs (f x) b) -> costs (bind p f) c.
Proof. intros H L K. apply (costs_mono _ (a + b)); [apply costs_bind; assumption|exact L]. Qed.
Section Rules.
Context {T : Type}.
Lemma c_rd s i : costs (rd (T:=T) s i) 1. Proof. unfold rd. destruct (_ <? _); [intros v|]; exact I. Qed.
Lemma c_rdu s i : costs (rdu (T:=T) s i) 1. Proof. unfold rdu. destruct (_ <? _); [intros v|]; exact I. Qed.
Lemma c_wr s i v : costs (wr (T:=T) s i v) 1. Proof. unfold wr. destruct (_ <? _); exact I. Qed.
Lemma c_wru s i v : costs (wru (T:=T) s i v) 1. Proof. unfold wru. destruct (_ <? _); exact I. Qed.
Lemma c_usub a b : costs (usub (T:=T) a b) 0. Proof. unfold usub. destruct (_ <=? _); exact I. Qed.
Lemma c_idx {X} (l : list X) i : costs (idx (T:=T) l i) 0. Proof. unfold idx. destruct (nth_error _ _); exact I. Qed.
Lemma c_idxu {X} (l : list X) i : costs (idxu (T:=T) l i) 0. Proof. unfold idxu. destruct (nth_error _ _); exact I. Qed.
Lemma c_local d l f : costs (local_call (T:=T) d l f) 0. Proof. unfold local_call. destruct (run _ _); exact I. Qed.
Lemma c_for_n n c body : (forall i, costs (body i) c) -> forall i, costs (for_n (T:=T) i n body) (n * c).
Proof.
  intros H. induction n as [|n IH]; intros i; cbn [for_n]; [exact I|]. cbn [Nat.mul]. apply costs_bind; [apply H|]. intros _. apply IH.
Qed.
Lemma c_for a b c body : (forall i, costs (body i) c) -> costs (for_range (T:=T) a b body) ((b - a) * c).
Proof. intros H. apply c_for_n, H. Qed.
Lemma c_reverse s : costs (reverse (T:=T) s) (slen s / 2 * 4).
Proof.
  unfold reverse. eapply costs_mono; [apply (c_for _ _ 4)|lia]. intros i.
  eapply costs_bind_le; [apply c_rd|reflexivity|intros a]. eapply costs_bind_le; [apply c_rd|reflexivity|intros b].
  eapply costs_bind_le; [apply c_wr|reflexivity|intros _]. apply c_wr.
Qed.
Lemma c_validate b n k c : (slen b = n -> costs k c) -> costs (validate_buffer (T:=T) b n k) c.
Proof.
  intros H. unfold validate_buffer, dct_error_inplace. destruct (Nat.eqb_spec (slen b) n) as [E|E]; cbn [negb bind]; [apply H, E|exact I].
Qed.
Lemma c_validates b s n sl k c : (forall s', slen b = n -> costs (k s') c) -> costs (validate_buffers (T:=T) b s n sl k) c.
Proof.
  intros H. unfold validate_buffers, dct_error_inplace. destruct (Nat.eqb_spec (slen b) n) as [E|E]; cbn [negb bind]; [|exact I].
  unfold get_range. destruct (_ <=? _); [apply H, E|exact I].
Qed.
Lemma c_split {A} s n (k : _ -> prog T A) c : (forall a b, costs (k (a, b)) c) -> costs (bind (split_at_mut (T:=T) s n) k) c.
Proof. intros H. unfold split_at_mut. destruct (_ <=? _); cbn [bind]; [apply H|exact I]. Qed.
Lemma c_if {A} (b : bool) (p q : prog T A) c : costs p c -> costs q c -> costs (if b then p else q) c.
Proof. destruct b; auto. Qed.
Lemma costs_ret {A} (a : A) c : costs (T:=T) (Ret a) c. Proof. exact I. Qed.
Lemma c_assoc {A B C} (p : prog T A) (f : A -> prog T B) (g : B -> prog T C) c :
  costs (bind p (fun x => bind (f x) g)) c -> costs (bind (bind p f) g) c.
Proof.
  revert c. induction p as [x|q k IH|q v k IH|e|]; intros c H; cbn [bind costs] in * ; try assumption; (destruct c as [|c]; [contradiction|]).
  - intros v. apply IH, H.
  - apply IH, H.
Qed.
Lemma c_free {A B} (p : prog T A) (f : A -> prog T B) c : costs p 0 -> (forall x, costs (f x) c) -> costs (bind p f) c.
Proof. intros H K. exact (costs_bind p f 0 c H K). Qed.
Lemma c_one {A B} (p : prog T A) (f : A -> prog T B) c : costs p 1 -> (forall x, costs (f x) c) -> costs (bind p f) (S c).
Proof. intros H K. exact (costs_bind p f 1 c H K). Qed.
End Rules.
Lemma c_let {T A X} (v : X) (p : X -> prog T A) c : (forall x, costs (p x) c) -> costs (let x := v in p x) c.
Proof. intros H. apply H. Qed.
Ltac cost := cbv beta; lazymatch goal with
  | |- costs (let x := _ in _) _ => apply c_let; intros ?; cost
  | |- costs (bind (bind _ _) _) _ => apply c_assoc; cost
  | |- costs (bind (if _ then _ else _) _) _ => idtac
  | |- costs (bind (rdu _ _) _) _ => apply c_one; [apply c_rdu|intros ?; cost]
  | |- costs (bind (rd _ _) _) _ => apply c_one; [apply c_rd|intros ?; cost]
  | |- costs (bind (wru _ _ _) _) _ => apply c_one; [apply c_wru|intros ?; cost]
  | |- costs (bind (wr _ _ _) _) _ => apply c_one; [apply c_wr|intros ?; cost]
  | |- costs (bind (usub _ _) _) _ => apply c_free; [apply c_usub|intros ?; cost]
  | |- costs (bind (idx _ _) _) _ => apply c_free; [apply c_idx|intros ?; cost]
  | |- costs (bind (idxu _ _) _) _ => apply c_free; [apply c_idxu|intros ?; cost]
  | |- costs (bind (local_call _ _ _) _) _ => apply c_free; [apply c_local|intros ?; cost]
  | |- costs (bind (Ret _) _) _ => apply c_free; [exact I|intros ?; cost]
  | |- costs (for_range _ _ _) _ => eapply costs_mono; [apply (c_for _ _ 8); intros ?; cost|cbn; lia]
  | |- costs (rdu _ _) _ => eapply costs_mono; [apply c_rdu|lia]
  | |- costs (rd _ _) _ => eapply costs_mono; [apply c_rd|lia]
  | |- costs (wru _ _ _) _ => eapply costs_mono; [apply c_wru|lia]
  | |- costs (wr _ _ _) _ => eapply costs_mono; [apply c_wr|lia]
  | |- costs (Ret _) _ => exact I
  | |- _ => idtac
  end.

(** ** Butterflies *)
Section Butterflies.
Context {T F : Type} {N : Num T F}.
Definition cheap23 (o : t23 T) (c : nat) : Prop := forall b s,
  costs (t_dct2 o b s) c /\ costs (t_dct3 o b s) c /\ costs (t_dst2 o b s) c /\ costs (t_dst3 o b s) c.
Ltac butterfly := intros b s; cbn [Type2And3Butterfly2_obj Type2And3Butterfly4_obj Type2And3Butterfly8_obj Type2And3Butterfly16_obj butterfly_obj t_dct2 t_dct3 t_dst2 t_dst3];
  repeat split; unfold Butterfly2_dct2, Butterfly2_dct3, Butterfly2_dst2, Butterfly2_dst3; apply c_validate; intros _.
Lemma Butterfly2_cheap : cheap23 Type2And3Butterfly2_obj 16.
Proof. butterfly; unfold Butterfly2_dct2, Butterfly2_dct3, Butterfly2_dst2, Butterfly2_dst3; cost. Qed.
Lemma Butterfly4_cheap : cheap23 (Type2And3Butterfly4_obj Butterfly4_new) 48.
Proof.
  butterfly; unfold Butterfly4_inplace_dct2, Butterfly4_inplace_dct3, Butterfly4_inplace_dst2, Butterfly4_inplace_dst3,
    Butterfly2_scattered_dct2, Butterfly2_scattered_dct3; cost.
Qed.
Lemma Butterfly8_cheap : cheap23 (Type2And3Butterfly8_obj Butterfly8_new) 128.
Proof.
  butterfly; unfold Butterfly8_inplace_dct2, Butterfly8_inplace_dct3, Butterfly8_inplace_dst2, Butterfly8_inplace_dst3, rd_add, rd_sub, rd_nadd, rd_nsub; cost.
Qed.
Lemma Butterfly16_cheap : cheap23 (Type2And3Butterfly16_obj Butterfly16_new) 320.
Proof.
  butterfly; unfold Butterfly16_inplace_dct2, Butterfly16_inplace_dct3, Butterfly16_inplace_dst2, Butterfly16_inplace_dst3, rd_add, rd_sub, rd_nadd, rd_nsub; cost.
Qed.
End Butterflies.

(** ** Split radix *)
Section Split.
Context {T F : Type} {N : Num T F}.
Variables (d : t23_split T) (q ch cq : nat).
Hypothesis Hq : length (sr_tw d) = q.
Lemma Dct2Split_costs : 0 < q -> (forall b s, costs (t_dct2 (sr_half d) b s) ch) -> (forall b s, costs (t_dct2 (sr_quarter d) b s) cq) ->
  forall b s, costs (Type2And3SplitRadix_dct2 (T:=T) d b s) (ch + 2 * cq + 24 * q).
Proof.
  intros Hp Hh Hc b s. unfold Type2And3SplitRadix_dct2. apply c_validates. intros s' _. unfold Type2And3SplitRadix_len. rewrite Hq. cbv zeta.
  replace (q * 4 / 4) with q by lia.
  apply c_split. intros h r. apply c_split. intros ev od.
  apply (costs_bind_le _ _ (q * 8) (ch + 2 * cq + (q * 8 + 8))); [|lia|intros _].
  { eapply costs_mono; [apply (c_for _ _ 8); intros i; cost|lia]. }
  apply (costs_bind_le _ _ ch (cq + (cq + (q * 8 + 8)))); [apply Hh|lia|intros _].
  apply (costs_bind_le _ _ cq (cq + (q * 8 + 8))); [apply Hc|lia|intros _].
  apply (costs_bind_le _ _ cq (q * 8 + 8)); [apply Hc|lia|intros _].
  apply (costs_mono _ (S (S (S (S (S (S (q * 8 + 2)))))))); [|lia]. cost.
  apply (costs_bind_le _ _ (q * 8) 2); [|lia|intros _; cost].
  eapply costs_mono; [apply (c_for _ _ 8); intros i|lia].
  apply c_one; [apply c_rdu|intros cv]. apply (costs_bind_le _ _ 1 6); [|lia|intros sv; cost]. apply c_if; cost.
Qed.
Lemma Dct3Split_costs : 0 < q -> (forall b s, costs (t_dct3 (sr_half d) b s) ch) -> (forall b s, costs (t_dct3 (sr_quarter d) b s) cq) ->
  forall b s, costs (Type2And3SplitRadix_dct3 (T:=T) d b s) (ch + 2 * cq + 24 * q).
Proof.
  intros Hp Hh Hc b s. unfold Type2And3SplitRadix_dct3. apply c_validates. intros s' Lb. unfold Type2And3SplitRadix_len in Lb. rewrite Hq in Lb. rewrite Lb. cbv zeta.
  replace (q * 4 / 4) with q by lia.
  apply c_split. intros h r. apply c_split. intros ev od.
  apply (costs_mono _ (S (S (S (S (S (S (S (S ((q - 1) * 10 + (ch + (cq + (cq + q * 8))))))))))))); [|lia]. cost.
  apply (costs_bind_le _ _ ((q - 1) * 10) (ch + (cq + (cq + q * 8)))); [|lia|intros _].
  { apply c_for. intros i. cost. }
  apply (costs_bind_le _ _ ch (cq + (cq + q * 8))); [apply Hh|lia|intros _].
  apply (costs_bind_le _ _ cq (cq + q * 8)); [apply Hc|lia|intros _].
  apply (costs_bind_le _ _ cq (q * 8)); [apply Hc|lia|intros _].
  eapply costs_mono; [apply (c_for _ _ 8); intros i|lia].
  apply c_free; [apply c_idx|intros tw]. apply c_one; [apply c_rd|intros cv].
  apply (costs_bind_le _ _ 1 6); [|lia|intros sv; cost]. apply c_if; cost.
Qed.
Lemma Dst2Split_costs c : (forall b s, costs (Type2And3SplitRadix_dct2 (T:=T) d b s) c) ->
  forall b s, slen b = 4 * q -> costs (Type2And3SplitRadix_dst2 (T:=T) d b s) (c + 12 * q).
Proof.
  intros H b s Lb. unfold Type2And3SplitRadix_dst2, Type2And3SplitRadix_len. rewrite Hq.
  apply (costs_bind_le _ _ (4 * q) (c + 8 * q)); [|lia|intros _].
  { eapply costs_mono; [apply (c_for _ _ 2); intros i; cost|lia]. }
  apply (costs_bind_le _ _ c (8 * q)); [apply H|lia|intros _]. eapply costs_mono; [apply c_reverse|lia].
Qed.
Lemma Dst3Split_costs c : (forall b s, costs (Type2And3SplitRadix_dct3 (T:=T) d b s) c) ->
  forall b s, slen b = 4 * q -> costs (Type2And3SplitRadix_dst3 (T:=T) d b s) (c + 12 * q).
Proof.
  intros H b s Lb. unfold Type2And3SplitRadix_dst3, Type2And3SplitRadix_len. rewrite Hq.
  apply (costs_bind_le _ _ (8 * q) (c + 4 * q)); [eapply costs_mono; [apply c_reverse|lia]|lia|intros _].
  apply (costs_bind_le _ _ c (4 * q)); [apply H|lia|intros _].
  eapply costs_mono; [apply (c_for _ _ 2); intros i; cost|lia].
Qed.
End Split.

(** ** The planner *)
Section Planned.
Context {T F : Type} {N : Num T F}.
Variable pf : nat -> fft T.
Hypothesis Hpf : fft_fits pf.

Lemma canon23_split_of k : 5 <= k -> exists h q d, canon23 pf (2 ^ (k - 1)) = Ok h /\ canon23 pf (2 ^ (k - 2)) = Ok q /\
  Type2And3SplitRadix_new h q = Ok d /\ canon23 pf (2 ^ k) = Ok (Type2And3SplitRadix_obj d).
Proof.
  intros Hk. destruct (canon23_built pf Hpf (2 ^ k)) as (o & E & _). rewrite E. revert E. rewrite canon23_eq. unfold canon23_step.
  assert (H32 : 32 <= 2 ^ k) by (change 32 with (2 ^ 5); apply Nat.pow_le_mono_r; lia).
  replace (existsb (Nat.eqb (2 ^ k)) DCT2_BUTTERFLIES) with false.
  2: { symmetry. unfold DCT2_BUTTERFLIES. cbn [existsb]. rewrite !orb_false_iff, !Nat.eqb_neq. repeat split; lia. }
  replace (is_power_of_two (2 ^ k)) with true by (symmetry; apply is_pow2_iff; eauto).
  replace (2 <? 2 ^ k) with true by (symmetry; apply Nat.ltb_lt; lia). cbn [andb].
  assert (P : 2 ^ k = 4 * 2 ^ (k - 2)) by (replace k with (2 + (k - 2)) at 1 by lia; rewrite Nat.pow_add_r; reflexivity).
  assert (P1 : 2 ^ (k - 1) = 2 * 2 ^ (k - 2)) by (replace (k - 1) with (1 + (k - 2)) by lia; rewrite Nat.pow_add_r; reflexivity).
  replace (2 ^ k / 2) with (2 ^ (k - 1)) by lia. replace (2 ^ k / 4) with (2 ^ (k - 2)) by lia.
  destruct (canon23 pf (2 ^ (k - 1))) as [h|]; [|discriminate]. destruct (canon23 pf (2 ^ (k - 2))) as [q|]; [|discriminate]. cbn [rbind].
  destruct (Type2And3SplitRadix_new h q) as [d|] eqn:Ed; [|discriminate]. cbn [rmap]. intros X. apply Ok_inj in X. subst o. exists h, q, d. auto.
Qed.
Definition bounded23 (o : t23 T) (n k : nat) : Prop :=
  (forall b s, costs (t_dct2 o b s) (4 * n * (k + 1))) /\ (forall b s, costs (t_dct3 o b s) (4 * n * (k + 1))) /\
  (forall b s, slen b = n -> costs (t_dst2 o b s) (4 * n * (k + 1) + 3 * n)) /\
  (forall b s, slen b = n -> costs (t_dst3 o b s) (4 * n * (k + 1) + 3 * n)).
Lemma cheap_bounded (o : t23 T) n k : cheap23 o (4 * n * (k + 1)) -> bounded23 o n k.
Proof.
  intros H. repeat split; intros b s; try intros _; destruct (H b s) as (A & B & C & D); try assumption; eapply costs_mono; first [eassumption|lia].
Qed.
Lemma canon23_bounded k : 1 <= k -> exists o, canon23 pf (2 ^ k) = Ok o /\ bounded23 o (2 ^ k) k.
Proof.
  induction k as [k IH] using lt_wf_ind. intros Hk. destruct (le_lt_dec 5 k) as [H5|H5].
  - destruct (canon23_split_of k H5) as (h & q & d & Eh & Eq & Ed & E). exists (Type2And3SplitRadix_obj d). split; [exact E|].
    destruct (IH (k - 1) ltac:(lia) ltac:(lia)) as (h' & Eh' & H2 & H3 & _). rewrite Eh in Eh'. apply Ok_inj in Eh'. subst h'.
    destruct (IH (k - 2) ltac:(lia) ltac:(lia)) as (q' & Eq' & Q2 & Q3 & _). rewrite Eq in Eq'. apply Ok_inj in Eq'. subst q'.
    destruct (canon23_len pf Hpf (2 ^ (k - 2))) as (q' & Eq' & Lq). rewrite Eq in Eq'. apply Ok_inj in Eq'. subst q'.
    apply Type2And3SplitRadix_new_inv in Ed. destruct Ed as (_ & _ & Ed).
    assert (Lt : length (sr_tw d) = 2 ^ (k - 2)) by (rewrite Ed; cbn [sr_tw]; rewrite map_length, seq_length; exact Lq).
    assert (Sh : sr_half d = h) by (rewrite Ed; reflexivity). assert (Sq : sr_quarter d = q) by (rewrite Ed; reflexivity). clear Ed.
    assert (Pp : 0 < 2 ^ (k - 2)) by (apply Nat.neq_0_lt_0, Nat.pow_nonzero; lia).
    assert (P : 2 ^ k = 4 * 2 ^ (k - 2)) by (replace k with (2 + (k - 2)) at 1 by lia; rewrite Nat.pow_add_r; reflexivity).
    assert (P1 : 2 ^ (k - 1) = 2 * 2 ^ (k - 2)) by (replace (k - 1) with (1 + (k - 2)) by lia; rewrite Nat.pow_add_r; reflexivity).
    rewrite P1 in H2, H3. rewrite P. set (p := 2 ^ (k - 2)) in * .
    assert (S : 4 * (2 * p) * (k - 1 + 1) + 2 * (4 * p * (k - 2 + 1)) + 24 * p = 4 * (4 * p) * (k + 1)).
    { destruct k as [|[|j]]; [lia|lia|]. replace (S (S j) - 1 + 1) with (j + 2) by lia. replace (S (S j) - 2 + 1) with (j + 1) by lia. nia. }
    assert (B2 : forall b s, costs (Type2And3SplitRadix_dct2 d b s) (4 * (4 * p) * (k + 1))).
    { rewrite <- S. apply (Dct2Split_costs d p _ _ Lt Pp); [rewrite Sh; exact H2|rewrite Sq; exact Q2]. }
    assert (B3 : forall b s, costs (Type2And3SplitRadix_dct3 d b s) (4 * (4 * p) * (k + 1))).
    { rewrite <- S. apply (Dct3Split_costs d p _ _ Lt Pp); [rewrite Sh; exact H3|rewrite Sq; exact Q3]. }
    split; [exact B2|]. split; [exact B3|]. replace (3 * (4 * p)) with (12 * p) by lia.
    split; [apply (Dst2Split_costs d p Lt _ B2)|apply (Dst3Split_costs d p Lt _ B3)].
  - rewrite canon23_eq. destruct k as [|[|[|[|[|k]]]]]; try lia; eexists; (split; [reflexivity|]); apply cheap_bounded.
    + exact Butterfly2_cheap. + exact Butterfly4_cheap. + exact Butterfly8_cheap. + exact Butterfly16_cheap.
Qed.
Lemma planned_cost cs k c : 1 <= k -> In c [CDct2 (2 ^ k); CDct3 (2 ^ k); CDst2 (2 ^ k); CDst3 (2 ^ k)] -> exists f sl,
  planned_method c (after pf cs) = Some (f, sl) /\
  forall m b s, slen b = 2 ^ k -> accesses (f b s) m <= 6 * 2 ^ k * (k + 1).
Proof.
  intros Hk Hc. destruct (canon23_bounded k Hk) as (o & E & B2 & B3 & S2 & S3).
  destruct (planned_ex pf _ _ cs (fun o' => o' = o) (plan_dct2_ok pf _ (2 ^ k)) (ex_intro _ _ (conj E eq_refl))) as (a & Ea & Va).
  assert (L : 4 * 2 ^ k * (k + 1) + 3 * 2 ^ k <= 6 * 2 ^ k * (k + 1)) by nia.
  cbn [In] in Hc. destruct Hc as [<-|[<-|[<-|[<-|[]]]]]; cbn [planned_method]; unfold plan_dct3, plan_dst2, plan_dst3; rewrite Ea; cbn [use];
    eexists; eexists; (split; [reflexivity|]); rewrite Va; intros m b s Lb;
    (etransitivity; [apply costs_accesses; first [apply B2|apply B3|apply S2, Lb|apply S3, Lb]|]); lia.
Qed.
End Planned.
