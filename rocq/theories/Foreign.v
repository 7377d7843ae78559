(** Instances on top of foreign transforms touch only the slices they are given and the state of the
    foreign code. *)
From Coq Require Import List Arith Lia Bool ZArith ZifyNat.
From Verif Require Import Prog Num Model_Common Model_Naive Model_Fft Model_Butterflies Model_SplitRadix
  Model_Mdct Model_Plan Model_Api Spec_Memory Spec_Build Spec_Foreign Wp Confine Confine_Meth Interleave Objects Build_Conf.
Import ListNotations.
Open Scope nat_scope.
Ltac Zify.zify_post_hook ::= Z.div_mod_to_equations.

Section Own.
Context {T F : Type} {N : Num T F}.
Variable own : nat -> Prop.

Definition own_meth (f : meth T) : Prop :=
  forall (R W : nat -> Prop) b s, (forall q, own q -> R q) -> (forall q, own q -> W q) ->
  insideR R b -> insideW W b -> insideR R s -> insideW W s -> conf R W (f b s) any.
Definition own_mdct (f : slice -> slice -> slice -> slice -> prog T unit) : Prop :=
  forall (R W : nat -> Prop) a b c s, (forall q, own q -> R q) -> (forall q, own q -> W q) ->
  insideR R a -> insideR R b -> insideR R c -> insideW W c -> insideR R s -> insideW W s -> conf R W (f a b c s) any.
Definition own_imdct (f : slice -> slice -> slice -> slice -> prog T unit) : Prop :=
  forall (R W : nat -> Prop) a b c s, (forall q, own q -> R q) -> (forall q, own q -> W q) ->
  insideR R a -> insideR R b -> insideW W b -> insideR R c -> insideW W c -> insideR R s -> insideW W s -> conf R W (f a b c s) any.
Lemma own_of_conf f : conf_meth f -> own_meth f.
Proof. intros H R W b s _ _. apply H. Qed.

Ltac start := intros R W b s HoR HoW HbR HbW HsR HsW.
Ltac inner H := eapply conf_bind; [apply H; assumption|intros _ _].
Ltac go := eapply conf_bind; [cfp|let a := fresh "x" in let Ha := fresh "H" in intros a Ha; tidy].
Ltac validated_mdct := apply conf_validate_mdct; [assumption|assumption|]; intros s' ? ? ? ? ? ?; cbv zeta.

Lemma own_split2 d : own_meth (t_dct2 (sr_half d)) -> own_meth (t_dct2 (sr_quarter d)) ->
  0 < length (sr_tw d) -> own_meth (Type2And3SplitRadix_dct2 (T:=T) d).
Proof.
  intros Hh Hq Hp. start. unfold Type2And3SplitRadix_dct2. validated. unfold Type2And3SplitRadix_scratch, Type2And3SplitRadix_len in * .
  set (q := length (sr_tw d)) in * . replace (q * 4 / 2) with (2 * q) by lia. replace (q * 4 / 4) with q by lia.
  go. destruct x as [h r]. tidy. go. destruct x as [ev od]. tidy. go.
  inner Hh. inner Hq. inner Hq. cf.
Qed.
Lemma own_split3 d : own_meth (t_dct3 (sr_half d)) -> own_meth (t_dct3 (sr_quarter d)) ->
  own_meth (Type2And3SplitRadix_dct3 (T:=T) d).
Proof.
  intros Hh Hq. start. unfold Type2And3SplitRadix_dct3. validated. unfold Type2And3SplitRadix_scratch, Type2And3SplitRadix_len in * .
  rewrite Hb. set (q := length (sr_tw d)) in * . replace (q * 4 / 2) with (2 * q) by lia. replace (q * 4 / 4) with q by lia.
  go. destruct x as [h r]. tidy. go. destruct x as [ev od]. tidy. do 10 go. inner Hh. inner Hq. inner Hq. cf.
Qed.
Lemma own_split_s2 d : own_meth (Type2And3SplitRadix_dct2 (T:=T) d) -> own_meth (Type2And3SplitRadix_dst2 d).
Proof. intros H. start. unfold Type2And3SplitRadix_dst2. go. inner H. cf. Qed.
Lemma own_split_s3 d : own_meth (Type2And3SplitRadix_dct3 (T:=T) d) -> own_meth (Type2And3SplitRadix_dst3 d).
Proof. intros H. start. unfold Type2And3SplitRadix_dst3. go. inner H. cf. Qed.
Lemma own_even4 d : own_meth (t_dct3 (t4e_inner d)) -> own_meth (t_dst3 (t4e_inner d)) -> own_meth (Type4ConvertToType3Even_dct4 (T:=T) d).
Proof.
  intros Hc Hs. start. unfold Type4ConvertToType3Even_dct4. validated.
  go. destruct x as [h r]. tidy. go. destruct x as [ev od]. tidy. do 7 go. cbv zeta.
  destruct (0 <? slen r); (inner Hc; inner Hs; cf).
Qed.
Lemma own_even_s4 d : own_meth (t_dct3 (t4e_inner d)) -> own_meth (t_dst3 (t4e_inner d)) -> own_meth (Type4ConvertToType3Even_dst4 (T:=T) d).
Proof.
  intros Hc Hs. start. unfold Type4ConvertToType3Even_dst4. validated.
  go. destruct x as [h r]. tidy. go. destruct x as [ev od]. tidy. do 7 go. cbv zeta.
  destruct (0 <? slen r); (inner Hs; inner Hc; cf).
Qed.
Lemma own_via4 d : own_meth (t_dct4 (md_dct d)) -> own_mdct (MdctViaDct4_mdct (T:=T) d).
Proof.
  intros H4 R W a b c s HoR HoW Ha Hb Hc Hc' Hs Hs'. unfold MdctViaDct4_mdct. validated_mdct. do 4 go. apply H4; assumption.
Qed.
Lemma own_ivia4 d : own_meth (t_dct4 (md_dct d)) -> own_imdct (MdctViaDct4_imdct (T:=T) d).
Proof.
  intros H4 R W a b c s HoR HoW Ha Hb Hb' Hc Hc' Hs Hs'. unfold MdctViaDct4_imdct. validated_mdct. go. destruct x as [u v]. tidy.
  go. eapply conf_bind; [apply H4; assumption|intros _ _]. cf.
Qed.

Lemma keeps_conf (A R W : nat -> Prop) (p : prog T unit) : (forall q, A q -> R q) -> (forall q, A q -> W q) -> keeps_to A p -> conf R W p any.
Proof.
  intros HR HW. induction p as [a|q k IH|q v k IH|e|]; cbn; intros H; auto.
  - destruct H as [H1 H2]. split; [apply HR, H1|]. intros v. apply IH, H2.
  - destruct H as [H1 H2]. split; [apply HW, H1|]. apply IH, H2.
Qed.
Lemma safe_own f : safe_code own f -> own_meth f.
Proof.
  intros H R W b s HoR HoW HbR HbW HsR HsW. apply (keeps_conf _ R W _) with (3 := H b s); intros q [C|[C|C]]; auto; unfold cell_of in C.
  - replace q with (base b + (q - base b)) by lia. apply HbR. lia.
  - replace q with (base s + (q - base s)) by lia. apply HsR. lia.
  - replace q with (base b + (q - base b)) by lia. apply HbW. lia.
  - replace q with (base s + (q - base s)) by lia. apply HsW. lia.
Qed.

Definition own_t23 (o : t23 T) : Prop := own_meth (t_dct2 o) /\ own_meth (t_dct3 o) /\ own_meth (t_dst2 o) /\ own_meth (t_dst3 o).
Definition own_t4 (o : t4 T) : Prop := own_meth (t_dct4 o) /\ own_meth (t_dst4 o).
Lemma open23_own o : open23 own o -> own_t23 o.
Proof.
  induction 1 as [o H|o H|h q d Hh IHh Hq IHq E].
  - destruct (built23_conf _ _ o H) as (A & B & C & D). repeat split; apply own_of_conf; assumption.
  - destruct H as (A & B & C & D). repeat split; apply safe_own; assumption.
  - destruct IHh as (A2 & A3 & _), IHq as (B2 & B3 & _). apply Type2And3SplitRadix_new_inv in E. destruct E as (Hp & _ & ->).
    set (d := mkT23Split h q _).
    assert (C2 : own_meth (Type2And3SplitRadix_dct2 d)).
    { apply own_split2; [exact A2|exact B2|]. unfold d. cbn [sr_tw]. rewrite map_length, seq_length. exact Hp. }
    assert (C3 : own_meth (Type2And3SplitRadix_dct3 d)) by (apply own_split3; [exact A3|exact B3]).
    split; [exact C2|]. split; [exact C3|]. split; [apply own_split_s2, C2|apply own_split_s3, C3].
Qed.
Lemma open4_own o : open4 own o -> own_t4 o.
Proof.
  destruct 1 as [o H|o H|i Hi].
  - destruct (built4_conf _ _ o H) as (A & B). split; apply own_of_conf; assumption.
  - destruct H as (A & B). split; apply safe_own; assumption.
  - destruct (open23_own i Hi) as (_ & A & _ & B). split; [apply own_even4|apply own_even_s4]; assumption.
Qed.
Lemma open_mdct_own o : open_mdct own o -> own_mdct (t_mdct o) /\ own_imdct (t_imdct o).
Proof.
  destruct 1 as [i w d Hi E]. assert (md_dct d = i) as <-.
  { revert E. unfold MdctViaDct4_new, rassert. destruct (_ =? 0); [|discriminate]. cbn [rbind].
    destruct (length _ =? _); [|discriminate]. cbn [rbind]. intros E. apply Ok_inj in E. subst d. reflexivity. }
  destruct (open4_own _ Hi) as [A _]. split; [apply own_via4|apply own_ivia4]; exact A.
Qed.
Lemma open_job_own j : open_job own j -> conf (fun q => may_read j q \/ own q) (fun q => may_write j q \/ own q) (program j) any.
Proof.
  destruct j as [f b s|o a b out s|o x a b s]; cbn [open_job program may_read may_write].
  - intros H. assert (K : own_meth f).
    { destruct H as [(o & Ho & Hf)|(o & Ho & Hf)].
      - destruct (open23_own o Ho) as (A & B & C & D). cbn [In] in Hf. intuition (subst; assumption).
      - destruct (open4_own o Ho) as (A & B). cbn [In] in Hf. intuition (subst; assumption). }
    apply K; [auto|auto| | | |]; intros i Hi; cbv beta; unfold cell_of; lia.
  - intros H. apply (open_mdct_own _ H); [auto|auto| | | | | |]; intros i Hi; cbv beta; unfold cell_of; lia.
  - intros H. apply (open_mdct_own _ H); [auto|auto| | | | | | |]; intros i Hi; cbv beta; unfold cell_of; lia.
Qed.
Lemma open_job_safe j : open_job own j -> safe_within (program j) (fun q => may_write j q \/ own q).
Proof. intros H. exact (conf_safe_within _ _ _ (open_job_own j H)). Qed.
Lemma open_job_sees j : open_job own j -> sees_only (program j) (fun q => may_read j q \/ own q) (fun q => may_write j q \/ own q).
Proof.
  intros H m1 m2 E. pose proof (conf_alike _ _ _ _ (open_job_own j H) m1 m2 E) as K. unfold alike in K.
  assert (Z : forall q, may_write j q \/ own q -> may_read j q \/ own q) by (intros q [A|A]; [left; apply may_write_read, A|auto]).
  destruct (run (program j) m1) as [a x|e x|], (run (program j) m2) as [a' y|e' y|]; try contradiction; destruct K as [K1 K].
  - intros q Hq. apply K, E, Z, Hq.
  - split; [exact K1|]. intros q Hq. apply K, E, Z, Hq.
Qed.
End Own.

(** Without state, calls can also run at the same time. *)
Section Stateless.
Context {T F : Type} {N : Num T F}.
Lemma open_conf j : open_job (T:=T) (fun _ => False) j -> conf (may_read j) (may_write j) (program j) any.
Proof.
  destruct j as [f b s|o a b out s|o x a b s]; cbn [open_job program may_read may_write].
  - intros H. assert (K : own_meth (fun _ => False) f).
    { destruct H as [(o & Ho & Hf)|(o & Ho & Hf)].
      - destruct (open23_own _ o Ho) as (A & B & C & D). cbn [In] in Hf. intuition (subst; assumption).
      - destruct (open4_own _ o Ho) as (A & B). cbn [In] in Hf. intuition (subst; assumption). }
    apply K; [tauto|tauto| | | |]; intros i Hi; cbn [may_read may_write]; unfold cell_of; lia.
  - intros H. apply (open_mdct_own _ _ H); [tauto|tauto| | | | | |]; intros i Hi; cbn [may_read may_write]; unfold cell_of; lia.
  - intros H. apply (open_mdct_own _ _ H); [tauto|tauto| | | | | | |]; intros i Hi; cbn [may_read may_write]; unfold cell_of; lia.
Qed.
Lemma open_confined js : Forall (open_job (T:=T) (fun _ => False)) js -> Forall2 confined (map region_of js) (map program js).
Proof. induction 1; cbn [map]; constructor; [apply open_conf|]; assumption. Qed.
Lemma open_interleaved js (m : mem T) ps m' : Forall (open_job (fun _ => False)) js -> all_separate js ->
  interleaved (map program js) m ps m' ->
  ~ In UB ps /\
  ((exists es, ended ps es) \/ exists c, advances (ps, m') c) /\
  (forall es, ended ps es -> exists m1, one_by_one (map program js) m = Some (es, m1) /\ forall q, m' q = m1 q).
Proof.
  intros B A I. destruct (interleaved_same _ _ _ _ _ (all_separate_apart js A) I (open_confined js B)) as [E C]. split; [|split].
  - intros H. destruct (Forall2_in_r _ _ _ _ C H) as (r & _ & []).
  - destruct (progress _ _ m' C) as [H|(b & p & a & p' & m2 & -> & S)]; [left; exact H|].
    right. exists (b ++ p' :: a, m2). exists b, p, a, p'. auto.
  - intros es He. rewrite (ended_result ps es m' He) in E. destruct (one_by_one (map program js) m) as [[es' m1]|]; [|contradiction].
    destruct E as [-> E]. exists m1. split; [reflexivity|]. intros q. symmetry. apply E.
Qed.
End Stateless.
