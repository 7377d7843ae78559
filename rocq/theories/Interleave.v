(** Programs on separate cells do not notice each other. *)
From Coq Require Import List Arith Lia Bool Wellfounded.
From Verif Require Import Prog Spec_Memory Wp Confine.
Import ListNotations.

Section Interleave.
Context {T : Type}.
Notation prog1 := (prog T unit).

Definition same_mem (m m' : mem T) : Prop := forall q, m q = m' q.

(** Two runs of a confined program from memories that agree on what it may read. *)
Definition alike {A} (W : nat -> Prop) (m m' : mem T) (x y : outcome T A) : Prop :=
  match x, y with
  | Done a m1, Done a' m1' => a = a' /\ forall q, (m q = m' q -> m1 q = m1' q) /\ (~ W q -> m1 q = m q /\ m1' q = m' q)
  | Panicked e m1, Panicked e' m1' => e = e' /\ forall q, (m q = m' q -> m1 q = m1' q) /\ (~ W q -> m1 q = m q /\ m1' q = m' q)
  | _, _ => False
  end.
Lemma conf_alike {A} R W (p : prog T A) Q : conf R W p Q -> forall m m', (forall q, R q -> m q = m' q) -> alike W m m' (run p m) (run p m').
Proof.
  induction p as [a|q k IH|q v k IH|e|]; cbn [conf run]; intros H m m' E.
  - split; [reflexivity|]. auto.
  - destruct H as [Hq H]. rewrite <- (E q Hq). apply IH; auto.
  - destruct H as [Hq H]. specialize (IH H (upd m q v) (upd m' q v)).
    assert (E' : forall x, R x -> upd m q v x = upd m' q v x) by (intros x Hx; unfold upd; destruct (x =? q); auto).
    specialize (IH E'). unfold alike in * . destruct (run k (upd m q v)), (run k (upd m' q v)); try contradiction;
      (destruct IH as [-> IH]; split; [reflexivity|]; intros x; destruct (IH x) as [I1 I2]; split;
       [intros Ex; apply I1; unfold upd; destruct (x =? q); auto
       |intros Hx; destruct (I2 Hx) as [-> ->]; unfold upd; destruct (Nat.eqb_spec x q); [subst; contradiction|auto]]).
  - split; [reflexivity|]. auto.
  - contradiction.
Qed.
Lemma conf_safe_within R W (p : prog1) : conf R W p any -> safe_within p W.
Proof.
  intros H m. pose proof (conf_alike R W p any H m m ltac:(auto)) as K. unfold alike in K.
  destruct (run p m); try contradiction; intros q Hq; apply (proj2 K q); exact Hq.
Qed.

Lemma run_ext {A} (p : prog T A) : forall m m', same_mem m m' ->
  match run p m, run p m' with
  | Done a m1, Done a' m1' => a = a' /\ same_mem m1 m1'
  | Panicked e m1, Panicked e' m1' => e = e' /\ same_mem m1 m1'
  | Undef, Undef => True
  | _, _ => False
  end.
Proof.
  induction p as [a|q k IH|q v k IH|e|]; cbn [run]; intros m m' E.
  - split; [reflexivity|exact E].
  - rewrite (E q). apply IH, E.
  - apply IH. intros x. unfold upd. destruct (x =? q); auto.
  - split; [reflexivity|exact E].
  - exact I.
Qed.

Definition same_result (x y : option (list ending * mem T)) : Prop :=
  match x, y with
  | Some (es, m), Some (es', m') => es = es' /\ same_mem m m'
  | None, None => True
  | _, _ => False
  end.
Lemma same_result_refl x : same_result x x.
Proof. destruct x as [[es m]|]; [split; [reflexivity|intros q; reflexivity]|exact I]. Qed.
Lemma same_result_sym x y : same_result x y -> same_result y x.
Proof. destruct x as [[? ?]|], y as [[? ?]|]; cbn; try tauto. intros [-> H]. split; [reflexivity|]. intros q. symmetry. apply H. Qed.
Lemma same_result_trans x y z : same_result x y -> same_result y z -> same_result x z.
Proof.
  destruct x as [[? ?]|], y as [[? ?]|], z as [[? ?]|]; cbn; try tauto.
  intros [-> H] [-> K]. split; [reflexivity|]. intros q. rewrite (H q). apply K.
Qed.
Definition tack (e : ending) (x : option (list ending * mem T)) : option (list ending * mem T) :=
  match x with Some (es, m) => Some (e :: es, m) | None => None end.
Lemma tack_same e x y : same_result x y -> same_result (tack e x) (tack e y).
Proof. destruct x as [[? ?]|], y as [[? ?]|]; cbn; try tauto. intros [-> H]. auto. Qed.
Lemma one_cons (p : prog1) ps m : one_by_one (p :: ps) m =
  match run p m with Done _ m' => tack Finished (one_by_one ps m') | Panicked e m' => tack (Failed e) (one_by_one ps m') | Undef => None end.
Proof. reflexivity. Qed.
Lemma one_ext ps : forall m m', same_mem m m' -> same_result (one_by_one ps m) (one_by_one ps m').
Proof.
  induction ps as [|p ps IH]; intros m m' E; [split; [reflexivity|exact E]|]. rewrite !one_cons.
  pose proof (run_ext p m m' E) as K. destruct (run p m), (run p m'); try contradiction; [| |exact I];
    destruct K as [-> K]; apply tack_same, IH, K.
Qed.

(** Regions: what each program may read and write. *)
Record region := mkRegion { rr : nat -> Prop; rw : nat -> Prop }.
Definition confined (r : region) (p : prog1) : Prop := conf (rr r) (rw r) p any.
Definition apart (r r' : region) : Prop :=
  forall q, (rw r q -> ~ rr r' q /\ ~ rw r' q) /\ (rw r' q -> ~ rr r q /\ ~ rw r q).
Fixpoint all_apart (rs : list region) : Prop :=
  match rs with [] => True | r :: rs' => Forall (apart r) rs' /\ all_apart rs' end.

Lemma read_first before q k after : forall m, (forall p, In p before -> exists r, confined r p /\ ~ rw r q) ->
  same_result (one_by_one (before ++ Rd q k :: after) m) (one_by_one (before ++ k (m q) :: after) m).
Proof.
  induction before as [|p before IH]; intros m H.
  - cbn [app]. rewrite !one_cons. cbn [run]. apply same_result_refl.
  - cbn [app]. rewrite !one_cons. destruct (H p (or_introl eq_refl)) as (r & C & Hq).
    pose proof (conf_alike _ _ p any C m m ltac:(auto)) as K. unfold alike in K.
    destruct (run p m) as [a m1|e m1|]; try contradiction; (apply tack_same;
      destruct (proj2 (proj2 K q) Hq) as [<- _]; apply IH; intros p' Hp'; apply H; right; exact Hp').
Qed.
Lemma write_first before q v k after : forall m m', same_mem m' (upd m q v) ->
  (forall p, In p before -> exists r, confined r p /\ ~ rw r q /\ ~ rr r q) ->
  same_result (one_by_one (before ++ Wr q v k :: after) m) (one_by_one (before ++ k :: after) m').
Proof.
  induction before as [|p before IH]; intros m m' E H.
  - cbn [app]. rewrite !one_cons. cbn [run]. rewrite <- !one_cons. apply same_result_sym, one_ext, E.
  - cbn [app]. rewrite !one_cons. destruct (H p (or_introl eq_refl)) as (r & C & Hq & Hr).
    assert (Em : forall x, x <> q -> m x = m' x) by (intros x Hx; rewrite (E x); unfold upd; destruct (Nat.eqb_spec x q); [contradiction|reflexivity]).
    pose proof (conf_alike _ _ p any C m m' ltac:(intros x Hx; apply Em; intros ->; contradiction)) as K. unfold alike in K.
    destruct (run p m) as [a m1|e m1|], (run p m') as [a' m1'|e' m1'|]; try contradiction;
      (destruct K as [-> K]; apply tack_same, IH; [|intros p' Hp'; apply H; right; exact Hp'];
       intros x; unfold upd; destruct (Nat.eqb_spec x q) as [->|Hx];
       [rewrite (proj2 (proj2 (K q) Hq)), (E q); unfold upd; rewrite Nat.eqb_refl; reflexivity
       |symmetry; apply (proj1 (K x)), Em, Hx]).
Qed.

Lemma all_apart_app rs r rs' : all_apart (rs ++ r :: rs') -> Forall (fun r' => apart r' r) rs.
Proof.
  induction rs as [|a rs IH]; [constructor|]. cbn [app all_apart]. intros [H K]. constructor; [|apply IH, K].
  apply Forall_app in H. destruct H as [_ H]. inversion H. assumption.
Qed.
Lemma Forall2_split {A B} (P : A -> B -> Prop) l b x a : Forall2 P l (b ++ x :: a) ->
  exists l1 y l2, l = l1 ++ y :: l2 /\ Forall2 P l1 b /\ P y x /\ Forall2 P l2 a.
Proof.
  intros H. apply Forall2_app_inv_r in H. destruct H as (l1 & l2 & H1 & H2 & ->). inversion H2 as [|y ? l2' ? Hy H2']. subst.
  exists l1, y, l2'. auto.
Qed.
Lemma Forall2_in_r {A B} (P : A -> B -> Prop) l l' x : Forall2 P l l' -> In x l' -> exists y, In y l /\ P y x.
Proof. induction 1 as [|a b l l' H _ IH]; intros Hx; [destruct Hx|]. destruct Hx as [->|Hx]; [exists a; split; [left|]; auto|]. destruct (IH Hx) as (y & ? & ?). exists y. split; [right|]; auto. Qed.

(** One step of one program changes neither the confinement nor the result of running the
    programs one after the other. *)
Lemma step_confined r (p p' : prog1) m m' : step p m p' m' -> confined r p -> confined r p'.
Proof. intros S C. destruct S; unfold confined in * ; cbn [conf] in C; apply C. Qed.
Lemma step_same rs before p after m p' m' : all_apart rs -> Forall2 confined rs (before ++ p :: after) -> step p m p' m' ->
  same_result (one_by_one (before ++ p :: after) m) (one_by_one (before ++ p' :: after) m') /\
  Forall2 confined rs (before ++ p' :: after).
Proof.
  intros A C S. destruct (Forall2_split _ _ _ _ _ C) as (l1 & r & l2 & -> & C1 & Cr & C2).
  pose proof (all_apart_app _ _ _ A) as Ap. split.
  - assert (Hb : forall q, (rr r q \/ rw r q) -> forall x, In x before -> exists r', confined r' x /\ ~ rw r' q /\ (rw r q -> ~ rr r' q)).
    { intros q Hq x Hx. destruct (Forall2_in_r _ _ _ x C1 Hx) as (r' & Hr' & Cx). exists r'. split; [exact Cx|].
      rewrite Forall_forall in Ap. specialize (Ap r' Hr' q). destruct Ap as [A1 A2]. split; [intros W; destruct (A1 W); tauto|]. intros W. apply A2, W. }
    destruct S as [q k m|q v k m].
    + apply read_first. intros x Hx. destruct (Hb q (or_introl (proj1 Cr)) x Hx) as (r' & ? & ? & _). eauto.
    + apply write_first; [intros x; reflexivity|]. intros x Hx. destruct (Hb q (or_intror (proj1 Cr)) x Hx) as (r' & ? & ? & K). exists r'. split; [assumption|]. split; [assumption|]. apply K, Cr.
  - apply Forall2_app; [exact C1|]. constructor; [exact (step_confined _ _ _ _ _ S Cr)|exact C2].
Qed.

Lemma interleaved_same rs ps m ps' m' : all_apart rs -> interleaved ps m ps' m' -> Forall2 confined rs ps ->
  same_result (one_by_one ps m) (one_by_one ps' m') /\ Forall2 confined rs ps'.
Proof.
  intros A H. induction H as [ps m|before p after m p' m' ps'' m'' S H IH]; intros C; [split; [apply same_result_refl|exact C]|].
  destruct (step_same rs before p after m p' m' A C S) as [E C']. destruct (IH C') as [E' C'']. split; [|exact C''].
  eapply same_result_trans; eassumption.
Qed.
Lemma ended_result (ps : list prog1) : forall es m, ended ps es -> one_by_one ps m = Some (es, m).
Proof.
  induction ps as [|p ps IH]; intros [|e es] m H; cbn [ended] in H; try contradiction; [reflexivity|destruct p; contradiction|].
  rewrite one_cons. destruct p as [a| | |e'|], e as [|e'']; try contradiction; cbn [run].
  - rewrite (IH es m H). reflexivity.
  - destruct H as [-> H]. rewrite (IH es m H). reflexivity.
Qed.
(** A program that is not undefined has ended or can make a step. *)
Lemma progress rs ps m : Forall2 confined rs ps ->
  (exists es, ended ps es) \/ (exists before p after p' m', ps = before ++ p :: after /\ step p m p' m').
Proof.
  intros C. induction C as [|r p rs ps Hp C IH]; [left; exists []; exact I|].
  destruct p as [a|q k|q v k|e|].
  - destruct IH as [[es He]|(b & p & af & p' & m' & -> & S)]; [left; exists (Finished :: es); exact He|].
    right. exists (Ret a :: b), p, af, p', m'. auto.
  - right. exists [], (Rd q k), ps, (k (m q)), m. split; [reflexivity|constructor].
  - right. exists [], (Wr q v k), ps, k, (upd m q v). split; [reflexivity|constructor].
  - destruct IH as [[es He]|(b & p & af & p' & m' & -> & S)]; [left; exists (Failed e :: es); split; [reflexivity|exact He]|].
    right. exists (Panic e :: b), p, af, p', m'. auto.
  - destruct Hp.
Qed.

(** Every schedule ends. *)
Definition stepped (c' c : list prog1 * mem T) : Prop := advances c c'.
Definition sub (p' p : prog1) : Prop := exists m m', step p m p' m'.
Lemma sub_wf (p : prog1) : Acc sub p.
Proof.
  induction p as [a|q k IH|q v k IH|e|]; constructor; intros p' (m & m' & S); inversion S; subst; auto.
Qed.
Definition lsub (ps' ps : list prog1) : Prop := exists b p a p', ps = b ++ p :: a /\ ps' = b ++ p' :: a /\ sub p' p.
Lemma lsub_nil : Acc lsub [].
Proof. constructor. intros ps' (b & p & a & p' & E & _). destruct b; discriminate. Qed.
Lemma lsub_cons p ps : Acc lsub ps -> Acc lsub (p :: ps).
Proof.
  intros H. revert p. induction H as [ps _ IH]. intros p. induction (sub_wf p) as [p _ IHp].
  constructor. intros ps' (b & x & a & x' & E & -> & S). destruct b as [|y b]; cbn [app] in * ; injection E as -> ->.
  - apply IHp, S.
  - apply IH. exists b, x, a, x'. auto.
Qed.
Lemma lsub_wf ps : Acc lsub ps.
Proof. induction ps as [|p ps IH]; [apply lsub_nil|apply lsub_cons, IH]. Qed.
Lemma stepped_wf : well_founded stepped.
Proof.
  intros [ps m]. revert m. induction (lsub_wf ps) as [ps _ IH]. intros m. constructor. intros [ps' m'] (b & p & a & p' & E & E' & S).
  cbn [fst snd] in * . apply IH. exists b, p, a, p'. split; [exact E|]. split; [exact E'|]. exists m, m'. exact S.
Qed.
Lemma no_infinite (sched : nat -> list prog1 * mem T) : ~ forall i, advances (sched i) (sched (S i)).
Proof.
  intros H. assert (forall c, (exists i, sched i = c) -> False).
  { intros c. induction (stepped_wf c) as [c _ IH]. intros [i <-]. apply (IH (sched (S i))); [apply H|eauto]. }
  apply (H0 (sched 0)). eauto.
Qed.
End Interleave.
