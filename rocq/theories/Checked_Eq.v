(** Arithmetic that stays within [MAX] changes nothing: the steps. *)
From Coq Require Import List Arith Bool Lia FunctionalExtensionality ZArith ZifyNat.
From Verif Require Import Prog Num Model_Common Model_Checked.
Import ListNotations.
Open Scope nat_scope.
Ltac Zify.zify_post_hook ::= Z.div_mod_to_equations.

(** [q], a program of build [B], does what [p] does; where [p] panics because of a
    subtraction below zero, a release build may do anything. *)
Inductive follows (B : build) {T A} : prog T A -> prog T A -> Prop :=
| follows_ret a : follows B (Ret a) (Ret a)
| follows_rd c k k' : (forall v, follows B (k' v) (k v)) -> follows B (Rd c k') (Rd c k)
| follows_wr c v k k' : follows B k' k -> follows B (Wr c v k') (Wr c v k)
| follows_panic e : follows B (Panic e) (Panic e)
| follows_ub : follows B UB UB
| follows_over q : B = Release -> follows B q (Panic EOverflow).

Section Eq.
Context {T : Type}.
Notation P := (prog T).
Variable B : build.
Variable MAX : nat.
Notation "q ~> p" := (follows B q p) (at level 70).

Lemma follows_refl {A} (p : P A) : p ~> p.
Proof. induction p; constructor; auto. Qed.
Lemma follows_run {A} (q p : P A) m : q ~> p ->
  (B = Debug \/ forall m', run p m <> Panicked EOverflow m') -> run q m = run p m.
Proof.
  intros H. revert m. induction H; intros m H1; cbn in *; auto.
  destruct H1 as [->|H1]; [discriminate|]. exfalso. now apply (H1 m).
Qed.

Lemma bind_ext2 {A C} (p q : P A) (f g : A -> P C) :
  p ~> q -> (forall a, f a ~> g a) -> bind p f ~> bind q g.
Proof.
  intros H Hf. induction H; cbn.
  - apply Hf.
  - constructor; auto.
  - constructor; auto.
  - constructor.
  - constructor.
  - apply follows_over; auto.
Qed.
Lemma bind_ext {A C} (p : P A) (f g : A -> P C) : (forall a, f a ~> g a) -> bind p f ~> bind p g.
Proof. apply bind_ext2, follows_refl. Qed.

Lemma rd_ext {C} s i (f g : T -> P C) : (i < slen s -> forall v, f v ~> g v) -> bind (rd s i) f ~> bind (rd s i) g.
Proof. unfold rd. destruct (Nat.ltb_spec i (slen s)); intros H0; auto using follows_refl. apply bind_ext; auto. Qed.
Lemma rdu_ext {C} s i (f g : T -> P C) : (i < slen s -> forall v, f v ~> g v) -> bind (rdu s i) f ~> bind (rdu s i) g.
Proof. unfold rdu. destruct (Nat.ltb_spec i (slen s)); intros H0; auto using follows_refl. apply bind_ext; auto. Qed.
Lemma wr_ext {C} s i v (f g : unit -> P C) : (i < slen s -> f tt ~> g tt) -> bind (wr s i v) f ~> bind (wr s i v) g.
Proof. unfold wr. destruct (Nat.ltb_spec i (slen s)); intros H0; auto using follows_refl. apply bind_ext; intros []; auto. Qed.
Lemma wru_ext {C} s i v (f g : unit -> P C) : (i < slen s -> f tt ~> g tt) -> bind (wru s i v) f ~> bind (wru s i v) g.
Proof. unfold wru. destruct (Nat.ltb_spec i (slen s)); intros H0; auto using follows_refl. apply bind_ext; intros []; auto. Qed.
Lemma crd_re_ext {C} s i (f g : T -> P C) : (i < clen s -> forall v, f v ~> g v) -> bind (crd_re s i) f ~> bind (crd_re s i) g.
Proof. unfold crd_re. destruct (Nat.ltb_spec i (clen s)); intros H0; auto using follows_refl. apply bind_ext; auto. Qed.
Lemma crd_im_ext {C} s i (f g : T -> P C) : (i < clen s -> forall v, f v ~> g v) -> bind (crd_im s i) f ~> bind (crd_im s i) g.
Proof. unfold crd_im. destruct (Nat.ltb_spec i (clen s)); intros H0; auto using follows_refl. apply bind_ext; auto. Qed.
Lemma crd_ext {C} s i (f g : T * T -> P C) : (i < clen s -> forall v, f v ~> g v) -> bind (crd s i) f ~> bind (crd s i) g.
Proof. unfold crd, crd_re. destruct (Nat.ltb_spec i (clen s)); intros H0; auto using follows_refl. apply bind_ext; auto. Qed.
Lemma cwr_ext {C} s i v (f g : unit -> P C) : (i < clen s -> f tt ~> g tt) -> bind (cwr s i v) f ~> bind (cwr s i v) g.
Proof. unfold cwr. destruct (Nat.ltb_spec i (clen s)); intros H0; auto using follows_refl. apply bind_ext; intros []; auto. Qed.
Lemma idx_ext {X C} (l : list X) i (f g : X -> P C) :
  (i < length l -> forall v, f v ~> g v) -> bind (idx l i) f ~> bind (idx l i) g.
Proof.
  unfold idx. destruct (nth_error l i) eqn:E; intros H; auto using follows_refl. apply bind_ext; apply H.
  apply nth_error_Some. congruence.
Qed.
Lemma idxu_ext {X C} (l : list X) i (f g : X -> P C) :
  (i < length l -> forall v, f v ~> g v) -> bind (idxu l i) f ~> bind (idxu l i) g.
Proof.
  unfold idxu. destruct (nth_error l i) eqn:E; intros H; auto using follows_refl. apply bind_ext; apply H.
  apply nth_error_Some. congruence.
Qed.
Lemma usub_follows a b : usub_ck B MAX a b ~> usub (T := T) a b.
Proof.
  unfold usub_ck, usub. destruct (b <=? a); [apply follows_refl|].
  unfold overflow. destruct B eqn:E; [constructor|]. now apply follows_over.
Qed.
Lemma usub_ext {C} a b (f g : nat -> P C) :
  (b <= a -> f (a - b) ~> g (a - b)) -> bind (usub_ck B MAX a b) f ~> bind (usub a b) g.
Proof.
  intros H. unfold usub_ck, usub. destruct (Nat.leb_spec b a); [now apply H|].
  unfold overflow. destruct B eqn:E; cbn; [constructor|]. now apply follows_over.
Qed.
Lemma usub_ok a b : b <= a -> usub a b = Ret (T := T) (a - b).
Proof. unfold usub. intros H. apply Nat.leb_le in H. now rewrite H. Qed.
Lemma split_ext {C} s n (f g : slice * slice -> P C) :
  (n <= slen s -> f (mkS (base s) n, mkS (base s + n) (slen s - n)) ~> g (mkS (base s) n, mkS (base s + n) (slen s - n))) ->
  bind (split_at_mut s n) f ~> bind (split_at_mut s n) g.
Proof. unfold split_at_mut. destruct (Nat.leb_spec n (slen s)); intros H0; cbn; auto using follows_refl. Qed.
Lemma csplit_ext {C} s n (f g : cslice * cslice -> P C) :
  (n <= clen s -> f (mkC (cbase s) n, mkC (cbase s + 2 * n) (clen s - n)) ~> g (mkC (cbase s) n, mkC (cbase s + 2 * n) (clen s - n))) ->
  bind (csplit_at_mut s n) f ~> bind (csplit_at_mut s n) g.
Proof. unfold csplit_at_mut. destruct (Nat.leb_spec n (clen s)); intros H0; cbn -[Nat.mul]; auto using follows_refl. Qed.

Lemma for_range_ext a b (f g : nat -> P unit) :
  (forall i, a <= i < b -> f i ~> g i) -> for_range a b f ~> for_range a b g.
Proof.
  intros H. unfold for_range. assert (Hk : forall n i, a <= i -> i + n <= a + (b - a) -> for_n i n f ~> for_n i n g).
  { induction n as [|n IH]; intros i Hi Hn; cbn; [apply follows_refl|]. apply bind_ext2; [apply H; lia|].
    intros _. apply IH; lia. }
  apply Hk; lia.
Qed.
Lemma fold_range_ext {X} a b (x : X) (f g : nat -> X -> P X) :
  (forall i y, a <= i < b -> f i y ~> g i y) -> fold_range a b x f ~> fold_range a b x g.
Proof.
  intros H. unfold fold_range.
  assert (Hk : forall n i y, a <= i -> i + n <= a + (b - a) -> fold_n i n y f ~> fold_n i n y g).
  { induction n as [|n IH]; intros i y Hi Hn; cbn; [apply follows_refl|]. apply bind_ext2; [apply H; lia|].
    intros z. apply IH; lia. }
  apply Hk; lia.
Qed.
Lemma while_ext {X} fuel c (x : X) (f g : X -> P X) :
  (forall y, c y = true -> f y ~> g y) -> while_ fuel c f x ~> while_ fuel c g x.
Proof.
  intros H. revert x. induction fuel as [|n IH]; intros x; cbn; [apply follows_refl|].
  destruct (c x) eqn:E; [|apply follows_refl]. apply bind_ext2; auto.
Qed.
Lemma validate_ext b s n m (f g : slice -> P unit) :
  (slen b = n -> forall s', slen s' = m -> f s' ~> g s') -> validate_buffers b s n m f ~> validate_buffers b s n m g.
Proof.
  intros H. unfold validate_buffers. destruct (Nat.eqb_spec (slen b) n); cbn; [|apply follows_refl].
  unfold get_range. destruct (m <=? slen s); [|apply follows_refl]. now apply H.
Qed.
Lemma validate_mdct_ext a b c s n m (f g : slice -> P unit) :
  (slen a = n -> slen b = n -> slen c = n -> forall s', slen s' = m -> f s' ~> g s') ->
  validate_buffers_mdct a b c s n m f ~> validate_buffers_mdct a b c s n m g.
Proof.
  intros H. unfold validate_buffers_mdct.
  destruct (Nat.eqb_spec (slen a) n); cbn; [|apply follows_refl].
  destruct (Nat.eqb_spec (slen b) n); cbn; [|apply follows_refl].
  destruct (Nat.eqb_spec (slen c) n); cbn; [|apply follows_refl].
  unfold get_range. destruct (m <=? slen s); [|apply follows_refl]. now apply H.
Qed.

Lemma ulift_add x y a b : x = Ret a -> y = Ret b -> a + b <= MAX -> ulift (T := T) (uadd B MAX) x y = Ret (a + b).
Proof. intros -> -> H. unfold ulift, uadd. cbn. apply Nat.leb_le in H. now rewrite H. Qed.
Lemma ulift_mul x y a b : x = Ret a -> y = Ret b -> a * b <= MAX -> ulift (T := T) (umul B MAX) x y = Ret (a * b).
Proof. intros -> -> H. unfold ulift, umul. cbn. apply Nat.leb_le in H. now rewrite H. Qed.
Lemma ulift_sub x y a b : x = Ret a -> y = Ret b -> b <= a -> ulift (T := T) (usub_ck B MAX) x y = Ret (a - b).
Proof. intros -> -> H. unfold ulift, usub_ck. cbn. apply Nat.leb_le in H. now rewrite H. Qed.
Lemma ret_bind {A C} (p : P A) a (f : A -> P C) q : p = Ret a -> f a ~> q -> bind p f ~> q.
Proof. now intros ->. Qed.
Lemma ret_bind_eq {A C} (p : P A) a (f : A -> P C) q : p = Ret a -> f a = q -> bind p f = q.
Proof. now intros -> <-. Qed.
End Eq.

Lemma rof_bind {T A B} (p : prog T A) a (f : A -> result B) q : p = Ret a -> f a = q -> rbind (rof p) f = q.
Proof. now intros -> <-. Qed.
Lemma rbind_ext2 {A B} (p q : result A) (f g : A -> result B) :
  p = q -> (forall a, p = Ok a -> f a = g a) -> rbind p f = rbind q g.
Proof. intros <- H. destruct p; cbn; auto. Qed.
Lemma rmap_list_ok {A B} (f : A -> result B) g l :
  (forall x, In x l -> f x = Ok (g x)) -> rmap_list f l = Ok (map g l).
Proof.
  induction l as [|x l IH]; intros H; cbn; [reflexivity|].
  rewrite H by (now left). cbn. rewrite IH by (intros; apply H; now right). reflexivity.
Qed.

(** Loop bounds without divisions. *)
Lemma bound2 a i n : a <= i < n / 2 -> a <= i /\ 2 * i + 2 <= n.
Proof. lia. Qed.
Lemma bound4 a i n : a <= i < n / 4 -> a <= i /\ 4 * i + 4 <= n.
Proof. lia. Qed.
Ltac ckbound H := first [apply bound2 in H | apply bound4 in H | idtac].

(** Evaluates a checked expression. *)
Ltac ueval tac :=
  first
    [ reflexivity
    | eapply ulift_add; [ueval tac | ueval tac | tac]
    | eapply ulift_mul; [ueval tac | ueval tac | tac]
    | eapply ulift_sub; [ueval tac | ueval tac | tac]
    | eapply ret_bind_eq; [ueval tac | cbv beta; reflexivity] ].

Ltac ckstep tac :=
  lazymatch goal with
  | |- follows _ (bind (ulift _ _ _) _) (_) => eapply ret_bind; [ueval tac | cbv beta]
  | |- follows _ (bind (bind (ulift _ _ _) _) _) (_) => eapply ret_bind; [ueval tac | cbv beta]
  | |- follows _ (bind (Ret _) _) (_) => cbn [bind]
  | |- follows _ (_) (bind (Ret _) _) => cbn [bind]
  | |- follows _ (validate_buffers _ _ _ _ _) (_) => apply validate_ext; intros ? ? ?
  | |- follows _ (validate_buffers_mdct _ _ _ _ _ _ _) (_) => apply validate_mdct_ext; intros ? ? ? ? ?
  | |- follows _ (bind (rd _ _) _) (bind _ _) => apply rd_ext; intros ? ?
  | |- follows _ (bind (rdu _ _) _) (bind _ _) => apply rdu_ext; intros ? ?
  | |- follows _ (bind (wr _ _ _) _) (bind _ _) => apply wr_ext; intros ?
  | |- follows _ (bind (wru _ _ _) _) (bind _ _) => apply wru_ext; intros ?
  | |- follows _ (bind (crd _ _) _) (bind _ _) => apply crd_ext; intros ? ?
  | |- follows _ (bind (crd_re _ _) _) (bind _ _) => apply crd_re_ext; intros ? ?
  | |- follows _ (bind (crd_im _ _) _) (bind _ _) => apply crd_im_ext; intros ? ?
  | |- follows _ (bind (cwr _ _ _) _) (bind _ _) => apply cwr_ext; intros ?
  | |- follows _ (bind (idx _ _) _) (bind _ _) => apply idx_ext; intros ? ?
  | |- follows _ (bind (idxu _ _) _) (bind _ _) => apply idxu_ext; intros ? ?
  | |- follows _ (bind (usub_ck _ _ _ _) _) (bind _ _) => apply usub_ext; intros ?
  | |- follows _ (bind (split_at_mut _ _) _) (bind _ _) => apply split_ext; intros ?; cbn [fst snd]
  | |- follows _ (bind (csplit_at_mut _ _) _) (bind _ _) => apply csplit_ext; intros ?; cbn [fst snd]
  | |- follows _ (for_range _ _ _) (for_range _ _ _) => apply for_range_ext; let i := fresh in let H := fresh in intros i H; ckbound H
  | |- follows _ (fold_range _ _ _ _) (fold_range _ _ _ _) => apply fold_range_ext; let i := fresh in let x := fresh in let H := fresh in intros i x H; ckbound H
  | |- follows _ (while_ _ _ _ _) (while_ _ _ _ _) => apply while_ext; intros ? ?
  | |- follows _ (bind (for_range _ _ _) _) (bind (for_range _ _ _) _) => apply bind_ext2; [|intros ?]
  | |- follows _ (bind (fold_range _ _ _ _) _) (bind (fold_range _ _ _ _) _) => apply bind_ext2; [|intros ?]
  | |- follows _ (bind (while_ _ _ _ _) _) (bind (while_ _ _ _ _) _) => apply bind_ext2; [|intros ?]
  | |- follows _ (bind (if ?c then _ else _) _) (bind (if ?c then _ else _) _) => apply bind_ext2; [|intros ?]
  | |- follows _ ((if ?c then _ else _)) ((if ?c then _ else _)) => destruct c eqn:?
  | |- follows _ ((let '(_, _) := ?p in _)) (_) => destruct p; cbn [fst snd] in *
  | |- follows _ (?x) (?y) => first [constr_eq x y; apply follows_refl | apply usub_follows | apply bind_ext; intros ? | apply bind_ext2; [solve [auto] | intros ?] | solve [auto] | apply follows_refl]
  end.
Ltac ck tac := repeat (ckstep tac).

(** The same for constructors. *)
Ltac rckstep tac :=
  lazymatch goal with
  | |- rbind (rof _) _ = _ => eapply rof_bind; [ueval tac | cbv beta]
  | |- rbind (rmap_list _ _) _ = _ => erewrite rmap_list_ok; [cbn [rbind] | intros ? ?; cbv beta]
  | |- rbind (rassert _) _ = rbind (rassert _) _ => apply rbind_ext2; [reflexivity | intros ? ?]
  | |- rbind (Ok _) _ = _ => cbn [rbind]
  | |- _ = _ => reflexivity
  end.
Ltac rck tac := repeat (rckstep tac).
Lemma rsub_ok a b : b <= a -> rsub a b = Ok (a - b).
Proof. unfold rsub. intros H. apply Nat.leb_le in H. now rewrite H. Qed.

(** Objects and constructors. *)
Section Objects.
Context {T : Type}.
Variable B : build.
Definition meth_follows (f g : meth T) : Prop := forall b s, follows B (f b s) (g b s).
Definition meth4_follows (f g : slice -> slice -> slice -> slice -> prog T unit) : Prop :=
  forall a b c s, follows B (f a b c s) (g a b c s).
Definition x_follows (x' x : xform T) : Prop :=
  x_len x' = x_len x /\ x_scratch x' = x_scratch x /\ meth_follows (x_run x') (x_run x).
Definition t23_follows (x' x : t23 T) : Prop :=
  t23_len x' = t23_len x /\ t23_scratch x' = t23_scratch x /\
  meth_follows (t_dct2 x') (t_dct2 x) /\ meth_follows (t_dct3 x') (t_dct3 x) /\
  meth_follows (t_dst2 x') (t_dst2 x) /\ meth_follows (t_dst3 x') (t_dst3 x).
Definition t4_follows (x' x : t4 T) : Prop :=
  t4_len x' = t4_len x /\ t4_scratch x' = t4_scratch x /\
  meth_follows (t_dct4 x') (t_dct4 x) /\ meth_follows (t_dst4 x') (t_dst4 x).
Definition c67_follows (x' x : c67 T) : Prop :=
  c67_len x' = c67_len x /\ c67_scratch x' = c67_scratch x /\
  meth_follows (t_dct6 x') (t_dct6 x) /\ meth_follows (t_dct7 x') (t_dct7 x).
Definition s67_follows (x' x : s67 T) : Prop :=
  s67_len x' = s67_len x /\ s67_scratch x' = s67_scratch x /\
  meth_follows (t_dst6 x') (t_dst6 x) /\ meth_follows (t_dst7 x') (t_dst7 x).
Definition mdct_follows (x' x : mdct T) : Prop :=
  m_len x' = m_len x /\ m_scratch x' = m_scratch x /\
  meth4_follows (t_mdct x') (t_mdct x) /\ meth4_follows (t_imdct x') (t_imdct x).
Definition res_follows {A} (R : A -> A -> Prop) (r' r : result A) : Prop :=
  match r', r with
  | Ok x', Ok x => R x' x
  | Err e', Err e => e' = e
  | _, _ => False
  end \/ (B = Release /\ r = Err EOverflow).
End Objects.
