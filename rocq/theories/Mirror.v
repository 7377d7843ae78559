(** Mirror images: what claim C69 needs of the functions that the transforms of power-of-two length compute. *)
From Coq Require Import List Arith Lia Bool ZArith ZifyNat.
From Verif Require Import Prog Num Model_Common Model_Naive Model_Butterflies Model_SplitRadix Wp Sem_Naive Sem_Split Sem_Split2 Sem_Butterflies Spec_Levels Levels Levels_Plan.
Import ListNotations.
Open Scope nat_scope.

Section Mirror.
Context {T F : Type} {N : Num T F}.
Open Scope num_scope.
(** [op b x y]: equal, or opposite if [b] holds. *)
Variable op : bool -> T -> T -> Prop.
Record sign_laws : Prop := mkSignLaws {
  o_refl : forall x, op false x x;
  o_trans : forall b c x y z, op b x y -> op c y z -> op (xorb b c) x z;
  o_sym : forall b x y, op b x y -> op b y x;
  o_neg : forall b x y, op b x y -> op b (neg x) (neg y);
  o_opp : forall x, op true x (neg x);
  o_add : forall b x x' y y', op b x x' -> op b y y' -> op b (x +. y) (x' +. y');
  o_sub : forall b x x' y y', op b x x' -> op b y y' -> op b (x -. y) (x' -. y');
  o_mul : forall b x x' c, op b x x' -> op b (x *. c) (x' *. c);
  o_comm : forall x y, op false (x +. y) (y +. x);
  o_subneg : forall x y, op false (x -. y) (x +. neg y)
}.
Hypothesis L : sign_laws.
Lemma o_trans' b c d x y z : op b x y -> op c y z -> d = xorb b c -> op d x z.
Proof. intros A B ->. exact (o_trans L _ _ _ _ _ A B). Qed.
Lemma o_addc b x x' y y' : op b x y' -> op b y x' -> op b (x +. y) (x' +. y').
Proof. intros A B. eapply o_trans'; [apply (o_add L); eassumption|apply (o_comm L)|destruct b; reflexivity]. Qed.
Lemma o_negl b x y : op (negb b) x y -> op b (neg x) y.
Proof. intros A. eapply o_trans'; [apply (o_sym L), (o_opp L)|exact A|destruct b; reflexivity]. Qed.
Lemma o_negr b x y : op (negb b) x y -> op b x (neg y).
Proof. intros A. apply (o_sym L), o_negl, (o_sym L), A. Qed.
Lemma o_addsub b x x' y y' : op b x x' -> op (negb b) y y' -> op b (x +. y) (x' -. y').
Proof. intros A B. eapply o_trans'; [|apply (o_sym L), (o_subneg L)|symmetry; apply xorb_false_r]. apply (o_add L); [exact A|]. apply o_negr, B. Qed.
Lemma o_subadd b x x' y y' : op b x x' -> op (negb b) y y' -> op b (x -. y) (x' +. y').
Proof. intros A B. apply (o_sym L), o_addsub; apply (o_sym L); assumption. Qed.
Lemma o_subc b x x' y y' : op (negb b) x y' -> op (negb b) y x' -> op b (x -. y) (x' -. y').
Proof.
  intros A B. eapply (o_trans' false b); [apply (o_subneg L)| |destruct b; reflexivity]. eapply o_trans'; [|apply (o_sym L), (o_subneg L)|symmetry; apply xorb_false_r].
  apply o_addc; [apply o_negr, A|apply o_negl, B].
Qed.
Lemma o_same x y : op false x y -> op true (x -. y) (x -. y).
Proof. intros H. apply o_subc; [exact H|apply (o_sym L), H]. Qed.

Definition odd_b (b : bool) (j : nat) : bool := xorb b (Nat.odd j).
Definition resp (n : nat) (g : list T -> nat -> T) : Prop :=
  forall b x x', length x = n -> length x' = n -> (forall i, i < n -> op b (nth i x zero) (nth i x' zero)) -> forall j, j < n -> op b (g x j) (g x' j).
(** The mirrored vector. *)
Definition mirr (n : nat) (g : list T -> nat -> T) : Prop :=
  forall b x x', length x = n -> length x' = n -> (forall i, i < n -> op b (nth i x zero) (nth (n - 1 - i) x' zero)) -> forall j, j < n -> op (odd_b b j) (g x j) (g x' j).
(** Every second entry negated. *)
Definition alter (n : nat) (g : list T -> nat -> T) : Prop :=
  forall b x x', length x = n -> length x' = n -> (forall i, i < n -> op (odd_b b i) (nth i x zero) (nth i x' zero)) -> forall j, j < n -> op b (g x j) (g x' (n - 1 - j)).
(** A vector of equal entries. *)
Fixpoint doubled (k : nat) (c : T) : T := match k with 0 => c | S k => doubled k (c +. c) end.
Definition flat (k : nat) (g : list T -> nat -> T) : Prop :=
  forall x c, length x = 2 ^ k -> (forall i, i < 2 ^ k -> op false c (nth i x zero)) ->
  op false (doubled k c) (g x 0) /\ forall j, 0 < j < 2 ^ k -> op true (g x j) (g x j).
Lemma doubled_op k b x y : op b x y -> op b (doubled k x) (doubled k y).
Proof. revert x y. induction k as [|k IH]; intros x y H; [exact H|]. apply IH, (o_add L); exact H. Qed.

Ltac cs8 k Hk := destruct k as [|[|[|[|[|[|[|[|k]]]]]]]]; [..|exfalso; lia].
Ltac cs4 k Hk := destruct k as [|[|[|[|k]]]]; [..|exfalso; lia].
Ltac cs2 k Hk := destruct k as [|[|k]]; [..|exfalso; lia].
Ltac cs16 k Hk := destruct k as [|[|[|[|[|[|[|[|[|[|[|[|[|[|[|[|k]]]]]]]]]]]]]]]]; [..|exfalso; lia].
Ltac leaf := match goal with
  | H : forall i, i < ?n -> op _ (nth i ?x zero) (nth i ?x' zero) |- op _ (nth ?k ?x zero) (nth _ ?x' zero) => apply H; lia
  end.
(** Structural. *)
Ltac rs1 more := first [leaf | match goal with
  | |- op _ (neg _) (neg _) => apply (o_neg L) | |- op _ (add _ _) (add _ _) => apply (o_add L) | |- op _ (sub _ _) (sub _ _) => apply (o_sub L)
  | |- op _ (mul _ _) (mul _ _) => apply (o_mul L) end | more].
Ltac sub n H cs := apply (H _ _ _); [reflexivity|reflexivity| |lia]; let q := fresh in let Hq := fresh in intros q Hq; cs q Hq; cbn [nth].
Ltac start := intros b x x' Lx Lx' Hx k Hk.
Lemma b2_dct2_r : resp 2 (fun x k => at_ (b2_dct2 x) k). Proof. start. unfold b2_dct2, at_. cs2 k Hk; cbn [nth]; repeat rs1 fail. Qed.
Lemma b2_dst2_r : resp 2 (fun x k => at_ (b2_dst2 x) k). Proof. start. unfold b2_dst2, at_. cs2 k Hk; cbn [nth]; repeat rs1 fail. Qed.
Lemma b2_dct3_r : resp 2 (fun x k => at_ (b2_dct3 x) k). Proof. start. unfold b2_dct3, at_. cs2 k Hk; cbn [nth]; repeat rs1 fail. Qed.
Lemma b2_dst3_r : resp 2 (fun x k => at_ (b2_dst3 x) k). Proof. start. unfold b2_dst3, at_. cs2 k Hk; cbn [nth]; repeat rs1 fail. Qed.
Lemma b4_dct2_r : resp 4 (fun x k => at_ (b4_dct2 Butterfly4_new x) k). Proof. start. unfold b4_dct2, Butterfly4_new, at_. cbv zeta. cs4 k Hk; cbn [nth]; repeat rs1 fail. Qed.
Lemma b4_dst2_r : resp 4 (fun x k => at_ (b4_dst2 Butterfly4_new x) k). Proof. start. unfold b4_dst2, Butterfly4_new, at_. cbv zeta. cs4 k Hk; cbn [nth]; repeat rs1 fail. Qed.
Lemma b4_dct3_r : resp 4 (fun x k => at_ (b4_dct3 Butterfly4_new x) k). Proof. start. unfold b4_dct3, Butterfly4_new, at_. cbv zeta. cs4 k Hk; cbn [nth]; repeat rs1 fail. Qed.
Lemma b4_dst3_r : resp 4 (fun x k => at_ (b4_dst3 Butterfly4_new x) k). Proof. start. unfold b4_dst3, Butterfly4_new, at_. cbv zeta. cs4 k Hk; cbn [nth]; repeat rs1 fail. Qed.
Ltac inner := idtac; match goal with
  | |- op _ (nth _ (b2_dct2 _) zero) _ => sub 2 b2_dct2_r cs2 | |- op _ (nth _ (b2_dst2 _) zero) _ => sub 2 b2_dst2_r cs2
  | |- op _ (nth _ (b2_dct3 _) zero) _ => sub 2 b2_dct3_r cs2 | |- op _ (nth _ (b2_dst3 _) zero) _ => sub 2 b2_dst3_r cs2
  | |- op _ (nth _ (b4_dct2 _ _) zero) _ => sub 4 b4_dct2_r cs4 | |- op _ (nth _ (b4_dst2 _ _) zero) _ => sub 4 b4_dst2_r cs4
  | |- op _ (nth _ (b4_dct3 _ _) zero) _ => sub 4 b4_dct3_r cs4 | |- op _ (nth _ (b4_dst3 _ _) zero) _ => sub 4 b4_dst3_r cs4
  end.
Ltac go := cbn [nth b8_tw b8_b4 Butterfly8_new b16_tw b16_b4 b16_b8 Butterfly16_new]; repeat rs1 inner.
Lemma b8_dct2_r : resp 8 (fun x k => at_ (b8_dct2 Butterfly8_new x) k). Proof. start. unfold b8_dct2, at_. cbv zeta. cs8 k Hk; go. Qed.
Lemma b8_dst2_r : resp 8 (fun x k => at_ (b8_dst2 Butterfly8_new x) k). Proof. start. unfold b8_dst2, at_. cbv zeta. cs8 k Hk; go. Qed.
Lemma b8_dct3_r : resp 8 (fun x k => at_ (b8_dct3 Butterfly8_new x) k). Proof. start. unfold b8_dct3, at_. cbv zeta. cs8 k Hk; go. Qed.
Lemma b8_dst3_r : resp 8 (fun x k => at_ (b8_dst3 Butterfly8_new x) k). Proof. start. unfold b8_dst3, at_. cbv zeta. cs8 k Hk; go. Qed.
Ltac inner16 := idtac; match goal with
  | |- op _ (nth _ (b8_dct2 _ _) zero) _ => sub 8 b8_dct2_r cs8 | |- op _ (nth _ (b8_dct3 _ _) zero) _ => sub 8 b8_dct3_r cs8
  | _ => inner end.
Ltac go16 := cbn [nth b16_tw b16_b4 b16_b8 Butterfly16_new Nat.even Nat.sub]; repeat rs1 inner16.
Lemma b16_dct2_r : resp 16 (fun x k => at_ (b16_dct2 Butterfly16_new x) k). Proof. start. unfold b16_dct2, at_. cbv zeta. cs16 k Hk; go16. Qed.
Lemma b16_dst2_r : resp 16 (fun x k => at_ (b16_dst2 Butterfly16_new x) k). Proof. start. unfold b16_dst2, at_. cbv zeta. cs16 k Hk; go16. Qed.
Lemma b16_dct3_r : resp 16 (fun x k => at_ (b16_dct3 Butterfly16_new x) k). Proof. start. unfold b16_dct3, at_. cbv zeta. cs16 k Hk; go16. Qed.
Lemma b16_dst3_r : resp 16 (fun x k => at_ (b16_dst3 Butterfly16_new x) k). Proof. start. unfold b16_dst3, at_. cbv zeta. cs16 k Hk; go16. Qed.

(** *** Mirror images, butterflies *)
Ltac ml := match goal with
  | H : forall i, i < _ -> op ?b (nth i ?x zero) (nth _ ?x' zero) |- op ?b (nth ?k ?x zero) (nth _ ?x' zero) => exact (H k ltac:(lia)) end.
Ltac ms := cbn [negb]; solve [ml | match goal with
  | |- op _ (mul _ _) (mul _ _) => apply (o_mul L); ms
  | |- op _ (add _ _) (add _ _) => first [apply (o_add L); [ms|ms] | apply o_addc; [ms|ms]]
  | |- op _ (sub _ _) (sub _ _) => first [apply (o_sub L); [ms|ms] | apply o_subc; [ms|ms]]
  | |- op _ (add _ _) (sub _ _) => apply o_addsub; [ms|ms]
  | |- op _ (sub _ _) (add _ _) => apply o_subadd; [ms|ms]
  | |- op _ (neg _) (neg _) => apply (o_neg L); ms
  | |- op _ (neg _) _ => apply o_negl; ms
  | |- op _ _ (neg _) => apply o_negr; ms
  | _ => inner16; ms end].
Ltac mstart := intros b x x' Lx Lx' Hx k Hk; unfold odd_b; destruct b.
Ltac mgo := cbn [nth xorb Nat.odd Nat.even negb b8_tw b8_b4 Butterfly8_new b16_tw b16_b4 b16_b8 Butterfly16_new Nat.sub]; ms.
Lemma b2_dct2_m : mirr 2 (fun x k => at_ (b2_dct2 x) k). Proof. mstart; unfold b2_dct2, at_; cs2 k Hk; mgo. Qed.
Lemma b2_dst2_m : mirr 2 (fun x k => at_ (b2_dst2 x) k). Proof. mstart; unfold b2_dst2, at_; cs2 k Hk; mgo. Qed.
Lemma b4_dct2_m : mirr 4 (fun x k => at_ (b4_dct2 Butterfly4_new x) k). Proof. mstart; unfold b4_dct2, Butterfly4_new, at_; cbv zeta; cs4 k Hk; mgo. Qed.
Lemma b4_dst2_m : mirr 4 (fun x k => at_ (b4_dst2 Butterfly4_new x) k). Proof. mstart; unfold b4_dst2, Butterfly4_new, at_; cbv zeta; cs4 k Hk; mgo. Qed.
Lemma b8_dct2_m : mirr 8 (fun x k => at_ (b8_dct2 Butterfly8_new x) k). Proof. mstart; unfold b8_dct2, at_; cbv zeta; cs8 k Hk; mgo. Qed.
Lemma b8_dst2_m : mirr 8 (fun x k => at_ (b8_dst2 Butterfly8_new x) k). Proof. mstart; unfold b8_dst2, at_; cbv zeta; cs8 k Hk; mgo. Qed.
Lemma b16_dct2_m : mirr 16 (fun x k => at_ (b16_dct2 Butterfly16_new x) k). Proof. mstart; unfold b16_dct2, at_; cbv zeta; cs16 k Hk; mgo. Qed.
Lemma b16_dst2_m : mirr 16 (fun x k => at_ (b16_dst2 Butterfly16_new x) k). Proof. mstart; unfold b16_dst2, at_; cbv zeta; cs16 k Hk; mgo. Qed.

(** *** Every second entry negated, butterflies *)
Lemma o_addsubc b x x' y y' : op b y x' -> op (negb b) x y' -> op b (x +. y) (x' -. y').
Proof. intros A B. eapply (o_trans' false b); [apply (o_comm L)|apply o_addsub; eassumption|destruct b; reflexivity]. Qed.
Lemma o_subaddc b x x' y y' : op b x y' -> op (negb b) y x' -> op b (x -. y) (x' +. y').
Proof. intros A B. apply (o_sym L), o_addsubc; apply (o_sym L); assumption. Qed.
Ltac al := match goal with
  | H : forall i, i < _ -> op (odd_b _ i) (nth i ?x zero) (nth i ?x' zero) |- op _ (nth ?k ?x zero) (nth ?k ?x' zero) => exact (H k ltac:(lia)) end.
Ltac as_ := cbn [negb]; solve [al | match goal with
  | |- op _ (mul _ _) (mul _ _) => apply (o_mul L); as_
  | |- op _ (add _ _) (add _ _) => apply (o_add L); [as_|as_]
  | |- op _ (sub _ _) (sub _ _) => apply (o_sub L); [as_|as_]
  | |- op _ (add _ _) (sub _ _) => first [apply o_addsub; [as_|as_] | apply o_addsubc; [as_|as_]]
  | |- op _ (sub _ _) (add _ _) => first [apply o_subadd; [as_|as_] | apply o_subaddc; [as_|as_]]
  | |- op _ (neg _) (neg _) => apply (o_neg L); as_
  | |- op _ (neg _) _ => apply o_negl; as_
  | |- op _ _ (neg _) => apply o_negr; as_
  | _ => inner16; as_ end].
Ltac ago := cbn [nth xorb Nat.odd Nat.even negb b8_tw b8_b4 Butterfly8_new b16_tw b16_b4 b16_b8 Butterfly16_new Nat.sub]; as_.
Ltac astart := intros b x x' Lx Lx' Hx k Hk; destruct b.
Lemma b2_dct3_a : alter 2 (fun x k => at_ (b2_dct3 x) k). Proof. astart; unfold b2_dct3, at_; cs2 k Hk; ago. Qed.
Lemma b2_dst3_a : alter 2 (fun x k => at_ (b2_dst3 x) k). Proof. astart; unfold b2_dst3, at_; cs2 k Hk; ago. Qed.
Lemma b4_dct3_a : alter 4 (fun x k => at_ (b4_dct3 Butterfly4_new x) k). Proof. astart; unfold b4_dct3, Butterfly4_new, at_; cbv zeta; cs4 k Hk; ago. Qed.
Lemma b4_dst3_a : alter 4 (fun x k => at_ (b4_dst3 Butterfly4_new x) k). Proof. astart; unfold b4_dst3, Butterfly4_new, at_; cbv zeta; cs4 k Hk; ago. Qed.
Lemma b8_dct3_a : alter 8 (fun x k => at_ (b8_dct3 Butterfly8_new x) k). Proof. astart; unfold b8_dct3, at_; cbv zeta; cs8 k Hk; ago. Qed.
Lemma b8_dst3_a : alter 8 (fun x k => at_ (b8_dst3 Butterfly8_new x) k). Proof. astart; unfold b8_dst3, at_; cbv zeta; cs8 k Hk; ago. Qed.
Lemma b16_dct3_a : alter 16 (fun x k => at_ (b16_dct3 Butterfly16_new x) k). Proof. astart; unfold b16_dct3, at_; cbv zeta; cs16 k Hk; ago. Qed.
Lemma b16_dst3_a : alter 16 (fun x k => at_ (b16_dst3 Butterfly16_new x) k). Proof. astart; unfold b16_dst3, at_; cbv zeta; cs16 k Hk; ago. Qed.

(** *** Equal entries, butterflies *)
Lemma flat_odd k n g x c : mirr n g -> n = 2 ^ k -> length x = n -> (forall i, i < n -> op false c (nth i x zero)) -> forall j, Nat.odd j = true -> j < n -> op true (g x j) (g x j).
Proof.
  intros M E Lx Hx j O Hj. specialize (M false x x Lx Lx). unfold odd_b in M. specialize (M (fun i Hi => o_trans L false false _ _ _ (o_sym L _ _ _ (Hx i Hi)) (Hx (n - 1 - i) ltac:(lia))) j Hj).
  rewrite O in M. exact M.
Qed.
Lemma b2_dct2_f : flat 1 (fun x k => at_ (b2_dct2 x) k).
Proof.
  intros x c Lx Hx. split.
  - unfold b2_dct2, at_. cbn [nth doubled]. apply (o_add L); apply Hx; cbn; lia.
  - intros j Hj. destruct (Nat.odd j) eqn:O; [apply (flat_odd 1 2 _ x c b2_dct2_m eq_refl Lx Hx j O (proj2 Hj))|]. cbn in Hj. assert (j = 1) by lia. subst. discriminate.
Qed.
Lemma b4_dct2_f : flat 2 (fun x k => at_ (b4_dct2 Butterfly4_new x) k).
Proof.
  intros x c Lx Hx. split.
  - unfold b4_dct2, at_. cbn [nth doubled]. apply (o_add L); apply (o_add L); apply Hx; cbn; lia.
  - intros j Hj. destruct (Nat.odd j) eqn:O; [apply (flat_odd 2 4 _ x c b4_dct2_m eq_refl Lx Hx j O (proj2 Hj))|]. cbn in Hj. assert (j = 2) by (destruct j as [|[|[|[|j]]]]; try discriminate; lia). subst.
    unfold b4_dct2, at_. cbn [nth]. apply (o_mul L), o_same. apply (o_trans' false false false _ (c +. c)); [apply (o_sym L)| |reflexivity]; apply (o_add L); apply Hx; cbn; lia.
Qed.
Lemma b8_dct2_f : flat 3 (fun x k => at_ (b8_dct2 Butterfly8_new x) k).
Proof.
  intros x c Lx Hx. change (2 ^ 3) with 8 in * .
  destruct (b4_dct2_f [nth 0 x zero +. nth 7 x zero; nth 1 x zero +. nth 6 x zero; nth 2 x zero +. nth 5 x zero; nth 3 x zero +. nth 4 x zero] (c +. c) eq_refl) as [A B].
  { change (2 ^ 2) with 4. intros i Hi. cs4 i Hi; cbn [nth]; apply (o_add L); apply Hx; lia. }
  split; [exact A|]. intros j Hj. destruct (Nat.odd j) eqn:O; [apply (flat_odd 3 8 _ x c b8_dct2_m eq_refl Lx Hx j O (proj2 Hj))|].
  destruct j as [|[|[|[|[|[|[|[|j]]]]]]]]; try discriminate; try lia; [apply (B 1)|apply (B 2)|apply (B 3)]; cbn; lia.
Qed.
Lemma b16_dct2_f : flat 4 (fun x k => at_ (b16_dct2 Butterfly16_new x) k).
Proof.
  intros x c Lx Hx. change (2 ^ 4) with 16 in * .
  destruct (b8_dct2_f [nth 0 x zero +. nth 15 x zero; nth 1 x zero +. nth 14 x zero; nth 2 x zero +. nth 13 x zero; nth 3 x zero +. nth 12 x zero;
    nth 4 x zero +. nth 11 x zero; nth 5 x zero +. nth 10 x zero; nth 6 x zero +. nth 9 x zero; nth 7 x zero +. nth 8 x zero] (c +. c) eq_refl) as [A B].
  { change (2 ^ 3) with 8. intros i Hi. cs8 i Hi; cbn [nth]; apply (o_add L); apply Hx; lia. }
  split; [exact A|]. intros j Hj. destruct (Nat.odd j) eqn:O; [apply (flat_odd 4 16 _ x c b16_dct2_m eq_refl Lx Hx j O (proj2 Hj))|].
  destruct j as [|[|[|[|[|[|[|[|[|[|[|[|[|[|[|[|j]]]]]]]]]]]]]]]]; try discriminate; try lia; [apply (B 1)|apply (B 2)|apply (B 3)|apply (B 4)|apply (B 5)|apply (B 6)|apply (B 7)]; cbn; lia.
Qed.
End Mirror.
