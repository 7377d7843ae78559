(** Which calls of the planner return the same [Arc]. *)
From Coq Require Import List Arith Lia.
From Verif Require Import Prog Num Model_Common Model_Plan Spec_Plan Wp Planner.
Import ListNotations.

Section Ids.
Context {T F : Type} {N : Num T F}.
Variable pf : nat -> fft T.
Notation anyw := (fun (_ : nat) (_ : nat -> list T) => True).
Notation Inv := (Inv pf anyw).

Definition idof {A} (o : option (arc A)) : option nat := option_map arc_id o.
Definition at_slot (s : group * nat) (p : planner T) : option nat :=
  let '(g, n) := s in
  match g with
  | G1 => idof (cache_get (dct1_cache p) n) | G23 => idof (cache_get (dct23_cache p) n)
  | G4 => idof (cache_get (dct4_cache p) n) | G5 => idof (cache_get (dct5_cache p) n)
  | G67 => idof (cache_get (dct6_cache p) n) | G8 => idof (cache_get (dct8_cache p) n)
  | GS1 => idof (cache_get (dst1_cache p) n) | GS5 => idof (cache_get (dst5_cache p) n)
  | GS67 => idof (cache_get (dst6_cache p) n) | GS8 => idof (cache_get (dst8_cache p) n)
  | GM => idof (cache_get (mdct_cache p) n)
  end.
Definition tag (g : group) : nat :=
  match g with G1 => 1 | G23 => 2 | G4 => 4 | G5 => 5 | G67 => 6 | G8 => 8 | GS1 => 11 | GS5 => 15
  | GS67 => 16 | GS8 => 18 | GM => 20 end.
Lemma tag_inj g h : tag g = tag h -> g = h. Proof. destruct g, h; intros H; try reflexivity; discriminate. Qed.

Lemma idof_some {A} (o : option (arc A)) i : idof o = Some i -> exists a, o = Some a /\ arc_id a = i.
Proof. destruct o as [a|]; [|discriminate]. intros E. injection E as E. eauto. Qed.

Lemma at_slot_in g n p i : at_slot (g, n) p = Some i -> In (tag g, n, i) (entries p).
Proof.
  destruct g; cbn [at_slot tag]; intros E; apply idof_some in E; destruct E as (a & E & <-);
    unfold entries; rewrite !in_app_iff;
    repeat first [apply cache_get_in; exact E | left; apply cache_get_in; exact E | right].
Qed.
Lemma at_slot_ext s p q i : ext p q -> at_slot s p = Some i -> at_slot s q = Some i.
Proof.
  intros [_ X]. unfold ext_caches in X. repeat match goal with H : _ /\ _ |- _ => destruct H end.
  destruct s as [g n]; destruct g; cbn [at_slot]; intros E; apply idof_some in E; destruct E as (a & E & <-);
    match goal with G : grows ?c _ , E : cache_get ?c _ = _ |- _ => rewrite (G _ _ E); reflexivity end.
Qed.
Ltac unf := unfold plan_dct3, plan_dst2, plan_dst3, plan_dst4, plan_dct7, plan_dst7 in * .

Lemma hit c p i : at_slot (request c) p = Some i -> returned_arc c p = Some i.
Proof.
  destruct c; cbn [request at_slot returned_arc]; unf; intros E; apply idof_some in E; destruct E as (a & E & <-);
    match goal with |- id_of (snd ?m) = _ => replace m with (p, Ok a) by (symmetry; apply cached_hit; exact E) end; reflexivity.
Qed.
Lemma ret c p i : Inv p -> returned_arc c p = Some i ->
  at_slot (request c) (exec c p) = Some i /\ (at_slot (request c) p = Some i \/ p_next p <= i).
Proof.
  intros Hp. destruct c as [n|n|n|n|n|n|n|n|n|n|n|n|n|n|n|n|n w]; cbn [request at_slot returned_arc exec]; unf.
  all: match goal with
  | |- context [plan_dct1 ?n] => pose proof (slot_dct1 pf anyw n p) as S
  | |- context [plan_dct2 ?n] => pose proof (slot_dct2 pf anyw n p) as S
  | |- context [plan_dct4 ?n] => pose proof (slot_dct4 pf anyw n p) as S
  | |- context [plan_dct5 ?n] => pose proof (slot_dct5 pf anyw n p) as S
  | |- context [plan_dct6 ?n] => pose proof (slot_dct6 pf anyw n p) as S
  | |- context [plan_dct8 ?n] => pose proof (slot_dct8 pf anyw n p) as S
  | |- context [plan_dst1 ?n] => pose proof (slot_dst1 pf anyw n p) as S
  | |- context [plan_dst5 ?n] => pose proof (slot_dst5 pf anyw n p) as S
  | |- context [plan_dst6 ?n] => pose proof (slot_dst6 pf anyw n p) as S
  | |- context [plan_dst8 ?n] => pose proof (slot_dst8 pf anyw n p) as S
  | |- context [plan_mdct ?n ?w] => pose proof (slot_mdct pf anyw n w p) as S
  end.
  all: match goal with |- id_of (snd ?m) = _ -> _ => destruct m as [p' [a|e]] end; cbn [id_of fst snd] in *; intros E; [|discriminate].
  all: injection E as <-; destruct (S a Hp eq_refl) as [A [B|B]]; rewrite A; (split; [reflexivity|]).
  all: first [right; exact B | left; rewrite B; reflexivity].
Qed.

Lemma same_id g n h m p i : Inv p -> at_slot (g, n) p = Some i -> at_slot (h, m) p = Some i -> (g, n) = (h, m).
Proof.
  intros Hp A B. apply at_slot_in in A. apply at_slot_in in B. pose proof (inv_nodup _ _ _ Hp) as Nd.
  unfold ids in Nd. revert A B Nd. generalize (entries p). intros l.
  induction l as [|e l IH]; [intros []|]. cbn [map]. intros A B Nd. inversion Nd as [|x y Hx Hl]; subst.
  destruct A as [->|A], B as [B|B].
  - injection B as E1 E2. apply tag_inj in E1. congruence.
  - exfalso. apply Hx. apply (in_map snd) in B. exact B.
  - subst e. exfalso. apply Hx. apply (in_map snd) in A. exact A.
  - apply IH; assumption.
Qed.

Lemma any_wanted (cs : list (pcall T)) : Forall (wanted anyw) cs.
Proof. induction cs as [|c cs IH]; constructor; [|exact IH]. destruct c; exact I. Qed.

(** Two successful calls return the same [Arc] exactly when they ask for the same
    group and length. *)
Lemma arcs_shared cs1 c cs2 d i j :
  returned_arc c (after pf cs1) = Some i ->
  returned_arc d (after pf (cs1 ++ c :: cs2)) = Some j ->
  (i = j <-> request c = request d).
Proof.
  intros Hc Hd. set (p := after pf cs1) in * .
  assert (Ep : after pf (cs1 ++ c :: cs2) = fold_left (fun p c => exec c p) cs2 (exec c p)).
  { unfold after. rewrite fold_left_app. reflexivity. }
  rewrite Ep in Hd. set (q := fold_left _ cs2 _) in * .
  assert (Ip : Inv p) by (apply after_ok, any_wanted).
  destruct (exec_ok pf anyw c p) as [I1 X1]; [destruct c; exact I|exact Ip|].
  destruct (fold_ok pf anyw cs2 (exec c p) (any_wanted cs2) I1) as [Iq Xq]. fold q in Iq, Xq.
  destruct (ret c p i Ip Hc) as [Sc _].
  pose proof (at_slot_ext _ _ _ _ Xq Sc) as Sq.
  split.
  - intros <-. destruct (ret d q i Iq Hd) as [_ [B|B]].
    + destruct (request c), (request d). eapply same_id; eassumption.
    + exfalso. destruct (request c). apply at_slot_in in Sq.
      pose proof (inv_below _ _ _ Iq i) as K. unfold ids in K. specialize (K (in_map snd _ _ Sq)). lia.
  - intros E. rewrite E in Sq. apply hit in Sq. congruence.
Qed.

(** Once planned, always planned. *)
Lemma arcs_again cs c cs2 d i : returned_arc c (after pf cs) = Some i -> request c = request d ->
  returned_arc d (after pf (cs ++ c :: cs2)) = Some i.
Proof.
  intros Hc E. set (p := after pf cs) in * .
  assert (Ep : after pf (cs ++ c :: cs2) = fold_left (fun p c => exec c p) cs2 (exec c p)).
  { unfold after. rewrite fold_left_app. reflexivity. }
  rewrite Ep. set (q := fold_left _ cs2 _) in * .
  assert (Ip : Inv p) by (apply after_ok, any_wanted).
  destruct (exec_ok pf anyw c p) as [I1 X1]; [destruct c; exact I|exact Ip|].
  destruct (fold_ok pf anyw cs2 (exec c p) (any_wanted cs2) I1) as [Iq Xq]. fold q in Iq, Xq.
  destruct (ret c p i Ip Hc) as [Sc _]. pose proof (at_slot_ext _ _ _ _ Xq Sc) as Sq.
  rewrite E in Sq. apply hit, Sq.
Qed.

(** A repeated call leaves the planner as it was. *)
Lemma repeat_idle c cs d cs' i : request c = request d ->
  returned_arc c (after pf cs) = Some i ->
  exec d (after pf (cs ++ c :: cs')) = after pf (cs ++ c :: cs').
Proof.
  intros Er Hc. set (p := after pf cs) in * .
  assert (Ep : after pf (cs ++ c :: cs') = fold_left (fun p c => exec c p) cs' (exec c p)).
  { unfold after. rewrite fold_left_app. reflexivity. }
  rewrite Ep. set (q := fold_left _ cs' _) in * .
  assert (Ip : Inv p) by (apply after_ok, any_wanted).
  destruct (exec_ok pf anyw c p) as [I1 X1]; [destruct c; exact I|exact Ip|].
  destruct (fold_ok pf anyw cs' (exec c p) (any_wanted cs') I1) as [Iq Xq]. fold q in Iq, Xq.
  destruct (ret c p i Ip Hc) as [Sc _].
  pose proof (at_slot_ext _ _ _ _ Xq Sc) as Sq. rewrite Er in Sq. clearbody q.
  destruct d; cbn [request at_slot exec] in *; unf; apply idof_some in Sq; destruct Sq as (a & E & _);
    match goal with |- fst ?m = _ => replace m with (q, Ok a) by (symmetry; apply cached_hit; exact E) end; reflexivity.
Qed.
End Ids.
