(** Consequences for callers of the planner. *)
From Coq Require Import List Arith Lia Bool Reals ZArith ZifyNat.
From Verif Require Import Prog Num Model_Common Model_Naive Model_Fft Model_Butterflies Model_SplitRadix
  Model_Mdct Model_Plan Model_Api Spec Spec_Api Spec_Fft Spec_Plan Wp Api Contracts Naive_Objects Objects Planner Planner_Ids Canon.
Import ListNotations.
Open Scope nat_scope.
Ltac Zify.zify_post_hook ::= Z.div_mod_to_equations.

Section Any.
Context {T F : Type} {N : Num T F}.
Variable pf : nat -> fft T.

Notation anyw := (fun (_ : nat) (_ : nat -> list T) => True).

(** A planned call gives what the canonical builder gives. *)
Lemma planned {A} (m : PM (arc A)) (r : result A) cs :
  plans pf anyw m (eq r) -> rmap arc_val (snd (m (after pf cs))) = r.
Proof.
  intros H. destruct (H (after pf cs)) as (_ & _ & E); [apply after_ok, any_wanted|]. symmetry. exact E.
Qed.
Lemma planned_ex {A} (m : PM (arc A)) (r : result A) cs (P : A -> Prop) :
  plans pf anyw m (eq r) -> (exists o, r = Ok o /\ P o) -> exists a, snd (m (after pf cs)) = Ok a /\ P (arc_val a).
Proof.
  intros H (o & -> & Po). pose proof (planned m _ cs H) as E. destruct (snd (m _)) as [a|e]; [|discriminate].
  cbn [rmap] in E. apply Ok_inj in E. subst o. exists a. split; [reflexivity|exact Po].
Qed.
Lemma planned_err {A} (m : PM (arc A)) e cs :
  plans pf anyw m (eq (Err e)) -> snd (m (after pf cs)) = Err e.
Proof.
  intros H. pose proof (planned m _ cs H) as E. destruct (snd (m _)); [discriminate|]. cbn [rmap] in E. congruence.
Qed.

Lemma runs_determined (p : meth T) n sl : runs p n sl -> determined p n sl.
Proof. intros [G H]. eexists. apply computes_implements, H. Qed.
Lemma runs2_determined (p : meth T) n sl : runs2 p n sl -> determined_with_scratch p n sl.
Proof.
  intros [G H]. exists (fun x z => map (G x z) (seq 0 (length x))). intros x s Hx Hs.
  apply (computes2_call p n sl G x s H Hx Hs).
Qed.

(** *** History *)
Definition canon_of (c : pcall T) : result (instance (T:=T)) :=
  match c with
  | CDct1 n => rmap IX (canon_dct1 pf n)
  | CDct2 n | CDct3 n | CDst2 n | CDst3 n => rmap I23 (canon23 pf n)
  | CDct4 n | CDst4 n => rmap I4 (canon4 pf n)
  | CDct5 n => rmap IX (canon_dct5 n) | CDct6 n | CDct7 n => rmap IC67 (canon_c67 n)
  | CDct8 n => rmap IX (canon_dct8 n) | CDst1 n => rmap IX (canon_dst1 pf n)
  | CDst5 n => rmap IX (canon_dst5 n) | CDst6 n | CDst7 n => rmap IS67 (canon_s67 pf n)
  | CDst8 n => rmap IX (canon_dst8 n) | CMdct n w => rmap IM (canon_mdct pf n w)
  end.
Lemma value_of_rmap {A} (k : A -> instance (T:=T)) (r : result (arc A)) : value_of k r = rmap k (rmap arc_val r).
Proof. destruct r; reflexivity. Qed.
Lemma returned_canon c cs : not_mdct c -> returned_instance c (after pf cs) = canon_of c.
Proof.
  intros Hc. destruct c; cbn [returned_instance canon_of]; try contradiction;
    unfold plan_dct3, plan_dst2, plan_dst3, plan_dst4, plan_dct7, plan_dst7;
    rewrite value_of_rmap; f_equal; apply planned;
    first [apply plan_dct1_ok|apply plan_dct2_ok|apply plan_dct4_ok|apply plan_dct5_ok|apply plan_dct6_ok|apply plan_dct8_ok
          |apply plan_dst1_ok|apply plan_dst5_ok|apply plan_dst6_ok|apply plan_dst8_ok].
Qed.
Lemma history_independent c cs : not_mdct c ->
  returned_instance c (after pf cs) = returned_instance c (planner_new pf).
Proof. intros H. rewrite returned_canon by exact H. symmetry. apply (returned_canon c []), H. Qed.

(** MDCT: some window among those asked for. *)
Lemma mdct_some_window n w cs :
  exists w', (w' = w \/ In (CMdct n w') cs) /\ returned_instance (CMdct n w) (after pf cs) = canon_of (CMdct n w').
Proof.
  set (W := fun k (v : nat -> list T) => v = w \/ In (CMdct k v) cs).
  assert (Hw : Forall (wanted W) cs).
  { apply Forall_forall. intros c Hc. destruct c; try exact I. right. exact Hc. }
  destruct (plan_mdct_ok pf W n w (or_introl eq_refl) (after pf cs)) as (_ & _ & w' & Hw' & E).
  { apply after_ok, Hw. }
  exists w'. split; [exact Hw'|]. cbn [returned_instance canon_of]. rewrite value_of_rmap, <- E. reflexivity.
Qed.

Section Fits.
Hypothesis Hpf : fft_fits pf.

Lemma canon23_len n : exists o, canon23 pf n = Ok o /\ t23_len o = n.
Proof.
  destruct (canon23_ind pf Hpf (fun o k => t23_len o = k)) with (n := n) as (o & A & B & _); try reflexivity.
  - intros o k H; exact H.
  - intros k d E. apply Sem_Fft.Type2And3ConvertToFft_new_inv in E. subst d. cbn. unfold Type2And3ConvertToFft_len. cbn.
    rewrite map_length, seq_length. apply Hpf.
  - intros h q d k E Hh Hq _ _. apply Type2And3SplitRadix_new_inv in E. destruct E as (_ & _ & ->).
    cbn. unfold Type2And3SplitRadix_len. cbn. rewrite map_length, seq_length. lia.
  - exists o. split; assumption.
Qed.
Lemma canon4_len n : exists o, canon4 pf n = Ok o /\ t4_len o = n.
Proof.
  apply (canon4_ind pf Hpf (fun o k => t23_len o = k) (fun o k => t4_len o = k)).
  - apply canon23_len.
  - intros k. apply Type4Naive_len_new.
  - intros i k Hi _. rewrite (t4e_new_eq i k Hi). cbn. unfold Type4ConvertToType3Even_len. cbn.
    rewrite map_length, seq_length. lia.
  - intros k d E. apply Type4ConvertToFftOdd_new_inv in E. destruct E as [_ ->]. cbn. apply Hpf.
Qed.

Lemma canon_mdct_eq n w w' : w (n * 2) = w' (n * 2) -> canon_mdct pf n w = canon_mdct pf n w'.
Proof.
  intros E. unfold canon_mdct. destruct (canon4_len n) as (o & -> & L). cbn [rbind]. unfold MdctViaDct4_new.
  rewrite L, E. reflexivity.
Qed.
Lemma mdct_history n w cs :
  (forall w', In (CMdct n w') cs -> w' (n * 2) = w (n * 2)) ->
  returned_instance (CMdct n w) (after pf cs) = returned_instance (CMdct n w) (planner_new pf).
Proof.
  intros H. destruct (mdct_some_window n w cs) as (w' & Hw & ->).
  destruct (mdct_some_window n w []) as (w2 & [->|[]] & E2). change (after pf []) with (planner_new pf) in E2. rewrite E2.
  cbn [canon_of]. f_equal. apply canon_mdct_eq. destruct Hw as [->|Hw]; [reflexivity|]. apply H, Hw.
Qed.

(** *** When the planner panics *)
Lemma id_of_value {A} (r : result (arc A)) : id_of r = None <-> exists e, rmap arc_val r = Err e.
Proof. destruct r as [a|e]; cbn; split; intros H; try discriminate; [destruct H; discriminate|eauto|reflexivity]. Qed.

Lemma canon_dct1_err n : (exists e, canon_dct1 pf n = Err e) <-> n < 2.
Proof.
  unfold canon_dct1. destruct (Nat.ltb_spec n 10).
  - destruct (le_lt_dec 2 n) as [H2|H2].
    + destruct (Dct1Naive_new_some (T:=T) n H2) as [d ->]. cbn [rmap]. split; [intros [e E]; discriminate|lia].
    + destruct n as [|[|n]]; [..|lia]; cbn; split; intros _; try lia; eauto.
  - destruct (dct1_fft_new_ok pf Hpf ((n - 1) * 2)) as [d ->]; [lia|]. cbn [rmap]. split; [intros [e E]; discriminate|lia].
Qed.
Lemma canon_dct5_err n : (exists e, canon_dct5 (T:=T) n = Err e) <-> n = 0.
Proof.
  unfold canon_dct5. destruct n as [|n]; [cbn; split; eauto|].
  destruct (Dct5Naive_new_some (T:=T) (S n) ltac:(lia)) as [d ->]. cbn [rmap]. split; [intros [e E]; discriminate|lia].
Qed.
Lemma canon_c67_err n : (exists e, canon_c67 (T:=T) n = Err e) <-> n = 0.
Proof.
  unfold canon_c67. destruct n as [|n]; [cbn; split; eauto|].
  destruct (Dct6And7Naive_new_some (T:=T) (S n) ltac:(lia)) as [d ->]. cbn [rmap]. split; [intros [e E]; discriminate|lia].
Qed.
Lemma canon_dst8_err n : (exists e, canon_dst8 (T:=T) n = Err e) <-> n = 0.
Proof.
  unfold canon_dst8. destruct n as [|n]; [cbn; split; eauto|].
  destruct (Dst8Naive_new_some (T:=T) (S n) ltac:(lia)) as [d ->]. cbn [rmap]. split; [intros [e E]; discriminate|lia].
Qed.
Lemma canon_mdct_err n w : (exists e, canon_mdct pf n w = Err e) <-> (n mod 2 = 1 \/ length (w (n * 2)) <> n * 2).
Proof.
  unfold canon_mdct. destruct (canon4_len n) as (o & -> & L). cbn [rbind]. unfold MdctViaDct4_new, rassert. rewrite L.
  destruct (Nat.eqb_spec (n mod 2) 0); cbn [rbind rmap].
  - destruct (Nat.eqb_spec (length (w (n * 2))) (n * 2)); cbn [rbind rmap]; split; try (intros [e' E]; discriminate); eauto; lia.
  - split; [intros _; left; lia|eauto].
Qed.
Lemma canon_dst1_err n : ~ exists e, canon_dst1 pf n = Err e.
Proof.
  unfold canon_dst1. destruct (Nat.ltb_spec n 25); [intros [e E]; discriminate|].
  destruct (dst1_fft_new_ok pf Hpf ((n + 1) * 2)) as [d ->]; [lia|lia|]. intros [e E]; discriminate.
Qed.
Lemma canon_s67_err n : ~ exists e, canon_s67 pf n = Err e.
Proof.
  unfold canon_s67. destruct (Nat.ltb_spec n 45); [intros [e E]; discriminate|].
  destruct (s67_fft_new_ok pf Hpf (n * 2 + 1)) as [d ->]; [lia|]. intros [e E]; discriminate.
Qed.

(** *** The window of the MDCT *)
Lemma canon_mdct_odd n w w' : n mod 2 = 1 -> canon_mdct pf n w = canon_mdct pf n w'.
Proof.
  intros E. unfold canon_mdct. destruct (canon4_len n) as (o & -> & L). cbn [rbind]. unfold MdctViaDct4_new, rassert. rewrite L.
  destruct (Nat.eqb_spec (n mod 2) 0); [lia|]. reflexivity.
Qed.
Lemma find_app {A} (f : A -> bool) l1 l2 :
  find f (l1 ++ l2) = match find f l1 with Some a => Some a | None => find f l2 end.
Proof. induction l1 as [|a l IH]; [reflexivity|]. cbn. destruct (f a); [reflexivity|exact IH]. Qed.
Lemma find_first {A} (f : A -> bool) l a : find f l = Some a ->
  exists l1 l2, l = l1 ++ a :: l2 /\ f a = true /\ find f l1 = None.
Proof.
  induction l as [|b l IH]; [discriminate|]. cbn [find]. destruct (f b) eqn:E.
  - intros H. injection H as <-. exists [], l. split; [reflexivity|]. split; [exact E|reflexivity].
  - intros H. destruct (IH H) as (l1 & l2 & -> & Ha & Hn). exists (b :: l1), l2. split; [reflexivity|]. split; [exact Ha|].
    cbn [find]. rewrite E. exact Hn.
Qed.
Lemma valid_window_inv n (c : pcall T) : valid_window n c = true -> exists w, c = CMdct n w /\ length (w (n * 2)) = n * 2.
Proof.
  destruct c; cbn [valid_window]; try discriminate. intros E. apply andb_prop in E. destruct E as [E1 E2].
  apply Nat.eqb_eq in E1. apply Nat.eqb_eq in E2. subst. eauto.
Qed.

(** Nothing is cached for [n] without an even [n] and a valid window. *)
Lemma mdct_uncached cs n : (n mod 2 = 1 \/ find (valid_window n) cs = None) ->
  cache_get (mdct_cache (after pf cs)) n = None.
Proof.
  intros H. destruct (cache_get (mdct_cache (after pf cs)) n) as [a|] eqn:E; [|reflexivity]. exfalso.
  set (W := fun k (v : nat -> list T) => In (CMdct k v) cs).
  assert (Hw : Forall (wanted W) cs).
  { apply Forall_forall. intros c Hc. destruct c; try exact I. exact Hc. }
  assert (K0 : ok_cache (mdct_cache (after pf cs)) (some_window pf W)) by apply (inv_caches _ _ _ (after_ok pf W cs Hw)).
  destruct (K0 n a E) as (w & Hin & Ev).
  destruct (canon_mdct_err n w) as [_ K].
  destruct H as [H|H]; [destruct K as [e K]; [left; exact H|congruence]|].
  destruct K as [e K]; [|congruence]. right. intros L.
  apply (find_none _ _ H (CMdct n w)) in Hin. cbn [valid_window] in Hin. rewrite Nat.eqb_refl, L, Nat.eqb_refl in Hin. discriminate.
Qed.
Lemma mdct_uncached_value cs n w : cache_get (mdct_cache (after pf cs)) n = None ->
  rmap arc_val (snd (plan_mdct n w (after pf cs))) = canon_mdct pf n w.
Proof.
  intros E. unfold plan_mdct, cached. rewrite E.
  destruct (new_mdct_ok pf anyw n w (after pf cs)) as (_ & _ & Ev & _); [apply after_ok, any_wanted|].
  destruct (plan_new_mdct n w (after pf cs)) as [p' [a|e]]; cbn [snd] in *; symmetry; exact Ev.
Qed.
Lemma mdct_first_window n w cs :
  returned_instance (CMdct n w) (after pf cs) = canon_of (CMdct n (window_in_force cs n w)).
Proof.
  cbn [returned_instance canon_of]. rewrite value_of_rmap. f_equal. unfold window_in_force.
  destruct (find (valid_window n) cs) as [c|] eqn:Ef.
  2: { apply mdct_uncached_value, mdct_uncached. right. exact Ef. }
  destruct (find_first _ _ _ Ef) as (l1 & l2 & -> & Hv & Hn). destruct (valid_window_inv _ _ Hv) as (w0 & -> & L0).
  destruct (Nat.eq_dec (n mod 2) 1) as [Hodd|Hev].
  { rewrite (canon_mdct_odd n w0 w Hodd). apply mdct_uncached_value, mdct_uncached. left. exact Hodd. }
  pose proof (mdct_uncached l1 n (or_intror Hn)) as U.
  pose proof (mdct_uncached_value l1 n w0 U) as V.
  destruct (snd (plan_mdct n w0 (after pf l1))) as [a|e] eqn:Ea.
  2: { exfalso. cbn [rmap] in V. assert (X : exists e, canon_mdct pf n w0 = Err e) by eauto. apply canon_mdct_err in X. lia. }
  assert (I1 : Inv pf anyw (after pf l1)) by apply after_ok, any_wanted.
  destruct (slot_mdct pf anyw n w0 (after pf l1) a I1 Ea) as [S _].
  destruct (exec_ok pf anyw (CMdct n w0) (after pf l1) I I1) as [I2 X1].
  destruct (fold_ok pf anyw l2 (exec (CMdct n w0) (after pf l1)) (any_wanted l2) I2) as [I3 X2].
  assert (C : cache_get (mdct_cache (after pf (l1 ++ CMdct n w0 :: l2))) n = Some a).
  { unfold after. rewrite fold_left_app. cbn [fold_left]. destruct X2 as [_ X2]. apply X2. exact S. }
  unfold plan_mdct. rewrite (cached_hit _ _ _ _ _ _ C). cbn [snd]. exact V.
Qed.

Lemma returned_arc_instance c p : returned_arc c p = None <-> exists e, returned_instance c p = Err e.
Proof.
  destruct c; cbn [returned_arc returned_instance]; match goal with |- id_of ?r = None <-> _ => destruct r end; cbn;
    split; intros H; try discriminate; try (destruct H; discriminate); eauto.
Qed.
Lemma rmap_err {A B} (k : A -> B) (r : result A) : (exists e, rmap k r = Err e) <-> (exists e, r = Err e).
Proof. destruct r; cbn; split; intros [x E]; try discriminate; injection E as ->; eauto. Qed.

Lemma window_in_force_in (cs : list (pcall T)) n w : let w' := window_in_force cs n w in
  (w' = w \/ In (CMdct n w') cs) /\
  forall v, (v = w \/ In (CMdct n v) cs) -> length (v (n * 2)) = n * 2 -> length (w' (n * 2)) = n * 2.
Proof.
  unfold window_in_force. destruct (find (valid_window n) cs) as [c|] eqn:E.
  - pose proof (find_some _ _ E) as [Hin Hv]. destruct (valid_window_inv _ _ Hv) as (w0 & -> & L). split; [right; exact Hin|].
    intros _ _ _. exact L.
  - split; [left; reflexivity|]. intros v [->|Hin] L; [exact L|]. exfalso.
    apply (find_none _ _ E) in Hin. cbn [valid_window] in Hin. rewrite Nat.eqb_refl, L, Nat.eqb_refl in Hin. discriminate.
Qed.
Lemma panics_exactly c cs : returned_arc c (after pf cs) = None <-> refuses cs c.
Proof.
  rewrite returned_arc_instance.
  assert (D : not_mdct c \/ exists n w, c = CMdct n w) by (destruct c; cbn; eauto).
  destruct D as [D|(n & w & ->)].
  - rewrite returned_canon by exact D. destruct c; cbn [canon_of refuses]; try contradiction; rewrite rmap_err;
      first [apply canon_dct1_err|apply canon_dct5_err|apply canon_c67_err|apply canon_dst8_err|idtac];
      (split; [|intros []]).
    all: intros H; first
      [ destruct (canon23_len n) as (o & E & _); rewrite E in H; destruct H; discriminate
      | destruct (canon4_len n) as (o & E & _); rewrite E in H; destruct H; discriminate
      | apply canon_dst1_err in H; exact H | apply canon_s67_err in H; exact H
      | destruct H; discriminate ].
  - cbn [refuses]. rewrite mdct_first_window. cbn [canon_of]. rewrite rmap_err, canon_mdct_err.
    destruct (window_in_force_in cs n w) as [A B]. split.
    + intros [Hodd|Hl]; [left; exact Hodd|]. right. intros v Hv L. apply Hl, (B v Hv L).
    + intros [Hodd|H]; [left; exact Hodd|]. right. apply H, A.
Qed.

(** A panicking call may be dropped from the history. *)
Lemma panic_forgotten cs c cs2 d : returned_arc c (after pf cs) = None ->
  returned_instance d (after pf (cs ++ c :: cs2)) = returned_instance d (after pf (cs ++ cs2)).
Proof.
  intros Hp. assert (D : not_mdct d \/ exists n w, d = CMdct n w) by (destruct d; cbn; eauto).
  destruct D as [D|(n & w & ->)]; [rewrite !returned_canon by exact D; reflexivity|].
  rewrite !mdct_first_window. cbn [canon_of]. f_equal.
  destruct (Nat.eq_dec (n mod 2) 1) as [Hodd|Hev]; [apply canon_mdct_odd, Hodd|]. f_equal.
  unfold window_in_force. rewrite !find_app. destruct (find (valid_window n) cs); [reflexivity|]. cbn [find].
  destruct (valid_window n c) eqn:Ev; [|reflexivity]. exfalso. destruct (valid_window_inv _ _ Ev) as (v & -> & L).
  apply panics_exactly in Hp. cbn [refuses] in Hp. destruct Hp as [|Hp]; [lia|]. apply (Hp v); [left; reflexivity|exact L].
Qed.

(** *** The planner's recursion ends *)
Lemma canon_of_err c e : canon_of c = Err e -> e = EAssert \/ e = EOverflow.
Proof.
  destruct c as [n|n|n|n|n|n|n|n|n|n|n|n|n|n|n|n|n w]; cbn [canon_of].
  all: try (destruct (canon23_len n) as (o & -> & _); discriminate).
  all: try (destruct (canon4_len n) as (o & -> & _); discriminate).
  all: try discriminate.
  - unfold canon_dct1. destruct (Nat.ltb_spec n 10).
    + unfold Dct1Naive_new, rassert, rsub. destruct (negb _); [|intros E; injection E as <-; auto]. cbn [rbind].
      destruct (1 <=? n); [discriminate|intros E; injection E as <-; auto].
    + destruct (dct1_fft_new_ok pf Hpf ((n - 1) * 2)) as [d ->]; [lia|discriminate].
  - unfold canon_dct5, Dct5Naive_new, rsub. destruct (1 <=? _); [discriminate|intros E; injection E as <-; auto].
  - unfold canon_c67, Dct6And7Naive_new, rsub. destruct (1 <=? _); [|intros E; injection E as <-; auto]. cbn [rbind].
    destruct (2 <=? _); [discriminate|intros E; injection E as <-; auto].
  - unfold canon_c67, Dct6And7Naive_new, rsub. destruct (1 <=? _); [|intros E; injection E as <-; auto]. cbn [rbind].
    destruct (2 <=? _); [discriminate|intros E; injection E as <-; auto].
  - unfold canon_dst1. destruct (Nat.ltb_spec n 25); [discriminate|].
    destruct (dst1_fft_new_ok pf Hpf ((n + 1) * 2)) as [d ->]; [lia|lia|discriminate].
  - unfold canon_s67. destruct (Nat.ltb_spec n 45); [discriminate|].
    destruct (s67_fft_new_ok pf Hpf (n * 2 + 1)) as [d ->]; [lia|discriminate].
  - unfold canon_s67. destruct (Nat.ltb_spec n 45); [discriminate|].
    destruct (s67_fft_new_ok pf Hpf (n * 2 + 1)) as [d ->]; [lia|discriminate].
  - unfold canon_dst8, Dst8Naive_new, rsub. destruct (1 <=? _); [|intros E; injection E as <-; auto]. cbn [rbind].
    destruct (2 <=? _); [discriminate|intros E; injection E as <-; auto].
  - unfold canon_mdct. destruct (canon4_len n) as (o & -> & _). cbn [rbind]. unfold MdctViaDct4_new, rassert.
    destruct (_ =? 0); [|intros E; injection E as <-; auto]. cbn [rbind].
    destruct (_ =? _); [discriminate|intros E; injection E as <-; auto].
Qed.
Lemma returned_err c cs e : returned_instance c (after pf cs) = Err e -> e = EAssert \/ e = EOverflow.
Proof.
  assert (D : not_mdct c \/ exists n w, c = CMdct n w) by (destruct c; cbn; eauto).
  destruct D as [D|(n & w & ->)].
  - rewrite returned_canon by exact D. apply canon_of_err.
  - rewrite mdct_first_window. apply canon_of_err.
Qed.
Lemma returned_no_fuel c cs : returned_instance c (after pf cs) <> Err EFuel.
Proof. intros E. apply returned_err in E. destruct E; discriminate. Qed.
Lemma mdct_new_window n w cs :
  returned_instance (CMdct n w) (after pf cs) = returned_instance (CMdct n (window_in_force cs n w)) (planner_new pf).
Proof. rewrite mdct_first_window. symmetry. apply (mdct_first_window n _ []). Qed.

(** *** Lengths *)
Lemma planned_len c cs i : returned_instance c (after pf cs) = Ok i -> instance_len i = snd (request c).
Proof.
  assert (D : not_mdct c \/ exists n w, c = CMdct n w) by (destruct c; cbn; eauto).
  destruct D as [D|(n & w & ->)].
  - rewrite returned_canon by exact D. intros E.
    destruct c as [n|n|n|n|n|n|n|n|n|n|n|n|n|n|n|n|n w]; cbn [canon_of request snd] in *; try contradiction;
    match type of E with rmap _ ?r = _ => destruct r as [o|] eqn:Eo; [|discriminate] end; cbn [rmap] in E; apply Ok_inj in E; subst i; cbn [instance_len].
    all: try (destruct (canon23_len n) as (o' & E' & L); rewrite Eo in E'; apply Ok_inj in E'; subst o'; exact L).
    all: try (destruct (canon4_len n) as (o' & E' & L); rewrite Eo in E'; apply Ok_inj in E'; subst o'; exact L).
    + unfold canon_dct1 in Eo. destruct (Nat.ltb_spec n 10).
      * destruct (Dct1Naive_new n) as [d|] eqn:Ed; [|discriminate]. apply Ok_inj in Eo. subst o. apply (Dct1Naive_len_new n d Ed).
      * destruct (Dct1ConvertToFft_new _) as [d|] eqn:Ed; [|discriminate]. apply Ok_inj in Eo. subst o. revert Ed.
        unfold Dct1ConvertToFft_new, rassert. destruct (_ =? 0); [|discriminate]. cbn [rbind].
        destruct (dir_eqb _ _); [|discriminate]. cbn [rbind]. intros E. apply Ok_inj in E. subst d. cbn [Dct1ConvertToFft_obj x_len dct1f_len].
        destruct (Hpf ((n - 1) * 2)) as [-> _]. lia.
    + unfold canon_dct5 in Eo. destruct (Dct5Naive_new n) as [d|] eqn:Ed; [|discriminate]. apply Ok_inj in Eo. subst o. apply (Dct5Naive_len_new n d Ed).
    + unfold canon_c67 in Eo. destruct (Dct6And7Naive_new n) as [d|] eqn:Ed; [|discriminate]. apply Ok_inj in Eo. subst o. apply (Dct6And7Naive_len_new n d Ed).
    + unfold canon_c67 in Eo. destruct (Dct6And7Naive_new n) as [d|] eqn:Ed; [|discriminate]. apply Ok_inj in Eo. subst o. apply (Dct6And7Naive_len_new n d Ed).
    + apply Ok_inj in Eo. subst o. apply Dct8Naive_len_new.
    + unfold canon_dst1 in Eo. destruct (Nat.ltb_spec n 25).
      * apply Ok_inj in Eo. subst o. apply Dst1Naive_len_new.
      * destruct (Dst1ConvertToFft_new _) as [d|] eqn:Ed; [|discriminate]. apply Ok_inj in Eo. subst o. revert Ed.
        unfold Dst1ConvertToFft_new, rassert, rsub. destruct (_ =? 0); [|discriminate]. cbn [rbind].
        destruct (dir_eqb _ _); [|discriminate]. cbn [rbind]. destruct (1 <=? _); [|discriminate]. cbn [rbind].
        intros E. apply Ok_inj in E. subst d. cbn [Dst1ConvertToFft_obj x_len dst1f_len]. destruct (Hpf ((n + 1) * 2)) as [-> _]. lia.
    + apply Ok_inj in Eo. subst o. apply Dst5Naive_len_new.
    + unfold canon_s67 in Eo. destruct (Nat.ltb_spec n 45).
      * apply Ok_inj in Eo. subst o. apply Dst6And7Naive_len_new.
      * destruct (Dst6And7ConvertToFft_new _) as [d|] eqn:Ed; [|discriminate]. apply Ok_inj in Eo. subst o.
        apply Sem_Fft2.Dst6And7ConvertToFft_new_inv in Ed. destruct Ed as [_ ->]. cbn [Dst6And7ConvertToFft_obj s67_len s67f_len]. destruct (Hpf (n * 2 + 1)) as [-> _]. lia.
    + unfold canon_s67 in Eo. destruct (Nat.ltb_spec n 45).
      * apply Ok_inj in Eo. subst o. apply Dst6And7Naive_len_new.
      * destruct (Dst6And7ConvertToFft_new _) as [d|] eqn:Ed; [|discriminate]. apply Ok_inj in Eo. subst o.
        apply Sem_Fft2.Dst6And7ConvertToFft_new_inv in Ed. destruct Ed as [_ ->]. cbn [Dst6And7ConvertToFft_obj s67_len s67f_len]. destruct (Hpf (n * 2 + 1)) as [-> _]. lia.
    + unfold canon_dst8 in Eo. destruct (Dst8Naive_new n) as [d|] eqn:Ed; [|discriminate]. apply Ok_inj in Eo. subst o. apply (Dst8Naive_len_new n d Ed).
  - destruct (mdct_some_window n w cs) as (w' & _ & ->). cbn [canon_of request snd]. unfold canon_mdct.
    destruct (canon4_len n) as (o & -> & L). cbn [rbind]. unfold MdctViaDct4_new, rassert.
    destruct (_ =? 0); [|discriminate]. cbn [rbind rmap]. destruct (_ =? _); [|discriminate]. cbn [rbind rmap].
    intros E. apply Ok_inj in E. subst i. exact L.
Qed.
End Fits.
End Any.

(** *** In exact arithmetic *)
Lemma exact_does p n sl t : exact p n sl t -> does p n sl (transform t).
Proof. intros H. split; [|apply implements_process]; apply computes_transform, H. Qed.
Lemma exact2_does p n sl t : exact2 p n sl t -> does_zeroed p n sl (transform t).
Proof.
  intros (G & H & E). assert (K : implements_zeroed p n sl (transform t)).
  { eapply computes2_zeroed; [exact H|]. intros x Hx. unfold transform. apply map_ext_in. intros k Hk.
    apply in_seq in Hk. apply E; [exact Hx|lia]. }
  split; [exact K|]. apply implements_zeroed_process, K.
Qed.
Lemma does_does_zeroed p n sl t : does p n sl t -> does_zeroed p n sl t.
Proof. intros [H K]. split; [apply implements_implements_zeroed, H|exact K]. Qed.

Section Exact.
Variable pf : nat -> fft R.
Hypothesis Hpf : fft_fits pf.
Hypothesis Hex : fft_all_exact pf.
Variable cs : list (pcall R).
Let p := after pf cs.

Lemma planned_dct1 n : 2 <= n -> exists a, snd (plan_dct1 n p) = Ok a /\
  x_len (arc_val a) = n /\ does (x_run (arc_val a)) n (x_scratch (arc_val a)) dct1.
Proof.
  intros Hn. destruct (planned_ex pf _ _ cs _ (plan_dct1_ok pf _ n) (canon_dct1_exact pf Hpf Hex n Hn)) as (a & E & L & K).
  exists a. split; [exact E|]. split; [exact L|]. apply exact_does, K.
Qed.
Lemma planned_23 n : exists a, snd (plan_dct2 n p) = Ok a /\ t23_len (arc_val a) = n /\
  does (t_dct2 (arc_val a)) n (t23_scratch (arc_val a)) dct2 /\
  does (t_dst2 (arc_val a)) n (t23_scratch (arc_val a)) dst2 /\
  (0 < n -> does (t_dct3 (arc_val a)) n (t23_scratch (arc_val a)) dct3) /\
  (0 < n -> does (t_dst3 (arc_val a)) n (t23_scratch (arc_val a)) dst3).
Proof.
  destruct (planned_ex pf _ _ cs _ (plan_dct2_ok pf _ n) (canon23_exact pf Hpf Hex n)) as (a & E & L & K2 & S2 & K3 & S3).
  exists a. split; [exact E|]. split; [exact L|].
  split; [apply exact_does, K2|]. split; [apply exact_does, S2|]. split; intros H; apply exact_does; [apply K3, H|apply S3, H].
Qed.
Lemma planned_4 n : exists a, snd (plan_dct4 n p) = Ok a /\ t4_len (arc_val a) = n /\
  does (t_dct4 (arc_val a)) n (t4_scratch (arc_val a)) dct4 /\
  does (t_dst4 (arc_val a)) n (t4_scratch (arc_val a)) dst4.
Proof.
  destruct (planned_ex pf _ _ cs _ (plan_dct4_ok pf _ n) (canon4_exact pf Hpf Hex n)) as (a & E & L & K & S).
  exists a. split; [exact E|]. split; [exact L|]. split; apply exact_does; assumption.
Qed.
Lemma planned_dct5 n : 1 <= n -> exists a, snd (plan_dct5 n p) = Ok a /\
  x_len (arc_val a) = n /\ does (x_run (arc_val a)) n (x_scratch (arc_val a)) dct5.
Proof.
  intros Hn. destruct (planned_ex pf _ _ cs _ (plan_dct5_ok pf _ n) (canon_dct5_exact n Hn)) as (a & E & L & K).
  exists a. split; [exact E|]. split; [exact L|]. apply exact_does, K.
Qed.
Lemma planned_c67 n : 1 <= n -> exists a, snd (plan_dct6 n p) = Ok a /\ c67_len (arc_val a) = n /\
  does (t_dct6 (arc_val a)) n (c67_scratch (arc_val a)) dct6 /\
  does (t_dct7 (arc_val a)) n (c67_scratch (arc_val a)) dct7.
Proof.
  intros Hn. destruct (planned_ex pf _ _ cs _ (plan_dct6_ok pf _ n) (canon_c67_exact n Hn)) as (a & E & L & K & S).
  exists a. split; [exact E|]. split; [exact L|]. split; apply exact_does; assumption.
Qed.
Lemma planned_dct8 n : exists a, snd (plan_dct8 n p) = Ok a /\
  x_len (arc_val a) = n /\ does (x_run (arc_val a)) n (x_scratch (arc_val a)) dct8.
Proof.
  destruct (planned_ex pf _ _ cs _ (plan_dct8_ok pf _ n) (canon_dct8_exact n)) as (a & E & L & K).
  exists a. split; [exact E|]. split; [exact L|]. apply exact_does, K.
Qed.
Lemma planned_dst1 n : exists a, snd (plan_dst1 n p) = Ok a /\
  x_len (arc_val a) = n /\ does_zeroed (x_run (arc_val a)) n (x_scratch (arc_val a)) dst1 /\
  (n < 25 -> does (x_run (arc_val a)) n (x_scratch (arc_val a)) dst1).
Proof.
  destruct (planned_ex pf _ _ cs (fun o => exact2_x o n dst1_at /\ (n < 25 -> exact_x o n dst1_at)) (plan_dst1_ok pf _ n))
    as (a & E & [L K] & K25).
  { destruct (canon_dst1_exact pf Hpf Hex n) as (o & E & H). exists o. split; [exact E|]. split; [exact H|]. intros Hn.
    unfold canon_dst1 in E. destruct (Nat.ltb_spec n 25); [|lia]. apply Ok_inj in E. subst o.
    unfold exact_x, Dst1Naive_obj. cbn [x_len x_run x_scratch]. unfold Dst1Naive_scratch. rewrite Dst1Naive_len_new.
    split; [reflexivity|]. apply Exact_Naive.dst1_naive_computes. }
  exists a. split; [exact E|]. split; [exact L|]. split; [apply exact2_does, K|]. intros H. apply exact_does, (K25 H).
Qed.
Lemma planned_dst5 n : exists a, snd (plan_dst5 n p) = Ok a /\
  x_len (arc_val a) = n /\ does (x_run (arc_val a)) n (x_scratch (arc_val a)) dst5.
Proof.
  destruct (planned_ex pf _ _ cs _ (plan_dst5_ok pf _ n) (canon_dst5_exact n)) as (a & E & L & K).
  exists a. split; [exact E|]. split; [exact L|]. apply exact_does, K.
Qed.
Lemma planned_s67 n : exists a, snd (plan_dst6 n p) = Ok a /\ s67_len (arc_val a) = n /\
  does_zeroed (t_dst6 (arc_val a)) n (s67_scratch (arc_val a)) dst6 /\
  does_zeroed (t_dst7 (arc_val a)) n (s67_scratch (arc_val a)) dst7 /\
  (n < 45 -> does (t_dst6 (arc_val a)) n (s67_scratch (arc_val a)) dst6 /\
             does (t_dst7 (arc_val a)) n (s67_scratch (arc_val a)) dst7).
Proof.
  destruct (planned_ex pf _ _ cs (fun o => exact2_s67 o n /\ (n < 45 -> exact (t_dst6 o) n (s67_scratch o) dst6_at /\
      exact (t_dst7 o) n (s67_scratch o) dst7_at)) (plan_dst6_ok pf _ n)) as (a & E & (L & K & S) & K45).
  { destruct (canon_s67_exact pf Hpf Hex n) as (o & E & H). exists o. split; [exact E|]. split; [exact H|]. intros Hn.
    unfold canon_s67 in E. destruct (Nat.ltb_spec n 45); [|lia]. apply Ok_inj in E. subst o.
    unfold Dst6And7Naive_obj. cbn [s67_scratch t_dst6 t_dst7]. unfold Dst6And7Naive_scratch. rewrite Dst6And7Naive_len_new.
    split; [apply Exact_Naive.dst6_naive_computes|apply Exact_Naive.dst7_naive_computes]. }
  exists a. split; [exact E|]. split; [exact L|]. split; [apply exact2_does, K|]. split; [apply exact2_does, S|].
  intros H. split; apply exact_does; apply (K45 H).
Qed.
Lemma planned_dst8 n : 1 <= n -> exists a, snd (plan_dst8 n p) = Ok a /\
  x_len (arc_val a) = n /\ does (x_run (arc_val a)) n (x_scratch (arc_val a)) dst8.
Proof.
  intros Hn. destruct (planned_ex pf _ _ cs _ (plan_dst8_ok pf _ n) (canon_dst8_exact n Hn)) as (a & E & L & K).
  exists a. split; [exact E|]. split; [exact L|]. apply exact_does, K.
Qed.
End Exact.
