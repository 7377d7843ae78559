(** The planner: what a call returns does not depend on the calls before it, and
    what is cached stays cached. *)
From Coq Require Import List Arith Lia Bool Permutation ZArith ZifyNat.
From Verif Require Import Prog Num Model_Common Model_Naive Model_Fft Model_Butterflies
  Model_SplitRadix Model_Mdct Model_Plan Wp.
Import ListNotations.
Ltac Zify.zify_post_hook ::= Z.div_mod_to_equations.

Section Planner.
Context {T F : Type} {N : Num T F}.
Variable pf : nat -> fft T.      (* what the FFT planner returns *)

(** ** What each method builds, without caches *)
Definition canon_dct1 (n : nat) : result (xform T) :=
  if n <? 10 then rmap Dct1Naive_obj (Dct1Naive_new n)
  else rmap Dct1ConvertToFft_obj (Dct1ConvertToFft_new (pf ((n - 1) * 2))).
Definition canon_bf (n : nat) : result (t23 T) :=
  match n with
  | 2 => Ok Type2And3Butterfly2_obj
  | 3 => Ok (Type2And3Butterfly3_obj Butterfly3_new)
  | 4 => Ok (Type2And3Butterfly4_obj Butterfly4_new)
  | 8 => Ok (Type2And3Butterfly8_obj Butterfly8_new)
  | 16 => Ok (Type2And3Butterfly16_obj Butterfly16_new)
  | _ => Err EAssert
  end.
Definition canon23_step (rec : nat -> result (t23 T)) (n : nat) : result (t23 T) :=
  if existsb (Nat.eqb n) DCT2_BUTTERFLIES then canon_bf n
  else if is_power_of_two n && (2 <? n) then
    rbind (rec (n / 2)) (fun h => rbind (rec (n / 4)) (fun q =>
      rmap Type2And3SplitRadix_obj (Type2And3SplitRadix_new h q)))
  else rmap Type2And3ConvertToFft_obj (Type2And3ConvertToFft_new (pf n)).
Fixpoint canon23_fuel (fuel n : nat) : result (t23 T) :=
  match fuel with 0 => Err EFuel | S f => canon23_step (canon23_fuel f) n end.
Definition canon23 (n : nat) : result (t23 T) := canon23_fuel (S n) n.
Definition canon4 (n : nat) : result (t4 T) :=
  if n mod 2 =? 0 then
    if n <? 6 then Ok (Type4Naive_obj (Type4Naive_new n))
    else rbind (canon23 (n / 2)) (fun i => Ok (Type4ConvertToType3Even_obj (Type4ConvertToType3Even_new i)))
  else
    if n <? 7 then Ok (Type4Naive_obj (Type4Naive_new n))
    else rmap Type4ConvertToFftOdd_obj (Type4ConvertToFftOdd_new (pf n)).
Definition canon_dct5 (n : nat) : result (xform T) := rmap Dct5Naive_obj (Dct5Naive_new n).
Definition canon_c67 (n : nat) : result (c67 T) := rmap Dct6And7Naive_obj (Dct6And7Naive_new n).
Definition canon_dct8 (n : nat) : result (xform T) := Ok (Dct8Naive_obj (Dct8Naive_new n)).
Definition canon_dst1 (n : nat) : result (xform T) :=
  if n <? 25 then Ok (Dst1Naive_obj (Dst1Naive_new n))
  else rmap Dst1ConvertToFft_obj (Dst1ConvertToFft_new (pf ((n + 1) * 2))).
Definition canon_dst5 (n : nat) : result (xform T) := Ok (Dst5Naive_obj (Dst5Naive_new n)).
Definition canon_s67 (n : nat) : result (s67 T) :=
  if n <? 45 then Ok (Dst6And7Naive_obj (Dst6And7Naive_new n))
  else rmap Dst6And7ConvertToFft_obj (Dst6And7ConvertToFft_new (pf (n * 2 + 1))).
Definition canon_dst8 (n : nat) : result (xform T) := rmap Dst8Naive_obj (Dst8Naive_new n).
Definition canon_mdct (n : nat) (w : nat -> list T) : result (mdct T) :=
  rbind (canon4 n) (fun i => rmap MdctViaDct4_obj (MdctViaDct4_new i w)).

(** ** The recursion depth suffices *)
Lemma canon23_fuel_enough f : forall g n, n < f -> n < g -> canon23_fuel f n = canon23_fuel g n.
Proof.
  induction f as [|f IH]; intros [|g] n Hf Hg; try lia.
  cbn [canon23_fuel]. unfold canon23_step. destruct (existsb _ _); [reflexivity|].
  destruct (is_power_of_two n && (2 <? n)) eqn:E; [|reflexivity].
  apply andb_prop in E. destruct E as [_ E]. apply Nat.ltb_lt in E.
  rewrite (IH g (n / 2)) by lia. rewrite (IH g (n / 4)) by lia. reflexivity.
Qed.
Lemma canon23_eq n : canon23 n = canon23_step canon23 n.
Proof.
  unfold canon23 at 1. cbn [canon23_fuel]. unfold canon23_step. destruct (existsb _ _); [reflexivity|].
  destruct (is_power_of_two n && (2 <? n)) eqn:E; [|reflexivity].
  apply andb_prop in E. destruct E as [_ E]. apply Nat.ltb_lt in E. unfold canon23.
  rewrite (canon23_fuel_enough n (S (n / 2)) (n / 2)) by lia.
  rewrite (canon23_fuel_enough n (S (n / 4)) (n / 4)) by lia. reflexivity.
Qed.

(** ** The invariant *)
(** Which windows were asked for. *)
Variable W : nat -> (nat -> list T) -> Prop.

Definition ok_cache {A} (c : cache A) (canon : nat -> A -> Prop) : Prop :=
  forall n a, cache_get c n = Some a -> canon n (arc_val a).
Definition is_ok {A} (canon : nat -> result A) (n : nat) (v : A) : Prop := canon n = Ok v.
Definition some_window (n : nat) (v : mdct T) : Prop := exists w, W n w /\ canon_mdct n w = Ok v.

Definition ents {A} (tag : nat) (c : cache A) : list (nat * nat * nat) :=
  map (fun e => (tag, fst e, arc_id (snd e))) c.
Definition entries (p : planner T) : list (nat * nat * nat) :=
  ents 1 (dct1_cache p) ++ ents 2 (dct23_cache p) ++ ents 4 (dct4_cache p) ++ ents 5 (dct5_cache p) ++
  ents 6 (dct6_cache p) ++ ents 8 (dct8_cache p) ++ ents 11 (dst1_cache p) ++ ents 15 (dst5_cache p) ++
  ents 16 (dst6_cache p) ++ ents 18 (dst8_cache p) ++ ents 20 (mdct_cache p).
Definition ids (p : planner T) : list nat := map snd (entries p).

Definition ok_caches (p : planner T) : Prop :=
  ok_cache (dct1_cache p) (is_ok canon_dct1) /\ ok_cache (dct23_cache p) (is_ok canon23) /\
  ok_cache (dct4_cache p) (is_ok canon4) /\ ok_cache (dct5_cache p) (is_ok canon_dct5) /\
  ok_cache (dct6_cache p) (is_ok canon_c67) /\ ok_cache (dct8_cache p) (is_ok canon_dct8) /\
  ok_cache (dst1_cache p) (is_ok canon_dst1) /\ ok_cache (dst5_cache p) (is_ok canon_dst5) /\
  ok_cache (dst6_cache p) (is_ok canon_s67) /\ ok_cache (dst8_cache p) (is_ok canon_dst8) /\
  ok_cache (mdct_cache p) some_window.
Record Inv (p : planner T) : Prop := mkInv {
  inv_fft : p_fft p = pf;
  inv_caches : ok_caches p;
  inv_nodup : NoDup (ids p);
  inv_below : forall i, In i (ids p) -> i < p_next p
}.

(** Everything cached stays cached. *)
Definition grows {A} (c c' : cache A) : Prop := forall n a, cache_get c n = Some a -> cache_get c' n = Some a.
Definition ext_caches (p p' : planner T) : Prop :=
  grows (dct1_cache p) (dct1_cache p') /\ grows (dct23_cache p) (dct23_cache p') /\
  grows (dct4_cache p) (dct4_cache p') /\ grows (dct5_cache p) (dct5_cache p') /\
  grows (dct6_cache p) (dct6_cache p') /\ grows (dct8_cache p) (dct8_cache p') /\
  grows (dst1_cache p) (dst1_cache p') /\ grows (dst5_cache p) (dst5_cache p') /\
  grows (dst6_cache p) (dst6_cache p') /\ grows (dst8_cache p) (dst8_cache p') /\
  grows (mdct_cache p) (mdct_cache p').
Definition ext (p p' : planner T) : Prop := p_next p <= p_next p' /\ ext_caches p p'.

Lemma grows_refl {A} (c : cache A) : grows c c. Proof. intros n a H; exact H. Qed.
Lemma ext_refl p : ext p p.
Proof. split; [lia|]. unfold ext_caches. repeat split; apply grows_refl. Qed.
Lemma ext_trans p q r : ext p q -> ext q r -> ext p r.
Proof.
  intros [A B] [C D]. split; [lia|]. unfold ext_caches in * .
  repeat match goal with H : _ /\ _ |- _ => destruct H end.
  repeat split; intros n a X; auto.
Qed.
Lemma Inv_next p n : Inv p -> p_next p <= n -> Inv (set_next n p).
Proof.
  intros [A B C D] H. split; [exact A|exact B|exact C|]. intros i Hi. specialize (D i Hi). cbn [p_next set_next]. lia.
Qed.
Lemma ext_next p n : p_next p <= n -> ext p (set_next n p).
Proof. intros H. split; [exact H|]. exact (proj2 (ext_refl p)). Qed.
Lemma Inv_new : Inv (planner_new pf).
Proof.
  split; [reflexivity| |constructor|intros i []].
  unfold ok_caches. repeat split; intros n a X; discriminate.
Qed.

(** A method that returns what [R] says, keeps the invariant and the caches. *)
Definition plans {A} (m : PM (arc A)) (R : result A -> Prop) : Prop :=
  forall p, Inv p -> Inv (fst (m p)) /\ ext p (fst (m p)) /\ R (rmap arc_val (snd (m p))).
(** The result is in no cache yet. *)
Definition plans_new {A} (m : PM (arc A)) (R : result A -> Prop) : Prop :=
  forall p, Inv p -> Inv (fst (m p)) /\ ext p (fst (m p)) /\ R (rmap arc_val (snd (m p))) /\
    forall a, snd (m p) = Ok a ->
      p_next p <= arc_id a < p_next (fst (m p)) /\ ~ In (arc_id a) (ids (fst (m p))).

Lemma plans_new_arc {A} (r : result A) : plans_new (arc_new r) (eq r).
Proof.
  intros p H. unfold arc_new. destruct r as [v|e]; cbn [fst snd rmap].
  - split; [apply Inv_next; [exact H|lia]|]. split; [apply ext_next; lia|]. split; [reflexivity|].
    intros a E. apply Ok_inj in E. subst a. cbn [arc_id set_next p_next]. split; [lia|].
    intros X. apply (inv_below p H) in X. lia.
  - split; [exact H|]. split; [apply ext_refl|]. split; [reflexivity|]. discriminate.
Qed.
Lemma plans_new_fft {A} (k : fft T -> PM (arc A)) (R : result A -> Prop) n :
  plans_new (k (pf n)) R -> plans_new (pbind (plan_fft_forward n) k) R.
Proof. intros H p Hp. unfold pbind, plan_fft_forward. rewrite (inv_fft p Hp). apply H, Hp. Qed.

Lemma plans_new_bind {A B} (m : PM (arc A)) (r : result A) (f : arc A -> PM (arc B)) (g : A -> result B) :
  plans m (eq r) -> (forall a, plans_new (f a) (eq (g (arc_val a)))) ->
  plans_new (pbind m f) (eq (rbind r g)).
Proof.
  intros Hm Hf p Hp. unfold pbind. destruct (Hm p Hp) as (I & X & E). destruct (m p) as [p' [a|e]]; cbn [fst snd rmap] in * .
  - subst r. cbn [rbind]. destruct (Hf a p' I) as (I2 & X2 & E2 & Fr). split; [exact I2|].
    split; [eapply ext_trans; eassumption|]. split; [exact E2|]. intros b Hb. destruct (Fr b Hb) as [P Q].
    split; [|exact Q]. destruct X as [X _]. lia.
  - subst r. cbn [rbind fst snd rmap]. repeat split; try assumption; try apply I; try apply X; discriminate.
Qed.
Lemma plans_new_ext {A} (m : PM (arc A)) (R R' : result A -> Prop) : plans_new m R -> (forall r, R r -> R' r) -> plans_new m R'.
Proof. intros H E p Hp. destruct (H p Hp) as (X & Y & Z & V). auto. Qed.

(** *** Insertion *)
Lemma Add_app {A} (x : A) (l m m' : list A) : Permutation (x :: m) m' -> Permutation (x :: l ++ m) (l ++ m').
Proof. intros H. etransitivity; [apply Permutation_middle|]. apply Permutation_app_head, H. Qed.

Definition inserts {A} (tag : nat) (get : planner T -> cache A) (set : cache A -> planner T -> planner T)
  (canon : nat -> A -> Prop) : Prop :=
  (forall c p, get (set c p) = c) /\
  (forall c p, p_next (set c p) = p_next p) /\
  (forall c p, p_fft (set c p) = p_fft p) /\
  (forall p, ok_caches p -> ok_cache (get p) canon) /\
  (forall p c, ok_caches p -> ok_cache c canon -> ok_caches (set c p)) /\
  (forall p p' c, ext_caches p p' -> grows (get p) c -> ext_caches p (set c p')) /\
  (forall p n a, Permutation ((tag, n, arc_id a) :: entries p) (entries (set (cache_insert (get p) n a) p))) /\
  (forall p q, ext_caches p q -> grows (get p) (get q)) /\
  (forall p n a, cache_get (get p) n = Some a -> In (tag, n, arc_id a) (entries p)).

Lemma cache_get_in {A} tag (c : cache A) n a : cache_get c n = Some a -> In (tag, n, arc_id a) (ents tag c).
Proof.
  induction c as [|[k b] c IH]; [discriminate|]. cbn [cache_get ents map fst snd].
  destruct (Nat.eqb_spec k n).
  - intros E. injection E as ->. subst k. left. reflexivity.
  - intros E. right. apply IH, E.
Qed.

Ltac inserts_tac :=
  split; [intros c p; reflexivity|]; split; [intros c p; reflexivity|]; split; [intros c p; reflexivity|];
  split; [intros p H; unfold ok_caches in H; tauto|];
  split; [intros p c H Hc; unfold ok_caches in *; cbn; tauto|];
  split; [intros p p' c Hx Hc; unfold ext_caches in *; cbn; tauto|];
  split; [intros p n a; unfold entries; cbn; repeat apply Add_app; reflexivity|];
  split; [intros p q H; unfold ext_caches in H; tauto|];
  intros p n a H; unfold entries; rewrite !in_app_iff;
  repeat first [apply cache_get_in; exact H | left; apply cache_get_in; exact H | right].

Lemma ins_dct1 : inserts 1 dct1_cache set_dct1 (is_ok canon_dct1). Proof. inserts_tac. Qed.
Lemma ins_dct23 : inserts 2 dct23_cache set_dct23 (is_ok canon23). Proof. inserts_tac. Qed.
Lemma ins_dct4 : inserts 4 dct4_cache set_dct4 (is_ok canon4). Proof. inserts_tac. Qed.
Lemma ins_dct5 : inserts 5 dct5_cache set_dct5 (is_ok canon_dct5). Proof. inserts_tac. Qed.
Lemma ins_dct6 : inserts 6 dct6_cache set_dct6 (is_ok canon_c67). Proof. inserts_tac. Qed.
Lemma ins_dct8 : inserts 8 dct8_cache set_dct8 (is_ok canon_dct8). Proof. inserts_tac. Qed.
Lemma ins_dst1 : inserts 11 dst1_cache set_dst1 (is_ok canon_dst1). Proof. inserts_tac. Qed.
Lemma ins_dst5 : inserts 15 dst5_cache set_dst5 (is_ok canon_dst5). Proof. inserts_tac. Qed.
Lemma ins_dst6 : inserts 16 dst6_cache set_dst6 (is_ok canon_s67). Proof. inserts_tac. Qed.
Lemma ins_dst8 : inserts 18 dst8_cache set_dst8 (is_ok canon_dst8). Proof. inserts_tac. Qed.
Lemma ins_mdct : inserts 20 mdct_cache set_mdct some_window. Proof. inserts_tac. Qed.

Lemma grows_insert {A} (c c' : cache A) n a : cache_get c n = None -> grows c c' -> grows c (cache_insert c' n a).
Proof.
  intros H G k b E. unfold cache_insert. cbn [cache_get]. destruct (Nat.eqb_spec n k); [congruence|]. apply G, E.
Qed.

Lemma plans_cached {A} tag get set (canon : nat -> A -> Prop) n m (R R' : result A -> Prop) :
  inserts tag get set canon -> plans_new m R -> (forall v, R (Ok v) -> canon n v) ->
  (forall v, canon n v -> R' (Ok v)) -> (forall r, R r -> R' r) ->
  plans (cached get set n m) R'.
Proof.
  intros (Gs & Nx & Ff & Oc & Os & Ex & En & Gr & In') Hm H1 H2 H3 p Hp. unfold cached.
  destruct (cache_get (get p) n) as [a|] eqn:E; cbn [fst snd].
  - split; [exact Hp|]. split; [apply ext_refl|]. cbn [rmap]. apply H2. apply (Oc p (inv_caches p Hp) n a E).
  - destruct (Hm p Hp) as (I & X & Rr & Fr). destruct (m p) as [p' [a|e]]; cbn [fst snd rmap] in *; [|auto].
    destruct (Fr a eq_refl) as [B Nin]. clear Fr.
    assert (Ok' : ok_cache (cache_insert (get p') n a) canon).
    { intros k b. unfold cache_insert. cbn [cache_get]. destruct (Nat.eqb_spec n k).
      - intros Eb. injection Eb as <-. subst k. apply H1, Rr.
      - apply (Oc p' (inv_caches p' I)). }
    split; [|split; [|apply H3, Rr]].
    + split.
      * rewrite Ff. apply (inv_fft p' I).
      * apply Os; [apply (inv_caches p' I)|exact Ok'].
      * unfold ids. eapply Permutation_NoDup; [apply Permutation_map, En|]. cbn [map snd].
        constructor; [exact Nin|apply (inv_nodup p' I)].
      * intros i Hi. rewrite Nx. unfold ids in Hi.
        apply (Permutation_in _ (Permutation_sym (Permutation_map _ (En p' n a)))) in Hi. cbn [map snd] in Hi.
        destruct Hi as [<-|Hi]; [lia|]. apply (inv_below p' I), Hi.
    + split; [rewrite Nx; apply X|].
      apply Ex; [apply X|]. apply grows_insert; [exact E|]. apply Gr, X.
Qed.

(** The result is, or becomes, the cached one; if it was not cached it is a new allocation. *)
Definition plans_slot {A} (get : planner T -> cache A) (n : nat) (m : PM (arc A)) : Prop :=
  forall p a, Inv p -> snd (m p) = Ok a ->
    cache_get (get (fst (m p))) n = Some a /\ (cache_get (get p) n = Some a \/ p_next p <= arc_id a).
Lemma slot_cached {A} tag get set (canon : nat -> A -> Prop) n m (R : result A -> Prop) :
  inserts tag get set canon -> plans_new m R -> plans_slot get n (cached get set n m).
Proof.
  intros (Gs & _) Hm p a Hp. unfold cached.
  destruct (cache_get (get p) n) as [b|] eqn:E; cbn [fst snd].
  - intros X. apply Ok_inj in X. subst b. auto.
  - destruct (Hm p Hp) as (_ & _ & _ & Fr). destruct (m p) as [p' [b|e]]; cbn [fst snd] in *; [|discriminate].
    intros X. apply Ok_inj in X. subst b. rewrite Gs. unfold cache_insert. cbn [cache_get]. rewrite Nat.eqb_refl.
    split; [reflexivity|]. right. apply (Fr a eq_refl).
Qed.
Lemma cached_hit {A} (get : planner T -> cache A) set n m p a :
  cache_get (get p) n = Some a -> cached get set n m p = (p, Ok a).
Proof. intros E. unfold cached. rewrite E. reflexivity. Qed.

(** ** The methods *)
Lemma eq_cached {A} tag get set (canon : nat -> result A) n m :
  inserts tag get set (is_ok canon) -> plans_new m (eq (canon n)) -> plans (cached get set n m) (eq (canon n)).
Proof.
  intros Hi Hm. eapply plans_cached; [exact Hi|exact Hm| | |].
  - intros v E. exact E.
  - intros v E. exact E.
  - intros r E. exact E.
Qed.

Lemma new_dct1_ok n : plans_new (plan_new_dct1 n) (eq (canon_dct1 n)).
Proof.
  unfold plan_new_dct1, canon_dct1. destruct (n <? 10); [apply plans_new_arc|]. apply plans_new_fft, plans_new_arc.
Qed.
Lemma plan_butterfly_ok n : plans_new (plan_dct2_butterfly n) (eq (canon_bf n)).
Proof.
  assert (Hz : plans_new (fun p : planner T => (p, Err EAssert)) (eq (Err (A:=t23 T) EAssert))).
  { intros p Hp. cbn. split; [exact Hp|]. split; [apply ext_refl|]. split; [reflexivity|discriminate]. }
  do 17 (destruct n as [|n]; [first [apply plans_new_arc|exact Hz]|]). exact Hz.
Qed.
Lemma new_dst1_ok n : plans_new (plan_new_dst1 n) (eq (canon_dst1 n)).
Proof.
  unfold plan_new_dst1, canon_dst1. destruct (n <? 25); [apply plans_new_arc|]. apply plans_new_fft, plans_new_arc.
Qed.
Lemma new_dst6_ok n : plans_new (plan_new_dst6 n) (eq (canon_s67 n)).
Proof.
  unfold plan_new_dst6, canon_s67. destruct (n <? 45); [apply plans_new_arc|]. apply plans_new_fft, plans_new_arc.
Qed.
Lemma new_dct2_ok fuel n : n <= fuel -> (forall k, k < fuel -> plans (plan_dct2_fuel fuel k) (eq (canon23 k))) ->
  plans_new (plan_new_dct2 (plan_dct2_fuel fuel) n) (eq (canon23 n)).
Proof.
  intros Hn IH. rewrite canon23_eq. unfold plan_new_dct2, canon23_step.
  destruct (existsb _ _); [apply plan_butterfly_ok|].
  destruct (is_power_of_two n && (2 <? n)) eqn:E.
  - apply andb_prop in E. destruct E as [_ E]. apply Nat.ltb_lt in E.
    apply (plans_new_bind _ _ _ (fun h => rbind (canon23 (n / 4)) (fun q =>
      rmap Type2And3SplitRadix_obj (Type2And3SplitRadix_new h q)))); [apply IH; lia|]. intros h.
    apply (plans_new_bind _ _ _ (fun q => rmap Type2And3SplitRadix_obj (Type2And3SplitRadix_new (arc_val h) q)));
      [apply IH; lia|]. intros q. apply plans_new_arc.
  - apply plans_new_fft, plans_new_arc.
Qed.
Lemma plan_dct2_fuel_ok fuel : forall n, n < fuel -> plans (plan_dct2_fuel fuel n) (eq (canon23 n)).
Proof.
  induction fuel as [|f IH]; intros n Hn; [lia|]. cbn [plan_dct2_fuel].
  apply (eq_cached _ _ _ _ _ _ ins_dct23). apply new_dct2_ok; [lia|exact IH].
Qed.
Lemma plan_dct2_ok n : plans (plan_dct2 n) (eq (canon23 n)).
Proof. apply plan_dct2_fuel_ok. lia. Qed.
Lemma new_dct4_ok n : plans_new (plan_new_dct4 n) (eq (canon4 n)).
Proof.
  unfold plan_new_dct4, canon4.
  destruct (n mod 2 =? 0).
  - destruct (n <? 6); [apply plans_new_arc|].
    apply (plans_new_bind _ _ _ (fun i => Ok (Type4ConvertToType3Even_obj (Type4ConvertToType3Even_new i))));
      [apply plan_dct2_ok|]. intros a. apply plans_new_arc.
  - destruct (n <? 7); [apply plans_new_arc|]. apply plans_new_fft, plans_new_arc.
Qed.
Lemma plan_dct4_ok n : plans (plan_dct4 n) (eq (canon4 n)).
Proof. apply (eq_cached _ _ _ _ _ _ ins_dct4), new_dct4_ok. Qed.
Lemma new_mdct_ok n w : plans_new (plan_new_mdct n w) (eq (canon_mdct n w)).
Proof.
  unfold plan_new_mdct, canon_mdct.
  apply (plans_new_bind _ _ _ (fun i => rmap MdctViaDct4_obj (MdctViaDct4_new i w))); [apply plan_dct4_ok|].
  intros a. apply plans_new_arc.
Qed.
Lemma plan_mdct_ok n w : W n w ->
  plans (plan_mdct n w) (fun r => exists w', W n w' /\ canon_mdct n w' = r).
Proof.
  intros Hw. eapply plans_cached with (R := eq (canon_mdct n w)); [exact ins_mdct|apply new_mdct_ok| | |].
  - intros v E. exists w. split; assumption.
  - intros v E. exact E.
  - intros r <-. exists w. split; [exact Hw|reflexivity].
Qed.
Lemma plan_dct1_ok n : plans (plan_dct1 n) (eq (canon_dct1 n)).
Proof. apply (eq_cached _ _ _ _ _ _ ins_dct1), new_dct1_ok. Qed.
Lemma plan_dst1_ok n : plans (plan_dst1 n) (eq (canon_dst1 n)).
Proof. apply (eq_cached _ _ _ _ _ _ ins_dst1), new_dst1_ok. Qed.
Lemma plan_dst6_ok n : plans (plan_dst6 n) (eq (canon_s67 n)).
Proof. apply (eq_cached _ _ _ _ _ _ ins_dst6), new_dst6_ok. Qed.
Lemma plan_dct5_ok n : plans (plan_dct5 n) (eq (canon_dct5 n)).
Proof. apply (eq_cached _ _ _ _ _ _ ins_dct5). apply plans_new_arc. Qed.
Lemma plan_dct6_ok n : plans (plan_dct6 n) (eq (canon_c67 n)).
Proof. apply (eq_cached _ _ _ _ _ _ ins_dct6). apply plans_new_arc. Qed.
Lemma plan_dct8_ok n : plans (plan_dct8 n) (eq (canon_dct8 n)).
Proof. apply (eq_cached _ _ _ _ _ _ ins_dct8). apply plans_new_arc. Qed.
Lemma plan_dst5_ok n : plans (plan_dst5 n) (eq (canon_dst5 n)).
Proof. apply (eq_cached _ _ _ _ _ _ ins_dst5). apply plans_new_arc. Qed.
Lemma plan_dst8_ok n : plans (plan_dst8 n) (eq (canon_dst8 n)).
Proof. apply (eq_cached _ _ _ _ _ _ ins_dst8). apply plans_new_arc. Qed.

Lemma slot_dct1 n : plans_slot dct1_cache n (plan_dct1 n).
Proof. eapply slot_cached; [apply ins_dct1|apply new_dct1_ok]. Qed.
Lemma slot_dct2 n : plans_slot dct23_cache n (plan_dct2 n).
Proof. eapply slot_cached; [apply ins_dct23|]. apply new_dct2_ok; [lia|apply plan_dct2_fuel_ok]. Qed.
Lemma slot_dct4 n : plans_slot dct4_cache n (plan_dct4 n).
Proof. eapply slot_cached; [apply ins_dct4|apply new_dct4_ok]. Qed.
Lemma slot_dct5 n : plans_slot dct5_cache n (plan_dct5 n).
Proof. eapply slot_cached; [apply ins_dct5|apply plans_new_arc]. Qed.
Lemma slot_dct6 n : plans_slot dct6_cache n (plan_dct6 n).
Proof. eapply slot_cached; [apply ins_dct6|apply plans_new_arc]. Qed.
Lemma slot_dct8 n : plans_slot dct8_cache n (plan_dct8 n).
Proof. eapply slot_cached; [apply ins_dct8|apply plans_new_arc]. Qed.
Lemma slot_dst1 n : plans_slot dst1_cache n (plan_dst1 n).
Proof. eapply slot_cached; [apply ins_dst1|apply new_dst1_ok]. Qed.
Lemma slot_dst5 n : plans_slot dst5_cache n (plan_dst5 n).
Proof. eapply slot_cached; [apply ins_dst5|apply plans_new_arc]. Qed.
Lemma slot_dst6 n : plans_slot dst6_cache n (plan_dst6 n).
Proof. eapply slot_cached; [apply ins_dst6|apply new_dst6_ok]. Qed.
Lemma slot_dst8 n : plans_slot dst8_cache n (plan_dst8 n).
Proof. eapply slot_cached; [apply ins_dst8|apply plans_new_arc]. Qed.
Lemma slot_mdct n w : plans_slot mdct_cache n (plan_mdct n w).
Proof. eapply slot_cached; [apply ins_mdct|apply new_mdct_ok]. Qed.

(** ** Sequences of calls *)
Definition wanted (c : pcall T) : Prop := match c with CMdct n w => W n w | _ => True end.
Lemma exec_ok c p : wanted c -> Inv p -> Inv (exec c p) /\ ext p (exec c p).
Proof.
  intros Hc Hp. destruct c; cbn [exec]; unfold plan_dct3, plan_dst2, plan_dst3, plan_dst4, plan_dct7, plan_dst7.
  all: match goal with
  | |- context [plan_dct1 ?n] => destruct (plan_dct1_ok n p Hp) as (A & B & _)
  | |- context [plan_dct2 ?n] => destruct (plan_dct2_ok n p Hp) as (A & B & _)
  | |- context [plan_dct4 ?n] => destruct (plan_dct4_ok n p Hp) as (A & B & _)
  | |- context [plan_dct5 ?n] => destruct (plan_dct5_ok n p Hp) as (A & B & _)
  | |- context [plan_dct6 ?n] => destruct (plan_dct6_ok n p Hp) as (A & B & _)
  | |- context [plan_dct8 ?n] => destruct (plan_dct8_ok n p Hp) as (A & B & _)
  | |- context [plan_dst1 ?n] => destruct (plan_dst1_ok n p Hp) as (A & B & _)
  | |- context [plan_dst5 ?n] => destruct (plan_dst5_ok n p Hp) as (A & B & _)
  | |- context [plan_dst6 ?n] => destruct (plan_dst6_ok n p Hp) as (A & B & _)
  | |- context [plan_dst8 ?n] => destruct (plan_dst8_ok n p Hp) as (A & B & _)
  | |- context [plan_mdct ?n ?w] => destruct (plan_mdct_ok n w Hc p Hp) as (A & B & _)
  end; split; assumption.
Qed.
Lemma fold_ok cs : forall p, Forall wanted cs -> Inv p ->
  Inv (fold_left (fun p c => exec c p) cs p) /\ ext p (fold_left (fun p c => exec c p) cs p).
Proof.
  induction cs as [|c cs IH]; intros p Hw Hp; cbn [fold_left]; [split; [exact Hp|apply ext_refl]|].
  inversion Hw; subst. destruct (exec_ok c p) as [A B]; [assumption|assumption|].
  destruct (IH (exec c p)) as [C D]; [assumption|assumption|]. split; [exact C|]. eapply ext_trans; eassumption.
Qed.
Lemma after_ok cs : Forall wanted cs -> Inv (after pf cs).
Proof. intros H. apply fold_ok; [exact H|apply Inv_new]. Qed.
End Planner.
