(** Counting the instances the planner creates. *)
From Coq Require Import List Arith Lia Bool ZArith ZifyNat.
From Verif Require Import Prog Num Model_Common Model_Plan Spec_Plan Spec_Fft Spec_Count Wp Planner Planner_Ids Canon.
Import ListNotations.
Open Scope nat_scope.

Section Count.
Context {T F : Type} {N : Num T F}.
Notation P := (planner T).

(** ** Nothing is wasted *)
Definition slots (p : P) (i : nat) : Prop := exists s, at_slot s p = Some i.
Definition Full (p : P) : Prop := forall i, i < p_next p -> slots p i.
(** [m] leaves the slot [s] empty and creates nothing that is not in a slot but its result. *)
Definition fills {A} (s : group * nat) (m : PM (T:=T) (arc A)) : Prop := forall p, Full p -> at_slot s p = None ->
  match m p with
  | (p', Ok a) => (forall i, i < p_next p' -> i = arc_id a \/ slots p' i) /\ at_slot s p' = None
  | (p', Err _) => Full p'
  end.
Definition keeps {A} (m : PM (T:=T) (arc A)) : Prop := forall p, Full p -> Full (fst (m p)).

Definition slot_of {A} (g : group) (get : P -> cache A) (set : cache A -> P -> P) : Prop :=
  (forall p n, at_slot (g, n) p = idof (cache_get (get p) n)) /\
  (forall p c, p_next (set c p) = p_next p) /\
  (forall p c n, at_slot (g, n) (set c p) = idof (cache_get c n)) /\
  (forall p c h n, h <> g -> at_slot (h, n) (set c p) = at_slot (h, n) p).
Ltac slot_tac := split; [intros; reflexivity|]; split; [intros; reflexivity|]; split; [intros; reflexivity|]; intros p c h n H; destruct h; try reflexivity; congruence.
Lemma sl_dct1 : slot_of G1 dct1_cache set_dct1. Proof. slot_tac. Qed.
Lemma sl_dct23 : slot_of G23 dct23_cache set_dct23. Proof. slot_tac. Qed.
Lemma sl_dct4 : slot_of G4 dct4_cache set_dct4. Proof. slot_tac. Qed.
Lemma sl_dct5 : slot_of G5 dct5_cache set_dct5. Proof. slot_tac. Qed.
Lemma sl_dct6 : slot_of G67 dct6_cache set_dct6. Proof. slot_tac. Qed.
Lemma sl_dct8 : slot_of G8 dct8_cache set_dct8. Proof. slot_tac. Qed.
Lemma sl_dst1 : slot_of GS1 dst1_cache set_dst1. Proof. slot_tac. Qed.
Lemma sl_dst5 : slot_of GS5 dst5_cache set_dst5. Proof. slot_tac. Qed.
Lemma sl_dst6 : slot_of GS67 dst6_cache set_dst6. Proof. slot_tac. Qed.
Lemma sl_dst8 : slot_of GS8 dst8_cache set_dst8. Proof. slot_tac. Qed.
Lemma sl_mdct : slot_of GM mdct_cache set_mdct. Proof. slot_tac. Qed.

Lemma keeps_cached {A} g get set n (m : PM (arc A)) : slot_of g get set -> fills (g, n) m -> keeps (cached get set n m).
Proof.
  intros (S1 & S2 & S3 & S4) Hm p Hp. unfold cached. destruct (cache_get (get p) n) as [a|] eqn:E; [exact Hp|].
  assert (E' : at_slot (g, n) p = None) by (rewrite S1, E; reflexivity).
  specialize (Hm p Hp E'). destruct (m p) as [p' [a|e]]; [|exact Hm]. destruct Hm as [H1 H2]. cbn [fst].
  intros i Hi. rewrite S2 in Hi. destruct (H1 i Hi) as [->|[[h k] K]].
  - exists (g, n). rewrite S3. unfold cache_insert. cbn [cache_get]. rewrite Nat.eqb_refl. reflexivity.
  - exists (h, k). assert (D : {h = g} + {h <> g}) by decide equality. destruct D as [->|D].
    + rewrite S3. unfold cache_insert. cbn [cache_get]. destruct (Nat.eqb_spec n k) as [->|]; [congruence|]. rewrite <- S1. exact K.
    + rewrite S4 by exact D. exact K.
Qed.
Lemma fills_arc {A} s (r : result A) : fills s (arc_new r).
Proof.
  intros p Hp Hs. unfold arc_new. destruct r as [v|e]; [|exact Hp]. destruct s as [g n]. split.
  - intros i Hi. cbn [p_next set_next arc_id] in * . destruct (Nat.eq_dec i (p_next p)) as [->|]; [left; reflexivity|].
    right. destruct (Hp i) as [[h k] K]; [lia|]. exists (h, k). destruct h; exact K.
  - destruct g; exact Hs.
Qed.
Lemma fills_fft {A} s k (f : fft T -> PM (arc A)) : (forall x, fills s (f x)) -> fills s (pbind (plan_fft_forward k) f).
Proof. intros H p Hp Hs. apply (H (p_fft p k) p Hp Hs). Qed.
(** [m] does not touch the slot [s]. *)
Definition spares {A} (s : group * nat) (m : PM (T:=T) (arc A)) : Prop := forall p : P, at_slot s (fst (m p)) = at_slot s p.
Lemma fills_bind {A B} s (m : PM (arc A)) (f : arc A -> PM (arc B)) : keeps m -> spares s m -> (forall a, fills s (f a)) -> fills s (pbind m f).
Proof.
  intros Hm Hs Hf p Hp E. unfold pbind. specialize (Hm p Hp). specialize (Hs p). destruct (m p) as [p' [a|e]]; cbn [fst] in * ; [|exact Hm].
  apply Hf; [exact Hm|congruence].
Qed.
Lemma spares_arc {A} s (r : result A) : spares s (arc_new r).
Proof. intros p. unfold arc_new. destruct r; [|reflexivity]. destruct s as [g n]. destruct g; reflexivity. Qed.
Lemma spares_bind {A B} s (m : PM (arc A)) (f : arc A -> PM (arc B)) : spares s m -> (forall a, spares s (f a)) -> spares s (pbind m f).
Proof. intros Hm Hf p. unfold pbind. specialize (Hm p). destruct (m p) as [p' [a|e]]; cbn [fst] in * ; [|exact Hm]. rewrite Hf. exact Hm. Qed.
Lemma spares_fft {A} s k (f : fft T -> PM (arc A)) : (forall x, spares s (f x)) -> spares s (pbind (plan_fft_forward k) f).
Proof. intros H p. apply (H (p_fft p k)). Qed.
Lemma spares_cached {A} g get set n (m : PM (arc A)) s : slot_of g get set -> s <> (g, n) -> spares s m -> spares s (cached get set n m).
Proof.
  intros (S1 & S2 & S3 & S4) D Hm p. unfold cached. destruct (cache_get (get p) n); [reflexivity|]. specialize (Hm p).
  destruct (m p) as [p' [a|e]]; cbn [fst] in * ; [|exact Hm]. rewrite <- Hm. destruct s as [h k].
  assert (E : {h = g} + {h <> g}) by decide equality. destruct E as [->|E]; [|apply S4, E].
  rewrite S3, S1. unfold cache_insert. cbn [cache_get]. destruct (Nat.eqb_spec n k) as [->|]; [congruence|reflexivity].
Qed.

Lemma bf_spares s n : spares s (plan_dct2_butterfly (T:=T) n).
Proof. do 17 (destruct n as [|n]; [first [apply spares_arc|intros p; reflexivity]|]). intros p; reflexivity. Qed.
Lemma bf_fills s n : fills s (plan_dct2_butterfly (T:=T) n).
Proof. do 17 (destruct n as [|n]; [first [apply fills_arc|intros p Hp _; exact Hp]|]). intros p Hp _; exact Hp. Qed.
Lemma dct2_spares fuel : forall n s, (forall k, k <= n -> s <> (G23, k)) -> spares s (plan_dct2_fuel (T:=T) fuel n).
Proof.
  induction fuel as [|f IH]; intros n s D; [intros p; reflexivity|]. cbn [plan_dct2_fuel].
  apply (spares_cached _ _ _ _ _ _ sl_dct23); [apply D; lia|]. unfold plan_new_dct2.
  destruct (existsb _ _); [apply bf_spares|]. destruct (_ && _).
  - apply spares_bind; [apply IH; intros k Hk; apply D; pose proof (Nat.div_le_upper_bound n 2 n); lia|]. intros a.
    apply spares_bind; [apply IH; intros k Hk; apply D; pose proof (Nat.div_le_upper_bound n 4 n); lia|]. intros b. apply spares_arc.
  - apply spares_fft. intros x. apply spares_arc.
Qed.
Lemma dct2_keeps fuel : forall n, keeps (plan_dct2_fuel (T:=T) fuel n).
Proof.
  induction fuel as [|f IH]; intros n; [intros p Hp; exact Hp|]. cbn [plan_dct2_fuel].
  apply (keeps_cached _ _ _ _ _ sl_dct23). unfold plan_new_dct2. destruct (existsb _ _); [apply bf_fills|].
  destruct (_ && _) eqn:E.
  - apply andb_prop in E. destruct E as [_ E]. apply Nat.ltb_lt in E.
    assert (n / 2 < n) by (apply Nat.div_lt; lia). assert (n / 4 < n) by (apply Nat.div_lt; lia).
    apply fills_bind; [apply IH|apply dct2_spares; intros k Hk X; injection X as X; lia|]. intros a.
    apply fills_bind; [apply IH|apply dct2_spares; intros k Hk X; injection X as X; lia|]. intros b. apply fills_arc.
  - apply fills_fft. intros x. apply fills_arc.
Qed.
Lemma dct4_keeps n : keeps (plan_dct4 (T:=T) n).
Proof.
  apply (keeps_cached _ _ _ _ _ sl_dct4). unfold plan_new_dct4. destruct (_ =? 0); destruct (_ <? _); try apply fills_arc.
  - apply fills_bind; [apply dct2_keeps|apply dct2_spares; intros k _; discriminate|]. intros a. apply fills_arc.
  - apply fills_fft. intros x. apply fills_arc.
Qed.
Lemma dct4_spares n k : spares (GM, k) (plan_dct4 (T:=T) n).
Proof.
  apply (spares_cached _ _ _ _ _ _ sl_dct4); [discriminate|]. unfold plan_new_dct4. destruct (_ =? 0); destruct (_ <? _); try apply spares_arc.
  - apply spares_bind; [apply dct2_spares; intros j _; discriminate|]. intros a. apply spares_arc.
  - apply spares_fft. intros x. apply spares_arc.
Qed.
Lemma mdct_keeps n w : keeps (plan_mdct (T:=T) n w).
Proof.
  apply (keeps_cached _ _ _ _ _ sl_mdct). apply fills_bind; [apply dct4_keeps|apply dct4_spares|]. intros a. apply fills_arc.
Qed.
Lemma exec_keeps c p : Full p -> Full (exec c p).
Proof.
  intros Hp. destruct c; cbn [exec];
    first [apply dct2_keeps, Hp | apply dct4_keeps, Hp | apply mdct_keeps, Hp
      | apply (keeps_cached _ _ _ _ _ sl_dct5); [apply fills_arc|exact Hp]
      | apply (keeps_cached _ _ _ _ _ sl_dct6); [apply fills_arc|exact Hp]
      | apply (keeps_cached _ _ _ _ _ sl_dct8); [apply fills_arc|exact Hp]
      | apply (keeps_cached _ _ _ _ _ sl_dst5); [apply fills_arc|exact Hp]
      | apply (keeps_cached _ _ _ _ _ sl_dst8); [apply fills_arc|exact Hp]
      | apply (keeps_cached _ _ _ _ _ sl_dct1); [unfold plan_new_dct1; destruct (_ <? _); [|apply fills_fft; intros x]; apply fills_arc|exact Hp]
      | apply (keeps_cached _ _ _ _ _ sl_dst1); [unfold plan_new_dst1; destruct (_ <? _); [|apply fills_fft; intros x]; apply fills_arc|exact Hp]
      | apply (keeps_cached _ _ _ _ _ sl_dst6); [unfold plan_new_dst6; destruct (_ <? _); [|apply fills_fft; intros x]; apply fills_arc|exact Hp] ].
Qed.
Lemma after_full pf cs : Full (after (T:=T) pf cs).
Proof.
  unfold after. assert (G : forall p, Full p -> Full (fold_left (fun p c => exec c p) cs p)).
  { induction cs as [|c cs IH]; intros p Hp; [exact Hp|]. apply IH, exec_keeps, Hp. }
  apply G. intros i Hi. cbn in Hi. lia.
Qed.
Lemma nothing_wasted pf cs i : i < instances (after (T:=T) pf cs) -> exists c, returned_arc c (after pf cs) = Some i.
Proof.
  intros H. destruct (after_full pf cs i H) as [[g n] K].
  assert (X : exists c : pcall T, request c = (g, n)).
  { destruct g; [exists (CDct1 n)|exists (CDct2 n)|exists (CDct4 n)|exists (CDct5 n)|exists (CDct6 n)|exists (CDct8 n)|exists (CDst1 n)
      |exists (CDst5 n)|exists (CDst6 n)|exists (CDst8 n)|exists (CMdct n (fun _ => []))]; reflexivity. }
  destruct X as [c X]. exists c. apply hit. rewrite X. exact K.
Qed.

(** ** Sizes 8 to 2^k *)
Definition empty (s : group * nat) (p : P) : bool := match at_slot s p with None => true | Some _ => false end.
Definition missing (k : nat) (p : P) : nat := length (filter (fun j => empty (G23, 2 ^ j) p) (seq 3 (k - 2))).
Lemma filter_drop (f g : nat -> bool) j l : NoDup l -> In j l -> f j = true -> g j = false -> (forall i, i <> j -> g i = f i) ->
  length (filter f l) = S (length (filter g l)).
Proof.
  intros Nd Hj Fj Gj E. induction l as [|x l IH]; [contradiction|]. inversion Nd as [|? ? Nx Nl]; subst. cbn [filter].
  destruct (Nat.eq_dec x j) as [->|D].
  - rewrite Fj, Gj. cbn [length]. f_equal. f_equal. apply filter_ext_in. intros i Hi. symmetry. apply E. intros ->. contradiction.
  - rewrite (E x D). destruct Hj as [->|Hj]; [congruence|]. specialize (IH Nl Hj). destruct (f x); cbn [length]; lia.
Qed.
Lemma missing_insert k j p a : 3 <= j <= k -> at_slot (G23, 2 ^ j) p = None ->
  missing k p = S (missing k (set_dct23 (cache_insert (dct23_cache p) (2 ^ j) a) p)).
Proof.
  intros Hj E. unfold missing. apply (filter_drop _ _ j).
  - apply seq_NoDup.
  - apply in_seq. lia.
  - unfold empty. rewrite E. reflexivity.
  - unfold empty. cbn [at_slot dct23_cache set_dct23]. unfold cache_insert. cbn [cache_get]. rewrite Nat.eqb_refl. reflexivity.
  - intros i D. unfold empty. cbn [at_slot dct23_cache set_dct23]. unfold cache_insert. cbn [cache_get].
    destruct (Nat.eqb_spec (2 ^ j) (2 ^ i)) as [X|X]; [|reflexivity]. apply Nat.pow_inj_r in X; lia.
Qed.
Definition tally (k : nat) (p : P) : nat := p_next p + missing k p.
Definition one_if {A} (r : result A) : nat := match r with Ok _ => 1 | Err _ => 0 end.
Lemma tally_arc {A} k (r : result A) p : tally k (fst (arc_new r p)) = tally k p + one_if (snd (arc_new r p)).
Proof. unfold arc_new. destruct r; cbn [fst snd one_if]; unfold tally; cbn [p_next set_next]; unfold missing, empty; cbn [at_slot dct23_cache set_next]; lia. Qed.
Lemma tally_bf k n p : tally k (fst (plan_dct2_butterfly (T:=T) n p)) = tally k p + one_if (snd (plan_dct2_butterfly n p)).
Proof. do 17 (destruct n as [|n]; [first [apply tally_arc|cbn; lia]|]). cbn; lia. Qed.
Lemma existsb_small j : existsb (Nat.eqb (2 ^ j)) DCT2_BUTTERFLIES = false -> 3 <= j -> 5 <= j.
Proof. intros E H. destruct (Nat.eq_dec j 3) as [->|]; [discriminate|]. destruct (Nat.eq_dec j 4) as [->|]; [discriminate|]. lia. Qed.
Lemma half_pow j : 1 <= j -> 2 ^ j / 2 = 2 ^ (j - 1).
Proof. intros H. replace j with (S (j - 1)) at 1 by lia. rewrite Nat.pow_succ_r'. rewrite Nat.mul_comm. apply Nat.div_mul. lia. Qed.
Lemma quarter_pow j : 2 <= j -> 2 ^ j / 4 = 2 ^ (j - 2).
Proof. intros H. replace j with (S (S (j - 2))) at 1 by lia. rewrite !Nat.pow_succ_r'. replace (2 * (2 * 2 ^ (j - 2))) with (2 ^ (j - 2) * 4) by lia. apply Nat.div_mul. lia. Qed.
Lemma tally_dct2 k fuel : forall j p, 3 <= j <= k -> tally k (fst (plan_dct2_fuel (T:=T) fuel (2 ^ j) p)) = tally k p.
Proof.
  induction fuel as [|f IH]; intros j p Hj; [reflexivity|]. cbn [plan_dct2_fuel]. unfold cached.
  destruct (cache_get (dct23_cache p) (2 ^ j)) as [a|] eqn:E; [reflexivity|].
  assert (E' : at_slot (G23, 2 ^ j) p = None) by (cbn [at_slot]; rewrite E; reflexivity).
  assert (G : let m := plan_new_dct2 (plan_dct2_fuel f) (2 ^ j) p in
    tally k (fst m) = tally k p + one_if (snd m) /\ at_slot (G23, 2 ^ j) (fst m) = None).
  { cbv zeta. unfold plan_new_dct2. destruct (existsb _ _) eqn:X; [split; [apply tally_bf|rewrite bf_spares; exact E']|].
    apply existsb_small in X; [|lia].
    assert (L : 2 ^ (j - 1) < 2 ^ j) by (apply Nat.pow_lt_mono_r; lia). assert (L' : 2 ^ (j - 2) < 2 ^ j) by (apply Nat.pow_lt_mono_r; lia).
    destruct (_ && _).
    - rewrite half_pow, quarter_pow by lia. unfold pbind.
      pose proof (IH (j - 1) p ltac:(lia)) as A. pose proof (dct2_spares f (2 ^ (j - 1)) (G23, 2 ^ j) ltac:(intros i Hi Y; injection Y as Y; lia) p) as B.
      destruct (plan_dct2_fuel f (2 ^ (j - 1)) p) as [p1 [h|e]]; cbn [fst snd one_if] in * ; [|split; [lia|congruence]].
      pose proof (IH (j - 2) p1 ltac:(lia)) as A2. pose proof (dct2_spares f (2 ^ (j - 2)) (G23, 2 ^ j) ltac:(intros i Hi Y; injection Y as Y; lia) p1) as B2.
      destruct (plan_dct2_fuel f (2 ^ (j - 2)) p1) as [p2 [q|e]]; cbn [fst snd one_if] in * ; [|split; [lia|congruence]].
      rewrite tally_arc, spares_arc. split; [lia|congruence].
    - unfold pbind, plan_fft_forward. rewrite tally_arc, spares_arc. split; [reflexivity|exact E']. }
  cbv zeta in G. destruct (plan_new_dct2 (plan_dct2_fuel f) (2 ^ j) p) as [p' [a|e]]; cbn [fst snd one_if] in * ; [|lia].
  destruct G as [G1 G2]. unfold tally in * . rewrite (missing_insert k j p' a Hj G2) in G1. cbn [p_next set_dct23] in * . lia.
Qed.
Lemma missing_le k p : missing k p <= k - 2.
Proof.
  unfold missing. rewrite <- (seq_length (k - 2) 3) at 2. generalize (seq 3 (k - 2)). intros l.
  induction l as [|x l IH]; [apply le_n|]. cbn [filter]. destruct (empty _ _); cbn [length]; lia.
Qed.

(** ** All sizes *)
Lemma next_arc {A} (r : result A) (p : P) : p_next (fst (arc_new r p)) = p_next p + one_if (snd (arc_new r p)).
Proof. unfold arc_new. destruct r; cbn; lia. Qed.
Lemma next_bf n (p : P) : p_next (fst (plan_dct2_butterfly n p)) = p_next p + one_if (snd (plan_dct2_butterfly n p)).
Proof. do 17 (destruct n as [|n]; [first [apply next_arc|cbn; lia]|]). cbn; lia. Qed.
Lemma next_cached {A} g get set n (m : PM (arc A)) (p : P) c : slot_of g get set -> p_next (fst (m p)) <= p_next p + c -> p_next (fst (cached get set n m p)) <= p_next p + c.
Proof.
  intros (_ & S2 & _) H. unfold cached. destruct (cache_get _ _); cbn [fst]; [lia|]. destruct (m p) as [p' [a|e]]; cbn [fst] in * ; rewrite ?S2; exact H.
Qed.
Lemma is_pow2_spec n : is_pow2 n = true -> n = 2 ^ Nat.log2 n.
Proof. unfold is_pow2. intros E. apply Nat.eqb_eq in E. congruence. Qed.
Lemma is_pow2_of k : is_pow2 (2 ^ k) = true.
Proof. unfold is_pow2. rewrite Nat.log2_pow2 by lia. apply Nat.eqb_refl. Qed.
Lemma small_new fuel n (p : P) : (is_pow2 n = true -> Nat.log2 n < 5) -> let m := plan_new_dct2 (plan_dct2_fuel fuel) n p in
  p_next (fst m) = p_next p + one_if (snd m).
Proof.
  intros H. cbv zeta. unfold plan_new_dct2. destruct (existsb _ _) eqn:X; [apply next_bf|]. destruct (_ && _) eqn:E.
  - exfalso. apply andb_prop in E. destruct E as [E L]. apply Nat.ltb_lt in L. apply is_pow2_iff in E. destruct E as [k ->].
    specialize (H (is_pow2_of k)). rewrite Nat.log2_pow2 in H by lia.
    do 5 (destruct k as [|k]; [first [discriminate X | cbn in L; lia]|]). lia.
  - unfold pbind, plan_fft_forward. apply next_arc.
Qed.
Lemma chain23_cases n : (exists k, 5 <= k /\ n = 2 ^ k /\ chain23 n = k - 2) \/ ((is_pow2 n = true -> Nat.log2 n < 5) /\ chain23 n = 1).
Proof.
  unfold chain23. destruct (is_pow2 n) eqn:E; cbn [andb]; [|right; split; [discriminate|reflexivity]].
  apply is_pow2_spec in E. destruct (Nat.leb_spec 32 n) as [L|L].
  - left. exists (Nat.log2 n). split; [|auto]. change 32 with (2 ^ 5) in L. apply Nat.log2_le_pow2; lia.
  - right. split; [|reflexivity]. intros _. destruct (Nat.le_gt_cases 5 (Nat.log2 n)) as [K|K]; [|exact K]. exfalso.
    assert (2 ^ 5 <= 2 ^ Nat.log2 n) by (apply Nat.pow_le_mono_r; lia). change (2 ^ 5) with 32 in * . lia.
Qed.
Lemma next_dct2 n (p : P) : p_next (fst (plan_dct2 n p)) <= p_next p + chain23 n.
Proof.
  destruct (chain23_cases n) as [(k & L & -> & ->)|[L ->]].
  - pose proof (tally_dct2 k (S (2 ^ k)) k p ltac:(lia)) as H. unfold tally in H.
    change (plan_dct2_fuel (S (2 ^ k)) (2 ^ k) p) with (plan_dct2 (2 ^ k) p) in H. pose proof (missing_le k p). lia.
  - change (plan_dct2 n p) with (cached dct23_cache set_dct23 n (plan_new_dct2 (plan_dct2_fuel n) n) p).
    apply (next_cached _ _ _ _ _ _ _ sl_dct23). pose proof (small_new n n p L) as H. cbv zeta in H. rewrite H. unfold one_if. destruct (snd _); lia.
Qed.
Lemma one_if_le {A} (r : result A) : one_if r <= 1. Proof. destruct r; cbn; lia. Qed.
Lemma next_arc_le {A} (r : result A) (p : P) : p_next (fst (arc_new r p)) <= p_next p + 1.
Proof. rewrite next_arc. pose proof (one_if_le (snd (arc_new r p))). lia. Qed.
Lemma next_bind {A B} (m : PM (arc A)) (f : arc A -> PM (arc B)) (p : P) c d : p_next (fst (m p)) <= p_next p + c ->
  (forall a q, p_next (fst (f a q)) <= p_next q + d) -> p_next (fst (pbind m f p)) <= p_next p + (d + c).
Proof. intros H K. unfold pbind. destruct (m p) as [p' [a|e]]; cbn [fst] in * ; [specialize (K a p')|]; lia. Qed.
Lemma even_mod n : (n mod 2 =? 0) = Nat.even n.
Proof.
  pose proof (Nat.div_mod_eq n 2). pose proof (Nat.mod_upper_bound n 2 ltac:(lia)). destruct (Nat.eqb_spec (n mod 2) 0) as [E|E].
  - symmetry. apply Nat.even_spec. exists (n / 2). lia.
  - destruct (Nat.even n) eqn:X; [|reflexivity]. apply Nat.even_spec in X. destruct X as [k ->]. rewrite Nat.mul_comm, Nat.mod_mul in E by lia. congruence.
Qed.
Lemma next_dct4 n (p : P) : p_next (fst (plan_dct4 n p)) <= p_next p + chain4 n.
Proof.
  apply (next_cached _ _ _ _ _ _ _ sl_dct4). unfold plan_new_dct4, chain4. rewrite even_mod. destruct (Nat.even n); cbn [andb].
  - destruct (Nat.ltb_spec n 6), (Nat.leb_spec 6 n); try lia; [apply next_arc_le|].
    apply next_bind; [apply next_dct2|]. intros a q. apply next_arc_le.
  - destruct (_ <? _); apply next_arc_le.
Qed.
Lemma instances_bounded c (p : P) : instances p <= instances (exec c p) <= instances p + chain c.
Proof.
  split.
  - unfold instances. assert (G : forall {A} get set n (m : PM (arc A)), (forall c p, p_next (set c p) = p_next p) -> (forall p : P, p_next p <= p_next (fst (m p))) ->
      forall p : P, p_next p <= p_next (fst (cached get set n m p))).
    { intros A get set n m S H q. unfold cached. destruct (cache_get _ _); cbn [fst]; [lia|]. specialize (H q). destruct (m q) as [p' [a|e]]; cbn [fst] in * ; rewrite ?S; exact H. }
    assert (Ga : forall {A} (r : result A) (p : P), p_next p <= p_next (fst (arc_new r p))) by (intros A r q; rewrite next_arc; lia).
    assert (Gb : forall {A B} (m : PM (arc A)) (f : arc A -> PM (arc B)), (forall p : P, p_next p <= p_next (fst (m p))) -> (forall a (p : P), p_next p <= p_next (fst (f a p))) ->
      forall p : P, p_next p <= p_next (fst (pbind m f p))).
    { intros A B m f H K q. unfold pbind. specialize (H q). destruct (m q) as [p' [a|e]]; cbn [fst] in * ; [specialize (K a p')|]; lia. }
    assert (G2 : forall f n (p : P), p_next p <= p_next (fst (plan_dct2_fuel f n p))).
    { induction f as [|f IH]; intros n q; [apply le_n|]. cbn [plan_dct2_fuel]. apply G; [reflexivity|]. clear q. intros q. unfold plan_new_dct2.
      destruct (existsb _ _); [rewrite next_bf; lia|]. destruct (_ && _); [|apply Ga]. apply Gb; [apply IH|]. intros a. apply Gb; [apply IH|]. intros b. apply Ga. }
    assert (G4 : forall n (p : P), p_next p <= p_next (fst (plan_dct4 n p))).
    { intros n. apply G; [reflexivity|]. intros q. unfold plan_new_dct4. destruct (_ =? 0); destruct (_ <? _); try apply Ga. apply Gb; [apply G2|]. intros a. apply Ga. }
    destruct c; cbn [exec]; first [apply G2 | apply G4 | apply G; [reflexivity|intros q]]; try apply Ga;
      unfold plan_new_dct1, plan_new_dst1, plan_new_dst6; try (destruct (_ <? _); apply Ga).
    apply Gb; [apply G4|]. intros a. apply Ga.
  - unfold instances. destruct c; cbn [exec chain];
      first [apply next_dct2 | apply next_dct4
      | apply (next_cached _ _ _ _ _ _ _ sl_dct5), next_arc_le | apply (next_cached _ _ _ _ _ _ _ sl_dct6), next_arc_le
      | apply (next_cached _ _ _ _ _ _ _ sl_dct8), next_arc_le | apply (next_cached _ _ _ _ _ _ _ sl_dst5), next_arc_le
      | apply (next_cached _ _ _ _ _ _ _ sl_dst8), next_arc_le
      | apply (next_cached _ _ _ _ _ _ _ sl_dct1); unfold plan_new_dct1; destruct (_ <? _); apply next_arc_le
      | apply (next_cached _ _ _ _ _ _ _ sl_dst1); unfold plan_new_dst1; destruct (_ <? _); apply next_arc_le
      | apply (next_cached _ _ _ _ _ _ _ sl_dst6); unfold plan_new_dst6; destruct (_ <? _); apply next_arc_le
      | idtac ].
    apply (next_cached _ _ _ _ _ _ _ sl_mdct). apply next_bind; [apply next_dct4|]. intros a q. apply next_arc_le.
Qed.

(** ** On a new planner *)
Definition has (n : nat) (p : P) : Prop := at_slot (G23, n) p <> None.
Definition closed (p : P) : Prop := forall j, 5 <= j -> has (2 ^ j) p -> has (2 ^ (j - 1)) p /\ has (2 ^ (j - 2)) p.
Lemma has_insert n p a k : has k (set_dct23 (cache_insert (dct23_cache p) n a) p) <-> k = n \/ has k p.
Proof.
  unfold has. cbn [at_slot dct23_cache set_dct23]. unfold cache_insert. cbn [cache_get]. destruct (Nat.eqb_spec n k) as [->|D]; cbn [idof option_map].
  - split; [auto|discriminate].
  - split; [auto|]. intros [->|H]; [congruence|exact H].
Qed.
Lemma has_arc {A} (r : result A) p k : has k (fst (arc_new r p)) <-> has k p.
Proof. unfold has. rewrite spares_arc. reflexivity. Qed.
Lemma dct2_closed fuel : forall n p, closed p -> let m := plan_dct2_fuel (T:=T) fuel n p in
  closed (fst m) /\ (forall k, has k p -> has k (fst m)) /\ (forall a, snd m = Ok a -> has n (fst m)).
Proof.
  induction fuel as [|f IH]; intros n p Hp; cbv zeta; [cbn; repeat split; auto; try (apply Hp; assumption); discriminate|].
  cbn [plan_dct2_fuel]. unfold cached. destruct (cache_get (dct23_cache p) n) as [a|] eqn:E; cbn [fst snd].
  { split; [exact Hp|]. split; [auto|]. intros _ _. unfold has. cbn [at_slot]. rewrite E. discriminate. }
  assert (G : let m := plan_new_dct2 (plan_dct2_fuel f) n p in closed (fst m) /\ (forall k, has k p -> has k (fst m)) /\
    (forall a j, snd m = Ok a -> n = 2 ^ j -> 5 <= j -> has (2 ^ (j - 1)) (fst m) /\ has (2 ^ (j - 2)) (fst m))).
  { cbv zeta. unfold plan_new_dct2. destruct (existsb _ _) eqn:X.
    - assert (Y : forall k, has k (fst (plan_dct2_butterfly n p)) <-> has k p) by (intros k; unfold has; rewrite bf_spares; reflexivity).
      split; [intros j Hj; rewrite !Y; apply Hp, Hj|]. split; [intros k; apply Y|]. intros a j _ -> Hj. exfalso.
      assert (32 <= 2 ^ j) by (change 32 with (2 ^ 5); apply Nat.pow_le_mono_r; lia).
      unfold DCT2_BUTTERFLIES in X. cbn [existsb] in X. rewrite !orb_true_iff, !Nat.eqb_eq in X. intuition (discriminate || lia).
    - destruct (_ && _) eqn:B.
      + unfold pbind. destruct (IH (n / 2) p Hp) as (A1 & A2 & A3). destruct (plan_dct2_fuel f (n / 2) p) as [p1 [h|e]]; cbn [fst snd] in * ; [|repeat split; auto; try (apply A1; assumption); discriminate].
        destruct (IH (n / 4) p1 A1) as (B1 & B2 & B3). destruct (plan_dct2_fuel f (n / 4) p1) as [p2 [q|e]]; cbn [fst snd] in * ; [|repeat split; auto; try (apply B1; assumption); discriminate].
        split; [intros j Hj; rewrite !has_arc; apply B1, Hj|]. split; [intros k K; apply has_arc; auto|].
        intros a j _ -> Hj. rewrite !has_arc. rewrite half_pow, quarter_pow in * by lia. eauto.
      + unfold pbind, plan_fft_forward. split; [intros j Hj; rewrite !has_arc; apply Hp, Hj|]. split; [intros k; apply has_arc|].
        intros a j _ -> Hj. exfalso. apply andb_false_iff in B. destruct B as [B|B].
        * enough (is_power_of_two (2 ^ j) = true) by congruence. apply is_pow2_iff. eauto.
        * apply Nat.ltb_ge in B. assert (32 <= 2 ^ j) by (change 32 with (2 ^ 5); apply Nat.pow_le_mono_r; lia). lia. }
  cbv zeta in G. destruct (plan_new_dct2 (plan_dct2_fuel f) n p) as [p' [a|e]]; cbn [fst snd] in * ; destruct G as (G1 & G2 & G3); [|repeat split; auto; try (apply G1; assumption); discriminate].
  split; [|split].
  - intros j Hj. rewrite !has_insert. intros [K|K]; [symmetry in K; destruct (G3 a j eq_refl K Hj)|destruct (G1 j Hj K)]; auto.
  - intros k K. apply has_insert. auto.
  - intros _ _. apply has_insert. auto.
Qed.
Lemma closed_missing k p : 5 <= k -> closed p -> has (2 ^ k) p -> missing k p = 0.
Proof.
  intros Hk C H. assert (G : forall i, i <= k - 3 -> has (2 ^ (k - i)) p).
  { intros i. induction i as [i IH] using lt_wf_ind. intros Hi. destruct i as [|i]; [rewrite Nat.sub_0_r; exact H|].
    destruct (Nat.le_gt_cases 5 (k - i)) as [L|L].
    - destruct (C (k - i) L (IH i ltac:(lia) ltac:(lia))) as [A _]. replace (k - S i) with (k - i - 1) by lia. exact A.
    - destruct i as [|i]; [lia|]. destruct (C (k - i) ltac:(lia) (IH i ltac:(lia) ltac:(lia))) as [_ A]. replace (k - S (S i)) with (k - i - 2) by lia. exact A. }
  unfold missing. assert (X : forall l, (forall j, In j l -> 3 <= j <= k) -> length (filter (fun j => empty (G23, 2 ^ j) p) l) = 0).
  { induction l as [|j l IH]; intros Hl; [reflexivity|]. cbn [filter]. specialize (G (k - j)). destruct (Hl j (or_introl eq_refl)).
    replace (k - (k - j)) with j in G by lia. unfold empty. unfold has in G. destruct (at_slot _ p); [|exfalso; apply G; [lia|reflexivity]].
    apply IH. intros i Hi. apply Hl. right. exact Hi. }
  apply X. intros j Hj. apply in_seq in Hj. lia.
Qed.
Lemma missing_new pf k : missing k (planner_new (T:=T) pf) = k - 2.
Proof.
  unfold missing. rewrite <- (seq_length (k - 2) 3) at 2. generalize (seq 3 (k - 2)). intros l. induction l as [|x l IH]; [reflexivity|]. cbn. f_equal. exact IH.
Qed.
(** [m] creates exactly [c] instances unless it panics. *)
Definition adds {A} (m : PM (T:=T) (arc A)) (p : P) (c : nat) : Prop := forall a, snd (m p) = Ok a -> p_next (fst (m p)) = p_next p + c.
Lemma adds_arc {A} (r : result A) p : adds (arc_new r) p 1.
Proof. intros a E. rewrite next_arc, E. reflexivity. Qed.
Lemma adds_cached {A} (get : P -> cache A) set n m p c : (forall q x, p_next (set x q) = p_next q) -> cache_get (get p) n = None ->
  adds m p c -> adds (cached get set n m) p c.
Proof.
  intros S E H a. unfold cached. rewrite E. specialize (H a). destruct (m p) as [p' [b|e]]; cbn [fst snd] in * ; [|discriminate].
  intros X. rewrite S. apply H, X.
Qed.
Lemma adds_bind {A B} (m : PM (arc A)) (f : arc A -> PM (arc B)) p c d : adds m p c -> (forall a q, adds (f a) q d) -> adds (pbind m f) p (d + c).
Proof.
  intros H K b. unfold pbind. specialize (H). unfold adds in H. destruct (m p) as [p' [a|e]]; cbn [fst snd] in * ; [|discriminate].
  intros X. rewrite (K a p' b X), (H a eq_refl). lia.
Qed.
Variable pf : nat -> fft T.
Notation new := (planner_new pf).
Lemma closed_new : closed new. Proof. intros j _ H. exfalso. apply H. reflexivity. Qed.
Lemma adds_dct2 n : adds (plan_dct2 n) new (chain23 n).
Proof.
  destruct (chain23_cases n) as [(k & L & -> & ->)|[L ->]].
  - intros a Ea. pose proof (tally_dct2 k (S (2 ^ k)) k new ltac:(lia)) as H.
    destruct (dct2_closed (S (2 ^ k)) (2 ^ k) new closed_new) as (C & _ & K). change (plan_dct2_fuel (S (2 ^ k)) (2 ^ k) new) with (plan_dct2 (2 ^ k) new) in * .
    unfold tally in H. rewrite (closed_missing k _ L C (K a Ea)), missing_new in H. lia.
  - change (plan_dct2 n) with (cached dct23_cache set_dct23 n (plan_new_dct2 (T:=T) (plan_dct2_fuel n) n)).
    apply adds_cached; [reflexivity|reflexivity|]. intros a E. pose proof (small_new n n new L) as K. cbv zeta in K. rewrite K, E. reflexivity.
Qed.
Lemma adds_dct4 n : adds (plan_dct4 n) new (chain4 n).
Proof.
  apply adds_cached; [reflexivity|reflexivity|]. unfold plan_new_dct4, chain4. rewrite even_mod. destruct (Nat.even n); cbn [andb].
  - destruct (Nat.ltb_spec n 6), (Nat.leb_spec 6 n); try lia; [apply adds_arc|].
    apply adds_bind; [apply adds_dct2|]. intros a q. apply adds_arc.
  - destruct (_ <? _); apply adds_arc.
Qed.
Lemma id_ok {A} (r : result (arc A)) : id_of r <> None -> exists a, r = Ok a.
Proof. destruct r as [a|e]; [eauto|]. intros H. exfalso. apply H. reflexivity. Qed.
Lemma new_counts c : returned_arc c new <> None -> instances (exec c new) = chain c.
Proof.
  unfold instances. change (chain c) with (p_next new + chain c).
  destruct c; cbn [returned_arc exec chain]; intros H; apply id_ok in H; destruct H as [a H]; revert a H;
    first [apply adds_dct2 | apply adds_dct4 | idtac].
  all: try (apply adds_cached; [reflexivity|reflexivity|]; try apply adds_arc;
    unfold plan_new_dct1, plan_new_dst1, plan_new_dst6; try (destruct (_ <? _); apply adds_arc)).
  apply adds_bind; [apply adds_dct4|]. intros a q. apply adds_arc.
Qed.
Lemma history_counts cs : instances (after pf cs) <= list_sum (map chain cs).
Proof.
  unfold after. assert (G : forall p : P, instances (fold_left (fun p c => exec c p) cs p) <= instances p + list_sum (map chain cs)).
  { induction cs as [|c l IH]; intros p; cbn [fold_left map]; [cbn; lia|]. pose proof (IH (exec c p)). destruct (instances_bounded c p) as [_ B].
    change (list_sum (chain c :: map chain l)) with (chain c + list_sum (map chain l)). lia. }
  apply (G new).
Qed.
End Count.

Section Log.
Context {T F : Type} {N : Num T F}.
Lemma chain23_log n : chain23 n <= 1 + Nat.log2 n.
Proof. unfold chain23. destruct (_ && _); lia. Qed.
Lemma chain4_log n : chain4 n <= 2 + Nat.log2 n.
Proof.
  unfold chain4. destruct (_ && _) eqn:E; [|lia]. apply andb_prop in E. destruct E as [_ E]. apply Nat.leb_le in E.
  pose proof (chain23_log (n / 2)). assert (Nat.log2 (n / 2) <= Nat.log2 n) by (apply Nat.log2_le_mono, Nat.div_le_upper_bound; lia). lia.
Qed.
Lemma chain_log (c : pcall T) : chain c <= 3 + Nat.log2 (snd (request c)).
Proof.
  destruct c as [n|n|n|n|n|n|n|n|n|n|n|n|n|n|n|n|n w]; cbn [chain request snd]; pose proof (chain23_log n); pose proof (chain4_log n); lia.
Qed.
Lemma planning_log c (p : planner T) : instances (exec c p) <= instances p + 3 + Nat.log2 (snd (request c)).
Proof. destruct (instances_bounded c p) as [_ H]. pose proof (chain_log c). lia. Qed.
End Log.
