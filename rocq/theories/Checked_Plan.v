(** The planner with the arithmetic of Model_Checked.v. *)
From Coq Require Import List Arith Bool Lia ZArith ZifyNat ZifyBool.
From Verif Require Import Prog Num Model_Common Model_Naive Model_Fft Model_Butterflies
  Model_SplitRadix Model_Mdct Model_Plan Model_Checked Model_Checked_Naive Model_Checked_Fft
  Model_Checked_SplitRadix Model_Checked_Mdct Model_Checked_Plan Spec_Fft
  Canon Checked_Eq Checked_Naive Checked_Fft Checked_SplitRadix Checked_Mdct.
Import ListNotations.
Ltac Zify.zify_post_hook ::= Z.div_mod_to_equations.

Section CheckedPlanEq.
Context {T F : Type} {N : Num T F}.
Variable B : build.
Variable MAX : nat.
Variable pf : nat -> fft T.
Hypothesis Hpf : fft_fits pf.

Definition big23 (n : nat) : nat := 2 * (n + fft_scratch (pf n)).
Definition room (n : nat) : Prop := 8 * n + 12 <= MAX /\ forall m, m <= 2 * n + 2 -> big23 m + 2 * n + 1 <= MAX.

Definition k23 (n : nat) (x' x : t23 T) : Prop := t23_follows B x' x /\ t23_len x = n /\ t23_scratch x <= big23 n.
Definition k4 (n : nat) (x' x : t4 T) : Prop := t4_follows B x' x /\ t4_len x = n /\
  (t4_scratch x <= n + big23 (n / 2) \/ t4_scratch x <= big23 n).
Definition crel {A} (R : nat -> A -> A -> Prop) (c' c : cache A) : Prop :=
  Forall2 (fun e' e => fst e' = fst e /\ arc_id (snd e') = arc_id (snd e) /\ R (fst e) (arc_val (snd e')) (arc_val (snd e))) c' c.
Definition arel {A} (R : A -> A -> Prop) (a' a : arc A) : Prop :=
  arc_id a' = arc_id a /\ R (arc_val a') (arc_val a).
Definition kx (n : nat) := x_follows (T := T) B.
Definition kc (n : nat) := c67_follows (T := T) B.
Definition ks (n : nat) := s67_follows (T := T) B.
Definition km (n : nat) := mdct_follows (T := T) B.

Definition prel (p' p : planner T) : Prop :=
  p_fft p' = pf /\ p_fft p = pf /\ p_next p' = p_next p /\
  crel kx (dct1_cache p') (dct1_cache p) /\ crel kx (dst1_cache p') (dst1_cache p) /\
  crel k23 (dct23_cache p') (dct23_cache p) /\ crel k4 (dct4_cache p') (dct4_cache p) /\
  crel kx (dct5_cache p') (dct5_cache p) /\ crel kx (dst5_cache p') (dst5_cache p) /\
  crel kc (dct6_cache p') (dct6_cache p) /\ crel ks (dst6_cache p') (dst6_cache p) /\
  crel kx (dct8_cache p') (dct8_cache p) /\ crel kx (dst8_cache p') (dst8_cache p) /\
  crel km (mdct_cache p') (mdct_cache p).

Definition pmf {A} (R : A -> A -> Prop) (M' M : @PM T A) : Prop := forall p' p, prel p' p ->
  (prel (fst (M' p')) (fst (M p)) /\
   match snd (M' p'), snd (M p) with Ok a', Ok a => R a' a | Err e', Err e => e' = e | _, _ => False end)
  \/ (B = Release /\ snd (M p) = Err EOverflow).

Lemma pmf_bind {A C} (R : A -> A -> Prop) (S : C -> C -> Prop) M' M f' f :
  pmf R M' M -> (forall a' a, R a' a -> pmf S (f' a') (f a)) -> pmf S (pbind M' f') (pbind M f).
Proof.
  intros H Hf p' p Hp. unfold pbind. destruct (H p' p Hp) as [[H1 H2]|[H1 H2]].
  - destruct (M' p') as [q' [a'|e']], (M p) as [q [a|e]]; cbn in *; try contradiction.
    + now apply Hf.
    + left. split; [exact H1 | now rewrite H2].
  - right. split; [exact H1|]. destruct (M p) as [q [a|e]]; cbn in *; [discriminate | congruence].
Qed.
Lemma pmf_fft {C} (S : C -> C -> Prop) n f' f :
  pmf S (f' (pf n)) (f (pf n)) -> pmf S (pbind (plan_fft_forward n) f') (pbind (plan_fft_forward n) f).
Proof.
  intros H p' p Hp. unfold pbind, plan_fft_forward. destruct Hp as (E' & E & Hp). rewrite E', E. apply H.
  split; [|split]; auto.
Qed.
Lemma pmf_lift {A C} (S : C -> C -> Prop) (r : result A) a f' M :
  r = Ok a -> pmf S (f' a) M -> pmf S (pbind (plift r) f') M.
Proof. intros -> H. exact H. Qed.
Lemma pmf_arc {A} (R : A -> A -> Prop) r' r : res_follows B R r' r -> pmf (arel R) (arc_new r') (arc_new r).
Proof.
  intros [H|[HB ->]] p' p Hp.
  - left. unfold arc_new. destruct r' as [x'|e'], r as [x|e]; cbn; try contradiction; [|now split].
    destruct Hp as (E' & E & En & Hp). split; [|split; [exact En | exact H]].
    split; [exact E'|]. split; [exact E|]. split; [cbn; now rewrite En | exact Hp].
  - right. split; [exact HB | reflexivity].
Qed.
Lemma res_and {A} (R : A -> A -> Prop) (Q : A -> Prop) r' r :
  res_follows B R r' r -> (forall x, r = Ok x -> Q x) -> res_follows B (fun x' x => R x' x /\ Q x) r' r.
Proof.
  intros [H|H] HQ; [left|now right]. destruct r', r; try assumption. split; auto.
Qed.
Lemma crel_get {A} R (c' c : cache A) n : crel R c' c ->
  match cache_get c' n, cache_get c n with Some a', Some a => arel (R n) a' a | None, None => True | _, _ => False end.
Proof.
  induction 1 as [|[k' a'] [k a] c' c (H1 & H2 & H3) H IH]; cbn in *; [exact I|].
  subst k'. destruct (Nat.eqb_spec k n); [subst k; split; assumption | exact IH].
Qed.

Definition lens {A} (R : nat -> A -> A -> Prop) (get : planner T -> cache A) set : Prop :=
  (forall p' p, prel p' p -> crel R (get p') (get p)) /\
  (forall p' p c' c, prel p' p -> crel R c' c -> prel (set c' p') (set c p)).
Lemma pmf_cached {A} (R : nat -> A -> A -> Prop) get set n (M' M : PM (arc A)) : lens R get set ->
  pmf (arel (R n)) M' M -> pmf (arel (R n)) (cached get set n M') (cached get set n M).
Proof.
  intros [Hg Hs] H p' p Hp. unfold cached. pose proof (crel_get R _ _ n (Hg p' p Hp)) as Hc.
  destruct (cache_get (get p') n), (cache_get (get p) n); try contradiction; [left; now split|].
  destruct (H p' p Hp) as [[H1 H2]|[H1 H2]].
  - left. destruct (M' p') as [q' [a'|e']], (M p) as [q [a|e]]; cbn in *; try contradiction; [|now split].
    split; [|exact H2]. apply Hs; [exact H1|]. constructor; [|now apply Hg]. cbn. split; [reflexivity | exact H2].
  - right. split; [exact H1|]. destruct (M p) as [q [a|e]]; cbn in *; [discriminate | assumption].
Qed.
Ltac lens_tac := split; [intros p' p Hp; apply Hp | intros p' p c' c Hp Hc; unfold prel in *; cbn; tauto].
Lemma lens_dct1 : lens kx dct1_cache set_dct1. Proof. lens_tac. Qed.
Lemma lens_dst1 : lens kx dst1_cache set_dst1. Proof. lens_tac. Qed.
Lemma lens_dct23 : lens k23 dct23_cache set_dct23. Proof. lens_tac. Qed.
Lemma lens_dct4 : lens k4 dct4_cache set_dct4. Proof. lens_tac. Qed.
Lemma lens_dct5 : lens kx dct5_cache set_dct5. Proof. lens_tac. Qed.
Lemma lens_dst5 : lens kx dst5_cache set_dst5. Proof. lens_tac. Qed.
Lemma lens_dct6 : lens kc dct6_cache set_dct6. Proof. lens_tac. Qed.
Lemma lens_dst6 : lens ks dst6_cache set_dst6. Proof. lens_tac. Qed.
Lemma lens_dct8 : lens kx dct8_cache set_dct8. Proof. lens_tac. Qed.
Lemma lens_dst8 : lens kx dst8_cache set_dst8. Proof. lens_tac. Qed.
Lemma lens_mdct : lens km mdct_cache set_mdct. Proof. lens_tac. Qed.

Lemma ok_inj {A} (a b : A) : Ok a = Ok b -> a = b.
Proof. congruence. Qed.
Lemma room_le m n : m <= n -> room n -> room m.
Proof. intros H [H1 H2]. split; [lia|]. intros k Hk. specialize (H2 k ltac:(lia)). lia. Qed.

Lemma new_dct1_follows n : room n -> pmf (arel (kx n)) (plan_new_dct1_ck B MAX n) (plan_new_dct1 n).
Proof.
  intros [H1 H2]. unfold plan_new_dct1_ck, plan_new_dct1. destruct (Nat.ltb_spec n 10).
  - apply pmf_arc. apply Dct1Naive_make_eq; lia.
  - eapply pmf_lift.
    { erewrite (ulift_mul (T := unit) B MAX _ _ (n - 1) 2); [reflexivity| |reflexivity|lia].
      apply ulift_sub; [reflexivity..|lia]. }
    apply pmf_fft. apply pmf_arc. apply Dct1ConvertToFft_make_eq.
    rewrite (proj1 (Hpf _)). specialize (H2 ((n - 1) * 2) ltac:(lia)). unfold big23 in H2. lia.
Qed.

Lemma new_dst1_follows n : room n -> pmf (arel (kx n)) (plan_new_dst1_ck B MAX n) (plan_new_dst1 n).
Proof.
  intros [H1 H2]. unfold plan_new_dst1_ck, plan_new_dst1. destruct (Nat.ltb_spec n 25).
  - apply pmf_arc. apply Dst1Naive_make_eq; lia.
  - eapply pmf_lift.
    { erewrite (ulift_mul (T := unit) B MAX _ _ (n + 1) 2); [reflexivity| |reflexivity|lia].
      apply ulift_add; [reflexivity..|lia]. }
    apply pmf_fft. apply pmf_arc. apply Dst1ConvertToFft_make_eq.
    rewrite (proj1 (Hpf _)). specialize (H2 ((n + 1) * 2) ltac:(lia)). unfold big23 in H2. lia.
Qed.

Lemma new_dst6_follows n : room n -> pmf (arel (ks n)) (plan_new_dst6_ck B MAX n) (plan_new_dst6 n).
Proof.
  intros [H1 H2]. unfold plan_new_dst6_ck, plan_new_dst6. destruct (Nat.ltb_spec n 45).
  - apply pmf_arc. apply Dst6And7Naive_make_eq; lia.
  - eapply pmf_lift.
    { erewrite (ulift_add (T := unit) B MAX _ _ (n * 2) 1); [reflexivity| |reflexivity|lia].
      apply ulift_mul; [reflexivity..|lia]. }
    apply pmf_fft. apply pmf_arc. specialize (H2 (n * 2 + 1) ltac:(lia)). unfold big23 in H2.
    apply Dst6And7ConvertToFft_make_eq; rewrite (proj1 (Hpf _)); lia.
Qed.

Lemma butterfly_follows n : pmf (arel (k23 n)) (plan_dct2_butterfly n) (plan_dct2_butterfly n).
Proof.
  assert (E : forall x : t23 T, t23_follows B x x).
  { intros x. repeat split; intros b s; apply follows_refl. }
  assert (E' : forall e, pmf (arel (k23 n)) (fun p => (p, Err e)) (fun p => (p, Err e))).
  { intros e p' p Hp. left. cbn. split; [exact Hp | reflexivity]. }
  unfold plan_dct2_butterfly. 
  do 17 (destruct n as [|n]; [first [apply E' | apply pmf_arc; left; split; [apply E|]; split; [reflexivity|]; apply Nat.le_0_l]|]).
  apply E'.
Qed.

Lemma new_dct2_follows n rec' rec : room n ->
  (forall m, m < n -> pmf (arel (k23 m)) (rec' m) (rec m)) ->
  pmf (arel (k23 n)) (plan_new_dct2_ck B MAX rec' n) (plan_new_dct2 rec n).
Proof.
  intros Hn Hrec. pose proof Hn as [H1 H2]. unfold plan_new_dct2_ck, plan_new_dct2.
  destruct (existsb _ _); [apply butterfly_follows|].
  destruct (is_power_of_two n && (2 <? n)) eqn:Ep.
  - apply andb_prop in Ep as [Ep En]. apply Nat.ltb_lt in En.
    eapply pmf_bind; [apply Hrec; lia|]. intros h' h (_ & Hh & Lh & _).
    eapply pmf_bind; [apply Hrec; lia|]. intros q' q (_ & Hq & Lq & _).
    apply pmf_arc. apply res_and.
    + apply Type2And3SplitRadix_make_eq; [exact Hh | exact Hq | rewrite Lh; lia | rewrite Lq; lia].
    + intros x. unfold Type2And3SplitRadix_new. rewrite Lh, Lq.
      unfold rassert. destruct (_ && _) eqn:E1; [|discriminate]. destruct (_ =? _) eqn:E2; [|discriminate].
      cbn [rbind rmap]. intros Ex. apply ok_inj in Ex. subst x. cbn [t23_len t23_scratch Type2And3SplitRadix_obj].
      unfold Type2And3SplitRadix_scratch, Type2And3SplitRadix_len. cbn [sr_tw]. rewrite map_length, seq_length.
      apply Nat.eqb_eq in E2.
      assert (Hn4 : n / 2 * 2 / 4 * 4 = n).
      { apply is_pow2_iff in Ep as [k ->]. destruct k as [|[|k]]; [cbn in En; lia..|].
        rewrite !Nat.pow_succ_r'. clear. remember (2 ^ k) as z. lia. }
      rewrite Hn4. split; [reflexivity|]. unfold big23. lia.
  - apply pmf_fft. apply pmf_arc. destruct (Hpf n) as [Lf Df]. apply res_and.
    + specialize (H2 n ltac:(lia)). unfold big23 in H2. apply Type2And3ConvertToFft_make_eq; rewrite Lf; lia.
    + intros x. unfold Type2And3ConvertToFft_new. rewrite Lf, Df. cbn [dir_eqb rassert rbind rmap].
      intros Ex. apply ok_inj in Ex. subst x. cbn [t23_len t23_scratch Type2And3ConvertToFft_obj].
      unfold Type2And3ConvertToFft_len. cbn [t23f_tw t23f_scratch]. rewrite map_length, seq_length.
      split; [reflexivity|]. unfold big23. lia.
Qed.

Lemma dct2_fuel_follows fuel : forall n, n < fuel -> room n ->
  pmf (arel (k23 n)) (plan_dct2_fuel_ck B MAX fuel n) (plan_dct2_fuel fuel n).
Proof.
  induction fuel as [|f IH]; intros n Hf Hn; [lia|]. cbn [plan_dct2_fuel_ck plan_dct2_fuel].
  apply pmf_cached; [apply lens_dct23|]. apply new_dct2_follows; [exact Hn|].
  intros m Hm. apply IH; [lia|]. now apply (room_le m n); [lia|].
Qed.
Lemma dct2_follows n : room n -> pmf (arel (k23 n)) (plan_dct2_ck B MAX n) (plan_dct2 n).
Proof. intros H. apply dct2_fuel_follows; [lia | exact H]. Qed.

Lemma naive4_follows n : room n -> pmf (arel (k4 n)) (arc_new (rbind (Type4Naive_new_ck B MAX n) (Type4Naive_obj_ck B MAX)))
  (arc_new (Ok (Type4Naive_obj (Type4Naive_new n)))).
Proof.
  intros [H1 H2]. apply pmf_arc. apply res_and; [apply Type4Naive_make_eq; lia|].
  intros x Ex. apply ok_inj in Ex. subst x. cbn [t4_len t4_scratch Type4Naive_obj].
  unfold Type4Naive_scratch, Type4Naive_len, Type4Naive_new. cbn [t4n_tw]. rewrite map_length, seq_length.
  split; [lia | left; lia].
Qed.

Lemma new_dct4_follows n : room n -> pmf (arel (k4 n)) (plan_new_dct4_ck B MAX n) (plan_new_dct4 n).
Proof.
  intros Hn. pose proof Hn as [H1 H2]. unfold plan_new_dct4_ck, plan_new_dct4.
  destruct (Nat.eqb_spec (n mod 2) 0) as [E|E].
  - destruct (n <? 6); [now apply naive4_follows|].
    eapply pmf_bind; [apply dct2_follows; apply (room_le _ n); [lia | exact Hn]|].
    intros d' d (_ & Hd & Ld & Sd). apply pmf_arc. apply res_and.
    + apply Type4ConvertToType3Even_make_eq; [exact Hd | rewrite Ld; lia|].
      rewrite Ld. specialize (H2 (n / 2) ltac:(lia)). lia.
    + intros x Ex. apply ok_inj in Ex. subst x. cbn [t4_len t4_scratch Type4ConvertToType3Even_obj].
      unfold Type4ConvertToType3Even_len, Type4ConvertToType3Even_new. cbn [t4e_tw t4e_scratch].
      rewrite map_length, seq_length, Ld. split; [lia|]. left. destruct (_ <=? _); lia.
  - destruct (n <? 7); [now apply naive4_follows|].
    apply pmf_fft. apply pmf_arc. destruct (Hpf n) as [Lf Df]. apply res_and.
    + specialize (H2 n ltac:(lia)). unfold big23 in H2. apply Type4ConvertToFftOdd_make_eq; rewrite Lf; lia.
    + intros x. unfold Type4ConvertToFftOdd_new. rewrite Lf, Df. cbn [dir_eqb rassert rbind].
      destruct (_ =? _); [|discriminate]. cbn [rbind rmap].
      intros Ex. apply ok_inj in Ex. subst x. cbn [t4_len t4_scratch Type4ConvertToFftOdd_obj t4f_len t4f_scratch].
      split; [reflexivity|]. right. unfold big23. lia.
Qed.
Lemma dct4_follows n : room n -> pmf (arel (k4 n)) (plan_dct4_ck B MAX n) (plan_dct4 n).
Proof. intros H. apply pmf_cached; [apply lens_dct4 | now apply new_dct4_follows]. Qed.

Lemma mdct_plan_follows n w : room n -> pmf (arel (km n)) (plan_mdct_ck B MAX n w) (plan_mdct n w).
Proof.
  intros Hn. pose proof Hn as [H1 H2]. apply pmf_cached; [apply lens_mdct|].
  eapply pmf_bind; [now apply dct4_follows|]. intros d' d (_ & Hd & Ld & Sd).
  apply pmf_arc. apply MdctViaDct4_make_eq; [exact Hd | rewrite Ld; lia|]. rewrite Ld.
  pose proof (H2 (n / 2) ltac:(lia)). pose proof (H2 n ltac:(lia)). lia.
Qed.
Lemma dct1_follows n : room n -> pmf (arel (kx n)) (plan_dct1_ck B MAX n) (plan_dct1 n).
Proof. intros H. apply pmf_cached; [apply lens_dct1 | now apply new_dct1_follows]. Qed.
Lemma dst1_follows n : room n -> pmf (arel (kx n)) (plan_dst1_ck B MAX n) (plan_dst1 n).
Proof. intros H. apply pmf_cached; [apply lens_dst1 | now apply new_dst1_follows]. Qed.
Lemma dst6_follows n : room n -> pmf (arel (ks n)) (plan_dst6_ck B MAX n) (plan_dst6 n).
Proof. intros H. apply pmf_cached; [apply lens_dst6 | now apply new_dst6_follows]. Qed.
Lemma dct5_follows n : room n -> pmf (arel (kx n)) (plan_dct5_ck B MAX n) (plan_dct5 n).
Proof. intros [H _]. apply (pmf_cached kx); [apply lens_dct5 | apply pmf_arc; apply Dct5Naive_make_eq; lia]. Qed.
Lemma dct6_follows n : room n -> pmf (arel (kc n)) (plan_dct6_ck B MAX n) (plan_dct6 n).
Proof. intros [H _]. apply (pmf_cached kc); [apply lens_dct6 | apply pmf_arc; apply Dct6And7Naive_make_eq; lia]. Qed.
Lemma dct8_follows n : room n -> pmf (arel (kx n)) (plan_dct8_ck B MAX n) (plan_dct8 n).
Proof. intros [H _]. apply (pmf_cached kx); [apply lens_dct8 | apply pmf_arc; apply Dct8Naive_make_eq; lia]. Qed.
Lemma dst5_follows n : room n -> pmf (arel (kx n)) (plan_dst5_ck B MAX n) (plan_dst5 n).
Proof. intros [H _]. apply (pmf_cached kx); [apply lens_dst5 | apply pmf_arc; apply Dst5Naive_make_eq; lia]. Qed.
Lemma dst8_follows n : room n -> pmf (arel (kx n)) (plan_dst8_ck B MAX n) (plan_dst8 n).
Proof. intros [H _]. apply (pmf_cached kx); [apply lens_dst8 | apply pmf_arc; apply Dst8Naive_make_eq; lia]. Qed.
End CheckedPlanEq.
