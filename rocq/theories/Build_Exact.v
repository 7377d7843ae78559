(** In exact arithmetic, what an instance that can be built returns is the reference
    transform. *)
From Coq Require Import List Arith Lia Bool ZArith ZifyNat Reals.
From Verif Require Import Prog Num Model_Common Model_Naive Model_Fft Model_Butterflies Model_SplitRadix
  Model_Mdct Model_Plan Model_Api Spec Spec_Api Spec_Fft Spec_Plan Spec_Methods Spec_Memory Spec_Build
  Wp Api Contracts Naive_Objects Canon Exact_Fft Objects Api_Mdct Plan_Theorems Confine Confine_Meth Interleave Build_Conf Build_Reject Build_Works.
Import ListNotations.
Open Scope nat_scope.
Ltac Zify.zify_post_hook ::= Z.div_mod_to_equations.

Section Exact.
Variable joined : t23 R -> t23 R -> Prop.
Notation b23 := (built23 fft_exact joined).
Notation b4 := (built4 fft_exact joined).

Lemma exact_len (o : t23 R) n : exact_t23 o n -> t23_len o = n. Proof. intros H; apply H. Qed.
Lemma exact4_len (o : t4 R) n : exact_t4 o n -> t4_len o = n. Proof. intros H; apply H. Qed.
Lemma fft23_exact (f : fft R) d : fft_exact f -> Type2And3ConvertToFft_new f = Ok d -> exact_t23 (Type2And3ConvertToFft_obj d) (fft_len f).
Proof. intros H E. apply (Type2And3ConvertToFft_exact f d E H). Qed.
Lemma fft4_exact (f : fft R) d : fft_exact f -> Type4ConvertToFftOdd_new f = Ok d -> exact_t4 (Type4ConvertToFftOdd_obj d) (fft_len f).
Proof. intros H E. apply (Type4ConvertToFftOdd_exact f d E H). Qed.
Lemma built23_exact_or o : b23 o -> exact_t23 o (t23_len o) \/ barren23 o.
Proof.
  apply built23_or; [apply exact_len|apply Type2And3Naive_exact|apply Butterfly2_exact|apply Butterfly3_exact|apply Butterfly4_exact
    |apply Butterfly8_exact|apply Butterfly16_exact|apply fft23_exact|intros h q d nh nq; apply Type2And3SplitRadix_exact].
Qed.
Lemma built4_exact_or o : b4 o -> exact_t4 o (t4_len o) \/ barren4 o.
Proof.
  apply (built4_or _ _ exact_t23); [apply exact_len|apply Type2And3Naive_exact|apply Butterfly2_exact|apply Butterfly3_exact|apply Butterfly4_exact
    |apply Butterfly8_exact|apply Butterfly16_exact|apply fft23_exact|intros h q d nh nq; apply Type2And3SplitRadix_exact
    |apply exact4_len|apply Type4Naive_exact|apply Type4ConvertToType3Even_exact|apply fft4_exact].
Qed.

Lemma dct1_exact_len o : built_dct1 fft_exact o -> 2 <= x_len o -> exact (x_run o) (x_len o) (x_scratch o) dct1_at.
Proof.
  destruct 1 as [n d E|f d Hf E]; intros Hn.
  - destruct (Dct1Naive_exact n d E) as [L K]. rewrite L. exact K.
  - destruct (Nat.eq_dec (fft_len f) 0) as [Z|Z].
    + exfalso. revert E. unfold Dct1ConvertToFft_new, rassert. destruct (_ =? 0); [|discriminate]. cbn [rbind].
      destruct (dir_eqb _ _); [|discriminate]. cbn [rbind]. intros X. apply Ok_inj in X. subst d. cbn in Hn. rewrite Z in Hn. cbn in Hn. lia.
    + destruct (Dct1ConvertToFft_exact f d E Hf ltac:(lia)) as [L K]. rewrite L. exact K.
Qed.
Lemma dst1_exact_len o : built_dst1 fft_exact o -> exact2 (x_run o) (x_len o) (x_scratch o) dst1_at.
Proof.
  destruct 1 as [n|f d Hf E].
  - destruct (Dst1Naive_exact n) as [L K]. rewrite L. exact K.
  - destruct (Dst1ConvertToFft_exact f d E Hf) as [L K]. rewrite L. exact K.
Qed.
Lemma s67_exact_len o : built_s67 fft_exact o ->
  exact2 (t_dst6 o) (s67_len o) (s67_scratch o) dst6_at /\ exact2 (t_dst7 o) (s67_len o) (s67_scratch o) dst7_at.
Proof.
  destruct 1 as [n|f d Hf E].
  - destruct (Dst6And7Naive_exact n) as (L & K & K'). rewrite L. auto.
  - destruct (Dst6And7ConvertToFft_exact f d E Hf) as (L & K & K'). rewrite L. auto.
Qed.

Definition transforms_to (c : pcall R) f sl : Prop :=
  does_zeroed f (size c) sl (reference c) /\ (keeps_scratch_apart c -> does f (size c) sl (reference c)).
Lemma to_does (c : pcall R) f sl : does f (size c) sl (reference c) -> transforms_to c f sl.
Proof. intros H. split; [apply does_does_zeroed, H|auto]. Qed.
Ltac by_exact H := left; apply to_does; cbn [size reference]; rewrite (proj1 H); apply exact_does, H.

Lemma built_exact_or c f sl : built_method fft_exact joined c f sl -> legal c ->
  transforms_to c f sl \/ barren f (size c).
Proof.
  destruct c as [n|n|n|n|n|n|n|n|n|n|n|n|n|n|n|n|n w]; cbn [built_method size legal]; try contradiction;
    intros (o & Ho & <- & <- & <-) Hl.
  - left. apply to_does, exact_does, dct1_exact_len; assumption.
  - destruct (built23_exact_or o Ho) as [H|H]; [left; apply to_does, exact_does, H|right; apply H].
  - destruct (built23_exact_or o Ho) as [H|H]; [left; apply to_does, exact_does, H, Hl|right; apply H].
  - destruct (built4_exact_or o Ho) as [H|H]; [left; apply to_does, exact_does, H|right; apply H].
  - destruct Ho as [n d E]. pose proof (Dct5Naive_exact n d E) as H. by_exact H.
  - destruct Ho as [n d E]. pose proof (Dct6And7Naive_exact n d E) as H. by_exact H.
  - destruct Ho as [n d E]. pose proof (Dct6And7Naive_exact n d E) as H. by_exact H.
  - destruct Ho as [n]. pose proof (Dct8Naive_exact n) as H. by_exact H.
  - left. split; [apply exact2_does, dst1_exact_len; assumption|intros []].
  - destruct (built23_exact_or o Ho) as [H|H]; [left; apply to_does, exact_does, H|right; apply H].
  - destruct (built23_exact_or o Ho) as [H|H]; [left; apply to_does, exact_does, H, Hl|right; apply H].
  - destruct (built4_exact_or o Ho) as [H|H]; [left; apply to_does, exact_does, H|right; apply H].
  - destruct Ho as [n]. pose proof (Dst5Naive_exact n) as H. by_exact H.
  - left. split; [apply exact2_does, s67_exact_len; assumption|intros []].
  - left. split; [apply exact2_does, s67_exact_len; assumption|intros []].
  - destruct Ho as [n d E]. pose proof (Dst8Naive_exact n d E) as H. by_exact H.
Qed.

Lemma built_process_or c f sl : built_method fft_exact joined c f sl -> legal c ->
  (forall x, length x = size c -> process f sl x = Returned (reference c x)) \/ never_accepts f (size c).
Proof.
  intros B L. destruct (built_exact_or c f sl B L) as [[[_ H] _]|H]; [left; exact H|right; apply barren_never, H].
Qed.
Lemma process_call (f : meth R) sl x : process f sl x = match call f x (repeat 0%R sl) with
  | Returned (y, _) => Returned y | Panics e (y, _) => Panics e y | Undefined => Undefined end.
Proof. reflexivity. Qed.
Lemma built_returns c f sl x y : built_method fft_exact joined c f sl -> legal c ->
  process f sl x = Returned y -> length x = size c /\ y = reference c x.
Proof.
  intros B L E. assert (Hx : length x = size c).
  { destruct (Nat.eq_dec (length x) (size c)) as [|Hne]; [assumption|].
    destruct (built_rejects_somehow _ _ c f sl B x (repeat 0%R sl) (or_introl Hne)) as (e & r & K).
    rewrite process_call, K in E. destruct r. discriminate. }
  split; [exact Hx|]. destruct (built_process_or c f sl B L) as [H|H].
  - rewrite (H x Hx) in E. injection E as <-. reflexivity.
  - destruct (H x (repeat 0%R sl) Hx) as (e & r & K). rewrite process_call, K in E. destruct r. discriminate.
Qed.
Lemma built_returns_call c f sl x s y s' : built_method fft_exact joined c f sl -> legal c -> keeps_scratch_apart c ->
  call f x s = Returned (y, s') -> length x = size c /\ y = reference c x.
Proof.
  intros B L C E. destruct (le_lt_dec sl (length s)) as [Hs|Hs].
  2: { destruct (built_rejects_somehow _ _ c f sl B x s (or_intror Hs)) as (e & r & K). rewrite K in E. discriminate. }
  assert (Hx : length x = size c).
  { destruct (Nat.eq_dec (length x) (size c)) as [|Hne]; [assumption|].
    destruct (built_rejects_somehow _ _ c f sl B x s (or_introl Hne)) as (e & r & K). rewrite K in E. discriminate. }
  split; [exact Hx|]. destruct (built_exact_or c f sl B L) as [[_ H]|H].
  - destruct (H C) as [K _]. destruct (K x s Hx Hs) as (s1 & K1 & _). rewrite K1 in E. injection E as <- _. reflexivity.
  - destruct (barren_never _ _ H x s Hx) as (e & r & K). rewrite K in E. discriminate.
Qed.
End Exact.

Lemma built_agree joined joined' c f sl f' sl' x y y' : built_method fft_exact joined c f sl -> built_method fft_exact joined' c f' sl' -> legal c ->
  process f sl x = Returned y -> process f' sl' x = Returned y' -> y = y'.
Proof.
  intros B B' L E E'. destruct (built_returns joined c f sl x y B L E) as [_ ->]. destruct (built_returns joined' c f' sl' x y' B' L E') as [_ ->]. reflexivity.
Qed.

(** With room for the inner transforms, every length above zero. *)
Section Roomy.
Variable joined : t23 R -> t23 R -> Prop.
Hypothesis J : forall h q, joined h q -> roomy h q.
Lemma built4_exact o : 0 < t4_len o -> built4 fft_exact joined o -> exact_t4 o (t4_len o).
Proof.
  apply (built4_all _ _ exact_t23); [apply exact_len|apply Type2And3Naive_exact|apply Butterfly2_exact|apply Butterfly3_exact|apply Butterfly4_exact
    |apply Butterfly8_exact|apply Butterfly16_exact|apply fft23_exact|intros h q d nh nq; apply Type2And3SplitRadix_exact
    |apply exact4_len|apply Type4Naive_exact|apply Type4ConvertToType3Even_exact|apply fft4_exact|exact J].
Qed.
Lemma built_fft_clean c f sl : built_method fft_exact joined c f sl -> built_method (@fft_clean R) joined c f sl.
Proof. apply built_method_mono; [exact fft_exact_clean|auto]. Qed.
Lemma built_transforms c f sl : built_method fft_exact joined c f sl -> legal c -> 0 < size c -> transforms_to c f sl.
Proof.
  intros B L Hp. destruct (built_exact_or joined c f sl B L) as [H|H]; [exact H|]. exfalso.
  pose proof (built_accepts joined c f sl J (built_fft_clean c f sl B) L Hp) as A.
  destruct (A (repeat 0%R (size c)) (repeat 0%R sl)) as [r E]; try (rewrite repeat_length; lia).
  destruct (barren_never _ _ H (repeat 0%R (size c)) (repeat 0%R sl) (repeat_length _ _)) as (e & r' & E'). rewrite E in E'. discriminate.
Qed.
Lemma built_mdct_correct i w d : built4 fft_exact joined i -> 0 < t4_len i -> MdctViaDct4_new i w = Ok d ->
  correct_mdct (MdctViaDct4_obj d) (t4_len i) (w (t4_len i * 2)).
Proof. intros B Hp. apply MdctViaDct4_correct, built4_exact; assumption. Qed.
End Roomy.

Lemma works_mdct_accepts {T F} {N : Num T F} (o : mdct T) n : works_mdct o n ->
  accepts_mdct (t_mdct o) (m_len o) (m_scratch o) /\ accepts_mdct (t_imdct o) (m_len o) (m_scratch o).
Proof.
  intros (L & (G & HG) & (H & HH)). rewrite L. split; intros a b c s La Lb Lc Ls.
  - destruct (mdct_call _ _ _ _ HG a b c s La Lb Lc Ls) as (s' & E & _). eauto.
  - destruct (imdct_call _ _ _ _ HH a b c s La Lb Lc Ls) as (a' & b' & s' & E & _). eauto.
Qed.
Lemma built_mdct_accepts {T F} {N : Num T F} (joined : t23 T -> t23 T -> Prop) (o : mdct T) : (forall h q, joined h q -> roomy h q) ->
  built_mdct (@fft_clean T) joined o -> 0 < m_len o ->
  accepts_mdct (t_mdct o) (m_len o) (m_scratch o) /\ accepts_mdct (t_imdct o) (m_len o) (m_scratch o).
Proof.
  intros J. destruct 1 as [n w d E|i w d Bi E]; intros Hp.
  - apply (works_mdct_accepts _ n). apply (MdctNaive_works _ _ _ E).
  - assert (L : m_len (MdctViaDct4_obj d) = t4_len i) by (apply MdctViaDct4_new_inv in E; destruct E as (_ & _ & ->); reflexivity).
    rewrite L in Hp. apply (works_mdct_accepts _ (t4_len i)). apply (MdctViaDct4_works _ _ _ _ (built4_works joined J i Hp Bi) E).
Qed.

(** Split radix over FFT conversions whose FFT needs scratch. *)
Lemma split_over_fft_never {T F} {N : Num T F} (f g : fft T) h q d :
  Type2And3ConvertToFft_new f = Ok h -> Type2And3ConvertToFft_new g = Ok q ->
  Type2And3SplitRadix_new (Type2And3ConvertToFft_obj h) (Type2And3ConvertToFft_obj q) = Ok d -> 0 < fft_scratch f ->
  never_accepts (Type2And3SplitRadix_dct2 (T:=T) d) (Type2And3SplitRadix_len d) /\
  never_accepts (Type2And3SplitRadix_dct3 d) (Type2And3SplitRadix_len d) /\
  never_accepts (Type2And3SplitRadix_dst2 d) (Type2And3SplitRadix_len d) /\
  never_accepts (Type2And3SplitRadix_dst3 d) (Type2And3SplitRadix_len d).
Proof.
  intros Ef Eg E S. apply (split_never any_fft any_inner _ _ d E).
  - apply (built23_fft _ _ f); [exact I|exact Ef].
  - apply (built23_fft _ _ g); [exact I|exact Eg].
  - intros [R1 _]. revert Ef R1. unfold Type2And3ConvertToFft_new, rassert. destruct (dir_eqb _ _); [|discriminate]. cbn [rbind].
    intros X. apply Ok_inj in X. subst h. cbn [Type2And3ConvertToFft_obj t23_len t23_scratch t23f_scratch]. unfold Type2And3ConvertToFft_len.
    cbn [t23f_tw]. rewrite map_length, seq_length. lia.
Qed.
(** An exact FFT that asks for as much scratch as it has data. *)
Definition scratchy_fft (n : nat) : fft R := mkFft R n Forward n (fun xs ss => (dft xs, ss)).
Lemma fft_conv_new (f : fft R) : fft_dir f = Forward -> exists h, Type2And3ConvertToFft_new f = Ok h /\
  t23_len (Type2And3ConvertToFft_obj h) = fft_len f.
Proof.
  intros D. unfold Type2And3ConvertToFft_new, rassert. rewrite D. eexists. split; [reflexivity|].
  cbn [Type2And3ConvertToFft_obj t23_len]. unfold Type2And3ConvertToFft_len. cbn [t23f_tw]. rewrite map_length, seq_length. reflexivity.
Qed.
Lemma split_new (h q : t23 R) k : t23_len h = 2 ^ (k + 1) -> t23_len q = 2 ^ k -> exists d, Type2And3SplitRadix_new h q = Ok d /\
  Type2And3SplitRadix_len d = 2 ^ (k + 2).
Proof.
  intros Lh Lq. unfold Type2And3SplitRadix_new. cbv zeta. rewrite Lh, Lq.
  assert (P : 2 ^ (k + 1) = 2 * 2 ^ k) by (rewrite Nat.add_1_r; reflexivity).
  assert (P2 : 2 ^ (k + 2) = 4 * 2 ^ k) by (rewrite Nat.add_comm; cbn [Nat.pow Nat.add]; lia).
  assert (P1 : 1 <= 2 ^ k) by (apply Nat.neq_0_lt_0, Nat.pow_nonzero; lia).
  replace (2 ^ (k + 1) * 2) with (2 ^ (k + 2)) by lia.
  rewrite (proj2 (is_pow2_iff (2 ^ (k + 2))) (ex_intro _ _ eq_refl)).
  rewrite (proj2 (Nat.ltb_lt 2 (2 ^ (k + 2)))) by lia. rewrite (proj2 (Nat.eqb_eq (2 ^ (k + 1)) (2 ^ k * 2))) by lia.
  cbn [andb rassert rbind]. eexists. split; [reflexivity|]. unfold Type2And3SplitRadix_len. cbn [sr_tw]. rewrite map_length, seq_length. lia.
Qed.
Lemma scratchy_split k : exists h q d,
  Type2And3ConvertToFft_new (scratchy_fft (2 ^ (k + 1))) = Ok h /\ Type2And3ConvertToFft_new (scratchy_fft (2 ^ k)) = Ok q /\
  Type2And3SplitRadix_new (Type2And3ConvertToFft_obj h) (Type2And3ConvertToFft_obj q) = Ok d /\ Type2And3SplitRadix_len d = 2 ^ (k + 2).
Proof.
  destruct (fft_conv_new (scratchy_fft (2 ^ (k + 1))) eq_refl) as (h & Eh & Lh). destruct (fft_conv_new (scratchy_fft (2 ^ k)) eq_refl) as (q & Eq & Lq).
  destruct (split_new _ _ k Lh Lq) as (d & E & L). exists h, q, d. auto.
Qed.
Lemma scratchy_refutes k : exists f2 f3 g2 g3 sl,
  let n := 2 ^ (k + 2) in
  (built_method fft_exact any_inner (CDct2 n) f2 sl /\ never_accepts f2 n) /\
  (built_method fft_exact any_inner (CDct3 n) f3 sl /\ never_accepts f3 n) /\
  (built_method fft_exact any_inner (CDst2 n) g2 sl /\ never_accepts g2 n) /\
  (built_method fft_exact any_inner (CDst3 n) g3 sl /\ never_accepts g3 n).
Proof.
  destruct (scratchy_split k) as (h & q & d & Eh & Eq & E & L).
  destruct (split_over_fft_never _ _ h q d Eh Eq E) as (N2 & N3 & M2 & M3).
  { apply Nat.neq_0_lt_0, Nat.pow_nonzero. lia. }
  rewrite L in N2, N3, M2, M3.
  assert (B : built23 fft_exact any_inner (Type2And3SplitRadix_obj d)).
  { apply (built23_split _ _ (Type2And3ConvertToFft_obj h) (Type2And3ConvertToFft_obj q)); [| |exact I|exact E];
      [apply (built23_fft _ _ _ _) with (2 := Eh)|apply (built23_fft _ _ _ _) with (2 := Eq)]; intros xs ss _ _; reflexivity. }
  exists (Type2And3SplitRadix_dct2 d), (Type2And3SplitRadix_dct3 d), (Type2And3SplitRadix_dst2 d), (Type2And3SplitRadix_dst3 d), (Type2And3SplitRadix_scratch d).
  cbv zeta. repeat split; try assumption; exists (Type2And3SplitRadix_obj d); repeat split; assumption.
Qed.
