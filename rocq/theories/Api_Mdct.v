(** The MDCT: from runs on memory to what a caller observes. *)
From Coq Require Import List Arith Lia Bool Reals ZArith ZifyNat.
From Verif Require Import Prog Num Model_Common Model_Mdct Model_Api Spec Spec_Api Wp Api Sem_Naive Sem_Mdct Contracts Exact_Mdct.
Import ListNotations.
Open Scope nat_scope.
Ltac Zify.zify_post_hook ::= Z.div_mod_to_equations.

Section Any.
Context {T F : Type} {N : Num T F}.

Lemma vals_at d (pre l post : list T) p : p = length pre ->
  vals (mem_of d (pre ++ l ++ post)) (mkS p (length l)) = l.
Proof. intros ->. apply vals_mem_of. Qed.

Lemma vals4 d (a b c s : list T) :
  let m := mem_of d (a ++ b ++ c ++ s) in
  vals m (mkS 0 (length a)) = a /\ vals m (mkS (length a) (length b)) = b /\
  vals m (mkS (length a + length b) (length c)) = c /\
  vals m (mkS (length a + length b + length c) (length s)) = s.
Proof.
  cbv zeta. split; [|split; [|split]].
  - apply (vals_at d [] a (b ++ c ++ s)). reflexivity.
  - apply (vals_at d a b (c ++ s)). reflexivity.
  - rewrite app_assoc. apply vals_at. rewrite app_length. reflexivity.
  - rewrite 2 app_assoc. rewrite <- (app_nil_r s) at 1. apply vals_at. rewrite !app_length. reflexivity.
Qed.

Lemma map_seq_from {A} (f : nat -> A) n m : map f (seq n m) = map (fun i => f (n + i)) (seq 0 m).
Proof.
  revert n f. induction m; intros n f; [reflexivity|]. cbn [seq map]. rewrite Nat.add_0_r. f_equal.
  rewrite IHm, (IHm 1). apply map_ext. intros i. f_equal. lia.
Qed.

(** Where nothing was written. *)
Lemma vals_same (m m' : mem T) s : (forall q, base s <= q < base s + slen s -> m' q = m q) -> vals m' s = vals m s.
Proof. intros H. apply vals_ext. intros i Hi. apply H. lia. Qed.

Lemma mdct_call p n sl G :
  computes_mdct p n sl G -> implements_mdct p n sl (fun a b => map (G a b) (seq 0 n)).
Proof.
  intros Hc a b o s La Lb Lo Ls. destruct (vals4 zero a b o s) as (Va & Vb & Vo & Vs).
  specialize (Hc (mem_of zero (a ++ b ++ o ++ s)) (mkS 0 (length a)) (mkS (length a) (length b))
    (mkS (length a + length b) (length o)) (mkS (length a + length b + length o) (length s))).
  specialize (Hc La Lb Lo Ls). do 5 (specialize (Hc ltac:(unfold disj; cbn [base slen]; lia))).
  unfold wp in Hc. unfold call4. rewrite Va, Vb in Hc.
  destruct (run _ _) as [[] m'| |]; [|contradiction|contradiction]. destruct Hc as [A B]. cbn [base slen] in A, B.
  exists (vals m' (mkS (length a + length b + length o) (length s))). split; [|split].
  - f_equal. f_equal. f_equal; [f_equal|].
    + etransitivity; [|exact Va]. apply vals_same. cbn [base slen]. intros q Hq. apply B; lia.
    + etransitivity; [|exact Vb]. apply vals_same. cbn [base slen]. intros q Hq. apply B; lia.
    + apply vals_map; [exact Lo|]. cbn [base slen]. intros i Hi. apply A. lia.
  - apply vals_length.
  - transitivity (skipn sl (vals (mem_of zero (a ++ b ++ o ++ s)) (mkS (length a + length b + length o) (length s)))); [|rewrite Vs; reflexivity].
    rewrite !skipn_vals by exact Ls. apply vals_same. cbn [base slen]. intros q Hq. apply B; lia.
Qed.

Lemma mem_of_app_l d (l r : list T) i : i < length l -> mem_of d (l ++ r) i = mem_of d l i.
Proof. intros H. unfold mem_of. apply app_nth1, H. Qed.
Lemma vals_part d (l r : list T) p n : p + n <= length l -> vals (mem_of d (l ++ r)) (mkS p n) = firstn n (skipn p l).
Proof.
  intros H. assert (E : l = firstn p l ++ firstn n (skipn p l) ++ skipn n (skipn p l)) by (rewrite firstn_skipn, firstn_skipn; reflexivity).
  assert (L : length (firstn n (skipn p l)) = n) by (rewrite firstn_length, skipn_length; lia).
  transitivity (vals (mem_of d (firstn p l ++ firstn n (skipn p l) ++ (skipn n (skipn p l) ++ r))) (mkS p (length (firstn n (skipn p l))))).
  - rewrite L. f_equal. f_equal. rewrite (app_assoc (firstn n _)), app_assoc, <- E. reflexivity.
  - apply vals_at. rewrite firstn_length. lia.
Qed.
Lemma mdct_call_within p n sl G :
  computes_mdct p n sl G -> implements_mdct_within p n sl (fun a b => map (G a b) (seq 0 n)).
Proof.
  intros Hc x pa pb o s La Lb Lo Ls.
  assert (Vx : vals (mem_of zero (x ++ o ++ s)) (mkS 0 (length x)) = x) by apply (vals_at zero [] x (o ++ s) 0 eq_refl).
  assert (Vs : vals (mem_of zero (x ++ o ++ s)) (mkS (length x + length o) (length s)) = s).
  { rewrite app_assoc. rewrite <- (app_nil_r s) at 1. apply vals_at. rewrite app_length. reflexivity. }
  specialize (Hc (mem_of zero (x ++ o ++ s)) (mkS pa n) (mkS pb n) (mkS (length x) (length o)) (mkS (length x + length o) (length s))).
  specialize (Hc eq_refl eq_refl Lo Ls). do 5 (specialize (Hc ltac:(unfold disj; cbn [base slen]; lia))).
  rewrite !vals_part in Hc by assumption. unfold wp in Hc. unfold call_within.
  destruct (run _ _) as [[] m'| |]; [|contradiction|contradiction]. destruct Hc as [A B]. cbn [base slen] in A, B.
  exists (vals m' (mkS (length x + length o) (length s))). split; [|split].
  - f_equal. f_equal. f_equal.
    + etransitivity; [|exact Vx]. apply vals_same. cbn [base slen]. intros q Hq. apply B; lia.
    + apply vals_map; [exact Lo|]. cbn [base slen]. intros i Hi. apply A. lia.
  - apply vals_length.
  - transitivity (skipn sl (vals (mem_of zero (x ++ o ++ s)) (mkS (length x + length o) (length s)))); [|rewrite Vs; reflexivity].
    rewrite !skipn_vals by exact Ls. apply vals_same. cbn [base slen]. intros q Hq. apply B; lia.
Qed.

Lemma imdct_call p n sl G :
  computes_imdct p n sl G ->
  implements_imdct p n sl (fun x old => map (fun i => G x i (nth i old zero)) (seq 0 (2 * n))).
Proof.
  intros Hc x a b s Lx La Lb Ls. destruct (vals4 zero x a b s) as (Vx & Va & Vb & Vs).
  specialize (Hc (mem_of zero (x ++ a ++ b ++ s)) (mkS 0 (length x)) (mkS (length x) (length a))
    (mkS (length x + length a) (length b)) (mkS (length x + length a + length b) (length s))).
  specialize (Hc Lx La Lb Ls). do 6 (specialize (Hc ltac:(unfold disj; cbn [base slen]; lia))).
  unfold wp in Hc. unfold call4. rewrite Vx in Hc.
  destruct (run _ _) as [[] m'| |]; [|contradiction|contradiction]. destruct Hc as (A & B & C). cbn [base slen] in A, B, C.
  exists (vals m' (mkS (length x) (length a))), (vals m' (mkS (length x + length a) (length b))),
    (vals m' (mkS (length x + length a + length b) (length s))). split; [|split; [|split; [|split; [|split]]]].
  - f_equal. f_equal. f_equal. f_equal. etransitivity; [|exact Vx]. apply vals_same. cbn [base slen]. intros q Hq. apply C; lia.
  - replace (2 * n) with (n + n) by lia. rewrite seq_app, map_app. f_equal.
    + apply vals_map; [exact La|]. cbn [base slen]. intros i Hi. rewrite A by lia.
      f_equal. rewrite app_nth1 by lia. unfold mem_of. rewrite app_nth2, app_nth1 by lia. f_equal. lia.
    + cbn [Nat.add]. rewrite map_seq_from. apply vals_map; [exact Lb|]. cbn [base slen]. intros i Hi. rewrite B by exact Hi.
      f_equal. rewrite app_nth2 by lia. unfold mem_of. rewrite app_nth2, app_nth2, app_nth1 by lia. f_equal. lia.
  - rewrite vals_length. exact La.
  - rewrite vals_length. exact Lb.
  - apply vals_length.
  - transitivity (skipn sl (vals (mem_of zero (x ++ a ++ b ++ s)) (mkS (length x + length a + length b) (length s)))); [|rewrite Vs; reflexivity].
    rewrite !skipn_vals by exact Ls. apply vals_same. cbn [base slen]. intros q Hq. apply C; lia.
Qed.

(** Contracts. *)
Definition works_mdct (o : mdct T) (n : nat) : Prop :=
  m_len o = n /\ (exists G, computes_mdct (t_mdct o) n (m_scratch o) G) /\
  (exists G, computes_imdct (t_imdct o) n (m_scratch o) G).

Lemma MdctNaive_new_inv n wf d : MdctNaive_new (T:=T) n wf = Ok d ->
  n mod 2 = 0 /\ length (wf (n * 2)) = n * 2 /\
  d = mkMdctNaive (map (fun i => from_f64 (f_cos (f_mul (f_div (f_mul f_half f_pi) (f_of_nat n)) (f_add (f_of_nat i) f_half)))) (seq 0 (n * 4))) (wf (n * 2)).
Proof.
  unfold MdctNaive_new, rassert. destruct (Nat.eqb_spec (n mod 2) 0); [|discriminate]. cbn [rbind].
  destruct (Nat.eqb_spec (length (wf (n * 2))) (n * 2)); [|discriminate]. cbn [rbind]. intros E. apply Ok_inj in E. subst d. auto.
Qed.
Lemma MdctNaive_works n wf d : MdctNaive_new (T:=T) n wf = Ok d -> works_mdct (MdctNaive_obj d) n.
Proof.
  intros E. apply MdctNaive_new_inv in E. destruct E as (Ev & Lw & Hd). unfold works_mdct, MdctNaive_obj. cbn [m_len m_scratch t_mdct t_imdct].
  unfold MdctNaive_scratch. assert (Lw' : length (wf (n * 2)) = 2 * n) by lia. split; [|split].
  - apply (naive_len n _ d Ev Lw' Hd).
  - eexists. apply (mdct_naive_ok n _ d Ev Lw' Hd).
  - eexists. apply (imdct_naive_ok n _ d Ev Lw' Hd).
Qed.
Lemma MdctViaDct4_new_inv (inner : t4 T) wf d : MdctViaDct4_new inner wf = Ok d ->
  let n := t4_len inner in
  n mod 2 = 0 /\ length (wf (n * 2)) = n * 2 /\ d = mkMdctDct4 inner (wf (n * 2)) (n + t4_scratch inner).
Proof.
  unfold MdctViaDct4_new, rassert. destruct (Nat.eqb_spec (t4_len inner mod 2) 0); [|discriminate]. cbn [rbind].
  destruct (Nat.eqb_spec (length (wf (t4_len inner * 2))) (t4_len inner * 2)); [|discriminate]. cbn [rbind]. intros E. apply Ok_inj in E. subst d. auto.
Qed.
Lemma MdctViaDct4_works n inner wf d : works_t4 inner n -> MdctViaDct4_new inner wf = Ok d ->
  works_mdct (MdctViaDct4_obj d) n.
Proof.
  intros (Ln & (D & HD) & _) E. apply MdctViaDct4_new_inv in E. cbv zeta in E. rewrite Ln in E. destruct E as (Ev & Lw & ->).
  unfold works_mdct, MdctViaDct4_obj, MdctViaDct4_len. cbn [m_len m_scratch t_mdct t_imdct md_dct md_scratch]. split; [exact Ln|]. split.
  - eexists. apply (mdct_dct4_ok inner (wf (n * 2)) n (t4_scratch inner) D); auto.
  - eexists. apply (imdct_dct4_ok inner (wf (n * 2)) n (t4_scratch inner) D); auto.
Qed.
End Any.

Lemma implements_mdct_ext {T F} {N : Num T F} p n sl (t t' : list T -> list T -> list T) : implements_mdct p n sl t ->
  (forall a b, length a = n -> length b = n -> t a b = t' a b) -> implements_mdct p n sl t'.
Proof. intros H E a b o s La Lb Lo Ls. rewrite <- E by assumption. apply H; assumption. Qed.
Lemma implements_mdct_within_ext {T F} {N : Num T F} p n sl (t t' : list T -> list T -> list T) : implements_mdct_within p n sl t ->
  (forall a b, length a = n -> length b = n -> t a b = t' a b) -> implements_mdct_within p n sl t'.
Proof.
  intros H E x pa pb o s La Lb Lo Ls. rewrite <- E by (rewrite firstn_length, skipn_length; lia). apply H; assumption.
Qed.
Lemma implements_imdct_ext {T F} {N : Num T F} p n sl (t t' : list T -> list T -> list T) : implements_imdct p n sl t ->
  (forall x old, length x = n -> length old = 2 * n -> t x old = t' x old) -> implements_imdct p n sl t'.
Proof.
  intros H E x a b s Lx La Lb Ls. rewrite <- E by (try rewrite app_length; lia). apply H; assumption.
Qed.

Lemma exact_correct_mdct (o : mdct R) n w G H : m_len o = n ->
  computes_mdct (t_mdct o) n (m_scratch o) G -> computes_imdct (t_imdct o) n (m_scratch o) H ->
  (forall a b k, length a = n -> length b = n -> k < n -> G a b k = mdct_at n w (a ++ b) k) ->
  (forall x i v, length x = n -> i < 2 * n -> H x i v = (v + imdct_at n w x i)%R) ->
  correct_mdct o n w.
Proof.
  intros L HG HH EG EH. split; [exact L|]. split; [|split].
  - eapply implements_mdct_ext; [apply mdct_call, HG|]. intros a b La Lb. unfold mdct_of. apply map_seq_ext. intros k Hk. apply EG; first [assumption|lia].
  - eapply implements_mdct_within_ext; [apply mdct_call_within, HG|]. intros a b La Lb. unfold mdct_of. apply map_seq_ext. intros k Hk. apply EG; first [assumption|lia].
  - eapply implements_imdct_ext; [apply imdct_call, HH|]. intros x old Lx Lo. unfold add_lists. rewrite Lo. apply map_seq_ext. intros i Hi.
    rewrite EH by first [assumption|lia]. change (@zero R R NumR) with 0%R. f_equal. unfold imdct_of. rewrite nth_map_seq by lia. reflexivity.
Qed.
Lemma MdctNaive_correct n wf d : MdctNaive_new n wf = Ok d -> correct_mdct (MdctNaive_obj d) n (wf (n * 2)).
Proof.
  intros E. apply MdctNaive_new_inv in E. destruct E as (Ev & Lw & Hd). assert (Lw' : length (wf (n * 2)) = 2 * n) by lia.
  eapply exact_correct_mdct.
  - apply (naive_len n _ d Ev Lw' Hd).
  - apply (mdct_naive_ok n _ d Ev Lw' Hd).
  - apply (imdct_naive_ok n _ d Ev Lw' Hd).
  - intros. apply mdct_naive_exact; assumption.
  - intros. apply imdct_naive_exact; assumption.
Qed.
Lemma MdctViaDct4_correct n inner wf d : exact_t4 inner n -> MdctViaDct4_new inner wf = Ok d ->
  correct_mdct (MdctViaDct4_obj d) n (wf (n * 2)).
Proof.
  intros (Ln & HD & _) E. apply MdctViaDct4_new_inv in E. cbv zeta in E. rewrite Ln in E. destruct E as (Ev & Lw & ->).
  eapply exact_correct_mdct.
  - exact Ln.
  - apply (mdct_dct4_ok inner (wf (n * 2)) n (t4_scratch inner) dct4_at); auto.
  - apply (imdct_dct4_ok inner (wf (n * 2)) n (t4_scratch inner) dct4_at); auto.
  - intros. apply mdct_dct4_exact; assumption.
  - intros. apply imdct_dct4_exact; assumption.
Qed.
