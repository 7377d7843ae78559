(** Rounding, underflow and overflow in the planned transforms of power-of-two length, output by output. *)
From Coq Require Import Reals List Arith Lia Lra Psatz Bool ZArith.
From Verif Require Import Prog Num Model_Common Model_Naive Model_Plan Model_Api Spec Spec_Api Spec_Fft Spec_Plan Spec_Methods Spec_Round Spec_Ieee
  Spec_Param Spec_Levels Spec_Float Wp Contracts Api Planner Canon Plan_Theorems Param_Theorems Interval Trig Ref Ref_Split Exact_Split Round_Binary Round_Ieee Round_Ops Round_Theorems
  Levels Levels_Plan Levels_Theorems.
Import ListNotations.
Open Scope R_scope.

(** ** Two arithmetics side by side *)
Definition Both {T1 F1 T2 F2} (N1 : Num T1 F1) (N2 : Num T2 F2) : Num (T1 * T2) (F1 * F2) :=
  let un {A B C D} (f : A -> B) (g : C -> D) := fun x : A * C => (f (fst x), g (snd x)) in
  let bi {A B C D} (f : A -> A -> B) (g : C -> C -> D) := fun x y : A * C => (f (fst x) (fst y), g (snd x) (snd y)) in {|
  f_of_nat := fun n => (f_of_nat n, f_of_nat n); f_pi := (f_pi, f_pi); f_half := (f_half, f_half); f_one := (f_one, f_one); f_two := (f_two, f_two); f_four := (f_four, f_four);
  f_neg := un f_neg f_neg; f_add := bi f_add f_add; f_sub := bi f_sub f_sub; f_mul := bi f_mul f_mul; f_div := bi f_div f_div;
  f_cos := un f_cos f_cos; f_sin := un f_sin f_sin; f_sqrt := un f_sqrt f_sqrt;
  zero := (zero, zero); one := (one, one); add := bi add add; sub := bi sub sub; mul := bi mul mul; neg := un neg neg;
  from_f64 := un from_f64 from_f64; sqrt_2 := (sqrt_2, sqrt_2); frac_1_sqrt_2 := (frac_1_sqrt_2, frac_1_sqrt_2) |}.
Section Both.
Context {T1 F1 T2 F2 : Type} {N1 : Num T1 F1} {N2 : Num T2 F2}.
Lemma both_left : compatible (N := N1) (N' := Both N1 N2) (fun x p => fst p = x) (fun x p => fst p = x) (fun x p => fst p = x).
Proof. constructor; cbn; intros; subst; reflexivity. Qed.
Lemma both_right : compatible (N := N2) (N' := Both N1 N2) (fun x p => snd p = x) (fun x p => snd p = x) (fun x p => snd p = x).
Proof. constructor; cbn; intros; subst; reflexivity. Qed.
End Both.

Section Under.
Variables (u v eta : R) (N : Num R R) (top B : R).
Hypothesis (HN : rounding_under u v eta N) (HB : 0 <= B).
Let Hu : 0 <= u := w_u _ _ _ _ HN.
Let Hv : 0 <= v < 1 := w_v _ _ _ _ HN.
Let He : 0 <= eta := w_eta _ _ _ _ HN.

(** *** Tables *)
Definition Exactly : Num R R := {|
  f_of_nat := @f_of_nat _ _ N; f_pi := @f_pi _ _ N; f_half := @f_half _ _ N; f_one := @f_one _ _ N; f_two := @f_two _ _ N; f_four := @f_four _ _ N;
  f_neg := @f_neg _ _ N; f_add := @f_add _ _ N; f_sub := @f_sub _ _ N; f_mul := @f_mul _ _ N; f_div := @f_div _ _ N; f_cos := @f_cos _ _ N; f_sin := @f_sin _ _ N; f_sqrt := @f_sqrt _ _ N;
  zero := 0; one := 1; add := Rplus; sub := Rminus; mul := Rmult; neg := Ropp; from_f64 := fun x => x; sqrt_2 := sqrt 2; frac_1_sqrt_2 := / sqrt 2 |}.
Lemma rel_same x : rel 0 x x. Proof. unfold rel. rewrite Rminus_eq_0, Rabs_R0. lra. Qed.
Lemma exactly_rounding : rounding 0 v Exactly.
Proof.
  constructor; cbn [Exactly f_of_nat f_pi f_half f_one f_two f_four f_neg f_add f_sub f_mul f_div f_cos f_sin f_sqrt zero one add sub mul neg from_f64 sqrt_2 frac_1_sqrt_2];
    intros; try reflexivity; try apply rel_same; try lra; try (apply HN; assumption).
Qed.
Definition rim : R := eps u v + eta.
Lemma eps0 : 0 <= eps 0 v. Proof. exact (eps_ge0 0 v Exactly exactly_rounding). Qed.
Lemma eps_u : 1 + eps u v = (1 + u) * (1 + eps 0 v). Proof. unfold eps, eps_of. ring. Qed.
Lemma rim_ge : u + eta <= rim. Proof. unfold rim. pose proof eps_u. pose proof eps0. nra. Qed.
Lemma from_close a t : Rabs (a - t) <= eps 0 v -> Rabs t <= 1 -> Rabs (@from_f64 _ _ N a - t) <= rim.
Proof.
  intros H Ht. pose proof (w_from_f64 _ _ _ _ HN a) as C. unfold close in C. pose proof eps_u as E. unfold rim.
  assert (A : Rabs a <= 1 + eps 0 v) by (replace a with (a - t + t) by ring; eapply Rle_trans; [apply Rabs_triang|]; lra).
  replace (@from_f64 _ _ N a - t) with (@from_f64 _ _ N a - a + (a - t)) by ring. eapply Rle_trans; [apply Rabs_triang|].
  assert (u * Rabs a <= u * (1 + eps 0 v)) by (apply Rmult_le_compat_l; assumption). nra.
Qed.

(** *** Levels *)
Definition span (i j : nat) : R := widest u v eta B i j.
Hypothesis (Ht : 2 <= top) (Hr : 1 + rim <= top).
Notation NB := (Both (Overflow top N) NumR).
Definition near_at (e : R) (o : option R) (x : R) : Prop := exists y, o = Some y /\ Rabs (y - x) <= e.
Definition lev_u (i j : nat) (p : option R * R) : Prop := span i j <= top -> near_at (span i j - B * 2 ^ i) (fst p) (snd p) /\ Rabs (snd p) <= B * 2 ^ i.
Definition ent_u (p : option R * R) : Prop := near_at rim (fst p) (snd p) /\ Rabs (snd p) <= 1.

Definition ga : R := 1 + u.
Definition gm : R := (1 + u) * (1 + rim).
Lemma ga_ge : 1 <= ga. Proof. unfold ga. lra. Qed.
Lemma gm_ge : 1 <= gm. Proof. unfold gm. pose proof rim_ge. nra. Qed.
Lemma span_eq i j : span i j = 2 ^ i * ((B + INR (i + j) * eta) * (ga ^ i * gm ^ j)).
Proof. unfold span, widest, ga, gm, rim. rewrite !Rpow_mult_distr, !Rplus_assoc. ring. Qed.
Lemma gains_ge i j : 1 <= ga ^ i * gm ^ j.
Proof. pose proof (pow_R1_Rle ga i ga_ge). pose proof (pow_R1_Rle gm j gm_ge). nra. Qed.
Lemma p2 i : 1 <= 2 ^ i. Proof. apply pow_R1_Rle. lra. Qed.
Definition err (i j : nat) : R := (B + INR (i + j) * eta) * (ga ^ i * gm ^ j) - B.
Lemma span_err i j : span i j - B * 2 ^ i = 2 ^ i * err i j. Proof. rewrite span_eq. unfold err. ring. Qed.
Lemma err_ge i j : 0 <= err i j.
Proof. unfold err. pose proof (gains_ge i j). pose proof (pos_INR (i + j)). assert (0 <= INR (i + j) * eta) by nra. nra. Qed.
Lemma err_mono i j i' j' : (i <= i')%nat -> (j <= j')%nat -> err i j <= err i' j'.
Proof.
  intros Hi Hj. unfold err. assert (INR (i + j) <= INR (i' + j')) by (apply le_INR; lia). pose proof (pos_INR (i + j)).
  pose proof (gains_ge i j). assert (ga ^ i * gm ^ j <= ga ^ i' * gm ^ j').
  { apply Rmult_le_compat; try (apply Rle_pow; [apply ga_ge || apply gm_ge|assumption]); apply pow_le; [pose proof ga_ge|pose proof gm_ge]; lra. }
  assert ((B + INR (i + j) * eta) * (ga ^ i * gm ^ j) <= (B + INR (i' + j') * eta) * (ga ^ i' * gm ^ j')); [|lra].
  apply Rmult_le_compat; try nra.
Qed.
Lemma span_mono i j i' j' : (i <= i')%nat -> (j <= j')%nat -> span i j <= span i' j'.
Proof.
  intros Hi Hj. pose proof (err_mono i j i' j' Hi Hj). pose proof (err_ge i j). assert (2 ^ i <= 2 ^ i') by (apply Rle_pow; [lra|exact Hi]). pose proof (p2 i).
  pose proof (span_err i j). pose proof (span_err i' j'). nra.
Qed.
Lemma span_add i j : 2 * (1 + u) * span i j + eta <= span (S i) j.
Proof.
  rewrite !span_eq. cbn [Nat.add]. rewrite S_INR. cbn [pow]. fold ga. pose proof (gains_ge i j) as G. pose proof (p2 i). pose proof ga_ge.
  set (g := ga ^ i * gm ^ j) in * . replace (ga * ga ^ i * gm ^ j) with (ga * g) by (unfold g; ring).
  replace (2 * 2 ^ i * ((B + (INR (i + j) + 1) * eta) * (ga * g))) with (2 * ga * (2 ^ i * ((B + INR (i + j) * eta) * g)) + eta * (2 * 2 ^ i * (ga * g))) by ring.
  assert (1 <= 2 * 2 ^ i * (ga * g)) by (assert (1 <= ga * g) by nra; nra). nra.
Qed.
Lemma span_mul i j : (1 + u) * (1 + rim) * span i j + eta <= span i (S j).
Proof.
  rewrite !span_eq. rewrite Nat.add_succ_r, S_INR. cbn [pow]. fold gm. pose proof (gains_ge i j) as G. pose proof (p2 i). pose proof gm_ge.
  set (g := ga ^ i * gm ^ j) in * . replace (ga ^ i * (gm * gm ^ j)) with (gm * g) by (unfold g; ring).
  replace (2 ^ i * ((B + (INR (i + j) + 1) * eta) * (gm * g))) with (gm * (2 ^ i * ((B + INR (i + j) * eta) * g)) + eta * (2 ^ i * (gm * g))) by ring.
  assert (1 <= 2 ^ i * (gm * g)) by (assert (1 <= gm * g) by nra; nra). nra.
Qed.
Lemma clipped e y x m : Rabs (y - x) <= e -> Rabs x <= m -> e + m <= top -> near_at e (clip top y) x.
Proof.
  intros H Hx Hm. exists y. split; [|exact H]. apply clip_some. replace y with (y - x + x) by ring. eapply Rle_trans; [apply Rabs_triang|]. lra.
Qed.
Lemma op_close w x y x' y' e f : close u eta w (x' + y') -> Rabs (x' - x) <= e -> Rabs (y' - y) <= e -> Rabs x <= f -> Rabs y <= f ->
  Rabs (w - (x + y)) <= 2 * (1 + u) * (e + f) - 2 * f + eta.
Proof.
  intros C Hx Hy Fx Fy. unfold close in C.
  assert (A : Rabs (x' + y' - (x + y)) <= 2 * e) by (replace (x' + y' - (x + y)) with (x' - x + (y' - y)) by ring; eapply Rle_trans; [apply Rabs_triang|]; lra).
  assert (A2 : Rabs (x' + y') <= 2 * (e + f)).
  { replace (x' + y') with (x' + y' - (x + y) + (x + y)) by ring. eapply Rle_trans; [apply Rabs_triang|]. pose proof (Rabs_triang x y). lra. }
  replace (w - (x + y)) with (w - (x' + y') + (x' + y' - (x + y))) by ring. eapply Rle_trans; [apply Rabs_triang|]. nra.
Qed.
Lemma mul_close w x t x' t' e f : close u eta w (x' * t') -> Rabs (x' - x) <= e -> Rabs (t' - t) <= rim -> Rabs x <= f -> Rabs t <= 1 ->
  Rabs (w - x * t) <= (1 + u) * (1 + rim) * (e + f) - f + eta.
Proof.
  intros C Hx Hy Fx Ft. unfold close in C. pose proof rim_ge. pose proof (Rabs_pos (x' - x)). pose proof (Rabs_pos x). pose proof (Rabs_pos (t' - t)).
  assert (T' : Rabs t' <= 1 + rim) by (replace t' with (t' - t + t) by ring; eapply Rle_trans; [apply Rabs_triang|]; lra).
  assert (A : Rabs (x' * t' - x * t) <= e * (1 + rim) + f * rim).
  { replace (x' * t' - x * t) with ((x' - x) * t' + x * (t' - t)) by ring. eapply Rle_trans; [apply Rabs_triang|]. rewrite !Rabs_mult.
    apply Rplus_le_compat; apply Rmult_le_compat; try apply Rabs_pos; assumption. }
  assert (X' : Rabs x' <= e + f) by (replace x' with (x' - x + x) by ring; eapply Rle_trans; [apply Rabs_triang|]; lra).
  assert (A2 : Rabs (x' * t') <= (e + f) * (1 + rim)) by (rewrite Rabs_mult; apply Rmult_le_compat; try apply Rabs_pos; assumption).
  replace (w - x * t) with (w - x' * t' + (x' * t' - x * t)) by ring. eapply Rle_trans; [apply Rabs_triang|]. nra.
Qed.
Lemma ent_clip a t : Rabs (a - t) <= rim -> Rabs t <= 1 -> ent_u (clip top a, t).
Proof. intros H H1. split; [|exact H1]. cbn [fst snd]. apply (clipped _ _ _ 1); [exact H|exact H1|lra]. Qed.
Lemma ent_neg a t : Rabs (a - t) <= rim -> Rabs t <= 1 -> ent_u (lift1 top (@neg _ _ N) (clip top a), - t).
Proof.
  intros H H1. destruct (ent_clip a t H H1) as [(y & E & Hy) _]. cbn [fst snd] in * . rewrite E. cbn [lift1]. rewrite (w_neg _ _ _ _ HN).
  apply ent_clip; [|rewrite Rabs_Ropp; exact H1]. replace (- y - - t) with (- (y - t)) by ring. rewrite Rabs_Ropp. exact Hy.
Qed.
Lemma neg_dist e a b : Rabs (- a - - b) <= e -> Rabs (a - b) <= e.
Proof. intros H. rewrite <- Rabs_Ropp. replace (- (a - b)) with (- a - - b) by ring. exact H. Qed.
Lemma frac_ge : 0 < / sqrt 2 <= 1.
Proof.
  assert (1 <= sqrt 2) by (rewrite <- sqrt_1 at 1; apply sqrt_le_1; lra). split; [apply Rinv_0_lt_compat; lra|rewrite <- Rinv_1; apply Rinv_le_contravar; lra].
Qed.
Lemma float_leveled k : leveled (N := NB) (2 ^ (k + 2)) lev_u ent_u.
Proof.
  pose proof rim_ge as Rg. constructor.
  - intros a m a' m' [o x] Ha Hm H K. pose proof (span_mono a m a' m' Ha Hm). destruct H as [(y & E & Hy) Hx]; [lra|]. cbn [fst snd] in * .
    pose proof (err_mono a m a' m' Ha Hm). pose proof (err_ge a m). assert (2 ^ a <= 2 ^ a') by (apply Rle_pow; [lra|exact Ha]). pose proof (p2 a).
    split; [|nra]. exists y. split; [exact E|]. rewrite span_err in * . nra.
  - intros K. split; [|cbn; rewrite Rabs_R0; lra]. exists 0. cbn [fst snd zero Both Overflow NumR]. rewrite (w_zero _ _ _ _ HN), clip_some by (rewrite Rabs_R0; lra).
    split; [reflexivity|]. rewrite Rminus_0_r, Rabs_R0, span_err. pose proof (err_ge 0 0). cbn [pow]. lra.
  - intros a m [o x] H K. destruct (H K) as [(y & E & Hy) Hx]. cbn [fst snd] in * . subst o. cbn [fst snd neg Both Overflow NumR lift1]. rewrite Rabs_Ropp.
    split; [|exact Hx]. rewrite (w_neg _ _ _ _ HN). apply (clipped _ _ _ (B * 2 ^ a)); [|rewrite Rabs_Ropp; exact Hx|lra].
    replace (- y - - x) with (- (y - x)) by ring. rewrite Rabs_Ropp. exact Hy.
  - intros a m [o x] [o' y] Ix Iy K. pose proof (span_mono a m (S a) m ltac:(lia) ltac:(lia)). destruct Ix as [(x' & E & Ex) Hx]; [lra|]. destruct Iy as [(y' & E' & Ey) Hy]; [lra|].
    cbn [fst snd] in * . subst o o'. cbn [fst snd add Both Overflow NumR lift2].
    assert (X : Rabs (x + y) <= B * 2 ^ S a) by (cbn [pow]; pose proof (Rabs_triang x y); lra). split; [|exact X].
    apply (clipped _ _ _ (B * 2 ^ S a)); [|exact X|lra].
    eapply Rle_trans; [apply (op_close _ _ _ x' y' _ (B * 2 ^ a) (w_add _ _ _ _ HN x' y') Ex Ey Hx Hy)|].
    pose proof (span_add a m). cbn [pow]. lra.
  - intros a m [o x] [o' y] Ix Iy K. pose proof (span_mono a m (S a) m ltac:(lia) ltac:(lia)). destruct Ix as [(x' & E & Ex) Hx]; [lra|]. destruct Iy as [(y' & E' & Ey) Hy]; [lra|].
    cbn [fst snd] in * . subst o o'. cbn [fst snd sub Both Overflow NumR lift2].
    assert (X : Rabs (x - y) <= B * 2 ^ S a) by (cbn [pow]; pose proof (Rabs_triang x (- y)) as Q; rewrite Rabs_Ropp in Q; unfold Rminus; lra). split; [|exact X].
    apply (clipped _ _ _ (B * 2 ^ S a)); [|exact X|lra].
    eapply Rle_trans; [apply (op_close _ _ _ x' (- y') _ (B * 2 ^ a) (w_sub _ _ _ _ HN x' y') Ex)|].
    + replace (- y' - - y) with (- (y' - y)) by ring. rewrite Rabs_Ropp. exact Ey.
    + exact Hx.
    + rewrite Rabs_Ropp. exact Hy.
    + pose proof (span_add a m). cbn [pow]. lra.
  - intros a m [o x] [o' t] [(t' & E' & Et) Bt] Ix K. pose proof (span_mono a m a (S m) ltac:(lia) ltac:(lia)). destruct Ix as [(x' & E & Ex) Hx]; [lra|].
    cbn [fst snd] in * . subst o o'. cbn [fst snd mul Both Overflow NumR lift2].
    assert (X : Rabs (x * t) <= B * 2 ^ a) by (rewrite Rabs_mult; pose proof (Rabs_pos x); pose proof (Rabs_pos t); nra). split; [|exact X].
    apply (clipped _ _ _ (B * 2 ^ a)); [|exact X|lra].
    eapply Rle_trans; [apply (mul_close _ _ _ x' t' _ (B * 2 ^ a) (w_mul _ _ _ _ HN x' t') Ex Et Hx Bt)|].
    pose proof (span_mul a m). lra.
  - intros a m [o x] Ix K. pose proof (span_mono a m (S a) (S m) ltac:(lia) ltac:(lia)). destruct Ix as [(x' & E & Ex) Hx]; [lra|].
    cbn [fst snd] in * . subst o. unfold two. cbn [fst snd mul from_f64 f_two Both Overflow NumR].
    rewrite (w_f_two _ _ _ _ HN), (w_from_two _ _ _ _ HN), clip_some by (rewrite Rabs_right; lra). cbn [lift2].
    assert (X : Rabs (x * 2) <= B * 2 ^ S a) by (rewrite Rabs_mult, (Rabs_right 2) by lra; cbn [pow]; lra). split; [|exact X].
    apply (clipped _ _ _ (B * 2 ^ S a)); [|exact X|lra].
    pose proof (w_mul _ _ _ _ HN x' 2) as C. replace (x' * 2) with (x' + x') in C by ring. replace (x * 2) with (x + x) by ring.
    eapply Rle_trans; [apply (op_close _ _ _ x' x' _ (B * 2 ^ a) C Ex Ex Hx Hx)|].
    pose proof (span_add a m). pose proof (span_mono (S a) m (S a) (S m) ltac:(lia) ltac:(lia)). cbn [pow] in * . lra.
  - unfold half. cbn [from_f64 f_half Both Overflow NumR fst snd]. rewrite (w_f_half _ _ _ _ HN), (w_from_half _ _ _ _ HN). apply ent_clip.
    + rewrite Rminus_eq_0, Rabs_R0. lra.
    + rewrite Rabs_right; lra.
  - cbn [frac_1_sqrt_2 Both Overflow NumR]. pose proof frac_ge as F. apply ent_clip; [|rewrite Rabs_right; lra].
    pose proof (w_frac_1_sqrt_2 _ _ _ _ HN) as C. unfold close in C. rewrite (Rabs_right (/ sqrt 2)) in C by lra. nra.
  - apply room_for.
  - intros q i _ Hi. pose proof (q_twiddle_err 0 v Exactly exactly_rounding q i Hi) as Q. cbv zeta in Q.
    assert (Eq : fst (c_conj (N := NumR) (single_twiddle (N := NumR) (2 * i + 1) (16 * q))) = cz (8 * zn q) (2 * zn i + 1) /\ snd (c_conj (N := NumR) (single_twiddle (N := NumR) (2 * i + 1) (16 * q))) = sz (8 * zn q) (2 * zn i + 1)).
    { rewrite conj_twiddle by lia. split; reflexivity. }
    destruct Q as [Qc Qs]. destruct Eq as [Ec Es]. rewrite <- Ec in Qc. rewrite <- Es in Qs.
    assert (Bc : Rabs (fst (c_conj (N := NumR) (single_twiddle (N := NumR) (2 * i + 1) (16 * q)))) <= 1) by (rewrite Ec; apply cos_le1).
    assert (Bs : Rabs (snd (c_conj (N := NumR) (single_twiddle (N := NumR) (2 * i + 1) (16 * q)))) <= 1) by (rewrite Es; apply sin_le1).
    split.
    + apply ent_clip; [|exact Bc]. apply from_close; [exact Qc|exact Bc].
    + assert (B' : Rabs (snd (single_twiddle (N := NumR) (2 * i + 1) (16 * q))) <= 1) by (rewrite <- Rabs_Ropp; exact Bs).
      refine (ent_neg (@from_f64 _ _ N (snd (single_twiddle (N := Exactly) (2 * i + 1) (16 * q)))) (snd (single_twiddle (N := NumR) (2 * i + 1) (16 * q))) _ B').
      apply from_close; [apply neg_dist; exact Qs|exact B'].
Qed.

Lemma planned_float (pf : nat -> fft (option R)) cs k (c : pcall (option R)) (c' : pcall R) : power_call k c -> call_alike (fun _ _ => True) c' c ->
  span (adds_deep c k) (muls_deep c k) <= top ->
  exists f sl, planned_method (N := Overflow top N) c (after (N := Overflow top N) pf cs) = Some (f, sl) /\
  forall x s, length x = (2 ^ k)%nat -> (sl <= length s)%nat -> Forall (fun w => Rabs w <= B) x ->
  exists y t, call (N := Overflow top N) f (map Some x) s = Returned (map Some y, t) /\
    Forall2 (fun a b => Rabs (a - b) <= span (adds_deep c k) (muls_deep c k) - B * 2 ^ adds_deep c k) y (reference c' x).
Proof.
  intros Hc Ha Hs.
  assert (Z : exists c2 : pcall (option R * R), call_alike (fun (x : option R) p => fst p = x) c c2 /\ call_alike (fun (x : R) p => snd p = x) c' c2).
  { assert (P : match c with CMdct _ _ => False | _ => True end) by (destruct Hc as [[_ H]|[_ H]]; cbn [In] in H; repeat (destruct H as [<-|H]; [exact I|]); contradiction).
    destruct c, c'; try contradiction Ha; try contradiction P; cbn [call_alike] in Ha; subst.
    all: [> eexists (CDct1 _) | eexists (CDct2 _) | eexists (CDct3 _) | eexists (CDct4 _) | eexists (CDct5 _) | eexists (CDct6 _) | eexists (CDct7 _) | eexists (CDct8 _)
          | eexists (CDst1 _) | eexists (CDst2 _) | eexists (CDst3 _) | eexists (CDst4 _) | eexists (CDst5 _) | eexists (CDst6 _) | eexists (CDst7 _) | eexists (CDst8 _)];
      split; reflexivity. }
  destruct Z as (c2 & Al & Ar). pose proof (power_call_alike k _ c c2 Hc Al) as Hc2.
  assert (Ea : adds_deep c2 k = adds_deep c k) by (destruct c, c2; try contradiction Al; reflexivity).
  assert (Em : muls_deep c2 k = muls_deep c k) by (destruct c, c2; try contradiction Al; reflexivity).
  assert (Hc' : power_call k c').
  { apply (power_call_alike k (fun _ _ => True) c c' Hc). destruct c, c'; try contradiction Ha; cbn [call_alike] in * ; auto.
    exfalso. destruct Hc as [[_ H]|[_ H]]; cbn [In] in H; repeat (destruct H as [H|H]; [discriminate|]); contradiction. }
  destruct (planned_has (N := NB) _ _ _ _ _ _ (depth_closed _ _ _ (float_leveled k)) idle_fft [] k c2 Hc2) as (f2 & sl & E2 & g2 & C2 & R2).
  apply (chosen_deep (N := NB) _ _ _ (float_leveled k) k c2 g2 (room k) Hc2) in R2.
  pose proof (planned_alike _ _ _ (both_left (N1 := Overflow top N) (N2 := NumR)) pf idle_fft c c2 cs [] (or_introl (power_no_fft k c Hc)) Al) as R. rewrite E2 in R.
  destruct (planned_method c (after pf cs)) as [[f sl']|] eqn:E; [|contradiction]. destruct R as [-> R].
  exists f, sl. split; [reflexivity|]. intros x s Lx Ls Hx.
  destruct (planned_related _ _ _ (both_right (N1 := Overflow top N) (N2 := NumR)) idle_fft c' c2 []) as (h & sl3 & E3 & Q).
  { destruct Hc' as [[_ H]|[_ H]]; cbn [In] in H; repeat (destruct H as [<-|H]; [cbn [legal]; try exact I; try (pose proof (pow_pos k); lia)|]); try contradiction. }
  { exact Ar. }
  { left. apply (power_no_fft k c' Hc'). }
  rewrite E2 in E3. injection E3 as <- <-.
  set (x2 := combine (map Some x) x).
  assert (L2 : length x2 = (2 ^ k)%nat) by (unfold x2; rewrite combine_length, map_length; lia).
  assert (Fl : Forall2 (fun o p => fst p = o) (map Some x) x2) by (unfold x2; clear; induction x; constructor; auto).
  assert (Fr : Forall2 (fun o p => snd p = o) x x2) by (unfold x2; clear; induction x; constructor; auto).
  destruct (Q x x2) as (y2 & P2 & Fy); [destruct Hc' as [[_ H]|[_ H]]; cbn [In] in H; repeat (destruct H as [<-|H]; [exact Lx|]); contradiction|exact Fr|].
  destruct (computes_implements (N := NB) f2 _ _ g2 C2 x2 (repeat (@zero _ _ NB) sl) L2 ltac:(rewrite repeat_length; lia)) as (t2 & A2 & _).
  assert (Y2 : y2 = map (g2 x2) (seq 0 (length x2))) by (unfold process in P2; rewrite A2 in P2; injection P2 as <-; reflexivity).
  assert (H : Forall (lev_u (adds_deep c k) (muls_deep c k)) y2).
  { subst y2. apply Forall_forall. intros y Hy. apply in_map_iff in Hy. destruct Hy as (q & <- & Hq). apply in_seq in Hq.
    rewrite <- Ea, <- Em, <- (Nat.add_0_r (adds_deep c2 k)), <- (Nat.add_0_r (muls_deep c2 k)). apply R2; [exact L2| |lia].
    intros q' Hq' _. unfold x2. change (@zero _ _ NB) with (@zero _ _ (Overflow top N), 0). rewrite combine_nth by apply map_length. cbn [fst snd].
    rewrite (nth_indep _ _ (Some 0)) by (rewrite map_length; lia). rewrite map_nth.
    assert (Bx : Rabs (nth q' x 0) <= B) by (rewrite Forall_forall in Hx; apply Hx, nth_In; lia).
    split; [|cbn [pow]; lra]. eexists. split; [reflexivity|]. rewrite Rminus_eq_0, Rabs_R0, span_err. pose proof (err_ge 0 0). cbn [pow]. lra. }
  destruct (planned_has (N := Overflow top N) _ _ _ _ _ _ any_closed pf cs k c Hc) as (f3 & sl3 & E3 & (g & C & _)). rewrite E in E3. injection E3 as <- <-.
  destruct (computes_implements (N := Overflow top N) f _ _ g C (map Some x) s ltac:(rewrite map_length; exact Lx) Ls) as (t & A & _).
  destruct (computes_implements (N := Overflow top N) f _ _ g C (map Some x) (repeat (@zero _ _ (Overflow top N)) sl) ltac:(rewrite map_length; exact Lx) ltac:(rewrite repeat_length; lia)) as (t3 & A3 & _).
  pose proof (process_vectors _ _ _ (both_left (N1 := Overflow top N) (N2 := NumR)) f f2 sl _ _ R Fl) as O. rewrite P2 in O. unfold process in O. rewrite A3 in O. cbn [observed_alike] in O.
  rewrite A. set (y1 := map (g _) _) in * . clearbody y1. clear - O H Hs Fy.
  assert (K : exists y, y1 = map Some y /\ Forall2 (fun a b => Rabs (a - b) <= span (adds_deep c k) (muls_deep c k) - B * 2 ^ adds_deep c k) y (reference c' x)).
  { revert H y1 O. induction Fy as [|b p lr l2 D Fy IH]; intros H y1 O; inversion O as [|? ? ? ? O1 O2]; subst; [exists []; split; [reflexivity|constructor]|].
    inversion H as [|? ? H1 H2]; subst. destruct (IH H2 _ O2) as (y & -> & Fy'). destruct (H1 Hs) as [(w & Ew & Bw) _].
    exists (w :: y). split; [cbn [map]; rewrite Ew; reflexivity|constructor; assumption]. }
  destruct K as (y & -> & K). exists y, t. split; [reflexivity|exact K].
Qed.
End Under.

(** ** Gradual underflow *)
Lemma rnd_grad_close p e x : close (powerRZ 2 (- p)) (powerRZ 2 (e - p - 1)) (rnd_grad p e x) x.
Proof.
  unfold close. pose proof (two_pow_pos (e - p - 1)) as Pe. pose proof (two_pow_pos (- p)) as Pp. pose proof (Rabs_pos x) as Px.
  destruct (Z_le_gt_dec e (mag x)) as [L|L].
  - pose proof (rnd_even_rel p x) as H. unfold rel, rnd_even in H. unfold rnd_grad. rewrite Z.max_l by exact L. cbv zeta. lra.
  - unfold rnd_grad. destruct (Req_EM_T x 0) as [->|Hx]; [rewrite Rminus_0_r, Rabs_R0; lra|]. rewrite Z.max_r by lia. cbv zeta.
    set (y := x * powerRZ 2 (p - e)). assert (E : x = y * powerRZ 2 (e - p)).
    { unfold y. rewrite Rmult_assoc, <- two_pow_add. replace (p - e + (e - p))%Z with 0%Z by lia. cbn [powerRZ]. ring. }
    assert (A : Rabs (IZR (nearest_even y) * powerRZ 2 (e - p) - x) <= powerRZ 2 (e - p - 1)); [|nra].
    rewrite E at 1. rewrite <- Rmult_minus_distr_r, Rabs_mult, (Rabs_right (powerRZ 2 _)) by (left; apply two_pow_pos).
    replace (powerRZ 2 (e - p - 1)) with (/ 2 * powerRZ 2 (e - p)).
    + apply Rmult_le_compat_r; [left; apply two_pow_pos|apply nearest_even_err].
    + replace (e - p)%Z with (1 + (e - p - 1))%Z at 1 by lia. rewrite two_pow_add. change (powerRZ 2 1) with (2 * 1). field.
Qed.
Lemma rnd_grad_pow p e k : (1 <= p)%Z -> (e <= k + p)%Z -> rnd_grad p e (powerRZ 2 k) = powerRZ 2 k.
Proof.
  intros Hp He. pose proof (two_pow_pos k). unfold rnd_grad. destruct (Req_EM_T _ 0); [lra|]. cbv zeta. rewrite mag_pow, <- two_pow_add.
  destruct (two_pow_int (k + (p - Z.max (k + 1) e))) as [z Ez]; [lia|]. rewrite Ez, nearest_even_int, <- Ez, <- two_pow_add. f_equal. lia.
Qed.
Lemma float_rounding p e p' : (1 <= p)%Z -> (e <= 0)%Z -> (1 <= p')%Z -> rounding_under (powerRZ 2 (- p)) (powerRZ 2 (- p')) (powerRZ 2 (e - p - 1)) (Float p e p').
Proof.
  intros Hp He Hp'. pose proof (ieee_rounding p p' Hp Hp') as I.
  constructor; cbn [Float zero one neg add sub mul from_f64 sqrt_2 frac_1_sqrt_2 f_of_nat f_pi f_half f_one f_two f_four f_neg f_add f_sub f_mul f_div f_cos f_sin f_sqrt];
    try reflexivity; intros; try apply rnd_grad_close; try apply rnd_even_rel.
  - left. apply two_pow_pos.
  - apply (r_v _ _ _ I).
  - left. apply two_pow_pos.
  - replace (/ 2) with (powerRZ 2 (- (1))) by (change (powerRZ 2 (- (1))) with (/ (2 * 1)); field). apply rnd_grad_pow; lia.
  - change (rnd_grad p e 2 = 2). replace (rnd_grad p e 2) with (rnd_grad p e (powerRZ 2 1)) by (f_equal; change (2 * 1 = 2); ring). rewrite rnd_grad_pow by lia. change (2 * 1 = 2). ring.
  - apply (r_f_cos _ _ _ I).
  - apply (r_f_sin _ _ _ I).
Qed.

(** ** Closed forms *)
Lemma entry_grows c u v eta : 0 <= u <= / 1024 -> 2 <= c -> 0 <= level u v <= 1 + 2 * c * u -> 0 <= eps u v -> 0 <= eta <= u / 2 ->
  (1 + u) * (1 + eps u v + eta) <= 1 + (c - 1) * u.
Proof.
  intros Hu Hc Hl He Ht. set (e := eps u v) in * . unfold level, mu in Hl. fold e in Hl.
  assert (A : (1 + u) ^ 3 * (1 + e) <= 1 + c * u).
  { set (z := (1 + u) ^ 3 * (1 + e)) in * . assert (1 <= z) by (unfold z; assert (1 <= (1 + u) ^ 3) by (apply pow_R1_Rle; lra); nra). nra. }
  assert (B : (1 + u) * (1 + e) <= 1 + (c - 2) * u).
  { replace ((1 + u) ^ 3 * (1 + e)) with ((1 + u) ^ 2 * ((1 + u) * (1 + e))) in A by ring. set (z := (1 + u) * (1 + e)) in * . assert (1 <= z) by (unfold z; nra).
    assert (C : (1 + 2 * u) * z <= 1 + c * u) by (cbn [pow] in A; nra). clearbody z. clear A Hl. assert (P : 1 + c * u <= (1 + 2 * u) * (1 + (c - 2) * u)) by nra.
    apply Rmult_le_reg_l with (1 + 2 * u); lra. }
  nra.
Qed.
Lemma widest_closed u v eta B w a m : 0 <= u -> 0 <= eta -> 0 <= B -> 0 <= eps u v -> (1 + u) * (1 + eps u v + eta) <= (1 + u) ^ w -> INR (a + w * m) * u <= / 2 ->
  widest u v eta B a m <= (B + INR (a + m) * eta) * 2 ^ (a + 1) /\
  widest u v eta B a m - B * 2 ^ a <= 2 ^ (a + 1) * (INR (a + w * m) * u * B + INR (a + m) * eta).
Proof.
  intros Hu He HB Hp Hw Hq. set (Q := (a + w * m)%nat) in * .
  assert (G : (1 + u) ^ Q <= 1 + 2 * (INR Q * u)).
  { eapply Rle_trans; [apply bernoulli_inv; lra|]. pose proof (pos_INR Q) as P. assert (0 <= INR Q * u) by nra. set (z := INR Q * u) in * . clearbody z.
    apply Rmult_le_reg_r with (1 - z); [lra|]. rewrite Rinv_l by lra. nra. }
  pose proof (pos_INR (a + m)) as Pm. assert (Pe : 0 <= INR (a + m) * eta) by nra.
  assert (W : widest u v eta B a m <= (B + INR (a + m) * eta) * 2 ^ a * (1 + u) ^ Q).
  { unfold widest. rewrite Rpow_mult_distr. rewrite !Rmult_assoc. apply Rmult_le_compat_l; [lra|]. apply Rmult_le_compat_l; [apply pow_le; lra|].
    unfold Q. rewrite pow_add. apply Rmult_le_compat_l; [apply pow_le; lra|]. rewrite pow_mult. apply pow_incr. split; [apply Rmult_le_pos; lra|exact Hw]. }
  assert (P2 : 0 < 2 ^ a) by (apply pow_lt; lra). rewrite pow_add, pow_1. set (E := INR (a + m) * eta) in * . set (p := 2 ^ a) in * . set (g := (1 + u) ^ Q) in * . set (z := INR Q * u) in * .
  assert (Z : 0 <= z) by (unfold z; apply Rmult_le_pos; [apply pos_INR|exact Hu]). clearbody E p g z. clear - W G P2 Pe HB Hq Z.
  assert (X : (B + E) * p * g <= (B + E) * p * (1 + 2 * z)) by (apply Rmult_le_compat_l; [apply Rmult_le_pos; lra|exact G]).
  assert (Y : (B + E) * p * (1 + 2 * z) <= (B + E) * p * 2) by (apply Rmult_le_compat_l; [apply Rmult_le_pos; lra|lra]).
  split; [lra|]. assert (E * p * (1 + 2 * z) <= E * p * 2) by (apply Rmult_le_compat_l; [apply Rmult_le_pos; lra|lra]). lra.
Qed.
Lemma planned_float_closed w u v eta (N : Num R R) top B : rounding_under u v eta N -> 0 <= B -> 2 <= top -> (1 + u) * (1 + eps u v + eta) <= (1 + u) ^ w -> 1 + (eps u v + eta) <= top ->
  forall (pf : nat -> fft (option R)) cs k (c : pcall (option R)) (c' : pcall R), power_call k c -> call_alike (fun _ _ => True) c' c ->
  INR (adds_deep c k + w * muls_deep c k) * u <= / 2 -> (B + INR (adds_deep c k + muls_deep c k) * eta) * 2 ^ (adds_deep c k + 1) <= top ->
  exists f sl, planned_method (N := Overflow top N) c (after (N := Overflow top N) pf cs) = Some (f, sl) /\
  forall x s, length x = (2 ^ k)%nat -> (sl <= length s)%nat -> Forall (fun z => Rabs z <= B) x ->
  exists y t, call (N := Overflow top N) f (map Some x) s = Returned (map Some y, t) /\
    Forall2 (fun a b => Rabs (a - b) <= 2 ^ (adds_deep c k + 1) * (INR (adds_deep c k + w * muls_deep c k) * u * B + INR (adds_deep c k + muls_deep c k) * eta)) y (reference c' x).
Proof.
  intros HN HB Ht Hw Hr pf cs k c c' Hc Ha Hq Hm.
  assert (He : 0 <= eps u v) by (pose proof (eps_u u v); pose proof (eps0 u v eta N HN); pose proof (w_u _ _ _ _ HN); nra).
  destruct (widest_closed u v eta B w _ _ (w_u _ _ _ _ HN) (w_eta _ _ _ _ HN) HB He Hw Hq) as [W1 W2].
  destruct (planned_float u v eta N top B HN HB Ht Hr pf cs k c c' Hc Ha (Rle_trans _ _ _ W1 Hm)) as (f & sl & E & H). exists f, sl. split; [exact E|].
  intros x s Lx Ls Hx. destruct (H x s Lx Ls Hx) as (y & t & C & D). exists y, t. split; [exact C|].
  clear - D W2. induction D as [|a b l l' D1 D2 IH]; constructor; [|exact IH]. exact (Rle_trans _ _ _ D1 W2).
Qed.
Lemma pow_bern u w : 0 <= u -> 1 + INR w * u <= (1 + u) ^ w.
Proof. intros Hu. induction w as [|w IH]; [simpl; lra|]. rewrite S_INR. cbn [pow]. pose proof (pos_INR w). nra. Qed.
Lemma eps_nonneg u v : 0 <= u -> 0 <= v < 1 -> 0 <= eps u v.
Proof.
  intros Hu Hv. unfold eps, eps_of, rho. assert (1 <= / (1 - v)) by (rewrite <- Rinv_1 at 1; apply Rinv_le_contravar; lra).
  assert (1 <= (1 + v) ^ 5) by (apply pow_R1_Rle; lra). assert (1 <= (1 + u) * (1 + v)) by nra.
  assert (1 <= (1 + v) ^ 5 * / (1 - v)) by nra. set (z := (1 + v) ^ 5 * / (1 - v)) in * . set (y := (1 + u) * (1 + v)) in * . clearbody y z. nra.
Qed.
Lemma entry_same u v eta : 0 <= v <= u -> u <= / 1024 -> 0 <= eta <= u / 2 -> (1 + u) * (1 + eps u v + eta) <= (1 + u) ^ 12.
Proof.
  intros Hv Hu He. eapply Rle_trans; [apply (entry_grows 13); try lra|].
  - pose proof (level_26 u v Hv Hu). lra.
  - apply eps_nonneg; lra.
  - eapply Rle_trans; [|apply pow_bern; lra]. replace (INR 12) with 12 by (simpl; ring). lra.
Qed.
Lemma entry_wide u v eta : 0 <= u -> 0 <= v <= u * u -> u <= / 1024 -> 0 <= eta <= u / 2 -> (1 + u) * (1 + eps u v + eta) <= (1 + u) ^ 4.
Proof.
  intros H0 Hv Hu He. eapply Rle_trans; [apply (entry_grows 5); try lra|].
  - pose proof (level_10 u v Hv Hu H0). lra.
  - apply eps_nonneg; nra.
  - eapply Rle_trans; [|apply pow_bern; lra]. replace (INR 4) with 4 by (simpl; ring). lra.
Qed.
Lemma rim_2 w u e : 0 <= u <= / 1024 -> (1 + u) * (1 + e) <= (1 + u) ^ w -> (w <= 12)%nat -> 0 <= e -> 1 + e <= 2.
Proof.
  intros Hu H Hw He. assert (A : (1 + u) ^ w <= (1 + u) ^ 12) by (apply Rle_pow; [lra|exact Hw]).
  assert (B : (1 + u) ^ 12 <= / (1 - INR 12 * u)) by (apply bernoulli_inv; [lra|]; replace (INR 12) with 12 by (simpl; ring); lra).
  assert (C : / (1 - INR 12 * u) <= 2) by (replace 2 with (/ / 2) by lra; apply Rinv_le_contravar; [lra|]; replace (INR 12) with 12 by (simpl; ring); lra).
  nra.
Qed.
Lemma planned_float_same u v eta (N : Num R R) top B : rounding_under u v eta N -> v <= u <= / 1024 -> eta <= u / 2 -> 0 <= B -> 2 <= top ->
  forall (pf : nat -> fft (option R)) cs k (c : pcall (option R)) (c' : pcall R), power_call k c -> call_alike (fun _ _ => True) c' c ->
  INR (adds_deep c k + 12 * muls_deep c k) * u <= / 2 -> (B + INR (adds_deep c k + muls_deep c k) * eta) * 2 ^ (adds_deep c k + 1) <= top ->
  exists f sl, planned_method (N := Overflow top N) c (after (N := Overflow top N) pf cs) = Some (f, sl) /\
  forall x s, length x = (2 ^ k)%nat -> (sl <= length s)%nat -> Forall (fun z => Rabs z <= B) x ->
  exists y t, call (N := Overflow top N) f (map Some x) s = Returned (map Some y, t) /\
    Forall2 (fun a b => Rabs (a - b) <= 2 ^ (adds_deep c k + 1) * (INR (adds_deep c k + 12 * muls_deep c k) * u * B + INR (adds_deep c k + muls_deep c k) * eta)) y (reference c' x).
Proof.
  intros HN Hu He HB Ht. pose proof (w_v _ _ _ _ HN). pose proof (w_eta _ _ _ _ HN). pose proof (w_u _ _ _ _ HN). assert (E : (1 + u) * (1 + eps u v + eta) <= (1 + u) ^ 12) by (apply entry_same; lra).
  apply (planned_float_closed 12 u v eta); try assumption. eapply Rle_trans; [|exact Ht]. apply (rim_2 12 u); [lra| |lia|].
  - rewrite Rplus_assoc in E. exact E.
  - pose proof (eps_nonneg u v ltac:(lra) ltac:(lra)). lra.
Qed.
Lemma planned_float_wide u v eta (N : Num R R) top B : rounding_under u v eta N -> v <= u * u -> u <= / 1024 -> eta <= u / 2 -> 0 <= B -> 2 <= top ->
  forall (pf : nat -> fft (option R)) cs k (c : pcall (option R)) (c' : pcall R), power_call k c -> call_alike (fun _ _ => True) c' c ->
  INR (adds_deep c k + 4 * muls_deep c k) * u <= / 2 -> (B + INR (adds_deep c k + muls_deep c k) * eta) * 2 ^ (adds_deep c k + 1) <= top ->
  exists f sl, planned_method (N := Overflow top N) c (after (N := Overflow top N) pf cs) = Some (f, sl) /\
  forall x s, length x = (2 ^ k)%nat -> (sl <= length s)%nat -> Forall (fun z => Rabs z <= B) x ->
  exists y t, call (N := Overflow top N) f (map Some x) s = Returned (map Some y, t) /\
    Forall2 (fun a b => Rabs (a - b) <= 2 ^ (adds_deep c k + 1) * (INR (adds_deep c k + 4 * muls_deep c k) * u * B + INR (adds_deep c k + muls_deep c k) * eta)) y (reference c' x).
Proof.
  intros HN Hv Hu He HB Ht. pose proof (w_v _ _ _ _ HN). pose proof (w_eta _ _ _ _ HN). pose proof (w_u _ _ _ _ HN). assert (E : (1 + u) * (1 + eps u v + eta) <= (1 + u) ^ 4) by (apply entry_wide; lra).
  apply (planned_float_closed 4 u v eta); try assumption. eapply Rle_trans; [|exact Ht]. apply (rim_2 4 u); [lra| |lia|].
  - rewrite Rplus_assoc in E. exact E.
  - pose proof (eps_nonneg u v ltac:(lra) ltac:(lra)). lra.
Qed.
