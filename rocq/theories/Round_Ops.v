(** Rounding errors of single operations, of the twiddle factors and of rotations. *)
From Coq Require Import Reals ZArith List Arith Lia Lra Psatz.
From Verif Require Import Num Model_Common Spec Spec_Round Trig Ref Ref_Split.
Import ListNotations.
Open Scope R_scope.

(** * Relative errors: [a'] is [a] up to a factor within [g] of one. *)
Definition fac (g a' a : R) : Prop := Rabs (a' - a) <= (g - 1) * Rabs a.

Lemma fac_rel u a' a : rel u a' a -> fac (1 + u) a' a.
Proof. unfold rel, fac. replace (1 + u - 1) with u by ring. auto. Qed.
Lemma fac_refl g a : 1 <= g -> fac g a a.
Proof. intros H. unfold fac. rewrite Rminus_eq_0, Rabs_R0. apply Rmult_le_pos; [lra|apply Rabs_pos]. Qed.
Lemma fac_abs g a' a : fac g a' a -> Rabs a' <= g * Rabs a.
Proof. unfold fac. intros H. pose proof (Rabs_triang (a' - a) a). replace (a' - a + a) with a' in H0 by ring. lra. Qed.
Lemma fac_trans g h a'' a' a : 1 <= g -> 1 <= h -> fac g a'' a' -> fac h a' a -> fac (g * h) a'' a.
Proof.
  intros Hg Hh H1 H2. pose proof (fac_abs _ _ _ H2) as A. unfold fac in * .
  pose proof (Rabs_triang (a'' - a') (a' - a)). replace (a'' - a' + (a' - a)) with (a'' - a) in H by ring.
  assert ((g - 1) * Rabs a' <= (g - 1) * (h * Rabs a)) by (apply Rmult_le_compat_l; lra). lra.
Qed.
Lemma fac_mono g h a' a : g <= h -> fac g a' a -> fac h a' a.
Proof. unfold fac. intros H1 H2. pose proof (Rabs_pos a). nra. Qed.
Lemma fac_mul g h a' a b' b : 1 <= g -> 1 <= h -> fac g a' a -> fac h b' b -> fac (g * h) (a' * b') (a * b).
Proof.
  intros Hg Hh H1 H2. pose proof (fac_abs _ _ _ H2) as A. unfold fac in * . rewrite Rabs_mult.
  replace (a' * b' - a * b) with ((a' - a) * b' + a * (b' - b)) by ring.
  eapply Rle_trans; [apply Rabs_triang|]. rewrite !Rabs_mult.
  assert (Rabs (a' - a) * Rabs b' <= (g - 1) * Rabs a * (h * Rabs b)).
  { apply Rmult_le_compat; try apply Rabs_pos; assumption. }
  assert (Rabs a * Rabs (b' - b) <= Rabs a * ((h - 1) * Rabs b)) by (apply Rmult_le_compat_l; [apply Rabs_pos|exact H2]). lra.
Qed.
Lemma fac_opp g a' a : fac g a' a -> fac g (- a') (- a).
Proof. unfold fac. replace (- a' - - a) with (- (a' - a)) by ring. rewrite !Rabs_Ropp. auto. Qed.
Lemma fac_inv v b' b : 0 <= v < 1 -> b <> 0 -> rel v b' b -> b' <> 0 /\ fac (/ (1 - v)) (/ b') (/ b).
Proof.
  intros Hv Hb H. unfold rel in H. assert (Pb : 0 < Rabs b) by (apply Rabs_pos_lt, Hb).
  assert (Lb : (1 - v) * Rabs b <= Rabs b').
  { pose proof (Rabs_triang (b - b') b'). replace (b - b' + b') with b in H0 by ring. rewrite <- (Rabs_Ropp (b - b')) in H0.
    replace (- (b - b')) with (b' - b) in H0 by ring. lra. }
  assert (Pb' : 0 < Rabs b') by nra. assert (Nb : b' <> 0) by (intros E; rewrite E, Rabs_R0 in Pb'; lra). split; [exact Nb|].
  unfold fac. replace (/ b' - / b) with (- (b' - b) * (/ b' * / b)) by (field; auto).
  rewrite !Rabs_mult, Rabs_Ropp, !Rabs_inv by assumption.
  replace (/ (1 - v) - 1) with (v * / (1 - v)) by (field; lra).
  assert (I : / Rabs b' <= / (1 - v) * / Rabs b).
  { rewrite <- Rinv_mult. apply Rinv_le_contravar; [apply Rmult_lt_0_compat; lra|exact Lb]. }
  apply Rle_trans with (v * Rabs b * ((/ (1 - v) * / Rabs b) * / Rabs b)).
  - apply Rmult_le_compat; [apply Rabs_pos| |exact H|].
    + apply Rmult_le_pos; left; apply Rinv_0_lt_compat; assumption.
    + apply Rmult_le_compat_r; [left; apply Rinv_0_lt_compat; assumption|exact I].
  - apply Req_le. field. split; lra.
Qed.

(** * cos and sin are 1-Lipschitz. *)
Lemma cos_lip a b : Rabs (cos a - cos b) <= Rabs (a - b).
Proof.
  rewrite form2. rewrite !Rabs_mult, (Rabs_left (-2)) by lra.
  assert (S : forall t, Rabs (sin t) <= Rabs t).
  { intros t. assert (P : forall t, 0 <= t -> Rabs (sin t) <= t).
    { intros s Hs. destruct (Rle_dec s 1) as [H|H].
      - rewrite Rabs_right. + destruct Hs as [Hs|<-]; [left; apply sin_lt_x, Hs|rewrite sin_0; lra].
        + apply Rle_ge, sin_ge_0; [exact Hs|]. pose proof PI2_1. lra.
      - apply Rle_trans with 1; [|lra]. apply Rabs_le. pose proof (SIN_bound s). lra. }
    destruct (Rle_dec 0 t) as [H|H]; [rewrite (Rabs_right t) by lra; apply P, H|].
    rewrite (Rabs_left t) by lra. rewrite <- Rabs_Ropp, <- sin_neg. apply P. lra. }
  pose proof (S ((a - b) / 2)) as H1. assert (H2 : Rabs (sin ((a + b) / 2)) <= 1) by (apply Rabs_le; pose proof (SIN_bound ((a + b) / 2)); lra).
  assert (E : Rabs ((a - b) / 2) = Rabs (a - b) / 2) by (unfold Rdiv; rewrite Rabs_mult, (Rabs_right (/ 2)) by lra; reflexivity).
  rewrite E in H1. pose proof (Rabs_pos (sin ((a - b) / 2))). pose proof (Rabs_pos (sin ((a + b) / 2))). pose proof (Rabs_pos (a - b)). nra.
Qed.
Lemma sin_lip a b : Rabs (sin a - sin b) <= Rabs (a - b).
Proof.
  rewrite <- (cos_shift a), <- (cos_shift b). eapply Rle_trans; [apply cos_lip|].
  replace (PI / 2 - a - (PI / 2 - b)) with (- (a - b)) by ring. rewrite Rabs_Ropp. lra.
Qed.

Section Ops.
Variables (u v : R) (N : Num R R).
Hypothesis HN : rounding u v N.
Let Hu : 0 <= u := r_u _ _ _ HN.
Let Hv : 0 <= v < 1 := r_v _ _ _ HN.

Lemma rho_ge0 : 0 <= rho v.
Proof.
  unfold rho. assert (1 <= (1 + v) ^ 5) by (apply pow_R1_Rle; lra). assert (1 <= / (1 - v)).
  { rewrite <- Rinv_1 at 1. apply Rinv_le_contravar; lra. }
  nra.
Qed.
Lemma eps_of_ge0 A : 0 <= A -> 0 <= eps_of A u v.
Proof.
  intros HA. unfold eps_of. pose proof rho_ge0 as Hr. assert (0 <= A * rho v) by (apply Rmult_le_pos; assumption).
  assert (1 <= (1 + u) * (1 + v)) by nra. nra.
Qed.
Lemma eps_ge0 : 0 <= eps u v. Proof. apply eps_of_ge0. lra. Qed.
Lemma mu_ge : u <= mu u v.
Proof.
  unfold mu. pose proof eps_ge0. assert (1 + u <= (1 + u) ^ 3) by (simpl; nra). nra.
Qed.
Lemma level_ge1 : 1 <= level u v.
Proof. unfold level. pose proof mu_ge. nra. Qed.

Notation fadd := (@add _ _ N). Notation fsub := (@sub _ _ N). Notation fmul := (@mul _ _ N).
Lemma add_fac a b : fac (1 + u) (fadd a b) (a + b). Proof. apply fac_rel, r_add with (1 := HN). Qed.
Lemma sub_fac a b : fac (1 + u) (fsub a b) (a - b). Proof. apply fac_rel, r_sub with (1 := HN). Qed.
Lemma mul_fac a b : fac (1 + u) (fmul a b) (a * b). Proof. apply fac_rel, r_mul with (1 := HN). Qed.

(** * Twiddle factors *)
Lemma angle_fac i n : n <> 0%nat ->
  fac (1 + rho v) (f_mul (f_div (f_mul f_pi (f_neg f_two)) (f_of_nat n)) (f_of_nat i)) (- (2 * PI * INR i / INR n)).
Proof.
  intros Hn. unfold rho. replace (1 + ((1 + v) ^ 5 * / (1 - v) - 1)) with ((1 + v) * (((1 + v) * (((1 + v) * (1 + v)) * / (1 - v))) * (1 + v))) by (field; lra).
  assert (Nn : INR n <> 0) by (apply not_0_INR, Hn). assert (1 <= / (1 - v)) by (rewrite <- Rinv_1 at 1; apply Rinv_le_contravar; lra).
  destruct (fac_inv v _ _ Hv Nn (r_f_of_nat _ _ _ HN n)) as [Nf Ff].
  assert (G1 : 1 <= 1 + v) by lra. assert (G2 : 1 <= (1 + v) * (1 + v)) by nra. assert (G3 : 1 <= (1 + v) * (1 + v) * / (1 - v)) by nra.
  assert (G4 : 1 <= (1 + v) * ((1 + v) * (1 + v) * / (1 - v))) by nra. assert (G5 : 1 <= (1 + v) * ((1 + v) * (1 + v) * / (1 - v)) * (1 + v)) by nra.
  eapply fac_trans; [exact G1|exact G5|apply fac_rel, (r_f_mul _ _ _ HN)|].
  replace (- (2 * PI * INR i / INR n)) with ((PI * - (2)) * / INR n * INR i) by (field; exact Nn).
  apply fac_mul; [exact G4|exact G1| |apply fac_rel, (r_f_of_nat _ _ _ HN)].
  eapply fac_trans; [exact G1|exact G3|apply fac_rel, (r_f_div _ _ _ HN), Nf|].
  apply fac_mul; [exact G2|exact H| |exact Ff].
  eapply fac_trans; [exact G1|exact G1|apply fac_rel, (r_f_mul _ _ _ HN)|].
  rewrite (r_f_neg _ _ _ HN), (r_f_two _ _ _ HN).
  replace (1 + v) with ((1 + v) * 1) by ring. apply fac_mul; [exact G1|lra|apply fac_rel, (r_f_pi _ _ _ HN)|apply fac_refl; lra].
Qed.

Lemma table_err A a a' (f : R -> R) (ff : R -> R) :
  (forall x y, Rabs (f x - f y) <= Rabs (x - y)) -> (forall x, Rabs (f x) <= 1) -> (forall x, Rabs (ff x - f x) <= v) ->
  fac (1 + rho v) a' a -> Rabs a <= A ->
  Rabs (from_f64 (f_mul f_one (ff a')) - f a) <= eps_of A u v /\ Rabs (from_f64 (ff a') - f a) <= eps_of A u v.
Proof.
  intros Lip Bd Acc Ha HA. pose proof rho_ge0 as Hr.
  assert (E0 : Rabs (ff a' - f a) <= v + A * rho v).
  { replace (ff a' - f a) with ((ff a' - f a') + (f a' - f a)) by ring. eapply Rle_trans; [apply Rabs_triang|].
    apply Rplus_le_compat; [apply Acc|]. eapply Rle_trans; [apply Lip|]. unfold fac in Ha.
    pose proof (Rabs_pos a). assert (rho v * Rabs a <= rho v * A) by (apply Rmult_le_compat_l; assumption). lra. }
  assert (B0 : Rabs (ff a') <= 1 + v + A * rho v).
  { pose proof (Rabs_triang (ff a' - f a) (f a)). replace (ff a' - f a + f a) with (ff a') in H by ring. specialize (Bd a). lra. }
  assert (Z : 0 <= 1 + v + A * rho v) by (pose proof (Rabs_pos (ff a')); lra).
  assert (G : forall g y, 1 <= g -> g <= (1 + u) * (1 + v) -> fac g y (ff a') -> Rabs (y - f a) <= eps_of A u v).
  { intros g y G1 G2 H. replace (y - f a) with ((y - ff a') + (ff a' - f a)) by ring. eapply Rle_trans; [apply Rabs_triang|].
    unfold fac in H. unfold eps_of.
    assert ((g - 1) * Rabs (ff a') <= ((1 + u) * (1 + v) - 1) * (1 + v + A * rho v)) by (apply Rmult_le_compat; [lra|apply Rabs_pos|lra|exact B0]). lra. }
  split.
  - apply (G ((1 + u) * (1 + v))); [nra|lra|]. eapply fac_trans; [lra|lra|apply fac_rel, (r_from_f64 _ _ _ HN)|].
    rewrite (r_f_one _ _ _ HN). rewrite <- (Rmult_1_l (ff a')) at 2. apply fac_rel, (r_f_mul _ _ _ HN).
  - apply (G (1 + u)); [lra|nra|]. apply fac_rel, (r_from_f64 _ _ _ HN).
Qed.
Lemma cos_le1 x : Rabs (cos x) <= 1. Proof. apply Rabs_le. pose proof (COS_bound x). lra. Qed.
Lemma sin_le1 x : Rabs (sin x) <= 1. Proof. apply Rabs_le. pose proof (SIN_bound x). lra. Qed.

Lemma single_twiddle_err A i n : n <> 0%nat -> 2 * PI * INR i / INR n <= A ->
  let t := single_twiddle i n in
  Rabs (fst t - cos (2 * PI * INR i / INR n)) <= eps_of A u v /\ Rabs (snd t - - sin (2 * PI * INR i / INR n)) <= eps_of A u v.
Proof.
  intros Hn HA t. unfold t, single_twiddle, from_polar. cbn [fst snd].
  pose proof (angle_fac i n Hn) as F. set (a' := f_mul _ (f_of_nat i)) in * .
  assert (0 <= 2 * PI * INR i / INR n).
  { pose proof PI_RGT_0. pose proof (pos_INR i). assert (0 < INR n) by (apply lt_0_INR; lia).
    apply Rmult_le_pos; [nra|]. left. apply Rinv_0_lt_compat. assumption. }
  set (a := 2 * PI * INR i / INR n) in * .
  assert (Ab : Rabs (- a) <= A) by (rewrite Rabs_Ropp, Rabs_right; lra).
  rewrite <- (cos_neg a), <- (sin_neg a). split.
  - apply (table_err A (- a) a' cos f_cos cos_lip cos_le1 (r_f_cos _ _ _ HN) F Ab).
  - apply (table_err A (- a) a' sin f_sin sin_lip sin_le1 (r_f_sin _ _ _ HN) F Ab).
Qed.

Lemma q_twiddle_err q i : (i < q)%nat ->
  let t := c_conj (single_twiddle (2 * i + 1) (16 * q)) in
  Rabs (fst t - cz (8 * zn q) (2 * zn i + 1)) <= eps u v /\ Rabs (snd t - sz (8 * zn q) (2 * zn i + 1)) <= eps u v.
Proof.
  intros Hi t.
  assert (Q : 0 < INR q) by (apply lt_0_INR; lia).
  assert (E : 2 * PI * INR (2 * i + 1) / INR (16 * q) = PI * IZR (2 * zn i + 1) / IZR (8 * zn q)).
  { rewrite plus_IZR, !mult_IZR, <- !INR_IZR_INZ, plus_INR, !mult_INR. simpl (INR 2). simpl (INR 1). replace (INR 16) with 16 by (simpl; ring). field. lra. }
  destruct (single_twiddle_err 1 (2 * i + 1) (16 * q)) as [A B]; [lia| |].
  - assert (I : INR i + 1 <= INR q) by (rewrite <- S_INR; apply le_INR; lia). pose proof PI_4. pose proof PI_RGT_0. pose proof (pos_INR i).
    rewrite plus_INR, !mult_INR. simpl (INR 2). simpl (INR 1). replace (INR 16) with 16 by (simpl; ring).
    apply (Rmult_le_reg_r (16 * INR q)); [lra|]. unfold Rdiv. rewrite Rmult_assoc, Rinv_l by lra. nra.
  - rewrite E in A, B. split; [exact A|]. unfold t, c_conj. cbn [snd]. rewrite (r_neg _ _ _ HN).
    replace (- snd (single_twiddle (2 * i + 1) (16 * q)) - sz (8 * zn q) (2 * zn i + 1)) with
      (- (snd (single_twiddle (2 * i + 1) (16 * q)) - - sz (8 * zn q) (2 * zn i + 1))) by ring.
    rewrite Rabs_Ropp. exact B.
Qed.

(** * Rotations *)
Lemma term_err g x' x t' t : 1 <= g -> fac g x' x -> Rabs (t' - t) <= eps u v -> Rabs t <= 1 ->
  Rabs (fmul x' t' - x * t) <= ((1 + u) * g * (1 + eps u v) - 1) * Rabs x.
Proof.
  intros Hg Hx Ht Bt. pose proof eps_ge0 as He.
  assert (F : fac ((1 + u) * g) (fmul x' t') (x * t')).
  { apply fac_trans with (x' * t'); [lra|exact Hg|apply mul_fac|]. replace g with (g * 1) by ring. apply fac_mul; [exact Hg|lra|exact Hx|apply fac_refl; lra]. }
  unfold fac in F. rewrite Rabs_mult in F.
  replace (fmul x' t' - x * t) with ((fmul x' t' - x * t') + x * (t' - t)) by ring. eapply Rle_trans; [apply Rabs_triang|]. rewrite Rabs_mult.
  assert (Bt' : Rabs t' <= 1 + eps u v).
  { pose proof (Rabs_triang (t' - t) t). replace (t' - t + t) with t' in H by ring. lra. }
  pose proof (Rabs_pos x). assert (1 <= (1 + u) * g) by nra.
  assert (((1 + u) * g - 1) * (Rabs x * Rabs t') <= ((1 + u) * g - 1) * (Rabs x * (1 + eps u v))).
  { apply Rmult_le_compat_l; [lra|]. apply Rmult_le_compat_l; assumption. }
  assert (Rabs x * Rabs (t' - t) <= Rabs x * eps u v) by (apply Rmult_le_compat_l; assumption). nra.
Qed.

Lemma rot_err g x' x y' y s' s t' t : 1 <= g -> fac g x' x -> fac g y' y ->
  Rabs (s' - s) <= eps u v -> Rabs s <= 1 -> Rabs (t' - t) <= eps u v -> Rabs t <= 1 ->
  let a := (1 + u) ^ 2 * g * (1 + eps u v) - 1 in
  Rabs (fadd (fmul x' s') (fmul y' t') - (x * s + y * t)) <= a * (Rabs x + Rabs y) /\
  Rabs (fsub (fmul x' s') (fmul y' t') - (x * s - y * t)) <= a * (Rabs x + Rabs y).
Proof.
  intros Hg Hx Hy As Bs At Bt a.
  pose proof (term_err g x' x s' s Hg Hx As Bs) as T1. pose proof (term_err g y' y t' t Hg Hy At Bt) as T2.
  set (b := (1 + u) * g * (1 + eps u v)) in * . pose proof eps_ge0 as He.
  assert (Hb : 1 <= b) by (unfold b; assert (1 <= (1 + u) * g) by nra; nra).
  pose proof (Rabs_pos x) as Px. pose proof (Rabs_pos y) as Py.
  assert (Ex : Rabs (x * s) <= Rabs x) by (rewrite Rabs_mult; nra). assert (Ey : Rabs (y * t) <= Rabs y) by (rewrite Rabs_mult; nra).
  assert (K : forall w p r, fac (1 + u) w p -> Rabs (p - r) <= (b - 1) * (Rabs x + Rabs y) -> Rabs r <= Rabs x + Rabs y -> Rabs (w - r) <= a * (Rabs x + Rabs y)).
  { intros w p r Hw Hp Hr. unfold fac in Hw. replace (w - r) with ((w - p) + (p - r)) by ring. eapply Rle_trans; [apply Rabs_triang|].
    assert (Bp : Rabs p <= b * (Rabs x + Rabs y)).
    { pose proof (Rabs_triang (p - r) r). replace (p - r + r) with p in H by ring. lra. }
    unfold a. replace ((1 + u) ^ 2 * g * (1 + eps u v)) with ((1 + u) * b) by (unfold b; ring).
    assert (u * Rabs p <= u * (b * (Rabs x + Rabs y))) by (apply Rmult_le_compat_l; assumption). lra. }
  split.
  - apply (K _ _ _ (add_fac _ _)).
    + replace (fmul x' s' + fmul y' t' - (x * s + y * t)) with ((fmul x' s' - x * s) + (fmul y' t' - y * t)) by ring.
      eapply Rle_trans; [apply Rabs_triang|]. lra.
    + eapply Rle_trans; [apply Rabs_triang|]. lra.
  - apply (K _ _ _ (sub_fac _ _)).
    + replace (fmul x' s' - fmul y' t' - (x * s - y * t)) with ((fmul x' s' - x * s) + - (fmul y' t' - y * t)) by ring.
      eapply Rle_trans; [apply Rabs_triang|]. rewrite Rabs_Ropp. lra.
    + unfold Rminus. eapply Rle_trans; [apply Rabs_triang|]. rewrite Rabs_Ropp. lra.
Qed.

End Ops.

(** Both components of a rotation of [(x, y)]. *)
Lemma pair_err a x y c' c s' s : 0 <= a -> Rabs (c' - c) <= a * (Rabs x + Rabs y) -> Rabs (s' - s) <= a * (Rabs x + Rabs y) ->
  c² + s² = x² + y² -> (c' - c)² + (s' - s)² <= (2 * a)² * (c² + s²).
Proof.
  intros Ha Hc Hs E. rewrite E.
  assert (P : 0 <= a * (Rabs x + Rabs y)) by (pose proof (Rabs_pos x); pose proof (Rabs_pos y); apply Rmult_le_pos; lra).
  assert (C1 : (c' - c)² <= (a * (Rabs x + Rabs y))²) by (rewrite (Rsqr_abs (c' - c)); apply Rsqr_incr_1; [exact Hc|apply Rabs_pos|exact P]).
  assert (C2 : (s' - s)² <= (a * (Rabs x + Rabs y))²) by (rewrite (Rsqr_abs (s' - s)); apply Rsqr_incr_1; [exact Hs|apply Rabs_pos|exact P]).
  rewrite (Rsqr_abs x), (Rsqr_abs y). unfold Rsqr in * .
  assert (a * a * ((Rabs x + Rabs y) * (Rabs x + Rabs y)) <= a * a * (2 * (Rabs x * Rabs x + Rabs y * Rabs y))).
  { apply Rmult_le_compat_l; [nra|]. assert (0 <= (Rabs x - Rabs y) * (Rabs x - Rabs y)) by apply Rle_0_sqr. lra. }
  lra.
Qed.
