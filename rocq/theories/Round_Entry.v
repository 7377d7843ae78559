(** Rounding errors entry by entry: table entries of all angles, and sums of products. *)
From Coq Require Import Reals ZArith List Arith Lia Lra Psatz.
From Verif Require Import Num Model_Common Spec Spec_Round Spec_Entry Trig Sem_Naive Round_Ops.
Import ListNotations.
Open Scope R_scope.

Section Entry.
Variables (u v : R) (N : Num R R).
Hypothesis HN : rounding u v N.
Hypothesis Hv4 : 4 * v < 1.
Let Hu : 0 <= u := r_u _ _ _ HN.
Let Hv : 0 <= v < 1 := r_v _ _ _ HN.
Notation fadd := (@add _ _ N). Notation fsub := (@sub _ _ N). Notation fmul := (@mul _ _ N).

Lemma rho_any_ge0 : 0 <= rho_any v.
Proof.
  unfold rho_any. assert (1 <= (1 + v) ^ 6) by (apply pow_R1_Rle; lra). assert (1 <= / (1 - 4 * v)).
  { rewrite <- Rinv_1 at 1. apply Rinv_le_contravar; lra. }
  nra.
Qed.
Lemma tau_ge0 : 0 <= tau u v.
Proof.
  unfold tau. pose proof rho_any_ge0. pose proof PI_RGT_0. assert (0 <= 2 * PI * rho_any v) by nra.
  assert (1 <= (1 + u) * (1 + v)) by nra. nra.
Qed.

(** * Angles *)
Lemma angle_any P' P D' d J' j :
  fac ((1 + v) ^ 2) P' P -> d <> 0 -> rel (4 * v) D' d -> fac ((1 + v) ^ 2) J' j ->
  fac (1 + rho_any v) (f_mul (f_div P' D') J') (P / d * j).
Proof.
  intros FP Hd RD FJ. unfold rho_any.
  replace (1 + ((1 + v) ^ 6 * / (1 - 4 * v) - 1)) with ((1 + v) * (((1 + v) * ((1 + v) ^ 2 * / (1 - 4 * v))) * (1 + v) ^ 2)) by (field; lra).
  destruct (fac_inv (4 * v) D' d) as [ND FD]; [lra|exact Hd|exact RD|].
  assert (I : 1 <= / (1 - 4 * v)) by (rewrite <- Rinv_1 at 1; apply Rinv_le_contravar; lra).
  assert (G1 : 1 <= 1 + v) by lra. assert (G2 : 1 <= (1 + v) ^ 2) by (apply pow_R1_Rle; lra).
  assert (G3 : 1 <= (1 + v) ^ 2 * / (1 - 4 * v)) by nra. assert (G4 : 1 <= (1 + v) * ((1 + v) ^ 2 * / (1 - 4 * v))) by nra.
  assert (G5 : 1 <= (1 + v) * ((1 + v) ^ 2 * / (1 - 4 * v)) * (1 + v) ^ 2) by nra.
  eapply fac_trans; [exact G1|exact G5|apply fac_rel, (r_f_mul _ _ _ HN)|].
  apply fac_mul; [exact G4|exact G2| |exact FJ].
  eapply fac_trans; [exact G1|exact G3|apply fac_rel, (r_f_div _ _ _ HN), ND|].
  apply fac_mul; [exact G2|exact I|exact FP|exact FD].
Qed.
Lemma pi_fac : fac ((1 + v) ^ 2) f_pi PI.
Proof. apply fac_mono with (1 + v); [simpl; nra|]. apply fac_rel, (r_f_pi _ _ _ HN). Qed.
Lemma pi2_fac : fac ((1 + v) ^ 2) (f_mul f_pi (f_neg f_two)) (PI * - (2)).
Proof.
  rewrite (r_f_neg _ _ _ HN), (r_f_two _ _ _ HN). replace ((1 + v) ^ 2) with ((1 + v) * (1 + v)) by ring.
  eapply fac_trans; [lra|lra|apply fac_rel, (r_f_mul _ _ _ HN)|].
  replace (1 + v) with ((1 + v) * 1) by ring. apply fac_mul; [lra|lra|apply fac_rel, (r_f_pi _ _ _ HN)|apply fac_refl; lra].
Qed.
Lemma nat_fac i : fac ((1 + v) ^ 2) (f_of_nat i) (INR i).
Proof. apply fac_mono with (1 + v); [simpl; nra|]. apply fac_rel, (r_f_of_nat _ _ _ HN). Qed.
Lemma off_fac i : fac ((1 + v) ^ 2) (f_add (f_of_nat i) f_half) (INR i + / 2).
Proof.
  rewrite (r_f_half _ _ _ HN). replace ((1 + v) ^ 2) with ((1 + v) * (1 + v)) by ring.
  eapply fac_trans; [lra|lra|apply fac_rel, (r_f_add _ _ _ HN)|].
  pose proof (r_f_of_nat _ _ _ HN i) as H. unfold rel in H. pose proof (pos_INR i) as P. rewrite (Rabs_right (INR i)) in H by lra.
  unfold fac. replace (f_of_nat i + / 2 - (INR i + / 2)) with (f_of_nat i - INR i) by ring. rewrite (Rabs_right (INR i + / 2)) by lra. nra.
Qed.
Lemma den_nat d : rel (4 * v) (f_of_nat d) (INR d).
Proof. pose proof (r_f_of_nat _ _ _ HN d) as H. unfold rel in * . pose proof (Rabs_pos (INR d)). nra. Qed.
Lemma den_off d s (op : R -> R -> R) : (1 <= d)%nat -> s = 1 \/ s = -1 ->
  (forall a b, rel v (op a b) (a + s * b)) -> rel (4 * v) (op (f_of_nat d) f_half) (INR d + s * / 2).
Proof.
  intros Hd Hs Hop. rewrite (r_f_half _ _ _ HN). specialize (Hop (f_of_nat d) (/ 2)).
  pose proof (r_f_of_nat _ _ _ HN d) as H. unfold rel in * .
  assert (D : 1 <= INR d) by (replace 1 with (INR 1) by reflexivity; apply le_INR, Hd).
  set (q := f_of_nat d) in * . rewrite (Rabs_right (INR d)) in H by lra.
  assert (K : Rabs ((q + s * / 2) - (INR d + s * / 2)) <= 2 * v * (INR d + s * / 2)).
  { replace ((q + s * / 2) - (INR d + s * / 2)) with (q - INR d) by ring.
    assert (INR d <= 2 * (INR d + s * / 2)) by (destruct Hs as [-> | ->]; lra). nra. }
  assert (B : Rabs (q + s * / 2) <= (1 + 2 * v) * (INR d + s * / 2)).
  { pose proof (Rabs_triang ((q + s * / 2) - (INR d + s * / 2)) (INR d + s * / 2)) as T.
    replace ((q + s * / 2) - (INR d + s * / 2) + (INR d + s * / 2)) with (q + s * / 2) in T by ring.
    rewrite (Rabs_right (INR d + s * / 2)) in T by (destruct Hs as [-> | ->]; lra). lra. }
  assert (P : 0 <= INR d + s * / 2) by (destruct Hs as [-> | ->]; lra).
  rewrite (Rabs_right (INR d + s * / 2)) by lra. set (t := INR d + s * / 2) in * .
  replace (op q (/ 2) - t) with ((op q (/ 2) - (q + s * / 2)) + ((q + s * / 2) - t)) by ring.
  eapply Rle_trans; [apply Rabs_triang|].
  assert (v * Rabs (q + s * / 2) <= v * ((1 + 2 * v) * t)) by (apply Rmult_le_compat_l; lra).
  assert (v * v <= v / 4) by nra. assert (v * v * t <= v / 4 * t) by (apply Rmult_le_compat_r; lra). nra.
Qed.

(** * Table entries *)
Lemma table_any a a' (f : R -> R) (ff : R -> R) :
  (forall x y, Rabs (f x - f y) <= Rabs (x - y)) -> (forall x, Rabs (f x) <= 1) -> (forall x, Rabs (ff x - f x) <= v) ->
  fac (1 + rho_any v) a' a -> Rabs a <= 2 * PI ->
  Rabs (from_f64 (f_mul f_one (ff a')) - f a) <= tau u v /\ Rabs (from_f64 (ff a') - f a) <= tau u v.
Proof.
  intros Lip Bd Acc Ha HA. pose proof rho_any_ge0 as Hr. set (A := 2 * PI) in * . set (r := rho_any v) in * .
  assert (E0 : Rabs (ff a' - f a) <= v + A * r).
  { replace (ff a' - f a) with ((ff a' - f a') + (f a' - f a)) by ring. eapply Rle_trans; [apply Rabs_triang|].
    apply Rplus_le_compat; [apply Acc|]. eapply Rle_trans; [apply Lip|]. unfold fac in Ha.
    pose proof (Rabs_pos a). assert (r * Rabs a <= r * A) by (apply Rmult_le_compat_l; assumption). lra. }
  assert (B0 : Rabs (ff a') <= 1 + v + A * r).
  { pose proof (Rabs_triang (ff a' - f a) (f a)). replace (ff a' - f a + f a) with (ff a') in H by ring. specialize (Bd a). lra. }
  assert (G : forall g y, 1 <= g -> g <= (1 + u) * (1 + v) -> fac g y (ff a') -> Rabs (y - f a) <= tau u v).
  { intros g y G1 G2 H. replace (y - f a) with ((y - ff a') + (ff a' - f a)) by ring. eapply Rle_trans; [apply Rabs_triang|].
    unfold fac in H. unfold tau. fold A r.
    assert ((g - 1) * Rabs (ff a') <= ((1 + u) * (1 + v) - 1) * (1 + v + A * r)) by (apply Rmult_le_compat; [lra|apply Rabs_pos|lra|exact B0]). lra. }
  split.
  - apply (G ((1 + u) * (1 + v))); [nra|lra|]. eapply fac_trans; [lra|lra|apply fac_rel, (r_from_f64 _ _ _ HN)|].
    rewrite (r_f_one _ _ _ HN). rewrite <- (Rmult_1_l (ff a')) at 2. apply fac_rel, (r_f_mul _ _ _ HN).
  - apply (G (1 + u)); [lra|nra|]. apply fac_rel, (r_from_f64 _ _ _ HN).
Qed.
Lemma angle_range c i d : 0 < d -> 0 <= c -> 0 <= i -> c * i <= 2 * PI * d -> Rabs (c / d * i) <= 2 * PI.
Proof.
  intros Hd Hc Hi H. pose proof PI_RGT_0. assert (0 <= / d) by (left; apply Rinv_0_lt_compat, Hd).
  assert (E : c / d * i = (c * i) * / d) by (unfold Rdiv; ring). rewrite E. rewrite Rabs_right.
  - apply Rmult_le_reg_r with d; [exact Hd|]. rewrite Rmult_assoc, Rinv_l by lra. lra.
  - apply Rle_ge. apply Rmult_le_pos; [nra|assumption].
Qed.
Lemma cos_entry D' d J' j : 0 < d -> rel (4 * v) D' d -> fac ((1 + v) ^ 2) J' j -> 0 <= j <= 2 * d ->
  Rabs (from_f64 (f_cos (f_mul (f_div f_pi D') J')) - cos (PI / d * j)) <= tau u v.
Proof.
  intros Hd HD HJ Hj. pose proof PI_RGT_0.
  apply (table_any (PI / d * j) (f_mul (f_div f_pi D') J') cos f_cos cos_lip cos_le1 (r_f_cos _ _ _ HN)).
  - apply angle_any; [apply pi_fac|lra|exact HD|exact HJ]. - apply angle_range; nra.
Qed.
Lemma sin_entry D' d J' j : 0 < d -> rel (4 * v) D' d -> fac ((1 + v) ^ 2) J' j -> 0 <= j <= 2 * d ->
  Rabs (from_f64 (f_sin (f_mul (f_div f_pi D') J')) - sin (PI / d * j)) <= tau u v.
Proof.
  intros Hd HD HJ Hj. pose proof PI_RGT_0.
  apply (table_any (PI / d * j) (f_mul (f_div f_pi D') J') sin f_sin sin_lip sin_le1 (r_f_sin _ _ _ HN)).
  - apply angle_any; [apply pi_fac|lra|exact HD|exact HJ]. - apply angle_range; nra.
Qed.
Definition close (t' t : R * R) : Prop := Rabs (fst t' - fst t) <= tau u v /\ Rabs (snd t' - snd t) <= tau u v.
Lemma polar_entry L J' j : (L <> 0)%nat -> fac ((1 + v) ^ 2) J' j -> 0 <= j <= INR L ->
  let a := f_mul (f_div (f_mul f_pi (f_neg f_two)) (f_of_nat L)) J' in
  close (from_f64 (f_mul f_one (f_cos a)), from_f64 (f_mul f_one (f_sin a))) (cos (PI * - (2) / INR L * j), sin (PI * - (2) / INR L * j)).
Proof.
  intros HL HJ Hj a. pose proof PI_RGT_0. assert (PL : 0 < INR L) by (apply lt_0_INR; lia).
  assert (F : fac (1 + rho_any v) a (PI * - (2) / INR L * j)) by (apply angle_any; [apply pi2_fac|lra|apply den_nat|exact HJ]).
  assert (A : Rabs (PI * - (2) / INR L * j) <= 2 * PI).
  { replace (PI * - (2) / INR L * j) with (- (2 * PI / INR L * j)) by (field; lra). rewrite Rabs_Ropp. apply angle_range; nra. }
  split; cbn [fst snd].
  - apply (table_any _ a cos f_cos cos_lip cos_le1 (r_f_cos _ _ _ HN) F A).
  - apply (table_any _ a sin f_sin sin_lip sin_le1 (r_f_sin _ _ _ HN) F A).
Qed.
Lemma twiddle_close i L : (i <= L)%nat -> (L <> 0)%nat -> close (single_twiddle i L) (single_twiddle (N := NumR) i L).
Proof.
  intros Hi HL. unfold single_twiddle, from_polar. cbn [fst snd from_f64 f_mul f_one f_cos f_sin f_div f_pi f_neg f_two f_of_nat NumR].
  rewrite !Rmult_1_l. apply polar_entry; [exact HL|apply nat_fac|]. split; [apply pos_INR|apply le_INR, Hi].
Qed.
Lemma twiddle_re_close i L : (i <= L)%nat -> (L <> 0)%nat ->
  Rabs (single_twiddle_re (N := N) i L - single_twiddle_re (N := NumR) i L) <= tau u v.
Proof.
  intros Hi HL. unfold single_twiddle_re. cbn [from_f64 f_mul f_cos f_div f_pi f_neg f_two f_of_nat NumR].
  pose proof PI_RGT_0. assert (PL : 0 < INR L) by (apply lt_0_INR; lia). pose proof (pos_INR i). pose proof (le_INR _ _ Hi).
  apply (table_any _ _ cos f_cos cos_lip cos_le1 (r_f_cos _ _ _ HN)).
  - apply angle_any; [apply pi2_fac|lra|apply den_nat|apply nat_fac].
  - replace (PI * - (2) / INR L * INR i) with (- (2 * PI / INR L * INR i)) by (field; lra). rewrite Rabs_Ropp. apply angle_range; nra.
Qed.
Lemma twiddle_half_close i L : (i < L)%nat -> close (single_twiddle_halfoffset i L) (single_twiddle_halfoffset (N := NumR) i L).
Proof.
  intros Hi. unfold single_twiddle_halfoffset, from_polar. cbn [fst snd from_f64 f_mul f_one f_cos f_sin f_div f_pi f_neg f_two f_of_nat f_add f_half NumR].
  rewrite !Rmult_1_l. apply polar_entry; [lia|apply off_fac|]. pose proof (pos_INR i).
  assert (INR i + 1 <= INR L) by (rewrite <- S_INR; apply le_INR; lia). lra.
Qed.

(** * [a'] is within [(g - 1) S] of [a], whose magnitude is at most [S]. *)
Definition nr (g S a' a : R) : Prop := Rabs (a' - a) <= (g - 1) * S /\ Rabs a <= S.
Lemma nr_pos g S a' a : nr g S a' a -> 0 <= S.
Proof. intros [_ H]. pose proof (Rabs_pos a). lra. Qed.
Lemma nr_abs g S a' a : nr g S a' a -> Rabs a' <= g * S.
Proof. intros [A B]. pose proof (Rabs_triang (a' - a) a) as T. replace (a' - a + a) with a' in T by ring. lra. Qed.
Lemma nr_refl g a : 1 <= g -> nr g (Rabs a) a a.
Proof. intros H. split; [|lra]. rewrite Rminus_eq_0, Rabs_R0. apply Rmult_le_pos; [lra|apply Rabs_pos]. Qed.
Lemma nr_fac g a' a : fac g a' a -> nr g (Rabs a) a' a.
Proof. intros H. split; [exact H|lra]. Qed.
Lemma nr_mono g h S S' a' a : 1 <= g -> g <= h -> S <= S' -> nr g S a' a -> nr h S' a' a.
Proof.
  intros H1 H2 H3 H. pose proof (nr_pos _ _ _ _ H) as P. destruct H as [A B]. split; [|lra]. eapply Rle_trans; [exact A|].
  apply Rmult_le_compat; lra.
Qed.
Lemma nr_step g S w a' a : 1 <= g -> fac (1 + u) w a' -> nr g S a' a -> nr ((1 + u) * g) S w a.
Proof.
  intros Hg F H. pose proof (nr_abs _ _ _ _ H) as B'. destruct H as [A B]. split; [|exact B]. unfold fac in F.
  replace (w - a) with ((w - a') + (a' - a)) by ring. eapply Rle_trans; [apply Rabs_triang|].
  assert (u * Rabs a' <= u * (g * S)) by (apply Rmult_le_compat_l; assumption). lra.
Qed.
Lemma nr_neg g S a' a : nr g S a' a -> nr g S (neg a') (- a).
Proof.
  intros [A B]. rewrite (r_neg _ _ _ HN). split; [|rewrite Rabs_Ropp; exact B].
  replace (- a' - - a) with (- (a' - a)) by ring. rewrite Rabs_Ropp. exact A.
Qed.
Lemma nr_add g S S' a' a b' b : 1 <= g -> nr g S a' a -> nr g S' b' b -> nr ((1 + u) * g) (S + S') (fadd a' b') (a + b).
Proof.
  intros Hg [A1 A2] [B1 B2]. eapply nr_step; [exact Hg|apply (add_fac u v N HN)|]. split.
  - replace (a' + b' - (a + b)) with ((a' - a) + (b' - b)) by ring. eapply Rle_trans; [apply Rabs_triang|]. lra.
  - eapply Rle_trans; [apply Rabs_triang|]. lra.
Qed.
Lemma nr_sub g S S' a' a b' b : 1 <= g -> nr g S a' a -> nr g S' b' b -> nr ((1 + u) * g) (S + S') (fsub a' b') (a - b).
Proof.
  intros Hg [A1 A2] [B1 B2]. eapply nr_step; [exact Hg|apply (sub_fac u v N HN)|]. split.
  - replace (a' - b' - (a - b)) with ((a' - a) + - (b' - b)) by ring. eapply Rle_trans; [apply Rabs_triang|]. rewrite Rabs_Ropp. lra.
  - unfold Rminus. eapply Rle_trans; [apply Rabs_triang|]. rewrite Rabs_Ropp. lra.
Qed.
Lemma nr_mul g h S S' a' a b' b : 1 <= g -> 1 <= h -> nr g S a' a -> nr h S' b' b -> nr ((1 + u) * (g * h)) (S * S') (fmul a' b') (a * b).
Proof.
  intros Hg Hh HA HB. pose proof (nr_pos _ _ _ _ HA) as PA. pose proof (nr_pos _ _ _ _ HB) as PB. pose proof (nr_abs _ _ _ _ HB) as BB.
  destruct HA as [A1 A2]. destruct HB as [B1 B2].
  eapply nr_step; [nra|apply (mul_fac u v N HN)|]. split.
  - replace (a' * b' - a * b) with ((a' - a) * b' + a * (b' - b)) by ring. eapply Rle_trans; [apply Rabs_triang|]. rewrite !Rabs_mult.
    assert (Rabs (a' - a) * Rabs b' <= (g - 1) * S * (h * S')) by (apply Rmult_le_compat; try apply Rabs_pos; assumption).
    assert (Rabs a * Rabs (b' - b) <= S * ((h - 1) * S')) by (apply Rmult_le_compat; try apply Rabs_pos; assumption). lra.
  - rewrite Rabs_mult. apply Rmult_le_compat; try apply Rabs_pos; assumption.
Qed.

(** * Sums of products *)
Lemma step_err B G o' o p' p x w : 1 <= G -> Rabs (o' - o) <= (G - 1) * B -> Rabs o <= B ->
  Rabs (p' - p) <= (G - 1) * Rabs x -> Rabs p <= Rabs x -> fac (1 + u) w (o' + p') ->
  Rabs (w - (o + p)) <= (G * (1 + u) - 1) * (B + Rabs x) /\ Rabs (o + p) <= B + Rabs x.
Proof.
  intros HG Ho Bo Hp Bp Hw. unfold fac in Hw.
  assert (Bs : Rabs (o + p) <= B + Rabs x) by (pose proof (Rabs_triang o p); lra). split; [|exact Bs].
  assert (E : Rabs (o' + p' - (o + p)) <= (G - 1) * (B + Rabs x)).
  { replace (o' + p' - (o + p)) with ((o' - o) + (p' - p)) by ring. pose proof (Rabs_triang (o' - o) (p' - p)). lra. }
  assert (Bp' : Rabs (o' + p') <= G * (B + Rabs x)).
  { pose proof (Rabs_triang (o' + p' - (o + p)) (o + p)) as T. replace (o' + p' - (o + p) + (o + p)) with (o' + p') in T by ring. lra. }
  replace (w - (o + p)) with ((w - (o' + p')) + (o' + p' - (o + p))) by ring. eapply Rle_trans; [apply Rabs_triang|].
  assert (u * Rabs (o' + p') <= u * (G * (B + Rabs x))) by (apply Rmult_le_compat_l; assumption). lra.
Qed.

Lemma prod_err g e p' x' x t' t : 1 <= g -> 0 <= e -> fac g x' x -> Rabs (t' - t) <= e -> Rabs t <= 1 -> fac (1 + u) p' (x' * t') ->
  Rabs (p' - x * t) <= (g * (1 + u) * (1 + e) - 1) * Rabs x.
Proof.
  intros Hg He Hx Ht Bt Hp.
  assert (F : fac ((1 + u) * g) p' (x * t')).
  { apply fac_trans with (x' * t'); [lra|exact Hg|exact Hp|]. replace g with (g * 1) by ring. apply fac_mul; [exact Hg|lra|exact Hx|apply fac_refl; lra]. }
  unfold fac in F. rewrite Rabs_mult in F.
  replace (p' - x * t) with ((p' - x * t') + x * (t' - t)) by ring. eapply Rle_trans; [apply Rabs_triang|]. rewrite Rabs_mult.
  assert (Bt' : Rabs t' <= 1 + e).
  { pose proof (Rabs_triang (t' - t) t). replace (t' - t + t) with t' in H by ring. lra. }
  pose proof (Rabs_pos x). assert (1 <= (1 + u) * g) by nra.
  assert (((1 + u) * g - 1) * (Rabs x * Rabs t') <= ((1 + u) * g - 1) * (Rabs x * (1 + e))).
  { apply Rmult_le_compat_l; [lra|]. apply Rmult_le_compat_l; assumption. }
  assert (Rabs x * Rabs (t' - t) <= Rabs x * e) by (apply Rmult_le_compat_l; assumption). nra.
Qed.

Lemma accum_err {A} (st : R -> R -> A -> R) (val : A -> R) X' X W' (w : nat -> R) acc' acc B lo cnt g e :
  1 <= g -> 0 <= e ->
  (forall o s t, exists p, fac (1 + u) p (s * val t) /\ fac (1 + u) (st o s t) (o + p)) ->
  (forall i, (lo <= i < lo + cnt)%nat -> fac g (X' i) (X i) /\ Rabs (val (W' i) - w i) <= e /\ Rabs (w i) <= 1) ->
  Rabs (acc' - acc) <= (g * (1 + u) * (1 + e) - 1) * B -> Rabs acc <= B ->
  let S := acc + sum (fun i => X (lo + i)%nat * w (lo + i)%nat) cnt in
  let T := B + sum (fun i => Rabs (X (lo + i)%nat)) cnt in
  Rabs (accum st X' W' acc' lo cnt - S) <= (g * (1 + u) ^ (cnt + 1) * (1 + e) - 1) * T /\ Rabs S <= T.
Proof.
  intros Hg He Hst. induction cnt as [|c IH]; intros HX H0 Hacc.
  - cbn [sum accum plus pow]. rewrite !Rplus_0_r, Rmult_1_r. split; assumption.
  - cbv zeta. cbn [sum accum].
    destruct (IH (fun i Hi => HX i ltac:(lia)) H0 Hacc) as [I1 I2].
    destruct (HX (lo + c)%nat ltac:(lia)) as (F & Ew & Bw).
    destruct (Hst (accum st X' W' acc' lo c) (X' (lo + c)%nat) (W' (lo + c)%nat)) as (p & Fp & Fs).
    pose proof (prod_err g e p _ _ _ _ Hg He F Ew Bw Fp) as Ep.
    assert (P1 : 1 <= (1 + u) ^ c) by (apply pow_R1_Rle; lra).
    assert (G0 : 1 <= g * (1 + u) * (1 + e)) by (assert (1 <= g * (1 + u)) by nra; nra).
    replace (c + 1)%nat with (S c) in I1 by lia.
    assert (EG : g * (1 + u) ^ S c * (1 + e) = (g * (1 + u) * (1 + e)) * (1 + u) ^ c) by (cbn [pow]; ring).
    assert (G1 : g * (1 + u) * (1 + e) <= g * (1 + u) ^ S c * (1 + e)) by (rewrite EG; nra).
    destruct (step_err (B + sum (fun i => Rabs (X (lo + i)%nat)) c) (g * (1 + u) ^ S c * (1 + e)) (accum st X' W' acc' lo c)
                (acc + sum (fun i => X (lo + i)%nat * w (lo + i)%nat) c) p
                (X (lo + c)%nat * w (lo + c)%nat) (X (lo + c)%nat) (st (accum st X' W' acc' lo c) (X' (lo + c)%nat) (W' (lo + c)%nat))) as [R1 R2].
    + lra. + exact I1. + exact I2.
    + eapply Rle_trans; [exact Ep|]. apply Rmult_le_compat_r; [apply Rabs_pos|lra].
    + rewrite Rabs_mult. pose proof (Rabs_pos (X (lo + c)%nat)). nra.
    + exact Fs.
    + split.
      * replace (S c + 1)%nat with (S (S c)) by lia.
        replace (g * (1 + u) ^ S (S c) * (1 + e) - 1) with (g * (1 + u) ^ S c * (1 + e) * (1 + u) - 1) by (cbn [pow]; ring).
        rewrite <- !Rplus_assoc. exact R1.
      * rewrite <- !Rplus_assoc. exact R2.
Qed.

Lemma op_add_step (o s t : R) : exists p, fac (1 + u) p (s * t) /\ fac (1 + u) (op_add o s t) (o + p).
Proof. exists (fmul s t). split; [apply (mul_fac u v N HN)|apply (add_fac u v N HN)]. Qed.
Lemma op_add_re_step (o s : R) (t : R * R) : exists p, fac (1 + u) p (s * fst t) /\ fac (1 + u) (op_add_re o s t) (o + p).
Proof. exists (fmul s (fst t)). split; [apply (mul_fac u v N HN)|apply (add_fac u v N HN)]. Qed.
Lemma op_sub_im_step (o s : R) (t : R * R) : exists p, fac (1 + u) p (s * - snd t) /\ fac (1 + u) (op_sub_im o s t) (o + p).
Proof.
  exists (- fmul s (snd t)). split.
  - replace (s * - snd t) with (- (s * snd t)) by ring. apply fac_opp, (mul_fac u v N HN).
  - apply (sub_fac u v N HN).
Qed.
End Entry.
