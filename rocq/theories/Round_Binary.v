(** Binary arithmetic with rounding to nearest satisfies the standard model. *)
From Coq Require Import Reals ZArith List Lia Lra Psatz.
From Verif Require Import Num Spec Spec_Round.
Open Scope R_scope.

Lemma two_pow_pos e : 0 < powerRZ 2 e. Proof. apply powerRZ_lt. lra. Qed.
Lemma two_pow_add a b : powerRZ 2 (a + b) = powerRZ 2 a * powerRZ 2 b. Proof. apply powerRZ_add. lra. Qed.
Lemma two_pow_exp e : powerRZ 2 e = exp (IZR e * ln 2). Proof. rewrite powerRZ_Rpower by lra. reflexivity. Qed.
Lemma ln2_pos : 0 < ln 2. Proof. rewrite <- ln_1. apply ln_increasing; lra. Qed.
Lemma mag_low x : x <> 0 -> powerRZ 2 (mag x - 1) <= Rabs x.
Proof.
  intros Hx. pose proof ln2_pos as L. assert (Px : 0 < Rabs x) by (apply Rabs_pos_lt, Hx). rewrite two_pow_exp, <- (exp_ln (Rabs x)) at 1 by exact Px.
  destruct (archimed (ln (Rabs x) / ln 2)) as [_ U]. unfold mag.
  assert (H : IZR (up (ln (Rabs x) / ln 2) - 1) * ln 2 <= ln (Rabs x)).
  { rewrite minus_IZR. replace (ln (Rabs x)) with (ln (Rabs x) / ln 2 * ln 2) at 2 by (field; lra). apply Rmult_le_compat_r; lra. }
  destruct H as [H| ->]; [left; apply exp_increasing, H|right; reflexivity].
Qed.
Lemma nearest_err y : Rabs (IZR (nearest y) - y) <= / 2.
Proof. unfold nearest. destruct (base_Int_part (y + / 2)). apply Rabs_le. lra. Qed.
Lemma nearest_int z : nearest (IZR z) = z.
Proof. unfold nearest, Int_part. rewrite <- (tech_up (IZR z + / 2) (z + 1)); [lia|rewrite plus_IZR; lra|rewrite plus_IZR; lra]. Qed.
Lemma rnd_rel p x : rel (powerRZ 2 (- p)) (rnd p x) x.
Proof.
  unfold rel, rnd. destruct (Req_EM_T x 0) as [->|Hx]; [rewrite Rminus_0_r, Rabs_R0; lra|].
  set (y := x * powerRZ 2 (p - mag x)). assert (E : x = y * powerRZ 2 (mag x - p)).
  { unfold y. rewrite Rmult_assoc, <- two_pow_add. replace (p - mag x + (mag x - p))%Z with 0%Z by lia. cbn [powerRZ]. ring. }
  rewrite E at 2. rewrite <- Rmult_minus_distr_r, Rabs_mult, (Rabs_right (powerRZ 2 _)) by (left; apply two_pow_pos).
  pose proof (two_pow_pos (mag x - p)). eapply Rle_trans; [apply Rmult_le_compat_r; [lra|apply nearest_err]|].
  replace (/ 2 * powerRZ 2 (mag x - p)) with (powerRZ 2 (- p) * powerRZ 2 (mag x - 1)).
  - apply Rmult_le_compat_l; [left; apply two_pow_pos|]. apply mag_low, Hx.
  - rewrite <- two_pow_add. replace (- p + (mag x - 1))%Z with (- (1) + (mag x - p))%Z by lia. rewrite two_pow_add. change (powerRZ 2 (- (1))) with (/ (2 * 1)). rewrite Rmult_1_r. reflexivity.
Qed.
(** Powers of two are representable. *)
Lemma mag_pow e : mag (powerRZ 2 e) = (e + 1)%Z.
Proof.
  unfold mag. rewrite Rabs_right by (left; apply two_pow_pos). rewrite two_pow_exp, ln_exp.
  replace (IZR e * ln 2 / ln 2) with (IZR e) by (field; pose proof ln2_pos; lra). symmetry. apply tech_up; rewrite plus_IZR; lra.
Qed.
Lemma two_pow_int k : (0 <= k)%Z -> exists z, powerRZ 2 k = IZR z.
Proof.
  intros Hk. exists (2 ^ k)%Z. rewrite <- (Z2Nat.id k Hk). rewrite <- pow_IZR, <- pow_powerRZ. reflexivity.
Qed.
Lemma rnd_pow p e : (1 <= p)%Z -> rnd p (powerRZ 2 e) = powerRZ 2 e.
Proof.
  intros Hp. pose proof (two_pow_pos e). unfold rnd. destruct (Req_EM_T _ 0); [lra|]. rewrite mag_pow, <- two_pow_add.
  destruct (two_pow_int (e + (p - (e + 1)))) as [z Ez]; [lia|]. rewrite Ez, nearest_int, <- Ez, <- two_pow_add. f_equal. lia.
Qed.
Lemma binary_rounding p p' : (1 <= p)%Z -> (1 <= p')%Z -> rounding (powerRZ 2 (- p)) (powerRZ 2 (- p')) (Binary p p').
Proof.
  intros Hp Hp'. constructor; cbn [Binary zero one neg add sub mul from_f64 sqrt_2 frac_1_sqrt_2 f_of_nat f_pi f_half f_one f_two f_four f_neg f_add f_sub f_mul f_div f_cos f_sin f_sqrt];
    try reflexivity; intros; try apply rnd_rel.
  - left. apply two_pow_pos.
  - split; [left; apply two_pow_pos|]. apply Rle_lt_trans with (powerRZ 2 (- (1))); [|change (powerRZ 2 (- (1))) with (/ (2 * 1)); lra].
    destruct (Z.eq_dec p' 1) as [->|Hn]; [right; reflexivity|left]. rewrite !two_pow_exp. apply exp_increasing. apply Rmult_lt_compat_r; [apply ln2_pos|]. apply IZR_lt. lia.
  - replace (/ 2) with (powerRZ 2 (- (1))) by (change (powerRZ 2 (- (1))) with (/ (2 * 1)); field). apply rnd_pow, Hp.
  - change (rnd p 2 = 2). replace (rnd p 2) with (rnd p (powerRZ 2 1)) by (f_equal; change (2 * 1 = 2); ring). rewrite rnd_pow by exact Hp. change (2 * 1 = 2). ring.
  - eapply Rle_trans; [apply rnd_rel|]. rewrite <- (Rmult_1_r (powerRZ _ _)) at 2. apply Rmult_le_compat_l; [left; apply two_pow_pos|].
    apply Rabs_le. apply COS_bound.
  - eapply Rle_trans; [apply rnd_rel|]. rewrite <- (Rmult_1_r (powerRZ _ _)) at 2. apply Rmult_le_compat_l; [left; apply two_pow_pos|].
    apply Rabs_le. apply SIN_bound.
Qed.
(** Exact arithmetic is the case of no error at all. *)
Lemma exact_rounding : rounding 0 0 NumR.
Proof.
  constructor; cbn; intros; unfold rel; try reflexivity; try lra; try (rewrite Rminus_eq_0, Rabs_R0; lra).
Qed.
