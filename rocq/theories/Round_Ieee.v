(** Rounding to nearest with ties to even: the standard model, and exact scaling by powers of two. *)
From Coq Require Import Reals ZArith List Lia Lra Psatz.
From Verif Require Import Num Spec Spec_Round Spec_Ieee Spec_Param Round_Binary.
Open Scope R_scope.

Lemma nearest_even_spec x : let n := nearest_even x in Rabs (x - IZR n) < / 2 \/ Rabs (x - IZR n) = / 2 /\ Z.even n = true.
Proof.
  cbv zeta. unfold nearest_even. destruct (base_Int_part x) as [A B]. set (n := Int_part x) in * .
  destruct (Rlt_dec _ _) as [L|L]; [left; rewrite Rabs_right; lra|]. destruct (Rlt_dec _ _) as [M|M].
  - left. rewrite plus_IZR, Rabs_left; lra.
  - destruct (Z.even n) eqn:E.
    + right. split; [|exact E]. rewrite Rabs_right; lra.
    + right. split; [rewrite plus_IZR, Rabs_left; lra|]. rewrite Z.even_add, E. reflexivity.
Qed.
Lemma abs_inv a b : Rabs a <= b -> - b <= a <= b.
Proof. unfold Rabs. destruct (Rcase_abs a); lra. Qed.
Lemma nearest_even_unique x n : Rabs (x - IZR n) < / 2 \/ Rabs (x - IZR n) = / 2 /\ Z.even n = true -> nearest_even x = n.
Proof.
  intros H. pose proof (nearest_even_spec x) as K. cbv zeta in K. set (m := nearest_even x) in * . clearbody m.
  assert (A : Rabs (x - IZR n) <= / 2) by (destruct H as [H|[H _]]; lra). assert (B : Rabs (x - IZR m) <= / 2) by (destruct K as [K|[K _]]; lra).
  apply abs_inv in A, B.
  assert (U : (m - n < 2)%Z) by (apply lt_IZR; rewrite minus_IZR; lra). assert (L : (n - m < 2)%Z) by (apply lt_IZR; rewrite minus_IZR; lra).
  destruct (Z.eq_dec m n) as [E|E]; [exact E|exfalso].
  assert (P : (m = n + 1 \/ n = m + 1)%Z) by lia.
  assert (Q : Rabs (x - IZR n) = / 2 /\ Rabs (x - IZR m) = / 2).
  { destruct P as [-> | ->]; rewrite plus_IZR in * ; split; revert A B; unfold Rabs; repeat destruct (Rcase_abs _); intros; lra. }
  destruct H as [H|[_ H]]; [lra|]. destruct K as [K|[_ K]]; [lra|].
  destruct P as [-> | ->]; rewrite Z.even_add in * ; rewrite ?H, ?K in * ; discriminate.
Qed.
Lemma nearest_even_err y : Rabs (IZR (nearest_even y) - y) <= / 2.
Proof. rewrite Rabs_minus_sym. destruct (nearest_even_spec y) as [H|[H _]]; lra. Qed.
Lemma nearest_even_int z : nearest_even (IZR z) = z.
Proof. apply nearest_even_unique. left. rewrite Rminus_eq_0, Rabs_R0. lra. Qed.
Lemma nearest_even_opp x : nearest_even (- x) = (- nearest_even x)%Z.
Proof.
  apply nearest_even_unique. rewrite opp_IZR, Z.even_opp. replace (- x - - IZR (nearest_even x)) with (- (x - IZR (nearest_even x))) by ring. rewrite Rabs_Ropp.
  apply nearest_even_spec.
Qed.
Lemma rnd_even_rel p x : rel (powerRZ 2 (- p)) (rnd_even p x) x.
Proof.
  unfold rel, rnd_even. destruct (Req_EM_T x 0) as [->|Hx]; [rewrite Rminus_0_r, Rabs_R0; lra|].
  set (y := x * powerRZ 2 (p - mag x)). assert (E : x = y * powerRZ 2 (mag x - p)).
  { unfold y. rewrite Rmult_assoc, <- two_pow_add. replace (p - mag x + (mag x - p))%Z with 0%Z by lia. cbn [powerRZ]. ring. }
  rewrite E at 2. rewrite <- Rmult_minus_distr_r, Rabs_mult, (Rabs_right (powerRZ 2 _)) by (left; apply two_pow_pos).
  pose proof (two_pow_pos (mag x - p)). eapply Rle_trans; [apply Rmult_le_compat_r; [lra|apply nearest_even_err]|].
  replace (/ 2 * powerRZ 2 (mag x - p)) with (powerRZ 2 (- p) * powerRZ 2 (mag x - 1)).
  - apply Rmult_le_compat_l; [left; apply two_pow_pos|]. apply mag_low, Hx.
  - rewrite <- two_pow_add. replace (- p + (mag x - 1))%Z with (- (1) + (mag x - p))%Z by lia. rewrite two_pow_add. change (powerRZ 2 (- (1))) with (/ (2 * 1)). rewrite Rmult_1_r. reflexivity.
Qed.
Lemma rnd_even_pow p e : (1 <= p)%Z -> rnd_even p (powerRZ 2 e) = powerRZ 2 e.
Proof.
  intros Hp. pose proof (two_pow_pos e). unfold rnd_even. destruct (Req_EM_T _ 0); [lra|]. rewrite mag_pow, <- two_pow_add.
  destruct (two_pow_int (e + (p - (e + 1)))) as [z Ez]; [lia|]. rewrite Ez, nearest_even_int, <- Ez, <- two_pow_add. f_equal. lia.
Qed.
Lemma ieee_rounding p p' : (1 <= p)%Z -> (1 <= p')%Z -> rounding (powerRZ 2 (- p)) (powerRZ 2 (- p')) (Ieee p p').
Proof.
  intros Hp Hp'. constructor; cbn [Ieee zero one neg add sub mul from_f64 sqrt_2 frac_1_sqrt_2 f_of_nat f_pi f_half f_one f_two f_four f_neg f_add f_sub f_mul f_div f_cos f_sin f_sqrt];
    try reflexivity; intros; try apply rnd_even_rel.
  - left. apply two_pow_pos.
  - apply (r_v _ _ _ (binary_rounding p p' Hp Hp')).
  - replace (/ 2) with (powerRZ 2 (- (1))) by (change (powerRZ 2 (- (1))) with (/ (2 * 1)); field). apply rnd_even_pow, Hp.
  - change (rnd_even p 2 = 2). replace (rnd_even p 2) with (rnd_even p (powerRZ 2 1)) by (f_equal; change (2 * 1 = 2); ring). rewrite rnd_even_pow by exact Hp. change (2 * 1 = 2). ring.
  - eapply Rle_trans; [apply rnd_even_rel|]. rewrite <- (Rmult_1_r (powerRZ _ _)) at 2. apply Rmult_le_compat_l; [left; apply two_pow_pos|].
    apply Rabs_le. apply COS_bound.
  - eapply Rle_trans; [apply rnd_even_rel|]. rewrite <- (Rmult_1_r (powerRZ _ _)) at 2. apply Rmult_le_compat_l; [left; apply two_pow_pos|].
    apply Rabs_le. apply SIN_bound.
Qed.

(** Scaling by a power of two, and negation, are exact. *)
Lemma mag_scale e x : x <> 0 -> mag (powerRZ 2 e * x) = (mag x + e)%Z.
Proof.
  intros Hx. unfold mag. rewrite Rabs_mult, (Rabs_right (powerRZ 2 e)) by (left; apply two_pow_pos).
  rewrite ln_mult by (apply two_pow_pos || apply Rabs_pos_lt, Hx). rewrite two_pow_exp, ln_exp. pose proof ln2_pos.
  replace ((IZR e * ln 2 + ln (Rabs x)) / ln 2) with (ln (Rabs x) / ln 2 + IZR e) by (field; lra).
  destruct (archimed (ln (Rabs x) / ln 2)) as [A B]. symmetry. apply tech_up; rewrite plus_IZR; lra.
Qed.
Lemma rnd_even_scale p e x : rnd_even p (powerRZ 2 e * x) = powerRZ 2 e * rnd_even p x.
Proof.
  pose proof (two_pow_pos e) as P. unfold rnd_even. destruct (Req_EM_T x 0) as [->|Hx].
  - rewrite Rmult_0_r. destruct (Req_EM_T 0 0); [reflexivity|lra].
  - destruct (Req_EM_T (powerRZ 2 e * x) 0) as [E|_]; [apply Rmult_integral in E; destruct E; lra|]. rewrite mag_scale by exact Hx.
    replace (powerRZ 2 e * x * powerRZ 2 (p - (mag x + e))) with (x * powerRZ 2 (p - mag x)).
    + replace (mag x + e - p)%Z with (e + (mag x - p))%Z by lia. rewrite two_pow_add. ring.
    + replace (p - mag x)%Z with (e + (p - (mag x + e)))%Z by lia. rewrite two_pow_add. ring.
Qed.
Lemma rnd_even_opp p x : rnd_even p (- x) = - rnd_even p x.
Proof.
  unfold rnd_even. destruct (Req_EM_T x 0) as [->|Hx]; destruct (Req_EM_T (- _) 0) as [E|E]; try lra.
  unfold mag. rewrite Rabs_Ropp. rewrite Ropp_mult_distr_l_reverse, nearest_even_opp, opp_IZR. ring.
Qed.
Lemma rnd_even_signed p c x : signed_power c -> rnd_even p (c * x) = c * rnd_even p x.
Proof.
  intros [e [-> | ->]]; [apply rnd_even_scale|]. rewrite !Ropp_mult_distr_l_reverse, rnd_even_opp, rnd_even_scale. reflexivity.
Qed.
Lemma ieee_commutes p p' c : signed_power c -> commutes (N := Ieee p p') (Rmult c).
Proof.
  intros H. constructor; cbn [Ieee zero neg add sub mul]; intros; rewrite <- ?rnd_even_signed by exact H; first [ring|f_equal; ring].
Qed.
(** In exact arithmetic any factor will do. *)
Lemma exact_commutes c : commutes (N := NumR) (Rmult c).
Proof. constructor; cbn; intros; ring. Qed.
