(** Accuracy of the window functions. *)
From Coq Require Import Reals ZArith List Arith Lia Lra Psatz Bool.
From Verif Require Import Prog Num Model_Common Model_Mdct Spec Spec_Round Spec_Entry Spec_Overlap Ref Round_Ops Round_Entry Tdac.
Import ListNotations.
Open Scope R_scope.

Section Windows.
Variables (u v : R) (N : Num R R).
Hypothesis HN : rounding u v N.
Hypothesis Hv4 : 4 * v < 1.
Let Hu : 0 <= u := r_u _ _ _ HN.
Let Hv : 0 <= v < 1 := r_v _ _ _ HN.

Lemma conv x' x B err : Rabs x <= B -> Rabs (x' - x) <= err -> Rabs (@from_f64 _ _ N x' - x) <= (1 + u) * (B + err) - B.
Proof.
  intros HB He. pose proof (r_from_f64 _ _ _ HN x') as H. unfold rel in H.
  assert (Bx : Rabs x' <= B + err) by (pose proof (Rabs_triang (x' - x) x) as T; replace (x' - x + x) with x' in T by ring; lra).
  assert (u * Rabs x' <= u * (B + err)) by (apply Rmult_le_compat_l; assumption).
  pose proof (Rabs_triang (from_f64 x' - x') (x' - x)) as T. replace (from_f64 x' - x' + (x' - x)) with (from_f64 x' - x) in T by ring. lra.
Qed.
Lemma sine_error_ge0 : 0 <= sine_error v.
Proof. unfold sine_error. pose proof (rho_any_ge0 u v N HN Hv4). pose proof PI_RGT_0. nra. Qed.
Lemma sine_close len i : (i < len)%nat ->
  Rabs (@f_sin _ _ N (f_mul (f_div f_pi (f_of_nat len)) (f_add (f_of_nat i) f_half)) - sin (PI / INR len * (INR i + / 2))) <= sine_error v.
Proof.
  intros Hi. set (a' := f_mul _ _). set (a := PI / INR len * (INR i + / 2)). pose proof PI_RGT_0. assert (L : 1 <= INR len) by (apply inr_pos; lia).
  assert (Il : INR i + 1 <= INR len) by (rewrite <- S_INR; apply le_INR; lia). pose proof (pos_INR i) as I0.
  assert (A : fac (1 + rho_any v) a' a) by (apply (angle_any u v N HN Hv4); [apply (pi_fac u v N HN)|lra|apply (den_nat u v N HN)|apply (off_fac u v N HN)]).
  assert (B : Rabs a <= 2 * PI) by (apply angle_range; nra).
  replace (f_sin a' - sin a) with ((f_sin a' - sin a') + (sin a' - sin a)) by ring. eapply Rle_trans; [apply Rabs_triang|].
  pose proof (r_f_sin _ _ _ HN a'). pose proof (sin_lip a' a). unfold fac in A. pose proof (rho_any_ge0 u v N HN Hv4) as R0.
  assert (rho_any v * Rabs a <= rho_any v * (2 * PI)) by (apply Rmult_le_compat_l; assumption). unfold sine_error. lra.
Qed.
Lemma vorbis_close s' s : Rabs (s' - s) <= sine_error v -> Rabs s <= 1 ->
  Rabs (@f_sin _ _ N (f_mul (f_mul (f_mul f_pi f_half) s') s') - sin (PI * / 2 * s * s)) <= vorbis_error v.
Proof.
  intros Hs H1. pose proof PI_RGT_0 as PP. pose proof sine_error_ge0 as E0. set (e := sine_error v) in * .
  set (p' := f_mul (f_mul (f_mul f_pi f_half) s') s').
  assert (F : fac ((1 + v) * ((1 + v) * ((1 + v) * (1 + v)))) p' (PI * / 2 * s' * s')).
  { assert (F1 : fac ((1 + v) * (1 + v)) (f_mul f_pi f_half) (PI * / 2)).
    { eapply fac_trans; [lra|lra|apply fac_rel, (r_f_mul _ _ _ HN)|]. rewrite (r_f_half _ _ _ HN).
      replace (1 + v) with ((1 + v) * 1) by ring. apply fac_mul; [lra|lra|apply fac_rel, (r_f_pi _ _ _ HN)|apply fac_refl; lra]. }
    assert (F2 : fac ((1 + v) * ((1 + v) * (1 + v))) (f_mul (f_mul f_pi f_half) s') (PI * / 2 * s')).
    { eapply fac_trans; [lra|nra|apply fac_rel, (r_f_mul _ _ _ HN)|].
      replace ((1 + v) * (1 + v)) with ((1 + v) * (1 + v) * 1) by ring. apply fac_mul; [nra|lra|exact F1|apply fac_refl; lra]. }
    eapply fac_trans; [lra|nra|apply fac_rel, (r_f_mul _ _ _ HN)|].
    replace ((1 + v) * ((1 + v) * (1 + v))) with ((1 + v) * ((1 + v) * (1 + v)) * 1) by ring. apply fac_mul; [nra|lra|exact F2|apply fac_refl; lra]. }
  replace ((1 + v) * ((1 + v) * ((1 + v) * (1 + v)))) with ((1 + v) ^ 4) in F by ring.
  assert (G : 1 <= (1 + v) ^ 4) by (apply pow_R1_Rle; lra).
  assert (B : Rabs s' <= 1 + e) by (pose proof (Rabs_triang (s' - s) s) as T; replace (s' - s + s) with s' in T by ring; lra).
  assert (BB : Rabs s' * Rabs s' <= (1 + e) ^ 2) by (pose proof (Rabs_pos s'); simpl; nra).
  assert (D : Rabs (s' * s' - s * s) <= (1 + e) ^ 2 - 1).
  { replace (s' * s' - s * s) with ((s' - s) * (s' + s)) by ring. rewrite Rabs_mult.
    assert (Rabs (s' + s) <= 2 + e) by (eapply Rle_trans; [apply Rabs_triang|lra]). 
    replace ((1 + e) ^ 2 - 1) with (e * (2 + e)) by ring. apply Rmult_le_compat; try apply Rabs_pos; assumption. }
  assert (M : Rabs (p' - PI * / 2 * s * s) <= PI / 2 * ((1 + v) ^ 4 * (1 + e) ^ 2 - 1)).
  { replace (p' - PI * / 2 * s * s) with ((p' - PI * / 2 * s' * s') + PI / 2 * (s' * s' - s * s)) by field.
    eapply Rle_trans; [apply Rabs_triang|]. unfold fac in F. rewrite (Rabs_mult (PI / 2)), (Rabs_right (PI / 2)) by lra.
    replace (Rabs (PI * / 2 * s' * s')) with (PI / 2 * (Rabs s' * Rabs s')) in F by (rewrite !Rabs_mult, (Rabs_right PI), (Rabs_right (/ 2)) by lra; field).
    assert (((1 + v) ^ 4 - 1) * (PI / 2 * (Rabs s' * Rabs s')) <= ((1 + v) ^ 4 - 1) * (PI / 2 * (1 + e) ^ 2))
      by (apply Rmult_le_compat_l; [lra|apply Rmult_le_compat_l; [lra|exact BB]]).
    assert (PI / 2 * Rabs (s' * s' - s * s) <= PI / 2 * ((1 + e) ^ 2 - 1)) by (apply Rmult_le_compat_l; [lra|exact D]).
    replace (PI / 2 * ((1 + v) ^ 4 * (1 + e) ^ 2 - 1)) with (((1 + v) ^ 4 - 1) * (PI / 2 * (1 + e) ^ 2) + PI / 2 * ((1 + e) ^ 2 - 1)) by field. lra. }
  replace (f_sin p' - sin (PI * / 2 * s * s)) with ((f_sin p' - sin p') + (sin p' - sin (PI * / 2 * s * s))) by ring.
  eapply Rle_trans; [apply Rabs_triang|]. pose proof (r_f_sin _ _ _ HN p'). pose proof (sin_lip p' (PI * / 2 * s * s)). unfold vorbis_error. fold e. lra.
Qed.

Lemma rel_pos a' a : 0 < a -> rel v a' a -> 0 < a'.
Proof.
  intros Ha H. unfold rel in H. rewrite (Rabs_right a) in H by lra. pose proof (Rle_abs (a - a')) as T. rewrite Rabs_minus_sym in T. nra.
Qed.
Lemma fac_sqrt g a' a : 1 <= g -> 0 < a -> 0 < a' -> fac g a' a -> fac g (sqrt a') (sqrt a).
Proof.
  intros Hg Ha Ha' H. unfold fac in * . pose proof (sqrt_lt_R0 a Ha) as S. pose proof (sqrt_lt_R0 a' Ha') as S'.
  rewrite (Rabs_right (sqrt a)) by lra. rewrite (Rabs_right a) in H by lra.
  assert (E : Rabs (a' - a) = Rabs (sqrt a' - sqrt a) * (sqrt a' + sqrt a)).
  { rewrite <- (Rabs_right (sqrt a' + sqrt a)) by lra. rewrite <- Rabs_mult. f_equal.
    transitivity (sqrt a' * sqrt a' - sqrt a * sqrt a); [rewrite !sqrt_sqrt by lra; reflexivity|ring]. }
  rewrite E in H. rewrite <- (sqrt_sqrt a) in H at 3 by lra. pose proof (Rabs_pos (sqrt a' - sqrt a)) as P.
  apply Rmult_le_reg_r with (sqrt a); [exact S|]. nra.
Qed.
Lemma root_close c len : 0 < c -> (0 < len)%nat -> fac (1 + root_error v) (@f_sqrt _ _ N (f_div c (f_of_nat len))) (sqrt (c / INR len)).
Proof.
  intros Hc Hl. assert (L : 1 <= INR len) by (apply inr_pos, Hl).
  pose proof (r_f_of_nat _ _ _ HN len) as R1. assert (Lp : 0 < f_of_nat len) by (apply (rel_pos _ (INR len)); [lra|exact R1]).
  pose proof (r_f_div _ _ _ HN c (f_of_nat len) (Rgt_not_eq _ _ Lp)) as R2.
  assert (Q0 : 0 < c / f_of_nat len) by (apply Rdiv_lt_0_compat; assumption).
  assert (Q : 0 < f_div c (f_of_nat len)) by (apply (rel_pos _ _ Q0 R2)).
  assert (C : 0 < c / INR len) by (apply Rdiv_lt_0_compat; lra).
  assert (I1 : 1 <= / (1 - v)) by (rewrite <- Rinv_1 at 1; apply Rinv_le_contravar; lra).
  assert (F : fac ((1 + v) * / (1 - v)) (f_div c (f_of_nat len)) (c / INR len)).
  { eapply fac_trans; [lra|exact I1|apply fac_rel; exact R2|]. assert (L0 : INR len <> 0) by lra. destruct (fac_inv v _ _ Hv L0 R1) as [_ I].
    rewrite <- (Rmult_1_l (/ (1 - v))). unfold Rdiv. apply fac_mul; [lra|exact I1|apply fac_refl; lra|exact I]. }
  unfold root_error. replace (1 + ((1 + v) * ((1 + v) * / (1 - v)) - 1)) with ((1 + v) * ((1 + v) * / (1 - v))) by ring.
  eapply fac_trans; [lra|nra|apply fac_rel, (r_f_sqrt _ _ _ HN); lra|]. apply fac_sqrt; [nra|exact C|exact Q|exact F].
Qed.
Lemma root_error_ge0 : 0 <= root_error v.
Proof. assert (I1 : 1 <= / (1 - v)) by (rewrite <- Rinv_1 at 1; apply Rinv_le_contravar; lra). unfold root_error. nra. Qed.
Lemma scaled_close s' s r' r err : 0 <= err -> Rabs s <= 1 -> 0 <= r -> Rabs (s' - s) <= err -> fac (1 + root_error v) r' r ->
  Rabs (@from_f64 _ _ N (f_mul s' r') - s * r) <= ((1 + u) * ((1 + v) * (1 + err) * (1 + root_error v)) - 1) * r.
Proof.
  intros He Hs Hr Hd F. pose proof root_error_ge0 as G. set (g := root_error v) in * .
  pose proof (fac_abs _ _ _ F) as Fb. unfold fac in F. rewrite (Rabs_right r) in * by lra. replace (1 + g - 1) with g in F by ring.
  assert (B : Rabs s' <= 1 + err) by (pose proof (Rabs_triang (s' - s) s) as T; replace (s' - s + s) with s' in T by ring; lra).
  pose proof (r_f_mul _ _ _ HN s' r') as M. unfold rel in M. rewrite Rabs_mult in M.
  assert (P1 : Rabs s' * Rabs r' <= (1 + err) * ((1 + g) * r)) by (apply Rmult_le_compat; try apply Rabs_pos; assumption).
  assert (P2 : v * (Rabs s' * Rabs r') <= v * ((1 + err) * ((1 + g) * r))) by (apply Rmult_le_compat_l; [lra|exact P1]).
  assert (P3 : Rabs (s' * r' - s * r) <= err * ((1 + g) * r) + 1 * (g * r)).
  { replace (s' * r' - s * r) with ((s' - s) * r' + s * (r' - r)) by ring. eapply Rle_trans; [apply Rabs_triang|]. rewrite !Rabs_mult.
    apply Rplus_le_compat; apply Rmult_le_compat; try apply Rabs_pos; assumption. }
  pose proof (Rabs_triang (f_mul s' r' - s' * r') (s' * r' - s * r)) as T. replace (f_mul s' r' - s' * r' + (s' * r' - s * r)) with (f_mul s' r' - s * r) in T by ring.
  assert (Bs : Rabs (s * r) <= r) by (rewrite Rabs_mult, (Rabs_right r) by lra; nra).
  eapply Rle_trans; [apply (conv _ (s * r) r (((1 + v) * (1 + err) * (1 + g) - 1) * r) Bs)|]; [|right; ring].
  lra.
Qed.

Lemma entries_map (f g : nat -> R) L err : (forall i, (i < L)%nat -> Rabs (f i - g i) <= err) -> entries_within err (map f (seq 0 L)) (map g (seq 0 L)).
Proof.
  intros H. split; [rewrite !map_length; reflexivity|]. rewrite map_length, seq_length. intros k Hk. rewrite !nth_map_seq by exact Hk. apply H, Hk.
Qed.

Lemma mp3_close n : entries_within ((1 + u) * (1 + sine_error v) - 1) (window_mp3 (N := N) n) (window_mp3 (N := NumR) n).
Proof. apply entries_map. intros i Hi. apply conv; [apply sin_le1|apply sine_close, Hi]. Qed.
Lemma vorbis_win_close n : entries_within ((1 + u) * (1 + vorbis_error v) - 1) (window_vorbis (N := N) n) (window_vorbis (N := NumR) n).
Proof. apply entries_map. intros i Hi. apply conv; [apply sin_le1|]. apply vorbis_close; [apply sine_close, Hi|apply sin_le1]. Qed.
Lemma one_close n : entries_within 0 (window_one (N := N) n) (window_one (N := NumR) n).
Proof. apply entries_map. intros i Hi. rewrite (r_one _ _ _ HN). change (@one R R NumR) with 1. replace (1 - 1) with 0 by ring. rewrite Rabs_R0. lra. Qed.
Lemma vorbis_error_ge0 : 0 <= vorbis_error v.
Proof.
  unfold vorbis_error. pose proof sine_error_ge0. pose proof PI_RGT_0. assert (1 <= (1 + v) ^ 4) by (apply pow_R1_Rle; lra).
  assert (1 <= (1 + sine_error v) ^ 2) by (apply pow_R1_Rle; lra).
  assert (0 <= PI / 2 * ((1 + v) ^ 4 * (1 + sine_error v) ^ 2 - 1)) by (apply Rmult_le_pos; [lra|nra]). lra.
Qed.
Lemma mp3_inv_close n : entries_within (((1 + u) * ((1 + v) * (1 + sine_error v) * (1 + root_error v)) - 1) * sqrt (4 / INR n))
  (window_mp3_invertible (N := N) n) (window_mp3_invertible (N := NumR) n).
Proof.
  apply entries_map. intros i Hi. apply scaled_close; [apply sine_error_ge0|apply sin_le1|apply sqrt_pos|apply sine_close, Hi|].
  rewrite (r_f_four _ _ _ HN). apply root_close; [lra|lia].
Qed.
Lemma vorbis_inv_close n : entries_within (((1 + u) * ((1 + v) * (1 + vorbis_error v) * (1 + root_error v)) - 1) * sqrt (4 / INR n))
  (window_vorbis_invertible (N := N) n) (window_vorbis_invertible (N := NumR) n).
Proof.
  apply entries_map. intros i Hi. apply scaled_close; [apply vorbis_error_ge0|apply sin_le1|apply sqrt_pos| |].
  - apply vorbis_close; [apply sine_close, Hi|apply sin_le1].
  - rewrite (r_f_four _ _ _ HN). apply root_close; [lra|lia].
Qed.
Lemma inv_close n : entries_within (((1 + u) * (1 + root_error v) - 1) * sqrt (2 / INR n)) (window_invertible (N := N) n) (window_invertible (N := NumR) n).
Proof.
  apply entries_map. intros i Hi. change (@from_f64 R R NumR (@f_sqrt R R NumR (f_div f_two (f_of_nat n)))) with (sqrt (2 / INR n)).
  assert (F : fac ((1 + u) * (1 + root_error v)) (from_f64 (f_sqrt (f_div f_two (f_of_nat n)))) (sqrt (2 / INR n))).
  { pose proof root_error_ge0. eapply fac_trans; [lra|lra|apply fac_rel, (r_from_f64 _ _ _ HN)|]. rewrite (r_f_two _ _ _ HN). apply root_close; [lra|lia]. }
  unfold fac in F. rewrite (Rabs_right (sqrt (2 / INR n))) in F by (apply Rle_ge, sqrt_pos). exact F.
Qed.
End Windows.
