(** The binary64 literals for pi and one over the square root of two are accurate. *)
From Coq Require Import Reals ZArith QArith Qreals Ratan AltSeries Lia Lra.
Open Scope R_scope.

Definition qterm (n : nat) : Q := Qmake ((-1) ^ Z.of_nat n * (2 * 7 ^ (2 * Z.of_nat n + 1) + 3 ^ (2 * Z.of_nat n + 1))) (Z.to_pos (21 ^ (2 * Z.of_nat n + 1) * (2 * Z.of_nat n + 1))).
Fixpoint qsum (n : nat) : Q := match n with O => qterm 0 | S m => Qred (qsum m + qterm n) end.
Lemma pow_IZR_nat z (n : nat) : IZR z ^ n = IZR (z ^ Z.of_nat n). Proof. apply pow_IZR. Qed.
Lemma qterm_ok n : tg_alt PI_2_3_7_tg n = Q2R (qterm n).
Proof.
  unfold tg_alt, PI_2_3_7_tg, Ratan_seq, Q2R, qterm. cbn [Qnum Qden].
  assert (P : (0 < 21 ^ (2 * Z.of_nat n + 1) * (2 * Z.of_nat n + 1))%Z) by (apply Z.mul_pos_pos; [apply Z.pow_pos_nonneg; lia|lia]).
  rewrite Z2Pos.id by exact P. rewrite !mult_IZR, plus_IZR, mult_IZR.
  replace (2 * Z.of_nat n + 1)%Z with (Z.of_nat (2 * n + 1)) by lia. rewrite <- !pow_IZR_nat, <- INR_IZR_INZ.
  assert (0 < INR (2 * n + 1)) by (apply lt_0_INR; lia).
  replace 21 with (3 * 7) by lra. rewrite Rpow_mult_distr, !pow_inv. field. repeat split; try apply pow_nonzero; lra.
Qed.
Lemma qsum_ok n : sum_f_R0 (tg_alt PI_2_3_7_tg) n = Q2R (qsum n).
Proof.
  induction n as [|n IH]; [apply qterm_ok|]. cbn [sum_f_R0 qsum]. rewrite IH, qterm_ok, <- Q2R_plus. apply Qeq_eqR. symmetry. apply Qred_correct.
Qed.
(** pi is within 2^-52 of the literal 0x400921FB54442D18. *)
Lemma pi_literal : Rabs (IZR 7074237752028440 * / 2 ^ 51 - PI) <= / 2 ^ 52.
Proof.
  destruct (PI_2_3_7_ineq 8) as [L H]. change (2 * 8)%nat with 16%nat in * . rewrite qsum_ok in L, H.
  assert (L' : Q2R (Qmake (2 * 7074237752028440 - 1) (4 * 2 ^ 52)) <= Q2R (qsum 17)) by (apply Qle_Rle; vm_compute; discriminate).
  assert (H' : Q2R (qsum 16) <= Q2R (Qmake (2 * 7074237752028440 + 1) (4 * 2 ^ 52))) by (apply Qle_Rle; vm_compute; discriminate).
  set (l := Q2R (qsum 17)) in * . set (h := Q2R (qsum 16)) in * . clearbody l h. unfold Q2R in L', H'. cbn [Qnum Qden] in L', H'.
  assert (P : 0 < 2 ^ 51) by (apply pow_lt; lra). replace (2 ^ 52) with (2 * 2 ^ 51) by (change 52%nat with (1 + 51)%nat; rewrite pow_add, pow_1; ring).
  assert (D : IZR (Zpos (4 * 2 ^ 52)) = 8 * 2 ^ 51).
  { rewrite pow_IZR, <- mult_IZR. reflexivity. }
  rewrite D in L', H'. assert (I : 8 * 2 ^ 51 * / (8 * 2 ^ 51) = 1) by (field; lra).
  assert (E : / (8 * 2 ^ 51) = / 8 * / 2 ^ 51) by (field; lra). rewrite E in L', H'. rewrite Rinv_mult. set (e := / 2 ^ 51) in * .
  assert (S1 : IZR (2 * 7074237752028440 - 1) = 2 * IZR 7074237752028440 - 1) by (rewrite minus_IZR, mult_IZR; reflexivity).
  assert (S2 : IZR (2 * 7074237752028440 + 1) = 2 * IZR 7074237752028440 + 1) by (rewrite plus_IZR, mult_IZR; reflexivity).
  rewrite S1 in L'. rewrite S2 in H'. set (z := IZR 7074237752028440) in * . clearbody z e. apply Rabs_le. unfold Rdiv in * . split; lra.
Qed.
(** One over the square root of two is within 2^-53 of its literal. *)
Lemma frac_literal : Rabs (IZR 6369051672525773 * / 2 ^ 53 - / sqrt 2) <= / 2 ^ 53.
Proof.
  set (a := IZR 6369051672525773). assert (P : 0 < 2 ^ 53) by (apply pow_lt; lra). pose proof (Rlt_sqrt2_0) as S0. pose proof (sqrt_sqrt 2 ltac:(lra)) as SS.
  set (r := / sqrt 2). assert (R0 : 0 < r) by (apply Rinv_0_lt_compat; exact S0). assert (Q : r * sqrt 2 = 1) by (apply Rinv_l; lra).
  assert (RR : r * r * 2 = 1) by (transitivity (r * sqrt 2 * (r * sqrt 2)); [replace (r * sqrt 2 * (r * sqrt 2)) with (r * r * (sqrt 2 * sqrt 2)) by ring; rewrite SS; reflexivity|rewrite Q; ring]).
  assert (N1 : (a - 1) * (a - 1) * 2 <= 2 ^ 53 * 2 ^ 53 <= (a + 1) * (a + 1) * 2).
  { unfold a. rewrite pow_IZR, <- plus_IZR, <- minus_IZR, <- !mult_IZR. split; apply IZR_le; vm_compute; discriminate. }
  assert (A1 : 1 <= a) by (unfold a; apply IZR_le; lia). set (w := 2 ^ 53) in * . clearbody a w.
  assert (X : a - 1 <= r * w <= a + 1).
  { split; apply Rnot_lt_le; intros C.
    - assert (r * w * (r * w) < (a - 1) * (a - 1)) by (apply Rmult_le_0_lt_compat; try assumption; apply Rmult_le_pos; lra).
      replace (r * w * (r * w)) with (r * r * 2 * (w * w) / 2) in H by field. rewrite RR in H. lra.
    - assert ((a + 1) * (a + 1) < r * w * (r * w)) by (apply Rmult_le_0_lt_compat; lra).
      replace (r * w * (r * w)) with (r * r * 2 * (w * w) / 2) in H by field. rewrite RR in H. lra. }
  replace (a * / w - r) with ((a - r * w) * / w) by (field; lra). rewrite Rabs_mult, (Rabs_right (/ w)) by (left; apply Rinv_0_lt_compat; exact P).
  rewrite <- (Rmult_1_l (/ w)) at 2. apply Rmult_le_compat_r; [left; apply Rinv_0_lt_compat; exact P|]. apply Rabs_le. lra.
Qed.
