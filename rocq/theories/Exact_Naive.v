(** Over the reals, the naive algorithms compute the reference transforms. *)
From Coq Require Import Reals ZArith List Arith Lia Lra.
From Verif Require Import Prog Num Model_Common Model_Naive Wp Sem_Naive Spec Trig.
Import ListNotations.
Open Scope R_scope.

(** Inner loops as sums. *)
Lemma accum_add (x w : nat -> R) acc lo cnt :
  accum op_add x w acc lo cnt = acc + sum (fun i => x (lo + i)%nat * w (lo + i)%nat) cnt.
Proof. induction cnt; simpl; [lra|]. rewrite IHcnt. unfold op_add. simpl. lra. Qed.
Lemma accum_add_re (x : nat -> R) (w : nat -> R * R) acc lo cnt :
  accum op_add_re x w acc lo cnt = acc + sum (fun i => x (lo + i)%nat * fst (w (lo + i)%nat)) cnt.
Proof. induction cnt; simpl; [lra|]. rewrite IHcnt. unfold op_add_re. simpl. lra. Qed.
Lemma accum_sub_im (x : nat -> R) (w : nat -> R * R) acc lo cnt :
  accum op_sub_im x w acc lo cnt = acc + sum (fun i => x (lo + i)%nat * - snd (w (lo + i)%nat)) cnt.
Proof. induction cnt; simpl; [lra|]. rewrite IHcnt. unfold op_sub_im. simpl. lra. Qed.
Lemma sum_from_zero_R (x : nat -> R) n : sum_from_zero x n = sum x n.
Proof. induction n; [reflexivity|]. cbn [sum]. rewrite <- IHn. reflexivity. Qed.

(** Reduction of the table index modulo the table length. *)
Lemma INR_mod a L : (L <> 0)%nat -> INR (a mod L) = INR a - INR L * INR (a / L).
Proof.
  intros HL. rewrite (Nat.div_mod a L HL) at 2. rewrite plus_INR, mult_INR. lra.
Qed.

Lemma cos_tw L a off A B : (L <> 0)%nat ->
  A = 2 * PI * (INR (a mod L) + off) / INR L ->
  B = 2 * PI * (INR a + off) / INR L -> cos A = cos B.
Proof.
  intros HL -> ->. rewrite INR_mod by exact HL.
  rewrite <- (cos_2kpi (2 * PI * (INR a + off) / INR L) (- Z.of_nat (a / L))).
  f_equal. rewrite opp_IZR, <- INR_IZR_INZ. field. apply not_0_INR. exact HL.
Qed.
Lemma sin_tw L a off A B : (L <> 0)%nat ->
  A = 2 * PI * (INR (a mod L) + off) / INR L ->
  B = 2 * PI * (INR a + off) / INR L -> sin A = sin B.
Proof.
  intros HL -> ->. rewrite INR_mod by exact HL.
  rewrite <- (sin_2kpi (2 * PI * (INR a + off) / INR L) (- Z.of_nat (a / L))).
  f_equal. rewrite opp_IZR, <- INR_IZR_INZ. field. apply not_0_INR. exact HL.
Qed.
(** [single_twiddle] uses negative angles. *)
Lemma cos_tw_neg L a off A B : (L <> 0)%nat ->
  A = - (2 * PI * (INR (a mod L) + off) / INR L) ->
  B = 2 * PI * (INR a + off) / INR L -> cos A = cos B.
Proof. intros HL HA HB. rewrite HA, cos_neg. eapply cos_tw; eauto. Qed.
Lemma sin_tw_neg L a off A B : (L <> 0)%nat ->
  A = - (2 * PI * (INR (a mod L) + off) / INR L) ->
  B = 2 * PI * (INR a + off) / INR L -> - sin A = sin B.
Proof. intros HL HA HB. rewrite HA, sin_neg, Ropp_involutive. eapply sin_tw; eauto. Qed.

(** A looked-up table entry. *)
Lemma tw_at_map {X} (f : nat -> X) L d start stride lo i : (L <> 0)%nat ->
  tw_at (map f (seq 0 L)) d start stride lo i = f ((start + (i - lo) * stride) mod L)%nat.
Proof.
  intros HL. unfold tw_at. rewrite map_length, seq_length.
  apply nth_map_seq. apply Nat.mod_upper_bound. exact HL.
Qed.

Ltac inr := repeat first
  [ rewrite plus_INR | rewrite mult_INR | rewrite minus_INR by lia | rewrite S_INR ];
  simpl INR.
Ltac pos_inr n :=
  assert (1 <= INR n) by (replace 1 with (INR 1) by reflexivity; apply le_INR; lia).

(** Constructors that can fail: their result, when they succeed. *)
Lemma Dct1Naive_new_ok len : (2 <= len)%nat ->
  Dct1Naive_new (T:=R) (F:=R) len =
  Ok (mkDct1Naive (map (fun i => cos (PI / INR (len - 1) * INR i)) (seq 0 ((len - 1) * 2)))).
Proof.
  intros H. unfold Dct1Naive_new, rassert, rsub.
  destruct (Nat.eqb_spec len 1); [lia|]. destruct (Nat.leb_spec 1 len); [|lia]. reflexivity.
Qed.
Lemma Dct5Naive_new_ok len : (1 <= len)%nat ->
  Dct5Naive_new (T:=R) (F:=R) len =
  Ok (mkDct5Naive (map (fun i => cos (PI / (INR len - / 2) * INR i)) (seq 0 (len * 2 - 1)))).
Proof.
  intros H. unfold Dct5Naive_new, rsub. destruct (Nat.leb_spec 1 (len * 2)); [|lia]. reflexivity.
Qed.
Lemma Dct6And7Naive_new_ok len : (1 <= len)%nat ->
  Dct6And7Naive_new (T:=R) (F:=R) len =
  Ok (mkC67Naive (map (fun i => cos (PI / INR (len * 2 - 1) * INR i)) (seq 0 (len * 4 - 2)))).
Proof.
  intros H. unfold Dct6And7Naive_new, rsub. destruct (Nat.leb_spec 1 (len * 2)); [|lia].
  cbn [rbind]. destruct (Nat.leb_spec 2 (len * 4)); [|lia]. reflexivity.
Qed.
Lemma Dst8Naive_new_ok len : (1 <= len)%nat ->
  Dst8Naive_new (T:=R) (F:=R) len =
  Ok (mkDst8Naive (map (fun i => sin (PI / INR (len * 2 - 1) * (INR i + / 2))) (seq 0 (len * 4 - 2)))).
Proof.
  intros H. unfold Dst8Naive_new, rsub. destruct (Nat.leb_spec 1 (len * 2)); [|lia].
  cbn [rbind]. destruct (Nat.leb_spec 2 (len * 4)); [|lia]. reflexivity.
Qed.

Section S.
Variable x : list R.
Let n := length x.

Ltac lookup := cbn [dst1n_tw Dst1Naive_new t23n_tw Type2And3Naive_new t4n_tw Type4Naive_new
    dst5n_tw Dst5Naive_new s67n_tw Dst6And7Naive_new dct8n_tw Dct8Naive_new];
  rewrite tw_at_map by lia; cbn [fst snd single_twiddle single_twiddle_halfoffset
   from_polar from_f64 NumR f_mul f_one f_cos f_sin f_pi f_div f_neg f_two f_of_nat f_add f_half f_sub];
  rewrite ?Rmult_1_l.
Lemma half_at_when j i : half_at j (at_ x) i = nth i x 0 * half_when (i =? j)%nat.
Proof.
  unfold half_at, half_when, at_. destruct (i =? j)%nat; simpl; lra.
Qed.

Lemma dst1_naive_exact k : (k < n)%nat ->
  sem_dst1_naive (dst1n_tw (Dst1Naive_new n)) x k = dst1_at x k.
Proof.
  intros Hk. unfold sem_dst1_naive, dst1_at. fold n. rewrite accum_add.
  change (@zero R R NumR) with 0. rewrite Rplus_0_l. apply sum_ext. intros i Hi. simpl (0 + i)%nat.
  f_equal. lookup. pos_inr n.
  apply (sin_tw ((n + 1) * 2) (k + 1 + (i - 0) * (k + 1)) (0)); [lia| |]; inr; try field; lra.
Qed.

Lemma dct2_naive_exact k : (k < n)%nat ->
  sem_dct2_naive (t23n_tw (Type2And3Naive_new n)) x k = dct2_at x k.
Proof.
  intros Hk. unfold sem_dct2_naive, dct2_at. fold n. rewrite accum_add_re.
  change (@zero R R NumR) with 0. rewrite Rplus_0_l. apply sum_ext. intros i Hi. simpl (0 + i)%nat.
  f_equal. lookup. pos_inr n.
  apply (cos_tw_neg (n * 4) (k + (i - 0) * (k * 2)) (0)); [lia| |]; inr; try field; lra.
Qed.

Lemma dst2_naive_exact k : (k < n)%nat ->
  sem_dst2_naive (t23n_tw (Type2And3Naive_new n)) x k = dst2_at x k.
Proof.
  intros Hk. unfold sem_dst2_naive, dst2_at. fold n. rewrite accum_sub_im.
  change (@zero R R NumR) with 0. rewrite Rplus_0_l. apply sum_ext. intros i Hi. simpl (0 + i)%nat.
  f_equal. lookup. pos_inr n.
  apply (sin_tw_neg (n * 4) (k + 1 + (i - 0) * ((k + 1) * 2)) (0)); [lia| |]; inr; try field; lra.
Qed.

Lemma dst3_naive_exact k : (k < n)%nat ->
  sem_dst3_naive (t23n_tw (Type2And3Naive_new n)) x k = dst3_at x k.
Proof.
  intros Hk. unfold sem_dst3_naive, dst3_at. fold n. rewrite accum_sub_im.
  change (@zero R R NumR) with 0. rewrite Rplus_0_l. apply sum_ext. intros i Hi. simpl (0 + i)%nat.
  f_equal; [apply half_at_when|]. lookup. pos_inr n.
  apply (sin_tw_neg (n * 4) (k * 2 + 1 + (i - 0) * (k * 2 + 1)) (0)); [lia| |]; inr; try field; lra.
Qed.

Lemma dct4_naive_exact k : (k < n)%nat ->
  sem_dct4_naive (t4n_tw (Type4Naive_new n)) x k = dct4_at x k.
Proof.
  intros Hk. unfold sem_dct4_naive, dct4_at. fold n. rewrite accum_add_re.
  change (@zero R R NumR) with 0. rewrite Rplus_0_l. apply sum_ext. intros i Hi. simpl (0 + i)%nat.
  f_equal. lookup. pos_inr n.
  apply (cos_tw_neg (n * 4) (k + (i - 0) * (k * 2 + 1)) (/ 2)); [lia| |]; inr; try field; lra.
Qed.

Lemma dst4_naive_exact k : (k < n)%nat ->
  sem_dst4_naive (t4n_tw (Type4Naive_new n)) x k = dst4_at x k.
Proof.
  intros Hk. unfold sem_dst4_naive, dst4_at. fold n. rewrite accum_sub_im.
  change (@zero R R NumR) with 0. rewrite Rplus_0_l. apply sum_ext. intros i Hi. simpl (0 + i)%nat.
  f_equal. lookup. pos_inr n.
  apply (sin_tw_neg (n * 4) (k + (i - 0) * (k * 2 + 1)) (/ 2)); [lia| |]; inr; try field; lra.
Qed.

Lemma dst5_naive_exact k : (k < n)%nat ->
  sem_dst5_naive (dst5n_tw (Dst5Naive_new n)) x k = dst5_at x k.
Proof.
  intros Hk. unfold sem_dst5_naive, dst5_at. fold n. rewrite accum_add.
  change (@zero R R NumR) with 0. rewrite Rplus_0_l. apply sum_ext. intros i Hi. simpl (0 + i)%nat.
  f_equal. lookup. pos_inr n.
  apply (sin_tw (n * 2 + 1) (k + 1 + (i - 0) * (k + 1)) (0)); [lia| |]; inr; try field; lra.
Qed.

Lemma dst6_naive_exact k : (k < n)%nat ->
  sem_dst6_naive (s67n_tw (Dst6And7Naive_new n)) x k = dst6_at x k.
Proof.
  intros Hk. unfold sem_dst6_naive, dst6_at. fold n. rewrite accum_add.
  change (@zero R R NumR) with 0. rewrite Rplus_0_l. apply sum_ext. intros i Hi. simpl (0 + i)%nat.
  f_equal. lookup. pos_inr n.
  apply (sin_tw (n * 4 + 2) (k + 1 + (i - 0) * ((k + 1) * 2)) (0)); [lia| |]; inr; try field; lra.
Qed.

Lemma dst7_naive_exact k : (k < n)%nat ->
  sem_dst7_naive (s67n_tw (Dst6And7Naive_new n)) x k = dst7_at x k.
Proof.
  intros Hk. unfold sem_dst7_naive, dst7_at. fold n. rewrite accum_add.
  change (@zero R R NumR) with 0. rewrite Rplus_0_l. apply sum_ext. intros i Hi. simpl (0 + i)%nat.
  f_equal. lookup. pos_inr n.
  apply (sin_tw (n * 4 + 2) (k * 2 + 1 + (i - 0) * (k * 2 + 1)) (0)); [lia| |]; inr; try field; lra.
Qed.

Lemma dct8_naive_exact k : (k < n)%nat ->
  sem_dct8_naive (dct8n_tw (Dct8Naive_new n)) x k = dct8_at x k.
Proof.
  intros Hk. unfold sem_dct8_naive, dct8_at. fold n. rewrite accum_add.
  change (@zero R R NumR) with 0. rewrite Rplus_0_l. apply sum_ext. intros i Hi. simpl (0 + i)%nat.
  f_equal. lookup. pos_inr n.
  apply (cos_tw (n * 4 + 2) (k + (i - 0) * (k * 2 + 1)) (/ 2)); [lia| |]; inr; try field; lra.
Qed.

Lemma dst8_naive_exact k : (k < n)%nat ->
  sem_dst8_naive (map (fun i => sin (PI / INR (n * 2 - 1) * (INR i + / 2))) (seq 0 (n * 4 - 2))) x k = dst8_at x k.
Proof.
  intros Hk. unfold sem_dst8_naive, dst8_at. fold n. rewrite accum_add.
  change (@zero R R NumR) with 0. rewrite Rplus_0_l. apply sum_ext. intros i Hi. simpl (0 + i)%nat.
  f_equal; [apply half_at_when|]. lookup. pos_inr n.
  apply (sin_tw (n * 4 - 2) (k + (i - 0) * (k * 2 + 1)) (/ 2)); [lia| |]; inr; try field; lra.
Qed.

Lemma zero_angle a b : cos (a * INR 0 / b) = 1.
Proof. replace (a * INR 0 / b) with 0 by (simpl; unfold Rdiv; ring). apply cos_0. Qed.

Definition dct1_tw := map (fun i => cos (PI / INR (n - 1) * INR i)) (seq 0 ((n - 1) * 2)).
Definition dct5_tw := map (fun i => cos (PI / (INR n - / 2) * INR i)) (seq 0 (n * 2 - 1)).
Definition c67_tw := map (fun i => cos (PI / INR (n * 2 - 1) * INR i)) (seq 0 (n * 4 - 2)).

Lemma dct1_naive_exact k : (2 <= n)%nat -> (k < n)%nat ->
  sem_dct1_naive dct1_tw x k = dct1_at x k.
Proof.
  intros Hn Hk. unfold sem_dct1_naive, dct1_at, dct1_tw. fold n. rewrite accum_add.
  match goal with |- _ = sum ?f n => replace (sum f n) with (sum f (S (n - 1))) by (f_equal; lia) end.
  rewrite sum_S_l. f_equal.
  - rewrite zero_angle. unfold at_, half_when, half; simpl; lra.
  - apply sum_ext. intros i Hi. change (1 + i)%nat with (S i). f_equal.
    + rewrite half_at_when. reflexivity.
    + lookup.
      assert (0 < INR n - 1) by (replace 1 with (INR 1) by reflexivity;
        assert (INR 1 < INR n) by (apply lt_INR; lia); lra).
      apply (cos_tw ((n - 1) * 2) (k + (S i - 1) * k) 0); [lia| |]; inr; try field; lra.
Qed.

Lemma dct3_naive_exact k : (1 <= n)%nat -> (k < n)%nat ->
  sem_dct3_naive (t23n_tw (Type2And3Naive_new n)) x k = dct3_at x k.
Proof.
  intros Hn Hk. unfold sem_dct3_naive, dct3_at. fold n. rewrite accum_add_re.
  match goal with |- _ = sum ?f n => replace (sum f n) with (sum f (S (n - 1))) by (f_equal; lia) end.
  rewrite sum_S_l. f_equal.
  - rewrite zero_angle. unfold at_, half_when, half; simpl; lra.
  - apply sum_ext. intros i Hi. change (1 + i)%nat with (S i). f_equal.
    + unfold at_, half_when. simpl. lra.
    + lookup. pos_inr n.
      apply (cos_tw_neg (n * 4) (k * 2 + 1 + (S i - 1) * (k * 2 + 1)) 0); [lia| |]; inr; try field; lra.
Qed.

Lemma dct5_naive_exact k : (1 <= n)%nat -> (k < n)%nat ->
  sem_dct5_naive dct5_tw x k = dct5_at x k.
Proof.
  intros Hn Hk. unfold sem_dct5_naive, dct5_at, dct5_tw. fold n.
  destruct (Nat.eqb_spec k 0) as [->|Hk0].
  { rewrite sum_from_zero_R. apply sum_ext. intros i Hi. rewrite half_at_when.
    replace (PI * INR 0 * INR i / (INR n - / 2)) with 0 by (simpl; unfold Rdiv; ring).
    rewrite cos_0. lra. }
  rewrite accum_add.
  match goal with |- _ = sum ?f n => replace (sum f n) with (sum f (S (n - 1))) by (f_equal; lia) end.
  rewrite sum_S_l. f_equal.
  - rewrite zero_angle. unfold at_, half_when, half; simpl; lra.
  - apply sum_ext. intros i Hi. change (1 + i)%nat with (S i). f_equal.
    + unfold at_, half_when. simpl. lra.
    + lookup. pos_inr n.
      apply (cos_tw (n * 2 - 1) (k + (S i - 1) * k) 0); [lia| |]; inr; try field; lra.
Qed.

Lemma dct6_naive_exact k : (1 <= n)%nat -> (k < n)%nat ->
  sem_dct6_naive c67_tw x k = dct6_at x k.
Proof.
  intros Hn Hk. unfold sem_dct6_naive, dct6_at, c67_tw. fold n.
  destruct (Nat.eqb_spec k 0) as [->|Hk0].
  { rewrite sum_from_zero_R. apply sum_ext. intros i Hi. rewrite half_at_when.
    replace (PI * INR 0 * (INR i + / 2) / (INR n - / 2)) with 0 by (simpl; unfold Rdiv; ring).
    rewrite cos_0. lra. }
  rewrite accum_add. change (@zero R R NumR) with 0. rewrite Rplus_0_l.
  apply sum_ext. intros i Hi. simpl (0 + i)%nat.
  f_equal; [apply half_at_when|]. lookup. pos_inr n.
  apply (cos_tw (n * 4 - 2) (k + (i - 0) * (k * 2)) 0); [lia| |]; inr; try field; lra.
Qed.

Lemma dct7_naive_exact k : (1 <= n)%nat -> (k < n)%nat ->
  sem_dct7_naive c67_tw x k = dct7_at x k.
Proof.
  intros Hn Hk. unfold sem_dct7_naive, dct7_at, c67_tw. fold n. rewrite accum_add.
  match goal with |- _ = sum ?f n => replace (sum f n) with (sum f (S (n - 1))) by (f_equal; lia) end.
  rewrite sum_S_l. f_equal.
  - rewrite zero_angle. unfold at_, half_when, half; simpl; lra.
  - apply sum_ext. intros i Hi. change (1 + i)%nat with (S i). f_equal.
    + unfold at_, half_when. simpl. lra.
    + lookup. pos_inr n.
      apply (cos_tw (n * 4 - 2) (k * 2 + 1 + (S i - 1) * (k * 2 + 1)) 0); [lia| |]; inr; try field; lra.
Qed.

End S.

(** Correctness of each naive method as built by its constructor. *)

Lemma dst1_naive_computes n : 
  computes (Dst1Naive_dst1 (Dst1Naive_new n)) n n dst1_at.
Proof.
  intros. eapply computes_ext; [apply sem_dst1_naive_ok; rewrite map_length, seq_length; reflexivity|].
  intros x k Hx Hk. subst n. apply dst1_naive_exact; assumption.
Qed.

Lemma dct2_naive_computes n : 
  computes (Type2And3Naive_dct2 (Type2And3Naive_new n)) n n dct2_at.
Proof.
  intros. eapply computes_ext; [apply sem_dct2_naive_ok; rewrite map_length, seq_length; reflexivity|].
  intros x k Hx Hk. subst n. apply dct2_naive_exact; assumption.
Qed.

Lemma dst2_naive_computes n : 
  computes (Type2And3Naive_dst2 (Type2And3Naive_new n)) n n dst2_at.
Proof.
  intros. eapply computes_ext; [apply sem_dst2_naive_ok; rewrite map_length, seq_length; reflexivity|].
  intros x k Hx Hk. subst n. apply dst2_naive_exact; assumption.
Qed.

Lemma dct3_naive_computes n : (1 <= n)%nat -> 
  computes (Type2And3Naive_dct3 (Type2And3Naive_new n)) n n dct3_at.
Proof.
  intros Hn. eapply computes_ext; [apply sem_dct3_naive_ok; [lia|]; rewrite map_length, seq_length; reflexivity|].
  intros x k Hx Hk. subst n. apply dct3_naive_exact; assumption.
Qed.

Lemma dct4_naive_computes n : 
  computes (Type4Naive_dct4 (Type4Naive_new n)) n n dct4_at.
Proof.
  intros. eapply computes_ext; [apply sem_dct4_naive_ok; rewrite map_length, seq_length; reflexivity|].
  intros x k Hx Hk. subst n. apply dct4_naive_exact; assumption.
Qed.

Lemma dst4_naive_computes n : 
  computes (Type4Naive_dst4 (Type4Naive_new n)) n n dst4_at.
Proof.
  intros. eapply computes_ext; [apply sem_dst4_naive_ok; rewrite map_length, seq_length; reflexivity|].
  intros x k Hx Hk. subst n. apply dst4_naive_exact; assumption.
Qed.

Lemma dst5_naive_computes n : 
  computes (Dst5Naive_dst5 (Dst5Naive_new n)) n n dst5_at.
Proof.
  intros. eapply computes_ext; [apply sem_dst5_naive_ok; rewrite map_length, seq_length; reflexivity|].
  intros x k Hx Hk. subst n. apply dst5_naive_exact; assumption.
Qed.

Lemma dst6_naive_computes n : 
  computes (Dst6And7Naive_dst6 (Dst6And7Naive_new n)) n n dst6_at.
Proof.
  intros. eapply computes_ext; [apply sem_dst6_naive_ok; rewrite map_length, seq_length; reflexivity|].
  intros x k Hx Hk. subst n. apply dst6_naive_exact; assumption.
Qed.

Lemma dst7_naive_computes n : 
  computes (Dst6And7Naive_dst7 (Dst6And7Naive_new n)) n n dst7_at.
Proof.
  intros. eapply computes_ext; [apply sem_dst7_naive_ok; rewrite map_length, seq_length; reflexivity|].
  intros x k Hx Hk. subst n. apply dst7_naive_exact; assumption.
Qed.

Lemma dct8_naive_computes n : 
  computes (Dct8Naive_dct8 (Dct8Naive_new n)) n n dct8_at.
Proof.
  intros. eapply computes_ext; [apply sem_dct8_naive_ok; rewrite map_length, seq_length; reflexivity|].
  intros x k Hx Hk. subst n. apply dct8_naive_exact; assumption.
Qed.

Lemma dst3_naive_computes n : (1 <= n)%nat ->
  computes (Type2And3Naive_dst3 (Type2And3Naive_new n)) n n dst3_at.
Proof.
  intros Hn. eapply computes_ext; [apply sem_dst3_naive_ok; [lia|]; rewrite map_length, seq_length; reflexivity|].
  intros x k Hx Hk. subst n. apply dst3_naive_exact; assumption.
Qed.

Lemma dct1_naive_computes n d : (2 <= n)%nat -> Dct1Naive_new n = Ok d ->
  computes (Dct1Naive_dct1 d) n n dct1_at.
Proof.
  intros Hn. rewrite Dct1Naive_new_ok by exact Hn. injection 1 as <-.
  eapply computes_ext; [apply sem_dct1_naive_ok; [lia|]; rewrite map_length, seq_length; reflexivity|].
  intros x k Hx Hk. subst n. apply dct1_naive_exact; assumption.
Qed.

Lemma dct5_naive_computes n d : (1 <= n)%nat -> Dct5Naive_new n = Ok d ->
  computes (Dct5Naive_dct5 d) n n dct5_at.
Proof.
  intros Hn. rewrite Dct5Naive_new_ok by exact Hn. injection 1 as <-.
  eapply computes_ext; [apply sem_dct5_naive_ok; [lia|]; rewrite map_length, seq_length; reflexivity|].
  intros x k Hx Hk. subst n. apply dct5_naive_exact; assumption.
Qed.

Lemma dct6_naive_computes n d : (1 <= n)%nat -> Dct6And7Naive_new n = Ok d ->
  computes (Dct6And7Naive_dct6 d) n n dct6_at.
Proof.
  intros Hn. rewrite Dct6And7Naive_new_ok by exact Hn. injection 1 as <-.
  eapply computes_ext; [apply sem_dct6_naive_ok; [lia|]; rewrite map_length, seq_length; reflexivity|].
  intros x k Hx Hk. subst n. apply dct6_naive_exact; assumption.
Qed.

Lemma dct7_naive_computes n d : (1 <= n)%nat -> Dct6And7Naive_new n = Ok d ->
  computes (Dct6And7Naive_dct7 d) n n dct7_at.
Proof.
  intros Hn. rewrite Dct6And7Naive_new_ok by exact Hn. injection 1 as <-.
  eapply computes_ext; [apply sem_dct7_naive_ok; [lia|]; rewrite map_length, seq_length; reflexivity|].
  intros x k Hx Hk. subst n. apply dct7_naive_exact; assumption.
Qed.

Lemma dst8_naive_computes n d : (1 <= n)%nat -> Dst8Naive_new n = Ok d ->
  computes (Dst8Naive_dst8 d) n n dst8_at.
Proof.
  intros Hn. rewrite Dst8Naive_new_ok by exact Hn. injection 1 as <-.
  eapply computes_ext; [apply sem_dst8_naive_ok; [lia|]; rewrite map_length, seq_length; reflexivity|].
  intros x k Hx Hk. subst n. apply dst8_naive_exact; assumption.
Qed.
