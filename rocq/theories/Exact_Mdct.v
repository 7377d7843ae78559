(** Over the reals, both MDCT implementations compute the MDCT and the IMDCT. *)
From Coq Require Import Reals ZArith List Arith Lia Lra ZifyNat.
From Verif Require Import Prog Num Model_Common Model_Mdct Wp Sem_Naive Sem_Mdct Spec Trig Ref.
From Verif Require Exact_Naive.
Import ListNotations.
Open Scope R_scope.
Ltac Zify.zify_post_hook ::= Z.div_mod_to_equations.

(** The kernel at sample [p] and frequency [k]. *)
Definition ker (n p k : nat) : R := cz (4 * zn n) ((2 * zn k + 1) * (2 * zn p + 1 + zn n)).

Lemma ker_cos n p k : (0 < n)%nat ->
  cos (PI / INR n * (INR p + / 2 + INR n / 2) * (INR k + / 2)) = ker n p k.
Proof. intros H. pose proof (inr_pos n H). unfold ker. cz_angle. Qed.
Lemma mdct_ker n w x k : (0 < n)%nat -> mdct_at n w x k =
  sum (fun i => nth i w 0 * nth i x 0 * ker n i k) (2 * n).
Proof. intros H. apply sum_ext. intros i Hi. rewrite ker_cos by exact H. reflexivity. Qed.
Lemma imdct_ker n w y i : (0 < n)%nat -> imdct_at n w y i =
  nth i w 0 * sum (fun k => nth k y 0 * ker n i k) n.
Proof. intros H. unfold imdct_at. f_equal. apply sum_ext. intros k Hk. rewrite ker_cos by exact H. reflexivity. Qed.
Lemma mdct_ker_app n w a b k : (0 < n)%nat -> length a = n -> mdct_at n w (a ++ b) k =
  sum (fun i => nth i w 0 * nth i a 0 * ker n i k) n +
  sum (fun i => nth (n + i) w 0 * nth i b 0 * ker n (n + i) k) n.
Proof.
  intros H Ha. rewrite mdct_ker by exact H. replace (2 * n)%nat with (n + n)%nat by lia. rewrite sum_app. f_equal; apply sum_ext; intros i Hi.
  - rewrite app_nth1 by lia. reflexivity.
  - rewrite app_nth2 by lia. rewrite Ha. replace (n + i - n)%nat with i by lia. reflexivity.
Qed.

(** Symmetries of the kernel. *)
Lemma ker_low n p k : (p < n)%nat -> ker n (n - 1 - p) k = - ker n p k.
Proof.
  intros H. unfold ker. rewrite <- cz_refl by lia. apply (cz_eq (4 * zn n) ltac:(lia) _ _ (zn k)).
  rewrite !Nat2Z.inj_sub by lia. cbn [Z.of_nat]. change (Z.of_nat 1) with 1%Z. ring.
Qed.
Lemma ker_high n p k : (p < n)%nat -> ker n (2 * n - 1 - p) k = ker n (n + p) k.
Proof.
  intros H. unfold ker. rewrite <- (cz_opp (4 * zn n) ltac:(lia) ((2 * zn k + 1) * (2 * zn (n + p) + 1 + zn n))).
  apply (cz_eq (4 * zn n) ltac:(lia) _ _ (2 * zn k + 1)).
  rewrite !Nat2Z.inj_sub, Nat2Z.inj_add, Nat2Z.inj_mul by lia. change (Z.of_nat 1) with 1%Z. change (Z.of_nat 2) with 2%Z. ring.
Qed.
Lemma ker_a n g p k : n = (2 * g)%nat -> ker n p k = cz (4 * zn n) ((2 * zn k + 1) * (2 * zn (g + p) + 1)).
Proof. intros ->. unfold ker. f_equal. lia. Qed.
Lemma ker_b n g p k : n = (2 * g)%nat -> (p < g)%nat ->
  ker n (n + p) k = - cz (4 * zn n) ((2 * zn k + 1) * (2 * zn (g - 1 - p) + 1)).
Proof.
  intros E H. unfold ker. rewrite <- cz_refl by lia. apply (cz_eq (4 * zn n) ltac:(lia) _ _ (zn k)).
  rewrite !Nat2Z.inj_sub, Nat2Z.inj_add by lia. change (Z.of_nat 1) with 1%Z. replace (zn n) with (2 * zn g)%Z by lia. ring.
Qed.

(** ** Naive *)
Section Naive.
Variable n : nat.
Variable w : list R.
Hypothesis Hev : (n mod 2 = 0)%nat.
Let tw : list R := map (fun i => from_f64 (f_cos (f_mul (f_div (f_mul f_half f_pi) (f_of_nat n)) (f_add (f_of_nat i) f_half))))
          (seq 0 (n * 4)).

Lemma tw_ker j p k m : (0 < n)%nat ->
  ((2 * zn j + 1) = (2 * zn k + 1) * (2 * zn p + 1 + zn n) + 2 * (4 * zn n) * m)%Z \/
  ((2 * zn j + 1) = - ((2 * zn k + 1) * (2 * zn p + 1 + zn n)) + 2 * (4 * zn n) * m)%Z ->
  (@from_f64 R R NumR (f_cos (f_mul (f_div (f_mul f_half f_pi) (f_of_nat n)) (f_add (f_of_nat j) f_half)))) = ker n p k.
Proof.
  intros Hn H. pose proof (inr_pos n Hn). transitivity (cz (4 * zn n) (2 * zn j + 1)).
  - cbn [from_f64 NumR f_mul f_one f_cos f_sin f_pi f_div f_half f_of_nat f_add]. cz_angle.
  - unfold ker. destruct H as [H|H].
    + apply (cz_eq (4 * zn n) ltac:(lia) _ _ m), H.
    + rewrite <- (cz_opp (4 * zn n) ltac:(lia) ((2 * zn k + 1) * _)). apply (cz_eq (4 * zn n) ltac:(lia) _ _ m), H.
Qed.
Lemma accum_win (x : nat -> R) (v : nat -> R * R) acc cnt :
  accum op_win x v acc 0 cnt = acc + sum (fun i => x i * fst (v i) * snd (v i)) cnt.
Proof. induction cnt; cbn [accum sum]; [lra|]. rewrite IHcnt. cbn [Nat.add]. unfold op_win. cbn. lra. Qed.

Lemma mod_shift a L : (L <> 0)%nat -> exists m : Z, (zn (a mod L) = zn a + zn L * m)%Z.
Proof.
  intros H. exists (- zn (a / L))%Z. pose proof (Nat.div_mod a L H). rewrite Nat2Z.inj_mod, Nat2Z.inj_div.
  pose proof (Z.div_mod (zn a) (zn L) ltac:(lia)). lia.
Qed.

Lemma mdct_naive_exact a b k : length a = n -> length b = n -> (k < n)%nat ->
  sem_mdct_naive tw w n a b k = mdct_at n w (a ++ b) k.
Proof.
  intros Ha Hb Hk. unfold sem_mdct_naive. assert (Lt : length tw = (n * 4)%nat) by (unfold tw; rewrite map_length; apply seq_length).
  rewrite Lt. rewrite !accum_win. rewrite mdct_ker_app by lia. change (@zero R R NumR) with 0. rewrite Rplus_0_l. f_equal.
  - apply sum_ext. intros i Hi. cbn [fst snd]. unfold at_. change (@zero R R NumR) with 0. rewrite (Rmult_comm (nth i a 0)). f_equal.
    unfold tw. rewrite Exact_Naive.tw_at_map by lia. rewrite Nat.sub_0_r.
    destruct (mod_shift (n / 2 + k * (n + 1)) (n * 4)) as [m1 E1]; [lia|].
    destruct (mod_shift ((n / 2 + k * (n + 1)) mod (n * 4) + i * (k * 2 + 1)) (n * 4)) as [m2 E2]; [lia|].
    apply (tw_ker _ _ _ (m1 + m2)); [lia|]. left. rewrite E2, Nat2Z.inj_add, E1.
    rewrite !Nat2Z.inj_add, !Nat2Z.inj_mul, Nat2Z.inj_add, Nat2Z.inj_div. change (Z.of_nat 4) with 4%Z. change (zn 2) with 2%Z. change (zn 1) with 1%Z.
    assert (zn n = 2 * (zn n / 2))%Z by lia. nia.
  - apply sum_ext. intros i Hi. cbn [fst snd]. unfold at_. change (@zero R R NumR) with 0. rewrite (Rmult_comm (nth i b 0)).
    rewrite (Nat.add_comm i n). f_equal.
    unfold tw. rewrite Exact_Naive.tw_at_map by lia. rewrite Nat.sub_0_r.
    destruct (mod_shift (n / 2 + k * (n + 1)) (n * 4)) as [m1 E1]; [lia|].
    destruct (mod_shift ((n / 2 + k * (n + 1)) mod (n * 4) + n * (k * 2 + 1)) (n * 4)) as [m3 E3]; [lia|].
    destruct (mod_shift (((n / 2 + k * (n + 1)) mod (n * 4) + n * (k * 2 + 1)) mod (n * 4) + i * (k * 2 + 1)) (n * 4)) as [m2 E2]; [lia|].
    apply (tw_ker _ _ _ (m1 + m2 + m3)); [lia|]. left. rewrite E2, Nat2Z.inj_add, E3, Nat2Z.inj_add, E1.
    rewrite !Nat2Z.inj_add, !Nat2Z.inj_mul, !Nat2Z.inj_add, Nat2Z.inj_div, Nat2Z.inj_mul. change (Z.of_nat 4) with 4%Z. change (zn 2) with 2%Z. change (zn 1) with 1%Z.
    assert (zn n = 2 * (zn n / 2))%Z by lia. nia.
Qed.

Lemma imdct_naive_exact x i v : length x = n -> (i < 2 * n)%nat ->
  sem_imdct_naive tw w n x i v = v + imdct_at n w x i.
Proof.
  intros Hx Hi. unfold sem_imdct_naive. rewrite imdct_ker by lia. set (h := (n / 2)%nat). assert (Hh : n = (2 * h)%nat) by (unfold h; lia).
  destruct (Nat.ltb_spec i n) as [H|H].
  - rewrite Exact_Naive.accum_add. change (@zero R R NumR) with 0. rewrite Rplus_0_l. cbn [add mul NumR]. f_equal. rewrite Rmult_comm. f_equal.
    apply sum_ext. intros k Hk. cbn [Nat.add]. unfold at_. f_equal. unfold tw. rewrite Exact_Naive.tw_at_map by lia. rewrite Nat.sub_0_r.
    destruct (mod_shift (h + i + k * (n + i * 2 + 1)) (n * 4)) as [m1 E1]; [lia|].
    apply (tw_ker _ _ _ m1); [lia|]. left. rewrite E1. rewrite !Nat2Z.inj_add, !Nat2Z.inj_mul, !Nat2Z.inj_add, !Nat2Z.inj_mul. lia.
  - cbv zeta. set (q := (i - n)%nat). assert (Hq : i = (n + q)%nat) by (unfold q; lia). rewrite Hq, (Nat.add_comm q n).
    rewrite Exact_Naive.accum_add. change (@zero R R NumR) with 0. rewrite Rplus_0_l. cbn [add mul NumR]. f_equal. rewrite Rmult_comm. f_equal.
    apply sum_ext. intros k Hk. cbn [Nat.add]. unfold at_. f_equal. unfold tw. rewrite Exact_Naive.tw_at_map by lia. rewrite Nat.sub_0_r.
    destruct (Nat.ltb_spec q h) as [Hc|Hc].
    + destruct (mod_shift (n * 4 - n * 2 + h - q - 1 + k * (n - 1 - q * 2)) (n * 4)) as [m1 E1]; [lia|].
      apply (tw_ker _ _ _ (m1 + zn k + 1)); [lia|]. right. rewrite E1.
      rewrite !Nat2Z.inj_add, !Nat2Z.inj_mul, !Nat2Z.inj_sub, !Nat2Z.inj_add by lia. rewrite !Nat2Z.inj_sub, !Nat2Z.inj_mul by lia. rewrite Hh. lia.
    + destruct (mod_shift (n * 4 - n * 2 + h - (n - q - 1) - 1 + k * (n - 1 - (n - q - 1) * 2)) (n * 4)) as [m1 E1]; [lia|].
      apply (tw_ker _ _ _ (m1 - zn k)); [lia|]. left. rewrite E1.
      assert (X : (zn (n * 4 - n * 2 + h - (n - q - 1) - 1 + k * (n - 1 - (n - q - 1) * 2)) =
                   2 * zn n + zn h - zn n + zn q + zn k * (2 * zn q + 1 - zn n))%Z).
      { rewrite !Nat2Z.inj_add, !Nat2Z.inj_mul. f_equal; [lia|]. f_equal. lia. }
      rewrite X. rewrite !Nat2Z.inj_add, !Nat2Z.inj_mul. rewrite Hh. lia.
Qed.
End Naive.

(** ** Via DCT4 *)
Section Via.
Variable n : nat.
Variable w : list R.
Hypothesis Hev : (n mod 2 = 0)%nat.

Lemma mdct_dct4_exact a b k : length a = n -> length b = n -> (k < n)%nat ->
  sem_mdct_dct4 w n dct4_at a b k = mdct_at n w (a ++ b) k.
Proof.
  intros Ha Hb Hk. unfold sem_mdct_dct4. set (y := map (fold_at w n a b) (seq 0 n)).
  assert (Ly : length y = n) by (unfold y; rewrite map_length; apply seq_length).
  rewrite dct4_cz by lia. rewrite Ly. rewrite mdct_ker_app by lia.
  set (g := (n / 2)%nat). assert (Hg : n = (2 * g)%nat) by (unfold g; lia).
  set (C := fun j => cz (4 * zn n) ((2 * zn k + 1) * (2 * zn j + 1))).
  transitivity (sum (fun j => fold_at w n a b j * C j) n).
  { apply sum_ext. intros j Hj. unfold y. rewrite nth_map_seq by exact Hj. reflexivity. }
  (* the four quarters *)
  assert (Q1 : sum (fun i => nth i w 0 * nth i a 0 * ker n i k) n =
    sum (fun i => (nth i w 0 * nth i a 0 - nth (n - 1 - i) w 0 * nth (n - 1 - i) a 0) * C (g + i)%nat) g).
  { replace n with (g + g)%nat at 1 by lia. rewrite sum_app. cbv beta. rewrite (sum_rev (fun i => nth (g + i) w 0 * nth (g + i) a 0 * ker n (g + i) k) g).  rewrite <- sum_plus.
    apply sum_ext. intros i Hi. replace (g + (g - 1 - i))%nat with (n - 1 - i)%nat by lia. rewrite ker_low by lia.
    rewrite (ker_a n g i k Hg). fold (C (g + i)%nat). lra. }
  assert (Q2 : sum (fun i => nth (n + i) w 0 * nth i b 0 * ker n (n + i) k) n =
    sum (fun j => (- (nth (n + (g - 1 - j)) w 0 * nth (g - 1 - j) b 0) - nth (n + (g + j)) w 0 * nth (g + j) b 0) * C j) g).
  { transitivity (sum (fun i => nth (n + i) w 0 * nth i b 0 * ker n (n + i) k) (g + g)); [f_equal; lia|]. rewrite sum_app. cbv beta. rewrite (sum_rev (fun i => nth (n + i) w 0 * nth i b 0 * ker n (n + i) k) g).  rewrite <- sum_plus.
    apply sum_ext. intros j Hj. rewrite (ker_b n g (g - 1 - j) k Hg) by lia. replace (g - 1 - (g - 1 - j))%nat with j by lia. fold (C j).
    replace (ker n (n + (g + j)) k) with (ker n (2 * n - 1 - (g - 1 - j)) k) by (f_equal; lia).
    rewrite ker_high by lia. rewrite (ker_b n g (g - 1 - j) k Hg) by lia. replace (g - 1 - (g - 1 - j))%nat with j by lia. fold (C j). lra. }
  rewrite Q1, Q2, Rplus_comm. transitivity (sum (fun j => fold_at w n a b j * C j) (g + g)); [f_equal; lia|]. rewrite sum_app.
  f_equal; apply sum_ext; intros j Hj; f_equal; unfold fold_at; fold g; unfold at_; change (@zero R R NumR) with 0.
  - destruct (Nat.ltb_spec j g); [|lia]. cbn [neg sub mul NumR]. lra.
  - destruct (Nat.ltb_spec (g + j) g); [lia|]. replace (g + j - g)%nat with j by lia. cbn [neg sub mul NumR]. lra.
Qed.

Lemma imdct_dct4_exact x i v : length x = n -> (i < 2 * n)%nat ->
  sem_imdct_dct4 w n dct4_at x i v = v + imdct_at n w x i.
Proof.
  intros Hx Hi. unfold sem_imdct_dct4. rewrite imdct_ker by lia.
  set (g := (n / 2)%nat). assert (Hg : n = (2 * g)%nat) by (unfold g; lia). change (@zero R R NumR) with 0.
  assert (D : forall j, dct4_at x j = sum (fun k => nth k x 0 * cz (4 * zn n) ((2 * zn k + 1) * (2 * zn j + 1))) n).
  { intros j. rewrite dct4_cz by lia. rewrite Hx. apply sum_ext. intros k Hk. do 2 f_equal. ring. }
  destruct (Nat.ltb_spec i g) as [H1|H1]; [|destruct (Nat.ltb_spec i n) as [H2|H2]; [|destruct (Nat.ltb_spec i (n + g)) as [H3|H3]]];
    rewrite D; cbn [add sub mul NumR].
  - f_equal. rewrite Rmult_comm. f_equal. apply sum_ext. intros k Hk. rewrite (ker_a n g i k Hg). reflexivity.
  - unfold Rminus. f_equal. rewrite Rmult_comm, Ropp_mult_distr_r. f_equal. rewrite <- sum_opp. apply sum_ext. intros k Hk.
    rewrite <- Ropp_mult_distr_r_reverse. f_equal. replace i with (n - 1 - (n - 1 - i))%nat at 2 by lia. rewrite ker_low by lia.
    f_equal. rewrite (ker_a n g _ k Hg). do 3 f_equal. lia.
  - unfold Rminus. f_equal. rewrite Rmult_comm, Ropp_mult_distr_r. f_equal. rewrite <- sum_opp. apply sum_ext. intros k Hk.
    rewrite <- Ropp_mult_distr_r_reverse. f_equal. replace i with (n + (i - n))%nat at 2 by lia. rewrite (ker_b n g _ k Hg) by lia. reflexivity.
  - unfold Rminus. f_equal. rewrite Rmult_comm, Ropp_mult_distr_r. f_equal. rewrite <- sum_opp. apply sum_ext. intros k Hk.
    rewrite <- Ropp_mult_distr_r_reverse. f_equal. replace i with (2 * n - 1 - (2 * n - 1 - i))%nat at 2 by lia. rewrite ker_high by lia.
    rewrite (ker_b n g _ k Hg) by lia. do 4 f_equal. lia.
Qed.
End Via.
