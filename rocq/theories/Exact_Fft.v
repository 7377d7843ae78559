(** The FFT based algorithms compute the reference transforms, given an FFT that
    computes the forward DFT. *)
From Coq Require Import Reals ZArith List Arith Lia Lra ZifyNat.
From Verif Require Import Prog Num Model_Common Model_Fft Spec Spec_Fft Trig Ref Wp Sem_Naive Sem_Fft Sem_Fft2.
Import ListNotations.
Ltac Zify.zify_post_hook ::= Z.div_mod_to_equations.
Open Scope R_scope.

Lemma fft_exact_clean f : fft_exact f -> fft_clean f.
Proof. intros H xs ss ss' Hx Hs Hs'. rewrite !H by assumption. reflexivity. Qed.

Lemma fft_exact_out f xs : fft_exact f -> length xs = fft_len f -> fft_out f xs = dft xs.
Proof. intros H Hx. apply H; [exact Hx|apply repeat_length]. Qed.

Definition Dre (L : nat) (v : nat -> R * R) (k : Z) : R :=
  sum (fun j => fst (v j) * cz (zn L) (2 * zn j * k) + snd (v j) * sz (zn L) (2 * zn j * k)) L.
Definition Dim (L : nat) (v : nat -> R * R) (k : Z) : R :=
  sum (fun j => snd (v j) * cz (zn L) (2 * zn j * k) - fst (v j) * sz (zn L) (2 * zn j * k)) L.

Lemma fft_out_nth f v k : fft_exact f -> (k < fft_len f)%nat ->
  nth k (fft_out f (map v (seq 0 (fft_len f)))) (c0 (T:=R)) =
  (Dre (fft_len f) v (zn k), Dim (fft_len f) v (zn k)).
Proof.
  intros Hf Hk. set (L := fft_len f) in * .
  assert (HL : length (map v (seq 0 L)) = L) by (rewrite map_length, seq_length; reflexivity).
  assert (1 <= INR L) by (apply inr_pos; lia).
  rewrite fft_exact_out by assumption. unfold dft. rewrite HL.
  rewrite (nth_map_seq (fun k => (dft_re (map v (seq 0 L)) k, dft_im (map v (seq 0 L)) k))) by exact Hk.
  unfold dft_re, dft_im, Dre, Dim. rewrite HL.
  f_equal; apply sum_ext; intros j Hj; cbv zeta; rewrite (nth_map_seq v) by exact Hj.
  - replace (cos (2 * PI * INR j * INR k / INR L)) with (cz (zn L) (2 * zn j * zn k)) by (symmetry; cz_angle).
    replace (sin (2 * PI * INR j * INR k / INR L)) with (sz (zn L) (2 * zn j * zn k)) by (symmetry; cz_angle).
    reflexivity.
  - replace (cos (2 * PI * INR j * INR k / INR L)) with (cz (zn L) (2 * zn j * zn k)) by (symmetry; cz_angle).
    replace (sin (2 * PI * INR j * INR k / INR L)) with (sz (zn L) (2 * zn j * zn k)) by (symmetry; cz_angle).
    reflexivity.
Qed.

Lemma at_nth x i : at_ (T:=R) x i = nth i x 0.
Proof. reflexivity. Qed.

(** Sum over a whole period of an even sequence. *)
Lemma sum_even_ext g d : (1 <= d)%nat -> (forall j, (0 < j < d)%nat -> g (2 * d - j)%nat = g j) ->
  / 2 * sum g (2 * d) = sum (fun i => half_when ((i =? 0) || (i =? d))%nat%bool * g i) (d + 1).
Proof.
  intros Hd Hg. replace (2 * d)%nat with (S (d - 1) + S (d - 1))%nat by lia.
  rewrite sum_app. replace (d + 1)%nat with (S (S (d - 1)))%nat by lia.
  rewrite (sum_S_l g), (sum_S_l (fun i => g (S (d - 1) + i)%nat)).
  rewrite (sum_S_l (fun i => half_when _ * g i)). cbn [sum]. change (0 =? 0)%nat with true. cbn [orb].
  replace (S (d - 1)) with d by lia. rewrite Nat.eqb_refl, Bool.orb_true_r. rewrite Nat.add_0_r.
  rewrite (sum_rev (fun i => g (d + S i)%nat)).
  replace (sum (fun i => g (d + S (d - 1 - 1 - i))%nat) (d - 1)) with (sum (fun i => g (S i)) (d - 1)).
  2:{ apply sum_ext. intros i Hi. rewrite <- (Hg (S i)) by lia. f_equal. lia. }
  replace (sum (fun i => half_when ((S i =? 0) || (S i =? d))%nat%bool * g (S i)) (d - 1))
    with (sum (fun i => g (S i)) (d - 1)).
  2:{ apply sum_ext. intros i Hi. change (S i =? 0)%nat with false. cbn [orb]. destruct (Nat.eqb_spec (S i) d); [lia|].
      unfold half_when. lra. }
  unfold half_when. lra.
Qed.

Lemma dct1_fft_exact f x k : fft_exact f -> fft_len f = (2 * (length x - 1))%nat -> (2 <= length x)%nat ->
  (k < length x)%nat -> sem_dct1_fft f (length x) x k = dct1_at x k.
Proof.
  intros Hf HL Hn Hk. unfold sem_dct1_fft.
  rewrite fft_out_nth by (try assumption; lia). cbn [fst]. rewrite HL.
  rewrite dct1_cz by lia. set (d := (length x - 1)%nat) in * .
  change (Dre (2 * d) (pre_dct1_fft (length x) x) (zn k) * / 2 = 
     sum (fun i => nth i x 0 * half_when ((i =? 0)%nat || (i =? d)%nat) * cz (zn (length x) - 1) (zn k * zn i)) (length x)).
  rewrite Rmult_comm. unfold Dre. rewrite sum_even_ext.
  - match goal with |- _ = sum ?g _ => transitivity (sum g (d + 1)); [|f_equal; lia] end.
    apply sum_ext. intros i Hi.
    unfold pre_dct1_fft. rewrite (proj2 (Nat.ltb_lt _ _)) by lia. cbn [fst snd].
    rewrite at_nth. change (zero (T:=R)) with 0.
    replace (cz (zn (2 * d)) (2 * zn i * zn k)) with (cz (zn (length x) - 1) (zn k * zn i)).
    + lra.
    + replace (zn (2 * d)) with (2 * (zn (length x) - 1))%Z by lia.
      replace (2 * zn i * zn k)%Z with (2 * (zn k * zn i))%Z by lia. symmetry. apply cz_scale; lia.
  - lia.
  - intros j Hj. unfold pre_dct1_fft.
    rewrite (proj2 (Nat.ltb_ge _ _)) by lia. rewrite (proj2 (Nat.ltb_lt _ _)) by lia. cbn [fst snd].
    replace (2 * (length x - 1) - (2 * d - j))%nat with j by lia. change (zero (T:=R)) with 0.
    rewrite !Rmult_0_l, !Rplus_0_r. f_equal.
    replace (2 * zn (2 * d - j) * zn k)%Z with (- (2 * zn j * zn k) + 2 * zn (2 * d) * zn k)%Z by nia.
    rewrite cz_period by lia. apply cz_opp. lia.
Qed.

(** Sum over a whole period of an odd times odd sequence. *)
Lemma sum_odd_ext g d : (1 <= d)%nat -> g 0%nat = 0 -> g d = 0 ->
  (forall j, (0 < j < d)%nat -> g (2 * d - j)%nat = g j) ->
  sum g (2 * d) = 2 * sum (fun i => g (S i)) (d - 1).
Proof.
  intros Hd H0 H1 Hg. pose proof (sum_even_ext g d Hd Hg) as E.
  replace (d + 1)%nat with (S (S (d - 1)))%nat in E by lia.
  rewrite sum_S_l in E. cbn [sum] in E. replace (S (d - 1)) with d in E by lia.
  rewrite H0, H1 in E.
  replace (sum (fun i => half_when ((S i =? 0) || (S i =? d))%nat%bool * g (S i)) (d - 1))
    with (sum (fun i => g (S i)) (d - 1)) in E.
  - lra.
  - apply sum_ext. intros i Hi. change (S i =? 0)%nat with false. cbn [orb]. destruct (Nat.eqb_spec (S i) d); [lia|].
    unfold half_when. lra.
Qed.

Lemma at_repeat n i : at_ (T:=R) (repeat zero n) i = 0.
Proof.
  unfold at_. destruct (Nat.lt_ge_cases i n).
  - apply nth_repeat.
  - apply nth_overflow. rewrite repeat_length. assumption.
Qed.

Lemma dst1_fft_exact f x z k : fft_exact f -> fft_len f = (2 * (length x + 1))%nat -> (forall i, at_ z i = 0) ->
  (k < length x)%nat -> sem_dst1_fft f (length x) x z k = dst1_at x k.
Proof.
  intros Hf HL Hz Hk. unfold sem_dst1_fft.
  rewrite fft_out_nth by (try assumption; lia). cbn [snd]. rewrite HL.
  rewrite dst1_cz by lia. set (d := (length x + 1)%nat) in * .
  change (Dim (2 * d) (pre_dst1_fft (length x) x z) (zn (2 * length x + 1 - k)) * / 2 = 
     sum (fun i => nth i x 0 * sz (zn (length x) + 1) ((zn k + 1) * (zn i + 1))) (length x)).
  unfold Dim. rewrite sum_odd_ext; [| lia | | |].
  - replace (d - 1)%nat with (length x) by lia.
    rewrite (Rmult_comm 2), Rmult_assoc, Rinv_r, Rmult_1_r by lra.
    apply sum_ext. intros i Hi. unfold pre_dst1_fft.
    rewrite (proj2 (Nat.eqb_neq _ _)) by lia. rewrite (proj2 (Nat.ltb_lt _ _)) by lia.
    unfold c_from. cbn [fst snd]. change (zero (T:=R)) with 0. replace (S i - 1)%nat with i by lia.
    rewrite at_nth, Rmult_0_l, Rminus_0_l, <- Ropp_mult_distr_r_reverse. f_equal.
    replace (2 * zn (S i) * zn (2 * length x + 1 - k))%Z
      with (- (2 * ((zn k + 1) * (zn i + 1))) + 2 * zn (2 * d) * (zn i + 1))%Z by nia.
    rewrite sz_period, sz_opp, Ropp_involutive by lia.
    replace (zn (2 * d)) with (2 * (zn (length x) + 1))%Z by lia. apply sz_scale; lia.
  - unfold pre_dst1_fft. cbn [Nat.eqb fst snd]. rewrite !Hz. lra.
  - unfold pre_dst1_fft. rewrite (proj2 (Nat.eqb_neq _ _)) by lia. rewrite (proj2 (Nat.ltb_ge _ _)) by lia.
    rewrite (proj2 (Nat.eqb_eq _ _)) by lia. cbn [fst snd]. rewrite !Hz. lra.
  - intros j Hj. unfold pre_dst1_fft.
    rewrite !(proj2 (Nat.eqb_neq _ 0)) by lia.
    rewrite (proj2 (Nat.ltb_ge (2 * d - j) _)) by lia. rewrite (proj2 (Nat.ltb_lt _ _)) by lia.
    rewrite (proj2 (Nat.eqb_neq _ _)) by lia. unfold c_from. cbn [fst snd].
    replace (2 * length x + 1 - (2 * d - j))%nat with (j - 1)%nat by lia. change (zero (T:=R)) with 0.
    change (neg (T:=R)) with Ropp. rewrite !Rmult_0_l, !Rminus_0_l.
    rewrite <- Ropp_mult_distr_l, Ropp_involutive, Ropp_mult_distr_r. f_equal.
    set (q := (2 * length x + 1 - k)%nat).
    replace (2 * zn (2 * d - j) * zn q)%Z with (- (2 * zn j * zn q) + 2 * zn (2 * d) * zn q)%Z by nia.
    rewrite sz_period, sz_opp by lia. lra.
Qed.

(** ** Types 2 and 3 *)
Definition t23_tw (n : nat) : list (R * R) := map (fun i => single_twiddle i (n * 4)) (seq 0 n).

Lemma single_twiddle_cz i n : (0 < n)%nat ->
  single_twiddle (T:=R) (F:=R) i (n * 4) = (cz (2 * zn n) (zn i), - sz (2 * zn n) (zn i)).
Proof.
  intros Hn. assert (1 <= INR n) by (apply inr_pos; exact Hn).
  unfold single_twiddle, from_polar. cbn [fst snd from_f64 NumR f_mul f_div f_neg f_of_nat f_one f_cos f_sin f_two f_pi].
  rewrite !Rmult_1_l. rewrite <- (sz_opp (2 * zn n) ltac:(lia)). f_equal.
  - rewrite <- (cz_opp (2 * zn n) ltac:(lia)). unfold cz. f_equal. rewrite mult_INR. simpl (INR 4). izr. field. lra.
  - unfold sz. f_equal. rewrite mult_INR. simpl (INR 4). izr. field. lra.
Qed.

Lemma nth_t23_tw n i : (i < n)%nat -> nth i (t23_tw n) (c0 (T:=R)) = (cz (2 * zn n) (zn i), - sz (2 * zn n) (zn i)).
Proof.
  intros H. unfold t23_tw. rewrite (nth_map_seq (fun i => single_twiddle i (n * 4))) by exact H.
  apply single_twiddle_cz. lia.
Qed.

Lemma fold_pos_lt n j : (j < n)%nat -> (fold_pos n j < n)%nat.
Proof. unfold fold_pos, even_end, odd_end. intros H. destruct (Nat.ltb_spec j ((n + 1) / 2)); lia. Qed.
Lemma fold_pos_inj n i j : (i < n)%nat -> (j < n)%nat -> fold_pos n i = fold_pos n j -> i = j.
Proof.
  unfold fold_pos, even_end, odd_end. intros Hi Hj.
  destruct (Nat.ltb_spec i ((n + 1) / 2)), (Nat.ltb_spec j ((n + 1) / 2)); lia.
Qed.
(** [2 p + 1] is [4 j + 1] up to sign and whole turns. *)
Lemma fold_pos_angle n j k : (j < n)%nat ->
  cz (2 * zn n) (k * (2 * zn (fold_pos n j) + 1)) = cz (2 * zn n) (k * (4 * zn j + 1)).
Proof.
  intros H. unfold fold_pos, even_end, odd_end. destruct (Nat.ltb_spec j ((n + 1) / 2)).
  - f_equal. lia.
  - replace (zn (n - 1 - n mod 2 - 2 * (j - (n + 1) / 2))) with (2 * zn n - 1 - 2 * zn j)%Z by lia.
    replace (k * (2 * (2 * zn n - 1 - 2 * zn j) + 1))%Z with (- (k * (4 * zn j + 1)) + 2 * (2 * zn n) * k)%Z by lia.
    rewrite cz_period by lia. apply cz_opp. lia.
Qed.

(** The value the FFT based DCT2 computes, for any real input sequence [v]. *)
Lemma dct2_core n (v : nat -> R) k : (0 < n)%nat ->
  fst (c_mul (Dre n (fun j => c_from (v (fold_pos n j))) k, Dim n (fun j => c_from (v (fold_pos n j))) k)
             (cz (2 * zn n) k, - sz (2 * zn n) k)) =
  sum (fun i => v i * cz (2 * zn n) (k * (2 * zn i + 1))) n.
Proof.
  intros Hn. unfold c_mul, c_from, Dre, Dim. cbn [fst snd].
  change (zero (T:=R)) with 0. change (sub (T:=R)) with Rminus. change (mul (T:=R)) with Rmult.
  rewrite <- !sum_scal_r, <- sum_minus.
  rewrite <- (sum_perm n (fold_pos n) (fun i => v i * _) (fold_pos_lt n) (fold_pos_inj n)).
  apply sum_ext. intros j Hj. rewrite fold_pos_angle by exact Hj.
  replace (cz (zn n) (2 * zn j * k)) with (cz (2 * zn n) (4 * zn j * k))
    by (replace (4 * zn j * k)%Z with (2 * (2 * zn j * k))%Z by lia; apply cz_scale; lia).
  replace (sz (zn n) (2 * zn j * k)) with (sz (2 * zn n) (4 * zn j * k))
    by (replace (4 * zn j * k)%Z with (2 * (2 * zn j * k))%Z by lia; apply sz_scale; lia).
  replace (k * (4 * zn j + 1))%Z with (4 * zn j * k + k)%Z by lia. rewrite cz_plus by lia. ring.
Qed.

Lemma dct2_fft_exact f x k : fft_exact f -> fft_len f = length x -> (k < length x)%nat ->
  sem_dct2_fft f (t23_tw (length x)) x k = dct2_at x k.
Proof.
  intros Hf HL Hk. unfold sem_dct2_fft. rewrite fft_out_nth by (try assumption; lia). rewrite HL.
  rewrite nth_t23_tw by exact Hk. rewrite dct2_cz by lia.
  apply (dct2_core (length x) (fun i => nth i x 0)). lia.
Qed.

Lemma dst2_fft_exact f x k : fft_exact f -> fft_len f = length x -> (k < length x)%nat ->
  sem_dst2_fft f (t23_tw (length x)) x k = dst2_at x k.
Proof.
  intros Hf HL Hk. unfold sem_dst2_fft. cbv zeta. rewrite fft_out_nth by (try assumption; lia). rewrite HL.
  rewrite nth_t23_tw by lia. rewrite dst2_dct2_at by exact Hk.
  rewrite dct2_cz by (rewrite alt_list_length; lia). rewrite alt_list_length.
  transitivity (sum (fun i => (if is_odd i then - nth i x 0 else nth i x 0) *
       cz (2 * zn (length x)) (zn (length x - 1 - k) * (2 * zn i + 1))) (length x)).
  - apply (dct2_core (length x) (fun i => if is_odd i then - nth i x 0 else nth i x 0)). lia.
  - apply sum_ext. intros i Hi. f_equal. rewrite nth_alt_list by exact Hi.
    unfold is_odd, alt. destruct (Nat.eqb_spec (i mod 2) 1), (Nat.eqb_spec (i mod 2) 0); try lia; lra.
Qed.

(** The value the FFT based DCT3 computes, for any real input sequence [v]. *)
Definition pre3 (n : nat) (v : nat -> R) (j : nat) : R * R :=
  if (j =? 0)%nat then c_from (v 0%nat * / 2)
  else c_scale (c_mul (v j, v (n - j)%nat) (cz (2 * zn n) (zn j), - sz (2 * zn n) (zn j))) (/ 2).

Lemma unfold_pos_lt n k : (k < n)%nat -> (unfold_pos n k < n)%nat.
Proof. unfold unfold_pos, even_end, odd_end. intros H. destruct (Nat.eqb_spec (k mod 2) 0); lia. Qed.

Lemma unfold_pos_angle n k t : (k < n)%nat ->
  cz (2 * zn n) (t * (4 * zn (unfold_pos n k) + 1)) = cz (2 * zn n) (t * (2 * zn k + 1)) /\
  sz (2 * zn n) (t * (4 * zn (unfold_pos n k) + 1)) = alt k * sz (2 * zn n) (t * (2 * zn k + 1)).
Proof.
  intros H. unfold unfold_pos, even_end, odd_end, alt. destruct (Nat.eqb_spec (k mod 2) 0).
  - replace (4 * zn (k / 2) + 1)%Z with (2 * zn k + 1)%Z by lia. split; lra.
  - replace (4 * zn ((n - 1 - n mod 2 - k) / 2 + (n + 1) / 2) + 1)%Z with (2 * (2 * zn n) - (2 * zn k + 1))%Z by lia.
    replace (t * (2 * (2 * zn n) - (2 * zn k + 1)))%Z with (- (t * (2 * zn k + 1)) + 2 * (2 * zn n) * t)%Z by lia.
    rewrite cz_period, sz_period, cz_opp, sz_opp by lia. split; lra.
Qed.

Lemma sum_first f n : (0 < n)%nat -> sum f n = f 0%nat + sum (fun i => f (S i)) (n - 1).
Proof. intros H. replace n with (S (n - 1)) at 1 by lia. apply sum_S_l. Qed.

Lemma dct3_core n (v : nat -> R) k : (k < n)%nat ->
  Dre n (pre3 n v) (zn (unfold_pos n k)) =
  sum (fun i => v i * half_when (i =? 0)%nat * cz (2 * zn n) ((2 * zn k + 1) * zn i)) n.
Proof.
  intros Hk. unfold Dre. rewrite !(sum_first _ n) by lia. set (n' := (n - 1)%nat). f_equal.
  - unfold pre3, c_from. cbn [Nat.eqb fst snd half_when]. change (zero (T:=R)) with 0.
    change (zn 0) with 0%Z. rewrite !Z.mul_0_r, !Z.mul_0_l. rewrite !cz_0 by lia. lra.
  - set (j := zn (unfold_pos n k)).
    transitivity (sum (fun i => / 2 * (v (S i) * cz (2 * zn n) (zn (S i) * (2 * zn k + 1)))) n' +
                  sum (fun i => / 2 * (v (n - S i)%nat * (alt k * sz (2 * zn n) (zn (S i) * (2 * zn k + 1))))) n').
    + rewrite <- sum_plus. apply sum_ext. intros i Hi.
      destruct (unfold_pos_angle n k (zn (S i)) Hk) as [E1 E2]. fold j in E1, E2.
      rewrite <- E1, <- E2. unfold pre3. rewrite (proj2 (Nat.eqb_neq (S i) 0)) by lia.
      unfold c_scale, c_mul. cbn [fst snd].
      change (sub (T:=R)) with Rminus. change (mul (T:=R)) with Rmult. change (add (T:=R)) with Rplus.
      replace (cz (zn n) (2 * zn (S i) * j)) with (cz (2 * zn n) (4 * zn (S i) * j))
        by (replace (4 * zn (S i) * j)%Z with (2 * (2 * zn (S i) * j))%Z by lia; apply cz_scale; lia).
      replace (sz (zn n) (2 * zn (S i) * j)) with (sz (2 * zn n) (4 * zn (S i) * j))
        by (replace (4 * zn (S i) * j)%Z with (2 * (2 * zn (S i) * j))%Z by lia; apply sz_scale; lia).
      replace (zn (S i) * (4 * j + 1))%Z with (4 * zn (S i) * j + zn (S i))%Z by lia.
      rewrite cz_plus, sz_plus by lia. ring.
    + rewrite (sum_rev (fun i => / 2 * (v (n - S i)%nat * _))).
      rewrite <- sum_plus. apply sum_ext. intros i Hi.
      replace (n - S (n' - 1 - i))%nat with (S i) by lia.
      replace (zn (S (n' - 1 - i)) * (2 * zn k + 1))%Z with
        (zn n * (2 * zn k + 1) - zn (S i) * (2 * zn k + 1))%Z by nia.
      rewrite cz_quarters by lia. rewrite <- (Rmult_assoc (alt k)), alt_sq.
      cbn [Nat.eqb half_when]. replace ((2 * zn k + 1) * zn (S i))%Z with (zn (S i) * (2 * zn k + 1))%Z by lia. lra.
Qed.

Lemma dct3_fft_exact f x k : fft_exact f -> fft_len f = length x -> (k < length x)%nat ->
  sem_dct3_fft f (t23_tw (length x)) x k = dct3_at x k.
Proof.
  intros Hf HL Hk. unfold sem_dct3_fft.
  rewrite fft_out_nth by (try assumption; rewrite HL; apply unfold_pos_lt; exact Hk). rewrite HL. cbn [fst].
  rewrite dct3_cz by lia. rewrite <- (dct3_core (length x) (fun i => nth i x 0)) by exact Hk.
  apply sum_ext. intros j Hj. unfold pre_dct3_fft, pre3. rewrite nth_t23_tw by exact Hj. reflexivity.
Qed.

Lemma dst3_fft_exact f x k : fft_exact f -> fft_len f = length x -> (k < length x)%nat ->
  sem_dst3_fft f (t23_tw (length x)) x k = dst3_at x k.
Proof.
  intros Hf HL Hk. unfold sem_dst3_fft. cbv zeta.
  rewrite fft_out_nth by (try assumption; rewrite HL; apply unfold_pos_lt; exact Hk). rewrite HL. cbn [fst].
  rewrite dst3_dct3_at by exact Hk. rewrite dct3_cz by (rewrite rev_length; lia). rewrite rev_length.
  rewrite <- (dct3_core (length x) (fun i => nth i (rev x) 0)) by exact Hk.
  replace (Dre (length x) (pre_dst3_fft (t23_tw (length x)) x) (zn (unfold_pos (length x) k)))
    with (Dre (length x) (pre3 (length x) (fun i => nth i (rev x) 0)) (zn (unfold_pos (length x) k))).
  - change (neg (T:=R)) with Ropp.
    unfold is_odd, alt. destruct (Nat.eqb_spec (k mod 2) 1), (Nat.eqb_spec (k mod 2) 0); try lia; lra.
  - apply sum_ext. intros j Hj. unfold pre_dst3_fft, pre3. rewrite nth_t23_tw by exact Hj.
    destruct (Nat.eqb_spec j 0).
    + rewrite rev_nth by lia. unfold at_. replace (length x - 1)%nat with (length x - 1)%nat by lia. reflexivity.
    + rewrite !rev_nth by lia. unfold at_.
      replace (length x - j - 1)%nat with (length x - S j)%nat by lia.
      replace (length x - S (length x - j))%nat with (j - 1)%nat by lia. reflexivity.
Qed.

(** ** DST6 and DST7 *)
Lemma post_dst6_pos_lt n k : (k < n)%nat -> (post_dst6_pos n k < 2 * n + 1)%nat.
Proof. unfold post_dst6_pos, is_odd. intros H. destruct (Nat.eqb_spec (k mod 2) 1); lia. Qed.

Lemma sz_odd_refl d j m : (d <> 0)%Z -> sz d ((d - j) * (2 * m + 1)) = sz d (j * (2 * m + 1)).
Proof.
  intros Hd. replace ((d - j) * (2 * m + 1))%Z with ((d - j * (2 * m + 1)) + 2 * d * m)%Z by lia.
  rewrite sz_period, sz_refl by exact Hd. reflexivity.
Qed.

Lemma dst6_fft_exact f x z k : fft_exact f -> fft_len f = (2 * length x + 1)%nat -> (forall i, at_ z i = 0) ->
  (k < length x)%nat -> sem_dst6_fft f x z k = dst6_at x k.
Proof.
  intros Hf HL Hz Hk. unfold sem_dst6_fft. pose proof (post_dst6_pos_lt _ _ Hk).
  rewrite fft_out_nth by (try assumption; lia). cbn [fst]. rewrite HL.
  rewrite dst6_cz by lia. set (n := length x) in * . unfold Dre.
  rewrite sum_even_odd_S.
  rewrite sum_zero'.
  2:{ intros i Hi. unfold pre_dst6_fft, is_odd. replace ((2 * i) mod 2)%nat with 0%nat by lia.
      cbn [Nat.eqb fst snd]. rewrite !Hz. lra. }
  rewrite Rplus_0_l. apply sum_ext. intros i Hi. unfold pre_dst6_fft, is_odd.
  replace ((2 * i + 1) mod 2)%nat with 1%nat by lia. replace ((2 * i + 1) / 2)%nat with i by lia.
  cbn [Nat.eqb fst snd]. rewrite Hz, Rmult_0_l, Rplus_0_l, at_nth. f_equal.
  replace (zn (2 * n + 1)) with (2 * zn n + 1)%Z by lia.
  unfold post_dst6_pos, is_odd. destruct (Nat.eqb_spec (k mod 2) 1).
  - f_equal. lia.
  - replace (2 * zn (2 * i + 1) * zn (n - k / 2))%Z with
      ((2 * zn n + 1 - (zn k + 1)) * (2 * zn i + 1))%Z by nia.
    rewrite sz_odd_refl by lia. reflexivity.
Qed.

Definition up7_pos (n i : nat) : nat :=
  if (i <? (n + 1) / 2)%nat then (i * 2)%nat else (2 * (n - (n + 1) / 2 - (i - (n + 1) / 2)) - 1)%nat.
Lemma up7_pos_lt n i : (i < n)%nat -> (up7_pos n i < n)%nat.
Proof. unfold up7_pos. intros H. destruct (Nat.ltb_spec i ((n + 1) / 2)); lia. Qed.
Lemma up7_pos_inj n i j : (i < n)%nat -> (j < n)%nat -> up7_pos n i = up7_pos n j -> i = j.
Proof.
  unfold up7_pos. intros Hi Hj.
  destruct (Nat.ltb_spec i ((n + 1) / 2)), (Nat.ltb_spec j ((n + 1) / 2)); lia.
Qed.
Lemma up_dst7_at n x i : up_dst7_fft (T:=R) n x (n + 1 + i) = (nth (up7_pos n i) x 0, 0).
Proof.
  unfold up_dst7_fft, up7_pos. cbv zeta. replace (n + 1 + i - (n + 1))%nat with i by lia.
  destruct (Nat.ltb_spec i ((n + 1) / 2)); reflexivity.
Qed.

Lemma dst7_fft_exact f x z k : fft_exact f -> fft_len f = (2 * length x + 1)%nat -> (forall i, at_ z i = 0) ->
  (k < length x)%nat -> sem_dst7_fft f x z k = dst7_at x k.
Proof.
  intros Hf HL Hz Hk. unfold sem_dst7_fft.
  rewrite fft_out_nth by (try assumption; lia). cbn [snd]. rewrite HL.
  rewrite dst7_cz by lia. unfold half.
  change (Dim (2 * length x + 1) (pre_dst7_fft x z) (zn (k * 2 + 1)) * / 2 =
    sum (fun i => nth i x 0 * sz (2 * zn (length x) + 1) ((2 * zn k + 1) * (zn i + 1))) (length x)).
  set (n := length x) in * . set (d := (2 * zn n + 1)%Z).
  set (q := (2 * zn k + 1)%Z). replace (zn (k * 2 + 1)) with q by lia.
  assert (Hup : forall i, (i < n)%nat ->
     - (nth (up7_pos n i) x 0 * sz d (2 * zn (n + 1 + i) * q)) =
     nth (up7_pos n i) x 0 * sz d (q * (zn (up7_pos n i) + 1))).
  { intros i Hi. rewrite Ropp_mult_distr_r. f_equal.
    replace (2 * zn (n + 1 + i) * q)%Z with ((2 * zn i + 1) * q + d + 2 * d * zn k)%Z by (unfold d, q; nia).
    rewrite sz_period, sz_half_turn, Ropp_involutive by (unfold d; lia).
    unfold up7_pos. destruct (Nat.ltb_spec i ((n + 1) / 2)).
    - f_equal. lia.
    - replace (zn (2 * (n - (n + 1) / 2 - (i - (n + 1) / 2)) - 1) + 1)%Z with (d - (2 * zn i + 1))%Z by (unfold d; lia).
      unfold q. rewrite (Z.mul_comm (2 * zn k + 1)), sz_odd_refl by (unfold d; lia). reflexivity. }
  unfold Dim. replace (zn (2 * n + 1)) with d by (unfold d; lia).
  replace (2 * n + 1)%nat with (S (n + n)) by lia. rewrite sum_S_l, sum_app.
  replace (snd (pre_dst7_fft x z 0) * cz d (2 * zn 0 * q) - fst (pre_dst7_fft x z 0) * sz d (2 * zn 0 * q)) with 0.
  2:{ unfold pre_dst7_fft. cbn [Nat.eqb fst snd]. rewrite !Hz. lra. }
  rewrite (sum_rev (fun i => snd (pre_dst7_fft x z (S i)) * _ - _)).
  rewrite <- (sum_perm n (up7_pos n) (fun i => nth i x 0 * sz d (q * (zn i + 1))) (up7_pos_lt n) (up7_pos_inj n)).
  rewrite Rplus_0_l, <- sum_plus, <- sum_scal_r. apply sum_ext. intros i Hi.
  rewrite <- Hup by exact Hi.
  assert (E1 : pre_dst7_fft x z (S (n + i)) = (nth (up7_pos n i) x 0, 0)).
  { unfold pre_dst7_fft. fold n. rewrite (proj2 (Nat.eqb_neq _ _)) by lia. rewrite (proj2 (Nat.ltb_ge _ _)) by lia.
    replace (S (n + i)) with (n + 1 + i)%nat by lia. apply up_dst7_at. }
  assert (E2 : pre_dst7_fft x z (S (n - 1 - i)) = (- nth (up7_pos n i) x 0, - 0)).
  { unfold pre_dst7_fft. fold n. rewrite (proj2 (Nat.eqb_neq _ _)) by lia. rewrite (proj2 (Nat.ltb_lt _ _)) by lia.
    replace (2 * n + 1 - S (n - 1 - i))%nat with (n + 1 + i)%nat by lia. rewrite up_dst7_at. reflexivity. }
  rewrite E1, E2. cbn [fst snd].
  replace (2 * zn (S (n - 1 - i)) * q)%Z with (- (2 * zn (n + 1 + i) * q) + 2 * d * q)%Z by (unfold d; nia).
  rewrite sz_period, cz_period, sz_opp, cz_opp by (unfold d; lia).
  replace (zn (S (n + i))) with (zn (n + 1 + i)) by lia. lra.
Qed.

(** ** Odd-length type 4 *)
Definition fold4 (n p : nat) : nat :=
  if ((p / n) mod 2 =? 0)%nat then (p mod n)%nat else (n - 1 - p mod n)%nat.

Lemma fold4_lt n p : (0 < n)%nat -> (fold4 n p < n)%nat.
Proof.
  intros H. unfold fold4. pose proof (Nat.mod_upper_bound p n ltac:(lia)).
  destruct (Nat.eqb_spec ((p / n) mod 2) 0); lia.
Qed.

(** Where sample [p] of the extended signal comes from, and with what sign. *)
Lemma fold4_cases n p : (0 < n)%nat -> (p < 5 * n)%nat ->
  exists q r, (p = q * n + r)%nat /\ (r < n)%nat /\ (q < 5)%nat /\ (p / n)%nat = q /\ (p mod n)%nat = r.
Proof.
  intros Hn Hp. exists (p / n)%nat, (p mod n)%nat.
  pose proof (Nat.div_mod p n ltac:(lia)). pose proof (Nat.mod_upper_bound p n ltac:(lia)).
  repeat split; try lia. apply Nat.div_lt_upper_bound; lia.
Qed.

Lemma fold4_odd n p : (0 < n)%nat -> (p < 5 * n)%nat ->
  exists c : Z, ((2 * zn p + 1) = (2 * zn (fold4 n p) + 1) + 4 * zn n * c \/
                 (2 * zn p + 1) = - (2 * zn (fold4 n p) + 1) + 4 * zn n * c)%Z.
Proof.
  intros Hn Hp. destruct (fold4_cases n p Hn Hp) as (q & r & E & Hr & Hq & E1 & E2).
  unfold fold4. rewrite E1, E2.
  destruct q as [|[|[|[|[|q]]]]]; [| | | | |lia]; cbn [Nat.modulo Nat.divmod fst snd Nat.sub Nat.eqb].
  - exists 0%Z. left. lia.
  - exists 1%Z. right. lia.
  - exists 1%Z. left. lia.
  - exists 2%Z. right. lia.
  - exists 2%Z. left. lia.
Qed.

Lemma fold4_inj n s t : (n mod 2 = 1)%nat -> (s < n)%nat -> (t < n)%nat ->
  fold4 n (n / 2 + 4 * s) = fold4 n (n / 2 + 4 * t) -> s = t.
Proof.
  intros Hodd Hs Ht E.
  destruct (fold4_odd n (n / 2 + 4 * s)) as [c Hc]; [lia|lia|].
  destruct (fold4_odd n (n / 2 + 4 * t)) as [c' Hc']; [lia|lia|].
  rewrite E in Hc. set (g := zn (fold4 n (n / 2 + 4 * t))) in * .
  assert (Hn : zn n = (2 * zn (n / 2) + 1)%Z) by lia.
  set (h := zn (n / 2)) in * .
  replace (zn (n / 2 + 4 * s)) with (h + 4 * zn s)%Z in Hc by lia.
  replace (zn (n / 2 + 4 * t)) with (h + 4 * zn t)%Z in Hc' by lia.
  assert (Hcase : (8 * (zn s - zn t) = 4 * zn n * (c - c') \/ 8 * (zn s + zn t) + 2 * zn n = 4 * zn n * (c + c'))%Z).
  { destruct Hc as [Hc|Hc], Hc' as [Hc'|Hc']; [left|right|right|left]; lia. }
  clear Hc Hc'. destruct Hcase as [Hcase|Hcase].
  - set (e := (c - c')%Z) in * . assert (He : (2 * (zn s - zn t) = zn n * e)%Z) by lia.
    assert (-2 < e < 2)%Z by nia. assert (e = -1 \/ e = 0 \/ e = 1)%Z as [->|[->| ->]] by lia; lia.
  - exfalso. set (e := (c + c')%Z) in * . assert (4 * (zn s + zn t) + zn n = 2 * (zn n * e))%Z by lia. lia.
Qed.

(** [ext4 x p * phi_k p] depends on [fold4 p] only. *)
Lemma ext4_phi x p k : (0 < length x)%nat -> (p < 5 * length x)%nat ->
  ext4 (T:=R) false x p * cz (4 * zn (length x)) ((2 * zn k + 1) * (2 * zn p + 1)) =
  nth (fold4 (length x) p) x 0 * cz (4 * zn (length x)) ((2 * zn k + 1) * (2 * zn (fold4 (length x) p) + 1)).
Proof.
  set (n := length x). intros Hn Hp. destruct (fold4_cases n p Hn Hp) as (q & r & E & Hr & Hq & E1 & E2).
  unfold ext4, fold4. fold n. cbv zeta. rewrite E1, E2, !at_nth. change (neg (T:=R)) with Ropp.
  destruct q as [|[|[|[|[|q]]]]]; [| | | | |lia]; cbn [Nat.modulo Nat.divmod fst snd Nat.sub Nat.eqb].
  - do 2 f_equal. lia.
  - set (m := (n - 1 - r)%nat). rewrite <- Ropp_mult_distr_l, Ropp_mult_distr_r. f_equal.
    replace ((2 * zn k + 1) * (2 * zn p + 1))%Z with
      ((4 * zn n - (2 * zn k + 1) * (2 * zn m + 1)) + 2 * (4 * zn n) * zn k)%Z by nia.
    rewrite cz_period, cz_refl by lia. lra.
  - rewrite <- Ropp_mult_distr_l, Ropp_mult_distr_r. f_equal.
    replace ((2 * zn k + 1) * (2 * zn p + 1))%Z with
      (((2 * zn k + 1) * (2 * zn r + 1) + 4 * zn n) + 2 * (4 * zn n) * zn k)%Z by nia.
    rewrite cz_period, cz_half_turn by lia. lra.
  - set (m := (n - 1 - r)%nat). f_equal.
    replace ((2 * zn k + 1) * (2 * zn p + 1))%Z with
      (- ((2 * zn k + 1) * (2 * zn m + 1)) + 2 * (4 * zn n) * (2 * zn k + 1))%Z by nia.
    rewrite cz_period, cz_opp by lia. reflexivity.
  - f_equal.
    replace ((2 * zn k + 1) * (2 * zn p + 1))%Z with
      ((2 * zn k + 1) * (2 * zn r + 1) + 2 * (4 * zn n) * (2 * zn k + 1))%Z by nia.
    rewrite cz_period by lia. reflexivity.
Qed.

(** The DCT4 as a rotated DFT bin of the resampled signal. *)
Lemma dct4_core x k : (length x mod 2 = 1)%nat ->
  dct4_at x k =
  cz 4 (2 * zn k + 1) * Dre (length x) (pre_t4_fft false x) (2 * zn k + 1) +
  sz 4 (2 * zn k + 1) * Dim (length x) (pre_t4_fft false x) (2 * zn k + 1).
Proof.
  intros Hodd. set (n := length x) in * . rewrite dct4_cz by lia. fold n.
  rewrite <- (sum_perm n (fun t => fold4 n (n / 2 + 4 * t))
    (fun i => nth i x 0 * cz (4 * zn n) ((2 * zn k + 1) * (2 * zn i + 1)))).
  2:{ intros. apply fold4_lt. lia. }
  2:{ intros i j Hi Hj. apply fold4_inj; assumption. }
  unfold Dre, Dim. rewrite <- !sum_scal_l, <- sum_plus. apply sum_ext. intros t Ht.
  rewrite <- (ext4_phi x) by (fold n; lia). fold n. unfold pre_t4_fft. fold n. cbn [fst snd].
  change (zero (T:=R)) with 0.
  set (K := (2 * zn k + 1)%Z).
  replace (K * (2 * zn (n / 2 + 4 * t) + 1))%Z with (zn n * K + 4 * (2 * zn t * K))%Z by (unfold K; nia).
  rewrite cz_plus by lia.
  replace (cz (4 * zn n) (zn n * K)) with (cz 4 K) by (rewrite (Z.mul_comm 4); symmetry; apply cz_scale; lia).
  replace (sz (4 * zn n) (zn n * K)) with (sz 4 K) by (rewrite (Z.mul_comm 4); symmetry; apply sz_scale; lia).
  rewrite cz_scale, sz_scale by lia. lra.
Qed.

Lemma sgn_alt i : sgn (T:=R) i = alt i.
Proof. induction i; [reflexivity|]. rewrite alt_S, <- IHi. reflexivity. Qed.

Lemma cz_4_1 : cz 4 1 = sqrt 2 * / 2.
Proof. unfold cz. rewrite Rmult_1_r, cos_PI4. apply (Rmult_eq_reg_r (sqrt 2)); [|apply sqrt2_neq_0].
  unfold Rdiv. rewrite Rmult_1_l, Rinv_l by apply sqrt2_neq_0.
  replace (sqrt 2 * / 2 * sqrt 2) with (sqrt 2 * sqrt 2 * / 2) by ring. rewrite sqrt_sqrt by lra. lra.
Qed.
Lemma sz_4_1 : sz 4 1 = sqrt 2 * / 2.
Proof. rewrite <- cz_4_1. unfold cz, sz. rewrite Rmult_1_r, cos_PI4, sin_PI4. reflexivity. Qed.
Lemma cz_4_3 : cz 4 3 = - (sqrt 2 * / 2).
Proof. rewrite <- cz_4_1. change 3%Z with (4 - 1)%Z. apply cz_refl. lia. Qed.
Lemma sz_4_3 : sz 4 3 = sqrt 2 * / 2.
Proof. rewrite <- sz_4_1. change 3%Z with (4 - 1)%Z. apply sz_refl. lia. Qed.

Lemma D_period n v K c : (0 < n)%nat ->
  Dre n v (K + zn n * c) = Dre n v K /\ Dim n v (K + zn n * c) = Dim n v K.
Proof.
  intros Hn. unfold Dre, Dim. split; apply sum_ext; intros j Hj;
  replace (2 * zn j * (K + zn n * c))%Z with (2 * zn j * K + 2 * zn n * (zn j * c))%Z by ring;
  rewrite cz_period, sz_period by lia; reflexivity.
Qed.
Lemma D_opp n v K : (0 < n)%nat -> (forall j, snd (v j) = 0) ->
  Dre n v (- K) = Dre n v K /\ Dim n v (- K) = - Dim n v K.
Proof.
  intros Hn Hv. unfold Dre, Dim. rewrite <- sum_opp. split; apply sum_ext; intros j Hj;
  replace (2 * zn j * - K)%Z with (- (2 * zn j * K))%Z by ring;
  rewrite cz_opp, sz_opp, Hv by lia; lra.
Qed.

Lemma t4_scaled_exact f v j i : fft_exact f -> (j < fft_len f)%nat ->
  t4_scaled (fft_out f (map v (seq 0 (fft_len f)))) j i =
  (Dre (fft_len f) v (zn j) * (alt i * (sqrt 2 * / 2)), Dim (fft_len f) v (zn j) * (alt i * (sqrt 2 * / 2))).
Proof.
  intros Hf Hj. unfold t4_scaled. rewrite fft_out_nth by assumption. rewrite sgn_alt. reflexivity.
Qed.

(** [sin (pi n / 2)] for odd [n]. *)
Lemma ssign_exact n : (n mod 2 = 1)%nat -> t4_ssign (T:=R) n = alt (n / 2).
Proof.
  intros Hn. unfold t4_ssign, alt. change (one (T:=R)) with 1. change (neg (T:=R)) with Ropp.
  destruct (Nat.eqb_spec (n mod 4) 1), (Nat.eqb_spec ((n / 2) mod 2) 0); try lia; lra.
Qed.

(** [cos] and [sin] of [(2 n - K) pi / 4] for odd [n]. *)
Lemma cz_4_top n K : (n mod 2 = 1)%nat ->
  cz 4 (2 * zn n - K) = alt (n / 2) * sz 4 K /\ sz 4 (2 * zn n - K) = alt (n / 2) * cz 4 K.
Proof.
  intros Hn. replace (2 * zn n - K)%Z with (2 * (2 * zn (n / 2) + 1) - K)%Z by lia.
  change 4%Z with (2 * 2)%Z. rewrite sz_quarters, cz_quarters by lia. auto.
Qed.

Lemma t4_exact f x k : fft_exact f -> fft_len f = length x -> (length x mod 2 = 1)%nat ->
  (k < length x)%nat -> sem_t4_fft false f x k = dct4_at x k.
Proof.
  intros Hf HL Hodd Hk. rewrite dct4_core by exact Hodd. unfold sem_t4_fft.
  set (n := length x) in * . set (v := pre_t4_fft false x). rewrite <- HL.
  pose proof (fun j i => t4_scaled_exact f v j i Hf) as Hsc.
  pose proof (fun j => fft_out_nth f v j Hf) as Hnth. rewrite HL in * .
  set (Z := fft_out f _) in * .
  assert (Hv : forall j, snd (v j) = 0) by reflexivity.
  assert (Hn : (0 < n)%nat) by lia.
  pose proof (fun K c => D_period n v K c Hn) as Hper.
  pose proof (fun K => D_opp n v K Hn Hv) as Hopp.
  assert (Hmid : (k < 2 * (n / 4) \/ n - 1 - k < 2 * (n / 4) \/
    (2 * (n / 4) <= k /\ 2 * (n / 4) <= n - 1 - k))%nat) by lia.
  destruct Hmid as [Hlo|[Hhi|[Hm1 Hm2]]].
  - set (i := (k / 2)%nat). destruct (Nat.eq_dec (k mod 2) 0) as [Ek|Ek].
    + replace k with (i * 2)%nat by (unfold i; lia). rewrite post_t4_a by (unfold i; lia).
      rewrite Hsc by (unfold i; lia). cbn [fst snd]. change (add (T:=R)) with Rplus.
      replace (2 * zn (i * 2) + 1)%Z with (1 + 4 * zn i)%Z by lia.
      rewrite cz_turns, sz_turns, cz_4_1, sz_4_1 by lia.
      replace (zn (4 * i + 1)) with (1 + 4 * zn i)%Z by lia. ring.
    + replace k with (i * 2 + 1)%nat by (unfold i; lia). rewrite post_t4_b by (unfold i; lia).
      cbv zeta. cbn iota. rewrite Hsc by (unfold i; lia). cbn [fst snd].
      change (add (T:=R)) with Rplus. change (neg (T:=R)) with Ropp.
      replace (2 * zn (i * 2 + 1) + 1)%Z with (3 + 4 * zn i)%Z by lia.
      rewrite cz_turns, sz_turns, cz_4_3, sz_4_3 by lia.
      replace (zn (4 * i + 3)) with (3 + 4 * zn i)%Z by lia. ring.
  - set (i := ((n - 1 - k) / 2)%nat). destruct (Nat.eq_dec ((n - 1 - k) mod 2) 0) as [Ek|Ek].
    + replace k with (n - i * 2 - 1)%nat by (unfold i; lia). rewrite post_t4_d by (unfold i; lia).
      cbv zeta. rewrite Hsc by (unfold i; lia). cbn [fst snd]. rewrite ssign_exact by exact Hodd.
      change (sub (T:=R)) with Rminus. change (mul (T:=R)) with Rmult.
      replace (2 * zn (n - i * 2 - 1) + 1)%Z with (2 * zn n - (1 + 4 * zn i))%Z by (unfold i; lia).
      destruct (cz_4_top n (1 + 4 * zn i) Hodd) as [-> ->].
      replace (2 * zn n - (1 + 4 * zn i))%Z with (- (1 + 4 * zn i) + zn n * 2)%Z by lia.
      destruct (Hper (- (1 + 4 * zn i))%Z 2%Z) as [-> ->]. destruct (Hopp (1 + 4 * zn i)%Z) as [-> ->].
      rewrite cz_turns, sz_turns, cz_4_1, sz_4_1 by lia.
      replace (zn (4 * i + 1)) with (1 + 4 * zn i)%Z by lia. ring.
    + replace k with (n - i * 2 - 2)%nat by (unfold i; lia). rewrite post_t4_c by (unfold i; lia).
      cbv zeta. cbn iota. rewrite Hsc by (unfold i; lia). cbn [fst snd]. rewrite ssign_exact by exact Hodd.
      change (add (T:=R)) with Rplus. change (mul (T:=R)) with Rmult.
      replace (2 * zn (n - i * 2 - 2) + 1)%Z with (2 * zn n - (3 + 4 * zn i))%Z by (unfold i; lia).
      destruct (cz_4_top n (3 + 4 * zn i) Hodd) as [-> ->].
      replace (2 * zn n - (3 + 4 * zn i))%Z with (- (3 + 4 * zn i) + zn n * 2)%Z by lia.
      destruct (Hper (- (3 + 4 * zn i))%Z 2%Z) as [-> ->]. destruct (Hopp (3 + 4 * zn i)%Z) as [-> ->].
      rewrite cz_turns, sz_turns, cz_4_3, sz_4_3 by lia.
      replace (zn (4 * i + 3)) with (3 + 4 * zn i)%Z by lia. ring.
  - assert (H00 : Dim n v 0 = 0).
    { destruct (Hopp 0%Z) as [_ E]. change (- 0)%Z with 0%Z in E. lra. }
    destruct (Nat.eq_dec (n mod 4) 1) as [E1|E1].
    + replace k with (n / 2)%nat by lia. rewrite post_t4_mid1 by exact E1.
      rewrite Hnth by lia. cbn [fst]. rewrite sgn_alt.
      replace (2 * zn (n / 2) + 1)%Z with (0 + zn n * 1)%Z by lia.
      destruct (Hper 0%Z 1%Z) as [-> ->]. rewrite H00.
      replace (0 + zn n * 1)%Z with (1 + 4 * zn (n / 4))%Z by lia.
      rewrite cz_turns, cz_4_1 by lia. change (zn 0) with 0%Z. change (mul (T:=R)) with Rmult. simpl. ring.
    + rewrite post_t4_mid3 by lia. cbv zeta. rewrite Hsc by lia. cbn [fst snd].
      set (q := (n / 4)%nat) in * .
      change (add (T:=R)) with Rplus. change (mul (T:=R)) with Rmult. change (neg (T:=R)) with Ropp.
      destruct (Nat.eqb_spec k (n / 2 - 1)) as [Ea|Ea]; [|destruct (Nat.eqb_spec k (n / 2 + 1)) as [Eb|Eb]].
      * replace (2 * zn k + 1)%Z with (1 + 4 * zn q)%Z by lia.
        rewrite cz_turns, sz_turns, cz_4_1, sz_4_1 by lia.
        replace (zn (n - 2)) with (1 + 4 * zn q)%Z by lia. ring.
      * replace (2 * zn k + 1)%Z with (1 + 4 * zn (S q))%Z by lia.
        rewrite cz_turns, sz_turns, cz_4_1, sz_4_1, alt_S by lia.
        replace (1 + 4 * zn (S q))%Z with (- zn (n - 2) + zn n * 2)%Z by lia.
        destruct (Hper (- zn (n - 2))%Z 2%Z) as [-> ->]. destruct (Hopp (zn (n - 2))) as [-> ->]. ring.
      * cbn iota. rewrite Hnth by lia. cbn [fst]. rewrite sgn_alt.
        replace (2 * zn k + 1)%Z with (0 + zn n * 1)%Z by lia.
        destruct (Hper 0%Z 1%Z) as [-> ->]. rewrite H00.
        replace (0 + zn n * 1)%Z with (3 + 4 * zn q)%Z by lia.
        rewrite cz_turns, cz_4_3 by lia. change (zn 0) with 0%Z. simpl. ring.
Qed.

Lemma nth_rev_R (x : list R) i : (i < length x)%nat -> nth i (rev x) 0 = nth (length x - 1 - i) x 0.
Proof. intros H. rewrite rev_nth by exact H. f_equal. lia. Qed.

Lemma ext4_rev x p : (0 < length x)%nat -> ext4 (T:=R) true x p = ext4 false (rev x) p.
Proof.
  intros Hn. unfold ext4. cbv zeta. rewrite rev_length, !at_nth.
  pose proof (Nat.mod_upper_bound p (length x) ltac:(lia)).
  rewrite !nth_rev_R by lia.
  replace (length x - 1 - (length x - 1 - p mod length x))%nat with (p mod length x)%nat by lia. reflexivity.
Qed.

Lemma post_t4_alt n Z k : (n mod 2 = 1)%nat -> (k < n)%nat ->
  post_t4 (T:=R) true n Z k = alt k * post_t4 false n Z k.
Proof.
  intros Hn Hk. unfold post_t4. cbv zeta.
  change (add (T:=R)) with Rplus. change (mul (T:=R)) with Rmult. change (neg (T:=R)) with Ropp. change (sub (T:=R)) with Rminus.
  assert (He : (k mod 2 = 0)%nat -> alt k = 1) by (intros E; unfold alt; rewrite E; reflexivity).
  assert (Ho : (k mod 2 = 1)%nat -> alt k = -1) by (intros E; unfold alt; rewrite E; reflexivity).
  destruct (Nat.ltb_spec k (2 * (n / 4))).
  - destruct (Nat.eqb_spec (k mod 2) 0); [rewrite He by lia|rewrite Ho by lia]; ring.
  - destruct (Nat.ltb_spec (n - 1 - k) (2 * (n / 4))).
    + destruct (Nat.eqb_spec ((n - 1 - k) mod 2) 0); [rewrite He by lia|rewrite Ho by lia]; ring.
    + destruct (Nat.eqb_spec (n mod 4) 1); [rewrite He by lia; ring|].
      destruct (Nat.eqb_spec k (n / 2 - 1)); [rewrite He by lia; ring|].
      destruct (Nat.eqb_spec k (n / 2 + 1)); [rewrite He by lia; ring|]. rewrite Ho by lia. ring.
Qed.

Lemma t4_exact_dst f x k : fft_exact f -> fft_len f = length x -> (length x mod 2 = 1)%nat ->
  (k < length x)%nat -> sem_t4_fft true f x k = dst4_at x k.
Proof.
  intros Hf HL Hodd Hk. rewrite dst4_dct4_at by exact Hk.
  rewrite <- (t4_exact f (rev x)) by (rewrite ?rev_length; assumption).
  unfold sem_t4_fft. rewrite rev_length. rewrite post_t4_alt by assumption. f_equal. f_equal. f_equal.
  apply map_ext. intros t. unfold pre_t4_fft. rewrite rev_length, ext4_rev by lia. reflexivity.
Qed.
