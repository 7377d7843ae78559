(** The reference transforms: kernels, linearity, inverses. *)
From Coq Require Import Reals ZArith List Arith Lia Lra.
From Verif Require Import Spec Trig Ref.
Import ListNotations.
Open Scope R_scope.

(** * Sums of cosines over the grids *)
Lemma sum_cz_even d m n : (d <> 0)%Z ->
  2 * sz d m * sum (fun j => cz d (2 * m * zn j)) n = sz d (m * (2 * zn n - 1)) + sz d m.
Proof.
  intros Hd. induction n.
  - cbn [sum]. change (zn 0) with 0%Z. replace (m * (2 * 0 - 1))%Z with (- m)%Z by lia. rewrite sz_opp by exact Hd. lra.
  - cbn [sum]. rewrite Rmult_plus_distr_l, IHn. rewrite (Rmult_assoc 2), sz_cz by exact Hd.
    replace (m * (2 * zn (S n) - 1))%Z with (m + 2 * m * zn n)%Z by lia.
    replace (m - 2 * m * zn n)%Z with (- (m * (2 * zn n - 1)))%Z by lia. rewrite sz_opp by exact Hd. lra.
Qed.

(** Weights one half. *)
Lemma sum_half_first f n : (0 < n)%nat ->
  sum (fun j => half_when (j =? 0)%nat * f j) n = sum f n - / 2 * f 0%nat.
Proof.
  intros H. destruct n as [|n]; [lia|]. rewrite !sum_S_l. cbn [half_when Nat.eqb].
  rewrite (sum_ext (fun i => 1 * f (S i)) (fun i => f (S i))) by (intros; lra). lra.
Qed.
Lemma sum_half_last f n : (0 < n)%nat ->
  sum (fun j => half_when (j =? n - 1)%nat * f j) n = sum f n - / 2 * f (n - 1)%nat.
Proof.
  intros H. destruct n as [|n]; [lia|]. cbn [sum]. replace (S n - 1)%nat with n by lia. rewrite Nat.eqb_refl. cbn [half_when].
  rewrite (sum_ext (fun j => half_when (j =? n)%nat * f j) f); [lra|].
  intros i Hi. destruct (Nat.eqb_spec i n); [lia|]. cbn [half_when]. lra.
Qed.
Lemma sum_half_ends f n : (1 < n)%nat ->
  sum (fun j => half_when ((j =? 0) || (j =? n - 1))%nat%bool * f j) n = sum f n - / 2 * f 0%nat - / 2 * f (n - 1)%nat.
Proof.
  intros H. rewrite <- sum_half_first by lia.
  transitivity (sum (fun j => half_when (j =? n - 1)%nat * (half_when (j =? 0)%nat * f j)) n).
  - apply sum_ext. intros i Hi. destruct (Nat.eqb_spec i 0), (Nat.eqb_spec i (n - 1)); cbn [orb half_when]; try lia; lra.
  - rewrite sum_half_last by lia. destruct (Nat.eqb_spec (n - 1) 0); [lia|]. cbn [half_when]. lra.
Qed.

Lemma cz_step d m j : (d <> 0)%Z -> cz d (m + d * j) = cz d m * cz d (d * j).
Proof. intros H. rewrite cz_plus, (sz_d d H) by exact H. lra. Qed.
Lemma cz_d_sq d m : (d <> 0)%Z -> cz d (d * m) * cz d (d * m) = 1.
Proof. intros H. pose proof (cz_sz_1 d H (d * m)). rewrite (sz_d d H) in H0. lra. Qed.
Lemma sz_step d m j : (d <> 0)%Z -> sz d (m + d * j) = sz d m * cz d (d * j).
Proof. intros H. rewrite sz_plus, (sz_d d H) by exact H. lra. Qed.
Lemma cz_d_even d m : (d <> 0)%Z -> cz d (d * (2 * m)) = 1.
Proof. intros H. rewrite <- (cz_0 d H). apply (cz_eq d H _ _ m). ring. Qed.
Lemma cz_d_odd d m : (d <> 0)%Z -> cz d (d * (2 * m + 1)) = -1.
Proof. intros H. transitivity (cz d (0 + d)); [apply (cz_eq d H _ _ m); ring|]. rewrite (cz_half_turn d H), (cz_0 d H). lra. Qed.
Lemma cz_d_parity d a b q : (d <> 0)%Z -> (a = b + 2 * q)%Z -> cz d (d * a) = cz d (d * b).
Proof. intros H ->. apply (cz_eq d H _ _ q). ring. Qed.
Lemma cz_d_parity' d a b q : (d <> 0)%Z -> (a = b + 2 * q + 1)%Z -> cz d (d * a) = - cz d (d * b).
Proof. intros H ->. rewrite <- (cz_half_turn d H). apply (cz_eq d H _ _ q). ring. Qed.

Ltac cancel_sine d m := apply (Rmult_eq_reg_l (2 * sz d m));
  [|pose proof (sz_neq_0 d m ltac:(lia) ltac:(assumption)); lra].

Lemma grid_odd n m : (0 < n)%nat -> (m mod (2 * zn n) <> 0)%Z ->
  sum (fun j => cz (2 * zn n) (m * (2 * zn j + 1))) n = 0.
Proof.
  intros Hn Hm. cancel_sine (2 * zn n)%Z m. rewrite sum_cz_odd by lia.
  replace (2 * m * zn n)%Z with (2 * zn n * m)%Z by lia. rewrite sz_d by lia. lra.
Qed.
Lemma grid_first n m : (0 < n)%nat -> (m mod (2 * zn n - 1) <> 0)%Z ->
  sum (fun j => half_when (j =? 0)%nat * cz (2 * zn n - 1) (2 * m * zn j)) n = 0.
Proof.
  intros Hn Hm. rewrite (sum_half_first (fun j => cz (2 * zn n - 1) (2 * m * zn j))) by exact Hn. change (zn 0) with 0%Z. rewrite Z.mul_0_r, cz_0 by lia.
  cancel_sine (2 * zn n - 1)%Z m. rewrite Rmult_minus_distr_l, sum_cz_even by lia.
  rewrite (Z.mul_comm m (2 * zn n - 1)), sz_d by lia. lra.
Qed.
Lemma grid_last n m : (0 < n)%nat -> (m mod (2 * zn n - 1) <> 0)%Z ->
  sum (fun j => half_when (j =? n - 1)%nat * cz (2 * zn n - 1) (m * (2 * zn j + 1))) n = 0.
Proof.
  intros Hn Hm. rewrite (sum_half_last (fun j => cz (2 * zn n - 1) (m * (2 * zn j + 1)))) by exact Hn.
  cancel_sine (2 * zn n - 1)%Z m. rewrite Rmult_minus_distr_l, sum_cz_odd by lia.
  replace (2 * m * zn n)%Z with (m + (2 * zn n - 1) * m)%Z by lia. rewrite sz_step by lia.
  replace (m * (2 * zn (n - 1) + 1))%Z with ((2 * zn n - 1) * m)%Z by lia. lra.
Qed.
Lemma grid_ends n m : (1 < n)%nat -> (m mod (2 * (zn n - 1)) <> 0)%Z ->
  sum (fun j => half_when ((j =? 0) || (j =? n - 1))%nat%bool * cz (zn n - 1) (m * zn j)) n = 0.
Proof.
  intros Hn Hm. rewrite (sum_half_ends (fun j => cz (zn n - 1) (m * zn j))) by exact Hn. change (zn 0) with 0%Z. rewrite Z.mul_0_r, cz_0 by lia.
  rewrite (sum_ext _ (fun j => cz (2 * (zn n - 1)) (2 * m * zn j))).
  2: { intros j _. rewrite <- (cz_scale (zn n - 1) ltac:(lia) 2 _ ltac:(lia)). f_equal. ring. }
  rewrite <- (cz_scale (zn n - 1) ltac:(lia) 2 (m * _)) by lia.
  cancel_sine (2 * (zn n - 1))%Z m. rewrite !Rmult_minus_distr_l, sum_cz_even by lia.
  replace (m * (2 * zn n - 1))%Z with (m + 2 * (zn n - 1) * m)%Z by lia. rewrite sz_step by lia.
  replace (2 * (m * zn (n - 1)))%Z with (2 * (zn n - 1) * m)%Z by lia. lra.
Qed.
(** The same, cut short. *)
Lemma grid_last_open n m : (m mod (2 * zn n + 1) <> 0)%Z ->
  sum (fun j => cz (2 * zn n + 1) (m * (2 * zn j + 1))) n = - / 2 * cz (2 * zn n + 1) ((2 * zn n + 1) * m).
Proof.
  intros Hm. pose proof (grid_last (S n) m ltac:(lia)) as H. replace (2 * zn (S n) - 1)%Z with (2 * zn n + 1)%Z in H by lia. specialize (H Hm).
  rewrite (sum_half_last (fun j => cz (2 * zn n + 1) (m * (2 * zn j + 1)))) in H by lia. cbn [sum] in H.
  replace (S n - 1)%nat with n in H by lia. rewrite (Z.mul_comm _ m). lra.
Qed.
Lemma grid_first_open n m : (m mod (2 * zn n + 1) <> 0)%Z ->
  sum (fun j => cz (2 * zn n + 1) (2 * m * (zn j + 1))) n = - / 2.
Proof.
  intros Hm. pose proof (grid_first (S n) m ltac:(lia)) as H. replace (2 * zn (S n) - 1)%Z with (2 * zn n + 1)%Z in H by lia. specialize (H Hm).
  rewrite sum_S_l in H. cbn [half_when Nat.eqb] in H. change (zn 0) with 0%Z in H. rewrite Z.mul_0_r, cz_0 in H by lia.
  rewrite (sum_ext _ (fun j => cz (2 * zn n + 1) (2 * m * (zn j + 1)))) in H; [lra|].
  intros j _. rewrite Rmult_1_l. f_equal. lia.
Qed.
Lemma grid_ends_open n m : (m mod (2 * (zn n + 1)) <> 0)%Z ->
  sum (fun j => cz (zn n + 1) (m * (zn j + 1))) n = - / 2 - / 2 * cz (zn n + 1) ((zn n + 1) * m).
Proof.
  intros Hm. pose proof (grid_ends (S (S n)) m ltac:(lia)) as H. replace (zn (S (S n)) - 1)%Z with (zn n + 1)%Z in H by lia. specialize (H Hm).
  rewrite (sum_half_ends (fun j => cz (zn n + 1) (m * zn j))) in H by lia. rewrite sum_S_l in H. cbn [sum] in H.
  replace (S (S n) - 1)%nat with (S n) in H by lia. change (zn 0) with 0%Z in H. rewrite Z.mul_0_r, cz_0 in H by lia.
  replace (m * zn (S n))%Z with ((zn n + 1) * m)%Z in H by lia.
  rewrite (sum_ext _ (fun j => cz (zn n + 1) (m * zn (S j)))); [lra|]. intros j _. f_equal. lia.
Qed.
Lemma grid_half_open n m : (0 < n)%nat -> (m mod (2 * zn n) <> 0)%Z ->
  sum (fun j => half_when (j =? 0)%nat * cz (zn n) (m * zn j)) n = - / 2 * cz (zn n) (zn n * m).
Proof.
  intros Hn Hm. pose proof (grid_ends (S n) m ltac:(lia)) as H. replace (zn (S n) - 1)%Z with (zn n) in H by lia. specialize (H Hm).
  rewrite (sum_half_ends (fun j => cz (zn n) (m * zn j))) in H by lia. cbn [sum] in H. replace (S n - 1)%nat with n in H by lia.
  rewrite (sum_half_first (fun j => cz (zn n) (m * zn j))) by exact Hn. rewrite (Z.mul_comm (zn n) m). lra.
Qed.
(** At zero. *)
Lemma sum_one f n : (forall j, (j < n)%nat -> f j = 1) -> sum f n = INR n.
Proof. intros H. rewrite (sum_ext _ (fun _ => 1)) by exact H. rewrite sum_const. lra. Qed.

(** * Kernels *)
Definition kern (t : list R -> nat -> R) (n : nat) (K : nat -> nat -> R) : Prop :=
  forall x k, length x = n -> (k < n)%nat -> t x k = sum (fun i => nth i x 0 * K k i) n.

Lemma transform_length t x : length (transform t x) = length x.
Proof. unfold transform. rewrite map_length, seq_length. reflexivity. Qed.
Lemma nth_transform t x k : (k < length x)%nat -> nth k (transform t x) 0 = t x k.
Proof. intros H. unfold transform. apply nth_map_seq, H. Qed.

Lemma kern_compose t1 t2 n K1 K2 c : kern t1 n K1 -> kern t2 n K2 ->
  (forall k i, (k < n)%nat -> (i < n)%nat -> sum (fun j => K2 k j * K1 j i) n = if (i =? k)%nat then c else 0) ->
  forall x, length x = n -> transform t2 (transform t1 x) = scale c x.
Proof.
  intros H1 H2 HD x Hx. apply (nth_ext _ _ 0 0).
  { unfold scale. rewrite !transform_length, map_length. reflexivity. }
  intros k Hk. rewrite !transform_length in Hk. rewrite nth_transform by (rewrite transform_length; exact Hk).
  rewrite H2; [|rewrite transform_length; exact Hx|lia].
  unfold scale. rewrite (nth_indep _ 0 (c * 0)) by (rewrite map_length; exact Hk). rewrite (map_nth (Rmult c)).
  rewrite (sum_ext _ (fun j => sum (fun i => nth i x 0 * (K2 k j * K1 j i)) n)).
  2: { intros j Hj. rewrite nth_transform by lia. rewrite H1 by (try exact Hx; exact Hj). rewrite <- sum_scal_r.
       apply sum_ext. intros i Hi. lra. }
  rewrite sum_swap. rewrite (sum_ext _ (fun i => nth i x 0 * (if (i =? k)%nat then c else 0))).
  2: { intros i Hi. rewrite sum_scal_l. rewrite HD by lia. reflexivity. }
  rewrite (sum_single _ n k ltac:(lia)).
  - rewrite Nat.eqb_refl. lra.
  - intros i Hi Hik. destruct (Nat.eqb_spec i k); [lia|]. lra.
Qed.

(** Linear combination of two vectors of one length. *)
Lemma kern_linear t n K a b x y : kern t n K -> length x = n -> length y = n ->
  transform t (add_lists (scale a x) (scale b y)) = add_lists (scale a (transform t x)) (scale b (transform t y)).
Proof.
  intros H Hx Hy. assert (L : length (add_lists (scale a x) (scale b y)) = n).
  { unfold add_lists, scale. rewrite map_length, seq_length, map_length. exact Hx. }
  assert (Ns : forall c l k, (k < length l)%nat -> nth k (scale c l) 0 = c * nth k l 0).
  { intros c l k Hk. unfold scale. rewrite (nth_indep _ 0 (c * 0)) by (rewrite map_length; exact Hk). apply (map_nth (Rmult c)). }
  assert (Na : forall u v k, (k < length u)%nat -> nth k (add_lists u v) 0 = nth k u 0 + nth k v 0).
  { intros u v k Hk. unfold add_lists. apply (nth_map_seq (fun i => nth i u 0 + nth i v 0)), Hk. }
  assert (Ls : forall c l, length (scale c l) = length l) by (intros; unfold scale; apply map_length).
  apply (nth_ext _ _ 0 0).
  { rewrite transform_length, L. unfold add_lists. rewrite map_length, seq_length, Ls, transform_length. symmetry. exact Hx. }
  intros k Hk. rewrite transform_length, L in Hk. rewrite nth_transform by lia. rewrite H by (try exact L; exact Hk).
  rewrite Na by (rewrite Ls, transform_length; lia). rewrite !Ns by (rewrite transform_length; lia).
  rewrite !nth_transform by lia. rewrite !H by assumption. rewrite <- !sum_scal_l, <- sum_plus. apply sum_ext. intros i Hi.
  rewrite Na by (rewrite Ls; lia). rewrite !Ns by lia. lra.
Qed.

Ltac kern_by L := intros x k Hx Hk; rewrite L by lia; rewrite Hx; apply sum_ext; intros i Hi; try lra; try ring.
Section Kernels.
Variable n : nat.
Definition k_dct1 k i := half_when ((i =? 0) || (i =? n - 1))%nat%bool * cz (zn n - 1) (zn k * zn i).
Definition k_dct2 k i := cz (2 * zn n) (zn k * (2 * zn i + 1)).
Definition k_dct3 k i := half_when (i =? 0)%nat * cz (2 * zn n) ((2 * zn k + 1) * zn i).
Definition k_dct4 k i := cz (4 * zn n) ((2 * zn k + 1) * (2 * zn i + 1)).
Definition k_dct5 k i := half_when (i =? 0)%nat * cz (2 * zn n - 1) (2 * zn k * zn i).
Definition k_dct6 k i := half_when (i =? n - 1)%nat * cz (2 * zn n - 1) (zn k * (2 * zn i + 1)).
Definition k_dct7 k i := half_when (i =? 0)%nat * cz (2 * zn n - 1) ((2 * zn k + 1) * zn i).
Definition k_dct8 k i := cz (2 * (2 * zn n + 1)) ((2 * zn k + 1) * (2 * zn i + 1)).
Definition k_dst1 k i := sz (zn n + 1) ((zn k + 1) * (zn i + 1)).
Definition k_dst2 k i := sz (2 * zn n) ((zn k + 1) * (2 * zn i + 1)).
Definition k_dst3 k i := half_when (i =? n - 1)%nat * sz (2 * zn n) ((2 * zn k + 1) * (zn i + 1)).
Definition k_dst4 k i := sz (4 * zn n) ((2 * zn k + 1) * (2 * zn i + 1)).
Definition k_dst5 k i := sz (2 * zn n + 1) (2 * (zn k + 1) * (zn i + 1)).
Definition k_dst6 k i := sz (2 * zn n + 1) ((zn k + 1) * (2 * zn i + 1)).
Definition k_dst7 k i := sz (2 * zn n + 1) ((2 * zn k + 1) * (zn i + 1)).
Definition k_dst8 k i := half_when (i =? n - 1)%nat * sz (2 * (2 * zn n - 1)) ((2 * zn k + 1) * (2 * zn i + 1)).

Lemma kern_dct1 : (1 < n)%nat -> kern dct1_at n k_dct1.
Proof. intros Hn. unfold k_dct1. kern_by dct1_cz. Qed.
Lemma kern_dct2 : kern dct2_at n k_dct2. Proof. unfold k_dct2. kern_by dct2_cz. Qed.
Lemma kern_dct3 : kern dct3_at n k_dct3. Proof. unfold k_dct3. kern_by dct3_cz. Qed.
Lemma kern_dct4 : kern dct4_at n k_dct4. Proof. unfold k_dct4. kern_by dct4_cz. Qed.
Lemma kern_dct5 : kern dct5_at n k_dct5. Proof. unfold k_dct5. kern_by dct5_cz. Qed.
Lemma kern_dct6 : kern dct6_at n k_dct6. Proof. unfold k_dct6. kern_by dct6_cz. Qed.
Lemma kern_dct7 : kern dct7_at n k_dct7. Proof. unfold k_dct7. kern_by dct7_cz. Qed.
Lemma kern_dct8 : kern dct8_at n k_dct8. Proof. unfold k_dct8. kern_by dct8_cz. Qed.
Lemma kern_dst1 : kern dst1_at n k_dst1. Proof. unfold k_dst1. kern_by dst1_cz. Qed.
Lemma kern_dst2 : kern dst2_at n k_dst2. Proof. unfold k_dst2. kern_by dst2_cz. Qed.
Lemma kern_dst3 : kern dst3_at n k_dst3. Proof. unfold k_dst3. kern_by dst3_cz. Qed.
Lemma kern_dst4 : kern dst4_at n k_dst4. Proof. unfold k_dst4. kern_by dst4_cz. Qed.
Lemma kern_dst5 : kern dst5_at n k_dst5. Proof. unfold k_dst5. kern_by dst5_cz. Qed.
Lemma kern_dst6 : kern dst6_at n k_dst6. Proof. unfold k_dst6. kern_by dst6_cz. Qed.
Lemma kern_dst7 : kern dst7_at n k_dst7. Proof. unfold k_dst7. kern_by dst7_cz. Qed.
Lemma kern_dst8 : kern dst8_at n k_dst8. Proof. unfold k_dst8. kern_by dst8_cz. Qed.
End Kernels.

(** * Orthogonality *)
Lemma nz m D : (- D < m < D)%Z -> m <> 0%Z -> (m mod D <> 0)%Z.
Proof. intros H H0 E. apply Z.mod_divide in E; [|lia]. destruct E as [q E].
  assert (q = 0 \/ q <= -1 \/ 1 <= q)%Z by lia. nia. Qed.

Lemma sum_cc d n w (a b u v : nat -> Z) : (d <> 0)%Z -> (forall j, u j = a j - b j)%Z -> (forall j, v j = a j + b j)%Z ->
  sum (fun j => w j * (cz d (a j) * cz d (b j))) n
  = / 2 * (sum (fun j => w j * cz d (u j)) n + sum (fun j => w j * cz d (v j)) n).
Proof.
  intros Hd Hu Hv. rewrite <- sum_plus, <- sum_scal_l. apply sum_ext. intros j _. rewrite cz_cz, Hu, Hv by exact Hd. lra.
Qed.
Lemma sum_ss d n w (a b u v : nat -> Z) : (d <> 0)%Z -> (forall j, u j = a j - b j)%Z -> (forall j, v j = a j + b j)%Z ->
  sum (fun j => w j * (sz d (a j) * sz d (b j))) n
  = / 2 * (sum (fun j => w j * cz d (u j)) n - sum (fun j => w j * cz d (v j)) n).
Proof.
  intros Hd Hu Hv. rewrite <- sum_minus, <- sum_scal_l. apply sum_ext. intros j _. rewrite sz_sz, Hu, Hv by exact Hd. lra.
Qed.
Lemma unit_weight f n : sum (fun j => 1 * f j) n = sum f n.
Proof. apply sum_ext. intros; lra. Qed.

(** Values of the weighted sums at multiples of the period. *)
Lemma ends_period n q : (1 < n)%nat ->
  sum (fun j => half_when ((j =? 0) || (j =? n - 1))%nat%bool * cz (zn n - 1) ((2 * (zn n - 1) * q) * zn j)) n = INR n - 1.
Proof.
  intros Hn. rewrite (sum_half_ends (fun j => cz (zn n - 1) ((2 * (zn n - 1) * q) * zn j))) by exact Hn.
  assert (E : forall j, cz (zn n - 1) (2 * (zn n - 1) * q * zn j) = 1).
  { intros j. rewrite <- (cz_0 (zn n - 1) ltac:(lia)). apply (cz_eq (zn n - 1) ltac:(lia) _ _ (q * zn j)). ring. }
  rewrite sum_one by (intros; apply E). rewrite !E. lra.
Qed.
Lemma first_period n q : (0 < n)%nat ->
  sum (fun j => half_when (j =? 0)%nat * cz (2 * zn n - 1) (2 * ((2 * zn n - 1) * q) * zn j)) n = INR n - / 2.
Proof.
  intros Hn. rewrite (sum_half_first (fun j => cz (2 * zn n - 1) (2 * ((2 * zn n - 1) * q) * zn j))) by exact Hn.
  assert (E : forall j, cz (2 * zn n - 1) (2 * ((2 * zn n - 1) * q) * zn j) = 1).
  { intros j. rewrite <- (cz_0 (2 * zn n - 1) ltac:(lia)). apply (cz_eq (2 * zn n - 1) ltac:(lia) _ _ (q * zn j)). ring. }
  rewrite sum_one by (intros; apply E). rewrite !E. lra.
Qed.
Lemma last_zero n : (0 < n)%nat ->
  sum (fun j => half_when (j =? n - 1)%nat * cz (2 * zn n - 1) (0 * (2 * zn j + 1))) n = INR n - / 2.
Proof.
  intros Hn. rewrite (sum_half_last (fun j => cz (2 * zn n - 1) (0 * (2 * zn j + 1)))) by exact Hn.
  rewrite sum_one by (intros; apply cz_0; lia). rewrite Z.mul_0_l, cz_0 by lia. lra.
Qed.
Lemma last_half n : (0 < n)%nat ->
  sum (fun j => half_when (j =? n - 1)%nat * cz (2 * zn n - 1) ((2 * zn n - 1) * (2 * zn j + 1))) n = - (INR n - / 2).
Proof.
  intros Hn. rewrite (sum_ext _ (fun j => - (half_when (j =? n - 1)%nat * 1))).
  2: { intros j _. rewrite cz_d_odd by lia. lra. }
  rewrite sum_opp, (sum_half_last (fun _ => 1)) by exact Hn. rewrite sum_const. lra.
Qed.
Lemma odd_zero d n : (d <> 0)%Z -> sum (fun j => cz d (0 * (2 * zn j + 1))) n = INR n.
Proof. intros Hd. apply sum_one. intros. apply cz_0, Hd. Qed.
Lemma odd_zero' d n : (d <> 0)%Z -> sum (fun j => cz d (0 * (zn j + 1))) n = INR n.
Proof. intros Hd. apply sum_one. intros. apply cz_0, Hd. Qed.
Lemma odd_zero'' d n : (d <> 0)%Z -> sum (fun j => cz d (2 * 0 * (zn j + 1))) n = INR n.
Proof. intros Hd. apply sum_one. intros. apply cz_0, Hd. Qed.

Section Orth.
Variables n k i : nat.
Hypothesis Hk : (k < n)%nat.
Hypothesis Hi : (i < n)%nat.
Notation delta c := (if (i =? k)%nat then c else 0).

Lemma orth_dct1 : (1 < n)%nat -> sum (fun j => k_dct1 n k j * k_dct1 n j i) n = delta ((INR n - 1) / 2).
Proof.
  intros Hn. unfold k_dct1. set (hi := half_when ((i =? 0) || (i =? n - 1))%nat%bool).
  rewrite (sum_ext _ (fun j => hi * (half_when ((j =? 0) || (j =? n - 1))%nat%bool * (cz (zn n - 1) (zn k * zn j) * cz (zn n - 1) (zn j * zn i)))))
    by (intros; ring).
  rewrite sum_scal_l, (sum_cc (zn n - 1) n _ _ _ (fun j => (zn k - zn i) * zn j)%Z (fun j => (zn k + zn i) * zn j)%Z) by lia.
  destruct (Nat.eqb_spec i k) as [E|E].
  - replace (zn k - zn i)%Z with (2 * (zn n - 1) * 0)%Z by lia. rewrite ends_period by exact Hn.
    unfold hi. destruct (Nat.eqb_spec i 0) as [E0|E0]; [|destruct (Nat.eqb_spec i (n - 1)) as [E1|E1]]; cbn [orb half_when].
    + replace (zn k + zn i)%Z with (2 * (zn n - 1) * 0)%Z by lia. rewrite ends_period by exact Hn. lra.
    + replace (zn k + zn i)%Z with (2 * (zn n - 1) * 1)%Z by lia. rewrite ends_period by exact Hn. lra.
    + rewrite grid_ends by (try apply nz; lia). lra.
  - rewrite !grid_ends by (try apply nz; lia). lra.
Qed.

Lemma orth_dct23 : sum (fun j => k_dct2 n k j * k_dct3 n j i) n = delta (INR n / 2).
Proof.
  unfold k_dct2, k_dct3. set (hi := half_when (i =? 0)%nat).
  rewrite (sum_ext _ (fun j => hi * (1 * (cz (2 * zn n) (zn k * (2 * zn j + 1)) * cz (2 * zn n) ((2 * zn j + 1) * zn i))))) by (intros; ring).
  rewrite sum_scal_l, (sum_cc (2 * zn n) n _ _ _ (fun j => (zn k - zn i) * (2 * zn j + 1))%Z (fun j => (zn k + zn i) * (2 * zn j + 1))%Z) by lia.
  rewrite !unit_weight. destruct (Nat.eqb_spec i k) as [E|E].
  - replace (zn k - zn i)%Z with 0%Z by lia. rewrite odd_zero by lia. unfold hi. destruct (Nat.eqb_spec i 0) as [E0|E0]; cbn [half_when].
    + replace (zn k + zn i)%Z with 0%Z by lia. rewrite odd_zero by lia. lra.
    + rewrite grid_odd by (try apply nz; lia). lra.
  - rewrite !grid_odd by (try apply nz; lia). lra.
Qed.
Lemma orth_dct32 : sum (fun j => k_dct3 n k j * k_dct2 n j i) n = delta (INR n / 2).
Proof.
  unfold k_dct2, k_dct3.
  rewrite (sum_ext _ (fun j => half_when (j =? 0)%nat * (cz (2 * zn n) ((2 * zn k + 1) * zn j) * cz (2 * zn n) (zn j * (2 * zn i + 1))))) by (intros; ring).
  rewrite (sum_cc (2 * zn n) n _ _ _ (fun j => 2 * ((zn k - zn i) * zn j))%Z (fun j => 2 * ((zn k + zn i + 1) * zn j))%Z) by lia.
  rewrite !(sum_ext (fun j => half_when (j =? 0)%nat * cz (2 * zn n) (2 * (_ * zn j))) (fun j => half_when (j =? 0)%nat * cz (zn n) (_ * zn j)))
    by (intros; rewrite cz_scale by lia; reflexivity).
  rewrite (grid_half_open n (zn k + zn i + 1)) by (try apply nz; lia).
  destruct (Nat.eqb_spec i k) as [E|E].
  - replace (zn k - zn i)%Z with 0%Z by lia. rewrite (sum_half_first (fun j => cz (zn n) (0 * zn j))) by lia.
    rewrite sum_one by (intros; apply cz_0; lia). rewrite Z.mul_0_l, cz_0 by lia.
    replace (zn k + zn i + 1)%Z with (2 * zn k + 1)%Z by lia. rewrite cz_d_odd by lia. lra.
  - rewrite grid_half_open by (try apply nz; lia).
    rewrite (cz_d_parity' (zn n) (zn k + zn i + 1) (zn k - zn i) (zn i)) by lia. lra.
Qed.
Lemma orth_dct4 : sum (fun j => k_dct4 n k j * k_dct4 n j i) n = delta (INR n / 2).
Proof.
  unfold k_dct4.
  rewrite (sum_ext _ (fun j => 1 * (cz (4 * zn n) ((2 * zn k + 1) * (2 * zn j + 1)) * cz (4 * zn n) ((2 * zn j + 1) * (2 * zn i + 1))))) by (intros; ring).
  rewrite (sum_cc (4 * zn n) n _ _ _ (fun j => 2 * ((zn k - zn i) * (2 * zn j + 1)))%Z (fun j => 2 * ((zn k + zn i + 1) * (2 * zn j + 1)))%Z) by lia.
  rewrite !unit_weight. replace (4 * zn n)%Z with (2 * (2 * zn n))%Z by lia.
  rewrite !(sum_ext (fun j => cz (2 * (2 * zn n)) (2 * (_ * _))) (fun j => cz (2 * zn n) (_ * (2 * zn j + 1))))
    by (intros; rewrite cz_scale by lia; reflexivity).
  rewrite (grid_odd n (zn k + zn i + 1)) by (try apply nz; lia).
  destruct (Nat.eqb_spec i k) as [E|E].
  - replace (zn k - zn i)%Z with 0%Z by lia. rewrite odd_zero by lia. lra.
  - rewrite grid_odd by (try apply nz; lia). lra.
Qed.
Lemma orth_dst4 : sum (fun j => k_dst4 n k j * k_dst4 n j i) n = delta (INR n / 2).
Proof.
  unfold k_dst4.
  rewrite (sum_ext _ (fun j => 1 * (sz (4 * zn n) ((2 * zn k + 1) * (2 * zn j + 1)) * sz (4 * zn n) ((2 * zn j + 1) * (2 * zn i + 1))))) by (intros; ring).
  rewrite (sum_ss (4 * zn n) n _ _ _ (fun j => 2 * ((zn k - zn i) * (2 * zn j + 1)))%Z (fun j => 2 * ((zn k + zn i + 1) * (2 * zn j + 1)))%Z) by lia.
  rewrite !unit_weight. replace (4 * zn n)%Z with (2 * (2 * zn n))%Z by lia.
  rewrite !(sum_ext (fun j => cz (2 * (2 * zn n)) (2 * (_ * _))) (fun j => cz (2 * zn n) (_ * (2 * zn j + 1))))
    by (intros; rewrite cz_scale by lia; reflexivity).
  rewrite (grid_odd n (zn k + zn i + 1)) by (try apply nz; lia).
  destruct (Nat.eqb_spec i k) as [E|E].
  - replace (zn k - zn i)%Z with 0%Z by lia. rewrite odd_zero by lia. lra.
  - rewrite grid_odd by (try apply nz; lia). lra.
Qed.
Lemma orth_dct5 : sum (fun j => k_dct5 n k j * k_dct5 n j i) n = delta ((INR n - / 2) / 2).
Proof.
  unfold k_dct5. set (hi := half_when (i =? 0)%nat). set (d := (2 * zn n - 1)%Z).
  rewrite (sum_ext _ (fun j => hi * (half_when (j =? 0)%nat * (cz d (2 * zn k * zn j) * cz d (2 * zn j * zn i))))) by (intros; ring).
  rewrite sum_scal_l, (sum_cc d n _ _ _ (fun j => 2 * (zn k - zn i) * zn j)%Z (fun j => 2 * (zn k + zn i) * zn j)%Z) by lia. unfold d.
  destruct (Nat.eqb_spec i k) as [E|E].
  - replace (zn k - zn i)%Z with ((2 * zn n - 1) * 0)%Z by lia. rewrite first_period by lia. unfold hi.
    destruct (Nat.eqb_spec i 0) as [E0|E0]; cbn [half_when].
    + replace (zn k + zn i)%Z with ((2 * zn n - 1) * 0)%Z by lia. rewrite first_period by lia. lra.
    + rewrite grid_first by (try apply nz; lia). lra.
  - rewrite !grid_first by (try apply nz; lia). lra.
Qed.
Lemma orth_dct76 : sum (fun j => k_dct7 n k j * k_dct6 n j i) n = delta ((INR n - / 2) / 2).
Proof.
  unfold k_dct6, k_dct7. set (hi := half_when (i =? n - 1)%nat). set (d := (2 * zn n - 1)%Z).
  rewrite (sum_ext _ (fun j => hi * (half_when (j =? 0)%nat * (cz d ((2 * zn k + 1) * zn j) * cz d (zn j * (2 * zn i + 1)))))) by (intros; ring).
  rewrite sum_scal_l, (sum_cc d n _ _ _ (fun j => 2 * (zn k - zn i) * zn j)%Z (fun j => 2 * (zn k + zn i + 1) * zn j)%Z) by lia. unfold d.
  destruct (Nat.eqb_spec i k) as [E|E].
  - replace (zn k - zn i)%Z with ((2 * zn n - 1) * 0)%Z by lia. rewrite first_period by lia. unfold hi.
    destruct (Nat.eqb_spec i (n - 1)) as [E0|E0]; cbn [half_when].
    + replace (zn k + zn i + 1)%Z with ((2 * zn n - 1) * 1)%Z by lia. rewrite first_period by lia. lra.
    + rewrite grid_first by (try apply nz; lia). lra.
  - rewrite !grid_first by (try apply nz; lia). lra.
Qed.
Lemma orth_dct67 : sum (fun j => k_dct6 n k j * k_dct7 n j i) n = delta ((INR n - / 2) / 2).
Proof.
  unfold k_dct6, k_dct7. set (hi := half_when (i =? 0)%nat). set (d := (2 * zn n - 1)%Z).
  rewrite (sum_ext _ (fun j => hi * (half_when (j =? n - 1)%nat * (cz d (zn k * (2 * zn j + 1)) * cz d ((2 * zn j + 1) * zn i))))) by (intros; ring).
  rewrite sum_scal_l, (sum_cc d n _ _ _ (fun j => (zn k - zn i) * (2 * zn j + 1))%Z (fun j => (zn k + zn i) * (2 * zn j + 1))%Z) by lia. unfold d.
  destruct (Nat.eqb_spec i k) as [E|E].
  - replace (zn k - zn i)%Z with 0%Z by lia. rewrite last_zero by lia. unfold hi.
    destruct (Nat.eqb_spec i 0) as [E0|E0]; cbn [half_when].
    + replace (zn k + zn i)%Z with 0%Z by lia. rewrite last_zero by lia. lra.
    + rewrite grid_last by (try apply nz; lia). lra.
  - rewrite !grid_last by (try apply nz; lia). lra.
Qed.
Lemma orth_dst8 : sum (fun j => k_dst8 n k j * k_dst8 n j i) n = delta ((INR n - / 2) / 2).
Proof.
  unfold k_dst8. set (hi := half_when (i =? n - 1)%nat). set (d := (2 * (2 * zn n - 1))%Z).
  rewrite (sum_ext _ (fun j => hi * (half_when (j =? n - 1)%nat * (sz d ((2 * zn k + 1) * (2 * zn j + 1)) * sz d ((2 * zn j + 1) * (2 * zn i + 1)))))) by (intros; ring).
  rewrite sum_scal_l, (sum_ss d n _ _ _ (fun j => 2 * ((zn k - zn i) * (2 * zn j + 1)))%Z (fun j => 2 * ((zn k + zn i + 1) * (2 * zn j + 1)))%Z) by lia.
  unfold d. rewrite !(sum_ext (fun j => _ * cz (2 * (2 * zn n - 1)) (2 * (_ * _))) (fun j => half_when (j =? n - 1)%nat * cz (2 * zn n - 1) (_ * (2 * zn j + 1))))
    by (intros; rewrite cz_scale by lia; reflexivity).
  destruct (Nat.eqb_spec i k) as [E|E].
  - replace (zn k - zn i)%Z with 0%Z by lia. rewrite last_zero by lia. unfold hi.
    destruct (Nat.eqb_spec i (n - 1)) as [E0|E0]; cbn [half_when].
    + replace (zn k + zn i + 1)%Z with (2 * zn n - 1)%Z by lia. rewrite last_half by lia. lra.
    + rewrite grid_last by (try apply nz; lia). lra.
  - rewrite grid_last by (try apply nz; lia). destruct (Nat.eqb_spec (k + i + 1) (2 * n - 1)); [lia|].
    rewrite grid_last by (try apply nz; lia). lra.
Qed.
Lemma orth_dct8 : sum (fun j => k_dct8 n k j * k_dct8 n j i) n = delta ((INR n + / 2) / 2).
Proof.
  unfold k_dct8. set (d := (2 * (2 * zn n + 1))%Z).
  rewrite (sum_ext _ (fun j => 1 * (cz d ((2 * zn k + 1) * (2 * zn j + 1)) * cz d ((2 * zn j + 1) * (2 * zn i + 1))))) by (intros; ring).
  rewrite (sum_cc d n _ _ _ (fun j => 2 * ((zn k - zn i) * (2 * zn j + 1)))%Z (fun j => 2 * ((zn k + zn i + 1) * (2 * zn j + 1)))%Z) by lia.
  rewrite !unit_weight. unfold d.
  rewrite !(sum_ext (fun j => cz (2 * (2 * zn n + 1)) (2 * (_ * _))) (fun j => cz (2 * zn n + 1) (_ * (2 * zn j + 1))))
    by (intros; rewrite cz_scale by lia; reflexivity).
  rewrite (grid_last_open n (zn k + zn i + 1)) by (try apply nz; lia).
  destruct (Nat.eqb_spec i k) as [E|E].
  - replace (zn k - zn i)%Z with 0%Z by lia. rewrite odd_zero by lia.
    replace (zn k + zn i + 1)%Z with (2 * zn k + 1)%Z by lia. rewrite cz_d_odd by lia. lra.
  - rewrite grid_last_open by (try apply nz; lia).
    rewrite (cz_d_parity' (2 * zn n + 1) (zn k + zn i + 1) (zn k - zn i) (zn i)) by lia. lra.
Qed.
Lemma orth_dst1 : sum (fun j => k_dst1 n k j * k_dst1 n j i) n = delta ((INR n + 1) / 2).
Proof.
  unfold k_dst1.
  rewrite (sum_ext _ (fun j => 1 * (sz (zn n + 1) ((zn k + 1) * (zn j + 1)) * sz (zn n + 1) ((zn j + 1) * (zn i + 1))))) by (intros; ring).
  rewrite (sum_ss (zn n + 1) n _ _ _ (fun j => (zn k - zn i) * (zn j + 1))%Z (fun j => (zn k + zn i + 2) * (zn j + 1))%Z) by lia.
  rewrite !unit_weight. rewrite (grid_ends_open n (zn k + zn i + 2)) by (try apply nz; lia).
  destruct (Nat.eqb_spec i k) as [E|E].
  - replace (zn k - zn i)%Z with 0%Z by lia. rewrite odd_zero' by lia.
    replace (zn k + zn i + 2)%Z with (2 * (zn k + 1))%Z by lia. rewrite cz_d_even by lia. lra.
  - rewrite grid_ends_open by (try apply nz; lia).
    rewrite (cz_d_parity (zn n + 1) (zn k + zn i + 2) (zn k - zn i) (zn i + 1)) by lia. lra.
Qed.
Lemma orth_dst5 : sum (fun j => k_dst5 n k j * k_dst5 n j i) n = delta ((INR n + / 2) / 2).
Proof.
  unfold k_dst5. set (d := (2 * zn n + 1)%Z).
  rewrite (sum_ext _ (fun j => 1 * (sz d (2 * (zn k + 1) * (zn j + 1)) * sz d (2 * (zn j + 1) * (zn i + 1))))) by (intros; ring).
  rewrite (sum_ss d n _ _ _ (fun j => 2 * (zn k - zn i) * (zn j + 1))%Z (fun j => 2 * (zn k + zn i + 2) * (zn j + 1))%Z) by lia.
  rewrite !unit_weight. unfold d. rewrite (grid_first_open n (zn k + zn i + 2)) by (try apply nz; lia).
  destruct (Nat.eqb_spec i k) as [E|E].
  - replace (zn k - zn i)%Z with 0%Z by lia. rewrite odd_zero'' by lia. lra.
  - rewrite grid_first_open by (try apply nz; lia). lra.
Qed.
Lemma orth_dst76 : sum (fun j => k_dst7 n k j * k_dst6 n j i) n = delta ((INR n + / 2) / 2).
Proof.
  unfold k_dst6, k_dst7. set (d := (2 * zn n + 1)%Z).
  rewrite (sum_ext _ (fun j => 1 * (sz d ((2 * zn k + 1) * (zn j + 1)) * sz d ((zn j + 1) * (2 * zn i + 1))))) by (intros; ring).
  rewrite (sum_ss d n _ _ _ (fun j => 2 * (zn k - zn i) * (zn j + 1))%Z (fun j => 2 * (zn k + zn i + 1) * (zn j + 1))%Z) by lia.
  rewrite !unit_weight. unfold d. rewrite (grid_first_open n (zn k + zn i + 1)) by (try apply nz; lia).
  destruct (Nat.eqb_spec i k) as [E|E].
  - replace (zn k - zn i)%Z with 0%Z by lia. rewrite odd_zero'' by lia. lra.
  - rewrite grid_first_open by (try apply nz; lia). lra.
Qed.
Lemma orth_dst67 : sum (fun j => k_dst6 n k j * k_dst7 n j i) n = delta ((INR n + / 2) / 2).
Proof.
  unfold k_dst6, k_dst7. set (d := (2 * zn n + 1)%Z).
  rewrite (sum_ext _ (fun j => 1 * (sz d ((zn k + 1) * (2 * zn j + 1)) * sz d ((2 * zn j + 1) * (zn i + 1))))) by (intros; ring).
  rewrite (sum_ss d n _ _ _ (fun j => (zn k - zn i) * (2 * zn j + 1))%Z (fun j => (zn k + zn i + 2) * (2 * zn j + 1))%Z) by lia.
  rewrite !unit_weight. unfold d. rewrite (grid_last_open n (zn k + zn i + 2)) by (try apply nz; lia).
  destruct (Nat.eqb_spec i k) as [E|E].
  - replace (zn k - zn i)%Z with 0%Z by lia. rewrite odd_zero by lia.
    replace (zn k + zn i + 2)%Z with (2 * (zn k + 1))%Z by lia. rewrite cz_d_even by lia. lra.
  - rewrite grid_last_open by (try apply nz; lia).
    rewrite (cz_d_parity (2 * zn n + 1) (zn k + zn i + 2) (zn k - zn i) (zn i + 1)) by lia. lra.
Qed.
Lemma orth_dst23 : sum (fun j => k_dst2 n k j * k_dst3 n j i) n = delta (INR n / 2).
Proof.
  unfold k_dst2, k_dst3. set (hi := half_when (i =? n - 1)%nat).
  rewrite (sum_ext _ (fun j => hi * (1 * (sz (2 * zn n) ((zn k + 1) * (2 * zn j + 1)) * sz (2 * zn n) ((2 * zn j + 1) * (zn i + 1)))))) by (intros; ring).
  rewrite sum_scal_l, (sum_ss (2 * zn n) n _ _ _ (fun j => (zn k - zn i) * (2 * zn j + 1))%Z (fun j => (zn k + zn i + 2) * (2 * zn j + 1))%Z) by lia.
  rewrite !unit_weight. destruct (Nat.eqb_spec i k) as [E|E].
  - replace (zn k - zn i)%Z with 0%Z by lia. rewrite odd_zero by lia. unfold hi. destruct (Nat.eqb_spec i (n - 1)) as [E0|E0]; cbn [half_when].
    + replace (zn k + zn i + 2)%Z with (2 * zn n)%Z by lia.
      rewrite (sum_ext _ (fun j => - 1)) by (intros; rewrite cz_d_odd by lia; lra). rewrite sum_const. lra.
    + rewrite grid_odd by (try apply nz; lia). lra.
  - rewrite grid_odd by (try apply nz; lia). rewrite grid_odd by (try apply nz; lia). lra.
Qed.
Lemma orth_dst32 : sum (fun j => k_dst3 n k j * k_dst2 n j i) n = delta (INR n / 2).
Proof.
  unfold k_dst2, k_dst3.
  rewrite (sum_ext _ (fun j => half_when (j =? n - 1)%nat * (sz (2 * zn n) ((2 * zn k + 1) * (zn j + 1)) * sz (2 * zn n) ((zn j + 1) * (2 * zn i + 1))))) by (intros; ring).
  rewrite (sum_ss (2 * zn n) n _ _ _ (fun j => 2 * ((zn k - zn i) * (zn j + 1)))%Z (fun j => 2 * ((zn k + zn i + 1) * (zn j + 1)))%Z) by lia.
  rewrite !(sum_ext (fun j => _ * cz (2 * zn n) (2 * (_ * _))) (fun j => half_when (j =? n - 1)%nat * cz (zn n) (_ * (zn j + 1))))
    by (intros; rewrite cz_scale by lia; reflexivity).
  assert (G : forall m, (m mod (2 * zn n) <> 0)%Z -> sum (fun j => half_when (j =? n - 1)%nat * cz (zn n) (m * (zn j + 1))) n = - / 2).
  { intros m Hm. rewrite (sum_half_last (fun j => cz (zn n) (m * (zn j + 1)))) by lia. pose proof (grid_ends (S n) m ltac:(lia)) as H.
    replace (zn (S n) - 1)%Z with (zn n) in H by lia. specialize (H Hm).
    rewrite (sum_half_ends (fun j => cz (zn n) (m * zn j))) in H by lia. rewrite sum_S_l in H.
    replace (S n - 1)%nat with n in H by lia. change (zn 0) with 0%Z in H. rewrite Z.mul_0_r, cz_0 in H by lia.
    replace (zn (n - 1) + 1)%Z with (zn n) by lia.
    rewrite (sum_ext _ (fun j => cz (zn n) (m * zn (S j)))); [lra|]. intros j _. f_equal. lia. }
  rewrite (G (zn k + zn i + 1)%Z) by (apply nz; lia).
  destruct (Nat.eqb_spec i k) as [E|E].
  - replace (zn k - zn i)%Z with 0%Z by lia. rewrite (sum_half_last (fun j => cz (zn n) (0 * (zn j + 1)))) by lia.
    rewrite odd_zero' by lia. rewrite Z.mul_0_l, cz_0 by lia. lra.
  - rewrite G by (apply nz; lia). lra.
Qed.
End Orth.

Section Inverses.
Variables (n : nat) (x : list R).
Hypothesis Hx : length x = n.
Ltac inv K1 K2 O := eapply kern_compose; [apply K1|apply K2|intros; apply O; assumption|exact Hx].
Lemma dct1_dct1 : (1 < n)%nat -> dct1 (dct1 x) = scale ((INR n - 1) / 2) x.
Proof. intros H. eapply kern_compose; [apply kern_dct1, H|apply kern_dct1, H|intros; apply orth_dct1; assumption|exact Hx]. Qed.
Lemma dct2_dct3 : dct2 (dct3 x) = scale (INR n / 2) x. Proof. inv kern_dct3 kern_dct2 orth_dct23. Qed.
Lemma dct3_dct2 : dct3 (dct2 x) = scale (INR n / 2) x. Proof. inv kern_dct2 kern_dct3 orth_dct32. Qed.
Lemma dct4_dct4 : dct4 (dct4 x) = scale (INR n / 2) x. Proof. inv kern_dct4 kern_dct4 orth_dct4. Qed.
Lemma dct5_dct5 : dct5 (dct5 x) = scale ((INR n - / 2) / 2) x. Proof. inv kern_dct5 kern_dct5 orth_dct5. Qed.
Lemma dct6_dct7 : dct6 (dct7 x) = scale ((INR n - / 2) / 2) x. Proof. inv kern_dct7 kern_dct6 orth_dct67. Qed.
Lemma dct7_dct6 : dct7 (dct6 x) = scale ((INR n - / 2) / 2) x. Proof. inv kern_dct6 kern_dct7 orth_dct76. Qed.
Lemma dct8_dct8 : dct8 (dct8 x) = scale ((INR n + / 2) / 2) x. Proof. inv kern_dct8 kern_dct8 orth_dct8. Qed.
Lemma dst1_dst1 : dst1 (dst1 x) = scale ((INR n + 1) / 2) x. Proof. inv kern_dst1 kern_dst1 orth_dst1. Qed.
Lemma dst2_dst3 : dst2 (dst3 x) = scale (INR n / 2) x. Proof. inv kern_dst3 kern_dst2 orth_dst23. Qed.
Lemma dst3_dst2 : dst3 (dst2 x) = scale (INR n / 2) x. Proof. inv kern_dst2 kern_dst3 orth_dst32. Qed.
Lemma dst4_dst4 : dst4 (dst4 x) = scale (INR n / 2) x. Proof. inv kern_dst4 kern_dst4 orth_dst4. Qed.
Lemma dst5_dst5 : dst5 (dst5 x) = scale ((INR n + / 2) / 2) x. Proof. inv kern_dst5 kern_dst5 orth_dst5. Qed.
Lemma dst6_dst7 : dst6 (dst7 x) = scale ((INR n + / 2) / 2) x. Proof. inv kern_dst7 kern_dst6 orth_dst67. Qed.
Lemma dst7_dst6 : dst7 (dst6 x) = scale ((INR n + / 2) / 2) x. Proof. inv kern_dst6 kern_dst7 orth_dst76. Qed.
Lemma dst8_dst8 : dst8 (dst8 x) = scale ((INR n - / 2) / 2) x. Proof. inv kern_dst8 kern_dst8 orth_dst8. Qed.
End Inverses.
