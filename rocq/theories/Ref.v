(** The reference transforms written with [cz] and [sz], and relations between
    them. *)
From Coq Require Import Reals ZArith List Arith Lia Lra ZifyNat.
From Verif Require Import Spec Trig.
Import ListNotations.
Open Scope R_scope.

Notation zn := Z.of_nat.

Lemma inr_pos n : (0 < n)%nat -> 1 <= INR n.
Proof. intros. replace 1 with (INR 1) by reflexivity. apply le_INR. lia. Qed.

Ltac izr :=
  repeat first [rewrite mult_IZR | rewrite plus_IZR | rewrite minus_IZR | rewrite opp_IZR];
  rewrite <- ?INR_IZR_INZ.

(** Goals [cos A = cz d j] and [sin A = sz d j]. *)
Ltac cz_angle :=
  unfold cz, sz; f_equal; izr;
  match goal with
  | |- ?l = ?r => first [ field; repeat split; lra | lra ]
  end.

Section CzForms.
Variable x : list R.
Notation n := (length x).
Hypothesis Hn : (0 < n)%nat.
Notation X i := (nth i x 0).

Let Hn1 : 1 <= INR n.
Proof. apply inr_pos. exact Hn. Qed.

Lemma dct1_cz k : (1 < n)%nat -> dct1_at x k =
  sum (fun i => X i * half_when ((i =? 0) || (i =? n - 1))%nat%bool * cz (zn n - 1) (zn k * zn i)) n.
Proof.
  intros H. assert (1 < INR n) by (replace 1 with (INR 1) by reflexivity; apply lt_INR; lia).
  apply sum_ext. intros i Hi. f_equal. cz_angle.
Qed.
Lemma dct2_cz k : dct2_at x k = sum (fun i => X i * cz (2 * zn n) (zn k * (2 * zn i + 1))) n.
Proof. apply sum_ext. intros i Hi. f_equal. cz_angle. Qed.
Lemma dct3_cz k : dct3_at x k =
  sum (fun i => X i * half_when (i =? 0)%nat * cz (2 * zn n) ((2 * zn k + 1) * zn i)) n.
Proof. apply sum_ext. intros i Hi. f_equal. cz_angle. Qed.
Lemma dct4_cz k : dct4_at x k =
  sum (fun i => X i * cz (4 * zn n) ((2 * zn k + 1) * (2 * zn i + 1))) n.
Proof. apply sum_ext. intros i Hi. f_equal. cz_angle. Qed.
Lemma dct5_cz k : dct5_at x k =
  sum (fun i => X i * half_when (i =? 0)%nat * cz (2 * zn n - 1) (2 * zn k * zn i)) n.
Proof. apply sum_ext. intros i Hi. f_equal. cz_angle. Qed.
Lemma dct6_cz k : dct6_at x k =
  sum (fun i => X i * half_when (i =? n - 1)%nat * cz (2 * zn n - 1) (zn k * (2 * zn i + 1))) n.
Proof. apply sum_ext. intros i Hi. f_equal. cz_angle. Qed.
Lemma dct7_cz k : dct7_at x k =
  sum (fun i => X i * half_when (i =? 0)%nat * cz (2 * zn n - 1) ((2 * zn k + 1) * zn i)) n.
Proof. apply sum_ext. intros i Hi. f_equal. cz_angle. Qed.
Lemma dct8_cz k : dct8_at x k =
  sum (fun i => X i * cz (2 * (2 * zn n + 1)) ((2 * zn k + 1) * (2 * zn i + 1))) n.
Proof. apply sum_ext. intros i Hi. f_equal. cz_angle. Qed.

Lemma dst1_cz k : dst1_at x k = sum (fun i => X i * sz (zn n + 1) ((zn k + 1) * (zn i + 1))) n.
Proof. apply sum_ext. intros i Hi. f_equal. cz_angle. Qed.
Lemma dst2_cz k : dst2_at x k = sum (fun i => X i * sz (2 * zn n) ((zn k + 1) * (2 * zn i + 1))) n.
Proof. apply sum_ext. intros i Hi. f_equal. cz_angle. Qed.
Lemma dst3_cz k : dst3_at x k =
  sum (fun i => X i * half_when (i =? n - 1)%nat * sz (2 * zn n) ((2 * zn k + 1) * (zn i + 1))) n.
Proof. apply sum_ext. intros i Hi. f_equal. cz_angle. Qed.
Lemma dst4_cz k : dst4_at x k =
  sum (fun i => X i * sz (4 * zn n) ((2 * zn k + 1) * (2 * zn i + 1))) n.
Proof. apply sum_ext. intros i Hi. f_equal. cz_angle. Qed.
Lemma dst5_cz k : dst5_at x k =
  sum (fun i => X i * sz (2 * zn n + 1) (2 * (zn k + 1) * (zn i + 1))) n.
Proof. apply sum_ext. intros i Hi. f_equal. cz_angle. Qed.
Lemma dst6_cz k : dst6_at x k =
  sum (fun i => X i * sz (2 * zn n + 1) ((zn k + 1) * (2 * zn i + 1))) n.
Proof. apply sum_ext. intros i Hi. f_equal. cz_angle. Qed.
Lemma dst7_cz k : dst7_at x k =
  sum (fun i => X i * sz (2 * zn n + 1) ((2 * zn k + 1) * (zn i + 1))) n.
Proof. apply sum_ext. intros i Hi. f_equal. cz_angle. Qed.
Lemma dst8_cz k : dst8_at x k =
  sum (fun i => X i * half_when (i =? n - 1)%nat
                * sz (2 * (2 * zn n - 1)) ((2 * zn k + 1) * (2 * zn i + 1))) n.
Proof. apply sum_ext. intros i Hi. f_equal. cz_angle. Qed.
End CzForms.

(** The sign [(-1)^i]. *)
Definition alt (i : nat) : R := if (i mod 2 =? 0)%nat then 1 else -1.
Lemma alt_S i : alt (S i) = - alt i.
Proof.
  unfold alt. pose proof (Nat.div_mod i 2 ltac:(lia)). pose proof (Nat.div_mod (S i) 2 ltac:(lia)).
  pose proof (Nat.mod_upper_bound i 2 ltac:(lia)). pose proof (Nat.mod_upper_bound (S i) 2 ltac:(lia)).
  destruct (Nat.eqb_spec (i mod 2) 0), (Nat.eqb_spec (S i mod 2) 0); try lia; lra.
Qed.
Lemma alt_sq i : alt i * alt i = 1.
Proof. unfold alt. destruct (i mod 2 =? 0)%nat; lra. Qed.
Lemma alt_add i j : alt (i + j) = alt i * alt j.
Proof. induction i; simpl; [change (alt 0) with 1; lra|]. rewrite !alt_S, IHi. lra. Qed.
Lemma alt_double i : alt (2 * i) = 1.
Proof. replace (2 * i)%nat with (i + i)%nat by lia. rewrite alt_add. apply alt_sq. Qed.

(** Adding [m] half turns. *)
Lemma cz_turns d j m : (d <> 0)%Z -> cz d (j + d * zn m) = alt m * cz d j.
Proof.
  intros Hd. induction m.
  - rewrite Z.mul_0_r, Z.add_0_r. change (alt 0) with 1. lra.
  - replace (j + d * zn (S m))%Z with ((j + d * zn m) + d)%Z by lia.
    rewrite cz_half_turn by exact Hd. rewrite IHm, alt_S. lra.
Qed.
Lemma sz_turns d j m : (d <> 0)%Z -> sz d (j + d * zn m) = alt m * sz d j.
Proof.
  intros Hd. induction m.
  - rewrite Z.mul_0_r, Z.add_0_r. change (alt 0) with 1. lra.
  - replace (j + d * zn (S m))%Z with ((j + d * zn m) + d)%Z by lia.
    rewrite sz_half_turn by exact Hd. rewrite IHm, alt_S. lra.
Qed.

(** DST2 and DST4 by sign changes and reversals of DCT2 and DCT4, and the same
    for types 3: the relations the crate relies on. *)
Definition alt_list (x : list R) : list R := map (fun i => alt i * nth i x 0) (seq 0 (length x)).

Lemma nth_map_seq {A} (f : nat -> A) n i d : (i < n)%nat -> nth i (map f (seq 0 n)) d = f i.
Proof.
  intros H. rewrite (nth_indep _ d (f 0%nat)) by (rewrite map_length, seq_length; exact H).
  rewrite (map_nth f). rewrite seq_nth by exact H. reflexivity.
Qed.

Lemma alt_list_length x : length (alt_list x) = length x.
Proof. unfold alt_list. rewrite map_length, seq_length. reflexivity. Qed.
Lemma nth_alt_list x i : (i < length x)%nat -> nth i (alt_list x) 0 = alt i * nth i x 0.
Proof. intros H. unfold alt_list. apply (nth_map_seq (fun i => alt i * nth i x 0)). exact H. Qed.

Lemma sz_quarters d m j : (0 < d)%Z -> cz (2 * d) (d * (2 * zn m + 1) - j) = alt m * sz (2 * d) j.
Proof.
  intros Hd. replace (d * (2 * zn m + 1) - j)%Z with ((d - j) + (2 * d) * zn m)%Z by lia.
  rewrite cz_turns by lia. rewrite cz_quarter by lia. reflexivity.
Qed.
Lemma cz_quarters d m j : (0 < d)%Z -> sz (2 * d) (d * (2 * zn m + 1) - j) = alt m * cz (2 * d) j.
Proof.
  intros Hd. replace (d * (2 * zn m + 1) - j)%Z with ((d - j) + (2 * d) * zn m)%Z by lia.
  rewrite sz_turns by lia. rewrite sz_quarter by lia. reflexivity.
Qed.

Lemma dst2_dct2_at x k : (k < length x)%nat ->
  dst2_at x k = dct2_at (alt_list x) (length x - 1 - k).
Proof.
  intros Hk. rewrite dst2_cz by lia. rewrite dct2_cz by (rewrite alt_list_length; lia).
  rewrite alt_list_length. apply sum_ext. intros i Hi. rewrite nth_alt_list by lia.
  rewrite (Rmult_comm (alt i)), Rmult_assoc. f_equal.
  replace (zn (length x - 1 - k) * (2 * zn i + 1))%Z with
    (zn (length x) * (2 * zn i + 1) - (zn k + 1) * (2 * zn i + 1))%Z by nia.
  rewrite sz_quarters by lia. rewrite <- Rmult_assoc, alt_sq. lra.
Qed.

Lemma dst3_dct3_at x k : (k < length x)%nat ->
  dst3_at x k = alt k * dct3_at (rev x) k.
Proof.
  intros Hk. rewrite dst3_cz by lia. rewrite dct3_cz by (rewrite rev_length; lia).
  rewrite rev_length, <- sum_scal_l, sum_rev. apply sum_ext. intros i Hi.
  rewrite rev_nth by lia.
  replace (length x - S i)%nat with (length x - 1 - i)%nat by lia.
  rewrite (Rmult_comm (alt k)), !Rmult_assoc. f_equal. f_equal.
  - destruct (Nat.eqb_spec (length x - 1 - i) (length x - 1)), (Nat.eqb_spec i 0); try lia; reflexivity.
  - replace ((2 * zn k + 1) * (zn (length x - 1 - i) + 1))%Z with
      (zn (length x) * (2 * zn k + 1) - (2 * zn k + 1) * zn i)%Z by nia.
    rewrite cz_quarters by lia. lra.
Qed.

Lemma dst4_dct4_at x k : (k < length x)%nat ->
  dst4_at x k = alt k * dct4_at (rev x) k.
Proof.
  intros Hk. rewrite dst4_cz by lia. rewrite dct4_cz by (rewrite rev_length; lia).
  rewrite rev_length, <- sum_scal_l, sum_rev. apply sum_ext. intros i Hi.
  rewrite rev_nth by lia.
  replace (length x - S i)%nat with (length x - 1 - i)%nat by lia.
  rewrite (Rmult_comm (alt k)), !Rmult_assoc. f_equal.
  replace ((2 * zn k + 1) * (2 * zn (length x - 1 - i) + 1))%Z with
      (2 * zn (length x) * (2 * zn k + 1) - (2 * zn k + 1) * (2 * zn i + 1))%Z by nia.
  replace (4 * zn (length x))%Z with (2 * (2 * zn (length x)))%Z by lia.
  rewrite cz_quarters by lia. lra.
Qed.
