(** Finite sums and trigonometric functions at rational multiples of pi. *)
From Coq Require Import Reals ZArith List Arith Lia Lra Psatz.
From Verif Require Import Spec.
Open Scope R_scope.

(** * Sums *)
Lemma sum_ext f g n : (forall i, (i < n)%nat -> f i = g i) -> sum f n = sum g n.
Proof.
  induction n; intros H; simpl; auto.
  rewrite IHn by (intros; apply H; lia). rewrite H by lia. reflexivity.
Qed.

Lemma sum_zero n : sum (fun _ => 0) n = 0.
Proof. induction n; simpl; lra. Qed.
Lemma sum_zero' f n : (forall i, (i < n)%nat -> f i = 0) -> sum f n = 0.
Proof. intros H. rewrite (sum_ext _ (fun _ => 0)) by exact H. apply sum_zero. Qed.
Lemma sum_const c n : sum (fun _ => c) n = INR n * c.
Proof. induction n; [simpl; lra|]. rewrite S_INR. simpl sum. rewrite IHn. lra. Qed.

Lemma sum_plus f g n : sum (fun i => f i + g i) n = sum f n + sum g n.
Proof. induction n; simpl; lra. Qed.
Lemma sum_minus f g n : sum (fun i => f i - g i) n = sum f n - sum g n.
Proof. induction n; simpl; lra. Qed.
Lemma sum_opp f n : sum (fun i => - f i) n = - sum f n.
Proof. induction n; simpl; lra. Qed.
Lemma sum_scal_l c f n : sum (fun i => c * f i) n = c * sum f n.
Proof. induction n; simpl; lra. Qed.
Lemma sum_scal_r c f n : sum (fun i => f i * c) n = sum f n * c.
Proof. induction n; simpl; lra. Qed.

Lemma sum_app f n m : sum f (n + m) = sum f n + sum (fun i => f (n + i)%nat) m.
Proof.
  induction m; simpl.
  - rewrite Nat.add_0_r. lra.
  - rewrite Nat.add_succ_r. simpl. rewrite IHm. lra.
Qed.

Lemma sum_S_l f n : sum f (S n) = f 0%nat + sum (fun i => f (S i)) n.
Proof. rewrite <- (Nat.add_1_l n), sum_app. simpl. lra. Qed.

Lemma sum_rev f n : sum f n = sum (fun i => f (n - 1 - i)%nat) n.
Proof.
  induction n; auto. rewrite (sum_S_l (fun i => f (S n - 1 - i)%nat)). simpl sum at 1. rewrite IHn.
  rewrite Rplus_comm. f_equal; [f_equal; lia|]. apply sum_ext. intros. f_equal. lia.
Qed.

(** Even and odd positions. *)
Lemma sum_even_odd f n :
  sum f (2 * n) = sum (fun i => f (2 * i)%nat) n + sum (fun i => f (2 * i + 1)%nat) n.
Proof.
  induction n; [simpl; lra|]. replace (2 * S n)%nat with (2 * n + 2)%nat by lia.
  rewrite sum_app, IHn. cbn [sum]. rewrite Nat.add_0_r. lra.
Qed.

Lemma sum_even_odd_S f n :
  sum f (2 * n + 1) = sum (fun i => f (2 * i)%nat) (n + 1) + sum (fun i => f (2 * i + 1)%nat) n.
Proof.
  rewrite !sum_app, sum_even_odd. cbn [sum]. rewrite !Nat.add_0_r. lra.
Qed.

Lemma sum_swap (f : nat -> nat -> R) n m :
  sum (fun i => sum (fun j => f i j) m) n = sum (fun j => sum (fun i => f i j) n) m.
Proof.
  induction n; simpl.
  - symmetry. apply sum_zero.
  - rewrite IHn, <- sum_plus. reflexivity.
Qed.

Lemma sum_single f n k : (k < n)%nat -> (forall i, (i < n)%nat -> i <> k -> f i = 0) -> sum f n = f k.
Proof.
  intros Hk H. replace n with (k + S (n - 1 - k))%nat by lia.
  rewrite sum_app, sum_S_l. rewrite (sum_zero' f k) by (intros; apply H; lia).
  rewrite sum_zero' by (intros; apply H; lia). rewrite Nat.add_0_r. lra.
Qed.

(** Reindexing by an injective map of [0, n) into itself. *)
Lemma sum_remove f n k : (k < n)%nat ->
  sum f n = f k + sum (fun i => f (if (i <? k)%nat then i else S i)) (n - 1).
Proof.
  intros Hk. replace n with (k + S (n - 1 - k))%nat at 1 by lia. rewrite sum_app, sum_S_l.
  rewrite Nat.add_0_r. replace (n - 1)%nat with (k + (n - 1 - k))%nat at 2 by lia.
  rewrite sum_app.
  rewrite (sum_ext (fun i => f (if (i <? k)%nat then i else S i)) f k).
  2:{ intros i Hi. destruct (Nat.ltb_spec i k); [reflexivity|lia]. }
  rewrite (sum_ext (fun i => f (if (k + i <? k)%nat then (k + i)%nat else S (k + i)))
             (fun i => f (k + S i)%nat)).
  2:{ intros i Hi. destruct (Nat.ltb_spec (k + i) k); [lia|]. f_equal. lia. }
  lra.
Qed.

Lemma sum_perm n : forall (p : nat -> nat) (f : nat -> R),
  (forall i, (i < n)%nat -> (p i < n)%nat) ->
  (forall i j, (i < n)%nat -> (j < n)%nat -> p i = p j -> i = j) ->
  sum (fun i => f (p i)) n = sum f n.
Proof.
  induction n; intros p f Hr Hi; auto.
  simpl sum at 1.
  assert (Hpn : (p n < S n)%nat) by (apply Hr; lia).
  rewrite (sum_remove f (S n) (p n)) by exact Hpn. simpl (S n - 1)%nat. rewrite Nat.sub_0_r.
  set (g := fun i => f (if (i <? p n)%nat then i else S i)).
  rewrite (sum_ext (fun i => f (p i)) (fun i => g (if (p i <? p n)%nat then p i else p i - 1)%nat)).
  - rewrite (IHn (fun i => if (p i <? p n)%nat then p i else (p i - 1)%nat) g); [lra| |].
    + intros i Hin. assert (p i < S n)%nat by (apply Hr; lia).
      assert (p i <> p n) by (intros E; apply Hi in E; lia).
      destruct (Nat.ltb_spec (p i) (p n)); lia.
    + intros i j Hin Hjn E.
      assert (p i <> p n) by (intros E'; apply Hi in E'; lia).
      assert (p j <> p n) by (intros E'; apply Hi in E'; lia).
      apply Hi; [lia|lia|].
      destruct (Nat.ltb_spec (p i) (p n)), (Nat.ltb_spec (p j) (p n)); lia.
  - intros i Hin. assert (p i <> p n) by (intros E'; apply Hi in E'; lia).
    unfold g. f_equal.
    destruct (Nat.ltb_spec (p i) (p n)).
    + destruct (Nat.ltb_spec (p i) (p n)); lia.
    + destruct (Nat.ltb_spec (p i - 1) (p n)); lia.
Qed.

(** * cos and sin of [j * pi / d] *)
Definition cz (d j : Z) : R := cos (PI * IZR j / IZR d).
Definition sz (d j : Z) : R := sin (PI * IZR j / IZR d).

Lemma cos_2kpi a (k : Z) : cos (a + 2 * IZR k * PI) = cos a.
Proof.
  destruct k as [|p|p].
  - replace (a + 2 * IZR 0 * PI) with a by (simpl; lra). reflexivity.
  - rewrite <- (positive_nat_Z p). rewrite <- INR_IZR_INZ. apply cos_period.
  - rewrite <- (cos_period _ (Pos.to_nat p)). rewrite INR_IZR_INZ, positive_nat_Z.
    f_equal. change (Z.neg p) with (- Z.pos p)%Z. rewrite opp_IZR. lra.
Qed.
Lemma sin_2kpi a (k : Z) : sin (a + 2 * IZR k * PI) = sin a.
Proof.
  rewrite <- !cos_shift. replace (PI / 2 - (a + 2 * IZR k * PI)) with
    ((PI / 2 - a) + 2 * IZR (- k) * PI) by (rewrite opp_IZR; lra). apply cos_2kpi.
Qed.

Section CZ.
Variable d : Z.
Hypothesis Hd : (d <> 0)%Z.
Let Hd' : IZR d <> 0.
Proof. apply IZR_neq. exact Hd. Qed.

Lemma cz_period j m : cz d (j + 2 * d * m) = cz d j.
Proof.
  unfold cz. rewrite <- (cos_2kpi (PI * IZR j / IZR d) m). f_equal.
  rewrite plus_IZR, !mult_IZR. field. exact Hd'.
Qed.
Lemma sz_period j m : sz d (j + 2 * d * m) = sz d j.
Proof.
  unfold sz. rewrite <- (sin_2kpi (PI * IZR j / IZR d) m). f_equal.
  rewrite plus_IZR, !mult_IZR. field. exact Hd'.
Qed.
Lemma cz_eq j j' m : (j = j' + 2 * d * m)%Z -> cz d j = cz d j'.
Proof. intros ->. apply cz_period. Qed.
Lemma sz_eq j j' m : (j = j' + 2 * d * m)%Z -> sz d j = sz d j'.
Proof. intros ->. apply sz_period. Qed.

Lemma cz_opp j : cz d (- j) = cz d j.
Proof.
  unfold cz. rewrite <- (cos_neg (PI * IZR j / IZR d)). f_equal. rewrite opp_IZR. field. exact Hd'.
Qed.
Lemma sz_opp j : sz d (- j) = - sz d j.
Proof.
  unfold sz. rewrite <- (sin_neg (PI * IZR j / IZR d)). f_equal. rewrite opp_IZR. field. exact Hd'.
Qed.
Lemma cz_0 : cz d 0 = 1.
Proof. unfold cz. replace (PI * 0 / IZR d) with 0 by (field; exact Hd'). apply cos_0. Qed.
Lemma sz_0 : sz d 0 = 0.
Proof. unfold sz. replace (PI * 0 / IZR d) with 0 by (field; exact Hd'). apply sin_0. Qed.

Lemma cz_plus a b : cz d (a + b) = cz d a * cz d b - sz d a * sz d b.
Proof.
  unfold cz, sz. rewrite <- cos_plus. f_equal. rewrite plus_IZR. field. exact Hd'.
Qed.
Lemma sz_plus a b : sz d (a + b) = sz d a * cz d b + cz d a * sz d b.
Proof.
  unfold cz, sz. rewrite <- sin_plus. f_equal. rewrite plus_IZR. field. exact Hd'.
Qed.
Lemma cz_minus a b : cz d (a - b) = cz d a * cz d b + sz d a * sz d b.
Proof. unfold Z.sub. rewrite cz_plus, cz_opp, sz_opp. lra. Qed.
Lemma sz_minus a b : sz d (a - b) = sz d a * cz d b - cz d a * sz d b.
Proof. unfold Z.sub. rewrite sz_plus, cz_opp, sz_opp. lra. Qed.

Lemma cz_half_turn j : cz d (j + d) = - cz d j.
Proof.
  unfold cz. rewrite <- neg_cos. f_equal. rewrite plus_IZR. field. exact Hd'.
Qed.
Lemma sz_half_turn j : sz d (j + d) = - sz d j.
Proof.
  unfold sz. rewrite <- neg_sin. f_equal. rewrite plus_IZR. field. exact Hd'.
Qed.
Lemma cz_refl j : cz d (d - j) = - cz d j.
Proof. rewrite <- (cz_opp j), <- cz_half_turn. f_equal. lia. Qed.
Lemma sz_refl j : sz d (d - j) = sz d j.
Proof.
  replace (d - j)%Z with (- j + d)%Z by lia. rewrite sz_half_turn, sz_opp. lra.
Qed.
Lemma sz_d m : sz d (d * m) = 0.
Proof.
  unfold sz. replace (PI * IZR (d * m) / IZR d) with (IZR m * PI)
    by (rewrite mult_IZR; field; exact Hd').
  apply sin_eq_0_1. exists m. reflexivity.
Qed.

(** Products as sums. *)
Lemma cz_cz a b : cz d a * cz d b = / 2 * (cz d (a - b) + cz d (a + b)).
Proof. rewrite cz_minus, cz_plus. lra. Qed.
Lemma sz_sz a b : sz d a * sz d b = / 2 * (cz d (a - b) - cz d (a + b)).
Proof. rewrite cz_minus, cz_plus. lra. Qed.
Lemma sz_cz a b : sz d a * cz d b = / 2 * (sz d (a - b) + sz d (a + b)).
Proof. rewrite sz_minus, sz_plus. lra. Qed.

Lemma cz_sz_1 j : cz d j * cz d j + sz d j * sz d j = 1.
Proof. rewrite <- cz_minus, Z.sub_diag. apply cz_0. Qed.

(** Scaling numerator and denominator. *)
Lemma cz_scale m j : (m <> 0)%Z -> cz (m * d) (m * j) = cz d j.
Proof.
  intros Hm. unfold cz. f_equal. rewrite !mult_IZR. field. split; [exact Hd'|].
  apply IZR_neq. exact Hm.
Qed.
Lemma sz_scale m j : (m <> 0)%Z -> sz (m * d) (m * j) = sz d j.
Proof.
  intros Hm. unfold sz. f_equal. rewrite !mult_IZR. field. split; [exact Hd'|].
  apply IZR_neq. exact Hm.
Qed.

End CZ.

(** A quarter turn exchanges cos and sin. *)
Lemma cz_quarter d j : (d <> 0)%Z -> cz (2 * d) (d - j) = sz (2 * d) j.
Proof.
  intros Hd. unfold cz, sz. rewrite <- cos_shift. f_equal.
  rewrite minus_IZR, mult_IZR. field. apply IZR_neq. exact Hd.
Qed.
Lemma sz_quarter d j : (d <> 0)%Z -> sz (2 * d) (d - j) = cz (2 * d) j.
Proof.
  intros Hd. unfold cz, sz. rewrite <- sin_shift. f_equal.
  rewrite minus_IZR, mult_IZR. field. apply IZR_neq. exact Hd.
Qed.

(** Where the sine does not vanish. *)
Lemma sz_neq_0 d j : (0 < d)%Z -> (j mod d <> 0)%Z -> sz d j <> 0.
Proof.
  intros Hd Hj E. unfold sz in E. apply sin_eq_0_0 in E. destruct E as [k E].
  apply Hj. assert (IZR j = IZR (k * d)).
  { rewrite mult_IZR. assert (IZR d <> 0) by (apply IZR_neq; lia).
    assert (PI <> 0) by (apply PI_neq0).
    apply (Rmult_eq_reg_l PI); [|assumption].
    apply (Rmult_eq_reg_r (/ IZR d)); [|apply Rinv_neq_0_compat; assumption].
    unfold Rdiv in E. rewrite E. field. assumption. }
  apply eq_IZR in H. subst j. apply Z_mod_mult.
Qed.

(** Dirichlet sums. *)
Lemma sum_cz_odd d m n : (d <> 0)%Z ->
  2 * sz d m * sum (fun j => cz d (m * (2 * Z.of_nat j + 1))) n = sz d (2 * m * Z.of_nat n).
Proof.
  intros Hd. induction n.
  - cbn [sum]. rewrite Z.mul_0_r, sz_0 by exact Hd. lra.
  - cbn [sum]. rewrite Rmult_plus_distr_l, IHn.
    rewrite Rmult_assoc, sz_cz by exact Hd.
    replace (2 * m * Z.of_nat (S n))%Z with (m + m * (2 * Z.of_nat n + 1))%Z by lia.
    replace (m - m * (2 * Z.of_nat n + 1))%Z with (- (2 * m * Z.of_nat n))%Z by lia.
    rewrite sz_opp by exact Hd. lra.
Qed.

Lemma sum_sz_odd d m n : (d <> 0)%Z ->
  2 * sz d m * sum (fun j => sz d (m * (2 * Z.of_nat j + 1))) n = 1 - cz d (2 * m * Z.of_nat n).
Proof.
  intros Hd. induction n.
  - cbn [sum]. rewrite Z.mul_0_r, cz_0 by exact Hd. lra.
  - cbn [sum]. rewrite Rmult_plus_distr_l, IHn.
    rewrite Rmult_assoc, sz_sz by exact Hd.
    replace (2 * m * Z.of_nat (S n))%Z with (m + m * (2 * Z.of_nat n + 1))%Z by lia.
    replace (m - m * (2 * Z.of_nat n + 1))%Z with (- (2 * m * Z.of_nat n))%Z by lia.
    rewrite cz_opp by exact Hd. lra.
Qed.
