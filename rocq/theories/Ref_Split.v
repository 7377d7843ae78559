(** Relations between reference transforms of a length and of its half and
    quarter, used by the split radix and type 4 via type 3 algorithms and by the
    hard-coded sizes. *)
From Coq Require Import Reals ZArith List Arith Lia Lra Bool ZifyNat.
From Verif Require Import Spec Trig Ref.
Import ListNotations.
Open Scope R_scope.

Lemma sum_split_S p (f : nat -> R) : sum f (S p) = sum f p + f p.
Proof. reflexivity. Qed.

(** Pairing neighbours, cosine and sine sums. *)
Lemma fold_cos q s (o u C : nat -> R) : (0 < q)%nat -> C q = 0 ->
  (forall i, (i < q)%nat -> u i = if (i =? 0)%nat then 2 * o 0%nat else o (2 * i)%nat + s * o (2 * i - 1)%nat) ->
  sum (fun i => u i * half_when (i =? 0)%nat * C i) q =
  sum (fun i => o (2 * i)%nat * C i) q + s * sum (fun i => o (2 * i + 1)%nat * C (i + 1)%nat) q.
Proof.
  intros Hq HC Hu. destruct q as [|p]; [lia|]. rewrite !sum_S_l.
  rewrite <- (sum_S_l (fun i => o (2 * i + 1)%nat * C (i + 1)%nat)), sum_split_S.
  rewrite (Hu 0%nat) by lia. cbn [Nat.eqb half_when].
  replace (C (p + 1)%nat) with 0 by (rewrite <- HC; f_equal; lia).
  rewrite (sum_ext (fun i => u (S i) * half_when (S i =? 0)%nat * C (S i))
    (fun i => o (2 * S i)%nat * C (S i) + s * (o (2 * i + 1)%nat * C (i + 1)%nat))).
  - rewrite sum_plus, sum_scal_l. replace (2 * 0)%nat with 0%nat by lia. field.
  - intros i Hi. rewrite (Hu (S i)) by lia. change (S i =? 0)%nat with false. cbn [half_when].
    replace (2 * S i - 1)%nat with (2 * i + 1)%nat by lia.
    replace (i + 1)%nat with (S i) by lia. ring.
Qed.

Lemma fold_sin q s (o v S_ : nat -> R) : (0 < q)%nat -> S_ 0%nat = 0 ->
  (forall i, (i < q)%nat -> v i = if (i =? q - 1)%nat then 2 * o (2 * i + 1)%nat
                                  else o (2 * i + 1)%nat + s * o (2 * i + 2)%nat) ->
  sum (fun i => v i * half_when (i =? q - 1)%nat * S_ (i + 1)%nat) q =
  sum (fun i => o (2 * i + 1)%nat * S_ (i + 1)%nat) q + s * sum (fun i => o (2 * i)%nat * S_ i) q.
Proof.
  intros Hq HS Hv. destruct q as [|p]; [lia|]. rewrite sum_split_S, (sum_split_S p (fun i => o (2 * i + 1)%nat * _ )).
  rewrite (sum_S_l (fun i => o (2 * i)%nat * S_ i)). rewrite HS.
  rewrite (Hv p) by lia. replace (S p - 1)%nat with p by lia. rewrite Nat.eqb_refl. cbn [half_when].
  rewrite (sum_ext (fun i => v i * half_when (i =? p)%nat * S_ (i + 1)%nat)
    (fun i => o (2 * i + 1)%nat * S_ (i + 1)%nat + s * (o (2 * S i)%nat * S_ (S i)))).
  - rewrite sum_plus, sum_scal_l. field.
  - intros i Hi. rewrite (Hv i) by lia. replace (S p - 1)%nat with p by lia.
    rewrite (proj2 (Nat.eqb_neq i p)) by lia. cbn [half_when].
    replace (2 * S i)%nat with (2 * i + 2)%nat by lia.
    replace (i + 1)%nat with (S i) by lia. ring.
Qed.

Lemma cz_8q q j : (0 < q)%nat -> cz (8 * zn q) (4 * j) = cz (2 * zn q) j.
Proof. intros Hq. replace (8 * zn q)%Z with (4 * (2 * zn q))%Z by lia. apply cz_scale; lia. Qed.
Lemma sz_8q q j : (0 < q)%nat -> sz (8 * zn q) (4 * j) = sz (2 * zn q) j.
Proof. intros Hq. replace (8 * zn q)%Z with (4 * (2 * zn q))%Z by lia. apply sz_scale; lia. Qed.
Lemma cz_odd_quarter q k : (0 < q)%nat -> cz (2 * zn q) ((2 * zn k + 1) * zn q) = 0.
Proof. intros Hq.
  replace ((2 * zn k + 1) * zn q)%Z with (zn q * (2 * zn k + 1) - 0)%Z by lia.
  rewrite sz_quarters by lia. rewrite sz_0 by lia. ring.
Qed.

(** ** Type 4 of even length through type 3 of half the length *)
Section Type4.
Variables (q : nat) (o : list R).
Hypothesis Hq : (0 < q)%nat.
Hypothesis Ho : length o = (2 * q)%nat.
Notation O i := (nth i o 0).
Let d := (8 * zn q)%Z.
Let theta (k : nat) : Z := (2 * zn k + 1)%Z.

Lemma angle_even k i : ((2 * zn k + 1) * (2 * zn (2 * i) + 1) = 4 * ((2 * zn k + 1) * zn i) + theta k)%Z.
Proof. unfold theta. lia. Qed.
Lemma angle_odd k i : ((2 * zn k + 1) * (2 * zn (2 * i + 1) + 1) = 4 * ((2 * zn k + 1) * zn (i + 1)) - theta k)%Z.
Proof. unfold theta. lia. Qed.

Lemma type4_sums k (f : nat -> R) :
  sum (fun j => f j * cz d ((2 * zn k + 1) * (2 * zn j + 1))) (2 * q) =
    cz d (theta k) * (sum (fun i => f (2 * i)%nat * cz (2 * zn q) ((2 * zn k + 1) * zn i)) q
                      + sum (fun i => f (2 * i + 1)%nat * cz (2 * zn q) ((2 * zn k + 1) * zn (i + 1))) q)
  + sz d (theta k) * (sum (fun i => f (2 * i + 1)%nat * sz (2 * zn q) ((2 * zn k + 1) * zn (i + 1))) q
                      - sum (fun i => f (2 * i)%nat * sz (2 * zn q) ((2 * zn k + 1) * zn i)) q) /\
  sum (fun j => f j * sz d ((2 * zn k + 1) * (2 * zn j + 1))) (2 * q) =
    cz d (theta k) * (sum (fun i => f (2 * i)%nat * sz (2 * zn q) ((2 * zn k + 1) * zn i)) q
                      + sum (fun i => f (2 * i + 1)%nat * sz (2 * zn q) ((2 * zn k + 1) * zn (i + 1))) q)
  + sz d (theta k) * (sum (fun i => f (2 * i)%nat * cz (2 * zn q) ((2 * zn k + 1) * zn i)) q
                      - sum (fun i => f (2 * i + 1)%nat * cz (2 * zn q) ((2 * zn k + 1) * zn (i + 1))) q).
Proof.
  split; rewrite sum_even_odd; unfold d.
  - rewrite (sum_ext (fun i => f (2 * i)%nat * _) (fun i =>
      cz (8 * zn q) (theta k) * (f (2 * i)%nat * cz (2 * zn q) ((2 * zn k + 1) * zn i))
      - sz (8 * zn q) (theta k) * (f (2 * i)%nat * sz (2 * zn q) ((2 * zn k + 1) * zn i)))).
    2: { intros i Hi. rewrite angle_even, cz_plus, cz_8q, sz_8q by lia. ring. }
    rewrite (sum_ext (fun i => f (2 * i + 1)%nat * cz (8 * zn q) _) (fun i =>
      cz (8 * zn q) (theta k) * (f (2 * i + 1)%nat * cz (2 * zn q) ((2 * zn k + 1) * zn (i + 1)))
      + sz (8 * zn q) (theta k) * (f (2 * i + 1)%nat * sz (2 * zn q) ((2 * zn k + 1) * zn (i + 1))))).
    2: { intros i Hi. rewrite angle_odd, cz_minus, cz_8q, sz_8q by lia. ring. }
    rewrite sum_minus, sum_plus, !sum_scal_l. ring.
  - rewrite (sum_ext (fun i => f (2 * i)%nat * _) (fun i =>
      cz (8 * zn q) (theta k) * (f (2 * i)%nat * sz (2 * zn q) ((2 * zn k + 1) * zn i))
      + sz (8 * zn q) (theta k) * (f (2 * i)%nat * cz (2 * zn q) ((2 * zn k + 1) * zn i)))).
    2: { intros i Hi. rewrite angle_even, sz_plus, cz_8q, sz_8q by lia. ring. }
    rewrite (sum_ext (fun i => f (2 * i + 1)%nat * sz (8 * zn q) _) (fun i =>
      cz (8 * zn q) (theta k) * (f (2 * i + 1)%nat * sz (2 * zn q) ((2 * zn k + 1) * zn (i + 1)))
      - sz (8 * zn q) (theta k) * (f (2 * i + 1)%nat * cz (2 * zn q) ((2 * zn k + 1) * zn (i + 1))))).
    2: { intros i Hi. rewrite angle_odd, sz_minus, cz_8q, sz_8q by lia. ring. }
    rewrite sum_minus, sum_plus, !sum_scal_l. ring.
Qed.

Lemma dct3_fold s (u : list R) k : length u = q ->
  (forall i, (i < q)%nat -> nth i u 0 = if (i =? 0)%nat then 2 * O 0%nat else O (2 * i)%nat + s * O (2 * i - 1)%nat) ->
  dct3_at u k = sum (fun i => O (2 * i)%nat * cz (2 * zn q) ((2 * zn k + 1) * zn i)) q
              + s * sum (fun i => O (2 * i + 1)%nat * cz (2 * zn q) ((2 * zn k + 1) * zn (i + 1))) q.
Proof.
  intros Hu H. rewrite dct3_cz by lia. rewrite Hu.
  apply (fold_cos q s (fun i => O i) (fun i => nth i u 0) (fun i => cz (2 * zn q) ((2 * zn k + 1) * zn i))); auto.
  apply cz_odd_quarter. exact Hq.
Qed.
Lemma dst3_fold s (v : list R) k : length v = q ->
  (forall i, (i < q)%nat -> nth i v 0 = if (i =? q - 1)%nat then 2 * O (2 * i + 1)%nat
                                        else O (2 * i + 1)%nat + s * O (2 * i + 2)%nat) ->
  dst3_at v k = sum (fun i => O (2 * i + 1)%nat * sz (2 * zn q) ((2 * zn k + 1) * zn (i + 1))) q
              + s * sum (fun i => O (2 * i)%nat * sz (2 * zn q) ((2 * zn k + 1) * zn i)) q.
Proof.
  intros Hv H. rewrite dst3_cz by lia. rewrite Hv.
  rewrite <- (fold_sin q s (fun i => O i) (fun i => nth i v 0) (fun i => sz (2 * zn q) ((2 * zn k + 1) * zn i))); auto.
  - apply sum_ext. intros i Hi. do 2 f_equal. lia.
  - rewrite Z.mul_0_r, sz_0 by lia. reflexivity.
Qed.

Lemma dct4_even_dct3 u v k : length u = q -> length v = q ->
  (forall i, (i < q)%nat -> nth i u 0 = if (i =? 0)%nat then 2 * O 0%nat else O (2 * i - 1)%nat + O (2 * i)%nat) ->
  (forall i, (i < q)%nat -> nth i v 0 = if (i =? q - 1)%nat then 2 * O (2 * i + 1)%nat
                                        else O (2 * i + 1)%nat - O (2 * i + 2)%nat) ->
  (dct4_at o k = dct3_at u k * cz (8 * zn q) (2 * zn k + 1) + dst3_at v k * sz (8 * zn q) (2 * zn k + 1)) /\
  ((k < 2 * q)%nat -> dct4_at o (2 * q - 1 - k) =
     dct3_at u k * sz (8 * zn q) (2 * zn k + 1) - dst3_at v k * cz (8 * zn q) (2 * zn k + 1)).
Proof.
  intros Hu Hv Eu Ev.
  rewrite (dct3_fold 1 u k Hu) by (intros i Hi; rewrite Eu by exact Hi; destruct (i =? 0)%nat; ring).
  rewrite (dst3_fold (-1) v k Hv) by (intros i Hi; rewrite Ev by exact Hi; destruct (i =? q - 1)%nat; ring).
  rewrite !dct4_cz by lia. rewrite Ho. replace (4 * zn (2 * q))%Z with d by (unfold d; lia).
  split.
  - destruct (type4_sums k (fun i => O i)) as [-> _]. unfold d, theta. ring.
  - intros Hk. rewrite (sum_ext _ (fun j => (alt j * O j) * sz d ((2 * zn k + 1) * (2 * zn j + 1)))).
    + destruct (type4_sums k (fun j => alt j * O j)) as [_ ->]. unfold d, theta.
      rewrite (sum_ext (fun i => alt (2 * i) * _ * sz _ _) (fun i => O (2 * i)%nat * sz (2 * zn q) ((2 * zn k + 1) * zn i))).
      2: { intros i Hi. rewrite alt_double. ring. }
      rewrite (sum_ext (fun i => alt (2 * i) * _ * cz _ _) (fun i => O (2 * i)%nat * cz (2 * zn q) ((2 * zn k + 1) * zn i))).
      2: { intros i Hi. rewrite alt_double. ring. }
      rewrite (sum_ext (fun i => alt (2 * i + 1) * _ * sz _ _) (fun i => - (O (2 * i + 1)%nat * sz (2 * zn q) ((2 * zn k + 1) * zn (i + 1))))).
      2: { intros i Hi. rewrite Nat.add_1_r, alt_S, alt_double. ring. }
      rewrite (sum_ext (fun i => alt (2 * i + 1) * _ * cz _ _) (fun i => - (O (2 * i + 1)%nat * cz (2 * zn q) ((2 * zn k + 1) * zn (i + 1))))).
      2: { intros i Hi. rewrite Nat.add_1_r, alt_S, alt_double. ring. }
      rewrite !sum_opp. ring.
    + intros j Hj. replace ((2 * zn (2 * q - 1 - k) + 1) * (2 * zn j + 1))%Z with
        (4 * zn q * (2 * zn j + 1) - (2 * zn k + 1) * (2 * zn j + 1))%Z by nia.
      unfold d. replace (8 * zn q)%Z with (2 * (4 * zn q))%Z by lia. rewrite sz_quarters by lia. ring.
Qed.

Lemma dst4_even_dct3 l r k : length l = q -> length r = q ->
  (forall i, (i < q)%nat -> nth i r 0 = if (i =? 0)%nat then 2 * O 0%nat else O (2 * i)%nat - O (2 * i - 1)%nat) ->
  (forall i, (i < q)%nat -> nth i l 0 = if (i =? q - 1)%nat then 2 * O (2 * i + 1)%nat
                                        else O (2 * i + 1)%nat + O (2 * i + 2)%nat) ->
  (dst4_at o k = dst3_at l k * cz (8 * zn q) (2 * zn k + 1) + dct3_at r k * sz (8 * zn q) (2 * zn k + 1)) /\
  ((k < 2 * q)%nat -> dst4_at o (2 * q - 1 - k) =
     dct3_at r k * cz (8 * zn q) (2 * zn k + 1) - dst3_at l k * sz (8 * zn q) (2 * zn k + 1)).
Proof.
  intros Hl Hr Er El.
  rewrite (dct3_fold (-1) r k Hr) by (intros i Hi; rewrite Er by exact Hi; destruct (i =? 0)%nat; ring).
  rewrite (dst3_fold 1 l k Hl) by (intros i Hi; rewrite El by exact Hi; destruct (i =? q - 1)%nat; ring).
  rewrite !dst4_cz by lia. rewrite Ho. replace (4 * zn (2 * q))%Z with d by (unfold d; lia).
  split.
  - destruct (type4_sums k (fun i => O i)) as [_ ->]. unfold d, theta. ring.
  - intros Hk. rewrite (sum_ext _ (fun j => (alt j * O j) * cz d ((2 * zn k + 1) * (2 * zn j + 1)))).
    + destruct (type4_sums k (fun j => alt j * O j)) as [-> _]. unfold d, theta.
      rewrite (sum_ext (fun i => alt (2 * i) * _ * sz _ _) (fun i => O (2 * i)%nat * sz (2 * zn q) ((2 * zn k + 1) * zn i))).
      2: { intros i Hi. rewrite alt_double. ring. }
      rewrite (sum_ext (fun i => alt (2 * i) * _ * cz _ _) (fun i => O (2 * i)%nat * cz (2 * zn q) ((2 * zn k + 1) * zn i))).
      2: { intros i Hi. rewrite alt_double. ring. }
      rewrite (sum_ext (fun i => alt (2 * i + 1) * _ * sz _ _) (fun i => - (O (2 * i + 1)%nat * sz (2 * zn q) ((2 * zn k + 1) * zn (i + 1))))).
      2: { intros i Hi. rewrite Nat.add_1_r, alt_S, alt_double. ring. }
      rewrite (sum_ext (fun i => alt (2 * i + 1) * _ * cz _ _) (fun i => - (O (2 * i + 1)%nat * cz (2 * zn q) ((2 * zn k + 1) * zn (i + 1))))).
      2: { intros i Hi. rewrite Nat.add_1_r, alt_S, alt_double. ring. }
      rewrite !sum_opp. ring.
    + intros j Hj. replace ((2 * zn (2 * q - 1 - k) + 1) * (2 * zn j + 1))%Z with
        (4 * zn q * (2 * zn j + 1) - (2 * zn k + 1) * (2 * zn j + 1))%Z by nia.
      unfold d. replace (8 * zn q)%Z with (2 * (4 * zn q))%Z by lia. rewrite cz_quarters by lia. ring.
Qed.

(** The transposed factorisation: outputs [2m] and [2m-1] from a DCT2 and a
    DST2 of twiddled inputs. *)
Lemma dct4_even_dct2 c s : length c = q -> length s = q ->
  (forall i, (i < q)%nat -> nth i c 0 = O i * cz (8 * zn q) (2 * zn i + 1) + O (2 * q - 1 - i)%nat * sz (8 * zn q) (2 * zn i + 1)) ->
  (forall i, (i < q)%nat -> nth i s 0 = O (2 * q - 1 - i)%nat * cz (8 * zn q) (2 * zn i + 1) - O i * sz (8 * zn q) (2 * zn i + 1)) ->
  dct4_at o 0 = dct2_at c 0 /\
  (forall m, dct4_at o (2 * (m + 1)) = dct2_at c (m + 1) + dst2_at s m) /\
  (forall m, dct4_at o (2 * m + 1) = dct2_at c (m + 1) - dst2_at s m).
Proof.
  intros Hc Hs Ec Es.
  assert (E : forall k, dct4_at o k = sum (fun i =>
     O i * cz (8 * zn q) ((2 * zn k + 1) * (2 * zn i + 1))
     + O (2 * q - 1 - i)%nat * (alt k * sz (8 * zn q) ((2 * zn k + 1) * (2 * zn i + 1)))) q).
  { intros k. rewrite dct4_cz by lia. rewrite Ho. replace (4 * zn (2 * q))%Z with (8 * zn q)%Z by lia.
    replace (2 * q)%nat with (q + q)%nat at 1 by lia. rewrite sum_app.
    rewrite (sum_rev (fun i => nth (q + i)%nat o 0 * _)), sum_plus. f_equal.
    apply sum_ext. intros i Hi. replace (q + (q - 1 - i))%nat with (2 * q - 1 - i)%nat by lia. f_equal.
    replace ((2 * zn k + 1) * (2 * zn (2 * q - 1 - i) + 1))%Z with
      (4 * zn q * (2 * zn k + 1) - (2 * zn k + 1) * (2 * zn i + 1))%Z by nia.
    replace (8 * zn q)%Z with (2 * (4 * zn q))%Z by lia. apply sz_quarters. lia. }
  split; [|split].
  - rewrite E, dct2_cz by lia. rewrite Hc. apply sum_ext. intros i Hi. rewrite Ec by exact Hi.
    change (alt 0) with 1. change (zn 0) with 0%Z. rewrite Z.mul_0_l, cz_0 by lia.
    replace ((2 * 0 + 1) * (2 * zn i + 1))%Z with (2 * zn i + 1)%Z by lia. ring.
  - intros m. rewrite E, dct2_cz, dst2_cz by lia. rewrite Hc, Hs, <- sum_plus.
    apply sum_ext. intros i Hi. rewrite Ec, Es by exact Hi. rewrite alt_double.
    replace ((2 * zn (2 * (m + 1)) + 1) * (2 * zn i + 1))%Z with
      (4 * (zn (m + 1) * (2 * zn i + 1)) + (2 * zn i + 1))%Z by nia.
    remember (2 * zn i + 1)%Z as t.
    rewrite cz_plus, sz_plus, cz_8q, sz_8q by lia. replace (zn m + 1)%Z with (zn (m + 1)) by lia. ring.
  - intros m. rewrite E, dct2_cz, dst2_cz by lia. rewrite Hc, Hs, <- sum_minus.
    apply sum_ext. intros i Hi. rewrite Ec, Es by exact Hi. rewrite (Nat.add_1_r (2 * m)), alt_S, alt_double.
    replace ((2 * zn (S (2 * m)) + 1) * (2 * zn i + 1))%Z with
      (4 * (zn (m + 1) * (2 * zn i + 1)) - (2 * zn i + 1))%Z by nia.
    remember (2 * zn i + 1)%Z as t.
    rewrite cz_minus, sz_minus, cz_8q, sz_8q by lia.
    replace (zn m + 1)%Z with (zn (m + 1)) by lia. ring.
Qed.

End Type4.

(** ** Types 2 and 3 of even length *)
Section Half.
Variables (h : nat) (x : list R).
Hypothesis Hh : (0 < h)%nat.
Hypothesis Hx : length x = (2 * h)%nat.
Notation X i := (nth i x 0).

Lemma dct2_half k : dct2_at x k = sum (fun i => (X i + alt k * X (2 * h - 1 - i)%nat) * cz (4 * zn h) (zn k * (2 * zn i + 1))) h.
Proof.
  rewrite dct2_cz by lia. rewrite Hx. replace (2 * zn (2 * h))%Z with (4 * zn h)%Z by lia.
  replace (2 * h)%nat with (h + h)%nat at 1 by lia. rewrite sum_app.
  rewrite (sum_rev (fun i => nth (h + i)%nat x 0 * _)), <- sum_plus.
  apply sum_ext. intros i Hi. replace (h + (h - 1 - i))%nat with (2 * h - 1 - i)%nat by lia.
  replace (zn k * (2 * zn (2 * h - 1 - i) + 1))%Z with (- (zn k * (2 * zn i + 1)) + 4 * zn h * zn k)%Z by nia.
  rewrite cz_turns, cz_opp by lia. ring.
Qed.

Lemma dct2_even_index y k : length y = h ->
  (forall i, (i < h)%nat -> nth i y 0 = X i + X (2 * h - 1 - i)%nat) ->
  dct2_at x (2 * k) = dct2_at y k.
Proof.
  intros Hy E. rewrite dct2_half, dct2_cz by lia. rewrite Hy. apply sum_ext. intros i Hi.
  rewrite E by exact Hi. rewrite alt_double, Rmult_1_l. f_equal.
  replace (4 * zn h)%Z with (2 * (2 * zn h))%Z by lia.
  replace (zn (2 * k) * (2 * zn i + 1))%Z with (2 * (zn k * (2 * zn i + 1)))%Z by lia. apply cz_scale; lia.
Qed.
Lemma dct2_odd_index d k : length d = h ->
  (forall i, (i < h)%nat -> nth i d 0 = X i - X (2 * h - 1 - i)%nat) ->
  dct2_at x (2 * k + 1) = dct4_at d k.
Proof.
  intros Hy E. rewrite dct2_half, dct4_cz by lia. rewrite Hy. apply sum_ext. intros i Hi.
  rewrite E by exact Hi. rewrite Nat.add_1_r, alt_S, alt_double.
  replace (zn (S (2 * k)))%Z with (2 * zn k + 1)%Z by lia. ring.
Qed.

Lemma dct3_low e o k : length e = h -> length o = h ->
  (forall i, (i < h)%nat -> nth i e 0 = X (2 * i)%nat) ->
  (forall i, (i < h)%nat -> nth i o 0 = X (2 * i + 1)%nat) ->
  dct3_at x k = dct3_at e k + dct4_at o k /\
  ((k < 2 * h)%nat -> dct3_at x (2 * h - 1 - k) = dct3_at e k - dct4_at o k).
Proof.
  intros He Ho Ee Eo. rewrite !dct3_cz, dct4_cz by lia. rewrite Hx, He, Ho.
  replace (2 * zn (2 * h))%Z with (4 * zn h)%Z by lia.
  split; [|intros Hk]; rewrite sum_even_odd.
  - f_equal; apply sum_ext; intros i Hi.
    + rewrite Ee by exact Hi. f_equal.
      * f_equal. f_equal. destruct (Nat.eqb_spec (2 * i) 0), (Nat.eqb_spec i 0); try lia; reflexivity.
      * replace (4 * zn h)%Z with (2 * (2 * zn h))%Z by lia.
        replace ((2 * zn k + 1) * zn (2 * i))%Z with (2 * ((2 * zn k + 1) * zn i))%Z by lia. apply cz_scale; lia.
    + rewrite Eo by exact Hi. rewrite (proj2 (Nat.eqb_neq _ _)) by lia. cbn [half_when].
      replace (zn (2 * i + 1)) with (2 * zn i + 1)%Z by lia. ring.
  - unfold Rminus. rewrite <- sum_opp. f_equal; apply sum_ext; intros i Hi.
    + rewrite Ee by exact Hi. f_equal.
      * f_equal. f_equal. destruct (Nat.eqb_spec (2 * i) 0), (Nat.eqb_spec i 0); try lia; reflexivity.
      * replace ((2 * zn (2 * h - 1 - k) + 1) * zn (2 * i))%Z with
          (- (2 * ((2 * zn k + 1) * zn i)) + 2 * (4 * zn h) * zn i)%Z by nia.
        rewrite cz_period, cz_opp by lia.
        replace (4 * zn h)%Z with (2 * (2 * zn h))%Z by lia. apply cz_scale; lia.
    + rewrite Eo by exact Hi. rewrite (proj2 (Nat.eqb_neq _ _)) by lia. cbn [half_when].
      replace ((2 * zn (2 * h - 1 - k) + 1) * zn (2 * i + 1))%Z with
        (- ((2 * zn k + 1) * (2 * zn i + 1)) + 4 * zn h + 2 * (4 * zn h) * zn i)%Z by nia.
      rewrite cz_period, cz_half_turn, cz_opp by lia. ring.
Qed.
End Half.

(** DST2 of a reversed list, and the sign pattern used by split radix. *)
Lemma dst2_rev s k : (k < length s)%nat -> dst2_at (rev s) k = alt k * dst2_at s k.
Proof.
  intros Hk. rewrite !dst2_cz by (rewrite ?rev_length; lia). rewrite rev_length, sum_rev, <- sum_scal_l.
  apply sum_ext. intros i Hi. rewrite rev_nth by lia.
  replace (length s - S (length s - 1 - i))%nat with i by lia.
  replace ((zn k + 1) * (2 * zn (length s - 1 - i) + 1))%Z with
    (- ((zn k + 1) * (2 * zn i + 1)) + 2 * zn (length s) * zn (S k))%Z by nia.
  rewrite sz_turns, sz_opp, alt_S by lia. ring.
Qed.

Lemma alt_sub n i : (i <= n)%nat -> alt (n - i) = alt n * alt i.
Proof.
  intros H. replace n with ((n - i) + i)%nat at 2 by lia. rewrite alt_add, Rmult_assoc, alt_sq. ring.
Qed.

Lemma dct2_scale_at c x y k : length y = length x ->
  (forall i, (i < length x)%nat -> nth i y 0 = c * nth i x 0) -> dct2_at y k = c * dct2_at x k.
Proof.
  intros Hl E. unfold dct2_at. rewrite Hl, <- sum_scal_l. apply sum_ext. intros i Hi.
  rewrite E by exact Hi. ring.
Qed.

Lemma dct2_of_signed s z k : length z = length s -> (k < length s)%nat ->
  (forall j, (j < length s)%nat -> nth j z 0 = alt (length s - 1 - j) * nth (length s - 1 - j)%nat s 0) ->
  dct2_at z (length s - 1 - k) = alt (length s - 1) * alt k * dst2_at s k.
Proof.
  intros Hz Hk E. rewrite Rmult_assoc, <- dst2_rev by exact Hk. rewrite dst2_dct2_at by (rewrite rev_length; exact Hk).
  rewrite rev_length. apply dct2_scale_at; rewrite ?alt_list_length, ?rev_length; [exact Hz|].
  intros i Hi. rewrite nth_alt_list by (rewrite rev_length; exact Hi). rewrite E by exact Hi.
  rewrite rev_nth by lia. replace (length s - S i)%nat with (length s - 1 - i)%nat by lia.
  rewrite alt_sub by lia. ring.
Qed.

(** ** Types 2 and 3 of length [4q] from one half and two quarters *)
Section Quarters.
Variables (q : nat) (x : list R).
Hypothesis Hq : (0 < q)%nat.
Hypothesis Hx : length x = (4 * q)%nat.
Notation X i := (nth i x 0).
Notation C i := (cz (8 * zn q) (2 * zn i + 1)).
Notation S_ i := (sz (8 * zn q) (2 * zn i + 1)).

Lemma dct2_quarters y c s :
  length y = (2 * q)%nat -> length c = q -> length s = q ->
  (forall i, (i < 2 * q)%nat -> nth i y 0 = X i + X (4 * q - 1 - i)%nat) ->
  (forall i, (i < q)%nat -> nth i c 0 =
     (X i - X (4 * q - 1 - i)%nat) * C i + (X (2 * q - 1 - i)%nat - X (2 * q + i)%nat) * S_ i) ->
  (forall i, (i < q)%nat -> nth i s 0 =
     (X (2 * q - 1 - i)%nat - X (2 * q + i)%nat) * C i - (X i - X (4 * q - 1 - i)%nat) * S_ i) ->
  (forall k, dct2_at x (2 * k) = dct2_at y k) /\
  dct2_at x 1 = dct2_at c 0 /\
  (forall m, dct2_at x (4 * (m + 1) + 1) = dct2_at c (m + 1) + dst2_at s m) /\
  (forall m, dct2_at x (4 * m + 3) = dct2_at c (m + 1) - dst2_at s m) /\
  dct2_at x (4 * q - 1) = - dst2_at s (q - 1).
Proof.
  intros Hy Hc Hs Ey Ec Es.
  set (d := map (fun i => X i - X (4 * q - 1 - i)%nat) (seq 0 (2 * q))).
  assert (Hd : length d = (2 * q)%nat) by (unfold d; rewrite map_length, seq_length; reflexivity).
  assert (Ed : forall i, (i < 2 * q)%nat -> nth i d 0 = X i - X (4 * q - 1 - i)%nat).
  { intros i Hi. unfold d. apply (nth_map_seq (fun i => X i - X (4 * q - 1 - i)%nat)). exact Hi. }
  assert (Hx2 : length x = (2 * (2 * q))%nat) by lia.
  assert (Eo : forall k, dct2_at x (2 * k + 1) = dct4_at d k).
  { intros k. apply (dct2_odd_index (2 * q) x); [lia|exact Hx2|exact Hd|].
    intros i Hi. rewrite Ed by exact Hi. do 3 f_equal. lia. }
  destruct (dct4_even_dct2 q d Hq Hd c s Hc Hs) as (D0 & D1 & D2).
  - intros i Hi. rewrite Ec by exact Hi. rewrite !Ed by lia.
    replace (4 * q - 1 - (2 * q - 1 - i))%nat with (2 * q + i)%nat by lia. reflexivity.
  - intros i Hi. rewrite Es by exact Hi. rewrite !Ed by lia.
    replace (4 * q - 1 - (2 * q - 1 - i))%nat with (2 * q + i)%nat by lia. reflexivity.
  - assert (D3 : forall m, dct2_at x (4 * m + 3) = dct2_at c (m + 1) - dst2_at s m).
    { intros m. replace (4 * m + 3)%nat with (2 * (2 * m + 1) + 1)%nat by lia. rewrite Eo. apply D2. }
    split; [|split; [|split; [|split]]].
    + intros k. apply (dct2_even_index (2 * q) x); [lia|exact Hx2|exact Hy|].
      intros i Hi. rewrite Ey by exact Hi. do 2 f_equal. lia.
    + rewrite <- D0, <- Eo. reflexivity.
    + intros m. replace (4 * (m + 1) + 1)%nat with (2 * (2 * (m + 1)) + 1)%nat by lia. rewrite Eo. apply D1.
    + exact D3.
    + replace (4 * q - 1)%nat with (4 * (q - 1) + 3)%nat by lia. rewrite D3.
      replace (q - 1 + 1)%nat with q by lia.
      replace (dct2_at c q) with 0; [ring|]. symmetry. rewrite dct2_cz by lia. apply sum_zero'. intros i Hi.
      rewrite Hc, (Z.mul_comm (zn q)), cz_odd_quarter by lia. ring.
Qed.

Lemma dct3_quarters e u v k :
  length e = (2 * q)%nat -> length u = q -> length v = q -> (k < q)%nat ->
  (forall i, (i < 2 * q)%nat -> nth i e 0 = X (2 * i)%nat) ->
  (forall i, (i < q)%nat -> nth i u 0 = if (i =? 0)%nat then 2 * X 1%nat else X (4 * i - 1)%nat + X (4 * i + 1)%nat) ->
  (forall i, (i < q)%nat -> nth i v 0 = if (i =? q - 1)%nat then 2 * X (4 * i + 3)%nat
                                        else X (4 * i + 3)%nat - X (4 * i + 5)%nat) ->
  let low := dct3_at u k * C k + dst3_at v k * S_ k in
  let upp := dct3_at u k * S_ k - dst3_at v k * C k in
  dct3_at x k = dct3_at e k + low /\
  dct3_at x (4 * q - 1 - k) = dct3_at e k - low /\
  dct3_at x (2 * q - 1 - k) = dct3_at e (2 * q - 1 - k) + upp /\
  dct3_at x (2 * q + k) = dct3_at e (2 * q - 1 - k) - upp.
Proof.
  intros He Hu Hv Hk Ee Eu Ev low upp.
  set (o := map (fun i => X (2 * i + 1)%nat) (seq 0 (2 * q))).
  assert (Ho : length o = (2 * q)%nat) by (unfold o; rewrite map_length, seq_length; reflexivity).
  assert (Eo : forall i, (i < 2 * q)%nat -> nth i o 0 = X (2 * i + 1)%nat).
  { intros i Hi. unfold o. apply (nth_map_seq (fun i => X (2 * i + 1)%nat)). exact Hi. }
  assert (Hx2 : length x = (2 * (2 * q))%nat) by lia.
  destruct (dct4_even_dct3 q o Hq Ho u v k Hu Hv) as [L U].
  - intros i Hi. rewrite Eu by exact Hi. rewrite Eo by lia.
    destruct (Nat.eqb_spec i 0); [reflexivity|].
    rewrite !Eo by lia. f_equal; f_equal; lia.
  - intros i Hi. rewrite Ev by exact Hi. rewrite !Eo by lia.
    destruct (Nat.eqb_spec i (q - 1)); [do 2 f_equal; lia|].
    rewrite !Eo by lia. f_equal; f_equal; lia.
  - specialize (U ltac:(lia)).
    destruct (dct3_low (2 * q) x ltac:(lia) Hx2 e o k He Ho Ee Eo) as [P1 P2].
    destruct (dct3_low (2 * q) x ltac:(lia) Hx2 e o (2 * q - 1 - k) He Ho Ee Eo) as [P3 P4].
    specialize (P2 ltac:(lia)). specialize (P4 ltac:(lia)).
    unfold low, upp. rewrite <- L, <- U. repeat split.
    + exact P1.
    + rewrite <- P2. f_equal. lia.
    + exact P3.
    + rewrite <- P4. f_equal. lia.
Qed.
End Quarters.
