(** The type 4 step (a DCT3 and a DST3 of half the length followed by rotations) and the split radix
    step of the DCT3, with errors. *)
From Coq Require Import Reals ZArith List Arith Lia Lra Psatz ZifyNat.
From Verif Require Import Spec Trig Ref Ref_Split Ref_Inverse Energy Round_Stage.
Import ListNotations.
Open Scope R_scope.
Ltac Zify.zify_post_hook ::= Z.div_mod_to_equations.

(** Two blocks. *)
Definition sq2 (w v : nat -> R) (n m : nat) (f g : nat -> R) : R := sq w n f + sq v m g.
Lemma sq2_ge0 w v n m f g : pos w -> pos v -> 0 <= sq2 w v n m f g.
Proof. intros. apply Rplus_le_le_0_compat; apply sq_ge0; assumption. Qed.
Lemma sq2_triangle w v n m f g f' g' h h' : pos w -> pos v ->
  (forall i, (i < n)%nat -> h i = f i + f' i) -> (forall i, (i < m)%nat -> h' i = g i + g' i) ->
  sqrt (sq2 w v n m h h') <= sqrt (sq2 w v n m f g) + sqrt (sq2 w v n m f' g').
Proof.
  intros Pw Pv H1 H2. pose proof (sq3_triangle w v w1 n m 0 Pw Pv w1_pos f g (fun _ => 0) f' g' (fun _ => 0)) as H.
  unfold sq3 in H. unfold sq2. rewrite (sq_ext w w n h (fun i => f i + f' i)), (sq_ext v v m h' (fun i => g i + g' i)) by auto.
  unfold sq at 3 6 9 in H. cbn [sum] in H. rewrite !Rplus_0_r in H. exact H.
Qed.
Lemma two_le a1 a2 b1 b2 c : 0 <= c -> 0 <= a1 -> 0 <= a2 -> 0 <= b1 -> 0 <= b2 ->
  sqrt a1 <= c * sqrt b1 -> sqrt a2 <= c * sqrt b2 -> sqrt (a1 + a2) <= c * sqrt (b1 + b2).
Proof.
  intros. apply sqrt_scale; [assumption|]. pose proof (sqrt_sqrt_le a1 c b1). pose proof (sqrt_sqrt_le a2 c b2). lra.
Qed.
Lemma sqrt_mono_c c a b : 0 <= c -> 0 <= a -> 0 <= b -> forall k, 0 <= k -> sqrt a <= k * sqrt b -> sqrt (c * a) <= k * sqrt (c * b).
Proof.
  intros Hc Ha Hb k Hk H. apply sqrt_scale; [exact Hk|]. apply sqrt_sqrt_le in H; try assumption. apply (Rmult_le_compat_l c) in H; [|exact Hc]. lra.
Qed.

Section Stage4.
Variable q : nat.
Variables a b ah bh : list R.
Variables p t : nat -> R.
Variable E : R.
Hypotheses (La : length a = q) (Lb : length b = q) (Lah : length ah = q) (Lbh : length bh = q).
Hypothesis Hpt : forall k, (k < q)%nat -> p k * p k + t k * t k = 1.
Hypothesis HE : sq wf q (nt a) + sq (wl q) q (nt b) = 4 * E.
Variables Ch Sh Lh Uh L U : nat -> R.
Variables u m r : R.
Hypotheses (Hu : 0 <= u) (Hm : 0 <= m) (Hr : 1 <= r).
Hypothesis Aa : forall i, (i < q)%nat -> Rabs (nth i ah 0 - nth i a 0) <= u * Rabs (nth i a 0).
Hypothesis Ab : forall i, (i < q)%nat -> Rabs (nth i bh 0 - nth i b 0) <= u * Rabs (nth i b 0).
Hypothesis AC : sqrt (sq w1 q (fun k => Ch k - dct3_at ah k)) <= (r - 1) * sqrt (INR q / 4 * sq wf q (nt ah)).
Hypothesis AS : sqrt (sq w1 q (fun k => Sh k - dst3_at bh k)) <= (r - 1) * sqrt (INR q / 4 * sq (wl q) q (nt bh)).
Hypothesis AR : forall k, (k < q)%nat ->
  (Lh k - (Ch k * p k + Sh k * t k))² + (Uh k - (Ch k * t k - Sh k * p k))² <= m² * ((Ch k)² + (Sh k)²).
Hypothesis EL : forall k, (k < q)%nat -> L k = dct3_at a k * p k + dst3_at b k * t k.
Hypothesis EU : forall k, (k < q)%nat -> U k = dct3_at a k * t k - dst3_at b k * p k.

Let I2 := sq2 wf (wl q) q q.
Let O2 := sq2 w1 w1 q q.
Lemma rot_energy c s : O2 (fun k => c k * p k + s k * t k) (fun k => c k * t k - s k * p k) = O2 c s.
Proof.
  unfold O2, sq2, sq. rewrite <- !sum_plus. apply sum_ext. intros k Hk. unfold w1, Rsqr.
  transitivity ((c k * c k + s k * s k) * (p k * p k + t k * t k)); [ring|]. rewrite Hpt by exact Hk. ring.
Qed.
Lemma exact4_energy : O2 L U = INR q * E.
Proof.
  transitivity (O2 (dct3_at a) (dst3_at b)).
  - rewrite <- (rot_energy (dct3_at a) (dst3_at b)). unfold O2, sq2. f_equal; apply sq_ext; auto.
  - unfold O2, sq2. rewrite dct3_energy, dst3_energy by assumption. rewrite <- Rmult_plus_distr_l, HE. field.
Qed.

Lemma stage4 : sqrt (O2 (fun k => Lh k - L k) (fun k => Uh k - U k)) <= ((1 + m) * (r * (1 + u)) - 1) * sqrt (INR q * E).
Proof.
  set (B := sqrt (INR q * E)). assert (HB : 0 <= B) by apply sqrt_pos. pose proof (pos_INR q) as Pq.
  assert (EB : B = sqrt (INR q / 4 * I2 (nt a) (nt b))) by (unfold B, I2, sq2; rewrite HE; f_equal; field).
  assert (P2 : forall f g, 0 <= I2 f g) by (intros; apply sq2_ge0; auto).
  assert (In1 : I2 (fun i => nth i ah 0 - nth i a 0) (fun i => nth i bh 0 - nth i b 0) <= u² * I2 (nt a) (nt b)).
  { unfold I2, sq2. rewrite Rmult_plus_distr_l, <- !sq_scal. apply Rplus_le_compat; (apply sq_le; [auto|]); intros i Hi;
      rewrite Rabs_mult, (Rabs_right u) by lra; auto. }
  assert (Nin : sqrt (INR q / 4 * I2 (nt ah) (nt bh)) <= (1 + u) * B).
  { rewrite EB. apply sqrt_mono_c; [lra|apply P2|apply P2|lra|]. rewrite Rmult_plus_distr_r, Rmult_1_l.
    eapply Rle_trans; [|apply Rplus_le_compat_l, (sqrt_scale _ _ _ Hu In1)].
    apply sq2_triangle; auto; intros; ring. }
  assert (Err1 : sqrt (O2 (fun k => Ch k - dct3_at ah k) (fun k => Sh k - dst3_at bh k)) <= (r - 1) * sqrt (INR q / 4 * I2 (nt ah) (nt bh))).
  { unfold O2, I2, sq2. rewrite Rmult_plus_distr_l. apply two_le; try assumption; try lra; try (apply Rmult_le_pos; [lra|]); apply sq_ge0; auto. }
  assert (Err2 : sqrt (O2 (fun k => dct3_at ah k - dct3_at a k) (fun k => dst3_at bh k - dst3_at b k)) <= (1 + u - 1) * B).
  { replace (1 + u - 1) with u by ring. rewrite EB.
    set (dl x y := map (fun i => nth i x 0 - nth i y 0) (seq 0 q) : list R).
    assert (Ld : forall x y, length (dl x y) = q) by (intros; unfold dl; rewrite map_length, seq_length; reflexivity).
    assert (Nd : forall x y i, (i < q)%nat -> nth i (dl x y) 0 = nth i x 0 - nth i y 0) by (intros x y i Hi; unfold dl; apply (nth_map_seq (fun i => nth i x 0 - nth i y 0)), Hi).
    replace (O2 _ _) with (INR q / 4 * I2 (fun i => nth i ah 0 - nth i a 0) (fun i => nth i bh 0 - nth i b 0)).
    - apply sqrt_mono_c; try apply P2; try lra. apply sqrt_scale; assumption.
    - unfold O2, I2, sq2. rewrite Rmult_plus_distr_l.
      rewrite <- (sq_ext wf wf q (nt (dl ah a))) by (auto; intros; apply Nd; assumption).
      rewrite <- (sq_ext (wl q) (wl q) q (nt (dl bh b))) by (auto; intros; apply Nd; assumption).
      rewrite <- dct3_energy, <- dst3_energy by apply Ld. f_equal; apply sq_ext; try reflexivity; intros k Hk.
      + apply (kern_diff _ _ _ (kern_dct3 q)); auto.
      + apply (kern_diff _ _ _ (kern_dst3 q)); auto. }
  set (C0 := dct3_at a) in * . set (S0 := dst3_at b) in * .
  assert (Err : sqrt (O2 (fun k => Ch k - C0 k) (fun k => Sh k - S0 k)) <= (r * (1 + u) - 1) * B).
  { eapply Rle_trans; [|eapply (chain r (1 + u) B _ _ _ Hr Err1 Err2 Nin)]. apply sq2_triangle; auto; intros; ring. }
  assert (NO : sqrt (O2 Ch Sh) <= r * (1 + u) * B).
  { replace (r * (1 + u) * B) with ((r * (1 + u) - 1) * B + sqrt (O2 C0 S0)).
    - eapply Rle_trans; [|apply Rplus_le_compat_r, Err]. apply sq2_triangle; auto; intros; ring.
    - replace (O2 C0 S0) with (INR q * E); [fold B; ring|].
      unfold O2, sq2, C0, S0. rewrite dct3_energy, dst3_energy by assumption. rewrite <- Rmult_plus_distr_l, HE. field. }
  set (L' := fun k => Ch k * p k + Sh k * t k). set (U' := fun k => Ch k * t k - Sh k * p k).
  assert (R1 : sqrt (O2 (fun k => Lh k - L' k) (fun k => Uh k - U' k)) <= m * sqrt (O2 Ch Sh)).
  { apply sqrt_scale; [exact Hm|]. unfold O2, sq2, sq. rewrite <- !sum_plus, <- sum_scal_l. apply sum_le. intros k Hk.
    unfold w1, L', U'. specialize (AR k Hk). lra. }
  assert (R2 : sqrt (O2 (fun k => L' k - L k) (fun k => U' k - U k)) <= (r * (1 + u) - 1) * B).
  { eapply Rle_trans; [|exact Err]. apply Req_le. f_equal. rewrite <- (rot_energy (fun k => Ch k - C0 k) (fun k => Sh k - S0 k)). unfold O2, sq2.
    f_equal; apply sq_ext; try reflexivity; intros k Hk; unfold L', U'; cbv beta; rewrite ?EL, ?EU by exact Hk; fold C0 S0; ring. }
  replace ((1 + m) * (r * (1 + u)) - 1) with (m * (r * (1 + u)) + (r * (1 + u) - 1)) by ring. rewrite Rmult_plus_distr_r.
  eapply Rle_trans; [apply (sq2_triangle w1 w1 q q (fun k => Lh k - L' k) (fun k => Uh k - U' k) (fun k => L' k - L k) (fun k => U' k - U k)); auto; intros; ring|].
  apply Rplus_le_compat; [|exact R2]. eapply Rle_trans; [exact R1|]. rewrite Rmult_assoc. apply Rmult_le_compat_l; assumption.
Qed.
End Stage4.

(** Energy before the type 4 step. *)
Lemma pre4_energy q o a b s : (0 < q)%nat -> s * s = 1 ->
  (forall i, (i < q)%nat -> nth i a 0 = if (i =? 0)%nat then 2 * nth 0 o 0 else nth (2 * i) o 0 + s * nth (2 * i - 1) o 0) ->
  (forall i, (i < q)%nat -> nth i b 0 = if (i =? q - 1)%nat then 2 * nth (2 * i + 1) o 0
                                        else nth (2 * i + 1) o 0 - s * nth (2 * i + 2) o 0) ->
  sq wf q (nt a) + sq (wl q) q (nt b) = 4 * sq w1 (2 * q) (nt o).
Proof.
  intros Hq Hs Ea Eb. assert (exists p, q = S p) as [p Eq] by (exists (q - 1)%nat; lia).
  replace (sq wf q (nt a)) with (sq wf (S p) (nt a)) by (rewrite Eq; reflexivity).
  replace (sq (wl q) q (nt b)) with (sq (wl (S p)) (S p) (nt b)) by (rewrite Eq; reflexivity).
  rewrite sq_wf_S, sq_wl_S. unfold sq. rewrite sum_even_odd.
  replace (sum (fun i => w1 (2 * i) * _) q) with (sum (fun i => w1 (2 * i) * (nth (2 * i) o 0)²) (S p)) by (rewrite Eq; reflexivity).
  replace (sum (fun i => w1 (2 * i + 1) * _) q) with (sum (fun i => w1 (2 * i + 1) * (nth (2 * i + 1) o 0)²) (S p)) by (rewrite Eq; reflexivity).
  rewrite sum_S_l. cbn [sum]. rewrite (Ea 0%nat), (Eb p) by lia. cbn [Nat.eqb]. replace (p =? q - 1)%nat with true by (symmetry; apply Nat.eqb_eq; lia).
  rewrite (sum_ext (fun i => (nth (i + 1) a 0)²) (fun i => (nth (2 * i + 2) o 0 + s * nth (2 * i + 1) o 0)²)).
  2: { intros i Hi. rewrite Ea by lia. replace (i + 1 =? 0)%nat with false by (symmetry; apply Nat.eqb_neq; lia).
       replace (2 * (i + 1))%nat with (2 * i + 2)%nat by lia. replace (2 * i + 2 - 1)%nat with (2 * i + 1)%nat by lia. reflexivity. }
  rewrite (sum_ext (fun i => (nth i b 0)²) (fun i => (nth (2 * i + 1) o 0 - s * nth (2 * i + 2) o 0)²)).
  2: { intros i Hi. rewrite Eb by lia. replace (i =? q - 1)%nat with false by (symmetry; apply Nat.eqb_neq; lia). reflexivity. }
  assert (K : sum (fun i => (nth (2 * i + 2) o 0 + s * nth (2 * i + 1) o 0)²) p + sum (fun i => (nth (2 * i + 1) o 0 - s * nth (2 * i + 2) o 0)²) p
     = 2 * sum (fun i => w1 (2 * S i) * (nth (2 * S i) o 0)²) p + 2 * sum (fun i => w1 (2 * i + 1) * (nth (2 * i + 1) o 0)²) p).
  { rewrite <- !sum_scal_l, <- !sum_plus. apply sum_ext. intros i _. replace (2 * S i)%nat with (2 * i + 2)%nat by lia. unfold w1, Rsqr.
    set (x := nth (2 * i + 2) o 0). set (y := nth (2 * i + 1) o 0).
    transitivity ((x * x + y * y) * (1 + s * s)); [ring|]. rewrite Hs. ring. }
  unfold w1 in * . unfold Rsqr in * . replace (2 * 0)%nat with 0%nat by lia. lra.
Qed.

Section Stage3.
Variable q : nat.
Hypothesis Hq : (0 < q)%nat.
Definition post3 (A L U : nat -> R) (k : nat) : R :=
  if (k <? q)%nat then A k + L k else if (k <? 2 * q)%nat then A k + U (2 * q - 1 - k)%nat
  else if (k <? 3 * q)%nat then A (4 * q - 1 - k)%nat - U (k - 2 * q)%nat else A (4 * q - 1 - k)%nat - L (4 * q - 1 - k)%nat.
Lemma post3_energy A L U : sq w1 (4 * q) (post3 A L U) = 2 * sq w1 (2 * q) A + 2 * sq2 w1 w1 q q L U.
Proof.
  unfold sq2, sq. rewrite sum_four, (sum_half2 q) by exact Hq. rewrite Rmult_plus_distr_l, <- !sum_scal_l, <- !sum_plus. apply sum_ext. intros i Hi.
  unfold post3. repeat match goal with |- context [(?a <? ?b)%nat] => destruct (Nat.ltb_spec a b); try lia end.
  replace (2 * q - 1 - (2 * q - 1 - i))%nat with i by lia. replace (4 * q - 1 - (2 * q + i))%nat with (2 * q - 1 - i)%nat by lia.
  replace (2 * q + i - 2 * q)%nat with i by lia. replace (4 * q - 1 - (4 * q - 1 - i))%nat with i by lia. unfold w1, Rsqr. ring.
Qed.

Variables x e a b : list R.
Notation X i := (nth i x 0).
Notation C i := (cz (8 * zn q) (2 * zn i + 1)).
Notation S_ i := (sz (8 * zn q) (2 * zn i + 1)).
Hypotheses (Lx : length x = (4 * q)%nat) (Le : length e = (2 * q)%nat) (La : length a = q) (Lb : length b = q).
Hypothesis Ee : forall i, (i < 2 * q)%nat -> nth i e 0 = X (2 * i)%nat.
Hypothesis Ea : forall i, (i < q)%nat -> nth i a 0 = if (i =? 0)%nat then 2 * X 1%nat else X (4 * i - 1)%nat + X (4 * i + 1)%nat.
Hypothesis Eb : forall i, (i < q)%nat -> nth i b 0 = if (i =? q - 1)%nat then 2 * X (4 * i + 3)%nat else X (4 * i + 3)%nat - X (4 * i + 5)%nat.
Variables ah bh : list R.
Hypotheses (Lah : length ah = q) (Lbh : length bh = q).
Variables Ah Ch Sh Lh Uh Rh : nat -> R.
Variables u m r : R.
Hypotheses (Hu : 0 <= u) (Hm : 0 <= m) (Hr : 1 <= r).
Hypothesis Aa : forall i, (i < q)%nat -> Rabs (nth i ah 0 - nth i a 0) <= u * Rabs (nth i a 0).
Hypothesis Ab : forall i, (i < q)%nat -> Rabs (nth i bh 0 - nth i b 0) <= u * Rabs (nth i b 0).
Hypothesis AA : sqrt (sq w1 (2 * q) (fun k => Ah k - dct3_at e k)) <= (r - 1) * sqrt (INR (2 * q) / 4 * sq wf (2 * q) (nt e)).
Hypothesis AC : sqrt (sq w1 q (fun k => Ch k - dct3_at ah k)) <= (r - 1) * sqrt (INR q / 4 * sq wf q (nt ah)).
Hypothesis AS : sqrt (sq w1 q (fun k => Sh k - dst3_at bh k)) <= (r - 1) * sqrt (INR q / 4 * sq (wl q) q (nt bh)).
Hypothesis AR : forall k, (k < q)%nat ->
  (Lh k - (Ch k * C k + Sh k * S_ k))² + (Uh k - (Ch k * S_ k - Sh k * C k))² <= m² * ((Ch k)² + (Sh k)²).
Hypothesis AO : forall k, (k < 4 * q)%nat -> Rabs (Rh k - post3 Ah Lh Uh k) <= u * Rabs (post3 Ah Lh Uh k).

Lemma stage3 : sqrt (sq w1 (4 * q) (fun k => Rh k - dct3_at x k)) <=
  ((1 + u) * ((1 + m) * (r * (1 + u))) - 1) * sqrt (INR (4 * q) / 4 * sq wf (4 * q) (nt x)).
Proof.
  set (B := sqrt (INR (4 * q) / 4 * sq wf (4 * q) (nt x))). assert (HB : 0 <= B) by apply sqrt_pos. pose proof (pos_INR q) as Pq.
  assert (E2 : INR (2 * q) = 2 * INR q) by (rewrite mult_INR; reflexivity).
  assert (E4 : INR (4 * q) = 4 * INR q) by (rewrite mult_INR; simpl; ring).
  set (o := map (fun i => X (2 * i + 1)%nat) (seq 0 (2 * q))).
  assert (Lo : length o = (2 * q)%nat) by (unfold o; rewrite map_length, seq_length; reflexivity).
  assert (No : forall i, (i < 2 * q)%nat -> nth i o 0 = X (2 * i + 1)%nat) by (intros i Hi; unfold o; apply (nth_map_seq (fun i => X (2 * i + 1)%nat)), Hi).
  set (E := sq w1 (2 * q) (nt o)).
  assert (HE : sq wf q (nt a) + sq (wl q) q (nt b) = 4 * E).
  { apply (pre4_energy q o a b 1 Hq); [ring| |].
    - intros i Hi. rewrite Ea by exact Hi. destruct (Nat.eqb_spec i 0); [rewrite No by lia; reflexivity|]. rewrite !No by lia.
      replace (2 * (2 * i - 1) + 1)%nat with (4 * i - 1)%nat by lia. replace (2 * (2 * i) + 1)%nat with (4 * i + 1)%nat by lia. ring.
    - intros i Hi. rewrite Eb by exact Hi. destruct (Nat.eqb_spec i (q - 1)); rewrite !No by lia;
      replace (2 * (2 * i + 1) + 1)%nat with (4 * i + 3)%nat by lia; [reflexivity|]. replace (2 * (2 * i + 2) + 1)%nat with (4 * i + 5)%nat by lia. ring. }
  assert (Ex : sq wf (4 * q) (nt x) = sq wf (2 * q) (nt e) + 2 * E).
  { unfold E, sq. replace (4 * q)%nat with (2 * (2 * q))%nat by lia. rewrite sum_even_odd, <- sum_scal_l. f_equal; apply sum_ext; intros i Hi.
    - rewrite Ee by exact Hi. unfold wf. destruct i; reflexivity.
    - rewrite No by exact Hi. unfold wf, w1. replace (_ =? 0)%nat with false by (symmetry; apply Nat.eqb_neq; lia). ring. }
  set (L := fun k => dct3_at a k * C k + dst3_at b k * S_ k). set (U := fun k => dct3_at a k * S_ k - dst3_at b k * C k).
  set (R4 := (1 + m) * (r * (1 + u))).
  assert (HR4 : r <= R4) by (unfold R4; assert (r <= r * (1 + u)) by nra; nra).
  assert (S4 : sqrt (sq2 w1 w1 q q (fun k => Lh k - L k) (fun k => Uh k - U k)) <= (R4 - 1) * sqrt (INR q * E)).
  { apply (stage4 q a b ah bh (fun k => C k) (fun k => S_ k) E) with (Ch := Ch) (Sh := Sh); auto.
    intros k Hk. pose proof (cz_sz_1 (8 * zn q) ltac:(lia) (2 * zn k + 1)) as H. unfold Rsqr in H. exact H. }
  assert (PE : 0 <= E) by (apply sq_ge0; auto).
  assert (EB : B = sqrt (INR q * sq wf (2 * q) (nt e) + 2 * (INR q * E))) by (unfold B; rewrite Ex, E4; f_equal; field).
  assert (X0 : forall k, (k < 4 * q)%nat -> dct3_at x k = post3 (dct3_at e) L U k).
  { intros k Hk. unfold post3, L, U.
    destruct (Nat.ltb_spec k q).
    { destruct (dct3_quarters q x Hq Lx e a b k Le La Lb ltac:(lia) Ee Ea Eb) as (D & _). exact D. }
    destruct (Nat.ltb_spec k (2 * q)).
    { destruct (dct3_quarters q x Hq Lx e a b (2 * q - 1 - k) Le La Lb ltac:(lia) Ee Ea Eb) as (_ & _ & D & _).
      replace (2 * q - 1 - (2 * q - 1 - k))%nat with k in D by lia. exact D. }
    destruct (Nat.ltb_spec k (3 * q)).
    { destruct (dct3_quarters q x Hq Lx e a b (k - 2 * q) Le La Lb ltac:(lia) Ee Ea Eb) as (_ & _ & _ & D).
      replace (2 * q + (k - 2 * q))%nat with k in D by lia. replace (2 * q - 1 - (k - 2 * q))%nat with (4 * q - 1 - k)%nat in D by lia. exact D. }
    destruct (dct3_quarters q x Hq Lx e a b (4 * q - 1 - k) Le La Lb ltac:(lia) Ee Ea Eb) as (_ & D & _).
    replace (4 * q - 1 - (4 * q - 1 - k))%nat with k in D by lia. exact D. }
  assert (P3 : forall f g h f' g' h' k, post3 f g h k - post3 f' g' h' k = post3 (fun i => f i - f' i) (fun i => g i - g' i) (fun i => h i - h' i) k).
  { intros. unfold post3. repeat match goal with |- context [(?a <? ?b)%nat] => destruct (Nat.ltb_spec a b) end; ring. }
  assert (Err : sqrt (sq w1 (4 * q) (fun k => post3 Ah Lh Uh k - dct3_at x k)) <= (R4 - 1) * B).
  { rewrite (sq_ext w1 w1 (4 * q) _ (post3 (fun k => Ah k - dct3_at e k) (fun k => Lh k - L k) (fun k => Uh k - U k))).
    2: reflexivity. 2: intros k Hk; rewrite X0 by exact Hk; apply P3.
    rewrite post3_energy, EB. apply two_le; try lra; try (apply Rmult_le_pos; [lra|]); try (apply sq_ge0; auto); try (apply sq2_ge0; auto); try nra.
    - replace (INR q * sq wf (2 * q) (nt e)) with (2 * (INR (2 * q) / 4 * sq wf (2 * q) (nt e))) by (rewrite E2; field).
      apply sqrt_mono_c; [lra|apply sq_ge0; auto|apply Rmult_le_pos; [lra|apply sq_ge0; auto]|lra|].
      eapply Rle_trans; [exact AA|]. apply Rmult_le_compat_r; [apply sqrt_pos|lra].
    - apply sqrt_mono_c; [lra|apply sq2_ge0; auto|nra|lra|exact S4]. }
  assert (NX : sqrt (sq w1 (4 * q) (dct3_at x)) = B) by (unfold B; rewrite dct3_energy by exact Lx; reflexivity).
  assert (NO : sqrt (sq w1 (4 * q) (post3 Ah Lh Uh)) <= R4 * B).
  { replace (R4 * B) with ((R4 - 1) * B + sqrt (sq w1 (4 * q) (dct3_at x))) by (rewrite NX; ring).
    eapply Rle_trans; [|apply Rplus_le_compat_r, Err]. eapply Rle_trans; [|apply sq_triangle; auto].
    apply Req_le. f_equal. apply sq_ext; [reflexivity|]. intros; ring. }
  assert (Post : sqrt (sq w1 (4 * q) (fun k => Rh k - post3 Ah Lh Uh k)) <= u * sqrt (sq w1 (4 * q) (post3 Ah Lh Uh))).
  { apply sqrt_scale; [exact Hu|]. rewrite <- sq_scal. apply sq_le; [auto|]. intros k Hk. rewrite Rabs_mult, (Rabs_right u) by lra. apply AO, Hk. }
  fold R4. replace ((1 + u) * R4 - 1) with (R4 - 1 + u * R4) by ring. rewrite Rmult_plus_distr_r.
  eapply Rle_trans; [|apply Rplus_le_compat; [exact Err|eapply Rle_trans; [exact Post|]]].
  2: { rewrite Rmult_assoc. apply Rmult_le_compat_l; [exact Hu|exact NO]. }
  eapply Rle_trans; [|apply sq_triangle; auto]. apply Req_le. f_equal. apply sq_ext; [reflexivity|]. intros; ring.
Qed.
End Stage3.
