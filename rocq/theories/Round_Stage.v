(** One level of the split radix recursion, with errors: from errors of the inner transforms and of the
    rounded operations around them to the error of the whole. *)
From Coq Require Import Reals ZArith List Arith Lia Lra Psatz ZifyNat.
From Verif Require Import Spec Trig Ref Ref_Split Ref_Inverse Energy.
Import ListNotations.
Open Scope R_scope.
Ltac Zify.zify_post_hook ::= Z.div_mod_to_equations.

Notation nt x := (fun i => nth i x 0).

Lemma sqrt_sq_le a b : 0 <= b -> a <= b² -> sqrt a <= b.
Proof. intros Hb H. rewrite <- (sqrt_Rsqr b Hb). apply sqrt_le_1_alt, H. Qed.
Lemma sqrt_sqrt_le a c b : 0 <= c -> 0 <= b -> sqrt a <= c * sqrt b -> 0 <= a -> a <= c² * b.
Proof.
  intros Hc Hb H Ha. rewrite <- (Rsqr_sqrt a Ha). replace (c² * b) with ((c * sqrt b)²) by (rewrite Rsqr_mult, Rsqr_sqrt by exact Hb; reflexivity).
  apply Rsqr_incr_1; [exact H|apply sqrt_pos|apply Rmult_le_pos; [exact Hc|apply sqrt_pos]].
Qed.
(** Three error contributions in three blocks, each at most [c] times the size of its block. *)
Lemma three_le a1 a2 a3 b1 b2 b3 c : 0 <= c -> 0 <= a1 -> 0 <= a2 -> 0 <= a3 -> 0 <= b1 -> 0 <= b2 -> 0 <= b3 ->
  sqrt a1 <= c * sqrt b1 -> sqrt a2 <= c * sqrt b2 -> sqrt a3 <= c * sqrt b3 -> sqrt (a1 + a2 + a3) <= c * sqrt (b1 + b2 + b3).
Proof.
  intros. apply sqrt_scale; [assumption|].
  pose proof (sqrt_sqrt_le a1 c b1). pose proof (sqrt_sqrt_le a2 c b2). pose proof (sqrt_sqrt_le a3 c b3). lra.
Qed.

(** Chaining: an operator of norm at most one applied with relative error [r - 1] to data with relative error [m - 1]. *)
Lemma chain r m B e1 e2 N : 1 <= r -> e1 <= (r - 1) * N -> e2 <= (m - 1) * B -> N <= m * B -> e1 + e2 <= (r * m - 1) * B.
Proof. intros. assert ((r - 1) * N <= (r - 1) * (m * B)) by (apply Rmult_le_compat_l; lra). lra. Qed.

Lemma sq_wf_S f p : sq wf (S p) f = (f 0%nat)² + 2 * sum (fun i => (f (i + 1)%nat)²) p.
Proof.
  unfold sq. rewrite sum_S_l, <- sum_scal_l. unfold wf at 1. cbn [Nat.eqb]. f_equal; [ring|]. apply sum_ext. intros i Hi.
  unfold wf. cbn [Nat.eqb]. rewrite Nat.add_1_r. reflexivity.
Qed.
Lemma sq_wl_S f p : sq (wl (S p)) (S p) f = 2 * sum (fun i => (f i)²) p + (f p)².
Proof.
  unfold sq. cbn [sum]. rewrite <- sum_scal_l. f_equal.
  - apply sum_ext. intros i Hi. unfold wl. replace (i =? _)%nat with false by (symmetry; apply Nat.eqb_neq; lia). reflexivity.
  - unfold wl. replace (p =? _)%nat with true by (symmetry; apply Nat.eqb_eq; lia). ring.
Qed.

Section Stage2.
Variable q : nat.
Hypothesis Hq : (0 < q)%nat.

(** The last step of the DCT2: outputs from the half-size transform [f], the cosine part [g] and the sine part [h]. *)
Definition post2 (f g h : nat -> R) (k : nat) : R :=
  if (k mod 2 =? 0)%nat then f (k / 2)%nat
  else if (k mod 4 =? 1)%nat then (if (k =? 1)%nat then g 0%nat else g (k / 4)%nat + h (k / 4 - 1)%nat)
  else (if (k =? 4 * q - 1)%nat then - h (q - 1)%nat else g (k / 4 + 1)%nat - h (k / 4)%nat).

Lemma post2_even f g h j : post2 f g h (2 * j) = f j.
Proof. unfold post2. replace ((2 * j) mod 2 =? 0)%nat with true by (symmetry; apply Nat.eqb_eq; lia). f_equal. lia. Qed.
Lemma post2_1 f g h : post2 f g h 1 = g 0%nat.
Proof. reflexivity. Qed.
Lemma post2_4i1 f g h i : post2 f g h (4 * (i + 1) + 1) = g (i + 1)%nat + h i.
Proof.
  unfold post2. replace (_ mod 2 =? 0)%nat with false by (symmetry; apply Nat.eqb_neq; lia).
  replace (_ mod 4 =? 1)%nat with true by (symmetry; apply Nat.eqb_eq; lia).
  replace (_ =? 1)%nat with false by (symmetry; apply Nat.eqb_neq; lia). do 2 f_equal; lia.
Qed.
Lemma post2_4i3 f g h i : (i + 1 < q)%nat -> post2 f g h (4 * i + 3) = g (i + 1)%nat - h i.
Proof.
  intros Hi. unfold post2. replace (_ mod 2 =? 0)%nat with false by (symmetry; apply Nat.eqb_neq; lia).
  replace (_ mod 4 =? 1)%nat with false by (symmetry; apply Nat.eqb_neq; lia).
  replace (_ =? _)%nat with false by (symmetry; apply Nat.eqb_neq; lia). do 2 f_equal; lia.
Qed.
Lemma post2_last f g h : post2 f g h (4 * (q - 1) + 3) = - h (q - 1)%nat.
Proof.
  unfold post2. replace (_ mod 2 =? 0)%nat with false by (symmetry; apply Nat.eqb_neq; lia).
  replace (_ mod 4 =? 1)%nat with false by (symmetry; apply Nat.eqb_neq; lia).
  replace (_ =? _)%nat with true by (symmetry; apply Nat.eqb_eq; lia). reflexivity.
Qed.

Lemma post2_energy f g h : sq wf (4 * q) (post2 f g h) = sq wf (2 * q) f + 2 * sq wf q g + 2 * sq (wl q) q h.
Proof.
  unfold sq at 1. replace (4 * q)%nat with (2 * (2 * q))%nat by lia. rewrite sum_even_odd. rewrite Rplus_assoc. f_equal.
  { apply sum_ext. intros i Hi. rewrite post2_even. unfold wf. destruct i; reflexivity. }
  rewrite sum_even_odd. assert (exists p, q = S p) as [p Eq] by (exists (q - 1)%nat; lia).
  replace (sq wf q g) with (sq wf (S p) g) by (rewrite Eq; reflexivity). replace (sq (wl q) q h) with (sq (wl (S p)) (S p) h) by (rewrite Eq; reflexivity).
  rewrite sq_wf_S, sq_wl_S. replace (sum _ q) with (sum (fun i => wf (2 * (2 * i) + 1) * (post2 f g h (2 * (2 * i) + 1))²) (S p)) by (rewrite Eq; reflexivity).
  match goal with |- _ + sum ?F q = _ => replace (sum F q) with (sum F (S p)) by (rewrite <- Eq; reflexivity) end.
  rewrite sum_S_l. cbn [sum].
  rewrite (sum_ext (fun i => wf _ * _) (fun i => 2 * (g (i + 1)%nat + h i)²) p).
  2: { intros i Hi. replace (2 * (2 * S i) + 1)%nat with (4 * (i + 1) + 1)%nat by lia. rewrite post2_4i1. unfold wf.
       replace (_ =? 0)%nat with false by (symmetry; apply Nat.eqb_neq; lia). reflexivity. }
  rewrite (sum_ext (fun i => wf (2 * (2 * i + 1) + 1) * _) (fun i => 2 * (g (i + 1)%nat - h i)²) p).
  2: { intros i Hi. replace (2 * (2 * i + 1) + 1)%nat with (4 * i + 3)%nat by lia. rewrite post2_4i3 by lia. unfold wf.
       replace (_ =? 0)%nat with false by (symmetry; apply Nat.eqb_neq; lia). reflexivity. }
  replace (2 * (2 * p + 1) + 1)%nat with (4 * (q - 1) + 3)%nat by lia. rewrite post2_last.
  replace (q - 1)%nat with p by lia. change (2 * (2 * 0) + 1)%nat with 1%nat. rewrite post2_1.
  unfold wf. cbn [Nat.eqb]. replace (4 * p + 3 =? 0)%nat with false by (symmetry; apply Nat.eqb_neq; lia).
  assert (E : sum (fun i => 2 * (g (i + 1)%nat + h i)²) p + sum (fun i => 2 * (g (i + 1)%nat - h i)²) p
            = 4 * sum (fun i => (g (i + 1)%nat)²) p + 4 * sum (fun i => (h i)²) p).
  { rewrite <- !sum_scal_l, <- !sum_plus. apply sum_ext. intros i _. unfold Rsqr. ring. }
  rewrite <- Rsqr_neg. lra.
Qed.

(** Blocks of four: [i], [2q-1-i], [2q+i], [4q-1-i]. *)
Lemma sum_half2 f : sum f (2 * q) = sum (fun i => f i + f (2 * q - 1 - i)%nat) q.
Proof.
  replace (2 * q)%nat with (q + q)%nat by lia. rewrite sum_app, sum_plus. f_equal. rewrite sum_rev. apply sum_ext. intros i Hi. f_equal. lia.
Qed.
Lemma sum_four f : sum f (4 * q) = sum (fun i => f i + f (2 * q - 1 - i)%nat + f (2 * q + i)%nat + f (4 * q - 1 - i)%nat) q.
Proof.
  replace (sum f (4 * q)) with (sum f (2 * q + 2 * q)) by (f_equal; lia). rewrite sum_app, sum_half2, sum_half2, <- sum_plus.
  apply sum_ext. intros i Hi. replace (2 * q + (2 * q - 1 - i))%nat with (4 * q - 1 - i)%nat by lia. ring.
Qed.

Section Pre.
Variables x y c s : list R.
Notation X i := (nth i x 0).
Notation C i := (cz (8 * zn q) (2 * zn i + 1)).
Notation S_ i := (sz (8 * zn q) (2 * zn i + 1)).
Hypotheses (Lx : length x = (4 * q)%nat) (Ly : length y = (2 * q)%nat) (Lc : length c = q) (Ls : length s = q).
Hypothesis Ey : forall i, (i < 2 * q)%nat -> nth i y 0 = X i + X (4 * q - 1 - i)%nat.
Hypothesis Ec : forall i, (i < q)%nat -> nth i c 0 =
     (X i - X (4 * q - 1 - i)%nat) * C i + (X (2 * q - 1 - i)%nat - X (2 * q + i)%nat) * S_ i.
Hypothesis Es : forall i, (i < q)%nat -> nth i s 0 =
     (X (2 * q - 1 - i)%nat - X (2 * q + i)%nat) * C i - (X i - X (4 * q - 1 - i)%nat) * S_ i.

Lemma pre2_energy : sq w1 (2 * q) (nt y) + sq w1 q (nt c) + sq w1 q (nt s) = 2 * sq w1 (4 * q) (nt x).
Proof.
  unfold sq. rewrite sum_half2, sum_four, <- sum_scal_l, <- !sum_plus. apply sum_ext. intros i Hi.
  rewrite !Ey, Ec, Es by lia. replace (4 * q - 1 - (2 * q - 1 - i))%nat with (2 * q + i)%nat by lia.
  pose proof (cz_sz_1 (8 * zn q) ltac:(lia) (2 * zn i + 1)) as H. unfold w1, Rsqr.
  set (a := X i). set (b := X (4 * q - 1 - i)%nat). set (d := X (2 * q - 1 - i)%nat). set (e := X (2 * q + i)%nat). set (cc := C i) in * . set (ss := S_ i) in * .
  transitivity ((a + b) * (a + b) + (d + e) * (d + e) + ((a - b) * (a - b) + (d - e) * (d - e)) * (cc * cc + ss * ss)); [ring|]. rewrite H. ring.
Qed.

Lemma exact2_post k : (k < 4 * q)%nat -> dct2_at x k = post2 (dct2_at y) (dct2_at c) (dst2_at s) k.
Proof.
  intros Hk. destruct (dct2_quarters q x Hq Lx y c s Ly Lc Ls Ey Ec Es) as (D0 & D1 & D2 & D3 & D4). unfold post2.
  destruct (Nat.eqb_spec (k mod 2) 0).
  { rewrite <- D0. f_equal. lia. }
  destruct (Nat.eqb_spec (k mod 4) 1).
  - destruct (Nat.eqb_spec k 1) as [->|]; [exact D1|].
    replace (dct2_at x k) with (dct2_at x (4 * (k / 4 - 1 + 1) + 1)) by (f_equal; lia). rewrite D2. f_equal. f_equal. lia.
  - destruct (Nat.eqb_spec k (4 * q - 1)) as [->|]; [exact D4|].
    rewrite <- D3. f_equal. lia.
Qed.

(** The step: inner inputs [yh ch sh], inner results [Dh Ch Sh], result [Rh]. *)
Variables yh ch sh : list R.
Variables Dh Ch Sh Rh : nat -> R.
Variables u mu r : R.
Hypotheses (Hu : 0 <= u) (Hmu : 0 <= mu) (Hum : u <= mu) (Hr : 1 <= r).
Hypotheses (Lyh : length yh = (2 * q)%nat) (Lch : length ch = q) (Lsh : length sh = q).
Hypothesis Ay : forall i, (i < 2 * q)%nat -> Rabs (nth i yh 0 - nth i y 0) <= mu * Rabs (nth i y 0).
Hypothesis Acs : forall i, (i < q)%nat -> (nth i ch 0 - nth i c 0)² + (nth i sh 0 - nth i s 0)² <= mu² * ((nth i c 0)² + (nth i s 0)²).
Hypothesis AD : sqrt (sq wf (2 * q) (fun k => Dh k - dct2_at yh k)) <= (r - 1) * sqrt (INR (2 * q) * sq w1 (2 * q) (nt yh)).
Hypothesis AC : sqrt (sq wf q (fun k => Ch k - dct2_at ch k)) <= (r - 1) * sqrt (INR q * sq w1 q (nt ch)).
Hypothesis AS : sqrt (sq (wl q) q (fun k => Sh k - dst2_at sh k)) <= (r - 1) * sqrt (INR q * sq w1 q (nt sh)).
Hypothesis AR : forall k, (k < 4 * q)%nat -> Rabs (Rh k - post2 Dh Ch Sh k) <= u * Rabs (post2 Dh Ch Sh k).

Lemma stage2 : sqrt (sq wf (4 * q) (fun k => Rh k - dct2_at x k)) <= ((1 + u) * (r * (1 + mu)) - 1) * sqrt (INR (4 * q) * sq w1 (4 * q) (nt x)).
Proof.
  set (B := sqrt (INR (4 * q) * sq w1 (4 * q) (nt x))).
  assert (HB : 0 <= B) by apply sqrt_pos.
  pose proof (pos_INR q) as Pq.
  assert (E2 : INR (2 * q) = 2 * INR q) by (rewrite mult_INR; reflexivity).
  assert (E4 : INR (4 * q) = 4 * INR q) by (rewrite mult_INR; simpl; ring).
  pose proof pre2_energy as PE.
  (* size and error of the inner inputs *)
  set (I3 := sq3 w1 w1 w1 (2 * q) q q).
  assert (EB : B = sqrt (2 * INR q * I3 (nt y) (nt c) (nt s))) by (unfold B, I3, sq3; rewrite PE, E4; f_equal; ring).
  assert (In1 : I3 (fun i => nth i yh 0 - nth i y 0) (fun i => nth i ch 0 - nth i c 0) (fun i => nth i sh 0 - nth i s 0) <= mu² * I3 (nt y) (nt c) (nt s)).
  { unfold I3, sq3. rewrite !Rplus_assoc, Rmult_plus_distr_l. apply Rplus_le_compat.
    - rewrite <- sq_scal. apply sq_le; [auto|]. intros i Hi. rewrite Rabs_mult, (Rabs_right mu) by lra. apply Ay, Hi.
    - unfold sq. rewrite <- !sum_plus, <- sum_scal_l. apply sum_le. intros i Hi. unfold w1. specialize (Acs i Hi). lra. }
  assert (Nin : sqrt (2 * INR q * I3 (nt yh) (nt ch) (nt sh)) <= (1 + mu) * B).
  { rewrite (sqrt_mult_alt (2 * INR q)) by lra. apply Rle_trans with (sqrt (2 * INR q) * ((1 + mu) * sqrt (I3 (nt y) (nt c) (nt s)))).
    - apply Rmult_le_compat_l; [apply sqrt_pos|].
      rewrite Rmult_plus_distr_r, Rmult_1_l.
      eapply Rle_trans; [|apply Rplus_le_compat_l; apply (sqrt_scale _ _ _ Hmu In1)].
      eapply Rle_trans; [|apply sq3_triangle; auto]. apply Req_le. f_equal. unfold I3, sq3.
      f_equal; [f_equal|]; apply sq_ext; try reflexivity; intros i Hi; ring.
    - rewrite EB, (sqrt_mult_alt (2 * INR q)) by lra. apply Req_le. ring. }
  (* inner transforms *)
  set (O3 := sq3 wf (fun i => 2 * wf i) (fun i => 2 * wl q i) (2 * q) q q).
  assert (Err1 : sqrt (O3 (fun k => Dh k - dct2_at yh k) (fun k => Ch k - dct2_at ch k) (fun k => Sh k - dst2_at sh k))
     <= (r - 1) * sqrt (2 * INR q * I3 (nt yh) (nt ch) (nt sh))).
  { unfold O3, I3, sq3. rewrite !sq_weight, !Rmult_plus_distr_l.
    assert (D : forall a b, 0 <= a -> 0 <= b -> sqrt a <= (r - 1) * sqrt (INR q * b) -> sqrt (2 * a) <= (r - 1) * sqrt (2 * INR q * b)).
    { intros a b Ha Hb H. apply sqrt_scale; [lra|]. apply sqrt_sqrt_le in H; [|lra|nra|exact Ha]. lra. }
    apply three_le; try (apply Rmult_le_pos; [lra|]); try (apply sq_ge0; auto); try lra.
    - rewrite <- E2. exact AD.
    - apply D; [apply sq_ge0; auto|apply sq_ge0; auto|exact AC].
    - apply D; [apply sq_ge0; auto|apply sq_ge0; auto|exact AS]. }
  assert (Err2 : sqrt (O3 (fun k => dct2_at yh k - dct2_at y k) (fun k => dct2_at ch k - dct2_at c k) (fun k => dst2_at sh k - dst2_at s k)) <= (1 + mu - 1) * B).
  { replace (1 + mu - 1) with mu by ring. rewrite EB.
    set (dl a b n := map (fun i => nth i a 0 - nth i b 0) (seq 0 n) : list R).
    assert (Ld : forall a b n, length (dl a b n) = n) by (intros; unfold dl; rewrite map_length, seq_length; reflexivity).
    assert (Nd : forall a b n i, (i < n)%nat -> nth i (dl a b n) 0 = nth i a 0 - nth i b 0) by (intros a b n i Hi; unfold dl; apply (nth_map_seq (fun i => nth i a 0 - nth i b 0)), Hi).
    assert (Q1 : sq wf (2 * q) (fun k => dct2_at yh k - dct2_at y k) = 2 * INR q * sq w1 (2 * q) (fun i => nth i yh 0 - nth i y 0)).
    { rewrite <- E2. rewrite <- (sq_ext w1 w1 (2 * q) (nt (dl yh y (2 * q)%nat))) by (auto; intros; apply Nd; assumption).
      rewrite <- dct2_energy by apply Ld. apply sq_ext; [reflexivity|]. intros i Hi. symmetry. apply (kern_diff _ _ _ (kern_dct2 (2 * q))); auto. }
    assert (Q2 : sq wf q (fun k => dct2_at ch k - dct2_at c k) = INR q * sq w1 q (fun i => nth i ch 0 - nth i c 0)).
    { rewrite <- (sq_ext w1 w1 q (nt (dl ch c q))) by (auto; intros; apply Nd; assumption).
      rewrite <- dct2_energy by apply Ld. apply sq_ext; [reflexivity|]. intros i Hi. symmetry. apply (kern_diff _ _ _ (kern_dct2 q)); auto. }
    assert (Q3 : sq (wl q) q (fun k => dst2_at sh k - dst2_at s k) = INR q * sq w1 q (fun i => nth i sh 0 - nth i s 0)).
    { rewrite <- (sq_ext w1 w1 q (nt (dl sh s q))) by (auto; intros; apply Nd; assumption).
      rewrite <- dst2_energy by apply Ld. apply sq_ext; [reflexivity|]. intros i Hi. symmetry. apply (kern_diff _ _ _ (kern_dst2 q)); auto. }
    apply sqrt_scale; [exact Hmu|]. unfold O3, sq3. rewrite !sq_weight, Q1, Q2, Q3.
    apply (Rmult_le_compat_l (2 * INR q)) in In1; [|lra]. unfold I3, sq3 in In1 |- * . lra. }
  set (D0 := dct2_at y) in * . set (C0 := dct2_at c) in * . set (S0 := dst2_at s) in * .
  assert (Err : sqrt (O3 (fun k => Dh k - D0 k) (fun k => Ch k - C0 k) (fun k => Sh k - S0 k)) <= (r * (1 + mu) - 1) * B).
  { eapply Rle_trans; [|eapply (chain r (1 + mu) B _ _ _ Hr Err1 Err2 Nin)].
    eapply Rle_trans; [|apply sq3_triangle; auto]. apply Req_le. f_equal. unfold O3, sq3.
    f_equal; [f_equal|]; apply sq_ext; try reflexivity; intros i Hi; ring. }
  (* last step *)
  assert (Op : forall f g h, sq wf (4 * q) (post2 f g h) = O3 f g h).
  { intros. rewrite post2_energy. unfold O3, sq3. rewrite !sq_weight. reflexivity. }
  assert (EO : sqrt (O3 D0 C0 S0) = B).
  { unfold B. f_equal. unfold O3, sq3. rewrite !sq_weight. unfold D0, C0, S0. rewrite (dct2_energy (2 * q)), (dct2_energy q), dst2_energy by assumption.
    rewrite E2, E4. transitivity (2 * INR q * (sq w1 (2 * q) (nt y) + sq w1 q (nt c) + sq w1 q (nt s))); [ring|]. rewrite PE. ring. }
  assert (Post1 : sqrt (sq wf (4 * q) (fun k => post2 Dh Ch Sh k - dct2_at x k)) <= (r * (1 + mu) - 1) * B).
  { eapply Rle_trans; [|exact Err]. apply Req_le. f_equal. rewrite <- Op. apply sq_ext; [reflexivity|]. intros k Hk.
    rewrite exact2_post by exact Hk. fold D0 C0 S0. unfold post2.
    repeat match goal with |- context [(?a =? ?b)%nat] => destruct (a =? b)%nat end; ring. }
  assert (Post0 : sqrt (sq wf (4 * q) (post2 Dh Ch Sh)) <= r * (1 + mu) * B).
  { replace (r * (1 + mu) * B) with ((r * (1 + mu) - 1) * B + B) by ring.
    eapply Rle_trans; [|apply Rplus_le_compat; [exact Err|apply Req_le; exact EO]].
    eapply Rle_trans; [|apply sq3_triangle; auto]. apply Req_le. f_equal. rewrite Op. unfold O3, sq3.
    f_equal; [f_equal|]; apply sq_ext; try reflexivity; intros i Hi; ring. }
  assert (Post2 : sqrt (sq wf (4 * q) (fun k => Rh k - post2 Dh Ch Sh k)) <= u * sqrt (sq wf (4 * q) (post2 Dh Ch Sh))).
  { apply sqrt_scale; [exact Hu|]. rewrite <- sq_scal. apply sq_le; [auto|]. intros k Hk. rewrite Rabs_mult, (Rabs_right u) by lra. apply AR, Hk. }
  replace ((1 + u) * (r * (1 + mu)) - 1) with (r * (1 + mu) - 1 + u * (r * (1 + mu))) by ring.
  eapply Rle_trans with (sqrt (sq wf (4 * q) (fun k => (post2 Dh Ch Sh k - dct2_at x k) + (Rh k - post2 Dh Ch Sh k)))).
  { apply Req_le. f_equal. apply sq_ext; [reflexivity|]. intros. ring. }
  eapply Rle_trans; [apply sq_triangle; auto|]. rewrite Rmult_plus_distr_r. apply Rplus_le_compat; [exact Post1|].
  eapply Rle_trans; [exact Post2|]. rewrite Rmult_assoc. apply Rmult_le_compat_l; assumption.
Qed.
End Pre.
End Stage2.
