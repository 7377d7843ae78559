(** Weighted Euclidean norms and the energy identities of the transforms. *)
From Coq Require Import Reals ZArith List Arith Lia Lra Psatz.
From Verif Require Import Spec Trig Ref Ref_Inverse.
Import ListNotations.
Open Scope R_scope.

(** * Weighted norms of functions on [0, n) *)
Definition sq (w : nat -> R) (n : nat) (f : nat -> R) : R := sum (fun i => w i * (f i)²) n.
Definition pos (w : nat -> R) : Prop := forall i, 0 <= w i.

Lemma sum_le f g n : (forall i, (i < n)%nat -> f i <= g i) -> sum f n <= sum g n.
Proof. induction n; intros H; cbn [sum]; [lra|]. apply Rplus_le_compat; [apply IHn; intros; apply H; lia|apply H; lia]. Qed.
Lemma sum_ge0 f n : (forall i, (i < n)%nat -> 0 <= f i) -> 0 <= sum f n.
Proof. intros H. rewrite <- (sum_zero n). apply sum_le, H. Qed.

Lemma sq_ext w w' n f g : (forall i, (i < n)%nat -> w i = w' i) -> (forall i, (i < n)%nat -> f i = g i) -> sq w n f = sq w' n g.
Proof. intros H1 H2. apply sum_ext. intros i Hi. rewrite H1, H2 by exact Hi. reflexivity. Qed.
Lemma sq_ge0 w n f : pos w -> 0 <= sq w n f.
Proof. intros H. apply sum_ge0. intros i _. apply Rmult_le_pos; [apply H|apply Rle_0_sqr]. Qed.
Lemma sq_le w n f g : pos w -> (forall i, (i < n)%nat -> Rabs (f i) <= Rabs (g i)) -> sq w n f <= sq w n g.
Proof.
  intros Hw H. apply sum_le. intros i Hi. apply Rmult_le_compat_l; [apply Hw|]. rewrite (Rsqr_abs (f i)), (Rsqr_abs (g i)).
  apply Rsqr_incr_1; [apply H, Hi|apply Rabs_pos|apply Rabs_pos].
Qed.
Lemma sq_scal w n c f : sq w n (fun i => c * f i) = c² * sq w n f.
Proof. unfold sq. rewrite <- sum_scal_l. apply sum_ext. intros i _. unfold Rsqr. ring. Qed.
Lemma sq_weight c w n f : sq (fun i => c * w i) n f = c * sq w n f.
Proof. unfold sq. rewrite <- sum_scal_l. apply sum_ext. intros i _. ring. Qed.

Lemma cauchy_sum w n f g : pos w -> (sum (fun i => w i * (f i * g i)) n)² <= sq w n f * sq w n g.
Proof.
  intros Hw. induction n as [|n IH]; [unfold sq; cbn [sum]; unfold Rsqr; lra|].
  unfold sq in * . cbn [sum]. set (A := sum _ n) in * . set (B := sum (fun i => w i * (f i)²) n) in * . set (C := sum (fun i => w i * (g i)²) n) in * .
  pose proof (Hw n) as W. set (v := w n) in * . set (a := f n). set (b := g n).
  assert (HB : 0 <= B) by (apply (sq_ge0 w n f), Hw). assert (HC : 0 <= C) by (apply (sq_ge0 w n g), Hw).
  (* A² <= B C  ->  (A + v a b)² <= (B + v a²)(C + v b²) *)
  assert (K : 2 * A * (a * b) <= B * b² + C * a²).
  { destruct (Rle_dec (A * (a * b)) 0) as [|P]; [pose proof (Rle_0_sqr a); pose proof (Rle_0_sqr b); nra|].
    assert (P' : 0 <= B * b² + C * a²) by (pose proof (Rle_0_sqr a); pose proof (Rle_0_sqr b); nra).
    apply Rsqr_incr_0_var; [|exact P']. unfold Rsqr in * .
    assert (4 * (A * A) * ((a * b) * (a * b)) <= 4 * (B * C) * ((a * b) * (a * b))).
    { apply Rmult_le_compat_r; [apply Rle_0_sqr|lra]. }
    assert (0 <= (B * (b * b) - C * (a * a)) * (B * (b * b) - C * (a * a))) by apply Rle_0_sqr. lra. }
  unfold Rsqr in * . assert (0 <= v * (B * (b * b) + C * (a * a) - 2 * A * (a * b))) by (apply Rmult_le_pos; lra). lra.
Qed.

Lemma sq_triangle w n f g : pos w -> sqrt (sq w n (fun i => f i + g i)) <= sqrt (sq w n f) + sqrt (sq w n g).
Proof.
  intros Hw. pose proof (sq_ge0 w n f Hw) as Hf. pose proof (sq_ge0 w n g Hw) as Hg.
  assert (E : sq w n (fun i => f i + g i) = sq w n f + sq w n g + 2 * sum (fun i => w i * (f i * g i)) n).
  { unfold sq. rewrite <- sum_scal_l, <- !sum_plus. apply sum_ext. intros i _. unfold Rsqr. ring. }
  assert (C : sum (fun i => w i * (f i * g i)) n <= sqrt (sq w n f) * sqrt (sq w n g)).
  { apply Rsqr_incr_0_var; [|apply Rmult_le_pos; apply sqrt_pos]. rewrite Rsqr_mult, !Rsqr_sqrt by assumption. apply cauchy_sum, Hw. }
  apply Rsqr_incr_0_var; [|apply Rplus_le_le_0_compat; apply sqrt_pos].
  rewrite Rsqr_sqrt by (apply sq_ge0, Hw). rewrite E, Rsqr_plus, !Rsqr_sqrt by assumption. lra.
Qed.

Lemma sqrt_scale c a b : 0 <= c -> a <= c² * b -> sqrt a <= c * sqrt b.
Proof.
  intros Hc H. apply Rle_trans with (sqrt (c² * b)); [apply sqrt_le_1_alt, H|].
  destruct (Rle_dec 0 b).
  - rewrite sqrt_mult by (try apply Rle_0_sqr; assumption). rewrite sqrt_Rsqr by exact Hc. lra.
  - rewrite (sqrt_neg_0 b) by lra. rewrite sqrt_neg_0; [lra|]. pose proof (Rle_0_sqr c). nra.
Qed.

(** Three blocks. *)
Section Three.
Variables (w1 w2 w3 : nat -> R) (n1 n2 n3 : nat).
Hypotheses (P1 : pos w1) (P2 : pos w2) (P3 : pos w3).
Definition sq3 (f g h : nat -> R) : R := sq w1 n1 f + sq w2 n2 g + sq w3 n3 h.
Definition glue {A} (f g h : nat -> A) (i : nat) : A :=
  if (i <? n1)%nat then f i else if (i <? n1 + n2)%nat then g (i - n1)%nat else h (i - n1 - n2)%nat.
Lemma sq3_glue f g h : sq3 f g h = sq (glue w1 w2 w3) (n1 + n2 + n3) (glue f g h).
Proof.
  unfold sq3, sq. rewrite !sum_app. f_equal; [f_equal|]; apply sum_ext; intros i Hi; unfold glue;
    repeat match goal with |- context [(?a <? ?b)%nat] => destruct (Nat.ltb_spec a b); try lia end.
  - reflexivity.
  - replace (n1 + i - n1)%nat with i by lia. reflexivity.
  - replace (n1 + n2 + i - n1 - n2)%nat with i by lia. reflexivity.
Qed.
Lemma glue_pos : pos (glue w1 w2 w3).
Proof. intros i. unfold glue. destruct (_ <? _)%nat; [apply P1|]. destruct (_ <? _)%nat; [apply P2|apply P3]. Qed.
Lemma sq3_ge0 f g h : 0 <= sq3 f g h.
Proof. rewrite sq3_glue. apply sq_ge0, glue_pos. Qed.
Lemma sq3_triangle f g h f' g' h' :
  sqrt (sq3 (fun i => f i + f' i) (fun i => g i + g' i) (fun i => h i + h' i)) <= sqrt (sq3 f g h) + sqrt (sq3 f' g' h').
Proof.
  rewrite !sq3_glue. eapply Rle_trans; [|apply (sq_triangle _ _ _ _ glue_pos)]. apply Req_le. f_equal. apply sq_ext; [reflexivity|].
  intros i Hi. unfold glue. repeat match goal with |- context [(?a <? ?b)%nat] => destruct (Nat.ltb_spec a b) end; reflexivity.
Qed.
End Three.

(** * Energy *)
Definition w1 (i : nat) : R := 1.
(** Weight one at the first (last) position, two elsewhere. *)
Definition wf (i : nat) : R := if (i =? 0)%nat then 1 else 2.
Definition wl (n i : nat) : R := if (i =? n - 1)%nat then 1 else 2.
Lemma w1_pos : pos w1. Proof. intros i. unfold w1. lra. Qed.
Lemma wf_pos : pos wf. Proof. intros i. unfold wf. destruct (_ =? _)%nat; lra. Qed.
Lemma wl_pos n : pos (wl n). Proof. intros i. unfold wl. destruct (_ =? _)%nat; lra. Qed.
Lemma two_pos w : pos w -> pos (fun i => 2 * w i). Proof. intros H i. specialize (H i). lra. Qed.
#[global] Hint Resolve w1_pos wf_pos wl_pos two_pos : core.

Lemma kern_energy t1 t2 n K1 K2 c m (w v : nat -> R) : kern t1 n K1 -> kern t2 n K2 ->
  (forall x, length x = n -> transform t2 (transform t1 x) = scale m x) ->
  (forall k i, (k < n)%nat -> (i < n)%nat -> w k * K1 k i = c * v i * K2 i k) ->
  forall x, length x = n -> sq w n (t1 x) = c * m * sq v n (fun i => nth i x 0).
Proof.
  intros H1 H2 Hi Ha x Hx. unfold sq.
  rewrite (sum_ext _ (fun k => sum (fun i => c * (v i * nth i x 0) * (nth k (transform t1 x) 0 * K2 i k)) n)).
  2: { intros k Hk. unfold Rsqr. rewrite (H1 x k Hx Hk) at 2. rewrite <- sum_scal_l, <- sum_scal_l. apply sum_ext. intros i Hii.
       rewrite nth_transform by lia. replace (w k * (t1 x k * (nth i x 0 * K1 k i))) with (t1 x k * nth i x 0 * (w k * K1 k i)) by ring.
       rewrite Ha by assumption. ring. }
  rewrite sum_swap. rewrite <- sum_scal_l. apply sum_ext. intros i Hii. rewrite sum_scal_l.
  rewrite <- (H2 (transform t1 x) i) by (rewrite ?transform_length; assumption).
  rewrite <- (nth_transform t2) by (rewrite transform_length; lia). rewrite Hi by exact Hx.
  unfold scale. rewrite (nth_indep (map (Rmult m) x) 0 (m * 0)) by (rewrite map_length; lia). rewrite (map_nth (Rmult m)). unfold Rsqr. ring.
Qed.

Lemma kern_diff t n K : kern t n K -> forall x y d k, length x = n -> length y = n -> length d = n -> (k < n)%nat ->
  (forall i, (i < n)%nat -> nth i d 0 = nth i x 0 - nth i y 0) -> t d k = t x k - t y k.
Proof.
  intros H x y d k Hx Hy Hd Hk E. rewrite !H by assumption. rewrite <- sum_minus. apply sum_ext. intros i Hi. rewrite E by exact Hi. ring.
Qed.

Ltac en_w := unfold w1, wf, wl, half_when; repeat match goal with |- context [(?a =? ?b)%nat] => destruct (a =? b)%nat end.

Lemma dct2_energy n x : length x = n -> sq wf n (dct2_at x) = INR n * sq w1 n (fun i => nth i x 0).
Proof.
  intros Hx. rewrite (kern_energy dct2_at dct3_at n (k_dct2 n) (k_dct3 n) 2 (INR n / 2) wf w1); [field| | | | |exact Hx].
  - apply kern_dct2. - apply kern_dct3. - intros y Hy. exact (dct3_dct2 n y Hy).
  - intros k i Hk Hi. unfold k_dct2, k_dct3. rewrite (Z.mul_comm (2 * _ + 1)). en_w; lra.
Qed.
Lemma dst2_energy n x : length x = n -> sq (wl n) n (dst2_at x) = INR n * sq w1 n (fun i => nth i x 0).
Proof.
  intros Hx. rewrite (kern_energy dst2_at dst3_at n (k_dst2 n) (k_dst3 n) 2 (INR n / 2) (wl n) w1); [field| | | | |exact Hx].
  - apply kern_dst2. - apply kern_dst3. - intros y Hy. exact (dst3_dst2 n y Hy).
  - intros k i Hk Hi. unfold k_dst2, k_dst3. rewrite (Z.mul_comm (2 * _ + 1)). en_w; lra.
Qed.
Lemma dct3_energy n x : length x = n -> sq w1 n (dct3_at x) = INR n / 4 * sq wf n (fun i => nth i x 0).
Proof.
  intros Hx. rewrite (kern_energy dct3_at dct2_at n (k_dct3 n) (k_dct2 n) (/ 2) (INR n / 2) w1 wf); [field| | | | |exact Hx].
  - apply kern_dct3. - apply kern_dct2. - intros y Hy. exact (dct2_dct3 n y Hy).
  - intros k i Hk Hi. unfold k_dct2, k_dct3. rewrite (Z.mul_comm (2 * _ + 1)). en_w; lra.
Qed.
Lemma dst3_energy n x : length x = n -> sq w1 n (dst3_at x) = INR n / 4 * sq (wl n) n (fun i => nth i x 0).
Proof.
  intros Hx. rewrite (kern_energy dst3_at dst2_at n (k_dst3 n) (k_dst2 n) (/ 2) (INR n / 2) w1 (wl n)); [field| | | | |exact Hx].
  - apply kern_dst3. - apply kern_dst2. - intros y Hy. exact (dst2_dst3 n y Hy).
  - intros k i Hk Hi. unfold k_dst2, k_dst3. rewrite (Z.mul_comm (2 * _ + 1)). en_w; lra.
Qed.
Lemma dct4_energy n x : length x = n -> sq w1 n (dct4_at x) = INR n / 2 * sq w1 n (fun i => nth i x 0).
Proof.
  intros Hx. rewrite (kern_energy dct4_at dct4_at n (k_dct4 n) (k_dct4 n) 1 (INR n / 2) w1 w1); [field| | | | |exact Hx].
  - apply kern_dct4. - apply kern_dct4. - intros y Hy. exact (dct4_dct4 n y Hy).
  - intros k i Hk Hi. unfold k_dct4. rewrite (Z.mul_comm (2 * _ + 1)). unfold w1. lra.
Qed.
Lemma dst4_energy n x : length x = n -> sq w1 n (dst4_at x) = INR n / 2 * sq w1 n (fun i => nth i x 0).
Proof.
  intros Hx. rewrite (kern_energy dst4_at dst4_at n (k_dst4 n) (k_dst4 n) 1 (INR n / 2) w1 w1); [field| | | | |exact Hx].
  - apply kern_dst4. - apply kern_dst4. - intros y Hy. exact (dst4_dst4 n y Hy).
  - intros k i Hk Hi. unfold k_dst4. rewrite (Z.mul_comm (2 * _ + 1)). unfold w1. lra.
Qed.
