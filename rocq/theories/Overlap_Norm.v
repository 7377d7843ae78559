(** Rounding errors of the MDCT in the Euclidean norm. *)
From Coq Require Import Reals ZArith List Arith Lia Lra Psatz Bool ZifyNat.
From Verif Require Import Prog Num Model_Common Model_Naive Model_Mdct Model_Plan Model_Api
  Spec Spec_Api Spec_Fft Spec_Plan Spec_Round Spec_Entry Spec_Mdct_Round Spec_Overlap Wp Api Contracts Trig Ref Energy Objects Planner Canon
  Sem_Naive Sem_Mdct Exact_Naive Exact_Mdct Api_Mdct Mdct_Theorems Tdac
  Round_Ops Round_Sem Round_Butterflies Round_Entry Round_Naive Round_Plan Round_Theorems Round_Entry_Plan Round_Mdct.
Import ListNotations.
Open Scope R_scope.
Ltac Zify.zify_post_hook ::= Z.div_mod_to_equations.

(** * The norm of the first [n] values of a function *)
Definition l2 (n : nat) (f : nat -> R) : R := sqrt (sq w1 n f).
Lemma l2_ge0 n f : 0 <= l2 n f. Proof. apply sqrt_pos. Qed.
Lemma l2_ext n f g : (forall i, (i < n)%nat -> f i = g i) -> l2 n f = l2 n g.
Proof. intros H. unfold l2. f_equal. apply sq_ext; [reflexivity|exact H]. Qed.
Lemma l2_tri n f g : l2 n (fun i => f i + g i) <= l2 n f + l2 n g.
Proof. apply sq_triangle, w1_pos. Qed.
Lemma l2_scal n c f : l2 n (fun i => c * f i) = Rabs c * l2 n f.
Proof. unfold l2. rewrite sq_scal, sqrt_mult_alt by apply Rle_0_sqr. rewrite sqrt_Rsqr_abs. reflexivity. Qed.
Lemma l2_scal_pos n c f : 0 <= c -> l2 n (fun i => c * f i) = c * l2 n f.
Proof. intros H. rewrite l2_scal, Rabs_right by lra. reflexivity. Qed.
Lemma l2_le n f g : (forall i, (i < n)%nat -> Rabs (f i) <= g i) -> l2 n f <= l2 n g.
Proof.
  intros H. apply sqrt_le_1_alt, sq_le; [apply w1_pos|]. intros i Hi. rewrite (Rabs_right (g i)); [apply H, Hi|].
  apply Rle_ge. eapply Rle_trans; [apply Rabs_pos|apply H, Hi].
Qed.
Lemma l2_abs n f : l2 n (fun i => Rabs (f i)) = l2 n f.
Proof. unfold l2. f_equal. unfold sq. apply sum_ext. intros i _. rewrite <- Rsqr_abs. reflexivity. Qed.
Lemma l2_tri3 n f g h : (forall i, (i < n)%nat -> Rabs (f i) <= g i + h i) -> l2 n f <= l2 n g + l2 n h.
Proof. intros H. eapply Rle_trans; [apply (l2_le n f (fun i => g i + h i) H)|apply l2_tri]. Qed.
Lemma l2_first n m f : l2 n f <= l2 (n + m) f.
Proof. apply sqrt_le_1_alt. unfold sq. rewrite sum_app. pose proof (sum_ge0 (fun i => w1 (n + i)%nat * (f (n + i)%nat)²) m). unfold w1 in * .
  assert (0 <= sum (fun i => 1 * (f (n + i)%nat)²) m) by (apply H; intros; pose proof (Rle_0_sqr (f (n + i)%nat)); lra). lra. Qed.
Lemma l2_second n m f : l2 m (fun i => f (n + i)%nat) <= l2 (n + m) f.
Proof. apply sqrt_le_1_alt. unfold sq. rewrite sum_app. unfold w1 in * .
  assert (0 <= sum (fun i => 1 * (f i)²) n) by (apply sum_ge0; intros; pose proof (Rle_0_sqr (f i)); lra). lra. Qed.
Lemma l2_rev n f : l2 n (fun i => f (n - 1 - i)%nat) = l2 n f.
Proof. unfold l2. f_equal. unfold sq, w1. symmetry. rewrite (sum_rev (fun i => 1 * (f i)²) n). reflexivity. Qed.
Lemma l2_zero n : l2 n (fun _ => 0) = 0.
Proof. rewrite (l2_ext n _ (fun i => 0 * 0)) by (intros; ring). rewrite l2_scal, Rabs_R0. ring. Qed.
Lemma l2_const n c : 0 <= c -> l2 n (fun _ => c) = sqrt (INR n) * c.
Proof.
  intros H. rewrite (l2_ext n _ (fun i => c * 1)) by (intros; ring). rewrite l2_scal_pos by exact H. rewrite (Rmult_comm c). f_equal.
  unfold l2, sq, w1. f_equal. rewrite (sum_ext _ (fun _ => 1)) by (intros; unfold Rsqr; ring). rewrite sum_const. ring.
Qed.
Lemma norm_l2 x n : length x = n -> norm x = l2 n (fun i => nth i x 0).
Proof. intros <-. unfold norm, l2. rewrite energy_sq. reflexivity. Qed.
Lemma dist_l2 x y n : length x = n -> dist x y = l2 n (fun i => nth i x 0 - nth i y 0).
Proof. intros <-. unfold dist, norm, diff, l2. rewrite energy_map. reflexivity. Qed.
Lemma norm_ge0 x : 0 <= norm x. Proof. apply sqrt_pos. Qed.
Lemma spread_l2 x n : length x = n -> spread x = sqrt (INR n / 2) * l2 n (fun i => nth i x 0).
Proof. intros H. unfold spread. rewrite (norm_l2 x n H), H. reflexivity. Qed.
Lemma l2_dct4 x n : length x = n -> l2 n (dct4_at x) = spread x.
Proof. intros H. unfold l2. rewrite (dct4_energy n x H), spread_sq, H. reflexivity. Qed.

(** * Unfolding *)
Section Unfold.
Variable n : nat.
Hypothesis Hev : (n mod 2 = 0)%nat.
Definition unf (i : nat) : nat :=
  let g := (n / 2)%nat in
  if (i <? g)%nat then (g + i)%nat else if (i <? n)%nat then (n - 1 - (i - g))%nat
  else if (i <? n + g)%nat then (g - 1 - (i - n))%nat else (i - (n + g))%nat.
Lemma unf_lt i : (i < 2 * n)%nat -> (unf i < n)%nat.
Proof.
  intros H. unfold unf. set (g := (n / 2)%nat). assert (n = (g + g)%nat) by (unfold g; lia).
  destruct (Nat.ltb_spec i g), (Nat.ltb_spec i n), (Nat.ltb_spec i (n + g)); lia.
Qed.
Lemma unf_sum f : sum (fun i => f (unf i)) (2 * n) = 2 * sum f n.
Proof.
  set (g := (n / 2)%nat). assert (Hg : n = (g + g)%nat) by (unfold g; lia).
  transitivity (sum (fun i => f (unf i)) ((g + g) + (g + g))); [f_equal; lia|].
  transitivity (2 * sum f (g + g)); [|rewrite <- Hg; reflexivity]. rewrite !sum_app.
  assert (X1 : sum (fun i => f (unf i)) g = sum (fun i => f (g + i)%nat) g)
    by (apply sum_ext; intros i Hi; f_equal; unfold unf; fold g; destruct (Nat.ltb_spec i g); lia).
  assert (X2 : sum (fun i => f (unf (g + i))) g = sum (fun i => f (g + (g - 1 - i))%nat) g)
    by (apply sum_ext; intros i Hi; f_equal; unfold unf; fold g; destruct (Nat.ltb_spec (g + i) g), (Nat.ltb_spec (g + i) n); lia).
  assert (X3 : sum (fun i => f (unf (g + g + i))) g = sum (fun i => f (g - 1 - i)%nat) g)
    by (apply sum_ext; intros i Hi; f_equal; unfold unf; fold g; destruct (Nat.ltb_spec (g + g + i) g), (Nat.ltb_spec (g + g + i) n), (Nat.ltb_spec (g + g + i) (n + g)); lia).
  assert (X4 : sum (fun i => f (unf (g + g + (g + i)))) g = sum f g)
    by (apply sum_ext; intros i Hi; f_equal; unfold unf; fold g; destruct (Nat.ltb_spec (g + g + (g + i)) g), (Nat.ltb_spec (g + g + (g + i)) n), (Nat.ltb_spec (g + g + (g + i)) (n + g)); lia).
  rewrite X1, X2, X3, X4. rewrite <- (sum_rev f g), <- (sum_rev (fun i => f (g + i)%nat) g). ring.
Qed.
Lemma unf_l2 f : l2 (2 * n) (fun i => f (unf i)) = sqrt 2 * l2 n f.
Proof.
  unfold l2. rewrite <- sqrt_mult_alt by lra. f_equal. unfold sq, w1. rewrite (unf_sum (fun k => 1 * (f k)²)). reflexivity.
Qed.
Lemma sqrt_half_two : sqrt 2 * sqrt (INR n / 2) = sqrt (INR n).
Proof. rewrite <- sqrt_mult_alt by lra. f_equal. field. Qed.

(** The IMDCT without window. *)
Lemma imdct_unf w x i : length x = n -> (i < 2 * n)%nat -> Rabs (imdct_at n w x i) = Rabs (nth i w 0) * Rabs (dct4_at x (unf i)).
Proof.
  intros Lx Hi. pose proof (imdct_dct4_exact n w Hev x i 0 Lx Hi) as E. rewrite Rplus_0_l in E. rewrite <- E. unfold sem_imdct_dct4, unf.
  cbn [add sub mul zero NumR]. set (g := (n / 2)%nat).
  destruct (Nat.ltb_spec i g), (Nat.ltb_spec i n), (Nat.ltb_spec i (n + g));
    rewrite ?Rplus_0_l, ?Rminus_0_l, ?Rabs_Ropp, Rabs_mult; apply Rmult_comm.
Qed.
Lemma imdct_l2 w x W : length x = n -> 0 <= W -> (forall i, (i < 2 * n)%nat -> Rabs (nth i w 0) <= W) ->
  l2 (2 * n) (imdct_at n w x) <= W * (sqrt (INR n) * norm x).
Proof.
  intros Lx HW Hw. eapply Rle_trans; [apply (l2_le _ _ (fun i => W * Rabs (dct4_at x (unf i))))|].
  - intros i Hi. rewrite imdct_unf by assumption. apply Rmult_le_compat_r; [apply Rabs_pos|apply Hw, Hi].
  - rewrite l2_scal_pos by exact HW. rewrite (l2_abs _ (fun i => dct4_at x (unf i))), (unf_l2 (dct4_at x)), (l2_dct4 x n Lx).
    rewrite (spread_l2 x n Lx), (norm_l2 x n Lx), <- sqrt_half_two. right. ring.
Qed.
Lemma imdct_diff w x y i : length x = n -> length y = n -> imdct_at n w x i - imdct_at n w y i = imdct_at n w (diff x y) i.
Proof.
  intros Lx Ly. unfold imdct_at, diff. rewrite Lx. rewrite <- Rmult_minus_distr_l. f_equal. rewrite <- sum_minus. apply sum_ext. intros k Hk.
  rewrite nth_map_seq by exact Hk. ring.
Qed.
Lemma norm_diff x y : norm (diff x y) = dist x y. Proof. reflexivity. Qed.

(** The MDCT. *)
Lemma wx_norm w (a b : list R) W : length a = n -> length b = n -> 0 <= W -> (forall i, (i < 2 * n)%nat -> Rabs (nth i w 0) <= W) ->
  norm (windowed w (a ++ b)) <= W * norm (a ++ b).
Proof.
  intros La Lb HW Hw. assert (L : length (a ++ b) = (2 * n)%nat) by (rewrite app_length; lia).
  rewrite (norm_l2 (windowed w (a ++ b)) (2 * n)) by (unfold windowed; rewrite map_length, seq_length; exact L). rewrite (norm_l2 (a ++ b) (2 * n) L).
  rewrite <- (l2_abs (2 * n) (fun i => nth i (a ++ b) 0)), <- l2_scal_pos by exact HW. apply l2_le. intros i Hi. unfold windowed.
  rewrite nth_map_seq by lia. rewrite Rabs_mult. apply Rmult_le_compat_r; [apply Rabs_pos|apply Hw, Hi].
Qed.
Lemma wx_spread w (a b : list R) : length a = n -> length b = n -> spread (windowed w (a ++ b)) = sqrt (INR n) * norm (windowed w (a ++ b)).
Proof.
  intros La Lb. unfold spread. f_equal. unfold windowed. rewrite map_length, seq_length, app_length, La, Lb. f_equal. rewrite plus_INR. field.
Qed.
End Unfold.

Lemma pairs_sum2 n f : (n mod 2 = 0)%nat -> sum (fun j => f (first_of n j) + f (second_of n j)) n = sum f (2 * n).
Proof.
  intros Hev. apply (pairs_all (fun _ => 0) n [] 0 dct4_at Hev). intros x k _ _. replace (dct4_at x k - dct4_at x k) with 0 by ring. rewrite Rabs_R0. lra.
Qed.
Lemma fold_close u v (N : Num R R) n w a b j : rounding u v N -> (n mod 2 = 0)%nat -> length a = n -> length b = n -> (j < n)%nat ->
  nr ((1 + u) ^ 2) (Rabs (nth (first_of n j) (windowed w (a ++ b)) 0) + Rabs (nth (second_of n j) (windowed w (a ++ b)) 0))
    (fold_at (N := N) w n a b j) (fold_at (N := NumR) w n a b j).
Proof.
  intros HN Hev. apply (fold_err u v N HN (fun _ => 0) n w 0 dct4_at Hev). intros x k _ _. replace (dct4_at x k - dct4_at x k) with 0 by ring. rewrite Rabs_R0. lra.
Qed.
Lemma mdct_exact_l2 n w (a b : list R) : (n mod 2 = 0)%nat -> length a = n -> length b = n ->
  norm (mdct_of n w (a ++ b)) <= sqrt (INR n) * norm (windowed w (a ++ b)).
Proof.
  intros Hev La Lb. rewrite <- wx_spread by assumption.
  assert (HN : rounding 0 0 NumR).
  { assert (Z : forall x, rel 0 x x) by (intros x; unfold rel; replace (x - x) with 0 by ring; rewrite Rabs_R0; lra).
    assert (Z' : forall x, Rabs (x - x) <= 0) by (intros x; replace (x - x) with 0 by ring; rewrite Rabs_R0; lra).
    constructor; try lra; intros; try reflexivity; try apply Z; try apply Z'. }
  rewrite (norm_l2 _ n) by (unfold mdct_of; rewrite map_length; apply seq_length).
  rewrite (l2_ext n _ (fun k => dct4_at (map (fold_at (N := NumR) w n a b) (seq 0 n)) k)).
  2: { intros k Hk. unfold mdct_of. rewrite nth_map_seq by exact Hk. symmetry. exact (mdct_dct4_exact n w Hev a b k La Lb Hk). }
  set (y := map (fold_at (N := NumR) w n a b) (seq 0 n)). assert (Ly : length y = n) by (unfold y; rewrite map_length; apply seq_length).
  rewrite (l2_ext n _ (dct4_at y)) by reflexivity. rewrite (l2_dct4 y n Ly).
  eapply Rle_trans; [|apply (me_fold spread spread_measure (windowed w (a ++ b)) (first_of n) (second_of n) n)].
  - replace (spread (map _ _)) with (1 * spread (map (fun j => Rabs (nth (first_of n j) (windowed w (a ++ b)) 0) + Rabs (nth (second_of n j) (windowed w (a ++ b)) 0)) (seq 0 n))) by ring.
    apply (me_mono spread spread_measure); [lra|rewrite map_length, seq_length; exact Ly|]. rewrite Ly. intros i Hi.
    pose proof (fold_close 0 0 NumR n w a b i HN Hev La Lb Hi) as [_ F]. unfold y. rewrite !nth_map_seq by exact Hi. rewrite Rmult_1_l.
    eapply Rle_trans; [exact F|apply Rle_abs].
  - unfold windowed. rewrite map_length, seq_length, app_length. lia.
  - intros f. apply pairs_sum2, Hev.
Qed.

(** * MDCTs on top of a DCT4 *)
Section Via.
Variables (u v : R) (N : Num R R).
Hypothesis HN : rounding u v N.
Let Hu : 0 <= u := r_u _ _ _ HN.
Variables (n : nat) (w : list R) (e : R) (D : list R -> nat -> R).
Hypothesis He : 0 <= e.
Hypothesis Hev : (n mod 2 = 0)%nat.
Hypothesis HD : forall x, length x = n -> l2 n (fun k => D x k - dct4_at x k) <= e * spread x.

Lemma mdct_via_norm a b : length a = n -> length b = n ->
  l2 n (fun k => sem_mdct_dct4 (N := N) w n D a b k - mdct_at n w (a ++ b) k) <= ((1 + u) ^ 2 * (1 + e) - 1) * spread (windowed w (a ++ b)).
Proof.
  intros La Lb. pose proof spread_measure as HM.
  set (wx := windowed w (a ++ b)). set (size_at := fun j => Rabs (nth (first_of n j) wx 0) + Rabs (nth (second_of n j) wx 0)).
  set (y' := map (fold_at (N := N) w n a b) (seq 0 n)). set (y := map (fold_at (N := NumR) w n a b) (seq 0 n)).
  set (z := map size_at (seq 0 n)). set (dy := map (fun i => nth i y' 0 - nth i y 0) (seq 0 n)).
  assert (Ly' : length y' = n) by (unfold y'; rewrite map_length; apply seq_length).
  assert (Ly : length y = n) by (unfold y; rewrite map_length; apply seq_length).
  assert (Lz : length z = n) by (unfold z; rewrite map_length; apply seq_length).
  assert (Ld : length dy = n) by (unfold dy; rewrite map_length; apply seq_length).
  assert (G : 1 <= (1 + u) ^ 2) by (apply pow_R1_Rle; lra).
  assert (Zp : forall i, (i < n)%nat -> Rabs (nth i z 0) = size_at i).
  { intros i Hi. unfold z. rewrite nth_map_seq by exact Hi. apply Rabs_right. unfold size_at. apply Rle_ge, Rplus_le_le_0_compat; apply Rabs_pos. }
  assert (My' : spread y' <= (1 + u) ^ 2 * spread z).
  { apply (me_mono spread HM); [lra|lia|]. rewrite Ly'. intros i Hi. rewrite Zp by exact Hi. unfold y'. rewrite nth_map_seq by exact Hi.
    exact (nr_abs _ _ _ _ (fold_close u v N n w a b i HN Hev La Lb Hi)). }
  assert (Md : spread dy <= ((1 + u) ^ 2 - 1) * spread z).
  { apply (me_mono spread HM); [lra|lia|]. rewrite Ld. intros i Hi. rewrite Zp by exact Hi. unfold dy.
    rewrite nth_map_seq by exact Hi. unfold y', y. rewrite !nth_map_seq by exact Hi. exact (proj1 (fold_close u v N n w a b i HN Hev La Lb Hi)). }
  assert (Mz : spread z <= spread wx).
  { apply (me_fold spread HM wx (first_of n) (second_of n) n); [unfold wx, windowed; rewrite map_length, seq_length, app_length; lia|]. intros f. apply pairs_sum2, Hev. }
  rewrite (l2_ext n _ (fun k => (D y' k - dct4_at y' k) + dct4_at dy k)).
  - eapply Rle_trans; [apply l2_tri|]. pose proof (HD y' Ly') as E1. pose proof (l2_dct4 dy n Ld) as E2.
    change (l2 n (fun i => dct4_at dy i)) with (l2 n (dct4_at dy)). rewrite E2.
    assert (e * spread y' <= e * ((1 + u) ^ 2 * spread z)) by (apply Rmult_le_compat_l; assumption).
    assert (((1 + u) ^ 2 * (1 + e) - 1) * spread z <= ((1 + u) ^ 2 * (1 + e) - 1) * spread wx) by (apply Rmult_le_compat_l; [nra|assumption]).
    lra.
  - intros k Hk. rewrite <- (mdct_dct4_exact n w Hev a b k La Lb Hk). unfold sem_mdct_dct4. fold y' y.
    pose proof (dct4_sub y' y k ltac:(lia)) as E. rewrite Ly' in E. fold dy in E. rewrite <- E. cbv beta. ring.
Qed.

(** The error of the cell of the inner DCT4 that output [i] is made from, and of the operations after it. *)
Definition via_d (x : list R) (j : nat) : R := ((1 + u) ^ 2 - 1) * Rabs (dct4_at x j) + (1 + u) ^ 2 * Rabs (D x j - dct4_at x j).
Lemma via_d_ge0 x j : 0 <= via_d x j.
Proof.
  assert (G : 1 <= (1 + u) ^ 2) by (apply pow_R1_Rle; lra). unfold via_d. apply Rplus_le_le_0_compat; apply Rmult_le_pos; try apply Rabs_pos; lra.
Qed.
Lemma via_d_norm x : length x = n -> l2 (2 * n) (fun i => via_d x (unf n i)) <= ((1 + u) ^ 2 * (1 + e) - 1) * (sqrt (INR n) * norm x).
Proof.
  intros Lx. assert (G : 1 <= (1 + u) ^ 2) by (apply pow_R1_Rle; lra).
  rewrite (unf_l2 n Hev (via_d x)). rewrite <- (sqrt_half_two n), Rmult_assoc.
  replace (((1 + u) ^ 2 * (1 + e) - 1) * (sqrt 2 * (sqrt (INR n / 2) * norm x))) with (sqrt 2 * (((1 + u) ^ 2 * (1 + e) - 1) * (sqrt (INR n / 2) * norm x))) by ring.
  apply Rmult_le_compat_l; [apply sqrt_pos|]. rewrite (norm_l2 x n Lx), <- (spread_l2 x n Lx). unfold via_d.
  eapply Rle_trans; [apply (l2_tri n (fun j => ((1 + u) ^ 2 - 1) * Rabs (dct4_at x j)) (fun j => (1 + u) ^ 2 * Rabs (D x j - dct4_at x j)))|].
  rewrite !l2_scal_pos by lra. rewrite (l2_abs n (dct4_at x)), (l2_abs n (fun j => D x j - dct4_at x j)), (l2_dct4 x n Lx).
  pose proof (HD x Lx) as H. assert ((1 + u) ^ 2 * l2 n (fun j => D x j - dct4_at x j) <= (1 + u) ^ 2 * (e * spread x)) by (apply Rmult_le_compat_l; lra). lra.
Qed.
Lemma one_step o d t wi : forall s, (s = 1 /\ (forall b, rel u (@add _ _ N o b) (o + b))) \/ s = -1 ->
  Rabs ((if Req_EM_T s 1 then @add _ _ N o (@mul _ _ N d wi) else @sub _ _ N o (@mul _ _ N d wi)) - (o + s * (t * wi))) <=
  u * Rabs o + Rabs wi * (((1 + u) ^ 2 - 1) * Rabs t + (1 + u) ^ 2 * Rabs (d - t)).
Proof.
  intros s Hs. pose proof (r_mul _ _ _ HN d wi) as M. unfold rel in M. set (m := @mul _ _ N d wi) in * .
  assert (Bd : Rabs d <= Rabs t + Rabs (d - t)) by (pose proof (Rabs_triang t (d - t)) as H; replace (t + (d - t)) with d in H by ring; exact H).
  assert (Bm : Rabs m <= (1 + u) * (Rabs d * Rabs wi)).
  { pose proof (Rabs_triang (m - d * wi) (d * wi)) as H. replace (m - d * wi + d * wi) with m in H by ring. rewrite Rabs_mult in * . lra. }
  assert (Bx : Rabs (m - t * wi) <= u * (Rabs d * Rabs wi) + Rabs (d - t) * Rabs wi).
  { pose proof (Rabs_triang (m - d * wi) ((d - t) * wi)) as H. replace (m - d * wi + (d - t) * wi) with (m - t * wi) in H by ring. rewrite !Rabs_mult in * . lra. }
  assert (Bs : Rabs ((if Req_EM_T s 1 then @add _ _ N o m else @sub _ _ N o m) - (o + s * m)) <= u * (Rabs o + Rabs m)).
  { destruct Hs as [[-> _]| ->].
    - destruct (Req_EM_T 1 1) as [_|n0]; [|contradiction]. pose proof (r_add _ _ _ HN o m) as A. unfold rel in A. rewrite Rmult_1_l.
      eapply Rle_trans; [exact A|]. apply Rmult_le_compat_l; [lra|apply Rabs_triang].
    - destruct (Req_EM_T (-1) 1) as [E|_]; [lra|]. pose proof (r_sub _ _ _ HN o m) as A. unfold rel in A. replace (o + -1 * m) with (o - m) by ring.
      eapply Rle_trans; [exact A|]. apply Rmult_le_compat_l; [lra|]. pose proof (Rabs_triang o (- m)) as H. rewrite Rabs_Ropp in H. exact H. }
  assert (Ss : Rabs (s * (m - t * wi)) = Rabs (m - t * wi)).
  { destruct Hs as [[-> _]| ->]; rewrite Rabs_mult; [rewrite Rabs_R1; ring|]. replace (Rabs (-1)) with 1; [ring|]. rewrite Rabs_left; lra. }
  match goal with |- Rabs (?X - _) <= _ => replace (X - (o + s * (t * wi))) with ((X - (o + s * m)) + s * (m - t * wi)) by ring end.
  eapply Rle_trans; [apply Rabs_triang|]. rewrite Ss.
  pose proof (Rabs_pos wi) as Pw. pose proof (Rabs_pos d) as Pd.
  assert (P : Rabs d * Rabs wi <= (Rabs t + Rabs (d - t)) * Rabs wi) by (apply Rmult_le_compat_r; assumption).
  assert (u * Rabs m <= u * ((1 + u) * (Rabs d * Rabs wi))) by (apply Rmult_le_compat_l; assumption).
  assert (u * (2 + u) * (Rabs d * Rabs wi) <= u * (2 + u) * ((Rabs t + Rabs (d - t)) * Rabs wi)) by (apply Rmult_le_compat_l; [nra|exact P]).
  lra.
Qed.
Lemma imdct_via_norm x i o : length x = n -> (i < 2 * n)%nat ->
  Rabs (sem_imdct_dct4 (N := N) w n D x i o - (o + imdct_at n w x i)) <= u * Rabs o + Rabs (nth i w 0) * via_d x (unf n i).
Proof.
  intros Lx Hi. rewrite <- (imdct_dct4_exact n w Hev x i o Lx Hi). unfold sem_imdct_dct4. rewrite (r_zero _ _ _ HN). change (@zero R R NumR) with 0.
  unfold unf. set (g := (n / 2)%nat) in * . cbn [add sub mul NumR].
  assert (A : forall j, Rabs (@add _ _ N o (@mul _ _ N (D x j) (nth i w 0)) - (o + dct4_at x j * nth i w 0)) <= u * Rabs o + Rabs (nth i w 0) * via_d x j).
  { intros j. pose proof (one_step o (D x j) (dct4_at x j) (nth i w 0) 1 (or_introl (conj eq_refl (r_add _ _ _ HN o)))) as H.
    destruct (Req_EM_T 1 1) as [_|n0]; [|contradiction]. rewrite Rmult_1_l in H. exact H. }
  assert (S : forall j, Rabs (@sub _ _ N o (@mul _ _ N (D x j) (nth i w 0)) - (o - dct4_at x j * nth i w 0)) <= u * Rabs o + Rabs (nth i w 0) * via_d x j).
  { intros j. pose proof (one_step o (D x j) (dct4_at x j) (nth i w 0) (-1) (or_intror eq_refl)) as H.
    destruct (Req_EM_T (-1) 1) as [E|_]; [lra|]. replace (o + -1 * (dct4_at x j * nth i w 0)) with (o - dct4_at x j * nth i w 0) in H by ring. exact H. }
  destruct (Nat.ltb_spec i g); [|destruct (Nat.ltb_spec i n); [|destruct (Nat.ltb_spec i (n + g))]]; [apply A|apply S|apply S|apply S].
Qed.
End Via.

(** * Calls *)
Lemma via_norm_error u v (N : Num R R) n inner wf d e : rounding u v N -> 0 <= e -> t4_len inner = n ->
  (exists D, computes (t_dct4 inner) n (t4_scratch inner) D /\ forall x, length x = n -> l2 n (fun k => D x k - dct4_at x k) <= e * spread x) ->
  MdctViaDct4_new inner wf = Ok d ->
  mdct_norm_error (t_mdct (MdctViaDct4_obj d)) n (m_scratch (MdctViaDct4_obj d)) (wf (n * 2)%nat) ((1 + u) ^ 2 * (1 + e) - 1) /\
  imdct_norm_error (t_imdct (MdctViaDct4_obj d)) n (m_scratch (MdctViaDct4_obj d)) (wf (n * 2)%nat) ((1 + u) ^ 2 * (1 + e) - 1).
Proof.
  intros HN He Ln (D & HD & A) E. apply MdctViaDct4_new_inv in E. cbv zeta in E. rewrite Ln in E. destruct E as (Ev & Lw & ->).
  unfold MdctViaDct4_obj. cbn [m_scratch t_mdct t_imdct md_scratch]. set (w := wf (n * 2)%nat) in * . pose proof (r_u _ _ _ HN) as Hu.
  pose proof (mdct_dct4_ok inner w n (t4_scratch inner) D ltac:(auto) ltac:(auto) ltac:(auto) ltac:(auto) ltac:(auto)) as C1.
  pose proof (imdct_dct4_ok inner w n (t4_scratch inner) D ltac:(auto) ltac:(auto) ltac:(auto) ltac:(auto) ltac:(auto)) as C2. split.
  - intros a b o s La Lb Lo Ls. destruct (mdct_call _ n _ _ C1 a b o s La Lb Lo Ls) as (s' & Ec & _). eexists. exists s'. split; [exact Ec|].
    split; [rewrite map_length; apply seq_length|]. rewrite (dist_l2 _ _ n) by (rewrite map_length; apply seq_length). rewrite <- (wx_spread n) by assumption.
    eapply Rle_trans; [|apply (mdct_via_norm u v N HN n w e D He Ev A a b La Lb)]. right. apply l2_ext. intros k Hk.
    unfold mdct_of. rewrite !nth_map_seq by exact Hk. reflexivity.
  - intros x a b s Lx La Lb Ls. destruct (imdct_call _ n _ _ C2 x a b s Lx La Lb Ls) as (a' & b' & s' & Ec & Ey & La' & Lb' & _).
    exists a', b', s', (map (fun i => via_d u D x (unf n i)) (seq 0 (2 * n))). split; [exact Ec|]. split; [exact La'|]. split; [exact Lb'|].
    split; [rewrite map_length; apply seq_length|]. split.
    + rewrite (norm_l2 _ (2 * n)) by (rewrite map_length; apply seq_length). eapply Rle_trans; [|apply (via_d_norm u v N HN n e D Ev A x Lx)].
      right. apply l2_ext. intros i Hi. rewrite nth_map_seq by exact Hi. reflexivity.
    + intros i Hi. rewrite Ey. rewrite !nth_map_seq by exact Hi. rewrite (r_zero _ _ _ HN).
      eapply Rle_trans; [apply (imdct_via_norm u v N HN n w D Ev x i _ Lx Hi)|]. apply Rplus_le_compat_r. apply Rmult_le_compat_r; [apply Rabs_pos|].
      assert ((1 + u) ^ 2 = 1 + 2 * u + u * u) by ring. nra.
Qed.

(** From bounds for every entry. *)
Lemma total_le_norm x : total x <= sqrt (INR (length x)) * norm x.
Proof.
  unfold total. rewrite (norm_l2 x (length x) eq_refl). unfold l2. rewrite <- sqrt_mult_alt by apply pos_INR.
  set (n := length x). set (f := fun i => Rabs (nth i x 0)).
  pose proof (cauchy_sum w1 n (fun _ => 1) f w1_pos) as H.
  assert (E1 : sum (fun i => w1 i * (1 * f i)) n = sum f n) by (apply sum_ext; intros; unfold w1; ring).
  assert (E2 : sq w1 n (fun _ => 1) = INR n) by (unfold sq, w1; rewrite (sum_ext _ (fun _ => 1)) by (intros; unfold Rsqr; ring); rewrite sum_const; ring).
  assert (E3 : sq w1 n f = sq w1 n (fun i => nth i x 0)) by (unfold sq; apply sum_ext; intros; unfold f; rewrite <- Rsqr_abs; reflexivity).
  cbv beta in H. rewrite E1, E2, E3 in H. rewrite <- (sqrt_Rsqr (sum f n)); [apply sqrt_le_1_alt, H|]. apply sum_ge0. intros. apply Rabs_pos.
Qed.
Lemma mdct_norm_of_entries {N : Num R R} f n sl w e : 0 <= e -> mdct_error f n sl w total e -> mdct_norm_error f n sl w (sqrt (2 * INR n) * e).
Proof.
  intros He H a b o s La Lb Lo Ls. destruct (H a b o s La Lb Lo Ls) as (y & s' & E & L & V). exists y, s'. split; [exact E|].
  assert (Lm : length (mdct_of n w (a ++ b)) = n) by (unfold mdct_of; rewrite map_length; apply seq_length). rewrite Lm in * .
  split; [exact L|]. rewrite (dist_l2 _ _ n L). set (t := total (windowed w (a ++ b))) in * .
  assert (Lx : length (windowed w (a ++ b)) = (2 * n)%nat) by (unfold windowed; rewrite map_length, seq_length, app_length; lia).
  pose proof (total_le_norm (windowed w (a ++ b))) as T. fold t in T. rewrite Lx, mult_INR in T. simpl (INR 2) in T. replace (1 + 1) with 2 in T by ring.
  assert (T0 : 0 <= t) by (apply sum_ge0; intros; apply Rabs_pos).
  eapply Rle_trans; [apply (l2_le n _ (fun _ => e * t)); exact V|]. rewrite l2_const by (apply Rmult_le_pos; assumption).
  replace (sqrt (2 * INR n) * e * (sqrt (INR n) * norm (windowed w (a ++ b)))) with (sqrt (INR n) * (e * (sqrt (2 * INR n) * norm (windowed w (a ++ b))))) by ring.
  apply Rmult_le_compat_l; [apply sqrt_pos|]. apply Rmult_le_compat_l; assumption.
Qed.
Lemma imdct_norm_of_entries {N : Num R R} f n sl w e : (0 < n)%nat -> 0 <= e -> imdct_error f n sl w total e -> imdct_norm_error f n sl w (sqrt (2 * INR n) * e).
Proof.
  intros Hn He H x a b s Lx La Lb Ls. destruct (H x a b s Lx La Lb Ls) as (a' & b' & s' & E & La' & Lb' & V).
  pose proof (total_le_norm x) as T. rewrite Lx in T. assert (T0 : 0 <= total x) by (apply sum_ge0; intros; apply Rabs_pos).
  assert (S1 : 1 <= sqrt (2 * INR n)).
  { rewrite <- sqrt_1. apply sqrt_le_1_alt. pose proof (inr_pos n Hn). lra. }
  exists a', b', s', (repeat (e * total x) (2 * n)). split; [exact E|]. split; [exact La'|]. split; [exact Lb'|]. split; [apply repeat_length|]. split.
  - rewrite (norm_l2 _ (2 * n) (repeat_length _ _)). rewrite (l2_ext _ _ (fun _ => e * total x)).
    2: { intros i Hi. rewrite (nth_indep (repeat (e * total x) (2 * n)) 0 (e * total x)) by (rewrite repeat_length; exact Hi). apply nth_repeat. }
    rewrite l2_const by (apply Rmult_le_pos; assumption). rewrite mult_INR. simpl (INR 2). replace (1 + 1) with 2 by ring. rewrite Rmult_assoc.
    apply Rmult_le_compat_l; [apply sqrt_pos|]. apply Rmult_le_compat_l; assumption.
  - intros i Hi. rewrite (nth_indep (repeat (e * total x) (2 * n)) 0 (e * total x)) by (rewrite repeat_length; exact Hi). rewrite nth_repeat. eapply Rle_trans; [apply V, Hi|].
    pose proof (Rabs_pos (nth i (a ++ b) 0)). assert (e * Rabs (nth i (a ++ b) 0) <= sqrt (2 * INR n) * e * Rabs (nth i (a ++ b) 0)).
    { apply Rmult_le_compat_r; [assumption|]. rewrite <- (Rmult_1_l e) at 1. apply Rmult_le_compat_r; assumption. } lra.
Qed.
