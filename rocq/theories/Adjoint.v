(** The transforms are the transposes of their inverses, up to the weights at the ends. *)
From Coq Require Import Reals ZArith List Arith Lia Lra Bool.
From Verif Require Import Prog Num Model_Common Model_Mdct Model_Plan Model_Api Spec Spec_Api Spec_Fft Spec_Plan Spec_Methods Spec_Adjoint
  Trig Ref Ref_Inverse Methods Exact_Mdct Tdac Mdct_Theorems.
Import ListNotations.
Open Scope R_scope.

Lemma kern_adjoint t1 t2 n K1 K2 (w v : nat -> R) : kern t1 n K1 -> kern t2 n K2 ->
  (forall k i, (k < n)%nat -> (i < n)%nat -> w k * K1 k i = v i * K2 i k) ->
  forall x y, length x = n -> length y = n -> inner w (transform t1 x) y = inner v x (transform t2 y).
Proof.
  intros H1 H2 Ha x y Hx Hy. unfold inner. rewrite transform_length, Hx.
  rewrite (sum_ext _ (fun k => sum (fun i => v i * K2 i k * (nth i x 0 * nth k y 0)) n)).
  2: { intros k Hk. rewrite nth_transform by lia. rewrite (H1 x k Hx Hk).
       replace (w k * sum (fun i => nth i x 0 * K1 k i) n * nth k y 0) with (w k * nth k y 0 * sum (fun i => nth i x 0 * K1 k i) n) by ring.
       rewrite <- sum_scal_l. apply sum_ext. intros i Hi. rewrite <- Ha by assumption. ring. }
  rewrite sum_swap. apply sum_ext. intros i Hi. rewrite nth_transform by lia. rewrite (H2 y i Hy Hi), <- sum_scal_l.
  apply sum_ext. intros k Hk. ring.
Qed.
Ltac en := unfold end_weight; cbn [size inverse_of]; unfold half_when; repeat match goal with |- context [(?a =? ?b)%nat] => destruct (a =? b)%nat end; cbn [orb]; try lra.
Lemma reference_adjoint c x y : legal c -> length x = size c -> length y = size c ->
  inner (end_weight (inverse_of c)) (reference c x) y = inner (end_weight c) x (reference (inverse_of c) y).
Proof.
  intros Hl Hx Hy. destruct c as [n|n|n|n|n|n|n|n|n|n|n|n|n|n|n|n|n w]; cbn [legal reference inverse_of size] in * ; try contradiction.
  - apply (kern_adjoint _ _ n (k_dct1 n) (k_dct1 n)); try apply kern_dct1; try lia; try assumption.
    intros k i _ _. unfold k_dct1. rewrite (Z.mul_comm (zn k)). en.
  - apply (kern_adjoint _ _ n (k_dct2 n) (k_dct3 n)); [apply kern_dct2|apply kern_dct3| |exact Hx|exact Hy].
    intros k i _ _. unfold k_dct2, k_dct3. rewrite (Z.mul_comm (zn k)). en.
  - apply (kern_adjoint _ _ n (k_dct3 n) (k_dct2 n)); [apply kern_dct3|apply kern_dct2| |exact Hx|exact Hy].
    intros k i _ _. unfold k_dct2, k_dct3. rewrite (Z.mul_comm (2 * zn k + 1)). en.
  - apply (kern_adjoint _ _ n (k_dct4 n) (k_dct4 n)); [apply kern_dct4|apply kern_dct4| |exact Hx|exact Hy].
    intros k i _ _. unfold k_dct4. rewrite (Z.mul_comm (2 * zn k + 1)). en.
  - apply (kern_adjoint _ _ n (k_dct5 n) (k_dct5 n)); [apply kern_dct5|apply kern_dct5| |exact Hx|exact Hy].
    intros k i _ _. unfold k_dct5. replace (2 * zn k * zn i)%Z with (2 * zn i * zn k)%Z by lia. en.
  - apply (kern_adjoint _ _ n (k_dct6 n) (k_dct7 n)); [apply kern_dct6|apply kern_dct7| |exact Hx|exact Hy].
    intros k i _ _. unfold k_dct6, k_dct7. rewrite (Z.mul_comm (zn k)). en.
  - apply (kern_adjoint _ _ n (k_dct7 n) (k_dct6 n)); [apply kern_dct7|apply kern_dct6| |exact Hx|exact Hy].
    intros k i _ _. unfold k_dct6, k_dct7. rewrite (Z.mul_comm (2 * zn k + 1)). en.
  - apply (kern_adjoint _ _ n (k_dct8 n) (k_dct8 n)); [apply kern_dct8|apply kern_dct8| |exact Hx|exact Hy].
    intros k i _ _. unfold k_dct8. rewrite (Z.mul_comm (2 * zn k + 1)). en.
  - apply (kern_adjoint _ _ n (k_dst1 n) (k_dst1 n)); [apply kern_dst1|apply kern_dst1| |exact Hx|exact Hy].
    intros k i _ _. unfold k_dst1. rewrite (Z.mul_comm (zn k + 1)). en.
  - apply (kern_adjoint _ _ n (k_dst2 n) (k_dst3 n)); [apply kern_dst2|apply kern_dst3| |exact Hx|exact Hy].
    intros k i _ _. unfold k_dst2, k_dst3. rewrite (Z.mul_comm (zn k + 1)). en.
  - apply (kern_adjoint _ _ n (k_dst3 n) (k_dst2 n)); [apply kern_dst3|apply kern_dst2| |exact Hx|exact Hy].
    intros k i _ _. unfold k_dst2, k_dst3. rewrite (Z.mul_comm (2 * zn k + 1)). en.
  - apply (kern_adjoint _ _ n (k_dst4 n) (k_dst4 n)); [apply kern_dst4|apply kern_dst4| |exact Hx|exact Hy].
    intros k i _ _. unfold k_dst4. rewrite (Z.mul_comm (2 * zn k + 1)). en.
  - apply (kern_adjoint _ _ n (k_dst5 n) (k_dst5 n)); [apply kern_dst5|apply kern_dst5| |exact Hx|exact Hy].
    intros k i _ _. unfold k_dst5. replace (2 * (zn k + 1) * (zn i + 1))%Z with (2 * (zn i + 1) * (zn k + 1))%Z by lia. en.
  - apply (kern_adjoint _ _ n (k_dst6 n) (k_dst7 n)); [apply kern_dst6|apply kern_dst7| |exact Hx|exact Hy].
    intros k i _ _. unfold k_dst6, k_dst7. rewrite (Z.mul_comm (zn k + 1)). en.
  - apply (kern_adjoint _ _ n (k_dst7 n) (k_dst6 n)); [apply kern_dst7|apply kern_dst6| |exact Hx|exact Hy].
    intros k i _ _. unfold k_dst6, k_dst7. rewrite (Z.mul_comm (2 * zn k + 1)). en.
  - apply (kern_adjoint _ _ n (k_dst8 n) (k_dst8 n)); [apply kern_dst8|apply kern_dst8| |exact Hx|exact Hy].
    intros k i _ _. unfold k_dst8. rewrite (Z.mul_comm (2 * zn k + 1)). en.
Qed.
Lemma inner_scale_r w c x y : length x = length y -> inner w x (scale c y) = c * inner w x y.
Proof.
  intros L. unfold inner. rewrite <- sum_scal_l. apply sum_ext. intros i Hi. unfold scale.
  rewrite (nth_indep (map (Rmult c) y) 0 (c * 0)) by (rewrite map_length; lia). rewrite (map_nth (Rmult c)). ring.
Qed.
Lemma reference_energy c x : legal c -> length x = size c ->
  inner (end_weight (inverse_of c)) (reference c x) (reference c x) = inverse_scale c * inner (end_weight c) x x.
Proof.
  intros Hl Hx. rewrite reference_adjoint by (try assumption; rewrite reference_length; assumption).
  rewrite reference_inverse by assumption. apply inner_scale_r. reflexivity.
Qed.

Section Planned.
Variable pf : nat -> fft R.
Hypothesis Hpf : fft_fits pf.
Hypothesis Hex : fft_all_exact pf.
Lemma planned_adjoint_of cs cs' c : legal c -> legal (inverse_of c) ->
  exists f g, planned_method c (after pf cs) = Some f /\ planned_method (inverse_of c) (after pf cs') = Some g /\
  forall x y, length x = size c -> length y = size c -> exists fx gy,
    process (fst f) (snd f) x = Returned fx /\ process (fst g) (snd g) y = Returned gy /\
    inner (end_weight (inverse_of c)) fx y = inner (end_weight c) x gy.
Proof.
  intros Hc Hi. destruct (planned_all pf Hpf Hex c cs Hc) as (f & sf & Ef & [_ Pf] & _).
  destruct (planned_all pf Hpf Hex (inverse_of c) cs' Hi) as (g & sg & Eg & [_ Pg] & _). rewrite inverse_size in Pg.
  exists (f, sf), (g, sg). split; [exact Ef|]. split; [exact Eg|]. intros x y Hx Hy.
  exists (reference c x), (reference (inverse_of c) y). split; [apply Pf, Hx|]. split; [apply Pg, Hy|]. apply reference_adjoint; assumption.
Qed.
Lemma planned_energy_of cs c : legal c -> exists f, planned_method c (after pf cs) = Some f /\
  forall x, length x = size c -> exists fx, process (fst f) (snd f) x = Returned fx /\
    inner (end_weight (inverse_of c)) fx fx = inverse_scale c * inner (end_weight c) x x.
Proof.
  intros Hc. destruct (planned_all pf Hpf Hex c cs Hc) as (f & sf & Ef & [_ Pf] & _).
  exists (f, sf). split; [exact Ef|]. intros x Hx. exists (reference c x). split; [apply Pf, Hx|]. apply reference_energy; assumption.
Qed.
End Planned.

(** * MDCT *)
Lemma mdct_adjoint n w x y : length x = (2 * n)%nat -> length y = n -> inner plain (mdct_of n w x) y = inner plain x (imdct_of n w y).
Proof.
  intros Hx Hy. unfold inner, plain. replace (length (mdct_of n w x)) with n by (unfold mdct_of; rewrite map_length, seq_length; reflexivity). rewrite Hx.
  set (C := fun i k => cos (PI / INR n * (INR i + / 2 + INR n / 2) * (INR k + / 2))).
  rewrite (sum_ext _ (fun k => sum (fun i => nth i w 0 * nth i x 0 * nth k y 0 * C i k) (2 * n))).
  2: { intros k Hk. unfold mdct_of. rewrite nth_map_seq by exact Hk. unfold mdct_at.
       rewrite Rmult_1_l, <- sum_scal_r. apply sum_ext. intros i Hi. unfold C. ring. }
  rewrite sum_swap. apply sum_ext. intros i Hi. unfold imdct_of. rewrite nth_map_seq by exact Hi. unfold imdct_at.
  rewrite Rmult_1_l, <- Rmult_assoc, <- sum_scal_l. apply sum_ext. intros k Hk. unfold C. ring.
Qed.
Lemma sum_blocks f m n : sum f (m * n) = sum (fun j => sum (fun r => f (j * n + r)%nat) n) m.
Proof. induction m as [|m IH]; [reflexivity|]. replace (S m * n)%nat with (m * n + n)%nat by lia. rewrite sum_app, IH. reflexivity. Qed.

Section Lapped.
Variables (n m : nat) (w x : list R) (c : R).
Hypothesis Hn : (0 < n)%nat.
Hypothesis Hs : symmetric w.
Hypothesis Hp : princen_bradley c n w.
Hypothesis Lx : length x = ((m + 1) * n)%nat.
Hypothesis Zx : forall i, (i < n \/ m * n <= i)%nat -> nth i x 0 = 0.
Let Y j := mdct_of n w (block n x j ++ block n x (j + 1)).
Let a j := sum (fun r => nth (j * n + r) x 0 * imdct_at n w (Y j) r) n.
Let b j := sum (fun r => nth ((j + 1) * n + r) x 0 * imdct_at n w (Y j) (n + r)) n.
Let e j := sum (fun r => c * INR n / 2 * (nth (j * n + r) x 0 * nth (j * n + r) x 0)) n.
Lemma lapped_segment j : (j < m)%nat -> inner plain (Y j) (Y j) = a j + b j.
Proof.
  intros Hj. assert (L1 : length (block n x j) = n) by (apply block_length; nia). assert (L2 : length (block n x (j + 1)) = n) by (apply block_length; nia).
  unfold Y at 1. rewrite mdct_adjoint; [|rewrite app_length; lia|unfold Y, mdct_of; rewrite map_length, seq_length; reflexivity].
  fold (Y j). unfold inner, plain. rewrite app_length, L1, L2, sum_app. f_equal.
  - apply sum_ext. intros r Hr. rewrite app_nth1 by lia. rewrite nth_block by exact Hr. unfold imdct_of. rewrite nth_map_seq by lia. ring.
  - apply sum_ext. intros r Hr. rewrite app_nth2 by lia. rewrite L1. replace (n + r - n)%nat with r by lia. rewrite nth_block by exact Hr.
    unfold imdct_of. rewrite nth_map_seq by lia. ring.
Qed.
Lemma lapped_energy : sum (fun j => inner plain (Y j) (Y j)) m = c * INR n / 2 * inner plain x x.
Proof.
  rewrite (sum_ext _ (fun j => a j + b j)) by (intros; apply lapped_segment; assumption). rewrite sum_plus.
  replace (c * INR n / 2 * inner plain x x) with (sum e (m + 1)).
  2: { unfold inner, plain. rewrite Lx, sum_blocks, <- sum_scal_l. apply sum_ext. intros j Hj. unfold e. rewrite <- sum_scal_l. apply sum_ext. intros r Hr. ring. }
  destruct m as [|k] eqn:Em.
  { cbn [Nat.add sum]. rewrite !Rplus_0_l. unfold e. symmetry. apply sum_zero'. intros r Hr. rewrite Zx by lia. ring. }
  rewrite <- Em in * .
  assert (E0 : a 0 = 0). { unfold a. apply sum_zero'. intros r Hr. rewrite Zx by lia. ring. }
  assert (E1 : b k = 0). { unfold b. apply sum_zero'. intros r Hr. rewrite Zx by lia. ring. }
  assert (E2 : e 0 = 0). { unfold e. apply sum_zero'. intros r Hr. rewrite Zx by lia. ring. }
  assert (E3 : e (S k) = 0). { unfold e. apply sum_zero'. intros r Hr. rewrite Zx by lia. ring. }
  rewrite Em. replace (S k + 1)%nat with (S (S k)) by lia. rewrite (sum_S_l a), (sum_S_l e). cbn [sum]. rewrite E0, E1, E2, E3.
  rewrite (sum_ext (fun i => e (S i)) (fun i => a (S i) + b i)); [rewrite sum_plus; lra|]. intros j Hj. unfold a, b, e. rewrite <- sum_plus. apply sum_ext. intros r Hr.
  replace ((j + 1) * n + r)%nat with (S j * n + r)%nat by lia. rewrite <- Rmult_plus_distr_l. unfold Y. replace (j + 1)%nat with (S j) by lia.
  assert (LA : length (block n x j) = n) by (apply block_length; nia). assert (LB : length (block n x (S j)) = n) by (apply block_length; nia).
  rewrite (Rplus_comm (imdct_at _ _ _ r)), (tdac n w c) by assumption. rewrite nth_block by exact Hr. ring.
Qed.
End Lapped.

Section PlannedMdct.
Variable pf : nat -> fft R.
Hypothesis Hpf : fft_fits pf.
Hypothesis Hex : fft_all_exact pf.
Lemma add_zeros u k : length u = k -> add_lists (repeat 0 k) u = u.
Proof.
  intros L. unfold add_lists. rewrite repeat_length. apply (nth_ext _ _ 0 0); [rewrite map_length, seq_length; lia|].
  intros i Hi. rewrite map_length, seq_length in Hi. rewrite (nth_map_seq (fun i => nth i (repeat 0 k) 0 + nth i u 0)) by exact Hi. rewrite nth_repeat. lra.
Qed.
Lemma planned_mdct_adjoint_of cs n w : (n mod 2 = 0)%nat -> length (w (n * 2)%nat) = (n * 2)%nat -> (forall v, ~ In (CMdct n v) cs) ->
  exists o, snd (plan_mdct n w (after pf cs)) = Ok o /\ forall a b y out s, length a = n -> length b = n -> length y = n -> length out = n ->
    (m_scratch (arc_val o) <= length s)%nat -> exists X s1 A B s2,
    call4 (t_mdct (arc_val o)) a b out s = Returned (a, b, X, s1) /\
    call4 (t_imdct (arc_val o)) y (repeat 0 n) (repeat 0 n) s = Returned (y, A, B, s2) /\
    inner plain X y = inner plain (a ++ b) (A ++ B).
Proof.
  intros Hev Hw Hf. destruct (planned_mdct_fresh pf Hpf Hex cs n w Hev Hw Hf) as (o & Eo & _ & P & _ & Q). exists o. split; [exact Eo|].
  intros a b y out s La Lb Ly Lo Ls. destruct (P a b out s La Lb Lo Ls) as (s1 & E1 & _).
  destruct (Q y (repeat 0 n) (repeat 0 n) s Ly (repeat_length _ _) (repeat_length _ _) Ls) as (A & B & s2 & E2 & EA & _).
  exists (mdct_of n (w (n * 2)%nat) (a ++ b)), s1, A, B, s2. split; [exact E1|]. split; [exact E2|]. rewrite EA, <- repeat_app.
  rewrite add_zeros by (unfold imdct_of; rewrite map_length, seq_length; lia). apply mdct_adjoint; [rewrite app_length; lia|exact Ly].
Qed.
Lemma planned_lapped_energy cs n w c : (n mod 2 = 0)%nat -> (0 < n)%nat -> symmetric (w (n * 2)%nat) -> princen_bradley c n (w (n * 2)%nat) -> (forall v, ~ In (CMdct n v) cs) ->
  exists o, snd (plan_mdct n w (after pf cs)) = Ok o /\ forall m x, length x = ((m + 1) * n)%nat ->
    (forall i, (i < n \/ m * n <= i)%nat -> nth i x 0 = 0) -> exists X : nat -> list R,
    (forall j out s, (j < m)%nat -> length out = n -> (m_scratch (arc_val o) <= length s)%nat -> exists s',
      call4 (t_mdct (arc_val o)) (block n x j) (block n x (j + 1)) out s = Returned (block n x j, block n x (j + 1), X j, s')) /\
    sum (fun j => inner plain (X j) (X j)) m = c * INR n / 2 * inner plain x x.
Proof.
  intros Hev Hn Hs Hp Hf. destruct (planned_mdct_fresh pf Hpf Hex cs n w Hev) as (o & Eo & _ & P & _); [destruct Hp as [L _]; lia|exact Hf|].
  exists o. split; [exact Eo|]. intros m x Lx Zx. exists (fun j => mdct_of n (w (n * 2)%nat) (block n x j ++ block n x (j + 1))). split.
  - intros j out s Hj Lo Ls. destruct (P (block n x j) (block n x (j + 1)) out s) as (s' & E & _); [apply block_length; nia|apply block_length; nia|exact Lo|exact Ls|].
    exists s'. exact E.
  - apply lapped_energy; assumption.
Qed.
End PlannedMdct.
