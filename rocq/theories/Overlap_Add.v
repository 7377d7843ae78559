(** Overlap-add with rounding errors. *)
From Coq Require Import Reals ZArith List Arith Lia Lra Psatz Bool.
From Verif Require Import Prog Num Model_Common Model_Mdct Model_Plan Model_Api Spec Spec_Api Spec_Round Spec_Entry Spec_Mdct_Round Spec_Overlap
  Wp Api Trig Ref Energy Exact_Mdct Tdac Round_Mdct Overlap_Norm.
Import ListNotations.
Open Scope R_scope.

Lemma call4_scratch {N : Num R R} f (a b c s a' b' c' s' : list R) : call4 f a b c s = Returned (a', b', c', s') -> length s' = length s.
Proof.
  unfold call4. destruct (run _ _); intros E; [|discriminate|discriminate]. injection E as _ _ _ <-. apply vals_length.
Qed.

Section Run.
Context {N : Num R R}.
Variables (o : mdct R) (n : nat) (w : list R) (e W : R).
Hypothesis Hn : (0 < n)%nat.
Hypothesis Hev : (n mod 2 = 0)%nat.
Hypothesis He : 0 <= e.
Hypothesis HW : 0 <= W.
Hypothesis Hw : forall i, (i < 2 * n)%nat -> Rabs (nth i w 0) <= W.
Hypothesis HM : mdct_norm_error (t_mdct o) n (m_scratch o) w e.
Hypothesis HI : imdct_norm_error (t_imdct o) n (m_scratch o) w e.
Variables (x : list R) (m : nat).
Hypothesis Lx : length x = ((m + 1) * n)%nat.

(** The size of segment [j]; its exact MDCT; block [j] of a list as a function. *)
Let X (j : nat) : R := norm (block n x j ++ block n x (j + 1)).
Let Y (j : nat) : list R := mdct_of n w (block n x j ++ block n x (j + 1)).
Let B (out : list R) (j r : nat) : R := nth (j * n + r) out 0.
Let K : R := INR n * W ^ 2.
Lemma X_ge0 j : 0 <= X j. Proof. apply norm_ge0. Qed.
Lemma K_ge0 : 0 <= K. Proof. unfold K. apply Rmult_le_pos; [apply pos_INR|]. apply pow2_ge_0. Qed.
Lemma Y_length j : length (Y j) = n. Proof. unfold Y, mdct_of. rewrite map_length. apply seq_length. Qed.
Lemma Bx j : (j <= m)%nat -> length (block n x j) = n.
Proof. intros H. apply block_length. rewrite Lx. nia. Qed.

Definition fresh (out : list R) (j : nat) : Prop := forall r, (r < n)%nat -> B out j r = 0.
Definition half_done (out : list R) (j : nat) : Prop :=
  l2 n (fun r => B out j r - imdct_at n w (Y (j - 1)) (n + r)) <= K * ((1 + e) ^ 2 - 1) * X (j - 1).
Definition all_done (out : list R) (j : nat) : Prop :=
  l2 n (fun r => B out j r - (imdct_at n w (Y (j - 1)) (n + r) + imdct_at n w (Y j) r)) <= K * ((1 + e) ^ 3 - 1) * (X (j - 1) + X j).

(** One segment: what the two calls leave, as functions on the two halves. *)
Lemma sn_sn : sqrt (INR n) * sqrt (INR n) = INR n.
Proof. apply sqrt_sqrt, pos_INR. Qed.
Lemma segment i y out s : (i < m)%nat -> length out = length x -> length y = n -> (m_scratch o <= length s)%nat ->
  exists z a b s1 s2,
    call4 (t_mdct o) (block n x i) (block n x (i + 1)) y s = Returned (block n x i, block n x (i + 1), z, s1) /\
    call4 (t_imdct o) z (block n out i) (block n out (i + 1)) s1 = Returned (z, a, b, s2) /\
    length z = n /\ length a = n /\ length b = n /\ length s2 = length s /\
    l2 n (fun r => nth r a 0 - (B out i r + imdct_at n w (Y i) r)) <= e * l2 n (B out i) + K * ((1 + e) ^ 2 - 1) * X i /\
    l2 n (fun r => nth r b 0 - (B out (i + 1) r + imdct_at n w (Y i) (n + r))) <= e * l2 n (B out (i + 1)) + K * ((1 + e) ^ 2 - 1) * X i.
Proof.
  intros Hi Lo Ly Ls.
  assert (Bo : forall j, (j <= m)%nat -> length (block n out j) = n) by (intros j Hj; apply block_length; rewrite Lo, Lx; nia).
  destruct (HM (block n x i) (block n x (i + 1)) y s) as (z & s1 & E1 & Lz & Dz); [apply Bx; lia|apply Bx; lia|exact Ly|exact Ls|].
  pose proof (call4_scratch _ _ _ _ _ _ _ _ _ E1) as Ls1.
  destruct (HI z (block n out i) (block n out (i + 1)) s1) as (a & b & s2 & d & E2 & La & Lb & Ld & Nd & V); [exact Lz|apply Bo; lia|apply Bo; lia|lia|].
  pose proof (call4_scratch _ _ _ _ _ _ _ _ _ E2) as Ls2.
  exists z, a, b, s1, s2. split; [exact E1|]. split; [exact E2|]. split; [exact Lz|]. split; [exact La|]. split; [exact Lb|]. split; [lia|].
  fold (Y i) in Dz. set (S := sqrt (INR n)) in * . assert (S0 : 0 <= S) by apply sqrt_pos.
  assert (NW : norm (windowed w (block n x i ++ block n x (i + 1))) <= W * X i) by (apply (wx_norm n Hev); [apply Bx; lia|apply Bx; lia|exact HW|exact Hw]).
  assert (NY : norm (Y i) <= S * (W * X i)).
  { eapply Rle_trans; [apply mdct_exact_l2; [exact Hev|apply Bx; lia|apply Bx; lia]|]. apply Rmult_le_compat_l; assumption. }
  assert (DZ : dist z (Y i) <= e * (S * (W * X i))).
  { eapply Rle_trans; [exact Dz|]. apply Rmult_le_compat_l; [exact He|]. apply Rmult_le_compat_l; assumption. }
  assert (NZ : norm z <= (1 + e) * (S * (W * X i))).
  { rewrite (norm_l2 z n Lz). rewrite (l2_ext n _ (fun k => (nth k z 0 - nth k (Y i) 0) + nth k (Y i) 0)) by (intros; ring).
    eapply Rle_trans; [apply l2_tri|]. rewrite <- (dist_l2 z (Y i) n Lz), <- (norm_l2 (Y i) n (Y_length i)). lra. }
  assert (ND : W * norm d <= K * (e * (1 + e)) * X i).
  { replace (K * (e * (1 + e)) * X i) with (W * (e * (S * ((1 + e) * (S * (W * X i)))))) by (unfold K; rewrite <- sn_sn; fold S; ring).
    apply Rmult_le_compat_l; [exact HW|]. eapply Rle_trans; [exact Nd|]. apply Rmult_le_compat_l; [exact He|]. apply Rmult_le_compat_l; assumption. }
  assert (NI : l2 (2 * n) (fun p => imdct_at n w z p - imdct_at n w (Y i) p) <= K * e * X i).
  { rewrite (l2_ext (2 * n) _ (imdct_at n w (diff z (Y i)))) by (intros; apply (imdct_diff n); [exact Lz|apply Y_length]).
    eapply Rle_trans; [apply (imdct_l2 n Hev w (diff z (Y i)) W); [unfold diff; rewrite map_length, seq_length; exact Lz|exact HW|exact Hw]|].
    rewrite norm_diff. replace (K * e * X i) with (W * (S * (e * (S * (W * X i))))) by (unfold K; rewrite <- sn_sn; fold S; ring).
    apply Rmult_le_compat_l; [exact HW|]. apply Rmult_le_compat_l; assumption. }
  assert (d0 : forall p, (p < 2 * n)%nat -> Rabs (nth p w 0) * nth p d 0 <= W * Rabs (nth p d 0)).
  { intros p Hp. pose proof (Rle_abs (nth p d 0)). pose proof (Rabs_pos (nth p w 0)). pose proof (Hw p Hp). pose proof (Rabs_pos (nth p d 0)). nra. }
  assert (T : K * ((1 + e) ^ 2 - 1) * X i = K * (e * (1 + e)) * X i + K * e * X i) by ring.
  assert (H : forall (c : list R) (j p : nat), (forall r, (r < n)%nat -> nth (p + r) (a ++ b) 0 = nth r c 0 /\ nth (p + r) (block n out i ++ block n out (i + 1)) 0 = B out j r) ->
    (p = 0 \/ p = n)%nat ->
    l2 n (fun r => nth r c 0 - (B out j r + imdct_at n w (Y i) (p + r))) <= e * l2 n (B out j) + K * ((1 + e) ^ 2 - 1) * X i).
  { intros c j p Hc Hp.
    eapply Rle_trans; [apply (l2_tri3 n _ (fun r => e * Rabs (B out j r) + W * Rabs (nth (p + r) d 0)) (fun r => Rabs (imdct_at n w z (p + r) - imdct_at n w (Y i) (p + r))))|].
    - intros r Hr. destruct (Hc r Hr) as [C1 C2]. pose proof (V (p + r)%nat ltac:(lia)) as Vr. rewrite C1, C2 in Vr. pose proof (d0 (p + r)%nat ltac:(lia)) as Dr.
      replace (nth r c 0 - (B out j r + imdct_at n w (Y i) (p + r))) with
        ((nth r c 0 - (B out j r + imdct_at n w z (p + r))) + (imdct_at n w z (p + r) - imdct_at n w (Y i) (p + r))) by ring.
      eapply Rle_trans; [apply Rabs_triang|]. lra.
    - eapply Rle_trans; [apply Rplus_le_compat_r, l2_tri|]. rewrite !l2_scal_pos by assumption. rewrite (l2_abs n (B out j)), (l2_abs n (fun r => nth (p + r) d 0)).
      rewrite (l2_abs n (fun r => imdct_at n w z (p + r) - imdct_at n w (Y i) (p + r))). rewrite T.
      assert (Sub : forall f, l2 n (fun r => f (p + r)%nat) <= l2 (2 * n) f).
      { intros f. replace (2 * n)%nat with (n + n)%nat by lia. destruct Hp as [-> | ->]; [apply (l2_first n n f)|apply (l2_second n n f)]. }
      pose proof (Sub (fun q => nth q d 0)) as S1. rewrite <- (norm_l2 d (2 * n) Ld) in S1.
      pose proof (Sub (fun q => imdct_at n w z q - imdct_at n w (Y i) q)) as S2. cbv beta in S1, S2.
      assert (W * l2 n (fun r => nth (p + r) d 0) <= W * norm d) by (apply Rmult_le_compat_l; assumption). lra. }
  split.
  - apply (H a i 0%nat); [|left; reflexivity]. intros r Hr. cbn [Nat.add]. rewrite !app_nth1 by (rewrite ?Bo; lia). split; [reflexivity|]. apply nth_block, Hr.
  - apply (H b (i + 1)%nat n); [|right; reflexivity]. intros r Hr. rewrite !app_nth2 by (rewrite ?Bo; lia). rewrite La, Bo by lia. replace (n + r - n)%nat with r by lia.
    split; [reflexivity|]. apply nth_block, Hr.
Qed.

Lemma imdct_half j : (1 <= j)%nat -> (j <= m)%nat -> l2 n (fun r => imdct_at n w (Y (j - 1)) (n + r)) <= K * X (j - 1).
Proof.
  intros H1 Hj. pose proof (l2_second n n (imdct_at n w (Y (j - 1)))) as H. replace (n + n)%nat with (2 * n)%nat in H by lia.
  eapply Rle_trans; [exact H|]. eapply Rle_trans; [apply (imdct_l2 n Hev w (Y (j - 1)) W (Y_length _) HW Hw)|].
  replace (K * X (j - 1)) with (W * (sqrt (INR n) * (sqrt (INR n) * (W * X (j - 1))))).
  2: { unfold K. pose proof sn_sn as Q. set (S := sqrt (INR n)) in * . rewrite <- Q. ring. }
  apply Rmult_le_compat_l; [exact HW|]. apply Rmult_le_compat_l; [apply sqrt_pos|].
  eapply Rle_trans; [apply mdct_exact_l2; [exact Hev|apply Bx; lia|apply Bx; lia]|]. apply Rmult_le_compat_l; [apply sqrt_pos|].
  apply (wx_norm n Hev); [apply Bx; lia|apply Bx; lia|exact HW|exact Hw].
Qed.

Lemma overlap_runs y s : length y = n -> (m_scratch o <= length s)%nat -> forall i, (i <= m)%nat ->
  exists out y' s', overlap_add o n x y s i = Some (out, y', s') /\ length out = length x /\ length y' = n /\ length s' = length s /\
    forall j, (j <= m)%nat -> ((i < j)%nat -> fresh out j) /\ ((1 <= i)%nat -> j = i -> half_done out j) /\ ((1 <= j < i)%nat -> all_done out j) /\ (i = 0%nat -> fresh out j).
Proof.
  intros Ly Ls i. induction i as [|i IH]; intros Hi.
  - exists (repeat 0 (length x)), y, s. split; [reflexivity|]. rewrite repeat_length. split; [reflexivity|]. split; [exact Ly|]. split; [reflexivity|].
    intros j Hj. split; [|split; [intros; lia|split; [intros; lia|]]]; intros _ r Hr; unfold B; apply nth_repeat.
  - destruct (IH ltac:(lia)) as (out & y' & s' & E & Lo & Ly' & Ls' & Hv). cbn [overlap_add]. rewrite E.
    destruct (segment i y' out s' ltac:(lia) Lo Ly' ltac:(lia)) as (z & a & b & s1 & s2 & E1 & E2 & Lz & La & Lb & Ls2 & Va & Vb). rewrite E1, E2.
    exists (firstn (i * n) out ++ a ++ b ++ skipn ((i + 2) * n) out), z, s2. split; [reflexivity|].
    set (out' := firstn (i * n) out ++ a ++ b ++ skipn ((i + 2) * n) out).
    assert (Lf : length (firstn (i * n) out) = (i * n)%nat) by (rewrite firstn_length, Lo, Lx; nia).
    split. { unfold out'. rewrite !app_length, Lf, skipn_length, La, Lb, Lo, Lx. nia. }
    split; [exact Lz|]. split; [lia|].
    assert (C1 : forall j r, (j < i)%nat -> (r < n)%nat -> B out' j r = B out j r).
    { intros j r Hj Hr. unfold B, out'. rewrite app_nth1 by (rewrite Lf; nia). apply nth_firstn_R. nia. }
    assert (C2 : forall r, (r < n)%nat -> B out' i r = nth r a 0).
    { intros r Hr. unfold B, out'. rewrite app_nth2 by (rewrite Lf; nia). rewrite Lf. replace (i * n + r - i * n)%nat with r by lia. apply app_nth1. lia. }
    assert (C3 : forall r, (r < n)%nat -> B out' (i + 1) r = nth r b 0).
    { intros r Hr. unfold B, out'. rewrite app_nth2 by (rewrite Lf; nia). rewrite Lf. rewrite app_nth2 by (rewrite La; nia). rewrite La.
      rewrite app_nth1 by (rewrite Lb; nia). f_equal. nia. }
    assert (C4 : forall j r, (i + 1 < j)%nat -> (r < n)%nat -> B out' j r = B out j r).
    { intros j r Hj Hr. unfold B, out'. rewrite app_nth2 by (rewrite Lf; nia). rewrite Lf. rewrite app_nth2 by (rewrite La; nia). rewrite La.
      rewrite app_nth2 by (rewrite Lb; nia). rewrite Lb. rewrite nth_skipn_R. f_equal. nia. }
    pose proof K_ge0 as K0.
    intros j Hj. destruct (Hv j Hj) as (F & G & A & Z). split; [|split; [|split; [|intros; lia]]].
    + intros H r Hr. rewrite C4 by lia. apply F; [lia|exact Hr].
    + intros _ ->. replace (S i) with (i + 1)%nat in * by lia. unfold half_done. replace (i + 1 - 1)%nat with i by lia.
      assert (F' : forall r, (r < n)%nat -> B out (i + 1) r = 0) by (intros r Hr; apply F; [lia|exact Hr]).
      rewrite (l2_ext n _ (fun r => nth r b 0 - (B out (i + 1) r + imdct_at n w (Y i) (n + r)))) by (intros r Hr; rewrite C3, F' by exact Hr; ring).
      eapply Rle_trans; [exact Vb|]. rewrite (l2_ext n (B out (i + 1)) (fun _ => 0) F'), l2_zero. lra.
    + intros H. destruct (Nat.eq_dec j i) as [->|Hji].
      * assert (G' := G ltac:(lia) eq_refl). unfold half_done in G'. unfold all_done.
        rewrite (l2_ext n _ (fun r => (nth r a 0 - (B out i r + imdct_at n w (Y i) r)) + (B out i r - imdct_at n w (Y (i - 1)) (n + r)))) by (intros r Hr; rewrite C2 by exact Hr; ring).
        eapply Rle_trans; [apply l2_tri|].
        assert (NB : l2 n (B out i) <= K * (1 + e) ^ 2 * X (i - 1)).
        { rewrite (l2_ext n _ (fun r => (B out i r - imdct_at n w (Y (i - 1)) (n + r)) + imdct_at n w (Y (i - 1)) (n + r))) by (intros; ring).
          eapply Rle_trans; [apply l2_tri|]. pose proof (imdct_half i ltac:(lia) ltac:(lia)). lra. }
        assert (e * l2 n (B out i) <= e * (K * (1 + e) ^ 2 * X (i - 1))) by (apply Rmult_le_compat_l; assumption).
        pose proof (X_ge0 i) as P. assert (0 <= K * X i * (e * (1 + e) ^ 2)) by (apply Rmult_le_pos; [apply Rmult_le_pos; assumption|apply Rmult_le_pos; [assumption|apply pow2_ge_0]]).
        replace (K * ((1 + e) ^ 3 - 1) * (X (i - 1) + X i)) with
          (e * (K * (1 + e) ^ 2 * X (i - 1)) + K * ((1 + e) ^ 2 - 1) * X i + K * ((1 + e) ^ 2 - 1) * X (i - 1) + K * X i * (e * (1 + e) ^ 2)) by ring.
        lra.
      * assert (A' := A ltac:(lia)). unfold all_done in * . rewrite (l2_ext n _ (fun r => B out j r - (imdct_at n w (Y (j - 1)) (n + r) + imdct_at n w (Y j) r))); [exact A'|].
        intros r Hr. rewrite C1 by lia. reflexivity.
Qed.

End Run.

(** * A window close to one for perfect reconstruction *)
Section Window.
Variables (n : nat) (w : list R).
Hypothesis Hn : (0 < n)%nat.
Variables (x : list R) (m : nat).
Hypothesis Lx : length x = ((m + 1) * n)%nat.
Let Y (j : nat) : list R := mdct_of n w (block n x j ++ block n x (j + 1)).
Variables (w0 : list R) (c eta : R).
Hypothesis Hs : symmetric w0.
Hypothesis Hp : princen_bradley c n w0.
Hypothesis Hc : entries_within eta w w0.
Let Lw0 : length w0 = (2 * n)%nat := proj1 Hp.

Lemma eta_ge0 : 0 <= eta.
Proof. eapply Rle_trans; [apply Rabs_pos|]. apply (proj2 Hc 0%nat). rewrite Lw0. lia. Qed.
Lemma w0_le i : (i < 2 * n)%nat -> Rabs (nth i w0 0) <= sqrt c.
Proof.
  intros Hi. rewrite <- sqrt_Rsqr_abs. apply sqrt_le_1_alt. destruct (Nat.lt_ge_cases i n) as [H|H].
  - pose proof (proj2 Hp i H). pose proof (Rle_0_sqr (nth (i + n) w0 0)). lra.
  - pose proof (proj2 Hp (i - n)%nat ltac:(lia)) as E. replace (i - n + n)%nat with i in E by lia. pose proof (Rle_0_sqr (nth (i - n) w0 0)). lra.
Qed.
Lemma w_le i : (i < 2 * n)%nat -> Rabs (nth i w 0) <= sqrt c + eta.
Proof.
  intros Hi. pose proof (w0_le i Hi). pose proof (proj2 Hc i ltac:(lia)) as E.
  pose proof (Rabs_triang (nth i w 0 - nth i w0 0) (nth i w0 0)) as T. replace (nth i w 0 - nth i w0 0 + nth i w0 0) with (nth i w 0) in T by ring. lra.
Qed.
Lemma prod_close i j : (i < 2 * n)%nat -> (j < 2 * n)%nat -> Rabs (nth i w 0 * nth j w 0 - nth i w0 0 * nth j w0 0) <= 2 * sqrt c * eta + eta ^ 2.
Proof.
  intros Hi Hj. pose proof (proj2 Hc i ltac:(lia)) as Ei. pose proof (proj2 Hc j ltac:(lia)) as Ej.
  pose proof (w0_le i Hi) as Bi. pose proof (w_le j Hj) as Bj.
  replace (nth i w 0 * nth j w 0 - nth i w0 0 * nth j w0 0) with ((nth i w 0 - nth i w0 0) * nth j w 0 + nth i w0 0 * (nth j w 0 - nth j w0 0)) by ring.
  eapply Rle_trans; [apply Rabs_triang|]. rewrite !Rabs_mult.
  assert (Rabs (nth i w 0 - nth i w0 0) * Rabs (nth j w 0) <= eta * (sqrt c + eta)) by (apply Rmult_le_compat; try apply Rabs_pos; assumption).
  assert (Rabs (nth i w0 0) * Rabs (nth j w 0 - nth j w0 0) <= sqrt c * eta) by (apply Rmult_le_compat; try apply Rabs_pos; assumption). lra.
Qed.
Lemma tdac_close j : (1 <= j < m)%nat ->
  l2 n (fun r => imdct_at n w (Y (j - 1)) (n + r) + imdct_at n w (Y j) r - c * INR n / 2 * nth r (block n x j) 0)
  <= INR n * (2 * (2 * sqrt c * eta + eta ^ 2)) * norm (block n x j).
Proof.
  intros Hj. set (D := 2 * sqrt c * eta + eta ^ 2). assert (LA : length (block n x (j - 1)) = n) by (apply block_length; rewrite Lx; nia). assert (LB : length (block n x j) = n) by (apply block_length; rewrite Lx; nia).
  assert (Lw : length w = (2 * n)%nat) by (rewrite <- Lw0; apply (proj1 Hc)).
  set (b := fun r => Rabs (nth r (block n x j) 0)).
  eapply Rle_trans; [apply (l2_tri3 n _ (fun r => INR n * D * b r) (fun r => INR n * D * b (n - 1 - r)%nat))|].
  - intros r Hr. unfold Y. replace (j - 1 + 1)%nat with j by lia. rewrite !imdct_mdct by (try exact Lw; lia).
    destruct (Nat.ltb_spec (n + r) n); [lia|]. destruct (Nat.ltb_spec r n); [|lia].
    rewrite (app_nth2 (block n x (j - 1))), LA by lia. replace (n + r - n)%nat with r by lia.
    rewrite (app_nth2 (block n x (j - 1))), LA by lia. replace (3 * n - 1 - (n + r))%nat with (2 * n - 1 - r)%nat by lia.
    replace (2 * n - 1 - r - n)%nat with (n - 1 - r)%nat by lia. rewrite !app_nth1 by lia.
    pose proof (proj2 Hp r Hr) as P. replace (r + n)%nat with (n + r)%nat in P by lia. unfold Rsqr in P.
    pose proof (Hs r ltac:(lia)) as S1. pose proof (Hs (n + r)%nat ltac:(lia)) as S2. rewrite Lw0 in S1, S2.
    replace (2 * n - 1 - (n + r))%nat with (n - 1 - r)%nat in S2 by lia.
    pose proof (prod_close r r ltac:(lia) ltac:(lia)) as P1. pose proof (prod_close (n + r) (n + r) ltac:(lia) ltac:(lia)) as P2.
    pose proof (prod_close (n + r) (2 * n - 1 - r) ltac:(lia) ltac:(lia)) as P3. pose proof (prod_close r (n - 1 - r) ltac:(lia) ltac:(lia)) as P4. fold D in P1, P2, P3, P4.
    rewrite <- S1 in P3. rewrite <- S2 in P4.
    set (x1 := nth r (block n x j) 0) in * . set (x2 := nth (n - 1 - r) (block n x j) 0) in * .
    set (p1 := nth r w 0) in * . set (p2 := nth (n + r) w 0) in * . set (p3 := nth (2 * n - 1 - r) w 0) in * . set (p4 := nth (n - 1 - r) w 0) in * .
    set (q1 := nth r w0 0) in * . set (q2 := nth (n + r) w0 0) in * .
    replace (p2 * (INR n / 2) * (p2 * x1 + p3 * x2) + p1 * (INR n / 2) * (p1 * x1 + - (p4 * x2)) - c * INR n / 2 * x1) with
      (INR n / 2 * (((p1 * p1 - q1 * q1) + (p2 * p2 - q2 * q2)) * x1 + ((p2 * p3 - q2 * q1) - (p1 * p4 - q1 * q2)) * x2)) by (rewrite <- P; field).
    unfold b. fold x1 x2. rewrite Rabs_mult, (Rabs_right (INR n / 2)) by (pose proof (pos_INR n); lra).
    replace (INR n * D * Rabs x1 + INR n * D * Rabs x2) with (INR n / 2 * (2 * D * Rabs x1 + 2 * D * Rabs x2)) by field.
    apply Rmult_le_compat_l; [pose proof (pos_INR n); lra|]. eapply Rle_trans; [apply Rabs_triang|]. rewrite !Rabs_mult.
    apply Rplus_le_compat; apply Rmult_le_compat_r; try apply Rabs_pos.
    + eapply Rle_trans; [apply Rabs_triang|]. lra.
    + unfold Rminus at 1. eapply Rle_trans; [apply Rabs_triang|]. rewrite Rabs_Ropp. lra.
  - assert (D0 : 0 <= D) by (unfold D; pose proof eta_ge0; pose proof (sqrt_pos c); pose proof (pow2_ge_0 eta); nra).
    assert (N0 : 0 <= INR n * D) by (apply Rmult_le_pos; [apply pos_INR|exact D0]).
    rewrite !l2_scal_pos by exact N0. rewrite (l2_rev n b). unfold b. rewrite (l2_abs n (fun r => nth r (block n x j) 0)), <- (norm_l2 _ n LB).
    right. ring.
Qed.
End Window.

Lemma reconstructs {N : Num R R} o n w w0 c eta e : (0 < n)%nat -> (n mod 2 = 0)%nat -> 0 <= e ->
  mdct_norm_error (t_mdct o) n (m_scratch o) w e -> imdct_norm_error (t_imdct o) n (m_scratch o) w e ->
  symmetric w0 -> princen_bradley c n w0 -> entries_within eta w w0 -> reconstructs_within o n c eta e.
Proof.
  intros Hn Hev He HM HI Hs Hp Hc x m y s Lx Ly Ls.
  assert (E0 : 0 <= eta) by (eapply eta_ge0; eassumption). pose proof (sqrt_pos c) as C0.
  assert (Hw : forall i, (i < 2 * n)%nat -> Rabs (nth i w 0) <= sqrt c + eta) by (intros i Hi; eapply w_le; eassumption).
  destruct (overlap_runs o n w e (sqrt c + eta) Hn Hev He ltac:(lra) Hw HM HI x m Lx y s Ly Ls m (le_n m)) as (out & y' & s' & E & Lo & _ & _ & V).
  exists out, y', s'. split; [exact E|]. split; [exact Lo|]. intros j Hj. destruct (V j ltac:(lia)) as (_ & _ & A & _). specialize (A ltac:(lia)). unfold all_done in A.
  assert (T : l2 n (fun r => imdct_at n w (mdct_of n w (block n x (j - 1) ++ block n x (j - 1 + 1))) (n + r)
      + imdct_at n w (mdct_of n w (block n x j ++ block n x (j + 1))) r - c * INR n / 2 * nth r (block n x j) 0)
    <= INR n * (2 * (2 * sqrt c * eta + eta ^ 2)) * norm (block n x j)) by (eapply tdac_close; eassumption).
  assert (Lb : length (block n out j) = n) by (apply block_length; rewrite Lo, Lx; nia).
  assert (Lx' : length (block n x j) = n) by (apply block_length; rewrite Lx; nia).
  rewrite (dist_l2 _ _ n Lb). unfold overlap_bound. replace (j - 1 + 1)%nat with j in A, T by lia.
  set (z1 := mdct_of n w (block n x (j - 1) ++ block n x j)) in * . set (z2 := mdct_of n w (block n x j ++ block n x (j + 1))) in * .
  rewrite (l2_ext n _ (fun r => (nth (j * n + r) out 0 - (imdct_at n w z1 (n + r) + imdct_at n w z2 r)) +
     (imdct_at n w z1 (n + r) + imdct_at n w z2 r - c * INR n / 2 * nth r (block n x j) 0))).
  - eapply Rle_trans; [apply l2_tri|]. lra.
  - intros r Hr. rewrite nth_block by exact Hr. unfold scale. rewrite (nth_indep (map (Rmult (c * INR n / 2)) (block n x j)) 0 (c * INR n / 2 * 0)) by (rewrite map_length; lia). rewrite (map_nth (Rmult (c * INR n / 2))). ring.
Qed.
