(** Round trips through a transform and its inverse in rounded arithmetic. *)
From Coq Require Import Reals ZArith List Arith Lia Lra Psatz Bool.
From Verif Require Import Prog Num Model_Common Model_Naive Model_Fft Model_Butterflies Model_SplitRadix Model_Plan Model_Api
  Spec Spec_Api Spec_Fft Spec_Plan Spec_Methods Spec_Round Spec_Trip Wp Api Contracts Trig Ref Ref_Inverse Objects Planner Canon Plan_Theorems
  Sem_Naive Exact_Split Energy Round_Ops Round_Stage Round_Stage3 Round_Sem Round_Butterflies Round_Plan Round_Theorems.
Import ListNotations.
Open Scope R_scope.

(** * One trip, in weighted norms *)
Section Abstract.
Variables (n : nat) (w v : nat -> R) (A B m e : R) (t1 t2 : list R -> nat -> R) (K1 K2 : nat -> nat -> R) (g1 g2 : list R -> nat -> R).
Hypotheses (Hw : pos w) (Hv : pos v) (HA : 0 <= A) (HB : 0 <= B) (Hm : 0 <= m) (He : 0 <= e) (HAB : A * B = m²).
Hypothesis k1 : kern t1 n K1.
Hypothesis k2 : kern t2 n K2.
Hypothesis inv : forall x, length x = n -> transform t2 (transform t1 x) = scale m x.
Hypothesis e1 : forall x, length x = n -> sq v n (t1 x) = A * sq w n (nt x).
Hypothesis e2 : forall x, length x = n -> sq w n (t2 x) = B * sq v n (nt x).
Hypothesis a1 : forall x, length x = n -> sqrt (sq v n (fun k => g1 x k - t1 x k)) <= e * sqrt (A * sq w n (nt x)).
Hypothesis a2 : forall x, length x = n -> sqrt (sq w n (fun k => g2 x k - t2 x k)) <= e * sqrt (B * sq v n (nt x)).
Let one_trip x := map (g2 (map (g1 x) (seq 0 n))) (seq 0 n).
Lemma trip_len x : length (one_trip x) = n. Proof. apply map_seq_len. Qed.

Lemma trip_once x : length x = n ->
  sqrt (sq w n (fun k => nth k (one_trip x) 0 - m * nth k x 0)) <= ((1 + e)² - 1) * (m * sqrt (sq w n (nt x))).
Proof.
  intros Hx. set (y := map (g1 x) (seq 0 n)). assert (Hy : length y = n) by apply map_seq_len.
  set (d := map (fun k => g1 x k - t1 x k) (seq 0 n)). assert (Hd : length d = n) by apply map_seq_len.
  set (X := sqrt (sq w n (nt x))). assert (HX : 0 <= X) by apply sqrt_pos.
  assert (Nd : sqrt (sq v n (nt d)) <= e * (sqrt A * X)).
  { unfold X. rewrite <- sqrt_mult_alt by exact HA. eapply Rle_trans; [|apply (a1 x Hx)]. apply Req_le. f_equal. apply sq_ext; [reflexivity|].
    intros i Hi. unfold d. rewrite (nth_map_seq (fun k => g1 x k - t1 x k)) by exact Hi. reflexivity. }
  assert (Nt : sqrt (sq v n (t1 x)) = sqrt A * X) by (rewrite e1, sqrt_mult_alt by assumption; reflexivity).
  assert (Ny : sqrt (sq v n (nt y)) <= (1 + e) * (sqrt A * X)).
  { replace (sq v n (nt y)) with (sq v n (fun i => t1 x i + nth i d 0)).
    - eapply Rle_trans; [apply (sq_triangle v n (t1 x) (nt d) Hv)|]. lra.
    - apply sq_ext; [reflexivity|]. intros i Hi. unfold d, y. rewrite (nth_map_seq (fun k => g1 x k - t1 x k)), (nth_map_seq (g1 x)) by exact Hi. ring. }
  assert (M : sqrt B * sqrt A = m) by (rewrite <- sqrt_mult_alt, Rmult_comm, HAB by assumption; apply sqrt_Rsqr, Hm).
  assert (I : forall k, (k < n)%nat -> t2 y k - m * nth k x 0 = t2 d k).
  { intros k Hk. assert (L1 : length (transform t1 x) = n) by (rewrite transform_length; exact Hx).
    replace (m * nth k x 0) with (t2 (transform t1 x) k).
    - symmetry. apply (kern_diff t2 n K2 k2 y (transform t1 x) d k Hy L1 Hd Hk).
      intros i Hi. unfold d, y. rewrite (nth_map_seq (fun k => g1 x k - t1 x k)), (nth_map_seq (g1 x)), nth_transform by lia. reflexivity.
    - rewrite <- nth_transform by lia. rewrite inv by exact Hx. unfold scale.
      rewrite (nth_indep _ 0 (m * 0)) by (rewrite map_length; lia). apply (map_nth (Rmult m)). }
  replace (sq w n (fun k => nth k (one_trip x) 0 - m * nth k x 0)) with (sq w n (fun k => (g2 y k - t2 y k) + t2 d k)).
  2: { apply sq_ext; [reflexivity|]. intros i Hi. rewrite <- I by exact Hi. unfold one_trip. rewrite (nth_map_seq (g2 _)) by exact Hi. fold y. ring. }
  eapply Rle_trans; [apply (sq_triangle w n _ _ Hw)|].
  assert (P1 : sqrt (sq w n (fun k => g2 y k - t2 y k)) <= e * (1 + e) * (m * X)).
  { eapply Rle_trans; [apply (a2 y Hy)|]. rewrite sqrt_mult_alt by exact HB. rewrite <- M.
    replace (e * (1 + e) * (sqrt B * sqrt A * X)) with (e * (sqrt B * ((1 + e) * (sqrt A * X)))) by ring.
    apply Rmult_le_compat_l; [exact He|]. apply Rmult_le_compat_l; [apply sqrt_pos|exact Ny]. }
  assert (P2 : sqrt (sq w n (t2 d)) <= e * (m * X)).
  { rewrite e2, sqrt_mult_alt by assumption. rewrite <- M. replace (e * (sqrt B * sqrt A * X)) with (sqrt B * (e * (sqrt A * X))) by ring.
    apply Rmult_le_compat_l; [apply sqrt_pos|exact Nd]. }
  replace (((1 + e)² - 1) * (m * X)) with (e * (1 + e) * (m * X) + e * (m * X)) by (unfold Rsqr; ring).
  apply Rplus_le_compat; [exact P1|exact P2].
Qed.

Fixpoint trips (j : nat) (x : list R) : list R := match j with O => x | S j => one_trip (trips j x) end.
Lemma trips_len j x : length x = n -> length (trips j x) = n.
Proof. destruct j; intros H; [exact H|apply trip_len]. Qed.
Lemma trips_acc x j : length x = n ->
  sqrt (sq w n (fun k => nth k (trips j x) 0 - m ^ j * nth k x 0)) <= ((1 + e) ^ (2 * j) - 1) * (m ^ j * sqrt (sq w n (nt x))).
Proof.
  intros Hx. set (X := sqrt (sq w n (nt x))). assert (HX : 0 <= X) by apply sqrt_pos. induction j as [|j IH].
  - cbn [trips Nat.mul Nat.add pow]. replace (sq w n (fun k => nth k x 0 - 1 * nth k x 0)) with 0; [rewrite sqrt_0; lra|].
    unfold sq. rewrite (sum_ext _ (fun _ => 0)); [rewrite sum_zero; reflexivity|]. intros i _. unfold Rsqr. ring.
  - cbn [trips]. set (y := trips j x) in * . assert (Hy : length y = n) by (apply trips_len, Hx).
    pose proof (trip_once y Hy) as T. set (Y := sqrt (sq w n (nt y))) in * .
    assert (Pm : 0 <= m ^ j) by (apply pow_le, Hm). assert (P1 : 1 <= (1 + e) ^ (2 * j)) by (apply pow_R1_Rle; lra).
    assert (HY : Y <= (1 + e) ^ (2 * j) * (m ^ j * X)).
    { assert (E : sq w n (fun i => m ^ j * nth i x 0) = (m ^ j)² * sq w n (nt x)) by apply sq_scal.
      assert (S : sqrt (sq w n (fun i => m ^ j * nth i x 0)) = m ^ j * X).
      { rewrite E, sqrt_mult_alt by apply Rle_0_sqr. rewrite sqrt_Rsqr by exact Pm. reflexivity. }
      assert (EY : Y = sqrt (sq w n (fun i => m ^ j * nth i x 0 + (nth i y 0 - m ^ j * nth i x 0)))) by (unfold Y; f_equal; apply sq_ext; [reflexivity|intros; ring]).
      pose proof (sq_triangle w n (fun i => m ^ j * nth i x 0) (fun i => nth i y 0 - m ^ j * nth i x 0) Hw) as Tr. rewrite S in Tr. rewrite EY.
      eapply Rle_trans; [exact Tr|]. lra. }
    assert (Z : sqrt (sq w n (fun k => m * (nth k y 0 - m ^ j * nth k x 0))) <= m * (((1 + e) ^ (2 * j) - 1) * (m ^ j * X))).
    { rewrite sq_scal, sqrt_mult_alt by apply Rle_0_sqr. rewrite sqrt_Rsqr by exact Hm. apply Rmult_le_compat_l; [exact Hm|exact IH]. }
    replace (sq w n (fun k => nth k (one_trip y) 0 - m ^ S j * nth k x 0)) with
      (sq w n (fun k => (nth k (one_trip y) 0 - m * nth k y 0) + m * (nth k y 0 - m ^ j * nth k x 0))) by (apply sq_ext; [reflexivity|intros; cbn [pow]; ring]).
    eapply Rle_trans; [apply (sq_triangle w n _ _ Hw)|]. replace (2 * S j)%nat with (S (S (2 * j))) by lia. cbn [pow]. set (p := (1 + e) ^ (2 * j)) in * .
    set (q := m ^ j) in * . clearbody p q Y X. unfold Rsqr in T.
    assert (H : ((1 + e) * (1 + e) - 1) * (m * Y) <= ((1 + e) * (1 + e) - 1) * (m * (p * (q * X)))).
    { apply Rmult_le_compat_l; [nra|]. apply Rmult_le_compat_l; [exact Hm|exact HY]. }
    lra.
Qed.
End Abstract.

(** * Calls *)
Section Calls.
Context (N : Num R R).
Lemma scale_nth m x i : (i < length x)%nat -> nth i (scale m x) 0 = m * nth i x 0.
Proof. intros H. unfold scale. rewrite (nth_indep _ 0 (m * 0)) by (rewrite map_length; exact H). apply (map_nth (Rmult m)). Qed.
Lemma norm_scale n m x : length x = n -> norm (scale m x) = sqrt (sq w1 n (fun i => m * nth i x 0)).
Proof.
  intros Hx. unfold norm. rewrite (energy_sq _ n) by (unfold scale; rewrite map_length; exact Hx). f_equal. apply sq_ext; [reflexivity|].
  intros i Hi. apply scale_nth. lia.
Qed.
Lemma dist_scale n m z x : length z = n -> length x = n -> dist z (scale m x) = sqrt (sq w1 n (fun i => nth i z 0 - m * nth i x 0)).
Proof.
  intros Hz Hx. unfold dist, norm, diff. rewrite Hz, energy_map. f_equal. apply sq_ext; [reflexivity|]. intros i Hi. rewrite scale_nth by lia. reflexivity.
Qed.

Variables (f g : meth R) (n sl sl' : nat) (h h' : list R -> nat -> R).
Hypothesis Cf : computes f n sl h.
Hypothesis Cg : computes g n sl' h'.
Lemma round_trips_are x j z : length x = n -> round_trips f sl g sl' j x z -> z = trips n h h' j x.
Proof.
  intros Hx H. induction H as [x|j x y s a t s' z t' H IH Ls E Ls' E']; [reflexivity|]. specialize (IH Hx). subst y. cbn [trips].
  set (y := trips n h h' j x) in * . assert (Hy : length y = n) by (unfold y; destruct j; [exact Hx|apply map_seq_len]).
  destruct (computes_implements f n sl h Cf y s Hy Ls) as (q & Eq & _). rewrite E in Eq. injection Eq as -> ->.
  assert (La : length (map (h y) (seq 0 (length y))) = n) by (rewrite map_seq_len; exact Hy).
  destruct (computes_implements g n sl' h' Cg _ s' La Ls') as (q' & Eq' & _). rewrite E' in Eq'. injection Eq' as -> ->.
  rewrite Hy, map_seq_len. reflexivity.
Qed.
Lemma round_trips_can : trips_return f sl g sl' n.
Proof.
  intros x Hx j. exists (trips n h h' j x). induction j as [|j IH]; [constructor|]. cbn [trips].
  set (y := trips n h h' j x) in * . assert (Hy : length y = n) by (unfold y; destruct j; [exact Hx|apply map_seq_len]).
  assert (Ls : (sl <= length (repeat 0%R sl))%nat) by (rewrite repeat_length; lia).
  assert (Ls' : (sl' <= length (repeat 0%R sl'))%nat) by (rewrite repeat_length; lia).
  destruct (computes_implements f n sl h Cf y _ Hy Ls) as (q & Eq & _).
  assert (La : length (map (h y) (seq 0 n)) = n) by apply map_seq_len.
  destruct (computes_implements g n sl' h' Cg _ _ La Ls') as (q' & Eq' & _). rewrite Hy in Eq. rewrite map_seq_len in Eq'.
  eapply one_more; [exact IH|exact Ls|exact Eq|exact Ls'|exact Eq'].
Qed.
End Calls.

(** * From weighted to plain norms *)
Section Restore.
Context (N : Num R R).
Variables (f g : meth R) (n sl sl' : nat) (h h' : list R -> nat -> R) (m e : R) (w : nat -> R).
Hypothesis Cf : computes f n sl h.
Hypothesis Cg : computes g n sl' h'.
Hypotheses (Hm : 0 <= m) (He : 0 <= e).
Hypothesis T : forall x j, length x = n ->
  sqrt (sq w n (fun k => nth k (trips n h h' j x) 0 - m ^ j * nth k x 0)) <= ((1 + e) ^ (2 * j) - 1) * (m ^ j * sqrt (sq w n (nt x))).
Lemma factor_ge0 j : 0 <= (1 + e) ^ (2 * j) - 1.
Proof. assert (1 <= (1 + e) ^ (2 * j)) by (apply pow_R1_Rle; lra). lra. Qed.
Lemma norm_power j x : length x = n -> norm (scale (m ^ j) x) = m ^ j * sqrt (sq w1 n (nt x)).
Proof.
  intros Hx. rewrite (norm_scale n) by exact Hx. assert (Pm : 0 <= m ^ j) by (apply pow_le, Hm).
  rewrite sq_scal, sqrt_mult_alt, sqrt_Rsqr by (try apply Rle_0_sqr; exact Pm). reflexivity.
Qed.
Lemma restore l : 0 <= l -> (forall y, sq w1 n y <= sq w n y) -> (forall y, sq w n y <= l² * sq w1 n y) ->
  trips_restore f sl g sl' n m (fun j => ((1 + e) ^ (2 * j) - 1) * l).
Proof.
  intros Hl Hlo Hhi x Hx j z H. apply (round_trips_are N f g n sl sl' h h' Cf Cg) in H; [|exact Hx]. subst z.
  assert (L : length (trips n h h' j x) = n) by (apply trips_len, Hx). split; [exact L|].
  rewrite (dist_scale n), norm_power by assumption. assert (Pm : 0 <= m ^ j) by (apply pow_le, Hm).
  eapply Rle_trans; [apply sqrt_le_1_alt, Hlo|]. eapply Rle_trans; [apply (T x j Hx)|]. rewrite Rmult_assoc.
  apply Rmult_le_compat_l; [apply factor_ge0|]. replace (l * (m ^ j * sqrt (sq w1 n (nt x)))) with (m ^ j * (l * sqrt (sq w1 n (nt x)))) by ring.
  apply Rmult_le_compat_l; [exact Pm|]. apply sqrt_scale; [exact Hl|apply Hhi].
Qed.
End Restore.

Section Thm.
Variables (u v : R) (N : Num R R).
Hypothesis HN : rounding u v N.
Variable pf : nat -> fft R.
Hypothesis Hpf : fft_fits pf.
Lemma w1_1 n y : sq w1 n y <= 1² * sq w1 n y. Proof. unfold Rsqr. lra. Qed.
Lemma wf_s2 n y : sq wf n y <= (sqrt 2)² * sq w1 n y. Proof. rewrite Rsqr_sqrt by lra. apply wf_le_2. Qed.
Lemma wl_s2 n y : sq (wl n) n y <= (sqrt 2)² * sq w1 n y. Proof. rewrite Rsqr_sqrt by lra. apply wl_le_2. Qed.
Lemma planned_trips cs cs' k c :
  (1 <= k)%nat /\ In c [CDct2 (2 ^ k); CDct3 (2 ^ k); CDst2 (2 ^ k); CDst3 (2 ^ k)] \/ (3 <= k)%nat /\ In c [CDct4 (2 ^ k); CDst4 (2 ^ k)] ->
  exists f sl g sl', planned_method c (after pf cs) = Some (f, sl) /\ planned_method (inverse_of c) (after pf cs') = Some (g, sl') /\
  trips_return f sl g sl' (2 ^ k) /\
  trips_restore f sl g sl' (2 ^ k) (INR (2 ^ k) / 2) (fun j => (growth u v (k - 1) ^ (2 * j) - 1) * loss (inverse_of c)).
Proof.
  pose proof (growth_ge1 u v N HN (k - 1)) as Hg. set (G := growth u v (k - 1)) in * .
  set (n := (2 ^ k)%nat) in * . pose proof (pos_INR n) as Pn.
  assert (HG : forall l, (fun j : nat => (G ^ (2 * j) - 1) * l) = (fun j => ((1 + (G - 1)) ^ (2 * j) - 1) * l)) by (intros l; replace (1 + (G - 1)) with G by ring; reflexivity).
  pose proof sqrt_pos 2 as P2.
  intros [[Hk Hc]|[Hk Hc]].
  - destruct (canon23_approx u v N HN pf Hpf k Hk) as (o & E & (_ & A2 & S2 & A3 & S3) & _).
    destruct (planned_ex pf _ _ cs (fun o' => o' = o) (plan_dct2_ok pf _ (2 ^ k)) (ex_intro _ _ (conj E eq_refl))) as (a & Ea & Va).
    destruct (planned_ex pf _ _ cs' (fun o' => o' = o) (plan_dct2_ok pf _ (2 ^ k)) (ex_intro _ _ (conj E eq_refl))) as (a' & Ea' & Va').
    fold n in Ea, Ea', A2, S2, A3, S3. fold G in A2, S2, A3, S3.
    destruct A2 as (g2 & C2 & B2), A3 as (g3 & C3 & B3), S2 as (h2 & D2 & F2), S3 as (h3 & D3 & F3).
    cbn [In] in Hc. destruct Hc as [<-|[<-|[<-|[<-|[]]]]]; cbn [planned_method inverse_of loss]; unfold plan_dct3, plan_dst2, plan_dst3; rewrite Ea, Ea'; cbn [use];
      do 4 eexists; (split; [reflexivity|]); (split; [reflexivity|]); rewrite Va, Va', HG.
    + split; [apply (round_trips_can N _ _ n _ _ g2 g3 C2 C3)|].
      apply (restore N _ _ n _ _ g2 g3 _ _ w1 C2 C3); [lra|lra| |lra|intros; lra|apply w1_1].
      intros x j Hx. apply (trips_acc n w1 wf (INR n) (INR n / 4) _ _ dct2_at dct3_at (k_dct3 n)); auto; try lra; try (unfold Rsqr; lra).
      * apply kern_dct3. * intros y Hy. apply (dct3_dct2 n y Hy). * intros y Hy. apply dct2_energy, Hy. * intros y Hy. apply dct3_energy, Hy.
    + split; [apply (round_trips_can N _ _ n _ _ g3 g2 C3 C2)|].
      apply (restore N _ _ n _ _ g3 g2 _ _ wf C3 C2); [lra|lra| |lra|apply w1_le_wf|apply wf_s2].
      intros x j Hx. apply (trips_acc n wf w1 (INR n / 4) (INR n) _ _ dct3_at dct2_at (k_dct2 n)); auto; try lra; try (unfold Rsqr; lra).
      * apply kern_dct2. * intros y Hy. apply (dct2_dct3 n y Hy). * intros y Hy. apply dct3_energy, Hy. * intros y Hy. apply dct2_energy, Hy.
    + split; [apply (round_trips_can N _ _ n _ _ h2 h3 D2 D3)|].
      apply (restore N _ _ n _ _ h2 h3 _ _ w1 D2 D3); [lra|lra| |lra|intros; lra|apply w1_1].
      intros x j Hx. apply (trips_acc n w1 (wl n) (INR n) (INR n / 4) _ _ dst2_at dst3_at (k_dst3 n)); auto; try lra; try (unfold Rsqr; lra).
      * apply kern_dst3. * intros y Hy. apply (dst3_dst2 n y Hy). * intros y Hy. apply dst2_energy, Hy. * intros y Hy. apply dst3_energy, Hy.
    + split; [apply (round_trips_can N _ _ n _ _ h3 h2 D3 D2)|].
      apply (restore N _ _ n _ _ h3 h2 _ _ (wl n) D3 D2); [lra|lra| |lra|apply w1_le_wl|apply wl_s2].
      intros x j Hx. apply (trips_acc n (wl n) w1 (INR n / 4) (INR n) _ _ dst3_at dst2_at (k_dst2 n)); auto; try lra; try (unfold Rsqr; lra).
      * apply kern_dst2. * intros y Hy. apply (dst2_dst3 n y Hy). * intros y Hy. apply dst3_energy, Hy. * intros y Hy. apply dst2_energy, Hy.
  - destruct (canon4_approx u v N HN pf Hpf k Hk) as (o & E & _ & A4 & S4).
    destruct (planned_ex pf _ _ cs (fun o' => o' = o) (plan_dct4_ok pf _ (2 ^ k)) (ex_intro _ _ (conj E eq_refl))) as (a & Ea & Va).
    destruct (planned_ex pf _ _ cs' (fun o' => o' = o) (plan_dct4_ok pf _ (2 ^ k)) (ex_intro _ _ (conj E eq_refl))) as (a' & Ea' & Va').
    fold n in Ea, Ea', A4, S4. fold G in A4, S4. destruct A4 as (g4 & C4 & B4), S4 as (h4 & D4 & F4).
    cbn [In] in Hc. destruct Hc as [<-|[<-|[]]]; cbn [planned_method inverse_of loss]; unfold plan_dst4; rewrite Ea, Ea'; cbn [use];
      do 4 eexists; (split; [reflexivity|]); (split; [reflexivity|]); rewrite Va, Va', HG.
    + split; [apply (round_trips_can N _ _ n _ _ g4 g4 C4 C4)|].
      apply (restore N _ _ n _ _ g4 g4 _ _ w1 C4 C4); [lra|lra| |lra|intros; lra|apply w1_1].
      intros x j Hx. apply (trips_acc n w1 w1 (INR n / 2) (INR n / 2) _ _ dct4_at dct4_at (k_dct4 n)); auto; try lra; try (unfold Rsqr; lra).
      * apply kern_dct4. * intros y Hy. apply (dct4_dct4 n y Hy). * intros y Hy. apply dct4_energy, Hy. * intros y Hy. apply dct4_energy, Hy.
    + split; [apply (round_trips_can N _ _ n _ _ h4 h4 D4 D4)|].
      apply (restore N _ _ n _ _ h4 h4 _ _ w1 D4 D4); [lra|lra| |lra|intros; lra|apply w1_1].
      intros x j Hx. apply (trips_acc n w1 w1 (INR n / 2) (INR n / 2) _ _ dst4_at dst4_at (k_dst4 n)); auto; try lra; try (unfold Rsqr; lra).
      * apply kern_dst4. * intros y Hy. apply (dst4_dst4 n y Hy). * intros y Hy. apply dst4_energy, Hy. * intros y Hy. apply dst4_energy, Hy.
Qed.
End Thm.

(** * Simple bounds *)
Lemma growth_power c u v k : 0 <= u <= 1 -> 7 <= c -> 0 <= level u v <= 1 + c * u -> (1 <= k)%nat -> growth u v (k - 1) <= (1 + c * u) ^ k.
Proof.
  intros Hu Hc Hl Hk1. assert (Ha : 0 <= c * u) by nra. assert (H7 : 7 * u <= c * u) by nra.
  assert (H3 : (1 + u) ^ 3 <= 1 + c * u) by (assert (u * u <= u) by nra; assert (u * u * u <= u) by nra; nra).
  unfold growth. replace ((1 + c * u) ^ k) with ((1 + c * u) * (1 + c * u) ^ (k - 1)) by (change ((1 + c * u) * (1 + c * u) ^ (k - 1)) with ((1 + c * u) ^ S (k - 1)); f_equal; lia).
  apply Rmult_le_compat; [apply pow_le; lra|apply pow_le; lra|exact H3|]. apply pow_incr. exact Hl.
Qed.
Lemma growth_trips c u v k j : 0 <= u <= 1 -> 7 <= c -> 0 <= level u v <= 1 + c * u -> (1 <= k)%nat ->
  2 * c * INR j * INR k * u < 1 -> growth u v (k - 1) ^ (2 * j) - 1 <= 2 * c * INR j * INR k * u / (1 - 2 * c * INR j * INR k * u).
Proof.
  intros Hu Hc Hl Hk H. pose proof (growth_power c u v k Hu Hc Hl Hk) as G.
  assert (G0 : 0 <= growth u v (k - 1)) by (unfold growth; apply Rmult_le_pos; apply pow_le; lra).
  assert (E : INR (k * (2 * j)) * (c * u) = 2 * c * INR j * INR k * u) by (rewrite !mult_INR; cbn [INR]; ring).
  pose proof (bernoulli_inv (c * u) (k * (2 * j)) ltac:(nra) ltac:(rewrite E; exact H)) as B. rewrite E in B.
  rewrite pow_mult in B. assert (P : growth u v (k - 1) ^ (2 * j) <= ((1 + c * u) ^ k) ^ (2 * j)) by (apply pow_incr; lra).
  replace (2 * c * INR j * INR k * u / (1 - 2 * c * INR j * INR k * u)) with (/ (1 - 2 * c * INR j * INR k * u) - 1) by (field; lra). lra.
Qed.
Lemma trips_restore_within (N : Num R R) f sl g sl' n m e x j z b : trips_restore f sl g sl' n m e -> length x = n -> round_trips f sl g sl' j x z ->
  e j <= b -> dist z (scale (m ^ j) x) <= b * norm (scale (m ^ j) x).
Proof.
  intros H Hx Hz Hb. destruct (H x Hx j z Hz) as [_ D]. eapply Rle_trans; [exact D|]. apply Rmult_le_compat_r; [apply sqrt_pos|exact Hb].
Qed.
Lemma planned_trips_c c0 u v (N : Num R R) : rounding u v N -> u <= 1 -> 7 <= c0 -> 0 <= level u v <= 1 + c0 * u ->
  forall pf : nat -> fft R, fft_fits pf -> forall cs cs' k c,
  (1 <= k)%nat /\ In c [CDct2 (2 ^ k); CDct3 (2 ^ k); CDst2 (2 ^ k); CDst3 (2 ^ k)] \/ (3 <= k)%nat /\ In c [CDct4 (2 ^ k); CDst4 (2 ^ k)] ->
  exists f sl g sl', planned_method c (after pf cs) = Some (f, sl) /\ planned_method (inverse_of c) (after pf cs') = Some (g, sl') /\
  forall x j z, length x = (2 ^ k)%nat -> round_trips f sl g sl' j x z -> 2 * c0 * INR j * INR k * u < 1 ->
  dist z (scale ((INR (2 ^ k) / 2) ^ j) x) <=
    2 * c0 * INR j * INR k * u / (1 - 2 * c0 * INR j * INR k * u) * loss (inverse_of c) * norm (scale ((INR (2 ^ k) / 2) ^ j) x).
Proof.
  intros HN Hu Hc0 Hl pf Hpf cs cs' k c Hc. destruct (planned_trips u v N HN pf Hpf cs cs' k c Hc) as (f & sl & g & sl' & E & E' & _ & H).
  exists f, sl, g, sl'. split; [exact E|]. split; [exact E'|]. intros x j z Hx Hz Hj. apply (trips_restore_within N _ _ _ _ _ _ _ _ _ _ _ H Hx Hz).
  apply Rmult_le_compat_r; [apply loss_pos|]. pose proof (r_u _ _ _ HN). apply growth_trips; [lra|lra|exact Hl| |exact Hj]. destruct Hc as [[]|[]]; lia.
Qed.
Lemma planned_trips_26 u v (N : Num R R) : rounding u v N -> v <= u -> u <= / 1024 ->
  forall pf : nat -> fft R, fft_fits pf -> forall cs cs' k c,
  (1 <= k)%nat /\ In c [CDct2 (2 ^ k); CDct3 (2 ^ k); CDst2 (2 ^ k); CDst3 (2 ^ k)] \/ (3 <= k)%nat /\ In c [CDct4 (2 ^ k); CDst4 (2 ^ k)] ->
  exists f sl g sl', planned_method c (after pf cs) = Some (f, sl) /\ planned_method (inverse_of c) (after pf cs') = Some (g, sl') /\
  forall x j z, length x = (2 ^ k)%nat -> round_trips f sl g sl' j x z -> 52 * INR j * INR k * u < 1 ->
  dist z (scale ((INR (2 ^ k) / 2) ^ j) x) <=
    52 * INR j * INR k * u / (1 - 52 * INR j * INR k * u) * loss (inverse_of c) * norm (scale ((INR (2 ^ k) / 2) ^ j) x).
Proof.
  intros HN Hv Hu. replace 52 with (2 * 26) by lra. pose proof (r_u _ _ _ HN). pose proof (r_v _ _ _ HN).
  apply (planned_trips_c 26 u v N HN); [lra|lra|apply level_26; lra].
Qed.
Lemma planned_trips_10 u v (N : Num R R) : rounding u v N -> v <= u * u -> u <= / 1024 ->
  forall pf : nat -> fft R, fft_fits pf -> forall cs cs' k c,
  (1 <= k)%nat /\ In c [CDct2 (2 ^ k); CDct3 (2 ^ k); CDst2 (2 ^ k); CDst3 (2 ^ k)] \/ (3 <= k)%nat /\ In c [CDct4 (2 ^ k); CDst4 (2 ^ k)] ->
  exists f sl g sl', planned_method c (after pf cs) = Some (f, sl) /\ planned_method (inverse_of c) (after pf cs') = Some (g, sl') /\
  forall x j z, length x = (2 ^ k)%nat -> round_trips f sl g sl' j x z -> 20 * INR j * INR k * u < 1 ->
  dist z (scale ((INR (2 ^ k) / 2) ^ j) x) <=
    20 * INR j * INR k * u / (1 - 20 * INR j * INR k * u) * loss (inverse_of c) * norm (scale ((INR (2 ^ k) / 2) ^ j) x).
Proof.
  intros HN Hv Hu. replace 20 with (2 * 10) by lra. pose proof (r_u _ _ _ HN). pose proof (r_v _ _ _ HN).
  apply (planned_trips_c 10 u v N HN); [lra|lra|apply level_10; lra].
Qed.
