(** Rounding errors, as seen by callers of the planner. *)
From Coq Require Import Reals ZArith List Arith Lia Lra Psatz Bool.
From Verif Require Import Prog Num Model_Common Model_Naive Model_Fft Model_Butterflies Model_SplitRadix Model_Plan Model_Api
  Spec Spec_Api Spec_Fft Spec_Plan Spec_Methods Spec_Round Wp Api Contracts Trig Ref Objects Planner Canon Plan_Theorems
  Sem_Naive Exact_Split Energy Round_Ops Round_Stage Round_Stage3 Round_Sem Round_Butterflies Round_Plan.
Import ListNotations.
Open Scope R_scope.

(** ** Norms *)
Lemma energy_sq x n : length x = n -> energy x = sq w1 n (nt x).
Proof. intros <-. unfold energy, sq. apply sum_ext. intros i _. unfold w1. ring. Qed.
Lemma energy_map f n : energy (map f (seq 0 n)) = sq w1 n f.
Proof.
  rewrite (energy_sq _ n) by apply map_seq_len. apply sq_ext; [reflexivity|]. intros i Hi. rewrite (nth_map_seq f) by exact Hi. reflexivity.
Qed.
Lemma norm_transform t x n : length x = n -> norm (transform t x) = sqrt (sq w1 n (t x)).
Proof. intros <-. unfold norm, transform. rewrite energy_map. reflexivity. Qed.
Lemma dist_transform g t x n : length x = n -> dist (map g (seq 0 n)) (transform t x) = sqrt (sq w1 n (fun k => g k - t x k)).
Proof.
  intros Hx. unfold dist, norm, diff. rewrite map_seq_len, energy_map. f_equal. apply sq_ext; [reflexivity|]. intros i Hi.
  unfold transform. rewrite Hx, (nth_map_seq g), (nth_map_seq (t x)) by exact Hi. reflexivity.
Qed.
Lemma w1_le_wf n f : sq w1 n f <= sq wf n f.
Proof. apply sum_le. intros i Hi. unfold w1, wf. pose proof (Rle_0_sqr (f i)). destruct (i =? 0)%nat; lra. Qed.
Lemma w1_le_wl n f : sq w1 n f <= sq (wl n) n f.
Proof. apply sum_le. intros i Hi. unfold w1, wl. pose proof (Rle_0_sqr (f i)). destruct (i =? _)%nat; lra. Qed.
Lemma wf_le_2 n f : sq wf n f <= 2 * sq w1 n f.
Proof. unfold sq. rewrite <- sum_scal_l. apply sum_le. intros i Hi. unfold w1, wf. pose proof (Rle_0_sqr (f i)). destruct (i =? 0)%nat; lra. Qed.
Lemma wl_le_2 n f : sq (wl n) n f <= 2 * sq w1 n f.
Proof. unfold sq. rewrite <- sum_scal_l. apply sum_le. intros i Hi. unfold w1, wl. pose proof (Rle_0_sqr (f i)). destruct (i =? _)%nat; lra. Qed.

(** ** From weighted to plain norms *)
Definition rel_acc (t : list R -> nat -> R) (n : nat) (e : R) (g : list R -> nat -> R) : Prop :=
  forall x, length x = n -> sqrt (sq w1 n (fun k => g x k - t x k)) <= e * sqrt (sq w1 n (t x)).
Lemma rel_2 n r g : 1 <= r -> acc near2 n r g -> rel_acc dct2_at n ((r - 1) * sqrt 2) g.
Proof.
  intros Hr A x Hx. eapply Rle_trans; [apply sqrt_le_1_alt, w1_le_wf|]. eapply Rle_trans; [apply (A x Hx)|].
  rewrite <- dct2_energy, Rmult_assoc by exact Hx. apply Rmult_le_compat_l; [lra|]. rewrite <- sqrt_mult_alt by lra. apply sqrt_le_1_alt, wf_le_2.
Qed.
Lemma rel_s2 n r g : 1 <= r -> acc nears2 n r g -> rel_acc dst2_at n ((r - 1) * sqrt 2) g.
Proof.
  intros Hr A x Hx. eapply Rle_trans; [apply sqrt_le_1_alt, w1_le_wl|]. eapply Rle_trans; [apply (A x Hx)|].
  rewrite <- dst2_energy, Rmult_assoc by exact Hx. apply Rmult_le_compat_l; [lra|]. rewrite <- sqrt_mult_alt by lra. apply sqrt_le_1_alt, wl_le_2.
Qed.
Lemma rel_3 n r g : acc near3 n r g -> rel_acc dct3_at n (r - 1) g.
Proof. intros A x Hx. rewrite dct3_energy by exact Hx. apply (A x Hx). Qed.
Lemma rel_s3 n r g : acc nears3 n r g -> rel_acc dst3_at n (r - 1) g.
Proof. intros A x Hx. rewrite dst3_energy by exact Hx. apply (A x Hx). Qed.
Lemma rel_4 n r g : acc near4 n r g -> rel_acc dct4_at n (r - 1) g.
Proof. intros A x Hx. rewrite dct4_energy by exact Hx. apply (A x Hx). Qed.
Lemma rel_s4 n r g : acc nears4 n r g -> rel_acc dst4_at n (r - 1) g.
Proof. intros A x Hx. rewrite dst4_energy by exact Hx. apply (A x Hx). Qed.

Section Thm.
Variables (u v : R) (N : Num R R).
Hypothesis HN : rounding u v N.
Lemma rel_call f n sl t e g : computes f n sl g -> rel_acc t n e g -> relative_error f n sl (transform t) e.
Proof.
  intros C A x s Hx Hs. destruct (computes_implements f n sl g C x s Hx Hs) as (s' & E & _). eexists. exists s'. split; [exact E|].
  rewrite Hx. split; [apply map_seq_len|]. rewrite (dist_transform _ t x n Hx), (norm_transform t x n Hx). apply A, Hx.
Qed.

Variable pf : nat -> fft R.
Hypothesis Hpf : fft_fits pf.
Lemma planned_rounding cs k c :
  (1 <= k)%nat /\ In c [CDct2 (2 ^ k); CDct3 (2 ^ k); CDst2 (2 ^ k); CDst3 (2 ^ k)] \/ (3 <= k)%nat /\ In c [CDct4 (2 ^ k); CDst4 (2 ^ k)] ->
  exists f sl, planned_method c (after pf cs) = Some (f, sl) /\
  relative_error f (2 ^ k) sl (reference c) ((growth u v (k - 1) - 1) * loss c).
Proof.
  pose proof (growth_ge1 u v N HN (k - 1)) as Hg.
  intros [[Hk Hc]|[Hk Hc]].
  - destruct (canon23_approx u v N HN pf Hpf k Hk) as (o & E & (_ & A2 & S2 & A3 & S3) & _).
    destruct (planned_ex pf _ _ cs (fun o' => o' = o) (plan_dct2_ok pf _ (2 ^ k)) (ex_intro _ _ (conj E eq_refl))) as (a & Ea & Va).
    cbn [In] in Hc. destruct Hc as [<-|[<-|[<-|[<-|[]]]]]; cbn [planned_method loss reference]; unfold plan_dct3, plan_dst2, plan_dst3; rewrite Ea; cbn [use];
      eexists; eexists; (split; [reflexivity|]); rewrite Va, ?Rmult_1_r.
    + destruct A2 as (g & C & A). apply (rel_call _ _ _ dct2_at _ g C), rel_2; assumption.
    + destruct A3 as (g & C & A). apply (rel_call _ _ _ dct3_at _ g C), rel_3; assumption.
    + destruct S2 as (g & C & A). apply (rel_call _ _ _ dst2_at _ g C), rel_s2; assumption.
    + destruct S3 as (g & C & A). apply (rel_call _ _ _ dst3_at _ g C), rel_s3; assumption.
  - destruct (canon4_approx u v N HN pf Hpf k Hk) as (o & E & _ & A4 & S4).
    destruct (planned_ex pf _ _ cs (fun o' => o' = o) (plan_dct4_ok pf _ (2 ^ k)) (ex_intro _ _ (conj E eq_refl))) as (a & Ea & Va).
    cbn [In] in Hc. destruct Hc as [<-|[<-|[]]]; cbn [planned_method loss reference]; unfold plan_dst4; rewrite Ea; cbn [use];
      eexists; eexists; (split; [reflexivity|]); rewrite Va, ?Rmult_1_r.
    + destruct A4 as (g & C & A). apply (rel_call _ _ _ dct4_at _ g C), rel_4; assumption.
    + destruct S4 as (g & C & A). apply (rel_call _ _ _ dst4_at _ g C), rel_s4; assumption.
Qed.
End Thm.

(** ** Simple bounds of the constants *)
Lemma bernoulli_inv a k : 0 <= a -> INR k * a < 1 -> (1 + a) ^ k <= / (1 - INR k * a).
Proof.
  intros Ha Hk. assert (H : forall j, (j <= k)%nat -> (1 + a) ^ j * (1 - INR j * a) <= 1).
  { induction j as [|j IH]; intros Hj; [simpl; lra|]. specialize (IH ltac:(lia)).
    assert (P : 0 <= (1 + a) ^ j) by (apply pow_le; lra). pose proof (pos_INR j) as Pj.
    rewrite S_INR. cbn [pow]. set (p := (1 + a) ^ j) in * . set (i := INR j) in * . clearbody p i. clear - IH P Ha Pj.
    replace ((1 + a) * p * (1 - (i + 1) * a)) with (p * (1 - i * a) - p * a * (a * (i + 1))) by ring.
    assert (0 <= p * a * (a * (i + 1))) by (repeat apply Rmult_le_pos; lra). lra. }
  specialize (H k (le_n k)). apply Rmult_le_reg_r with (1 - INR k * a); [lra|]. rewrite Rinv_l by lra. exact H.
Qed.
Lemma growth_bound c u v k : 0 <= u <= 1 -> 7 <= c -> 0 <= level u v <= 1 + c * u -> INR k * (c * u) < 1 -> (1 <= k)%nat ->
  growth u v (k - 1) - 1 <= INR k * (c * u) / (1 - INR k * (c * u)).
Proof.
  intros Hu Hc Hl Hk Hk1. assert (Ha : 0 <= c * u) by nra. assert (H7 : 7 * u <= c * u) by nra.
  assert (H3 : (1 + u) ^ 3 <= 1 + c * u) by (assert (u * u <= u) by nra; assert (u * u * u <= u) by nra; nra).
  assert (G : growth u v (k - 1) <= (1 + c * u) ^ k).
  { unfold growth. replace ((1 + c * u) ^ k) with ((1 + c * u) * (1 + c * u) ^ (k - 1)) by (change ((1 + c * u) * (1 + c * u) ^ (k - 1)) with ((1 + c * u) ^ S (k - 1)); f_equal; lia).
    apply Rmult_le_compat; [apply pow_le; lra|apply pow_le; lra|exact H3|].
    apply pow_incr. exact Hl. }
  pose proof (bernoulli_inv (c * u) k Ha Hk) as B.
  replace (INR k * (c * u) / (1 - INR k * (c * u))) with (/ (1 - INR k * (c * u)) - 1) by (field; lra). lra.
Qed.
Lemma level_26 u v : 0 <= v <= u -> u <= / 1024 -> 0 <= level u v <= 1 + 26 * u.
Proof.
  intros Hv Hu.
  assert (R : 0 <= rho v <= 603 / 100 * u).
  { unfold rho. assert (I : 0 < / (1 - v)) by (apply Rinv_0_lt_compat; lra). assert (E : (1 - v) * / (1 - v) = 1) by (apply Rinv_r; lra).
    assert (P1 : 1 <= (1 + v) ^ 5) by (apply pow_R1_Rle; lra).
    assert (P : (1 + v) ^ 5 <= (1 + 603 / 100 * v) * (1 - v)).
    { assert (v * v <= v / 1024) by nra. assert (0 <= v * v) by nra. assert (v * v * v <= v * v / 1024) by nra. assert (0 <= v * v * v) by nra.
      assert (v * v * v * v <= v * v * v / 1024) by nra. assert (0 <= v * v * v * v) by nra. assert (v * v * v * v * v <= v * v * v * v / 1024) by nra. nra. }
    split; [nra|]. assert ((1 + v) ^ 5 * / (1 - v) <= 1 + 603 / 100 * v); [|lra].
    apply Rmult_le_reg_r with (1 - v); [lra|]. rewrite Rmult_assoc, Rinv_l, Rmult_1_r by lra. exact P. }
  assert (E : 0 <= eps u v <= 907 / 100 * u).
  { unfold eps, eps_of. set (r := rho v) in * . clearbody r. rewrite Rmult_1_l.
    assert (A : (1 + u) * (1 + v) <= 1 + 201 / 100 * u) by nra. assert (A0 : 1 <= (1 + u) * (1 + v)) by nra.
    assert (B : 1 + v + r <= 1 + 703 / 100 * u) by lra.
    split; [nra|]. assert ((1 + u) * (1 + v) * (1 + v + r) <= (1 + 201 / 100 * u) * (1 + 703 / 100 * u)) by (apply Rmult_le_compat; lra). nra. }
  assert (M : 0 <= mu u v <= 2426 / 100 * u).
  { unfold mu. assert (A : 1 <= (1 + u) ^ 3 <= 1 + 301 / 100 * u) by (split; [apply pow_R1_Rle; lra|assert (u * u <= u / 1024) by nra; assert (u * u * u <= u * u / 1024) by nra; nra]).
    split; [nra|]. assert ((1 + u) ^ 3 * (1 + eps u v) <= (1 + 301 / 100 * u) * (1 + 907 / 100 * u)) by (apply Rmult_le_compat; lra). nra. }
  unfold level. split; [nra|]. assert ((1 + u) * (1 + mu u v) <= (1 + u) * (1 + 2426 / 100 * u)) by (apply Rmult_le_compat_l; lra). nra.
Qed.
Lemma level_10 u v : 0 <= v <= u * u -> u <= / 1024 -> 0 <= u -> 0 <= level u v <= 1 + 10 * u.
Proof.
  intros Hv Hu Hu0. assert (Hvu : v <= u / 1024) by nra.
  assert (R : 0 <= rho v <= 7 * v).
  { unfold rho. assert (I : 0 < / (1 - v)) by (apply Rinv_0_lt_compat; lra).
    assert (P1 : 1 <= (1 + v) ^ 5) by (apply pow_R1_Rle; lra). assert (E : (1 - v) * / (1 - v) = 1) by (apply Rinv_r; lra).
    assert (P : (1 + v) ^ 5 <= (1 + 7 * v) * (1 - v)).
    { assert (v * v <= v / 1024) by nra. assert (0 <= v * v) by nra. assert (v * v * v <= v * v / 1024) by nra. assert (0 <= v * v * v) by nra.
      assert (v * v * v * v <= v * v * v / 1024) by nra. assert (0 <= v * v * v * v) by nra. assert (v * v * v * v * v <= v * v * v * v / 1024) by nra. nra. }
    split; [nra|]. assert ((1 + v) ^ 5 * / (1 - v) <= 1 + 7 * v); [|lra].
    apply Rmult_le_reg_r with (1 - v); [lra|]. rewrite Rmult_assoc, Rinv_l, Rmult_1_r by lra. exact P. }
  assert (E : 0 <= eps u v <= 102 / 100 * u).
  { unfold eps, eps_of. set (r := rho v) in * . clearbody r. rewrite Rmult_1_l.
    assert (A : (1 + u) * (1 + v) <= 1 + 1002 / 1000 * u) by nra. assert (A0 : 1 <= (1 + u) * (1 + v)) by nra.
    assert (B : 1 + v + r <= 1 + 8 / 1000 * u) by lra.
    split; [nra|]. assert ((1 + u) * (1 + v) * (1 + v + r) <= (1 + 1002 / 1000 * u) * (1 + 8 / 1000 * u)) by (apply Rmult_le_compat; lra). nra. }
  assert (M : 0 <= mu u v <= 82 / 10 * u).
  { unfold mu. assert (A : 1 <= (1 + u) ^ 3 <= 1 + 301 / 100 * u) by (split; [apply pow_R1_Rle; lra|assert (u * u <= u / 1024) by nra; assert (u * u * u <= u * u / 1024) by nra; nra]).
    split; [nra|]. assert ((1 + u) ^ 3 * (1 + eps u v) <= (1 + 301 / 100 * u) * (1 + 102 / 100 * u)) by (apply Rmult_le_compat; lra). nra. }
  unfold level. split; [nra|]. assert ((1 + u) * (1 + mu u v) <= (1 + u) * (1 + 82 / 10 * u)) by (apply Rmult_le_compat_l; lra). nra.
Qed.

Lemma relative_error_mono (N : Num R R) f n sl t e e' : e <= e' -> relative_error f n sl t e -> relative_error f n sl t e'.
Proof.
  intros He H x s Hx Hs. destruct (H x s Hx Hs) as (y & s' & E & L & D). exists y, s'. split; [exact E|]. split; [exact L|].
  eapply Rle_trans; [exact D|]. apply Rmult_le_compat_r; [apply sqrt_pos|exact He].
Qed.
Lemma loss_pos c : 0 <= loss c. Proof. destruct c; cbn; try lra; apply sqrt_pos. Qed.
Lemma planned_rounding_26 u v (N : Num R R) : rounding u v N -> v <= u -> u <= / 1024 -> forall pf : nat -> fft R, fft_fits pf -> forall cs k c,
  (1 <= k)%nat /\ In c [CDct2 (2 ^ k); CDct3 (2 ^ k); CDst2 (2 ^ k); CDst3 (2 ^ k)] \/ (3 <= k)%nat /\ In c [CDct4 (2 ^ k); CDst4 (2 ^ k)] ->
  26 * INR k * u < 1 -> exists f sl, planned_method c (after pf cs) = Some (f, sl) /\
  relative_error f (2 ^ k) sl (reference c) (26 * INR k * u / (1 - 26 * INR k * u) * loss c).
Proof.
  intros HN Hv Hu pf Hpf cs k c Hc Hk. destruct (planned_rounding u v N HN pf Hpf cs k c Hc) as (f & sl & E & H). exists f, sl. split; [exact E|].
  eapply relative_error_mono; [|exact H]. apply Rmult_le_compat_r; [apply loss_pos|].
  pose proof (r_u _ _ _ HN). pose proof (r_v _ _ _ HN). replace (26 * INR k * u) with (INR k * (26 * u)) in * by ring.
  apply growth_bound; [lra|lra|apply level_26; lra|exact Hk|]. destruct Hc as [[]|[]]; lia.
Qed.
Lemma planned_rounding_10 u v (N : Num R R) : rounding u v N -> v <= u * u -> u <= / 1024 -> forall pf : nat -> fft R, fft_fits pf -> forall cs k c,
  (1 <= k)%nat /\ In c [CDct2 (2 ^ k); CDct3 (2 ^ k); CDst2 (2 ^ k); CDst3 (2 ^ k)] \/ (3 <= k)%nat /\ In c [CDct4 (2 ^ k); CDst4 (2 ^ k)] ->
  10 * INR k * u < 1 -> exists f sl, planned_method c (after pf cs) = Some (f, sl) /\
  relative_error f (2 ^ k) sl (reference c) (10 * INR k * u / (1 - 10 * INR k * u) * loss c).
Proof.
  intros HN Hv Hu pf Hpf cs k c Hc Hk. destruct (planned_rounding u v N HN pf Hpf cs k c Hc) as (f & sl & E & H). exists f, sl. split; [exact E|].
  eapply relative_error_mono; [|exact H]. apply Rmult_le_compat_r; [apply loss_pos|].
  pose proof (r_u _ _ _ HN). pose proof (r_v _ _ _ HN). replace (10 * INR k * u) with (INR k * (10 * u)) in * by ring.
  apply growth_bound; [lra|lra|apply level_10; lra|exact Hk|]. destruct Hc as [[]|[]]; lia.
Qed.
