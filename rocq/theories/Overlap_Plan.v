(** Overlap-add with rounding errors, for the instances of the crate and its windows. *)
From Coq Require Import Reals ZArith List Arith Lia Lra Psatz Bool.
From Verif Require Import Prog Num Model_Common Model_Naive Model_Mdct Model_Plan Model_Api Wp Api
  Spec Spec_Api Spec_Fft Spec_Plan Spec_Round Spec_Entry Spec_Mdct_Round Spec_Overlap
  Ref Energy Contracts Objects Planner Canon Mdct_Theorems Api_Mdct Tdac
  Round_Ops Round_Sem Round_Butterflies Round_Entry Round_Naive Round_Plan Round_Theorems Round_Entry_Plan Round_Mdct Overlap_Norm Overlap_Windows Overlap_Add.
Import ListNotations.
Open Scope R_scope.

Lemma overlap_bound_mono c eta e e' n x j : 0 <= e <= e' -> overlap_bound c eta e n x j <= overlap_bound c eta e' n x j.
Proof.
  intros He. unfold overlap_bound. apply Rmult_le_compat_l; [apply pos_INR|]. apply Rplus_le_compat_r. apply Rmult_le_compat_r.
  - apply Rplus_le_le_0_compat; apply sqrt_pos.
  - apply Rmult_le_compat_l; [apply pow2_ge_0|]. pose proof (pow_incr (1 + e) (1 + e') 3 ltac:(lra)). lra.
Qed.
Lemma reconstructs_mono {N : Num R R} o n c eta e e' : 0 <= e <= e' -> reconstructs_within o n c eta e -> reconstructs_within o n c eta e'.
Proof.
  intros He H x m y s Lx Ly Ls. destruct (H x m y s Lx Ly Ls) as (out & y' & s' & E & L & V). exists out, y', s'. split; [exact E|]. split; [exact L|].
  intros j Hj. eapply Rle_trans; [exact (V j Hj)|]. apply overlap_bound_mono, He.
Qed.

Section Plan.
Variables (u v : R) (N : Num R R).
Hypothesis HN : rounding u v N.
Variable pf : nat -> fft R.
Hypothesis Hpf : fft_fits pf.
Let Hu : 0 <= u := r_u _ _ _ HN.

Lemma growth_e k : 0 <= (1 + u) ^ 2 * growth u v k - 1.
Proof. pose proof (growth_ge1 u v N HN k) as Hg. assert (G : 1 <= (1 + u) ^ 2) by (apply pow_R1_Rle; lra). set (a := (1 + u) ^ 2) in * . set (b := growth u v k) in * . nra. Qed.
Lemma pow2_even k n : (3 <= k)%nat -> n = (2 ^ k)%nat -> (n mod 2 = 0)%nat /\ (0 < n)%nat.
Proof.
  intros Hk ->. replace k with (S (k - 1)) by lia. rewrite Nat.pow_succ_r'. split; [rewrite Nat.mul_comm; apply Nat.mod_mul; lia|].
  assert (2 ^ (k - 1) <> 0)%nat by (apply Nat.pow_nonzero; lia). lia.
Qed.

Lemma planned_overlap_pow cs n w k w0 c eta : (3 <= k)%nat -> n = (2 ^ k)%nat ->
  symmetric w0 -> princen_bradley c n w0 -> entries_within eta (window_in_force cs n w (n * 2)%nat) w0 ->
  exists a, snd (plan_mdct n w (after pf cs)) = Ok a /\ reconstructs_within (arc_val a) n c eta ((1 + u) ^ 2 * growth u v (k - 1) - 1).
Proof.
  intros Hk En Hs Hp Hc. destruct (pow2_even k n Hk En) as [Hev Hn].
  assert (Hw : length (window_in_force cs n w (n * 2)) = (n * 2)%nat) by (rewrite (proj1 Hc), (proj1 Hp); lia).
  destruct (planned_mdct_canon pf Hpf cs n w Hev Hw) as (i & d & a & Ei & Ed & Ea & Ev). exists a. split; [exact Ea|]. rewrite Ev.
  destruct (canon4_approx u v N HN pf Hpf k Hk) as (i' & Ei' & L & (D & C & A) & _). rewrite <- En in * .
  rewrite Ei in Ei'. apply Ok_inj in Ei'. subst i'. pose proof (growth_ge1 u v N HN (k - 1)) as Hg.
  replace (growth u v (k - 1)) with (1 + (growth u v (k - 1) - 1)) by ring.
  destruct (via_norm_error u v N n i (window_in_force cs n w) d (growth u v (k - 1) - 1) HN ltac:(lra) L) as [M I].
  - exists D. split; [exact C|]. intros x Hx. specialize (A x Hx). unfold near4 in A. rewrite spread_sq, Hx. unfold l2. exact A.
  - exact Ed.
  - refine (reconstructs _ n (window_in_force cs n w (n * 2)%nat) w0 c eta _ Hn Hev _ M I Hs Hp Hc).
    replace (1 + (growth u v (k - 1) - 1)) with (growth u v (k - 1)) by ring. apply growth_e.
Qed.
Lemma planned_overlap_pow_c q cs n w k w0 c eta : u <= / 1024 -> 7 <= q -> 0 <= level u v <= 1 + q * u -> (3 <= k)%nat -> n = (2 ^ k)%nat -> q * INR k * u < 1 ->
  symmetric w0 -> princen_bradley c n w0 -> entries_within eta (window_in_force cs n w (n * 2)%nat) w0 ->
  exists a, snd (plan_mdct n w (after pf cs)) = Ok a /\ reconstructs_within (arc_val a) n c eta (q * INR k * u / (1 - q * INR k * u)).
Proof.
  intros Hu2 Hq Hl Hk En H Hs Hp Hc. destruct (planned_overlap_pow cs n w k w0 c eta Hk En Hs Hp Hc) as (a & Ea & A). exists a. split; [exact Ea|].
  refine (reconstructs_mono _ _ _ _ _ _ (conj (growth_e _) _) A). replace (q * INR k * u) with (INR k * (q * u)) in * by ring.
  exact (mdct_growth q u v k ltac:(lra) Hq Hl H ltac:(lia)).
Qed.
Lemma planned_overlap_26 : u <= / 1024 -> v <= u -> forall cs n w k w0 c eta, (3 <= k)%nat -> n = (2 ^ k)%nat -> 26 * INR k * u < 1 ->
  symmetric w0 -> princen_bradley c n w0 -> entries_within eta (window_in_force cs n w (n * 2)%nat) w0 ->
  exists a, snd (plan_mdct n w (after pf cs)) = Ok a /\ reconstructs_within (arc_val a) n c eta (26 * INR k * u / (1 - 26 * INR k * u)).
Proof. intros H1 H2 cs n w k w0 c eta. pose proof (r_v _ _ _ HN). apply planned_overlap_pow_c; [exact H1|lra|apply level_26; lra]. Qed.
Lemma planned_overlap_10 : u <= / 1024 -> v <= u * u -> forall cs n w k w0 c eta, (3 <= k)%nat -> n = (2 ^ k)%nat -> 10 * INR k * u < 1 ->
  symmetric w0 -> princen_bradley c n w0 -> entries_within eta (window_in_force cs n w (n * 2)%nat) w0 ->
  exists a, snd (plan_mdct n w (after pf cs)) = Ok a /\ reconstructs_within (arc_val a) n c eta (10 * INR k * u / (1 - 10 * INR k * u)).
Proof. intros H1 H2 cs n w k w0 c eta. pose proof (r_v _ _ _ HN). apply planned_overlap_pow_c; [exact H1|lra|apply level_10; lra]. Qed.

Lemma planned_overlap_entry phi cs n w w0 c eta : 4 * v < 1 -> fft_all_clean pf -> 0 <= phi -> (forall m, (m <= n)%nat -> fft_error phi (pf m)) ->
  (n mod 2 = 0)%nat -> (0 < n)%nat -> (forall k, (3 <= k)%nat -> n <> (2 ^ k)%nat) ->
  symmetric w0 -> princen_bradley c n w0 -> entries_within eta (window_in_force cs n w (n * 2)%nat) w0 ->
  exists a, snd (plan_mdct n w (after pf cs)) = Ok a /\
    reconstructs_within (arc_val a) n c eta (sqrt (2 * INR n) * ((1 + u) ^ 2 * (1 + entry_bound u v phi (CDct4 n)) - 1)).
Proof.
  intros Hv4 Hcl Hphi Hf Hev Hn Hk Hs Hp Hc.
  assert (Hw : length (window_in_force cs n w (n * 2)) = (n * 2)%nat) by (rewrite (proj1 Hc), (proj1 Hp); lia).
  destruct (planned_mdct_entry u v N HN pf Hpf phi cs n w Hv4 Hcl Hphi Hf Hev Hw Hk) as (a & Ea & A & B). exists a. split; [exact Ea|].
  assert (E0 : 0 <= (1 + u) ^ 2 * (1 + entry_bound u v phi (CDct4 n)) - 1).
  { assert (X : 0 <= entry_bound u v phi (CDct4 n)).
    { pose proof (K_e4 u v N HN Hv4 phi Hphi 9 (le_n 9)) as X. pose proof (Round_Entry_Plan.K_ge0 u v N HN Hv4 phi Hphi 9). unfold e4 in X. cbn [entry_bound]. lra. }
    assert (G : 1 <= (1 + u) ^ 2) by (apply pow_R1_Rle; lra). set (a1 := (1 + u) ^ 2) in * . set (b1 := entry_bound _ _ _ _) in * . nra. }
  refine (reconstructs _ n _ w0 c eta _ Hn Hev _ (mdct_norm_of_entries _ _ _ _ _ E0 A) (imdct_norm_of_entries _ _ _ _ _ Hn E0 B) Hs Hp Hc).
  apply Rmult_le_pos; [apply sqrt_pos|exact E0].
Qed.
End Plan.

Lemma naive_overlap u v (N : Num R R) n w d w0 c eta : rounding u v N -> 4 * v < 1 -> (0 < n)%nat -> MdctNaive_new n w = Ok d ->
  symmetric w0 -> princen_bradley c n w0 -> entries_within eta (w (n * 2)%nat) w0 ->
  reconstructs_within (MdctNaive_obj d) n c eta (sqrt (2 * INR n) * dot_error u v (2 * n)).
Proof.
  intros HN Hv4 Hn E Hs Hp Hc. destruct (naive_error u v N n w d HN Hv4 E) as [A B]. pose proof (r_u _ _ _ HN) as Hu. pose proof (tau_ge0 u v N HN Hv4) as Ht.
  assert (Hev : (n mod 2 = 0)%nat) by (apply MdctNaive_new_inv in E; apply E).
  assert (M : dot_error u v (n + 1) <= dot_error u v (2 * n)).
  { unfold dot_error. apply Rplus_le_compat_r. apply Rmult_le_compat_r; [lra|]. apply Rle_pow; [lra|lia]. }
  assert (E0 : 0 <= dot_error u v (2 * n)).
  { unfold dot_error. pose proof (pow_R1_Rle (1 + u) (2 * n + 2) ltac:(lra)). nra. }
  refine (reconstructs _ n _ w0 c eta _ Hn Hev _ (mdct_norm_of_entries _ _ _ _ _ E0 A)
    (imdct_norm_of_entries _ _ _ _ _ Hn E0 (imdct_error_mono _ _ _ _ _ _ _ M total_ge0 B)) Hs Hp Hc).
  apply Rmult_le_pos; [apply sqrt_pos|exact E0].
Qed.

Lemma inr_half n c : (0 < n)%nat -> 2 * c / INR (n * 2) = c / INR n.
Proof. intros Hn. rewrite mult_INR. simpl (INR 2). assert (INR n <> 0) by (apply not_0_INR; lia). field. assumption. Qed.
Lemma crate_window_close u v (N : Num R R) n w c eta : rounding u v N -> 4 * v < 1 -> (0 < n)%nat -> crate_window u v n w c eta ->
  exists w0, symmetric w0 /\ princen_bradley c n w0 /\ entries_within eta (w (n * 2)%nat) w0.
Proof.
  intros HN Hv4 Hn H. rewrite (Nat.mul_comm n 2). pose proof (inr_half n 1 Hn) as H1. pose proof (inr_half n 2 Hn) as H2.
  replace (2 * 1) with 2 in H1 by ring. replace (2 * 2) with 4 in H2 by ring. rewrite (Nat.mul_comm n 2) in H1, H2.
  destruct H; eexists; (split; [|split]).
  1: apply (mp3_window n Hn). 1: apply (mp3_window n Hn). 1: apply (mp3_close u v N HN Hv4).
  1: apply (vorbis_window n Hn). 1: apply (vorbis_window n Hn). 1: apply (vorbis_win_close u v N HN Hv4).
  1: apply (one_window n Hn). 1: apply (one_window n Hn). 1: apply (one_close u v N HN).
  1: apply (mp3_inv_window n Hn). 1: apply (mp3_inv_window n Hn). 1: rewrite <- H2; apply (mp3_inv_close u v N HN Hv4).
  1: apply (vorbis_inv_window n Hn). 1: apply (vorbis_inv_window n Hn). 1: rewrite <- H2; apply (vorbis_inv_close u v N HN Hv4).
  1: apply (inv_window n Hn). 1: apply (inv_window n Hn). 1: rewrite <- H1; apply (inv_close u v N HN).
Qed.
