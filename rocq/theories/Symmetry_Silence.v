(** Silence in [f32] and [f64]: what claim C68 needs. *)
From Coq Require Import Reals List Bool Lia Lra ZArith Floats.SpecFloat.
From Verif Require Import Prog Num Model_Common Model_Plan Model_Api Spec Spec_Api Spec_Fft Spec_Plan Spec_Methods Spec_Entry Spec_Param Spec_Levels Spec_Float Spec_Ieee754 Spec_Binary Spec_Ieee_Naive Spec_Symmetry
  Round_Binary Sf Binary_Float Binary_Naive_Plan Symmetry.
Import ListNotations.
Open Scope R_scope.

Lemma zeros_numbers prec emax x : Forall is_zero x -> Forall (number prec emax) x.
Proof. induction 1 as [|y l [s ->] H IH]; constructor; [exact I|exact IH]. Qed.
Lemma zeros_small x : Forall is_zero x -> Forall (fun z => Rabs (real_of z) <= 0) x.
Proof. induction 1 as [|y l [s ->] H IH]; constructor; [cbn; rewrite Rabs_R0; lra|exact IH]. Qed.
Lemma zeros_real x : Forall is_zero x -> map real_of x = repeat 0 (length x).
Proof. induction 1 as [|y l [s ->] H IH]; cbn [map length repeat]; [reflexivity|]. rewrite IH. reflexivity. Qed.
Lemma nth_zeros n i : nth i (repeat 0 n) 0 = 0.
Proof. revert i. induction n; intros [|i]; cbn; auto. Qed.
Lemma zeros_total x : Forall is_zero x -> total (map real_of x) = 0.
Proof. intros H. rewrite (zeros_real x H). unfold total. generalize (length (repeat 0 (length x))) as m. induction m as [|m IH]; [reflexivity|]. cbn [sum]. rewrite IH, nth_zeros, Rabs_R0. lra. Qed.
Lemma number_zero prec emax x : number prec emax x -> zero_or_nan x -> is_zero x.
Proof. intros N [Z|E]; [exact Z|subst; contradiction]. Qed.
Lemma numbers_zero prec emax y : Forall (number prec emax) y -> Forall zero_or_nan y -> Forall is_zero y.
Proof. induction 1; intros Z; inversion Z; subst; constructor; eauto using number_zero. Qed.
Lemma power_no_fft k (c : pcall spec_float) : power_call k c -> no_fft c /\ legal c /\ clean c /\ size c = (2 ^ k)%nat.
Proof.
  intros [[Hk H]|[Hk H]]; cbn [In] in H; repeat match type of H with _ \/ _ => destruct H as [H|H] end; try contradiction; subst c; cbn [no_fft legal clean size]; repeat split;
    try (exists k; reflexivity); try (destruct k; [lia|]; eexists; reflexivity); try (apply Nat.neq_0_lt_0, Nat.pow_nonzero; lia).
Qed.
Lemma deep_bounds k (c : pcall spec_float) : (k <= 64)%nat -> (adds_deep c k <= 96 /\ muls_deep c k <= 34)%nat.
Proof.
  intros H. assert (A : (adds_deep c k <= 3 * k / 2)%nat) by (destruct c; cbn [adds_deep]; try lia; apply Nat.div_le_mono; lia).
  assert (B : (3 * k / 2 <= 96)%nat) by (change 96%nat with (192 / 2)%nat; apply Nat.div_le_mono; lia).
  assert (C : ((k + 1) / 2 <= 32)%nat) by (change 32%nat with (65 / 2)%nat; apply Nat.div_le_mono; lia).
  assert (D : (k / 2 <= 32)%nat) by (change 32%nat with (64 / 2)%nat; apply Nat.div_le_mono; lia).
  split; [lia|]. destruct c; cbn [muls_deep]; lia.
Qed.

Section Any.
Variables (prec emax : Z) (co si : spec_float -> spec_float) (pf : nat -> fft spec_float) (cs : list (pcall spec_float)) (c : pcall spec_float).
Local Instance NS1 : Num spec_float spec_float := Binary prec emax co si.
Hypothesis (Hf : fft_fits pf) (Hc : fft_all_clean pf).
Lemma silent_exact : legal c -> clean c -> no_fft c ->
  (exists f sl, planned_method (N := NS1) c (after (N := NS1) pf cs) = Some (f, sl) /\
    forall x s, length x = size c -> (sl <= length s)%nat -> Forall is_zero x -> exists y t, call (N := NS1) f x s = Returned (y, t) /\ Forall (number prec emax) y) -> silent prec emax co si pf cs c.
Proof.
  intros Hl Cl Hn (f & sl & E & P). destruct (silent_clean prec emax co si pf cs c Hf Hc Hl Cl (or_introl Hn)) as (f' & sl' & E' & P'). unfold NS1, NS0 in * . rewrite E in E'. injection E' as <- <-.
  exists f, sl. split; [exact E|]. intros x s Lx Ls Zx. destruct (P x s Lx Ls Zx) as (y & t & A & B), (P' x s Lx Zx Ls) as (y' & t' & A' & B'). unfold NS1 in * . rewrite A in A'. injection A' as <- <-.
  exists y, t. split; [exact A|]. eapply numbers_zero; eassumption.
Qed.
End Any.
(** Any call of any type: the same of the other sample type. *)
Definition real_call (c : pcall spec_float) : pcall R :=
  match c with
  | CDct1 n => CDct1 n | CDct2 n => CDct2 n | CDct3 n => CDct3 n | CDct4 n => CDct4 n | CDct5 n => CDct5 n | CDct6 n => CDct6 n | CDct7 n => CDct7 n | CDct8 n => CDct8 n
  | CDst1 n => CDst1 n | CDst2 n => CDst2 n | CDst3 n => CDst3 n | CDst4 n => CDst4 n | CDst5 n => CDst5 n | CDst6 n => CDst6 n | CDst7 n => CDst7 n | CDst8 n => CDst8 n
  | CMdct n _ => CDct1 n
  end.
Lemma real_call_alike c : legal c -> call_alike (fun _ _ => True) (real_call c) c.
Proof. destruct c; cbn; auto. Qed.
Lemma INR_le_IZR a z : (Z.of_nat a <= z)%Z -> INR a <= IZR z.
Proof. intros H. rewrite INR_IZR_INZ. apply IZR_le, H. Qed.
Lemma naive_clean (c : pcall spec_float) : naive_call c -> clean c.
Proof. destruct c; cbn; auto; contradiction. Qed.

Section F32.
Variables (co si : spec_float -> spec_float) (pf : nat -> fft spec_float) (cs : list (pcall spec_float)) (c : pcall spec_float).
Hypothesis (Hf : fft_fits pf) (Hcl : fft_all_clean pf).
Lemma greatest32_big : powerRZ 2 104 <= greatest 24 128.
Proof. unfold greatest. change (128 - 24)%Z with 104%Z. pose proof (pow2_le 105 128 ltac:(lia)) as Q2. change 105%Z with (104 + 1)%Z in Q2. rewrite double_pow in Q2. lra. Qed.
Lemma power_silent32 k : accurate (powerRZ 2 (- (48))) co cos -> accurate (powerRZ 2 (- (48))) si sin -> (k <= 64)%nat -> power_call k c -> silent 24 128 co si pf cs c.
Proof.
  intros Ac As Hk P. destruct (power_no_fft k c P) as (Hn & Hl & Cl & Sz). destruct (deep_bounds k c Hk) as [Ba Bm]. apply (silent_exact 24 128 co si pf cs c Hf Hcl Hl Cl Hn).
  pose proof (INR_le_IZR (adds_deep c k + 4 * muls_deep c k) 232 ltac:(lia)) as I1. pose proof (INR_le_IZR (adds_deep c k + muls_deep c k) 130 ltac:(lia)) as I2.
  pose proof (pos_INR (adds_deep c k + muls_deep c k)) as I3. pose proof (pow2_1024 24 ltac:(lia)) as U1. pose proof (two_pow_pos (- (24))) as U0.
  destruct (planned_binary32 co si 0 Ac As (Rle_refl 0) pf cs k c (real_call c) ltac:(lia) P (real_call_alike c Hl)) as (f & sl & E & Q).
  - assert (INR (adds_deep c k + 4 * muls_deep c k) * powerRZ 2 (- (24)) <= 232 * powerRZ 2 (- (24))) by (apply Rmult_le_compat_r; lra). pose proof (pow2_le (- (24)) (- (20)) ltac:(lia)) as U2.
    change (- (20))%Z with (- (10) + - (10))%Z in U2. rewrite two_pow_add in U2. pose proof (pow2_1024 10 ltac:(lia)). pose proof (two_pow_pos (- (10))). nra.
  - pose proof (two_pow_pos (- (150))) as E0. pose proof greatest32_big as G.
    assert (A : 2 ^ (adds_deep c k + 1) <= 2 ^ 97) by (apply Rle_pow; [lra|lia]). assert (A0 : 0 < 2 ^ (adds_deep c k + 1)) by (apply pow_lt; lra).
    assert (B : 0 + INR (adds_deep c k + muls_deep c k) * powerRZ 2 (- (150)) <= 1).
    { pose proof (pow2_1024 150 ltac:(lia)) as E1. assert (INR (adds_deep c k + muls_deep c k) * powerRZ 2 (- (150)) <= 130 * / 1024) by (apply Rmult_le_compat; lra). lra. }
    assert (B0 : 0 <= 0 + INR (adds_deep c k + muls_deep c k) * powerRZ 2 (- (150))) by (assert (0 <= INR (adds_deep c k + muls_deep c k) * powerRZ 2 (- (150))) by (apply Rmult_le_pos; lra); lra).
    apply Rle_trans with (1 * 2 ^ 97); [apply Rmult_le_compat; lra|]. rewrite Rmult_1_l. apply Rle_trans with (powerRZ 2 104); [|exact G]. change (2 ^ 97) with (powerRZ 2 97). apply pow2_le. lia.
  - exists f, sl. split; [exact E|]. intros x s Lx Ls Zx. rewrite Sz in Lx. destruct (Q x s Lx Ls (zeros_numbers _ _ x Zx) (zeros_small x Zx)) as (y & t & R1 & R2 & _). exists y, t. split; assumption.
Qed.
Lemma naive_silent32 : accurate (powerRZ 2 (- (48))) co cos -> accurate (powerRZ 2 (- (48))) si sin -> legal c -> naive_call c -> no_fft c -> INR (size c + 6) * powerRZ 2 (- (24)) <= / 2 -> silent 24 128 co si pf cs c.
Proof.
  intros Ac As Hl Nc Hn Sz. apply (silent_exact 24 128 co si pf cs c Hf Hcl Hl (naive_clean c Nc) Hn).
  destruct (planned_sums32 co si Ac As pf cs c (real_call c) Hl Nc (real_call_alike c Hl) Sz) as (f & sl & E & Q). exists f, sl. split; [exact E|]. intros x s Lx Ls Zx.
  destruct (Q x s Lx Ls (zeros_numbers _ _ x Zx)) as (y & t & R1 & R2 & _); [|exists y, t; split; assumption].
  rewrite (zeros_total x Zx). pose proof greatest32_big as G. pose proof (pow2_le (- (150)) (- (24)) ltac:(lia)) as W. pose proof (pow2_le 2 104 ltac:(lia)) as G2. change (powerRZ 2 2) with (2 * (2 * 1)) in G2.
  pose proof (two_pow_pos (- (24))). rewrite plus_INR in Sz. change (INR 6) with (2+1+1+1+1) in Sz. pose proof (pos_INR (size c)) as I.
  assert (INR (size c) * powerRZ 2 (- (150)) <= INR (size c) * powerRZ 2 (- (24))) by (apply Rmult_le_compat_l; lra). lra.
Qed.
End F32.
Section F64.
Variables (co si : spec_float -> spec_float) (pf : nat -> fft spec_float) (cs : list (pcall spec_float)) (c : pcall spec_float).
Hypothesis (Hf : fft_fits pf) (Hcl : fft_all_clean pf).
Lemma power_silent64 k : accurate (powerRZ 2 (- (53))) co cos -> accurate (powerRZ 2 (- (53))) si sin -> (k <= 64)%nat -> power_call k c -> silent 53 1024 co si pf cs c.
Proof.
  intros Ac As Hk P. destruct (power_no_fft k c P) as (Hn & Hl & Cl & Sz). destruct (deep_bounds k c Hk) as [Ba Bm]. apply (silent_exact 53 1024 co si pf cs c Hf Hcl Hl Cl Hn).
  pose proof (INR_le_IZR (adds_deep c k + 12 * muls_deep c k) 504 ltac:(lia)) as I1. pose proof (INR_le_IZR (adds_deep c k + muls_deep c k) 130 ltac:(lia)) as I2.
  pose proof (pos_INR (adds_deep c k + muls_deep c k)) as I3. pose proof (pow2_1024 53 ltac:(lia)) as U1. pose proof (two_pow_pos (- (53))) as U0.
  destruct (planned_binary64 co si 0 Ac As (Rle_refl 0) pf cs k c (real_call c) ltac:(lia) P (real_call_alike c Hl)) as (f & sl & E & Q).
  - assert (INR (adds_deep c k + 12 * muls_deep c k) * powerRZ 2 (- (53)) <= 504 * powerRZ 2 (- (53))) by (apply Rmult_le_compat_r; lra). lra.
  - pose proof (two_pow_pos (- (1075))) as E0. pose proof greatest64 as G.
    assert (A : 2 ^ (adds_deep c k + 1) <= 2 ^ 97) by (apply Rle_pow; [lra|lia]). assert (A0 : 0 < 2 ^ (adds_deep c k + 1)) by (apply pow_lt; lra).
    assert (B : 0 + INR (adds_deep c k + muls_deep c k) * powerRZ 2 (- (1075)) <= 1).
    { pose proof (pow2_1024 1075 ltac:(lia)) as E1. assert (INR (adds_deep c k + muls_deep c k) * powerRZ 2 (- (1075)) <= 130 * / 1024) by (apply Rmult_le_compat; lra). lra. }
    assert (B0 : 0 <= 0 + INR (adds_deep c k + muls_deep c k) * powerRZ 2 (- (1075))) by (assert (0 <= INR (adds_deep c k + muls_deep c k) * powerRZ 2 (- (1075))) by (apply Rmult_le_pos; lra); lra).
    apply Rle_trans with (1 * 2 ^ 97); [apply Rmult_le_compat; lra|]. rewrite Rmult_1_l. apply Rle_trans with (powerRZ 2 1023); [|exact G]. change (2 ^ 97) with (powerRZ 2 97). apply pow2_le. lia.
  - exists f, sl. split; [exact E|]. intros x s Lx Ls Zx. rewrite Sz in Lx. destruct (Q x s Lx Ls (zeros_numbers _ _ x Zx) (zeros_small x Zx)) as (y & t & R1 & R2 & _). exists y, t. split; assumption.
Qed.
Lemma naive_silent64 : accurate (powerRZ 2 (- (53))) co cos -> accurate (powerRZ 2 (- (53))) si sin -> legal c -> naive_call c -> no_fft c -> INR (size c + 93) * powerRZ 2 (- (53)) <= / 2 -> silent 53 1024 co si pf cs c.
Proof.
  intros Ac As Hl Nc Hn Sz. apply (silent_exact 53 1024 co si pf cs c Hf Hcl Hl (naive_clean c Nc) Hn).
  destruct (planned_sums64 co si Ac As pf cs c (real_call c) Hl Nc (real_call_alike c Hl) Sz) as (f & sl & E & Q). exists f, sl. split; [exact E|]. intros x s Lx Ls Zx.
  destruct (Q x s Lx Ls (zeros_numbers _ _ x Zx)) as (y & t & R1 & R2 & _); [|exists y, t; split; assumption].
  rewrite (zeros_total x Zx). pose proof greatest64 as G. pose proof (pow2_le (- (1075)) (- (53)) ltac:(lia)) as W. pose proof (pow2_le 2 1023 ltac:(lia)) as G2. change (powerRZ 2 2) with (2 * (2 * 1)) in G2.
  pose proof (two_pow_pos (- (53))). rewrite plus_INR in Sz. pose proof (pos_INR 93). pose proof (pos_INR (size c)) as I.
  assert (INR (size c) * powerRZ 2 (- (1075)) <= INR (size c) * powerRZ 2 (- (53))) by (apply Rmult_le_compat_l; lra).
  assert (0 <= INR 93 * powerRZ 2 (- (53))) by (apply Rmult_le_pos; lra). lra.
Qed.
End F64.
