(** Planned transforms that are sums of products, in the floating-point numbers of IEEE 754. *)
From Coq Require Import Reals List Arith Lia Lra Psatz Bool ZArith Floats.SpecFloat.
From Verif Require Import Prog Num Model_Common Model_Naive Model_Plan Model_Api Spec Spec_Api Spec_Fft Spec_Plan Spec_Methods Spec_Round Spec_Ieee Spec_Entry Spec_Float
  Spec_Param Trig Energy Wp Contracts Api Naive_Objects Planner Canon Plan_Theorems Param_Theorems Sem_Naive Round_Binary Round_Ops Round_Theorems Round_Entry Round_Entry_Plan Float
  Spec_Ieee754 Sf Binary_Float Spec_Ieee_Naive Binary_Naive.
From Verif Require Spec_Binary.
Import ListNotations.
Open Scope R_scope.

Section Plan.
Variables (prec emax : Z) (v : R) (co si : spec_float -> spec_float).
Hypothesis (Hp : (2 <= prec)%Z) (He : (3 <= emax)%Z) (Hv : pow2 (- (53)) <= v) (Hv4 : 4 * v < 1) (Hco : accurate v co cos) (Hsi : accurate v si sin).
Notation u := (pow2 (- prec)).
Notation eta := (pow2 (2 - emax - prec)).
Hypothesis (Hr : 1 + (tau u v + eta) <= greatest prec emax).
Notation NS := (Sf prec emax co si).
Notation wide n := (dot_top u v eta n).
Notation approx := (approx_s prec emax v).
Notation sound f n sl tr := (sum_accurate prec emax co si f n sl tr (wide n)).

Lemma W_total x : W x (length x) = total (map real_of x).
Proof. unfold W, total. rewrite map_length. apply sum_ext. intros i _. f_equal. symmetry. apply (map_nth real_of x (S754_zero false)). Qed.
Lemma approx_sound f n tr : approx f n tr -> sound f n n (transform tr).
Proof.
  intros (g & C & A) x s Lx Ls Nx S Ht. destruct (computes_implements (N := NS) f _ _ g C x s Lx Ls) as (t & E & _). exists (map (g x) (seq 0 (length x))), t. split; [exact E|].
  assert (Q : forall k, (k < n)%nat -> number prec emax (g x k) /\ Rabs (real_of (g x k) - tr (map real_of x) k) <= wide n S - S).
  { intros k Hk. assert (T : W x n * G prec emax v n + H prec emax v n = wide n S) by (unfold G, H, dot_top; rewrite <- Lx, W_total; reflexivity).
    destruct (A x k Lx Hk Nx) as (P1 & P2 & _); [rewrite T; exact Ht|]. split; [exact P1|]. eapply Rle_trans; [exact P2|]. 
    assert (W x n = S) by (rewrite <- Lx; apply W_total). rewrite <- T. lra. }
  unfold transform. rewrite map_length, Lx. clear - Q. assert (Q' : forall k, In k (seq 0 n) -> (k < n)%nat) by (intros k Hk; apply in_seq in Hk; lia). revert Q'. generalize (seq 0 n) as l.
  induction l as [|k l IH]; intros Q'; [split; constructor|]. destruct (IH (fun j Hj => Q' j (or_intror Hj))) as [I1 I2]. destruct (Q k (Q' k (or_introl eq_refl))). split; constructor; assumption.
Qed.

Notation small n := (INR n <= pow2 890).
(** The sixteen algorithms, of any length. *)
Lemma naive_sound n : small n ->
  (sound (Type2And3Naive_dct2 (N := NS) (Type2And3Naive_new (N := NS) n)) n n dct2 /\ sound (Type2And3Naive_dst2 (N := NS) (Type2And3Naive_new (N := NS) n)) n n dst2 /\
   sound (Type4Naive_dct4 (N := NS) (Type4Naive_new (N := NS) n)) n n dct4 /\ sound (Type4Naive_dst4 (N := NS) (Type4Naive_new (N := NS) n)) n n dst4 /\
   sound (Dst1Naive_dst1 (N := NS) (Dst1Naive_new (N := NS) n)) n n dst1 /\ sound (Dst5Naive_dst5 (N := NS) (Dst5Naive_new (N := NS) n)) n n dst5 /\
   sound (Dst6And7Naive_dst6 (N := NS) (Dst6And7Naive_new (N := NS) n)) n n dst6 /\ sound (Dst6And7Naive_dst7 (N := NS) (Dst6And7Naive_new (N := NS) n)) n n dst7 /\
   sound (Dct8Naive_dct8 (N := NS) (Dct8Naive_new (N := NS) n)) n n dct8) /\
  ((1 <= n)%nat ->
   sound (Type2And3Naive_dct3 (N := NS) (Type2And3Naive_new (N := NS) n)) n n dct3 /\ sound (Type2And3Naive_dst3 (N := NS) (Type2And3Naive_new (N := NS) n)) n n dst3 /\
   (exists d, Dct5Naive_new (N := NS) n = Ok d /\ sound (Dct5Naive_dct5 (N := NS) d) n n dct5) /\
   (exists d, Dct6And7Naive_new (N := NS) n = Ok d /\ sound (Dct6And7Naive_dct6 (N := NS) d) n n dct6 /\ sound (Dct6And7Naive_dct7 (N := NS) d) n n dct7) /\
   (exists d, Dst8Naive_new (N := NS) n = Ok d /\ sound (Dst8Naive_dst8 (N := NS) d) n n dst8)) /\
  ((2 <= n)%nat -> exists d, Dct1Naive_new (N := NS) n = Ok d /\ sound (Dct1Naive_dct1 (N := NS) d) n n dct1).
Proof.
  intros Hs. split; [|split].
  - repeat split; apply approx_sound; [apply dct2_naive_s|apply dst2_naive_s|apply dct4_naive_s|apply dst4_naive_s|apply dst1_naive_s|apply dst5_naive_s|apply dst6_naive_s|apply dst7_naive_s|apply dct8_naive_s]; assumption.
  - intros Hn. split; [apply approx_sound, dct3_naive_s; assumption|]. split; [apply approx_sound, dst3_naive_s; assumption|].
    destruct (Dct5Naive_new_some (N := NS) n Hn) as [d5 E5]. destruct (Dct6And7Naive_new_some (N := NS) n Hn) as [d6 E6]. destruct (Dst8Naive_new_some (N := NS) n Hn) as [d8 E8].
    split; [exists d5; split; [exact E5|]; apply approx_sound, dct5_naive_s; assumption|].
    split; [exists d6; split; [exact E6|]; split; apply approx_sound; [apply dct6_naive_s|apply dct7_naive_s]; assumption|].
    exists d8. split; [exact E8|]. apply approx_sound, dst8_naive_s; assumption.
  - intros Hn. destruct (Dct1Naive_new_some (N := NS) n Hn) as [d E]. exists d. split; [exact E|]. apply approx_sound, dct1_naive_s; assumption.
Qed.

Lemma planned_sums pf cs (c : pcall spec_float) (c' : pcall R) : small (size c) -> legal c -> naive_call c -> call_alike (fun _ _ => True) c' c ->
  exists f sl, planned_method (N := NS) c (after (N := NS) pf cs) = Some (f, sl) /\ sound f (size c) sl (reference c').
Proof.
  intros Hs Hl Hc Ha. assert (S0 : small 0). { simpl INR. left. apply two_pow_pos. }
  destruct (naive_sound (size c) Hs) as ((A2 & B2 & A4 & B4 & B1 & B5 & B6 & B7 & A8) & Q1 & Q2).
  assert (T4 : forall n, (n < 6)%nat -> canon4 (N := NS) pf n = Ok (Type4Naive_obj (N := NS) (Type4Naive_new (N := NS) n))).
  { intros n Hn. unfold canon4. destruct (Nat.eqb_spec (n mod 2) 0); destruct (Nat.ltb_spec n 6); destruct (Nat.ltb_spec n 7); try reflexivity; lia. }
  destruct c as [n|n|n|n|n|n|n|n|n|n|n|n|n|n|n|n|n w]; cbn [legal size naive_call] in * ; try contradiction; destruct c'; try contradiction; cbn [call_alike] in Ha; subst; cbn [reference];
    unfold planned_method, plan_dct3, plan_dst2, plan_dst3, plan_dst4, plan_dct7, plan_dst7.
  - destruct (Q2 Hl) as (d & Ed & A). destruct (planned_ex (N := NS) pf _ _ cs (fun o => o = Dct1Naive_obj (N := NS) d) (plan_dct1_ok (N := NS) pf _ n)) as (a & Ea & Pa).
    { unfold canon_dct1. apply Nat.ltb_lt in Hc. rewrite Hc. rewrite Ed. eexists. split; reflexivity. }
    rewrite Ea. eexists. eexists. split; [reflexivity|]. rewrite Pa. unfold Dct1Naive_obj. cbn [x_run x_scratch]. unfold Dct1Naive_scratch. rewrite (Dct1Naive_len_new n d Ed). exact A.
  - destruct (planned_ex (N := NS) pf _ _ cs (fun o => o = Type4Naive_obj (N := NS) (Type4Naive_new (N := NS) n)) (plan_dct4_ok (N := NS) pf _ n)) as (a & Ea & Pa).
    { rewrite (T4 n Hc). eexists. split; reflexivity. }
    rewrite Ea. eexists. eexists. split; [reflexivity|]. rewrite Pa. unfold Type4Naive_obj. cbn [t_dct4 t4_scratch]. unfold Type4Naive_scratch. rewrite Type4Naive_len_new. exact A4.
  - destruct (Q1 Hl) as (_ & _ & (d & Ed & A) & _ & _). destruct (planned_ex (N := NS) pf _ _ cs (fun o => o = Dct5Naive_obj (N := NS) d) (plan_dct5_ok (N := NS) pf _ n)) as (a & Ea & Pa).
    { unfold canon_dct5. rewrite Ed. eexists. split; reflexivity. }
    rewrite Ea. eexists. eexists. split; [reflexivity|]. rewrite Pa. unfold Dct5Naive_obj. cbn [x_run x_scratch]. unfold Dct5Naive_scratch. rewrite (Dct5Naive_len_new n d Ed). exact A.
  - destruct (Q1 Hl) as (_ & _ & _ & (d & Ed & A & _) & _). destruct (planned_ex (N := NS) pf _ _ cs (fun o => o = Dct6And7Naive_obj (N := NS) d) (plan_dct6_ok (N := NS) pf _ n)) as (a & Ea & Pa).
    { unfold canon_c67. rewrite Ed. eexists. split; reflexivity. }
    rewrite Ea. eexists. eexists. split; [reflexivity|]. rewrite Pa. unfold Dct6And7Naive_obj. cbn [t_dct6 c67_scratch]. unfold Dct6And7Naive_scratch. rewrite (Dct6And7Naive_len_new n d Ed). exact A.
  - destruct (Q1 Hl) as (_ & _ & _ & (d & Ed & _ & A) & _). destruct (planned_ex (N := NS) pf _ _ cs (fun o => o = Dct6And7Naive_obj (N := NS) d) (plan_dct6_ok (N := NS) pf _ n)) as (a & Ea & Pa).
    { unfold canon_c67. rewrite Ed. eexists. split; reflexivity. }
    rewrite Ea. eexists. eexists. split; [reflexivity|]. rewrite Pa. unfold Dct6And7Naive_obj. cbn [t_dct7 c67_scratch]. unfold Dct6And7Naive_scratch. rewrite (Dct6And7Naive_len_new n d Ed). exact A.
  - destruct (planned_ex (N := NS) pf _ _ cs (fun o => o = Dct8Naive_obj (N := NS) (Dct8Naive_new (N := NS) n)) (plan_dct8_ok (N := NS) pf _ n)) as (a & Ea & Pa).
    { unfold canon_dct8. eexists. split; reflexivity. }
    rewrite Ea. eexists. eexists. split; [reflexivity|]. rewrite Pa. unfold Dct8Naive_obj. cbn [x_run x_scratch]. unfold Dct8Naive_scratch. rewrite Dct8Naive_len_new. exact A8.
  - destruct (planned_ex (N := NS) pf _ _ cs (fun o => o = Dst1Naive_obj (N := NS) (Dst1Naive_new (N := NS) n)) (plan_dst1_ok (N := NS) pf _ n)) as (a & Ea & Pa).
    { unfold canon_dst1. apply Nat.ltb_lt in Hc. rewrite Hc. eexists. split; reflexivity. }
    rewrite Ea. eexists. eexists. split; [reflexivity|]. rewrite Pa. unfold Dst1Naive_obj. cbn [x_run x_scratch]. unfold Dst1Naive_scratch. rewrite Dst1Naive_len_new. exact B1.
  - destruct (planned_ex (N := NS) pf _ _ cs (fun o => o = Type4Naive_obj (N := NS) (Type4Naive_new (N := NS) n)) (plan_dct4_ok (N := NS) pf _ n)) as (a & Ea & Pa).
    { rewrite (T4 n Hc). eexists. split; reflexivity. }
    rewrite Ea. eexists. eexists. split; [reflexivity|]. rewrite Pa. unfold Type4Naive_obj. cbn [t_dst4 t4_scratch]. unfold Type4Naive_scratch. rewrite Type4Naive_len_new. exact B4.
  - destruct (planned_ex (N := NS) pf _ _ cs (fun o => o = Dst5Naive_obj (N := NS) (Dst5Naive_new (N := NS) n)) (plan_dst5_ok (N := NS) pf _ n)) as (a & Ea & Pa).
    { unfold canon_dst5. eexists. split; reflexivity. }
    rewrite Ea. eexists. eexists. split; [reflexivity|]. rewrite Pa. unfold Dst5Naive_obj. cbn [x_run x_scratch]. unfold Dst5Naive_scratch. rewrite Dst5Naive_len_new. exact B5.
  - destruct (planned_ex (N := NS) pf _ _ cs (fun o => o = Dst6And7Naive_obj (N := NS) (Dst6And7Naive_new (N := NS) n)) (plan_dst6_ok (N := NS) pf _ n)) as (a & Ea & Pa).
    { unfold canon_s67. apply Nat.ltb_lt in Hc. rewrite Hc. eexists. split; reflexivity. }
    rewrite Ea. eexists. eexists. split; [reflexivity|]. rewrite Pa. unfold Dst6And7Naive_obj. cbn [t_dst6 s67_scratch]. unfold Dst6And7Naive_scratch. rewrite Dst6And7Naive_len_new. exact B6.
  - destruct (planned_ex (N := NS) pf _ _ cs (fun o => o = Dst6And7Naive_obj (N := NS) (Dst6And7Naive_new (N := NS) n)) (plan_dst6_ok (N := NS) pf _ n)) as (a & Ea & Pa).
    { unfold canon_s67. apply Nat.ltb_lt in Hc. rewrite Hc. eexists. split; reflexivity. }
    rewrite Ea. eexists. eexists. split; [reflexivity|]. rewrite Pa. unfold Dst6And7Naive_obj. cbn [t_dst7 s67_scratch]. unfold Dst6And7Naive_scratch. rewrite Dst6And7Naive_len_new. exact B7.
  - destruct (Q1 Hl) as (_ & _ & _ & _ & (d & Ed & A)). destruct (planned_ex (N := NS) pf _ _ cs (fun o => o = Dst8Naive_obj (N := NS) d) (plan_dst8_ok (N := NS) pf _ n)) as (a & Ea & Pa).
    { unfold canon_dst8. rewrite Ed. eexists. split; reflexivity. }
    rewrite Ea. eexists. eexists. split; [reflexivity|]. rewrite Pa. unfold Dst8Naive_obj. cbn [x_run x_scratch]. unfold Dst8Naive_scratch. rewrite (Dst8Naive_len_new n d Ed). exact A.
Qed.
End Plan.

(** ** Closed forms *)
Lemma pow_up u m : 0 <= u -> INR m * u <= / 2 -> (1 + u) ^ m <= 1 + 2 * (INR m * u).
Proof.
  intros Hu Hm. eapply Rle_trans; [apply bernoulli_inv; lra|]. pose proof (pos_INR m) as P. assert (0 <= INR m * u) by nra. set (z := INR m * u) in * . clearbody z.
  apply Rmult_le_reg_r with (1 - z); [lra|]. rewrite Rinv_l by lra. nra.
Qed.
Lemma dot_closed w u v eta n S : 0 <= u -> 0 <= eta -> 0 <= tau u v -> 1 + (tau u v + eta) <= (1 + u) ^ w -> INR (n + (2 + w)) * u <= / 2 -> 0 <= S ->
  dot_top u v eta n S <= S * (1 + 2 * (INR (n + (2 + w)) * u)) + 6 * INR n * eta.
Proof.
  intros Hu He Ht Hw Hm HS. pose proof (pow_up u _ Hu Hm) as P. unfold dot_top. set (t := tau u v + eta) in * . assert (0 <= t) by (unfold t; lra).
  assert (G1 : (1 + u) ^ (n + 2) * (1 + t) <= (1 + u) ^ (n + (2 + w))).
  { replace (n + (2 + w))%nat with (n + 2 + w)%nat by lia. rewrite (pow_add _ (n + 2) w). apply Rmult_le_compat_l; [apply pow_le; lra|exact Hw]. }
  assert (G2 : (1 + t) * (1 + u) ^ (n + 1) <= 2).
  { assert ((1 + u) ^ (n + 1) <= (1 + u) ^ (n + 2)) by (apply Rle_pow; [lra|lia]). assert ((1 + t) * (1 + u) ^ (n + 1) <= (1 + t) * (1 + u) ^ (n + 2)) by (apply Rmult_le_compat_l; lra). lra. }
  assert (S * ((1 + u) ^ (n + 2) * (1 + t)) <= S * (1 + 2 * (INR (n + (2 + w)) * u))) by (apply Rmult_le_compat_l; lra).
  assert (0 <= 3 * INR n * eta) by (pose proof (pos_INR n); repeat apply Rmult_le_pos; lra).
  assert (3 * INR n * eta * ((1 + t) * (1 + u) ^ (n + 1)) <= 3 * INR n * eta * 2) by (apply Rmult_le_compat_l; lra). lra.
Qed.
Lemma total_ge0 x : 0 <= total x. Proof. apply sum_ge0. intros. apply Rabs_pos. Qed.
Lemma sum_weaken prec emax co si f n sl tr (a b : R -> R) : (forall S, 0 <= S -> a S <= b S) -> sum_accurate prec emax co si f n sl tr a -> sum_accurate prec emax co si f n sl tr b.
Proof.
  intros L Ha x s Lx Ls Nx S HS. pose proof (L S (total_ge0 _)) as LS. destruct (Ha x s Lx Ls Nx) as (y & t & C & D & G); [fold S; lra|].
  exists y, t. split; [exact C|]. split; [exact D|]. fold S in G. clear - G LS. induction G as [|p q l l' D1 D2 IH]; constructor; [lra|exact IH].
Qed.
Lemma planned_closed w prec emax v co si : (2 <= prec)%Z -> (3 <= emax)%Z -> pow2 (- (53)) <= v -> 4 * v < 1 -> accurate v co cos -> accurate v si sin ->
  let u := pow2 (- prec) in let eta := pow2 (2 - emax - prec) in 1 + (tau u v + eta) <= (1 + u) ^ w ->
  forall pf cs (c : pcall spec_float) (c' : pcall R), INR (size c) <= pow2 890 -> legal c -> naive_call c -> call_alike (fun _ _ => True) c' c ->
  INR (size c + (2 + w)) * u <= / 2 ->
  exists f sl, planned_method (N := Sf prec emax co si) c (after (N := Sf prec emax co si) pf cs) = Some (f, sl) /\
  sum_accurate prec emax co si f (size c) sl (reference c') (fun S => S * (1 + 2 * (INR (size c + (2 + w)) * u)) + 6 * INR (size c) * eta).
Proof.
  intros Hp He Hv Hv4 Hco Hsi u eta Hw pf cs c c' Hs Hl Hc Ha Hm.
  assert (U0 : 0 <= u) by (left; apply two_pow_pos). assert (E0 : 0 <= eta) by (left; apply two_pow_pos). pose proof (two_pow_pos (- (53))) as V0.
  assert (T0 : 0 <= tau u v) by (pose proof (tau0_ge0 v co si Hv Hv4 Hco Hsi) as T; pose proof (tau_u prec v) as T1; fold u in T1; nra).
  assert (Hr : 1 + (tau u v + eta) <= greatest prec emax).
  { eapply Rle_trans; [exact Hw|]. eapply Rle_trans; [|apply top_2; assumption]. eapply Rle_trans; [apply (Rle_pow (1 + u) w (size c + (2 + w))); [lra|lia]|]. eapply Rle_trans; [apply pow_up; assumption|lra]. }
  destruct (planned_sums prec emax v co si Hp He Hv Hv4 Hco Hsi Hr pf cs c c' Hs Hl Hc Ha) as (f & sl & E & A). exists f, sl. split; [exact E|].
  refine (sum_weaken _ _ _ _ _ _ _ _ _ _ _ A). intros S HS. apply dot_closed; assumption.
Qed.
Lemma planned_sums32 co si : accurate (pow2 (- (48))) co cos -> accurate (pow2 (- (48))) si sin ->
  forall pf cs (c : pcall spec_float) (c' : pcall R), legal c -> naive_call c -> call_alike (fun _ _ => True) c' c -> INR (size c + 6) * pow2 (- (24)) <= / 2 ->
  exists f sl, planned_method (N := Spec_Binary.binary32 co si) c (after (N := Spec_Binary.binary32 co si) pf cs) = Some (f, sl) /\
  sum_accurate 24 128 co si f (size c) sl (reference c') (fun S => S * (1 + 2 * (INR (size c + 6) * pow2 (- (24)))) + 6 * INR (size c) * pow2 (- (150))).
Proof.
  intros Hco Hsi pf cs c c' Hl Hc Ha Hm.
  pose proof (pow2_1024 48 ltac:(lia)) as V1. pose proof (pow2_le (- (53)) (- (48)) ltac:(lia)) as V2. pose proof (two_pow_pos (- (53))) as V0.
  pose proof (pow2_1024 24 ltac:(lia)) as U1. pose proof (two_pow_pos (- (24))) as U0. pose proof (two_pow_pos (- (150))) as E0.
  assert (V3 : pow2 (- (48)) = pow2 (- (24)) * pow2 (- (24))) by (rewrite <- two_pow_add; reflexivity). pose proof (pow2_le (- (150)) (- (24)) ltac:(lia)) as E1.
  apply (planned_closed 4 24 128 (pow2 (- (48)))); try assumption; try lia; try lra.
  - change (2 - 128 - 24)%Z with (- (150))%Z. set (u := pow2 (- (24))) in * . pose proof (tau_wide u (pow2 (- (48))) ltac:(lra) ltac:(lra)) as T. change ((1 + u) ^ 4) with ((1 + u) * (1 + u) ^ 3). assert (1 <= (1 + u) ^ 3) by (apply pow_R1_Rle; lra). set (p := (1 + u) ^ 3) in * . clearbody u p. nra.
  - rewrite plus_INR in Hm. pose proof (pos_INR (size c)). simpl INR in Hm. pose proof (pow2_le 24 890 ltac:(lia)) as B.
    assert (I : pow2 24 * pow2 (- (24)) = 1) by (rewrite <- two_pow_add; reflexivity). nra.
Qed.
Lemma planned_sums64 co si : accurate (pow2 (- (53))) co cos -> accurate (pow2 (- (53))) si sin ->
  forall pf cs (c : pcall spec_float) (c' : pcall R), legal c -> naive_call c -> call_alike (fun _ _ => True) c' c -> INR (size c + 93) * pow2 (- (53)) <= / 2 ->
  exists f sl, planned_method (N := Spec_Binary.binary64 co si) c (after (N := Spec_Binary.binary64 co si) pf cs) = Some (f, sl) /\
  sum_accurate 53 1024 co si f (size c) sl (reference c') (fun S => S * (1 + 2 * (INR (size c + 93) * pow2 (- (53)))) + 6 * INR (size c) * pow2 (- (1075))).
Proof.
  intros Hco Hsi pf cs c c' Hl Hc Ha Hm.
  pose proof (pow2_1024 53 ltac:(lia)) as U1. pose proof (two_pow_pos (- (53))) as U0. pose proof (two_pow_pos (- (1075))) as E0. pose proof (pow2_le (- (1075)) (- (53)) ltac:(lia)) as E1.
  apply (planned_closed 91 53 1024 (pow2 (- (53)))); try assumption; try lia; try lra.
  - change (2 - 1024 - 53)%Z with (- (1075))%Z. set (u := pow2 (- (53))) in * . pose proof (tau_same u u ltac:(lra) ltac:(lra)) as T. clearbody u.
    change ((1 + u) ^ 91) with ((1 + u) * (1 + u) ^ 90). assert (1 <= (1 + u) ^ 90) by (apply pow_R1_Rle; lra). set (p := (1 + u) ^ 90) in * . clearbody p. nra.
  - rewrite plus_INR in Hm. pose proof (pos_INR (size c)). pose proof (pos_INR 93). pose proof (pow2_le 53 890 ltac:(lia)) as B.
    assert (I : pow2 53 * pow2 (- (53)) = 1) by (rewrite <- two_pow_add; reflexivity). nra.
Qed.
