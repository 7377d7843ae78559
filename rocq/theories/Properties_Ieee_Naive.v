(** The accuracy of the direct sums in IEEE 754 arithmetic: C67. *)
From Coq Require Import Reals List Lia Lra ZArith Floats.SpecFloat.
From Verif Require Import Prog Num Model_Common Model_Naive Model_Plan Model_Api Spec Spec_Api Spec_Fft Spec_Plan Spec_Methods Spec_Entry Spec_Param Spec_Ieee754 Spec_Binary Spec_Ieee_Naive
  Round_Binary Param_Theorems Sf Binary_Float Binary_Naive_Plan.
Import ListNotations.
Open Scope R_scope.

(** C67: whatever the format, provided the functions for [cos] and [sin] are accurate to [v], the sixteen transforms of the structs that evaluate the definitions,
    of any length, return finite numbers within an explicit distance of the exact ones, if that distance added to the sum of the magnitudes of the inputs is in range. *)
Theorem direct_sums_ieee : forall prec emax v co si, (2 <= prec)%Z -> (3 <= emax)%Z -> powerRZ 2 (- (53)) <= v -> 4 * v < 1 -> accurate v co cos -> accurate v si sin ->
  let u := powerRZ 2 (- prec) in let eta := powerRZ 2 (2 - emax - prec) in 1 + (tau u v + eta) <= greatest prec emax ->
  forall n, INR n <= powerRZ 2 890 -> let N := Binary prec emax co si in let good f tr := sum_accurate prec emax co si f n n tr (dot_top u v eta n) in
  (good (Type2And3Naive_dct2 (N := N) (Type2And3Naive_new (N := N) n)) dct2 /\ good (Type2And3Naive_dst2 (N := N) (Type2And3Naive_new (N := N) n)) dst2 /\
   good (Type4Naive_dct4 (N := N) (Type4Naive_new (N := N) n)) dct4 /\ good (Type4Naive_dst4 (N := N) (Type4Naive_new (N := N) n)) dst4 /\
   good (Dst1Naive_dst1 (N := N) (Dst1Naive_new (N := N) n)) dst1 /\ good (Dst5Naive_dst5 (N := N) (Dst5Naive_new (N := N) n)) dst5 /\
   good (Dst6And7Naive_dst6 (N := N) (Dst6And7Naive_new (N := N) n)) dst6 /\ good (Dst6And7Naive_dst7 (N := N) (Dst6And7Naive_new (N := N) n)) dst7 /\
   good (Dct8Naive_dct8 (N := N) (Dct8Naive_new (N := N) n)) dct8) /\
  ((1 <= n)%nat ->
   good (Type2And3Naive_dct3 (N := N) (Type2And3Naive_new (N := N) n)) dct3 /\ good (Type2And3Naive_dst3 (N := N) (Type2And3Naive_new (N := N) n)) dst3 /\
   (exists d, Dct5Naive_new (N := N) n = Ok d /\ good (Dct5Naive_dct5 (N := N) d) dct5) /\
   (exists d, Dct6And7Naive_new (N := N) n = Ok d /\ good (Dct6And7Naive_dct6 (N := N) d) dct6 /\ good (Dct6And7Naive_dct7 (N := N) d) dct7) /\
   (exists d, Dst8Naive_new (N := N) n = Ok d /\ good (Dst8Naive_dst8 (N := N) d) dst8)) /\
  ((2 <= n)%nat -> exists d, Dct1Naive_new (N := N) n = Ok d /\ good (Dct1Naive_dct1 (N := N) d) dct1).
Proof. exact naive_sound. Qed.
Print Assumptions direct_sums_ieee.
(** C67 for what the planner returns: the DCT of types 5 to 8 and the DST of types 5 and 8 of every length, and others below the planner's thresholds. *)
Theorem planned_sums_ieee : forall prec emax v co si, (2 <= prec)%Z -> (3 <= emax)%Z -> powerRZ 2 (- (53)) <= v -> 4 * v < 1 -> accurate v co cos -> accurate v si sin ->
  let u := powerRZ 2 (- prec) in let eta := powerRZ 2 (2 - emax - prec) in let N := Binary prec emax co si in 1 + (tau u v + eta) <= greatest prec emax ->
  forall (pf : nat -> fft spec_float) cs (c : pcall spec_float) (c' : pcall R), INR (size c) <= powerRZ 2 890 -> legal c -> naive_call c -> call_alike (fun _ _ => True) c' c ->
  exists f sl, planned_method (N := N) c (after (N := N) pf cs) = Some (f, sl) /\ sum_accurate prec emax co si f (size c) sl (reference c') (dot_top u v eta (size c)).
Proof. exact planned_sums. Qed.
Print Assumptions planned_sums_ieee.
(** C67 for [f32], in closed form. *)
Theorem planned_sums_binary32 : forall co si, accurate (powerRZ 2 (- (48))) co cos -> accurate (powerRZ 2 (- (48))) si sin ->
  forall (pf : nat -> fft spec_float) cs (c : pcall spec_float) (c' : pcall R), legal c -> naive_call c -> call_alike (fun _ _ => True) c' c -> INR (size c + 6) * powerRZ 2 (- (24)) <= / 2 ->
  exists f sl, planned_method (N := binary32 co si) c (after (N := binary32 co si) pf cs) = Some (f, sl) /\
  sum_accurate 24 128 co si f (size c) sl (reference c') (fun S => S * (1 + 2 * (INR (size c + 6) * powerRZ 2 (- (24)))) + 6 * INR (size c) * powerRZ 2 (- (150))).
Proof. exact planned_sums32. Qed.
Print Assumptions planned_sums_binary32.
(** C67 for [f64], in closed form. *)
Theorem planned_sums_binary64 : forall co si, accurate (powerRZ 2 (- (53))) co cos -> accurate (powerRZ 2 (- (53))) si sin ->
  forall (pf : nat -> fft spec_float) cs (c : pcall spec_float) (c' : pcall R), legal c -> naive_call c -> call_alike (fun _ _ => True) c' c -> INR (size c + 93) * powerRZ 2 (- (53)) <= / 2 ->
  exists f sl, planned_method (N := binary64 co si) c (after (N := binary64 co si) pf cs) = Some (f, sl) /\
  sum_accurate 53 1024 co si f (size c) sl (reference c') (fun S => S * (1 + 2 * (INR (size c + 93) * powerRZ 2 (- (53)))) + 6 * INR (size c) * powerRZ 2 (- (1075))).
Proof. exact planned_sums64. Qed.
Print Assumptions planned_sums_binary64.

(** A DCT5 of length 100 in [f32] on finite samples whose magnitudes add up to at most 1000: each output is finite and within 212 * 2^-24 * 1000 + 600 * 2^-150, about 0.013, of the exact one. *)
Example sums32_case : exists f sl,
  planned_method (N := binary32 (rounded cos) (rounded sin)) (CDct5 100) (after (N := binary32 (rounded cos) (rounded sin)) idle_fft [CDct1 12]) = Some (f, sl) /\
  forall x s, length x = 100%nat -> (sl <= length s)%nat -> Forall (number 24 128) x -> total (map real_of x) <= 1000 ->
  exists y t, call (N := binary32 (rounded cos) (rounded sin)) f x s = Returned (y, t) /\ Forall (number 24 128) y /\
    Forall2 (fun z b => Rabs (real_of z - b) <= 212 * powerRZ 2 (- (24)) * 1000 + 600 * powerRZ 2 (- (150))) y (dct5 (map real_of x)).
Proof.
  destruct rounded_trig as [C S]. pose proof (pow2_le (- (53)) (- (48)) ltac:(lia)) as W. pose proof (pow2_1024 24 ltac:(lia)) as U1. pose proof (two_pow_pos (- (24))) as U0.
  assert (I6 : INR (100 + 6) = 106) by (rewrite INR_IZR_INZ; reflexivity). assert (I0 : INR 100 = 100) by (rewrite INR_IZR_INZ; reflexivity).
  destruct (planned_sums_binary32 _ _ (accurate_weaken _ _ _ _ C W) (accurate_weaken _ _ _ _ S W) idle_fft [CDct1 12] (CDct5 100) (CDct5 100)) as (f & sl & E & A).
  - cbn; lia. - exact I. - reflexivity. - cbn [size]. rewrite I6. lra.
  - exists f, sl. split; [exact E|]. intros x s Lx Ls Nx HT. cbn [size] in A. rewrite I6, I0 in A. pose proof (total_ge0 (map real_of x)) as T0. pose proof (two_pow_pos (- (150))) as E0.
    pose proof (pow2_1024 150 ltac:(lia)) as E1. assert (TU : total (map real_of x) * powerRZ 2 (- (24)) <= 1000 * powerRZ 2 (- (24))) by (apply Rmult_le_compat_r; lra).
    destruct (A x s Lx Ls Nx) as (y & t & P & Q & R).
    + unfold greatest. change (128 - 24)%Z with 104%Z. pose proof (pow2_le 105 128 ltac:(lia)) as Q2. change 105%Z with (104 + 1)%Z in Q2. rewrite double_pow in Q2.
      pose proof (pow2_le 16 104 ltac:(lia)) as Q. change (powerRZ 2 16) with (2 ^ 16) in Q. replace (2 ^ 16) with 65536 in Q by ring. lra.
    + exists y, t. split; [exact P|]. split; [exact Q|]. cbn [reference] in R. clear - R TU. induction R as [|p q l l' D1 D2 IH]; constructor; [lra|exact IH].
Qed.
(** A DST8 of length 5000 in [f64]. *)
Example sums64_case : exists f sl,
  planned_method (N := binary64 (rounded cos) (rounded sin)) (CDst8 5000) (after (N := binary64 (rounded cos) (rounded sin)) idle_fft []) = Some (f, sl) /\
  sum_accurate 53 1024 (rounded cos) (rounded sin) f 5000 sl dst8 (fun S => S * (1 + 2 * (INR 5093 * powerRZ 2 (- (53)))) + 6 * INR 5000 * powerRZ 2 (- (1075))).
Proof.
  destruct rounded_trig as [C S]. apply (planned_sums_binary64 _ _ C S idle_fft [] (CDst8 5000) (CDst8 5000)); [cbn; lia|exact I|reflexivity|].
  cbn [size]. replace (INR (5000 + 93)) with 5093 by (rewrite INR_IZR_INZ; reflexivity). pose proof (pow2_le (- (53)) (- (23)) ltac:(lia)) as Q. change (- (23))%Z with (- (10) + - (13))%Z in Q.
  rewrite two_pow_add in Q. pose proof (pow2_1024 10 ltac:(lia)). pose proof (pow2_1024 13 ltac:(lia)). pose proof (two_pow_pos (- (10))). pose proof (two_pow_pos (- (13))). nra.
Qed.
