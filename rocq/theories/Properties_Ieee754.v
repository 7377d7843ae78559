(** The accuracy of the transforms in IEEE 754 arithmetic: C66. *)
From Coq Require Import Reals List Lia Lra ZArith Floats.SpecFloat.
From Verif Require Import Prog Num Model_Common Model_Plan Model_Api Spec Spec_Api Spec_Fft Spec_Plan Spec_Methods Spec_Round Spec_Ieee Spec_Param Spec_Levels Spec_Float Spec_Ieee754 Spec_Binary
  Round_Binary Round_Ops Param_Theorems Levels_Plan Levels_Theorems Sf Binary_Float.
Import ListNotations.
Open Scope R_scope.

(** C66: the operations on floating-point numbers, defined by manipulating their bits, round the exact result to nearest, ties to even, with gradual underflow,
    as long as the rounded result is not beyond the greatest number. *)
Theorem operations_rounded : forall prec emax, (2 <= prec)%Z -> (3 <= emax)%Z ->
  let rnd := rnd_grad prec (3 - emax) in let rounded_to z x := Rabs (rnd x) <= greatest prec emax -> number prec emax z /\ real_of z = rnd x in
  (forall a b, number prec emax a -> number prec emax b ->
    rounded_to (SFadd prec emax a b) (real_of a + real_of b) /\ rounded_to (SFsub prec emax a b) (real_of a - real_of b) /\
    rounded_to (SFmul prec emax a b) (real_of a * real_of b) /\ (real_of b <> 0 -> rounded_to (SFdiv prec emax a b) (real_of a / real_of b)) /\
    number prec emax (SFopp a) /\ real_of (SFopp a) = - real_of a) /\
  (forall a, number 53 1024 a -> rounded_to (convert prec emax a) (real_of a)).
Proof. exact sf_operations. Qed.
Print Assumptions operations_rounded.

(** C66: whatever the format, provided the functions for [cos] and [sin] are accurate to [v], if the inputs are finite and at most [B] in magnitude and the widest value
    on the longest path is within the range, every output is finite and within an explicit bound of the exact one, whatever the scratch holds. *)
Theorem power_of_two_ieee : forall prec emax v co si B, (2 <= prec)%Z -> (3 <= emax)%Z -> powerRZ 2 (- (53)) <= v < 1 -> accurate v co cos -> accurate v si sin -> 0 <= B ->
  let u := powerRZ 2 (- prec) in let eta := powerRZ 2 (2 - emax - prec) in let N := Binary prec emax co si in
  1 + (eps u v + eta) <= greatest prec emax ->
  forall (pf : nat -> fft spec_float) cs k (c : pcall spec_float) (c' : pcall R), (k <= 890)%nat -> power_call k c -> call_alike (fun _ _ => True) c' c ->
  widest u v eta B (adds_deep c k) (muls_deep c k) <= greatest prec emax ->
  exists f sl, planned_method (N := N) c (after (N := N) pf cs) = Some (f, sl) /\
  forall x s, length x = (2 ^ k)%nat -> (sl <= length s)%nat -> Forall (number prec emax) x -> Forall (fun z => Rabs (real_of z) <= B) x ->
  exists y t, call (N := N) f x s = Returned (y, t) /\ Forall (number prec emax) y /\
    Forall2 (fun z b => Rabs (real_of z - b) <= widest u v eta B (adds_deep c k) (muls_deep c k) - B * 2 ^ adds_deep c k) y (reference c' (map real_of x)).
Proof. exact planned_sf. Qed.
Print Assumptions power_of_two_ieee.
(** C66 for [f32], in closed form. *)
Theorem power_of_two_binary32 : forall co si B, accurate (powerRZ 2 (- (48))) co cos -> accurate (powerRZ 2 (- (48))) si sin -> 0 <= B ->
  forall (pf : nat -> fft spec_float) cs k (c : pcall spec_float) (c' : pcall R), (k <= 890)%nat -> power_call k c -> call_alike (fun _ _ => True) c' c ->
  INR (adds_deep c k + 4 * muls_deep c k) * powerRZ 2 (- (24)) <= / 2 -> (B + INR (adds_deep c k + muls_deep c k) * powerRZ 2 (- (150))) * 2 ^ (adds_deep c k + 1) <= greatest 24 128 ->
  exists f sl, planned_method (N := binary32 co si) c (after (N := binary32 co si) pf cs) = Some (f, sl) /\
  forall x s, length x = (2 ^ k)%nat -> (sl <= length s)%nat -> Forall (number 24 128) x -> Forall (fun z => Rabs (real_of z) <= B) x ->
  exists y t, call (N := binary32 co si) f x s = Returned (y, t) /\ Forall (number 24 128) y /\
    Forall2 (fun z b => Rabs (real_of z - b) <= 2 ^ (adds_deep c k + 1) * (INR (adds_deep c k + 4 * muls_deep c k) * powerRZ 2 (- (24)) * B + INR (adds_deep c k + muls_deep c k) * powerRZ 2 (- (150)))) y (reference c' (map real_of x)).
Proof. exact planned_binary32. Qed.
Print Assumptions power_of_two_binary32.
(** C66 for [f64], in closed form. *)
Theorem power_of_two_binary64 : forall co si B, accurate (powerRZ 2 (- (53))) co cos -> accurate (powerRZ 2 (- (53))) si sin -> 0 <= B ->
  forall (pf : nat -> fft spec_float) cs k (c : pcall spec_float) (c' : pcall R), (k <= 890)%nat -> power_call k c -> call_alike (fun _ _ => True) c' c ->
  INR (adds_deep c k + 12 * muls_deep c k) * powerRZ 2 (- (53)) <= / 2 -> (B + INR (adds_deep c k + muls_deep c k) * powerRZ 2 (- (1075))) * 2 ^ (adds_deep c k + 1) <= greatest 53 1024 ->
  exists f sl, planned_method (N := binary64 co si) c (after (N := binary64 co si) pf cs) = Some (f, sl) /\
  forall x s, length x = (2 ^ k)%nat -> (sl <= length s)%nat -> Forall (number 53 1024) x -> Forall (fun z => Rabs (real_of z) <= B) x ->
  exists y t, call (N := binary64 co si) f x s = Returned (y, t) /\ Forall (number 53 1024) y /\
    Forall2 (fun z b => Rabs (real_of z - b) <= 2 ^ (adds_deep c k + 1) * (INR (adds_deep c k + 12 * muls_deep c k) * powerRZ 2 (- (53)) * B + INR (adds_deep c k + muls_deep c k) * powerRZ 2 (- (1075)))) y (reference c' (map real_of x)).
Proof. exact planned_binary64. Qed.
Print Assumptions power_of_two_binary64.
(** C66: accurate functions exist. *)
Theorem accurate_exists : accurate (powerRZ 2 (- (53))) (rounded cos) cos /\ accurate (powerRZ 2 (- (53))) (rounded sin) sin.
Proof. exact rounded_trig. Qed.
Print Assumptions accurate_exists.

(** A DCT2 of length 1024 in [f32] on finite samples of magnitude at most one: each output is finite and within 2^15 * (34 * 2^-24 + 19 * 2^-150), about 0.07, of the exact one. *)
Example binary32_case : exists f sl,
  planned_method (N := binary32 (rounded cos) (rounded sin)) (CDct2 (2 ^ 10)) (after (N := binary32 (rounded cos) (rounded sin)) idle_fft [CDct4 6]) = Some (f, sl) /\
  forall x s, length x = (2 ^ 10)%nat -> (sl <= length s)%nat -> Forall (number 24 128) x -> Forall (fun z => Rabs (real_of z) <= 1) x ->
  exists y t, call (N := binary32 (rounded cos) (rounded sin)) f x s = Returned (y, t) /\ Forall (number 24 128) y /\
    Forall2 (fun z b => Rabs (real_of z - b) <= 2 ^ 15 * (INR 34 * powerRZ 2 (- (24)) * 1 + INR 19 * powerRZ 2 (- (150)))) y (dct2 (map real_of x)).
Proof.
  destruct accurate_exists as [C S]. pose proof (pow2_le (- (53)) (- (48)) ltac:(lia)) as W.
  apply (power_of_two_binary32 _ _ 1 (accurate_weaken _ _ _ _ C W) (accurate_weaken _ _ _ _ S W)) with (k := 10%nat) (c' := CDct2 (2 ^ 10)) (c := CDct2 (2 ^ 10) : pcall spec_float).
  - lra.
  - lia.
  - left. split; [lia|]. cbn [In]. auto.
  - reflexivity.
  - change (INR 34 * powerRZ 2 (- (24)) <= / 2). rewrite INR_IZR_INZ. change (IZR (Z.of_nat 34)) with 34. pose proof (pow2_1024 24 ltac:(lia)). lra.
  - change ((1 + INR 19 * powerRZ 2 (- (150))) * 2 ^ 15 <= greatest 24 128). rewrite INR_IZR_INZ. change (IZR (Z.of_nat 19)) with 19. pose proof (pow2_1024 150 ltac:(lia)).
    unfold greatest. assert (P : 0 < 2 ^ 15) by (apply pow_lt; lra). pose proof (pow2_le 16 104 ltac:(lia)) as Q. pose proof (pow2_le 105 128 ltac:(lia)) as Q2. change (128 - 24)%Z with 104%Z.
    change 105%Z with (104 + 1)%Z in Q2. rewrite double_pow in Q2. change (powerRZ 2 16) with (2 ^ 16) in Q. change 16%nat with (1 + 15)%nat in Q. rewrite pow_add, pow_1 in Q. nra.
Qed.
(** A DST4 of length 4096 in [f64] on finite samples of magnitude at most 1000. *)
Example binary64_case : exists f sl,
  planned_method (N := binary64 (rounded cos) (rounded sin)) (CDst4 (2 ^ 12)) (after (N := binary64 (rounded cos) (rounded sin)) idle_fft []) = Some (f, sl) /\
  forall x s, length x = (2 ^ 12)%nat -> (sl <= length s)%nat -> Forall (number 53 1024) x -> Forall (fun z => Rabs (real_of z) <= 1000) x ->
  exists y t, call (N := binary64 (rounded cos) (rounded sin)) f x s = Returned (y, t) /\ Forall (number 53 1024) y /\
    Forall2 (fun z b => Rabs (real_of z - b) <= 2 ^ 19 * (INR 114 * powerRZ 2 (- (53)) * 1000 + INR 26 * powerRZ 2 (- (1075)))) y (dst4 (map real_of x)).
Proof.
  destruct accurate_exists as [C S].
  apply (power_of_two_binary64 _ _ 1000 C S) with (k := 12%nat) (c' := CDst4 (2 ^ 12)) (c := CDst4 (2 ^ 12) : pcall spec_float).
  - lra.
  - lia.
  - right. split; [lia|]. cbn [In]. auto.
  - reflexivity.
  - change (INR 114 * powerRZ 2 (- (53)) <= / 2). rewrite INR_IZR_INZ. change (IZR (Z.of_nat 114)) with 114. pose proof (pow2_1024 53 ltac:(lia)). lra.
  - change ((1000 + INR 26 * powerRZ 2 (- (1075))) * 2 ^ 19 <= greatest 53 1024). rewrite INR_IZR_INZ. change (IZR (Z.of_nat 26)) with 26. pose proof (pow2_1024 1075 ltac:(lia)).
    pose proof greatest64 as G. pose proof (pow2_le 30 1023 ltac:(lia)) as Q. change (powerRZ 2 30) with (2 ^ 30) in Q. change 30%nat with (11 + 19)%nat in Q. rewrite pow_add in Q.
    assert (P : 0 < 2 ^ 19) by (apply pow_lt; lra). replace (2 ^ 11) with 2048 in Q by ring. nra.
Qed.
(** One tenth plus two tenths, in [f64]: the sum is rounded. *)
Example addition_rounds : let a := f64_of 3602879701896397 (-55) in let b := f64_of 3602879701896397 (-54) in
  number 53 1024 a /\ number 53 1024 b /\ SFadd 53 1024 a b = S754_finite false 5404319552844596 (-54).
Proof. repeat split; vm_compute; reflexivity. Qed.
