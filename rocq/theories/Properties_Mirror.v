(** Mirror images in IEEE 754 arithmetic: C69. *)
From Coq Require Import Reals List Bool Lia Lra ZArith Floats.SpecFloat.
From Verif Require Import Prog Num Model_Common Model_Plan Model_Api Spec Spec_Api Spec_Fft Spec_Plan Spec_Methods Spec_Param Spec_Levels Spec_Ieee754 Spec_Binary Spec_Symmetry Spec_Mirror
  Round_Binary Param_Theorems Sf Binary_Float Symmetry_Silence Mirror_Binary Mirror_Constant.
Import ListNotations.
Open Scope nat_scope.

(** C69: the DCT2 or DST2 of the mirrored vector is that of the vector with every second result negated, bit for bit up to the signs of zeros.
    With [b] true the mirrored vector is negated besides.  Nothing is assumed of the tables, the scratch or the FFTs, and overflow, underflow and NaN are included. *)
Theorem planned_mirror : forall prec emax co si (pf : nat -> fft spec_float) cs k c, let N := Binary prec emax co si in
  1 <= k -> c = CDct2 (2 ^ k) \/ c = CDst2 (2 ^ k) ->
  exists f sl, planned_method (N := N) c (after (N := N) pf cs) = Some (f, sl) /\
  forall b x x' s s', length x = 2 ^ k -> opposites b (rev x) x' -> sl <= length s -> sl <= length s' ->
  exists y y' t t', call (N := N) f x s = Returned (y, t) /\ call (N := N) f x' s' = Returned (y', t') /\ flipped b y y'.
Proof. intros prec emax co si pf cs k c. exact (mirrored_call prec emax co si pf cs k c). Qed.
Print Assumptions planned_mirror.
(** C69 for the DCT3 and DST3: negating every second entry mirrors the result. *)
Theorem planned_flip : forall prec emax co si (pf : nat -> fft spec_float) cs k c, let N := Binary prec emax co si in
  1 <= k -> c = CDct3 (2 ^ k) \/ c = CDst3 (2 ^ k) ->
  exists f sl, planned_method (N := N) c (after (N := N) pf cs) = Some (f, sl) /\
  forall b x x' s s', length x = 2 ^ k -> flipped b x x' -> sl <= length s -> sl <= length s' ->
  exists y y' t t', call (N := N) f x s = Returned (y, t) /\ call (N := N) f x' s' = Returned (y', t') /\ opposites b (rev y) y'.
Proof. intros prec emax co si pf cs k c. exact (flipped_call prec emax co si pf cs k c). Qed.
Print Assumptions planned_flip.
(** C69 for a vector that is its own mirror image, or its negated one: every second result is zero, or NaN where an operand was not finite. *)
Theorem planned_palindrome : forall prec emax co si (pf : nat -> fft spec_float) cs k c, let N := Binary prec emax co si in
  1 <= k -> c = CDct2 (2 ^ k) \/ c = CDst2 (2 ^ k) ->
  exists f sl, planned_method (N := N) c (after (N := N) pf cs) = Some (f, sl) /\
  forall b x s, length x = 2 ^ k -> opposites b (rev x) x -> sl <= length s ->
  exists y t, call (N := N) f x s = Returned (y, t) /\ forall j, j < 2 ^ k -> Nat.odd j = negb b -> zero_or_nan (nth j y S754_nan).
Proof. intros prec emax co si pf cs k c. exact (palindrome_call prec emax co si pf cs k c). Qed.
Print Assumptions planned_palindrome.
(** C69 for a constant vector: the DCT2 doubles the constant, once for each factor of two of the length, and its other results are zero or NaN. *)
Theorem planned_constant : forall prec emax co si (pf : nat -> fft spec_float) cs k, let N := Binary prec emax co si in
  1 <= k -> exists f sl, planned_method (N := N) (CDct2 (2 ^ k)) (after (N := N) pf cs) = Some (f, sl) /\
  forall c x s, length x = 2 ^ k -> Forall (opposite false c) x -> sl <= length s ->
  exists y0 y t, call (N := N) f x s = Returned (y0 :: y, t) /\ opposite false (added prec emax k c) y0 /\ Forall zero_or_nan y.
Proof. intros prec emax co si pf cs k. exact (constant_call prec emax co si pf cs k). Qed.
Print Assumptions planned_constant.
(** C69 for a constant vector in [f32] and [f64] with accurate [cos] and [sin]: the DCT2 is exact, with no rounding error at all. *)
Theorem constant_binary32 : forall co si (pf : nat -> fft spec_float) cs k, 1 <= k <= 64 -> accurate (powerRZ 2 (- (48))) co cos -> accurate (powerRZ 2 (- (48))) si sin ->
  exists f sl, planned_method (N := binary32 co si) (CDct2 (2 ^ k)) (after (N := binary32 co si) pf cs) = Some (f, sl) /\
  forall c s, number 24 128 c -> (Rabs (real_of c) * 2 ^ ((3 * k - 1) / 2 + 2) <= greatest 24 128)%R -> sl <= length s ->
  exists y0 y t, call (N := binary32 co si) f (repeat c (2 ^ k)) s = Returned (y0 :: y, t) /\ number 24 128 y0 /\ real_of y0 = (2 ^ k * real_of c)%R /\ Forall is_zero y.
Proof. exact constant32. Qed.
Print Assumptions constant_binary32.
Theorem constant_binary64 : forall co si (pf : nat -> fft spec_float) cs k, 1 <= k <= 64 -> accurate (powerRZ 2 (- (53))) co cos -> accurate (powerRZ 2 (- (53))) si sin ->
  exists f sl, planned_method (N := binary64 co si) (CDct2 (2 ^ k)) (after (N := binary64 co si) pf cs) = Some (f, sl) /\
  forall c s, number 53 1024 c -> (Rabs (real_of c) * 2 ^ ((3 * k - 1) / 2 + 2) <= greatest 53 1024)%R -> sl <= length s ->
  exists y0 y t, call (N := binary64 co si) f (repeat c (2 ^ k)) s = Returned (y0 :: y, t) /\ number 53 1024 y0 /\ real_of y0 = (2 ^ k * real_of c)%R /\ Forall is_zero y.
Proof. exact constant64. Qed.
Print Assumptions constant_binary64.
(** C69 for vectors that are their own mirror image, or its negated one, in [f32] and [f64]: every second result is zero, under the conditions of C66. *)
Theorem palindrome_binary32 : forall co si (pf : nat -> fft spec_float) cs k c B, k <= 890 -> 1 <= k -> c = CDct2 (2 ^ k) \/ c = CDst2 (2 ^ k) ->
  accurate (powerRZ 2 (- (48))) co cos -> accurate (powerRZ 2 (- (48))) si sin -> (0 <= B)%R ->
  (INR (adds_deep c k + 4 * muls_deep c k) * powerRZ 2 (- (24)) <= / 2)%R -> ((B + INR (adds_deep c k + muls_deep c k) * powerRZ 2 (- (150))) * 2 ^ (adds_deep c k + 1) <= greatest 24 128)%R ->
  exists f sl, planned_method (N := binary32 co si) c (after (N := binary32 co si) pf cs) = Some (f, sl) /\
  forall b x s, length x = 2 ^ k -> Forall (number 24 128) x -> Forall (fun z => (Rabs (real_of z) <= B)%R) x -> opposites b (rev x) x -> sl <= length s ->
  exists y t, call (N := binary32 co si) f x s = Returned (y, t) /\ forall j, j < 2 ^ k -> Nat.odd j = negb b -> is_zero (nth j y S754_nan).
Proof. exact palindrome32. Qed.
Print Assumptions palindrome_binary32.
Theorem palindrome_binary64 : forall co si (pf : nat -> fft spec_float) cs k c B, k <= 890 -> 1 <= k -> c = CDct2 (2 ^ k) \/ c = CDst2 (2 ^ k) ->
  accurate (powerRZ 2 (- (53))) co cos -> accurate (powerRZ 2 (- (53))) si sin -> (0 <= B)%R ->
  (INR (adds_deep c k + 12 * muls_deep c k) * powerRZ 2 (- (53)) <= / 2)%R -> ((B + INR (adds_deep c k + muls_deep c k) * powerRZ 2 (- (1075))) * 2 ^ (adds_deep c k + 1) <= greatest 53 1024)%R ->
  exists f sl, planned_method (N := binary64 co si) c (after (N := binary64 co si) pf cs) = Some (f, sl) /\
  forall b x s, length x = 2 ^ k -> Forall (number 53 1024) x -> Forall (fun z => (Rabs (real_of z) <= B)%R) x -> opposites b (rev x) x -> sl <= length s ->
  exists y t, call (N := binary64 co si) f x s = Returned (y, t) /\ forall j, j < 2 ^ k -> Nat.odd j = negb b -> is_zero (nth j y S754_nan).
Proof. exact palindrome64. Qed.
Print Assumptions palindrome_binary64.

(** Samples of [f32]: 1, 3, minus zero and an infinity. *)
Definition four_samples : list spec_float := [S754_finite false 8388608 (-23); S754_finite false 12582912 (-22); S754_zero true; S754_infinity false].
Example four_mirrored : opposites true (rev four_samples) [S754_infinity true; S754_zero true; S754_finite true 12582912 (-22); S754_finite true 8388608 (-23)].
Proof. repeat constructor. Qed.
Example four_flipped : flipped false four_samples [S754_finite false 8388608 (-23); S754_finite true 12582912 (-22); S754_zero false; S754_infinity true].
Proof. repeat constructor. Qed.
(** Finite results: the DCT2 of (1, 3, 3, -1) and of the mirrored vector, with tables that are all one. *)
Definition finite_samples : list spec_float := [S754_finite false 8388608 (-23); S754_finite false 12582912 (-22); S754_finite false 12582912 (-22); S754_finite true 8388608 (-23)].
Example mirror_values : let N := binary32 (fun _ => f64_of 1 0) (fun _ => f64_of 1 0) in
  exists f sl, planned_method (N := N) (CDct2 4) (after (N := N) idle_fft []) = Some (f, sl) /\
  exists y y', process (N := N) f sl finite_samples = Returned y /\ process (N := N) f sl (rev finite_samples) = Returned y' /\
  flipped false y y' /\ nth 0 y S754_nan = S754_finite false 12582912 (-21) /\ nth 1 y S754_nan = S754_finite false 8388608 (-22) /\ nth 1 y' S754_nan = S754_finite true 8388608 (-22).
Proof. eexists. eexists. split; [reflexivity|]. eexists. eexists. split; [vm_compute; reflexivity|]. split; [vm_compute; reflexivity|]. split; [vm_compute; repeat split|]. split; [vm_compute; reflexivity|]. split; vm_compute; reflexivity. Qed.
(** A constant of about 0.1, which [f64] does not represent, at length 2^10. *)
Definition tenth : spec_float := S754_finite false 7205759403792794 (-56).
Example tenth_number : number 53 1024 tenth /\ (Rabs (real_of tenth) <= 1)%R.
Proof.
  split; [vm_compute; reflexivity|]. cbn [real_of tenth]. pose proof (two_pow_pos (-56)) as P.
  assert (E : powerRZ 2 (-56) = (/ IZR (2 ^ 56))%R) by (change (powerRZ 2 (-56)) with (/ 2 ^ 56)%R; f_equal; rewrite pow_IZR; f_equal).
  rewrite E. change (2 ^ 56)%Z with 72057594037927936%Z. rewrite Rabs_right; lra.
Qed.
Example constant_case : exists f sl, planned_method (N := binary64 (rounded cos) (rounded sin)) (CDct2 (2 ^ 10)) (after (N := binary64 (rounded cos) (rounded sin)) idle_fft [CDst4 6]) = Some (f, sl) /\
  forall s, sl <= length s -> exists y0 y t, call (N := binary64 (rounded cos) (rounded sin)) f (repeat tenth (2 ^ 10)) s = Returned (y0 :: y, t) /\ real_of y0 = (2 ^ 10 * real_of tenth)%R /\ Forall is_zero y.
Proof.
  destruct rounded_trig as [C S]. destruct (constant_binary64 _ _ idle_fft [CDst4 6] 10 ltac:(lia) C S) as (f & sl & E & P). exists f, sl. split; [exact E|]. intros s Ls.
  destruct tenth_number as [T1 T2]. destruct (P tenth s T1) as (y0 & y & t & A & _ & B & D); [|exact Ls|exists y0, y, t; auto].
  apply Rle_trans with (powerRZ 2 1023); [|exact greatest64]. apply Rle_trans with (1 * powerRZ 2 16)%R; [|rewrite Rmult_1_l; apply pow2_le; lia].
  change (2 ^ ((3 * 10 - 1) / 2 + 2))%R with (powerRZ 2 16). apply Rmult_le_compat_r; [left; apply two_pow_pos|exact T2].
Qed.
(** The DST2 of (tenth, 1, -1, -tenth) in [f64], which is its own negated mirror image. *)
Definition antisymmetric : list spec_float := [tenth; f64_of 1 0; SFopp (f64_of 1 0); SFopp tenth].
Example palindrome_case : exists f sl, planned_method (N := binary64 (rounded cos) (rounded sin)) (CDst2 (2 ^ 2)) (after (N := binary64 (rounded cos) (rounded sin)) idle_fft []) = Some (f, sl) /\
  forall s, sl <= length s -> exists y t, call (N := binary64 (rounded cos) (rounded sin)) f antisymmetric s = Returned (y, t) /\ is_zero (nth 0 y S754_nan) /\ is_zero (nth 2 y S754_nan).
Proof.
  destruct rounded_trig as [C S]. destruct tenth_number as [T1 T2]. pose proof (pow2_1024 53 ltac:(lia)) as U. pose proof (two_pow_pos (- (53))) as U0.
  destruct (palindrome_binary64 _ _ idle_fft [] 2 (CDst2 (2 ^ 2)) 1 ltac:(lia) ltac:(lia) (or_intror eq_refl) C S ltac:(lra)) as (f & sl & E & P).
  - change (INR (adds_deep (CDst2 (T := spec_float) (2 ^ 2)) 2 + 12 * muls_deep (CDst2 (T := spec_float) (2 ^ 2)) 2)) with (INR 14). rewrite INR_IZR_INZ. change (Z.of_nat 14) with 14%Z. lra.
  - change (INR (adds_deep (CDst2 (T := spec_float) (2 ^ 2)) 2 + muls_deep (CDst2 (T := spec_float) (2 ^ 2)) 2)) with (INR 3). change (2 ^ (adds_deep (CDst2 (T := spec_float) (2 ^ 2)) 2 + 1))%R with (2 ^ 3)%R.
    rewrite INR_IZR_INZ. change (Z.of_nat 3) with 3%Z. pose proof (pow2_1024 1075 ltac:(lia)) as V. pose proof greatest64 as G. pose proof (pow2_le 4 1023 ltac:(lia)) as G2. change (powerRZ 2 4) with (2 ^ 4)%R in G2. lra.
  - exists f, sl. split; [exact E|]. intros s Ls. assert (O : real_of (f64_of 1 0) = 1%R).
    { change (f64_of 1 0) with (S754_finite false 4503599627370496 (-52)). cbn [real_of]. change (powerRZ 2 (-52)) with (/ 2 ^ 52)%R. replace (2 ^ 52)%R with (IZR 4503599627370496) by (rewrite pow_IZR; f_equal). field. }
    destruct (P true antisymmetric s) as (y & t & A & B); [reflexivity| | | |exact Ls|].
    + repeat constructor; vm_compute; reflexivity.
    + apply Forall_cons; [exact T2|]. apply Forall_cons; [rewrite O, Rabs_R1; lra|]. apply Forall_cons; [|apply Forall_cons; [|apply Forall_nil]].
      * rewrite (proj2 (SFopp_ok 53 1024 (f64_of 1 0) eq_refl)), Rabs_Ropp, O, Rabs_R1. lra.
      * rewrite (proj2 (SFopp_ok 53 1024 tenth T1)), Rabs_Ropp. exact T2.
    + repeat constructor.
    + exists y, t. split; [exact A|]. split; apply B; reflexivity || lia.
Qed.
