(** Signs in IEEE 754 arithmetic: C68. *)
From Coq Require Import Reals List Bool Lia Lra ZArith Floats.SpecFloat.
From Verif Require Import Prog Num Model_Common Model_Mdct Model_Plan Model_Api Spec Spec_Api Spec_Fft Spec_Plan Spec_Methods Spec_Param Spec_Levels Spec_Ieee754 Spec_Binary Spec_Ieee_Naive Spec_Symmetry
  Round_Binary Param_Theorems Sf Binary_Float Symmetry Symmetry_Silence.
Import ListNotations.
Open Scope nat_scope.

(** C68: negating all samples negates every result bit for bit, and the signs of zeros among the samples do not matter, up to the signs of zeros among the results.
    With [b] false the theorem is about vectors that differ in the signs of zeros, with [b] true about negated ones.  Overflow, underflow and NaN are included, and nothing
    is assumed of [cos] and [sin]. *)
Theorem planned_signs : forall prec emax co si b (pf : nat -> fft spec_float) cs c f sl, let N := Binary prec emax co si in
  no_fft c \/ (forall n, odd_fft b (pf n)) -> planned_method (N := N) c (after (N := N) pf cs) = Some (f, sl) ->
  (forall x x' s s', opposites b x x' -> opposites b s s' ->
    observed_alike (fun p q => opposites b (fst p) (fst q) /\ opposites b (snd p) (snd q)) (call (N := N) f x s) (call (N := N) f x' s')) /\
  (forall x x', opposites b x x' -> observed_alike (opposites b) (process (N := N) f sl x) (process (N := N) f sl x')).
Proof. intros prec emax co si b pf cs c f sl. exact (signs_call prec emax co si b pf cs c f sl). Qed.
Print Assumptions planned_signs.
(** C68 with any scratch, for the requests whose result does not depend on it. *)
Theorem planned_signs_any_scratch : forall prec emax co si b (pf : nat -> fft spec_float) cs c, let N := Binary prec emax co si in
  fft_fits pf -> fft_all_clean pf -> legal c -> clean c -> no_fft c \/ (forall n, odd_fft b (pf n)) ->
  exists f sl, planned_method (N := N) c (after (N := N) pf cs) = Some (f, sl) /\
  forall x x' s s', length x = size c -> opposites b x x' -> sl <= length s -> sl <= length s' ->
  exists y y' t t', call (N := N) f x s = Returned (y, t) /\ call (N := N) f x' s' = Returned (y', t') /\ opposites b y y'.
Proof. intros prec emax co si b pf cs c. exact (signs_clean prec emax co si b pf cs c). Qed.
Print Assumptions planned_signs_any_scratch.
(** C68 for the MDCT and its inverse, with any window. *)
Theorem planned_mdct_signs : forall prec emax co si b (pf : nat -> fft spec_float) cs n w a, let N := Binary prec emax co si in
  fft_fits pf -> no_fft (CMdct n w) \/ (forall n, odd_fft b (pf n)) -> snd (plan_mdct (N := N) n w (after (N := N) pf cs)) = Ok a ->
  forall h, h = t_mdct (arc_val a) \/ h = t_imdct (arc_val a) ->
  forall x x' y y' z z' s s', opposites b x x' -> opposites b y y' -> opposites b z z' -> opposites b s s' ->
  observed_alike (fun u v => let '(p, q, r, t) := u in let '(p', q', r', t') := v in opposites b p p' /\ opposites b q q' /\ opposites b r r' /\ opposites b t t')
    (call4 (N := N) h x y z s) (call4 (N := N) h x' y' z' s').
Proof. intros prec emax co si b pf cs n w a. exact (signs_mdct prec emax co si b pf cs n w a). Qed.
Print Assumptions planned_mdct_signs.
(** C68, silence: nothing but zeros, and NaN where a table entry is not finite, results from zeros. *)
Theorem planned_silence : forall prec emax co si (pf : nat -> fft spec_float) cs c, let N := Binary prec emax co si in
  fft_fits pf -> fft_all_clean pf -> legal c -> clean c -> no_fft c \/ (forall n, odd_fft true (pf n)) ->
  exists f sl, planned_method (N := N) c (after (N := N) pf cs) = Some (f, sl) /\
  forall x s, length x = size c -> Forall is_zero x -> sl <= length s -> exists y t, call (N := N) f x s = Returned (y, t) /\ Forall zero_or_nan y.
Proof. intros prec emax co si pf cs c. exact (silent_clean prec emax co si pf cs c). Qed.
Print Assumptions planned_silence.
Theorem planned_mdct_silence : forall prec emax co si (pf : nat -> fft spec_float) cs n w a, let N := Binary prec emax co si in
  fft_fits pf -> no_fft (CMdct n w) \/ (forall n, odd_fft true (pf n)) -> snd (plan_mdct (N := N) n w (after (N := N) pf cs)) = Ok a ->
  forall h, h = t_mdct (arc_val a) \/ h = t_imdct (arc_val a) ->
  forall x y z s p q r t, Forall is_zero x -> Forall is_zero y -> Forall is_zero z -> Forall is_zero s -> call4 (N := N) h x y z s = Returned (p, q, r, t) ->
  Forall zero_or_nan p /\ Forall zero_or_nan q /\ Forall zero_or_nan r /\ Forall zero_or_nan t.
Proof. intros prec emax co si pf cs n w a. exact (silent_mdct prec emax co si pf cs n w a). Qed.
Print Assumptions planned_mdct_silence.
(** C68, silence in [f32] and [f64] with accurate [cos] and [sin]: zeros and nothing else, for the lengths a [usize] can hold. *)
Theorem silence_binary32 : forall co si (pf : nat -> fft spec_float) cs c, accurate (powerRZ 2 (- (48))) co cos -> accurate (powerRZ 2 (- (48))) si sin -> fft_fits pf -> fft_all_clean pf ->
  (forall k, k <= 64 -> power_call k c -> silent 24 128 co si pf cs c) /\
  (legal c -> naive_call c -> no_fft c -> (INR (size c + 6) * powerRZ 2 (- (24)) <= / 2)%R -> silent 24 128 co si pf cs c).
Proof. intros co si pf cs c A B C D. exact (conj (fun k => power_silent32 co si pf cs c C D k A B) (naive_silent32 co si pf cs c C D A B)). Qed.
Print Assumptions silence_binary32.
Theorem silence_binary64 : forall co si (pf : nat -> fft spec_float) cs c, accurate (powerRZ 2 (- (53))) co cos -> accurate (powerRZ 2 (- (53))) si sin -> fft_fits pf -> fft_all_clean pf ->
  (forall k, k <= 64 -> power_call k c -> silent 53 1024 co si pf cs c) /\
  (legal c -> naive_call c -> no_fft c -> (INR (size c + 93) * powerRZ 2 (- (53)) <= / 2)%R -> silent 53 1024 co si pf cs c).
Proof. intros co si pf cs c A B C D. exact (conj (fun k => power_silent64 co si pf cs c C D k A B) (naive_silent64 co si pf cs c C D A B)). Qed.
Print Assumptions silence_binary64.

Example idle_fft_fits : fft_fits (idle_fft (T := spec_float)) /\ fft_all_clean (idle_fft (T := spec_float)) /\ forall b n, odd_fft b (idle_fft n).
Proof. split; [intros n; split; reflexivity|]. split; [intros n x s s' _ _ _; reflexivity|]. intros b n. apply idle_alike. Qed.
(** A minus zero, an infinity, a NaN and a subnormal number of [f32] beside their opposites. *)
Definition odd_samples : list spec_float := [S754_zero true; S754_infinity false; S754_nan; S754_finite true 5 (-149)].
Example odd_samples_opposite : opposites true odd_samples [S754_zero true; S754_infinity true; S754_nan; S754_finite false 5 (-149)] /\
  opposites false odd_samples [S754_zero false; S754_infinity false; S754_nan; S754_finite true 5 (-149)].
Proof. split; repeat constructor. Qed.
Example planned_signs_case : forall co si, let N := binary32 co si in exists f sl, planned_method (N := N) (CDst4 64) (after (N := N) idle_fft [CDct2 10]) = Some (f, sl) /\
  forall s s', sl <= length s -> sl <= length s' -> exists y y' t t',
    call (N := N) f (odd_samples ++ repeat (S754_finite false 8388609 (-20)) 60) s = Returned (y, t) /\
    call (N := N) f (map SFopp odd_samples ++ repeat (S754_finite true 8388609 (-20)) 60) s' = Returned (y', t') /\ opposites true y y'.
Proof.
  intros co si N. destruct idle_fft_fits as (A & B & C).
  destruct (planned_signs_any_scratch 24 128 co si true idle_fft [CDct2 10] (CDst4 64) A B I I (or_introl (ex_intro _ 6 eq_refl))) as (f & sl & E & P).
  exists f, sl. split; [exact E|]. intros s s' Ls Ls'. apply P; [reflexivity| |exact Ls|exact Ls']. cbn. repeat constructor.
Qed.
(** The relation is not vacuous: the DCT2 of (1, 3) and (-1, -3), with tables that are all one. *)
Example signs_values : let N := binary32 (fun _ => f64_of 1 0) (fun _ => f64_of 1 0) in
  let one32 := S754_finite false 8388608 (-23) in let three32 := S754_finite false 12582912 (-22) in
  exists f sl, planned_method (N := N) (CDct2 2) (after (N := N) idle_fft []) = Some (f, sl) /\
  exists y y', process (N := N) f sl [one32; three32] = Returned y /\ process (N := N) f sl [SFopp one32; SFopp three32] = Returned y' /\
  y' = map SFopp y /\ nth 0 y S754_nan = S754_finite false 8388608 (-21).
Proof. eexists. eexists. split; [reflexivity|]. eexists. eexists. split; [vm_compute; reflexivity|]. split; [vm_compute; reflexivity|]. split; vm_compute; reflexivity. Qed.
(** A DCT3 of length 2^20 in [f64]. *)
Example silence_case : silent 53 1024 (rounded cos) (rounded sin) idle_fft [CDct4 7] (CDct3 (2 ^ 20)).
Proof.
  destruct rounded_trig as [C S]. destruct idle_fft_fits as (A & B & _). apply (proj1 (silence_binary64 _ _ idle_fft [CDct4 7] (CDct3 (2 ^ 20)) C S A B) 20); [lia|].
  left. split; [lia|]. right. left. reflexivity.
Qed.
(** An MDCT of length 16 with the window of MP3. *)
Example mdct_signs_case : forall co si, let N := binary64 co si in no_fft (CMdct 16 (window_mp3 (N := N))) /\
  exists a, snd (plan_mdct (N := N) 16 (window_mp3 (N := N)) (after (N := N) idle_fft [])) = Ok a.
Proof. intros co si N. split; [exists 4; reflexivity|]. eexists. reflexivity. Qed.
