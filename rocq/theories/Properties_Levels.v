(** Depth of the computation and overflow: C58, C59. *)
From Coq Require Import Reals List Lia Lra ZArith.
From Verif Require Import Prog Num Model_Common Model_Plan Model_Api Spec Spec_Api Spec_Fft Spec_Plan Spec_Methods Spec_Round Spec_Ieee Spec_Param Spec_Levels
  Param_Theorems Round_Ieee Levels_Theorems.
Import ListNotations.
Open Scope nat_scope.

(** C58: if every input is known by time [t], every output of the planned transform of length 2^k is known [a] times [adds_deep] plus [m] times [muls_deep]
    later, where [a] and [m] are the times of an addition and of a multiplication; and if no input is known before [t], some output is not known before [a] times
    [adds_deep] plus [m] times [muls_along] later.  All these numbers grow with the logarithm of the length. *)
Theorem power_of_two_depth : forall a m (pf : nat -> fft nat) cs k c, power_call k c ->
  exists f sl, planned_method (N := Clock a m) c (after (N := Clock a m) pf cs) = Some (f, sl) /\
  forall t x s, length x = 2 ^ k -> sl <= length s ->
  exists y s', call (N := Clock a m) f x s = Returned (y, s') /\ length y = 2 ^ k /\
    (Forall (fun v => v <= t) x -> Forall (fun v => v <= t + a * adds_deep c k + m * muls_deep c k) y) /\
    (Forall (fun v => t <= v) x -> Exists (fun v => t + a * adds_deep c k + m * muls_along c k <= v) y).
Proof. exact planned_depth. Qed.
Print Assumptions power_of_two_depth.
(** A DCT4 of length 2^20 when an addition takes 3 and a multiplication 4: the last output is known between 134 and 138. *)
Example power_of_two_depth_case : power_call 20 (CDct4 (2 ^ 20) : pcall nat) /\
  3 * adds_deep (CDct4 (2 ^ 20) : pcall nat) 20 + 4 * muls_deep (CDct4 (2 ^ 20) : pcall nat) 20 = 138 /\
  3 * adds_deep (CDct4 (2 ^ 20) : pcall nat) 20 + 4 * muls_along (CDct4 (2 ^ 20) : pcall nat) 20 = 134.
Proof. split; [right; split; [lia|left; reflexivity]|split; reflexivity]. Qed.

(** C59: in an arithmetic that rounds as in C48, if the inputs are at most [B] in magnitude and [B] times the gains of the additions and multiplications on the
    longest path is within the range, nothing overflows: the arithmetic with overflow gives the same result as the one without, whatever the scratch holds. *)
Theorem power_of_two_no_overflow : forall u v (N : Num R R) (top B : R), rounding u v N -> (0 <= B)%R -> (2 * ((1 + u) * (1 + v) ^ 2) <= top)%R ->
  forall (pf : nat -> fft R) (pf' : nat -> fft (option R)) cs cs' k c c', power_call k c -> call_alike (fun x o => o = Some x \/ o = None) c c' ->
  (B * add_gain u ^ adds_deep c k * mul_gain u v ^ muls_deep c k <= top)%R ->
  exists f f' sl, planned_method (N := N) c (after (N := N) pf cs) = Some (f, sl) /\
  planned_method (N := Overflow top N) c' (after (N := Overflow top N) pf' cs') = Some (f', sl) /\
  forall x s s', length x = 2 ^ k -> sl <= length s -> sl <= length s' -> Forall (fun w => (Rabs w <= B)%R) x ->
  exists y t t', call (N := N) f x s = Returned (y, t) /\ call (N := Overflow top N) f' (map Some x) s' = Returned (map Some y, t') /\
    Forall (fun w => (Rabs w <= B * add_gain u ^ adds_deep c k * mul_gain u v ^ muls_deep c k)%R) y.
Proof. exact planned_no_overflow. Qed.
Print Assumptions power_of_two_no_overflow.
(** C59, in closed form: a range of 2 to the number of additions plus one is enough. *)
Theorem power_of_two_no_overflow_closed : forall u v (N : Num R R) (top B : R), rounding u v N -> (v <= u)%R -> (0 <= B)%R -> (4 <= top)%R ->
  forall (pf : nat -> fft R) (pf' : nat -> fft (option R)) cs cs' k c c', power_call k c -> call_alike (fun x o => o = Some x \/ o = None) c c' ->
  (INR (adds_deep c k + 4 * muls_deep c k) * u <= / 2)%R -> (B * 2 ^ (adds_deep c k + 1) <= top)%R ->
  exists f f' sl, planned_method (N := N) c (after (N := N) pf cs) = Some (f, sl) /\
  planned_method (N := Overflow top N) c' (after (N := Overflow top N) pf' cs') = Some (f', sl) /\
  forall x s s', length x = 2 ^ k -> sl <= length s -> sl <= length s' -> Forall (fun w => (Rabs w <= B)%R) x ->
  exists y t t', call (N := N) f x s = Returned (y, t) /\ call (N := Overflow top N) f' (map Some x) s' = Returned (map Some y, t') /\
    Forall (fun w => (Rabs w <= B * 2 ^ (adds_deep c k + 1))%R) y.
Proof. exact planned_no_overflow_closed. Qed.
Print Assumptions power_of_two_no_overflow_closed.
(** A DST3 of length 1024 on samples up to 2^112, with the precisions of [f32] and [f64] and the range of [f32]. *)
Example power_of_two_no_overflow_case : exists f f' sl,
  planned_method (N := Ieee 24 53) (CDst3 (2 ^ 10)) (after (N := Ieee 24 53) idle_fft [CDct2 7]) = Some (f, sl) /\
  planned_method (N := Overflow (2 ^ 127) (Ieee 24 53)) (CDst3 (2 ^ 10)) (after (N := Overflow (2 ^ 127) (Ieee 24 53)) idle_fft []) = Some (f', sl) /\
  forall x s s', length x = 2 ^ 10 -> sl <= length s -> sl <= length s' -> Forall (fun w => (Rabs w <= 2 ^ 112)%R) x ->
  exists y t t', call (N := Ieee 24 53) f x s = Returned (y, t) /\ call (N := Overflow (2 ^ 127) (Ieee 24 53)) f' (map Some x) s' = Returned (map Some y, t') /\
    Forall (fun w => (Rabs w <= 2 ^ 112 * 2 ^ 15)%R) y.
Proof.
  assert (U : powerRZ 2 (- (24)) = (/ 16777216)%R) by (change ((/ 2 ^ 24)%R = (/ 16777216)%R); f_equal; rewrite pow_IZR; reflexivity).
  assert (V : powerRZ 2 (- (53)) = (/ 9007199254740992)%R) by (change ((/ 2 ^ 53)%R = (/ 9007199254740992)%R); f_equal; rewrite pow_IZR; reflexivity).
  pose proof (ieee_rounding 24 53 ltac:(lia) ltac:(lia)) as HN. rewrite U, V in HN.
  apply (power_of_two_no_overflow_closed _ _ _ (2 ^ 127) (2 ^ 112) HN) with (k := 10).
  - lra.
  - apply pow_le. lra.
  - replace 4%R with (2 ^ 2)%R by ring. apply Rle_pow; [lra|lia].
  - left. split; [lia|]. cbn [In]. auto.
  - reflexivity.
  - change (INR 38 * / 16777216 <= / 2)%R. rewrite INR_IZR_INZ. change (IZR (Z.of_nat 38)) with 38%R. lra.
  - change (2 ^ 112 * 2 ^ 15 <= 2 ^ 127)%R. rewrite <- pow_add. apply Rle_refl.
Qed.
(** Beyond the range there is overflow. *)
Example overflow_happens : lift2 4 (@add _ _ NumR) (Some 3%R) (Some 3%R) = None.
Proof. cbn [lift2 add NumR]. unfold clip. destruct (Rle_dec _ _) as [H|H]; [|reflexivity]. rewrite Rabs_right in H; lra. Qed.
