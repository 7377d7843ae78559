(** Rounding with underflow and overflow: C60. *)
From Coq Require Import Reals List Lia Lra ZArith.
From Verif Require Import Prog Num Model_Common Model_Plan Model_Api Spec Spec_Api Spec_Fft Spec_Plan Spec_Methods Spec_Round Spec_Ieee Spec_Param Spec_Levels Spec_Float
  Round_Ieee Param_Theorems Float.
Import ListNotations.
Open Scope R_scope.

(** C60: in an arithmetic that rounds, underflows gradually and overflows beyond [top], if the inputs are at most [B] in magnitude and the widest value on the longest path
    is within the range, then nothing overflows and every single output is within an explicit bound of the exact one, whatever the scratch holds. *)
Theorem power_of_two_float : forall u v eta (N : Num R R) (top B : R), rounding_under u v eta N -> 0 <= B -> 2 <= top -> 1 + (eps u v + eta) <= top ->
  forall (pf : nat -> fft (option R)) cs k (c : pcall (option R)) (c' : pcall R), power_call k c -> call_alike (fun _ _ => True) c' c ->
  widest u v eta B (adds_deep c k) (muls_deep c k) <= top ->
  exists f sl, planned_method (N := Overflow top N) c (after (N := Overflow top N) pf cs) = Some (f, sl) /\
  forall x s, length x = (2 ^ k)%nat -> (sl <= length s)%nat -> Forall (fun z => Rabs z <= B) x ->
  exists y t, call (N := Overflow top N) f (map Some x) s = Returned (map Some y, t) /\
    Forall2 (fun a b => Rabs (a - b) <= widest u v eta B (adds_deep c k) (muls_deep c k) - B * 2 ^ adds_deep c k) y (reference c' x).
Proof. exact planned_float. Qed.
Print Assumptions power_of_two_float.
(** C60 in closed form, for tables computed at least as precisely as the samples. *)
Theorem power_of_two_float_closed : forall u v eta (N : Num R R) (top B : R), rounding_under u v eta N -> v <= u <= / 1024 -> eta <= u / 2 -> 0 <= B -> 2 <= top ->
  forall (pf : nat -> fft (option R)) cs k (c : pcall (option R)) (c' : pcall R), power_call k c -> call_alike (fun _ _ => True) c' c ->
  INR (adds_deep c k + 12 * muls_deep c k) * u <= / 2 -> (B + INR (adds_deep c k + muls_deep c k) * eta) * 2 ^ (adds_deep c k + 1) <= top ->
  exists f sl, planned_method (N := Overflow top N) c (after (N := Overflow top N) pf cs) = Some (f, sl) /\
  forall x s, length x = (2 ^ k)%nat -> (sl <= length s)%nat -> Forall (fun z => Rabs z <= B) x ->
  exists y t, call (N := Overflow top N) f (map Some x) s = Returned (map Some y, t) /\
    Forall2 (fun a b => Rabs (a - b) <= 2 ^ (adds_deep c k + 1) * (INR (adds_deep c k + 12 * muls_deep c k) * u * B + INR (adds_deep c k + muls_deep c k) * eta)) y (reference c' x).
Proof. exact planned_float_same. Qed.
Print Assumptions power_of_two_float_closed.
(** C60 in closed form, for tables computed with twice the precision. *)
Theorem power_of_two_float_wide : forall u v eta (N : Num R R) (top B : R), rounding_under u v eta N -> v <= u * u -> u <= / 1024 -> eta <= u / 2 -> 0 <= B -> 2 <= top ->
  forall (pf : nat -> fft (option R)) cs k (c : pcall (option R)) (c' : pcall R), power_call k c -> call_alike (fun _ _ => True) c' c ->
  INR (adds_deep c k + 4 * muls_deep c k) * u <= / 2 -> (B + INR (adds_deep c k + muls_deep c k) * eta) * 2 ^ (adds_deep c k + 1) <= top ->
  exists f sl, planned_method (N := Overflow top N) c (after (N := Overflow top N) pf cs) = Some (f, sl) /\
  forall x s, length x = (2 ^ k)%nat -> (sl <= length s)%nat -> Forall (fun z => Rabs z <= B) x ->
  exists y t, call (N := Overflow top N) f (map Some x) s = Returned (map Some y, t) /\
    Forall2 (fun a b => Rabs (a - b) <= 2 ^ (adds_deep c k + 1) * (INR (adds_deep c k + 4 * muls_deep c k) * u * B + INR (adds_deep c k + muls_deep c k) * eta)) y (reference c' x).
Proof. exact planned_float_wide. Qed.
Print Assumptions power_of_two_float_wide.
(** C60: rounding to nearest with gradual underflow is such an arithmetic. *)
Theorem gradual_underflow_rounds : forall p e p', (1 <= p)%Z -> (e <= 0)%Z -> (1 <= p')%Z ->
  rounding_under (powerRZ 2 (- p)) (powerRZ 2 (- p')) (powerRZ 2 (e - p - 1)) (Float p e p').
Proof. exact float_rounding. Qed.
Print Assumptions gradual_underflow_rounds.

(** A DCT2 of length 1024 in [f32] on samples of magnitude at most one: each output is within 2^15 * 34 * 2^-24 of the exact one, about 0.07, plus a
    little for underflow, when the outputs themselves can be as large as 1024. *)
Example power_of_two_float_case : exists f sl,
  planned_method (N := F32) (CDct2 (2 ^ 10)) (after (N := F32) idle_fft [CDct4 6]) = Some (f, sl) /\
  forall x s, length x = (2 ^ 10)%nat -> (sl <= length s)%nat -> Forall (fun z => Rabs z <= 1) x ->
  exists y t, call (N := F32) f (map Some x) s = Returned (map Some y, t) /\
    Forall2 (fun a b => Rabs (a - b) <= 2 ^ 15 * (INR 34 * powerRZ 2 (- 24) * 1 + INR 19 * powerRZ 2 (- 150))) y (dct2 x).
Proof.
  pose proof (gradual_underflow_rounds 24 (-125) 53 ltac:(lia) ltac:(lia) ltac:(lia)) as HN. change (-125 - 24 - 1)%Z with (- 150)%Z in HN.
  assert (U : powerRZ 2 (- (24)) = / 16777216) by (change (/ 2 ^ 24 = / 16777216); f_equal; rewrite pow_IZR; reflexivity).
  assert (V : powerRZ 2 (- (53)) = / 9007199254740992) by (change (/ 2 ^ 53 = / 9007199254740992); f_equal; rewrite pow_IZR; reflexivity).
  assert (Y : 0 < powerRZ 2 (-150) <= / 2 * / 16777216).
  { split; [apply powerRZ_lt; lra|]. rewrite <- U. change (/ 2 ^ 150 <= / 2 * / 2 ^ 24). rewrite <- Rinv_mult. apply Rinv_le_contravar; [assert (0 < 2 ^ 24) by (apply pow_lt; lra); lra|].
    change (2 * 2 ^ 24) with (2 ^ 25). apply Rle_pow; [lra|lia]. }
  assert (Tp : 2 ^ 15 * 2 <= 2 ^ 128 - 2 ^ 104).
  { replace (2 ^ 15 * 2) with (2 ^ 16) by ring. replace (2 ^ 128) with (2 ^ 104 * 2 ^ 24) by (rewrite <- pow_add; reflexivity).
    assert (2 ^ 16 <= 2 ^ 104) by (apply Rle_pow; [lra|lia]). assert (2 ^ 2 <= 2 ^ 24) by (apply Rle_pow; [lra|lia]). nra. }
  assert (T2 : 2 <= 2 ^ 15 * 2) by (assert (1 <= 2 ^ 15) by (apply pow_R1_Rle; lra); lra).
  apply (power_of_two_float_wide _ _ _ _ (2 ^ 128 - 2 ^ 104) 1 HN) with (k := 10%nat) (c' := CDct2 (2 ^ 10)) (c := CDct2 (2 ^ 10) : pcall (option R)).
  - rewrite U, V. lra.
  - rewrite U. lra.
  - rewrite U. lra.
  - lra.
  - lra.
  - left. split; [lia|]. cbn [In]. auto.
  - reflexivity.
  - rewrite U. change (INR 34 * / 16777216 <= / 2). rewrite INR_IZR_INZ. change (IZR (Z.of_nat 34)) with 34. lra.
  - change ((1 + INR 19 * powerRZ 2 (-150)) * 2 ^ 15 <= 2 ^ 128 - 2 ^ 104). rewrite INR_IZR_INZ. change (IZR (Z.of_nat 19)) with 19. assert (0 < 2 ^ 15) by (apply pow_lt; lra). nra.
Qed.
(** Underflow: a quarter of the least positive number of [f32] is rounded to zero. *)
Example underflow_happens : rnd_grad 24 (-125) (powerRZ 2 (-151)) = 0.
Proof.
  unfold rnd_grad. destruct (Req_EM_T _ 0) as [E|E]; [reflexivity|]. rewrite Round_Binary.mag_pow. cbv zeta. rewrite <- Round_Binary.two_pow_add.
  assert (A : powerRZ 2 (-151 + (24 - Z.max (-151 + 1) (-125))) = / 4) by (change (/ (2 * (2 * 1)) = / 4); f_equal; ring).
  rewrite A. assert (Z : nearest_even (/ 4) = 0%Z) by (apply nearest_even_unique; left; rewrite Rminus_0_r, Rabs_right; lra). rewrite Z. ring.
Qed.
