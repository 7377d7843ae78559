(** Accuracy of the planned transforms of power-of-two length in the floating-point numbers of IEEE 754 themselves. *)
From Coq Require Import Reals List Arith Lia Lra Psatz Bool ZArith Floats.SpecFloat.
From Verif Require Import Prog Num Model_Common Model_Naive Model_Plan Model_Api Spec Spec_Api Spec_Fft Spec_Plan Spec_Methods Spec_Round Spec_Ieee
  Spec_Param Spec_Levels Spec_Float Wp Contracts Api Planner Canon Plan_Theorems Param_Theorems Interval Trig Ref Ref_Split Exact_Split Round_Binary Round_Ieee Round_Ops Round_Theorems
  Levels Levels_Plan Levels_Theorems Float Spec_Ieee754 Sf Pi_Literal.
From Verif Require Spec_Binary.
Import ListNotations.
Open Scope R_scope.
Notation Sf := Spec_Binary.Binary.
Notation SF2R := real_of.

(** ** The angles of the tables, in [f64] *)
Notation num64 := (number 53 1024).
Lemma rnd_normal x : pow2 (-1022) <= Rabs x -> sf_rnd 53 1024 x = rnd_even 53 x.
Proof. intros H. apply mag_above in H. unfold sf_rnd, rnd_grad, rnd_even. rewrite Z.max_l by lia. reflexivity. Qed.
Lemma greatest64 : pow2 1023 <= greatest 53 1024.
Proof. unfold greatest. pose proof (pow2_le (1024 - 53) 1023 ltac:(lia)). replace 1024%Z with (1 + 1023)%Z at 1 by reflexivity. rewrite two_pow_add. change (pow2 1) with (2 * 1). lra. Qed.
Lemma half_pow a : pow2 (a - 1) = pow2 a / 2.
Proof. replace a with (1 + (a - 1))%Z at 2 by lia. rewrite two_pow_add. change (pow2 1) with (2 * 1). field. Qed.
Lemma double_pow a : pow2 (a + 1) = 2 * pow2 a.
Proof. rewrite two_pow_add. change (pow2 1) with (2 * 1). ring. Qed.
Lemma step64 z x lo hi : rounds_to 53 1024 z x -> pow2 lo <= Rabs x <= pow2 hi -> (-1022 <= lo)%Z -> (hi <= 1022)%Z ->
  num64 z /\ SF2R z = rnd_even 53 x /\ pow2 (lo - 1) <= Rabs (SF2R z) <= pow2 (hi + 1).
Proof.
  intros R [L H] Hl Hh. unfold rounds_to in R. rewrite rnd_normal in R by (pose proof (pow2_le _ _ Hl); lra).
  pose proof (rnd_even_rel 53 x) as E. unfold rel in E. assert (P : pow2 (- (53)) <= / 2).
  { pose proof (pow2_le (- (53)) (- (1)) ltac:(lia)) as Q. change (pow2 (- (1))) with (/ (2 * 1)) in Q. lra. }
  pose proof (Rabs_pos x) as Px. assert (E' : Rabs (rnd_even 53 x - x) <= Rabs x / 2) by nra.
  assert (B : Rabs x / 2 <= Rabs (rnd_even 53 x) <= 2 * Rabs x).
  { pose proof (Rabs_triang_inv x (x - rnd_even 53 x)) as T1. replace (x - (x - rnd_even 53 x)) with (rnd_even 53 x) in T1 by ring. rewrite (Rabs_minus_sym x) in T1.
    pose proof (Rabs_triang (rnd_even 53 x - x) x) as T2. replace (rnd_even 53 x - x + x) with (rnd_even 53 x) in T2 by ring. lra. }
  destruct R as [Nz Ez].
  { pose proof greatest64. pose proof (pow2_le (hi + 1) 1023 ltac:(lia)) as Q. rewrite double_pow in Q. lra. }
  split; [exact Nz|]. split; [exact Ez|]. rewrite Ez, half_pow, double_pow. lra.
Qed.
Lemma of_nat64 n : (1 <= n)%nat -> INR n <= pow2 900 ->
  num64 (Spec_Binary.f64_of (Z.of_nat n) 0) /\ SF2R (Spec_Binary.f64_of (Z.of_nat n) 0) = rnd_even 53 (INR n) /\ pow2 (-1) <= Rabs (SF2R (Spec_Binary.f64_of (Z.of_nat n) 0)) <= pow2 901.
Proof.
  intros H Hn. pose proof (normalize_rounds 53 1024 ltac:(lia) ltac:(lia) (Z.of_nat n) 0 false) as R. change (pow2 0) with 1 in R. rewrite Rmult_1_r, <- INR_IZR_INZ in R.
  apply le_INR in H. change (INR 1) with 1 in H. apply (step64 _ _ 0 900 R); [|lia|lia]. rewrite Rabs_right by lra. change (pow2 0) with 1. lra.
Qed.
Definition pi64 : spec_float := Spec_Binary.f64_of 7074237752028440 (-51).
Definition two64 : spec_float := Spec_Binary.f64_of 2 0.
Lemma pi64_eq : pi64 = S754_finite false 7074237752028440 (-51). Proof. vm_compute. reflexivity. Qed.
Lemma two64_eq : two64 = S754_finite false 4503599627370496 (-51). Proof. vm_compute. reflexivity. Qed.
Lemma pow2_neg (n : nat) : (0 < n)%nat -> pow2 (- Z.of_nat n) = / 2 ^ n.
Proof. intros H. destruct n as [|n]; [lia|]. cbn [Z.of_nat Z.opp powerRZ]. rewrite SuccNat2Pos.id_succ. reflexivity. Qed.
Lemma pi64_value : SF2R pi64 = IZR 7074237752028440 * / 2 ^ 51.
Proof. rewrite pi64_eq. cbn [real_of]. change (-51)%Z with (- Z.of_nat 51)%Z. rewrite pow2_neg by lia. reflexivity. Qed.
Lemma two64_value : SF2R two64 = 2.
Proof.
  rewrite two64_eq. cbn [real_of]. change (IZR 4503599627370496) with (IZR (2 ^ 52)). rewrite <- pow2_Z, <- two_pow_add by lia. change (52 + -51)%Z with 1%Z. change (pow2 1) with (2 * 1). ring.
Qed.
Lemma pi64_rel v : pow2 (- (53)) <= v -> rel v (SF2R pi64) PI.
Proof.
  intros Hv. unfold rel. rewrite pi64_value. eapply Rle_trans; [apply pi_literal|]. pose proof PI2_3_2 as P. assert (P3 : 3 <= PI) by lra.
  rewrite Rabs_right by lra. change (pow2 (- (53))) with (pow2 (- Z.of_nat 53)) in Hv. rewrite pow2_neg in Hv by lia. assert (A : 0 < / 2 ^ 53) by (apply Rinv_0_lt_compat, pow_lt; lra).
  assert (E : / 2 ^ 52 = 2 * / 2 ^ 53) by (change 53%nat with (1 + 52)%nat; rewrite pow_add, pow_1; field; apply pow_nonzero; lra). rewrite E. nra.
Qed.
Definition angle64 (i n : nat) : spec_float :=
  SFmul 53 1024 (SFdiv 53 1024 (SFmul 53 1024 pi64 (SFopp two64)) (Spec_Binary.f64_of (Z.of_nat n) 0)) (Spec_Binary.f64_of (Z.of_nat i) 0).
(** The real-number arithmetic that computes the same table entry. *)
Definition along (A ca sa : R) : Num R R := {|
  f_of_nat := fun n => rnd_even 53 (INR n); f_pi := SF2R pi64; f_half := / 2; f_one := 1; f_two := 2; f_four := 4;
  f_neg := Ropp; f_add := Rplus; f_sub := Rminus;
  f_mul := fun a b => if Req_EM_T a 1 then b else rnd_even 53 (a * b); f_div := fun a b => rnd_even 53 (a / b);
  f_cos := fun a => if Req_EM_T a A then ca else cos a; f_sin := fun a => if Req_EM_T a A then sa else sin a; f_sqrt := sqrt;
  zero := 0; one := 1; add := Rplus; sub := Rminus; mul := Rmult; neg := Ropp; from_f64 := fun x => x; sqrt_2 := sqrt 2; frac_1_sqrt_2 := / sqrt 2 |}.
Lemma rel_weaken v w x y : rel v x y -> v <= w -> rel w x y.
Proof. unfold rel. intros H L. pose proof (Rabs_pos y). nra. Qed.
Lemma rel_exact v x : 0 <= v -> rel v x x.
Proof. intros H. unfold rel. rewrite Rminus_eq_0, Rabs_R0. apply Rmult_le_pos; [exact H|apply Rabs_pos]. Qed.
Lemma along_rounding v A ca sa : pow2 (- (53)) <= v < 1 -> Rabs (ca - cos A) <= v -> Rabs (sa - sin A) <= v -> rounding 0 v (along A ca sa).
Proof.
  intros [Hv V1] Hc Hs. pose proof (two_pow_pos (- (53))) as P. assert (V0 : 0 <= v) by lra.
  constructor; cbn [along f_of_nat f_pi f_half f_one f_two f_four f_neg f_add f_sub f_mul f_div f_cos f_sin f_sqrt zero one add sub mul neg from_f64 sqrt_2 frac_1_sqrt_2];
    intros; try reflexivity; try (apply rel_exact; lra); try lra.
  - apply (rel_weaken (pow2 (- (53)))); [apply rnd_even_rel|exact Hv].
  - apply pi64_rel, Hv.
  - destruct (Req_EM_T a 1) as [->|_]; [rewrite Rmult_1_l; apply rel_exact, V0|]. apply (rel_weaken (pow2 (- (53)))); [apply rnd_even_rel|exact Hv].
  - apply (rel_weaken (pow2 (- (53)))); [apply rnd_even_rel|exact Hv].
  - destruct (Req_EM_T a A) as [->|_]; [exact Hc|]. rewrite Rminus_eq_0, Rabs_R0. exact V0.
  - destruct (Req_EM_T a A) as [->|_]; [exact Hs|]. rewrite Rminus_eq_0, Rabs_R0. exact V0.
Qed.
Definition theta (N : Num R R) (i n : nat) : R := f_mul (f_div (f_mul f_pi (f_neg f_two)) (f_of_nat n)) (f_of_nat i).
Lemma angle64_ok i n : (1 <= i)%nat -> (1 <= n)%nat -> INR i <= pow2 900 -> INR n <= pow2 900 ->
  num64 (angle64 i n) /\ forall A ca sa, theta (along A ca sa) i n = SF2R (angle64 i n).
Proof.
  intros Hi Hn Bi Bn. destruct (of_nat64 i Hi Bi) as (Ni & Vi & Mi). destruct (of_nat64 n Hn Bn) as (Nn & Vn & Mn).
  assert (Np : num64 pi64) by (rewrite pi64_eq; vm_compute; reflexivity).
  assert (Nt : num64 two64) by (rewrite two64_eq; vm_compute; reflexivity).
  destruct (SFopp_ok 53 1024 two64 Nt) as [No Vo]. rewrite two64_value in Vo.
  assert (Bp : 2 <= SF2R pi64 <= 4).
  { rewrite pi64_value. assert (P : 0 < / 2 ^ 51) by (apply Rinv_0_lt_compat, pow_lt; lra).
    assert (I : 2 ^ 51 * / 2 ^ 51 = 1) by (apply Rinv_r, pow_nonzero; lra). assert (L : 2 * 2 ^ 51 <= IZR 7074237752028440 <= 4 * 2 ^ 51).
    { rewrite pow_IZR, <- !mult_IZR. split; apply IZR_le; vm_compute; discriminate. }
    set (w := / 2 ^ 51) in * . set (z := IZR 7074237752028440) in * . clearbody z. split.
    - replace 2 with (2 * 2 ^ 51 * w) by (rewrite Rmult_assoc, I; ring). apply Rmult_le_compat_r; lra.
    - replace 4 with (4 * 2 ^ 51 * w) by (rewrite Rmult_assoc, I; ring). apply Rmult_le_compat_r; lra. }
  unfold angle64. set (t1 := SFmul 53 1024 pi64 (SFopp two64)).
  assert (A1 : num64 t1 /\ SF2R t1 = rnd_even 53 (SF2R pi64 * - (2)) /\ pow2 1 <= Rabs (SF2R t1) <= pow2 4).
  { rewrite <- Vo. apply (step64 _ _ 2 3); [apply SFmul_rounds; try lia; assumption| |lia|lia]. rewrite Vo, Rabs_mult, (Rabs_right (SF2R pi64)), (Rabs_left (- (2))) by lra.
    change (pow2 2) with (2 * (2 * 1)). change (pow2 3) with (2 * (2 * (2 * 1))). lra. }
  destruct A1 as (N1 & V1 & M1). set (d := Spec_Binary.f64_of (Z.of_nat n) 0) in * . set (t2 := SFdiv 53 1024 t1 d).
  assert (Dn : 0 < Rabs (SF2R d)) by (pose proof (two_pow_pos (-1)); lra). assert (Dz : SF2R d <> 0) by (intros Z; rewrite Z, Rabs_R0 in Dn; lra).
  assert (A2 : num64 t2 /\ SF2R t2 = rnd_even 53 (SF2R t1 / SF2R d) /\ pow2 (-901) <= Rabs (SF2R t2) <= pow2 6).
  { apply (step64 _ _ (-900) 5); [apply SFdiv_rounds; try lia; assumption| |lia|lia]. unfold Rdiv. rewrite Rabs_mult, Rabs_inv.
    pose proof (two_pow_pos 1). split; apply (Rmult_le_reg_r (Rabs (SF2R d)) _ _ Dn); rewrite (Rmult_assoc (Rabs (SF2R t1))), Rinv_l, Rmult_1_r by lra.
    - apply Rle_trans with (pow2 (-900) * pow2 901); [apply Rmult_le_compat_l; [left; apply two_pow_pos|lra]|]. rewrite <- two_pow_add. change (-900 + 901)%Z with 1%Z. lra.
    - apply Rle_trans with (pow2 5 * pow2 (-1)); [|apply Rmult_le_compat_l; [left; apply two_pow_pos|lra]]. rewrite <- two_pow_add. change (5 + -1)%Z with 4%Z. lra. }
  destruct A2 as (N2 & V2 & M2). set (b := Spec_Binary.f64_of (Z.of_nat i) 0) in * .
  assert (R3 : rounds_to 53 1024 (SFmul 53 1024 t2 b) (SF2R t2 * SF2R b)) by (apply SFmul_rounds; try lia; assumption).
  assert (A3 : num64 (SFmul 53 1024 t2 b) /\ SF2R (SFmul 53 1024 t2 b) = rnd_even 53 (SF2R t2 * SF2R b) /\ pow2 (-903) <= Rabs (SF2R (SFmul 53 1024 t2 b)) <= pow2 908).
  { apply (step64 _ _ (-902) 907 R3); [|lia|lia]. rewrite Rabs_mult.
    replace (pow2 (-902)) with (pow2 (-901) * pow2 (-1)) by (rewrite <- two_pow_add; reflexivity). replace (pow2 907) with (pow2 6 * pow2 901) by (rewrite <- two_pow_add; reflexivity).
    split; apply Rmult_le_compat; try apply Rabs_pos; try (left; apply two_pow_pos); lra. }
  destruct A3 as (N3 & V3 & M3). split; [exact N3|]. intros A ca sa. unfold theta. cbn [along f_mul f_div f_neg f_two f_pi f_of_nat].
  destruct (Req_EM_T (SF2R pi64) 1); [lra|]. rewrite <- V1, <- Vn, <- V2, <- Vi. destruct (Req_EM_T (SF2R t2) 1) as [E|_]; [|symmetry; exact V3].
  unfold rounds_to in R3. rewrite E, Rmult_1_l in R3. destruct (sf_rnd_number 53 1024 ltac:(lia) b Ni) as [Rb Tb]. rewrite Rb in R3. symmetry. apply R3, Tb.
Qed.

(** ** The transforms *)
Section Sf.
Variables (prec emax : Z) (v : R) (co si : spec_float -> spec_float) (B : R).
Hypothesis (Hp : (2 <= prec)%Z) (He : (3 <= emax)%Z) (Hv : pow2 (- (53)) <= v < 1) (Hco : accurate v co cos) (Hsi : accurate v si sin) (HB : 0 <= B).
Notation num := (number prec emax).
Notation top := (greatest prec emax).
Notation rnd := (sf_rnd prec emax).
Notation u := (pow2 (- prec)).
Notation eta := (pow2 (2 - emax - prec)).
Notation rim := (rim u v eta).
Notation span := (span u v eta B).
Notation err := (err u v eta B).
Hypothesis (Hr : 1 + rim <= top).
Definition NF : Num R R := Float prec (3 - emax) 53.
Lemma sf_rounding : rounding_under u v eta NF.
Proof.
  destruct Hv as [Hv1 Hv2].
  pose proof (float_rounding prec (3 - emax) 53 ltac:(lia) ltac:(lia) ltac:(lia)) as R. replace (3 - emax - prec - 1)%Z with (2 - emax - prec)%Z in R by lia. fold NF in R.
  pose proof (two_pow_pos (- (53))). destruct R. constructor; try assumption; try lra; intros; try (eapply rel_weaken; [|exact Hv1]; auto; fail); eapply Rle_trans; eauto.
Qed.
Notation HN := sf_rounding.
Lemma rnd_close x : close u eta (rnd x) x.
Proof. pose proof (rnd_grad_close prec (3 - emax) x) as R. replace (3 - emax - prec - 1)%Z with (2 - emax - prec)%Z in R by lia. exact R. Qed.
Lemma top_2 : 2 <= top.
Proof.
  unfold greatest. pose proof (pow2_le (emax - prec) (emax - 1) ltac:(lia)) as A. replace emax with (1 + (emax - 1))%Z at 1 by lia. rewrite two_pow_add. change (pow2 1) with (2 * 1).
  pose proof (pow2_le 1 (emax - 1) ltac:(lia)) as C. change (pow2 1) with (2 * 1) in C. lra.
Qed.
Lemma convert_rounds z : num64 z -> rounds_to prec emax (Spec_Binary.convert prec emax z) (SF2R z).
Proof.
  destruct z as [s| | |s m e]; try contradiction; intros _; cbn [Spec_Binary.convert].
  - intros _. cbn [real_of]. rewrite sf_rnd_0. split; [exact I|reflexivity].
  - change (SF2R (S754_finite s m e)) with (signed s (IZR (Zpos m) * pow2 e)). apply round_rounds; lia.
Qed.
Definition near_sf (e : R) (z : spec_float) (x : R) : Prop := num z /\ Rabs (SF2R z - x) <= e.
Definition lev_s (i j : nat) (p : spec_float * R) : Prop := span i j <= top -> near_sf (span i j - B * 2 ^ i) (fst p) (snd p) /\ Rabs (snd p) <= B * 2 ^ i.
Definition ent_s (p : spec_float * R) : Prop := near_sf rim (fst p) (snd p) /\ Rabs (snd p) <= 1.
Notation NB := (Both (Sf prec emax co si) NumR).
(** As [clipped]. *)
Lemma settled z e w x m : rounds_to prec emax z w -> Rabs (rnd w - x) <= e -> Rabs x <= m -> e + m <= top -> near_sf e z x.
Proof.
  intros R H Hx Hm. destruct R as [Nz Ez]; [|split; [exact Nz|rewrite Ez; exact H]].
  replace (rnd w) with (rnd w - x + x) by ring. eapply Rle_trans; [apply Rabs_triang|]. lra.
Qed.
Lemma neg_near e z x : near_sf e z x -> near_sf e (SFopp z) (- x).
Proof.
  intros [Nz H]. destruct (SFopp_ok prec emax z Nz) as [A E]. split; [exact A|]. rewrite E. replace (- SF2R z - - x) with (- (SF2R z - x)) by ring. rewrite Rabs_Ropp. exact H.
Qed.
Lemma ent_convert z t : num64 z -> Rabs (SF2R z - t) <= eps 0 v -> Rabs t <= 1 -> ent_s (Spec_Binary.convert prec emax z, t).
Proof.
  intros Nz H Ht. split; [|exact Ht]. cbn [fst snd]. apply (settled _ _ (SF2R z) _ 1); [apply convert_rounds, Nz| |exact Ht|lra].
  apply (from_close _ _ _ _ HN); assumption.
Qed.
Lemma one_times z : num64 z -> num64 (SFmul 53 1024 (Spec_Binary.f64_of 1 0) z) /\ SF2R (SFmul 53 1024 (Spec_Binary.f64_of 1 0) z) = SF2R z.
Proof.
  intros Nz. assert (N1 : num64 (Spec_Binary.f64_of 1 0)) by (vm_compute; reflexivity).
  assert (V1 : SF2R (Spec_Binary.f64_of 1 0) = 1).
  { replace (Spec_Binary.f64_of 1 0) with (S754_finite false 4503599627370496 (-52)) by (vm_compute; reflexivity). cbn [real_of].
    change (IZR 4503599627370496) with (IZR (2 ^ 52)). rewrite <- pow2_Z, <- two_pow_add by lia. reflexivity. }
  pose proof (SFmul_rounds 53 1024 ltac:(lia) ltac:(lia) _ z N1 Nz) as R. rewrite V1, Rmult_1_l in R. destruct (sf_rnd_number 53 1024 ltac:(lia) z Nz) as [E T].
  unfold rounds_to in R. rewrite E in R. apply R, T.
Qed.
Lemma half_value : near_sf 0 (Spec_Binary.convert prec emax (Spec_Binary.f64_of 1 (-1))) (/ 2).
Proof.
  assert (N1 : num64 (Spec_Binary.f64_of 1 (-1))) by (vm_compute; reflexivity).
  assert (V1 : SF2R (Spec_Binary.f64_of 1 (-1)) = / 2).
  { replace (Spec_Binary.f64_of 1 (-1)) with (S754_finite false 4503599627370496 (-53)) by (vm_compute; reflexivity). cbn [real_of].
    change (IZR 4503599627370496) with (IZR (2 ^ 52)). rewrite <- pow2_Z, <- two_pow_add by lia. change (/ (2 * 1) = / 2). f_equal. ring. }
  pose proof (convert_rounds _ N1) as R. rewrite V1 in R. pose proof (w_from_half _ _ _ _ HN : rnd (/ 2) = / 2) as E. pose proof top_2.
  apply (settled _ _ (/ 2) _ 1 R); [rewrite E, Rminus_eq_0, Rabs_R0; lra|rewrite Rabs_right; lra|lra].
Qed.
Lemma two_value : near_sf 0 (Spec_Binary.convert prec emax (Spec_Binary.f64_of 2 0)) 2.
Proof.
  assert (N1 : num64 two64) by (vm_compute; reflexivity).
  pose proof (convert_rounds _ N1) as R. rewrite two64_value in R. pose proof (w_from_two _ _ _ _ HN : rnd 2 = 2) as E. pose proof top_2.
  apply (settled _ _ 2 _ 2 R); [rewrite E, Rminus_eq_0, Rabs_R0; lra|rewrite Rabs_right; lra|lra].
Qed.
Lemma eps_v : v <= eps 0 v.
Proof.
  pose proof (two_pow_pos (- (53))). unfold eps, eps_of, rho. assert (1 <= / (1 - v)) by (rewrite <- Rinv_1 at 1; apply Rinv_le_contravar; lra).
  assert (1 <= (1 + v) ^ 5) by (apply pow_R1_Rle; lra). assert (1 <= (1 + v) ^ 5 * / (1 - v)) by nra. nra.
Qed.
Lemma frac_ent : ent_s (@frac_1_sqrt_2 _ _ NB).
Proof.
  cbn [frac_1_sqrt_2 Both Spec_Binary.Binary NumR]. apply ent_convert; [vm_compute; reflexivity| |rewrite Rabs_right; pose proof frac_ge; lra].
  replace (Spec_Binary.f64_of 6369051672525773 (-53)) with (S754_finite false 6369051672525773 (-53)) by (vm_compute; reflexivity). cbn [real_of].
  change (-53)%Z with (- Z.of_nat 53)%Z. rewrite pow2_neg by lia. eapply Rle_trans; [apply frac_literal|]. pose proof eps_v. destruct Hv as [Hv1 _].
  change (pow2 (- (53))) with (pow2 (- Z.of_nat 53)) in Hv1. rewrite pow2_neg in Hv1 by lia. lra.
Qed.
Lemma table_near q i : (i < q)%nat -> INR (16 * q) <= pow2 900 ->
  ent_s (fst (c_conj (N := NB) (single_twiddle (N := NB) (2 * i + 1) (16 * q)))) /\ ent_s (snd (c_conj (N := NB) (single_twiddle (N := NB) (2 * i + 1) (16 * q)))).
Proof.
  intros Hi Hq. destruct (angle64_ok (2 * i + 1) (16 * q)) as [Na Va]; [lia|lia| |exact Hq|].
  { eapply Rle_trans; [|exact Hq]. apply le_INR. lia. }
  destruct (Hco _ Na) as [Nc Ec]. destruct (Hsi _ Na) as [Ns Es]. set (A := SF2R (angle64 (2 * i + 1) (16 * q))) in * .
  set (ca := SF2R (co (angle64 (2 * i + 1) (16 * q)))) in * . set (sa := SF2R (si (angle64 (2 * i + 1) (16 * q)))) in * .
  pose proof (q_twiddle_err 0 v (along A ca sa) (along_rounding v A ca sa Hv Ec Es) q i Hi) as Q. cbv zeta in Q.
  assert (Tw : c_conj (N := along A ca sa) (single_twiddle (N := along A ca sa) (2 * i + 1) (16 * q)) = (ca, - sa)).
  { unfold c_conj, single_twiddle, from_polar. cbv zeta. cbn [fst snd]. fold (theta (along A ca sa) (2 * i + 1) (16 * q)). rewrite Va.
    cbn [along f_mul f_one f_cos f_sin neg from_f64]. destruct (Req_EM_T 1 1); [|lra]. destruct (Req_EM_T A A); [reflexivity|contradiction]. }
  rewrite Tw in Q. cbn [fst snd] in Q.
  assert (Eq : fst (c_conj (N := NumR) (single_twiddle (N := NumR) (2 * i + 1) (16 * q))) = cz (8 * zn q) (2 * zn i + 1) /\ snd (c_conj (N := NumR) (single_twiddle (N := NumR) (2 * i + 1) (16 * q))) = sz (8 * zn q) (2 * zn i + 1)).
  { rewrite conj_twiddle by lia. split; reflexivity. }
  destruct Q as [Qc Qs]. destruct Eq as [Qe Qf]. rewrite <- Qe in Qc. rewrite <- Qf in Qs.
  assert (Bc : Rabs (fst (c_conj (N := NumR) (single_twiddle (N := NumR) (2 * i + 1) (16 * q)))) <= 1) by (rewrite Qe; apply cos_le1).
  assert (Bs : Rabs (snd (c_conj (N := NumR) (single_twiddle (N := NumR) (2 * i + 1) (16 * q)))) <= 1) by (rewrite Qf; apply sin_le1).
  destruct (one_times _ Nc) as [Mc Wc]. destruct (one_times _ Ns) as [Ms Ws]. split.
  - refine (ent_convert _ (fst (c_conj (N := NumR) (single_twiddle (N := NumR) (2 * i + 1) (16 * q)))) Mc _ Bc). rewrite Wc. exact Qc.
  - assert (B' : Rabs (snd (single_twiddle (N := NumR) (2 * i + 1) (16 * q))) <= 1) by (rewrite <- Rabs_Ropp; exact Bs).
    destruct (ent_convert _ (snd (single_twiddle (N := NumR) (2 * i + 1) (16 * q))) Ms) as [D _]; [rewrite Ws; apply neg_dist; exact Qs|exact B'|].
    apply neg_near in D. split; [exact D|exact Bs].
Qed.
Lemma sf_leveled k : (k <= 890)%nat -> leveled (N := NB) (2 ^ (k + 2)) lev_s ent_s.
Proof.
  intros Hk. pose proof (rim_ge _ _ _ _ HN) as Rg. pose proof top_2 as T2. pose proof (two_pow_pos (- prec)) as Pu. pose proof (two_pow_pos (2 - emax - prec)) as Pe. constructor.
  - intros a m a' m' [o x] Ha Hm H K. pose proof (span_mono _ _ _ _ _ HN HB a m a' m' Ha Hm). destruct H as [[Ny Hy] Hx]; [lra|]. cbn [fst snd] in * .
    pose proof (err_mono _ _ _ _ _ HN HB a m a' m' Ha Hm). pose proof (err_ge _ _ _ _ _ HN HB a m). assert (2 ^ a <= 2 ^ a') by (apply Rle_pow; [lra|exact Ha]). pose proof (p2 a).
    split; [|cbn [snd]; nra]. split; [exact Ny|]. cbn [fst snd]. rewrite span_err in * . nra.
  - intros K. split; [|cbn; rewrite Rabs_R0; lra]. split; [exact I|]. cbn [fst snd zero Both Spec_Binary.Binary NumR real_of].
    rewrite Rminus_0_r, Rabs_R0, span_err. pose proof (err_ge _ _ _ _ _ HN HB 0 0). cbn [pow]. lra.
  - intros a m [o x] H K. destruct (H K) as [Ho Hx]. cbn [fst snd] in * . cbn [fst snd neg Both Spec_Binary.Binary NumR]. split; [apply neg_near, Ho|]. cbn [snd]. rewrite Rabs_Ropp. exact Hx.
  - intros a m [o x] [o' y] Ix Iy K. pose proof (span_mono _ _ _ _ _ HN HB a m (S a) m ltac:(lia) ltac:(lia)). destruct Ix as [[Nx Ex] Hx]; [lra|]. destruct Iy as [[Ny Ey] Hy]; [lra|].
    cbn [fst snd] in * . cbn [fst snd add Both Spec_Binary.Binary NumR].
    assert (X : Rabs (x + y) <= B * 2 ^ S a) by (cbn [pow]; pose proof (Rabs_triang x y); lra). split; [|exact X].
    apply (settled _ _ (SF2R o + SF2R o') _ (B * 2 ^ S a)); [apply SFadd_rounds; try lia; assumption| |exact X|lra].
    eapply Rle_trans; [apply (op_close _ _ _ _ HN _ _ _ _ _ _ (B * 2 ^ a) (rnd_close _) Ex Ey Hx Hy)|].
    pose proof (span_add _ _ _ _ B HN a m). cbn [pow]. lra.
  - intros a m [o x] [o' y] Ix Iy K. pose proof (span_mono _ _ _ _ _ HN HB a m (S a) m ltac:(lia) ltac:(lia)). destruct Ix as [[Nx Ex] Hx]; [lra|]. destruct Iy as [[Ny Ey] Hy]; [lra|].
    cbn [fst snd] in * . cbn [fst snd sub Both Spec_Binary.Binary NumR].
    assert (X : Rabs (x - y) <= B * 2 ^ S a) by (cbn [pow]; pose proof (Rabs_triang x (- y)) as Q; rewrite Rabs_Ropp in Q; unfold Rminus; lra). split; [|exact X].
    apply (settled _ _ (SF2R o - SF2R o') _ (B * 2 ^ S a)); [apply SFsub_rounds; try lia; assumption| |exact X|lra].
    eapply Rle_trans; [apply (op_close _ _ _ _ HN _ x (- y) (SF2R o) (- SF2R o') _ (B * 2 ^ a) (rnd_close _) Ex)|].
    + replace (- SF2R o' - - y) with (- (SF2R o' - y)) by ring. rewrite Rabs_Ropp. exact Ey.
    + exact Hx.
    + rewrite Rabs_Ropp. exact Hy.
    + pose proof (span_add _ _ _ _ B HN a m). cbn [pow]. lra.
  - intros a m [o x] [o' t] [[Nt Et] Bt] Ix K. pose proof (span_mono _ _ _ _ _ HN HB a m a (S m) ltac:(lia) ltac:(lia)). destruct Ix as [[Nx Ex] Hx]; [lra|].
    cbn [fst snd] in * . cbn [fst snd mul Both Spec_Binary.Binary NumR].
    assert (X : Rabs (x * t) <= B * 2 ^ a) by (rewrite Rabs_mult; pose proof (Rabs_pos x); pose proof (Rabs_pos t); nra). split; [|exact X].
    apply (settled _ _ (SF2R o * SF2R o') _ (B * 2 ^ a)); [apply SFmul_rounds; try lia; assumption| |exact X|lra].
    eapply Rle_trans; [apply (mul_close _ _ _ _ HN _ _ _ _ _ _ (B * 2 ^ a) (rnd_close _) Ex Et Hx Bt)|].
    pose proof (span_mul _ _ _ _ B HN a m). lra.
  - intros a m [o x] Ix K. pose proof (span_mono _ _ _ _ _ HN HB a m (S a) (S m) ltac:(lia) ltac:(lia)). destruct Ix as [[Nx Ex] Hx]; [lra|].
    cbn [fst snd] in * . unfold two. cbn [fst snd mul from_f64 f_two Both Spec_Binary.Binary NumR].
    destruct two_value as [Nw Ew]. assert (Vw : SF2R (Spec_Binary.convert prec emax (Spec_Binary.f64_of 2 0)) = 2) by (apply abs_inv in Ew; lra).
    assert (X : Rabs (x * 2) <= B * 2 ^ S a) by (rewrite Rabs_mult, (Rabs_right 2) by lra; cbn [pow]; lra). split; [|exact X].
    pose proof (SFmul_rounds prec emax ltac:(lia) ltac:(lia) _ _ Nx Nw) as R. rewrite Vw in R.
    apply (settled _ _ _ _ (B * 2 ^ S a) R); [|exact X|lra].
    pose proof (rnd_close (SF2R o * 2)) as C. replace (SF2R o * 2) with (SF2R o + SF2R o) in * by ring. cbn [snd]. replace (x * 2) with (x + x) by ring.
    eapply Rle_trans; [apply (op_close _ _ _ _ HN _ _ _ _ _ _ (B * 2 ^ a) C Ex Ex Hx Hx)|].
    pose proof (span_add _ _ _ _ B HN a m). pose proof (span_mono _ _ _ _ _ HN HB (S a) m (S a) (S m) ltac:(lia) ltac:(lia)). cbn [pow] in * . lra.
  - destruct half_value as [Nh Eh]. split; [|change (Rabs (/ 2) <= 1); rewrite Rabs_right; lra]. split; [exact Nh|]. eapply Rle_trans; [exact Eh|]. lra.
  - apply frac_ent.
  - apply room_for.
  - intros q i Hq Hi. apply table_near; [exact Hi|]. apply le_INR in Hq. rewrite pow_INR in Hq. change (INR 2) with 2 in Hq. rewrite mult_INR. 
    assert (E : 2 ^ (k + 2) <= 2 ^ 892) by (apply Rle_pow; [lra|lia]). replace (INR 16) with (2 ^ 4) by (simpl; ring).
    change (pow2 900) with (2 ^ 900). apply Rle_trans with (2 ^ 4 * 2 ^ 892); [apply Rmult_le_compat_l; [apply pow_le|]; lra|]. rewrite <- pow_add. apply Rle_pow; [lra|lia].
Qed.
Notation NS := (Sf prec emax co si).
Lemma planned_sf (pf : nat -> fft spec_float) cs k (c : pcall spec_float) (c' : pcall R) : (k <= 890)%nat -> power_call k c -> call_alike (fun _ _ => True) c' c ->
  span (adds_deep c k) (muls_deep c k) <= top ->
  exists f sl, planned_method (N := NS) c (after (N := NS) pf cs) = Some (f, sl) /\
  forall x s, length x = (2 ^ k)%nat -> (sl <= length s)%nat -> Forall num x -> Forall (fun z => Rabs (SF2R z) <= B) x ->
  exists y t, call (N := NS) f x s = Returned (y, t) /\ Forall num y /\
    Forall2 (fun z b => Rabs (SF2R z - b) <= span (adds_deep c k) (muls_deep c k) - B * 2 ^ adds_deep c k) y (reference c' (map SF2R x)).
Proof.
  intros Hk Hc Ha Hs.
  assert (Z : exists c2 : pcall (spec_float * R), call_alike (fun (x : spec_float) p => fst p = x) c c2 /\ call_alike (fun (x : R) p => snd p = x) c' c2).
  { assert (P : match c with CMdct _ _ => False | _ => True end) by (destruct Hc as [[_ H]|[_ H]]; cbn [In] in H; repeat (destruct H as [<-|H]; [exact I|]); contradiction).
    destruct c, c'; try contradiction Ha; try contradiction P; cbn [call_alike] in Ha; subst.
    all: [> eexists (CDct1 _) | eexists (CDct2 _) | eexists (CDct3 _) | eexists (CDct4 _) | eexists (CDct5 _) | eexists (CDct6 _) | eexists (CDct7 _) | eexists (CDct8 _)
          | eexists (CDst1 _) | eexists (CDst2 _) | eexists (CDst3 _) | eexists (CDst4 _) | eexists (CDst5 _) | eexists (CDst6 _) | eexists (CDst7 _) | eexists (CDst8 _)];
      split; reflexivity. }
  destruct Z as (c2 & Al & Ar). pose proof (power_call_alike k _ c c2 Hc Al) as Hc2.
  assert (Ea : adds_deep c2 k = adds_deep c k) by (destruct c, c2; try contradiction Al; reflexivity).
  assert (Em : muls_deep c2 k = muls_deep c k) by (destruct c, c2; try contradiction Al; reflexivity).
  assert (Hc' : power_call k c').
  { apply (power_call_alike k (fun _ _ => True) c c' Hc). destruct c, c'; try contradiction Ha; cbn [call_alike] in * ; auto.
    exfalso. destruct Hc as [[_ H]|[_ H]]; cbn [In] in H; repeat (destruct H as [H|H]; [discriminate|]); contradiction. }
  destruct (planned_has (N := NB) _ _ _ _ _ _ (depth_closed _ _ _ (sf_leveled k Hk)) idle_fft [] k c2 Hc2) as (f2 & sl & E2 & g2 & C2 & R2).
  apply (chosen_deep (N := NB) _ _ _ (sf_leveled k Hk) k c2 g2 (room k) Hc2) in R2.
  pose proof (planned_alike _ _ _ (both_left (N1 := NS) (N2 := NumR)) pf idle_fft c c2 cs [] (or_introl (power_no_fft k c Hc)) Al) as R. rewrite E2 in R.
  destruct (planned_method c (after pf cs)) as [[f sl']|] eqn:E; [|contradiction]. destruct R as [-> R].
  exists f, sl. split; [reflexivity|]. intros x s Lx Ls Nx Hx.
  destruct (planned_related _ _ _ (both_right (N1 := NS) (N2 := NumR)) idle_fft c' c2 []) as (h & sl3 & E3 & Q).
  { destruct Hc' as [[_ H]|[_ H]]; cbn [In] in H; repeat (destruct H as [<-|H]; [cbn [legal]; try exact I; try (pose proof (pow_pos k); lia)|]); try contradiction. }
  { exact Ar. }
  { left. apply (power_no_fft k c' Hc'). }
  rewrite E2 in E3. injection E3 as <- <-.
  set (x2 := combine x (map SF2R x)).
  assert (L2 : length x2 = (2 ^ k)%nat) by (unfold x2; rewrite combine_length, map_length; lia).
  assert (Fl : Forall2 (fun o p => fst p = o) x x2) by (unfold x2; clear; induction x; constructor; auto).
  assert (Fr : Forall2 (fun o p => snd p = o) (map SF2R x) x2) by (unfold x2; clear; induction x; constructor; auto).
  destruct (Q (map SF2R x) x2) as (y2 & P2 & Fy); [destruct Hc' as [[_ H]|[_ H]]; cbn [In] in H; repeat (destruct H as [<-|H]; [rewrite map_length; exact Lx|]); contradiction|exact Fr|].
  destruct (computes_implements (N := NB) f2 _ _ g2 C2 x2 (repeat (@zero _ _ NB) sl) L2 ltac:(rewrite repeat_length; lia)) as (t2 & A2 & _).
  assert (Y2 : y2 = map (g2 x2) (seq 0 (length x2))) by (unfold process in P2; rewrite A2 in P2; injection P2 as <-; reflexivity).
  assert (H : Forall (lev_s (adds_deep c k) (muls_deep c k)) y2).
  { subst y2. apply Forall_forall. intros y Hy. apply in_map_iff in Hy. destruct Hy as (q & <- & Hq). apply in_seq in Hq.
    rewrite <- Ea, <- Em, <- (Nat.add_0_r (adds_deep c2 k)), <- (Nat.add_0_r (muls_deep c2 k)). apply R2; [exact L2| |lia].
    intros q' Hq' _. unfold x2. change (@zero _ _ NB) with (@zero _ _ NS, 0). rewrite combine_nth by (rewrite map_length; reflexivity). cbn [fst snd].
    replace (nth q' (map SF2R x) 0) with (SF2R (nth q' x (@zero _ _ NS))) by (symmetry; apply (map_nth real_of x (@zero _ _ NS))).
    assert (I : In (nth q' x (@zero _ _ NS)) x) by (apply nth_In; lia). rewrite Forall_forall in Hx, Nx. specialize (Hx _ I). specialize (Nx _ I).
    split; [|cbn [pow snd]; lra]. split; [exact Nx|]. cbn [fst snd]. rewrite Rminus_eq_0, Rabs_R0, span_err. pose proof (err_ge _ _ _ _ _ HN HB 0 0). cbn [pow]. lra. }
  destruct (planned_has (N := NS) _ _ _ _ _ _ any_closed pf cs k c Hc) as (f3 & sl3 & E3 & (g & C & _)). rewrite E in E3. injection E3 as <- <-.
  destruct (computes_implements (N := NS) f _ _ g C x s Lx Ls) as (t & A & _).
  destruct (computes_implements (N := NS) f _ _ g C x (repeat (@zero _ _ (NS)) sl) Lx ltac:(rewrite repeat_length; lia)) as (t3 & A3 & _).
  pose proof (process_vectors _ _ _ (both_left (N1 := NS) (N2 := NumR)) f f2 sl _ _ R Fl) as O. rewrite P2 in O. unfold process in O. rewrite A3 in O. cbn [observed_alike] in O.
  rewrite A. set (y1 := map (g _) _) in * . clearbody y1. exists y1, t. split; [reflexivity|]. clear - O H Hs Fy.
  revert H y1 O. induction Fy as [|b p lr l2 D Fy IH]; intros H y1 O; inversion O as [|? ? ? ? O1 O2]; subst; [split; constructor|].
  inversion H as [|? ? H1 H2]; subst. destruct (IH H2 _ O2) as [IA IB]. destruct (H1 Hs) as [[Nw Bw] _]. split; constructor; assumption.
Qed.
End Sf.

(** ** Closed forms *)
Lemma planned_sf_closed w prec emax v co si B : (2 <= prec)%Z -> (3 <= emax)%Z -> pow2 (- (53)) <= v < 1 -> accurate v co cos -> accurate v si sin -> 0 <= B ->
  let u := pow2 (- prec) in let eta := pow2 (2 - emax - prec) in
  1 + (eps u v + eta) <= greatest prec emax -> (1 + u) * (1 + eps u v + eta) <= (1 + u) ^ w ->
  forall (pf : nat -> fft spec_float) cs k (c : pcall spec_float) (c' : pcall R), (k <= 890)%nat -> power_call k c -> call_alike (fun _ _ => True) c' c ->
  INR (adds_deep c k + w * muls_deep c k) * u <= / 2 -> (B + INR (adds_deep c k + muls_deep c k) * eta) * 2 ^ (adds_deep c k + 1) <= greatest prec emax ->
  exists f sl, planned_method (N := Sf prec emax co si) c (after (N := Sf prec emax co si) pf cs) = Some (f, sl) /\
  forall x s, length x = (2 ^ k)%nat -> (sl <= length s)%nat -> Forall (number prec emax) x -> Forall (fun z => Rabs (real_of z) <= B) x ->
  exists y t, call (N := Sf prec emax co si) f x s = Returned (y, t) /\ Forall (number prec emax) y /\
    Forall2 (fun z b => Rabs (real_of z - b) <= 2 ^ (adds_deep c k + 1) * (INR (adds_deep c k + w * muls_deep c k) * u * B + INR (adds_deep c k + muls_deep c k) * eta)) y (reference c' (map real_of x)).
Proof.
  intros Hp He Hv Hco Hsi HB u eta Hr Hw pf cs k c c' Hk Hc Ha Hq Hm.
  pose proof (sf_rounding prec emax v Hp He Hv) as HN. fold u eta in HN.
  assert (Hn : 0 <= eps u v) by (apply eps_nonneg; [apply (w_u _ _ _ _ HN)|apply (w_v _ _ _ _ HN)]).
  destruct (widest_closed u v eta B w _ _ (w_u _ _ _ _ HN) (w_eta _ _ _ _ HN) HB Hn Hw Hq) as [W1 W2].
  destruct (planned_sf prec emax v co si B Hp He Hv Hco Hsi HB Hr pf cs k c c' Hk Hc Ha (Rle_trans _ _ _ W1 Hm)) as (f & sl & E & H). exists f, sl. split; [exact E|].
  intros x s Lx Ls Nx Hx. destruct (H x s Lx Ls Nx Hx) as (y & t & C & D & G). exists y, t. split; [exact C|]. split; [exact D|].
  clear - G W2. induction G as [|a b l l' D1 D2 IH]; constructor; [|exact IH]. exact (Rle_trans _ _ _ D1 W2).
Qed.
Lemma accurate_weaken v w f g : accurate v f g -> v <= w -> accurate w f g.
Proof. intros H L z Nz. destruct (H z Nz) as [A B]. split; [exact A|lra]. Qed.
Lemma pow2_small n : (0 < n)%Z -> pow2 (- n) <= / 2.
Proof. intros H. pose proof (pow2_le (- n) (- (1)) ltac:(lia)) as Q. change (pow2 (- (1))) with (/ (2 * 1)) in Q. lra. Qed.
Lemma pow2_1024 n : (10 <= n)%Z -> pow2 (- n) <= / 1024.
Proof. intros H. pose proof (pow2_le (- n) (- (10)) ltac:(lia)) as Q. change (- (10))%Z with (- Z.of_nat 10)%Z in Q. rewrite pow2_neg in Q by lia. replace (2 ^ 10) with 1024 in Q by ring. lra. Qed.
Lemma planned_binary32 co si B : accurate (pow2 (- (48))) co cos -> accurate (pow2 (- (48))) si sin -> 0 <= B ->
  forall (pf : nat -> fft spec_float) cs k (c : pcall spec_float) (c' : pcall R), (k <= 890)%nat -> power_call k c -> call_alike (fun _ _ => True) c' c ->
  INR (adds_deep c k + 4 * muls_deep c k) * pow2 (- (24)) <= / 2 -> (B + INR (adds_deep c k + muls_deep c k) * pow2 (- (150))) * 2 ^ (adds_deep c k + 1) <= greatest 24 128 ->
  exists f sl, planned_method (N := Spec_Binary.binary32 co si) c (after (N := Spec_Binary.binary32 co si) pf cs) = Some (f, sl) /\
  forall x s, length x = (2 ^ k)%nat -> (sl <= length s)%nat -> Forall (number 24 128) x -> Forall (fun z => Rabs (real_of z) <= B) x ->
  exists y t, call (N := Spec_Binary.binary32 co si) f x s = Returned (y, t) /\ Forall (number 24 128) y /\
    Forall2 (fun z b => Rabs (real_of z - b) <= 2 ^ (adds_deep c k + 1) * (INR (adds_deep c k + 4 * muls_deep c k) * pow2 (- (24)) * B + INR (adds_deep c k + muls_deep c k) * pow2 (- (150)))) y (reference c' (map real_of x)).
Proof.
  intros Hc Hs HB. pose proof (pow2_small 48 ltac:(lia)) as V1. pose proof (pow2_le (- (53)) (- (48)) ltac:(lia)) as V2. pose proof (two_pow_pos (- (53))) as V0.
  pose proof (pow2_1024 24 ltac:(lia)) as U1. pose proof (two_pow_pos (- (24))) as U0. pose proof (two_pow_pos (- (150))) as E0.
  assert (V3 : pow2 (- (48)) = pow2 (- (24)) * pow2 (- (24))) by (rewrite <- two_pow_add; reflexivity).
  assert (E1 : pow2 (- (150)) <= pow2 (- (24)) / 2) by (rewrite <- half_pow; apply pow2_le; lia).
  assert (E : (1 + pow2 (- (24))) * (1 + eps (pow2 (- (24))) (pow2 (- (48))) + pow2 (- (150))) <= (1 + pow2 (- (24))) ^ 4) by (apply entry_wide; lra).
  apply (planned_sf_closed 4 24 128 (pow2 (- (48)))); try assumption; try lia; try lra.
  change (2 - 128 - 24)%Z with (- (150))%Z. pose proof (eps_nonneg (pow2 (- (24))) (pow2 (- (48))) ltac:(lra) ltac:(lra)).
  eapply Rle_trans; [apply (rim_2 4 (pow2 (- (24)))); try lra; try lia|].
  apply (top_2 24 128); lia.
Qed.
Lemma planned_binary64 co si B : accurate (pow2 (- (53))) co cos -> accurate (pow2 (- (53))) si sin -> 0 <= B ->
  forall (pf : nat -> fft spec_float) cs k (c : pcall spec_float) (c' : pcall R), (k <= 890)%nat -> power_call k c -> call_alike (fun _ _ => True) c' c ->
  INR (adds_deep c k + 12 * muls_deep c k) * pow2 (- (53)) <= / 2 -> (B + INR (adds_deep c k + muls_deep c k) * pow2 (- (1075))) * 2 ^ (adds_deep c k + 1) <= greatest 53 1024 ->
  exists f sl, planned_method (N := Spec_Binary.binary64 co si) c (after (N := Spec_Binary.binary64 co si) pf cs) = Some (f, sl) /\
  forall x s, length x = (2 ^ k)%nat -> (sl <= length s)%nat -> Forall (number 53 1024) x -> Forall (fun z => Rabs (real_of z) <= B) x ->
  exists y t, call (N := Spec_Binary.binary64 co si) f x s = Returned (y, t) /\ Forall (number 53 1024) y /\
    Forall2 (fun z b => Rabs (real_of z - b) <= 2 ^ (adds_deep c k + 1) * (INR (adds_deep c k + 12 * muls_deep c k) * pow2 (- (53)) * B + INR (adds_deep c k + muls_deep c k) * pow2 (- (1075)))) y (reference c' (map real_of x)).
Proof.
  intros Hc Hs HB. pose proof (pow2_1024 53 ltac:(lia)) as U1. pose proof (two_pow_pos (- (53))) as U0. pose proof (two_pow_pos (- (1075))) as E0.
  assert (E1 : pow2 (- (1075)) <= pow2 (- (53)) / 2) by (rewrite <- half_pow; apply pow2_le; lia).
  assert (E : (1 + pow2 (- (53))) * (1 + eps (pow2 (- (53))) (pow2 (- (53))) + pow2 (- (1075))) <= (1 + pow2 (- (53))) ^ 12) by (apply entry_same; lra).
  apply (planned_sf_closed 12 53 1024 (pow2 (- (53)))); try assumption; try lia; try lra.
  change (2 - 1024 - 53)%Z with (- (1075))%Z. pose proof (eps_nonneg (pow2 (- (53))) (pow2 (- (53))) ltac:(lra) ltac:(lra)).
  eapply Rle_trans; [apply (rim_2 12 (pow2 (- (53)))); try lra; try lia|].
  apply (top_2 53 1024); lia.
Qed.
(** ** Accurate functions exist *)
Lemma rounded_accurate g : (forall x, Rabs (g x) <= 1) -> accurate (pow2 (- (53))) (rounded g) g.
Proof.
  intros Hg z _. unfold rounded. set (n := nearest_even (g (real_of z) * pow2 52)). pose proof (nearest_even_err (g (real_of z) * pow2 52)) as E. fold n in E.
  specialize (Hg (real_of z)). set (y := g (real_of z)) in * . pose proof (two_pow_pos 52) as P. 
  assert (I : pow2 52 * pow2 (-52) = 1) by (rewrite <- two_pow_add; reflexivity). pose proof (two_pow_pos (-52)) as P'.
  assert (Ey : Rabs (IZR n * pow2 (-52) - y) <= pow2 (- (53))).
  { replace (IZR n * pow2 (-52) - y) with ((IZR n - y * pow2 52) * pow2 (-52)) by (rewrite Rmult_minus_distr_r, (Rmult_assoc y), I; ring).
    rewrite Rabs_mult, (Rabs_right (pow2 (-52))) by lra. change (- (53))%Z with (-52 - 1)%Z. rewrite half_pow. nra. }
  assert (Ex : sf_rnd 53 1024 (IZR n * pow2 (-52)) = IZR n * pow2 (-52)).
  { destruct (Z.eq_dec n 0) as [->|Nz]; [rewrite Rmult_0_l; apply sf_rnd_0|].
    assert (Nx : IZR n * pow2 (-52) <> 0) by (apply Rmult_integral_contrapositive; split; [apply not_0_IZR, Nz|lra]).
    rewrite sf_rnd_eq by exact Nx. set (f := fexp 53 1024 _). assert (F : (f <= -52)%Z).
    { assert (M : (mag (IZR n * pow2 (-52)) <= 1)%Z); [|unfold f, fexp, emin; lia]. apply mag_below; [exact Nx|]. pose proof (Rabs_triang (IZR n * pow2 (-52) - y) y) as T.
      replace (IZR n * pow2 (-52) - y + y) with (IZR n * pow2 (-52)) in T by ring. pose proof (pow2_small 53 ltac:(lia)). change (pow2 1) with (2 * 1). lra. }
    destruct (two_pow_int (-52 - f)) as [w Ew]; [lia|].
    assert (W : IZR n * pow2 (-52) * pow2 (- f) = IZR (n * w)) by (rewrite mult_IZR, <- Ew; replace (-52 - f)%Z with (-52 + - f)%Z by lia; rewrite two_pow_add; ring).
    rewrite W, nearest_even_int, <- W. apply scale_div. }
  destruct (normalize_rounds 53 1024 ltac:(lia) ltac:(lia) n (-52) false) as [A B].
  { rewrite Ex. pose proof greatest64. pose proof (pow2_le 1 1023 ltac:(lia)) as Q. change (pow2 1) with (2 * 1) in Q. pose proof (Rabs_triang (IZR n * pow2 (-52) - y) y) as T.
    replace (IZR n * pow2 (-52) - y + y) with (IZR n * pow2 (-52)) in T by ring. pose proof (pow2_small 53 ltac:(lia)). lra. }
  rewrite Ex in B. split; [exact A|]. rewrite B. exact Ey.
Qed.
Lemma rounded_trig : accurate (pow2 (- (53))) (rounded cos) cos /\ accurate (pow2 (- (53))) (rounded sin) sin.
Proof. split; apply rounded_accurate; [exact cos_le1|exact sin_le1]. Qed.
Lemma sf_operations prec emax : (2 <= prec)%Z -> (3 <= emax)%Z ->
  let rnd := rnd_grad prec (3 - emax) in let rounded_to z x := Rabs (rnd x) <= greatest prec emax -> number prec emax z /\ real_of z = rnd x in
  (forall a b, number prec emax a -> number prec emax b ->
    rounded_to (SFadd prec emax a b) (real_of a + real_of b) /\ rounded_to (SFsub prec emax a b) (real_of a - real_of b) /\
    rounded_to (SFmul prec emax a b) (real_of a * real_of b) /\ (real_of b <> 0 -> rounded_to (SFdiv prec emax a b) (real_of a / real_of b)) /\
    number prec emax (SFopp a) /\ real_of (SFopp a) = - real_of a) /\
  (forall a, number 53 1024 a -> rounded_to (Spec_Binary.convert prec emax a) (real_of a)).
Proof.
  intros Hp He. split.
  - intros a b Ha Hb. split; [apply SFadd_rounds; try lia; assumption|]. split; [apply SFsub_rounds; try lia; assumption|]. split; [apply SFmul_rounds; try lia; assumption|].
    split; [intros Nz; apply SFdiv_rounds; try lia; assumption|]. apply SFopp_ok, Ha.
  - intros a Ha. apply convert_rounds; assumption.
Qed.
