(** Accuracy of the naive algorithms in the floating-point numbers of IEEE 754. *)
From Coq Require Import Reals List Arith Lia Lra Psatz Bool ZArith Floats.SpecFloat.
From Verif Require Import Prog Num Model_Common Model_Naive Model_Plan Model_Api Spec Spec_Api Spec_Fft Spec_Plan Spec_Methods Spec_Round Spec_Ieee Spec_Entry Spec_Float
  Spec_Param Trig Ref Energy Wp Contracts Api Planner Canon Plan_Theorems Param_Theorems Sem_Naive Exact_Naive Round_Binary Round_Ieee Round_Ops Round_Entry Round_Naive Round_Entry_Plan Float
  Spec_Ieee754 Sf Pi_Literal Binary_Float Spec_Ieee_Naive.
From Verif Require Spec_Binary.
Import ListNotations.
Open Scope R_scope.

(** ** The angles of the tables *)
Definition along2 (A ca sa : R) : Num R R := {|
  f_of_nat := fun n => rnd_even 53 (INR n); f_pi := SF2R pi64; f_half := / 2; f_one := 1; f_two := 2; f_four := 4;
  f_neg := Ropp; f_add := fun a b => rnd_even 53 (a + b); f_sub := fun a b => rnd_even 53 (a - b);
  f_mul := fun a b => if Req_EM_T a 1 then b else rnd_even 53 (a * b); f_div := fun a b => rnd_even 53 (a / b);
  f_cos := fun a => if Req_EM_T a A then ca else cos a; f_sin := fun a => if Req_EM_T a A then sa else sin a; f_sqrt := sqrt;
  zero := 0; one := 1; add := Rplus; sub := Rminus; mul := Rmult; neg := Ropp; from_f64 := fun x => x; sqrt_2 := sqrt 2; frac_1_sqrt_2 := / sqrt 2 |}.
Lemma along2_rounding v A ca sa : pow2 (- (53)) <= v < 1 -> Rabs (ca - cos A) <= v -> Rabs (sa - sin A) <= v -> rounding 0 v (along2 A ca sa).
Proof.
  intros [Hv V1] Hc Hs. pose proof (two_pow_pos (- (53))) as P. assert (V0 : 0 <= v) by lra.
  constructor; cbn [along2 f_of_nat f_pi f_half f_one f_two f_four f_neg f_add f_sub f_mul f_div f_cos f_sin f_sqrt zero one add sub mul neg from_f64 sqrt_2 frac_1_sqrt_2];
    intros; try reflexivity; try (apply rel_exact; lra); try lra; try (apply (rel_weaken (pow2 (- (53)))); [apply rnd_even_rel|exact Hv]).
  - apply pi64_rel, Hv.
  - destruct (Req_EM_T a 1) as [->|_]; [rewrite Rmult_1_l; apply rel_exact, V0|]. apply (rel_weaken (pow2 (- (53)))); [apply rnd_even_rel|exact Hv].
  - destruct (Req_EM_T a A) as [->|_]; [exact Hc|]. rewrite Rminus_eq_0, Rabs_R0. exact V0.
  - destruct (Req_EM_T a A) as [->|_]; [exact Hs|]. rewrite Rminus_eq_0, Rabs_R0. exact V0.
Qed.
Definition fval (z : spec_float) (x : R) (lo hi : Z) : Prop := num64 z /\ SF2R z = x /\ pow2 lo <= Rabs x <= pow2 hi.
Lemma fval_step z x lo hi : rounds_to 53 1024 z x -> pow2 lo <= Rabs x <= pow2 hi -> (-1022 <= lo)%Z -> (hi <= 1022)%Z -> fval z (rnd_even 53 x) (lo - 1) (hi + 1).
Proof. intros R B L H. destruct (step64 z x lo hi R B L H) as (A & E & C). split; [exact A|]. split; [exact E|]. rewrite <- E. exact C. Qed.
Lemma nat_val n : (1 <= n)%nat -> INR n <= pow2 900 -> fval (Spec_Binary.f64_of (Z.of_nat n) 0) (rnd_even 53 (INR n)) (-1) 901.
Proof. intros H B. destruct (of_nat64 n H B) as (A & E & C). split; [exact A|]. split; [exact E|]. rewrite <- E. exact C. Qed.
Lemma p53 : pow2 (- (53)) <= / 4.
Proof. pose proof (pow2_le (- (53)) (- (2)) ltac:(lia)) as Q. change (pow2 (- (2))) with (/ (2 * (2 * 1))) in Q. lra. Qed.
Lemma rnd_range x : 0 <= x -> 3 / 4 * x <= rnd_even 53 x <= 5 / 4 * x.
Proof.
  intros H. pose proof (rnd_even_rel 53 x) as E. unfold rel in E. rewrite (Rabs_right x) in E by lra. pose proof p53. pose proof (Rle_abs (rnd_even 53 x - x)) as E1. pose proof (Rle_abs (- (rnd_even 53 x - x))) as E2. rewrite Rabs_Ropp in E2. nra.
Qed.
Lemma rnd_even_0 : rnd_even 53 0 = 0. Proof. unfold rnd_even. destruct (Req_EM_T 0 0); [reflexivity|lra]. Qed.
Definition half64 : spec_float := Spec_Binary.f64_of 1 (-1).
Lemma half64_ok : num64 half64 /\ SF2R half64 = / 2.
Proof.
  split; [vm_compute; reflexivity|]. replace half64 with (S754_finite false 4503599627370496 (-53)) by (vm_compute; reflexivity). cbn [real_of].
  change (IZR 4503599627370496) with (IZR (2 ^ 52)). rewrite <- pow2_Z, <- two_pow_add by lia. change (/ (2 * 1) = / 2). f_equal. ring.
Qed.
Lemma nat_ok n : INR n <= pow2 900 -> num64 (Spec_Binary.f64_of (Z.of_nat n) 0) /\ SF2R (Spec_Binary.f64_of (Z.of_nat n) 0) = rnd_even 53 (INR n).
Proof.
  intros B. destruct n as [|n]; [split; [exact I|]; cbn [Spec_Binary.f64_of Z.of_nat]; change (0 = rnd_even 53 0); rewrite rnd_even_0; reflexivity|].
  destruct (nat_val (S n) ltac:(lia) B) as (A & E & _). split; assumption.
Qed.
Lemma add_val n : INR n <= pow2 900 -> fval (SFadd 53 1024 (Spec_Binary.f64_of (Z.of_nat n) 0) half64) (rnd_even 53 (rnd_even 53 (INR n) + / 2)) (-2) 903.
Proof.
  intros B. destruct (nat_ok n B) as [A E]. destruct half64_ok as [A2 E2]. pose proof (pos_INR n) as P. pose proof (rnd_range (INR n) P) as Q.
  apply (fval_step _ _ (-1) 902); [|rewrite Rabs_right by lra|lia|lia].
  - rewrite <- E, <- E2. apply SFadd_rounds; try lia; assumption.
  - change (pow2 (-1)) with (/ (2 * 1)). pose proof (pow2_le 1 900 ltac:(lia)) as L. change (pow2 1) with (2 * 1) in L. change 902%Z with (900 + 1 + 1)%Z. rewrite !double_pow. lra.
Qed.
Lemma sub_val n : (1 <= n)%nat -> INR n <= pow2 900 -> fval (SFsub 53 1024 (Spec_Binary.f64_of (Z.of_nat n) 0) half64) (rnd_even 53 (rnd_even 53 (INR n) - / 2)) (-3) 903.
Proof.
  intros H B. destruct (nat_ok n B) as [A E]. destruct half64_ok as [A2 E2]. apply le_INR in H. change (INR 1) with 1 in H. pose proof (rnd_range (INR n) ltac:(lra)) as Q.
  apply (fval_step _ _ (-2) 902); [|rewrite Rabs_right by lra|lia|lia].
  - rewrite <- E, <- E2. apply SFsub_rounds; try lia; assumption.
  - change (pow2 (-2)) with (/ (2 * (2 * 1))). change 902%Z with (900 + 1 + 1)%Z. rewrite !double_pow. lra.
Qed.
Lemma fval_wider z x lo hi lo' hi' : fval z x lo hi -> (lo' <= lo)%Z -> (hi <= hi')%Z -> fval z x lo' hi'.
Proof. intros (A & E & B) L H. pose proof (pow2_le _ _ L). pose proof (pow2_le _ _ H). split; [exact A|]. split; [exact E|]. lra. Qed.
Lemma quot_val c rc d rd : fval c rc 1 4 -> fval d rd (-3) 903 -> fval (SFdiv 53 1024 c d) (rnd_even 53 (rc / rd)) (-903) 8.
Proof.
  intros (Nc & Vc & Mc) (Nd & Vd & Md). assert (Dn : 0 < Rabs rd) by (pose proof (two_pow_pos (-3)); lra). assert (Dz : rd <> 0) by (intros Z; rewrite Z, Rabs_R0 in Dn; lra).
  apply (fval_step _ _ (-902) 7); [rewrite <- Vc, <- Vd; apply SFdiv_rounds; try lia; try assumption; rewrite Vd; exact Dz| |lia|lia].
  unfold Rdiv. rewrite Rabs_mult, Rabs_inv. pose proof (two_pow_pos 1). split; apply (Rmult_le_reg_r (Rabs rd) _ _ Dn); rewrite (Rmult_assoc (Rabs rc)), Rinv_l, Rmult_1_r by lra.
  - apply Rle_trans with (pow2 (-902) * pow2 903); [apply Rmult_le_compat_l; [left; apply two_pow_pos|lra]|]. rewrite <- two_pow_add. change (-902 + 903)%Z with 1%Z. lra.
  - apply Rle_trans with (pow2 7 * pow2 (-3)); [|apply Rmult_le_compat_l; [left; apply two_pow_pos|lra]]. rewrite <- two_pow_add. change (7 + -3)%Z with 4%Z. lra.
Qed.
Definition fnum (z : spec_float) (x : R) : Prop := num64 z /\ SF2R z = x /\ (x = 0 \/ pow2 (-3) <= Rabs x <= pow2 903).
Lemma fval_num z x lo hi : fval z x lo hi -> (-3 <= lo)%Z -> (hi <= 903)%Z -> fnum z x.
Proof. intros V L H. destruct (fval_wider _ _ _ _ _ _ V L H) as (A & E & B). split; [exact A|]. split; [exact E|]. right. exact B. Qed.
Lemma nat_num n : INR n <= pow2 900 -> fnum (Spec_Binary.f64_of (Z.of_nat n) 0) (rnd_even 53 (INR n)).
Proof.
  intros B. destruct n as [|n]; [|apply (fval_num _ _ _ _ (nat_val (S n) ltac:(lia) B)); lia].
  destruct (nat_ok 0 B) as [A E]. split; [exact A|]. split; [exact E|]. left. exact rnd_even_0.
Qed.
Lemma prod_val q rq j rj A ca sa : fval q rq (-903) 8 -> fnum j rj -> num64 (SFmul 53 1024 q j) /\ SF2R (SFmul 53 1024 q j) = f_mul (Num := along2 A ca sa) rq rj.
Proof.
  intros (Nq & Vq & Mq) (Nj & Vj & Mj). pose proof (SFmul_rounds 53 1024 ltac:(lia) ltac:(lia) q j Nq Nj) as R. rewrite Vq, Vj in R. cbn [along2 f_mul].
  destruct Mj as [Z|Mj].
  - subst rj. rewrite Z in * . rewrite Rmult_0_r in * . destruct R as [Nz Ez]; [rewrite sf_rnd_0, Rabs_R0; pose proof greatest64; pose proof (two_pow_pos 1023); lra|].
    split; [exact Nz|]. rewrite Ez, sf_rnd_0. destruct (Req_EM_T rq 1); [reflexivity|symmetry; exact rnd_even_0].
  - destruct (step64 _ _ (-906) 911 R) as (Nz & Ez & _); [|lia|lia|].
    + rewrite Rabs_mult. replace (pow2 (-906)) with (pow2 (-903) * pow2 (-3)) by (rewrite <- two_pow_add; reflexivity). replace (pow2 911) with (pow2 8 * pow2 903) by (rewrite <- two_pow_add; reflexivity).
      split; apply Rmult_le_compat; try apply Rabs_pos; try (left; apply two_pow_pos); lra.
    + split; [exact Nz|]. destruct (Req_EM_T rq 1) as [E1|_]; [|exact Ez]. unfold rounds_to in R. rewrite E1, Rmult_1_l in R.
      destruct (sf_rnd_number 53 1024 ltac:(lia) j Nj) as [Rb Tb]. rewrite Vj in Rb, Tb. rewrite Rb in R. apply R, Tb.
Qed.
Lemma pi_range : 2 <= SF2R pi64 <= 4.
Proof.
  rewrite pi64_value. assert (P : 0 < / 2 ^ 51) by (apply Rinv_0_lt_compat, pow_lt; lra).
  assert (I : 2 ^ 51 * / 2 ^ 51 = 1) by (apply Rinv_r, pow_nonzero; lra). assert (L : 2 * 2 ^ 51 <= IZR 7074237752028440 <= 4 * 2 ^ 51).
  { rewrite pow_IZR, <- !mult_IZR. split; apply IZR_le; vm_compute; discriminate. }
  set (w := / 2 ^ 51) in * . set (z := IZR 7074237752028440) in * . clearbody z. split.
  - replace 2 with (2 * 2 ^ 51 * w) by (rewrite Rmult_assoc, I; ring). apply Rmult_le_compat_r; lra.
  - replace 4 with (4 * 2 ^ 51 * w) by (rewrite Rmult_assoc, I; ring). apply Rmult_le_compat_r; lra.
Qed.
Lemma pi_val : fval pi64 (SF2R pi64) 1 4.
Proof.
  split; [rewrite pi64_eq; vm_compute; reflexivity|]. split; [reflexivity|]. pose proof pi_range. rewrite Rabs_right by lra.
  change (pow2 1) with (2 * 1). change (pow2 4) with (2 * (2 * (2 * (2 * 1)))). lra.
Qed.
Lemma pi2_val : fval (SFmul 53 1024 pi64 (SFopp two64)) (rnd_even 53 (SF2R pi64 * - (2))) 1 4.
Proof.
  assert (Np : num64 pi64) by (rewrite pi64_eq; vm_compute; reflexivity). assert (Nt : num64 two64) by (rewrite two64_eq; vm_compute; reflexivity).
  destruct (SFopp_ok 53 1024 two64 Nt) as [No Vo]. rewrite two64_value in Vo. pose proof pi_range.
  rewrite <- Vo. apply (fval_step _ _ 2 3); [apply SFmul_rounds; try lia; assumption| |lia|lia]. rewrite Vo, Rabs_mult, (Rabs_right (SF2R pi64)), (Rabs_left (- (2))) by lra.
  change (pow2 2) with (2 * (2 * 1)). change (pow2 3) with (2 * (2 * (2 * 1))). lra.
Qed.

(** ** The sums *)
Section Ctors.
Context {T F : Type} {N : Num T F}.
Lemma Dct1Naive_new_S n : (2 <= n)%nat -> Dct1Naive_new n =
  Ok (mkDct1Naive (map (fun i => from_f64 (f_cos (f_mul (f_div f_pi (f_of_nat (n - 1))) (f_of_nat i)))) (seq 0 ((n - 1) * 2)))).
Proof. intros Hn. unfold Dct1Naive_new, rassert, rsub. destruct (Nat.eqb_spec n 1); [lia|]. destruct (Nat.leb_spec 1 n); [|lia]. reflexivity. Qed.
Lemma Dct5Naive_new_S n : (1 <= n)%nat -> Dct5Naive_new n =
  Ok (mkDct5Naive (map (fun i => from_f64 (f_cos (f_mul (f_div f_pi (f_sub (f_of_nat n) f_half)) (f_of_nat i)))) (seq 0 (n * 2 - 1)))).
Proof. intros Hn. unfold Dct5Naive_new, rsub. destruct (Nat.leb_spec 1 (n * 2)); [|lia]. reflexivity. Qed.
Lemma Dct6And7Naive_new_S n : (1 <= n)%nat -> Dct6And7Naive_new n =
  Ok (mkC67Naive (map (fun i => from_f64 (f_cos (f_mul (f_div f_pi (f_of_nat (n * 2 - 1))) (f_of_nat i)))) (seq 0 (n * 4 - 2)))).
Proof. intros Hn. unfold Dct6And7Naive_new, rsub. destruct (Nat.leb_spec 1 (n * 2)); [|lia]. cbn [rbind]. destruct (Nat.leb_spec 2 (n * 4)); [|lia]. reflexivity. Qed.
Lemma Dst8Naive_new_S n : (1 <= n)%nat -> Dst8Naive_new n =
  Ok (mkDst8Naive (map (fun i => from_f64 (f_sin (f_mul (f_div f_pi (f_of_nat (n * 2 - 1))) (f_add (f_of_nat i) f_half)))) (seq 0 (n * 4 - 2)))).
Proof. intros Hn. unfold Dst8Naive_new, rsub. destruct (Nat.leb_spec 1 (n * 2)); [|lia]. cbn [rbind]. destruct (Nat.leb_spec 2 (n * 4)); [|lia]. reflexivity. Qed.
End Ctors.

Section Naive.
Variables (prec emax : Z) (v : R) (co si : spec_float -> spec_float).
Hypothesis (Hp : (2 <= prec)%Z) (He : (3 <= emax)%Z) (Hv : pow2 (- (53)) <= v) (Hv4 : 4 * v < 1) (Hco : accurate v co cos) (Hsi : accurate v si sin).
Notation num := (number prec emax).
Notation top := (greatest prec emax).
Notation rnd := (sf_rnd prec emax).
Notation u := (pow2 (- prec)).
Notation eta := (pow2 (2 - emax - prec)).
Notation t := (tau u v + eta).
Hypothesis (Hr : 1 + t <= top).
Notation NS := (Sf prec emax co si).
Lemma u_pos : 0 < u. Proof. apply two_pow_pos. Qed.
Lemma eta_pos : 0 < eta. Proof. apply two_pow_pos. Qed.
Lemma v_pos : 0 < v < 1. Proof. pose proof (two_pow_pos (- (53))). lra. Qed.
Lemma along_ok z : num64 z -> rounding 0 v (along2 (SF2R z) (SF2R (co z)) (SF2R (si z))).
Proof. intros H. pose proof v_pos. apply along2_rounding; [lra|apply Hco, H|apply Hsi, H]. Qed.
Lemma tau_u : 1 + tau u v = (1 + u) * (1 + tau 0 v). Proof. unfold tau. ring. Qed.
Lemma tau0_ge0 : 0 <= tau 0 v.
Proof. assert (Z : num64 (S754_zero false)) by exact I. exact (tau_ge0 0 v _ (along_ok _ Z) Hv4). Qed.
Lemma t_ge0 : 0 <= t.
Proof. pose proof tau_u. pose proof tau0_ge0. pose proof u_pos. pose proof eta_pos. nra. Qed.
Lemma ent_ok z x : num64 z -> Rabs (SF2R z - x) <= tau 0 v -> Rabs x <= 1 ->
  num (Spec_Binary.convert prec emax z) /\ Rabs (SF2R (Spec_Binary.convert prec emax z) - x) <= t.
Proof.
  intros Nz H Hx. pose proof (convert_rounds prec emax Hp He z Nz) as R. pose proof (rnd_close prec emax (SF2R z)) as C. unfold Spec_Float.close in C.
  pose proof (Rabs_triang (SF2R z - x) x) as T1. replace (SF2R z - x + x) with (SF2R z) in T1 by ring.
  pose proof (Rabs_triang (rnd (SF2R z) - SF2R z) (SF2R z - x)) as T2. replace (rnd (SF2R z) - SF2R z + (SF2R z - x)) with (rnd (SF2R z) - x) in T2 by ring.
  pose proof tau_u. pose proof u_pos. assert (C2 : u * Rabs (SF2R z) <= u * (1 + tau 0 v)) by (apply Rmult_le_compat_l; lra). assert (E : Rabs (rnd (SF2R z) - x) <= t) by lra.
  destruct R as [A B]; [|split; [exact A|rewrite B; exact E]].
  pose proof (Rabs_triang (rnd (SF2R z) - x) x) as T3. replace (rnd (SF2R z) - x + x) with (rnd (SF2R z)) in T3 by ring. lra.
Qed.

Section Sum.
Variable x : list spec_float.
Hypothesis Hx : Forall num x.
Notation z0 := (S754_zero false).
Notation cell i := (Rabs (SF2R (nth i x z0))).
Definition W (j : nat) : R := sum (fun i => cell i) j.
Definition G (j : nat) : R := (1 + u) ^ (j + 2) * (1 + t).
Definition H (j : nat) : R := 3 * INR j * eta * (1 + t) * (1 + u) ^ (j + 1).
Hypothesis Htop : W (length x) * G (length x) + H (length x) <= top.
Lemma cell_num i : num (nth i x z0).
Proof. destruct (Nat.lt_ge_cases i (length x)) as [L|L]; [apply Forall_nth; assumption|rewrite nth_overflow by exact L; exact I]. Qed.
Lemma W_pos j : 0 <= W j. Proof. apply sum_ge0. intros. apply Rabs_pos. Qed.
Lemma W_S j : W (S j) = W j + cell j. Proof. reflexivity. Qed.
Lemma pow_ge1 j : 1 <= (1 + u) ^ j. Proof. apply pow_R1_Rle. pose proof u_pos. lra. Qed.
Lemma G_S j : G (S j) = (1 + u) * G j. Proof. unfold G. cbn [plus pow]. ring. Qed.
Lemma G_ge j : (1 + u) * (1 + u) * (1 + t) <= G j.
Proof.
  unfold G. rewrite pow_add. pose proof (pow_ge1 j). pose proof t_ge0. pose proof u_pos. replace ((1 + u) ^ 2) with ((1 + u) * (1 + u)) by ring.
  assert (0 <= (1 + u) * (1 + u) * (1 + t)) by (apply Rmult_le_pos; nra). nra.
Qed.
Lemma G_ge1 j : 1 <= G j. Proof. pose proof (G_ge j). pose proof t_ge0. pose proof u_pos. nra. Qed.
Lemma H_pos j : 0 <= H j.
Proof. unfold H. pose proof (pos_INR j). pose proof eta_pos. pose proof t_ge0. pose proof (pow_ge1 (j + 1)). repeat apply Rmult_le_pos; lra. Qed.
Lemma H_S j : (1 + u) * H j + 3 * eta * (1 + t) * (1 + u) * (1 + u) <= H (S j).
Proof.
  unfold H. rewrite S_INR. cbn [plus pow]. pose proof eta_pos. pose proof t_ge0. pose proof u_pos. pose proof (pow_ge1 j) as P. rewrite pow_add. cbn [pow].
  assert (0 <= eta * (1 + t) * (1 + u) * (1 + u)) by (repeat apply Rmult_le_pos; lra). nra.
Qed.
Lemma top_S j : W j * G j + H j <= W (S j) * G (S j) + H (S j).
Proof.
  rewrite W_S, G_S. pose proof (H_S j). pose proof (H_pos j). pose proof (W_pos j). pose proof (G_ge1 j). pose proof u_pos. pose proof eta_pos. pose proof t_ge0. pose proof (Rabs_pos (SF2R (nth j x z0))).
  assert (0 <= 3 * eta * (1 + t) * (1 + u) * (1 + u)) by (repeat apply Rmult_le_pos; lra).
  assert (0 <= W j * G j) by (apply Rmult_le_pos; lra). assert (0 <= cell j * ((1 + u) * G j)) by (apply Rmult_le_pos; nra). nra.
Qed.
Lemma top_j j : (j <= length x)%nat -> W j * G j + H j <= top.
Proof. intros L. induction L as [|n L IH] in Htop |- *; [exact Htop|]. apply IH. eapply Rle_trans; [apply top_S|exact Htop]. Qed.
(** The state of a sum after [j] cells. *)
Definition upto (j : nat) (z : spec_float) (s : R) : Prop := num z /\ Rabs (SF2R z - s) <= W j * (G j - 1) + H j /\ Rabs s <= W j.
Definition cell_ok (i : nat) (z : spec_float) (r : R) : Prop := num z /\ Rabs (SF2R z - r) <= u * cell i + eta /\ Rabs r <= cell i.
Lemma rnd_err y : Rabs (rnd y - y) <= u * Rabs y + eta. Proof. apply (rnd_close prec emax y). Qed.
Lemma rounds_err z y m : rounds_to prec emax z y -> (1 + u) * Rabs y + eta <= m -> m <= top -> num z /\ Rabs (SF2R z - y) <= u * Rabs y + eta.
Proof.
  intros R L M. pose proof (rnd_err y) as E. destruct R as [A B]; [|split; [exact A|rewrite B; exact E]].
  pose proof (Rabs_triang (rnd y - y) y) as T. replace (rnd y - y + y) with (rnd y) in T by ring. lra.
Qed.
Lemma step_up j o s z r st e w : (j < length x)%nat -> upto j o s -> cell_ok j z r -> Rabs (e - w) <= t -> Rabs w <= 1 ->
  ((1 + u) * Rabs (SF2R z * e) + eta <= top -> exists p, Rabs (p - SF2R z * e) <= u * Rabs (SF2R z * e) + eta /\ rounds_to prec emax st (SF2R o + p)) ->
  upto (S j) st (s + r * w).
Proof.
  intros Lj (No & Eo & Bs) (Nz & Ez & Br) Ee Bw Hst. pose proof u_pos as U. pose proof eta_pos as Eta. pose proof t_ge0 as Tt. pose proof (top_j (S j) Lj) as Top.
  assert (C0 : 0 <= cell j) by apply Rabs_pos. set (c := cell j) in * . rewrite W_S in Top. fold c in Top.
  assert (Be : Rabs e <= 1 + t). { pose proof (Rabs_triang (e - w) w) as T. replace (e - w + w) with e in T by ring. lra. }
  assert (Bz : Rabs (SF2R z) <= (1 + u) * c + eta). { pose proof (Rabs_triang (SF2R z - r) r) as T. replace (SF2R z - r + r) with (SF2R z) in T by ring. lra. }
  assert (By : Rabs (SF2R z * e) <= ((1 + u) * c + eta) * (1 + t)) by (rewrite Rabs_mult; apply Rmult_le_compat; try apply Rabs_pos; assumption).
  assert (Dy : Rabs (SF2R z * e - r * w) <= c * ((1 + u) * (1 + t) - 1) + eta * (1 + t)).
  { replace (SF2R z * e - r * w) with ((SF2R z - r) * e + r * (e - w)) by ring. eapply Rle_trans; [apply Rabs_triang|]. rewrite !Rabs_mult.
    assert (Rabs (SF2R z - r) * Rabs e <= (u * c + eta) * (1 + t)) by (apply Rmult_le_compat; try apply Rabs_pos; assumption).
    assert (Rabs r * Rabs (e - w) <= c * t) by (apply Rmult_le_compat; try apply Rabs_pos; assumption). lra. }
  pose proof (G_ge j) as Gj. pose proof (H_S j) as Hj. pose proof (H_pos j) as Hp0. pose proof (W_pos j) as Wj. pose proof (G_ge1 j) as G1. rewrite G_S in Top.
  assert (K : (1 + u) * ((1 + u) * c * (1 + t)) <= c * G j) by (replace ((1 + u) * ((1 + u) * c * (1 + t))) with (c * ((1 + u) * (1 + u) * (1 + t))) by ring; apply Rmult_le_compat_l; assumption).
  assert (M0 : 0 <= eta * (1 + t)) by (apply Rmult_le_pos; lra). assert (M1 : eta <= eta * (1 + t)) by (rewrite <- (Rmult_1_r eta) at 1; apply Rmult_le_compat_l; lra).
  set (m := eta * (1 + t)) in * . assert (MU : 0 <= m * u) by (apply Rmult_le_pos; lra). assert (MU2 : 0 <= m * u * u) by (apply Rmult_le_pos; lra).
  assert (M2 : m <= m * (1 + u)) by lra. assert (M3 : m * (1 + u) <= m * (1 + u) * (1 + u)) by lra. assert (M4 : (1 + u) * eta <= m * (1 + u)) by (rewrite (Rmult_comm m); apply Rmult_le_compat_l; lra).
  assert (HU : 0 <= u * H j) by (apply Rmult_le_pos; lra). assert (Hj' : (1 + u) * H j + 3 * (m * (1 + u) * (1 + u)) <= H (S j)) by (unfold m; lra).
  assert (WG : 0 <= W j * G j) by (apply Rmult_le_pos; lra). assert (CG : 0 <= c * G j) by (apply Rmult_le_pos; lra).
  assert (WU : 0 <= u * (W j * G j)) by (apply Rmult_le_pos; lra). assert (CU : 0 <= u * (c * G j)) by (apply Rmult_le_pos; lra).
  assert (By' : Rabs (SF2R z * e) <= (1 + u) * c * (1 + t) + m) by (unfold m; lra).
  destruct Hst as (p & Ep & Rst).
  { assert ((1 + u) * Rabs (SF2R z * e) <= (1 + u) * ((1 + u) * c * (1 + t) + m)) by (apply Rmult_le_compat_l; lra). lra. }
  assert (Dp : Rabs (p - r * w) <= c * ((1 + u) * (1 + u) * (1 + t) - 1) + m * (1 + u) + eta).
  { replace (p - r * w) with ((p - SF2R z * e) + (SF2R z * e - r * w)) by ring. eapply Rle_trans; [apply Rabs_triang|]. fold m in Dy. 
    assert (u * Rabs (SF2R z * e) <= u * ((1 + u) * c * (1 + t) + m)) by (apply Rmult_le_compat_l; lra). lra. }
  assert (Brw : Rabs (r * w) <= c) by (rewrite Rabs_mult, <- (Rmult_1_r c); apply Rmult_le_compat; try apply Rabs_pos; assumption).
  assert (Bn : Rabs (s + r * w) <= W j + c) by (eapply Rle_trans; [apply Rabs_triang|lra]).
  assert (Dn : Rabs (SF2R o + p - (s + r * w)) <= (W j + c) * (G j - 1) + H j + m * (1 + u) + eta).
  { replace (SF2R o + p - (s + r * w)) with ((SF2R o - s) + (p - r * w)) by ring. eapply Rle_trans; [apply Rabs_triang|].
    assert (c * ((1 + u) * (1 + u) * (1 + t) - 1) <= c * (G j - 1)) by (apply Rmult_le_compat_l; lra). lra. }
  assert (Bo : Rabs (SF2R o + p) <= (W j + c) * G j + H j + m * (1 + u) + eta).
  { pose proof (Rabs_triang (SF2R o + p - (s + r * w)) (s + r * w)) as T. replace (SF2R o + p - (s + r * w) + (s + r * w)) with (SF2R o + p) in T by ring. lra. }
  assert (Q : (1 + u) * ((W j + c) * G j + H j + m * (1 + u) + eta) + eta <= (W j + c) * ((1 + u) * G j) + H (S j)).
  { lra. }
  destruct (rounds_err st (SF2R o + p) _ Rst (Rle_trans _ _ _ (Rplus_le_compat_r eta _ _ (Rmult_le_compat_l (1 + u) _ _ ltac:(lra) Bo)) Q)) as [Ns Es]; [lra|].
  split; [exact Ns|]. rewrite W_S, G_S. fold c. split; [|exact Bn].
  replace (SF2R st - (s + r * w)) with ((SF2R st - (SF2R o + p)) + (SF2R o + p - (s + r * w))) by ring. eapply Rle_trans; [apply Rabs_triang|].
  assert (u * Rabs (SF2R o + p) <= u * ((W j + c) * G j + H j + m * (1 + u) + eta)) by (apply Rmult_le_compat_l; lra). lra.
Qed.

Section Loop.
Context {A A0 : Type} (st : spec_float -> spec_float -> A -> spec_float) (numt : A -> Prop) (val : A -> R) (op0 : R -> R -> A0 -> R) (val0 : A0 -> R).
Hypothesis Hst : forall o s a, num o -> num s -> numt a -> (1 + u) * Rabs (SF2R s * val a) + eta <= top ->
  exists p, Rabs (p - SF2R s * val a) <= u * Rabs (SF2R s * val a) + eta /\ rounds_to prec emax (st o s a) (SF2R o + p).
Hypothesis Hop : forall X W acc lo cnt, accum op0 X W acc lo cnt = acc + sum (fun i => X (lo + i)%nat * val0 (W (lo + i)%nat)) cnt.
Lemma accum_up X' X W' W0 acc' acc lo cnt : (lo + cnt <= length x)%nat -> (forall i, (i < length x)%nat -> cell_ok i (X' i) (X i)) -> upto lo acc' acc ->
  (forall i, (lo <= i < lo + cnt)%nat -> numt (W' i) /\ Rabs (val (W' i) - val0 (W0 i)) <= t /\ Rabs (val0 (W0 i)) <= 1) ->
  upto (lo + cnt) (accum st X' W' acc' lo cnt) (accum op0 X W0 acc lo cnt).
Proof.
  intros L HX Ha HW. rewrite Hop. induction cnt as [|cnt IH]; [rewrite Nat.add_0_r; cbn [accum sum]; rewrite Rplus_0_r; exact Ha|].
  specialize (IH ltac:(lia) ltac:(intros; apply HW; lia)). destruct (HW (lo + cnt)%nat ltac:(lia)) as (Na & Ea & Ba). pose proof (HX (lo + cnt)%nat ltac:(lia)) as Hc.
  replace (lo + S cnt)%nat with (S (lo + cnt)) by lia. cbn [accum sum]. rewrite <- Rplus_assoc.
  apply (step_up (lo + cnt) (accum st X' W' acc' lo cnt) _ (X' (lo + cnt)%nat) _ _ (val (W' (lo + cnt)%nat))); try assumption; [lia|]. apply Hst; [apply IH|apply Hc|exact Na].
Qed.
Variables (f' : nat -> A) (f : nat -> A0) (L : nat).
Hypothesis Hf : forall i, (i < L)%nat -> numt (f' i) /\ Rabs (val (f' i) - val0 (f i)) <= t /\ Rabs (val0 (f i)) <= 1.
Lemma table_up X' X d d0 start stride acc' acc lo cnt : (0 < cnt -> L <> 0)%nat -> (lo + cnt = length x)%nat -> (forall i, (i < length x)%nat -> cell_ok i (X' i) (X i)) -> upto lo acc' acc ->
  upto (length x) (accum st X' (tw_at (map f' (seq 0 L)) d start stride lo) acc' lo cnt) (accum op0 X (tw_at (map f (seq 0 L)) d0 start stride lo) acc lo cnt).
Proof.
  intros HL Hn HX Ha. rewrite <- Hn. apply accum_up; [lia|exact HX|exact Ha|]. intros i Hi. assert (L <> 0)%nat by (apply HL; lia). rewrite !tw_at_map by assumption.
  apply Hf, Nat.mod_upper_bound. assumption.
Qed.
Lemma sum_0 X' X d d0 start stride : (0 < length x -> L <> 0)%nat -> (forall i, (i < length x)%nat -> cell_ok i (X' i) (X i)) ->
  upto (length x) (accum st X' (tw_at (map f' (seq 0 L)) d start stride 0) z0 0 (length x)) (accum op0 X (tw_at (map f (seq 0 L)) d0 start stride 0) 0 0 (length x)).
Proof. intros HL HX. apply table_up; [exact HL|lia|exact HX|]. split; [exact I|]. cbn [real_of]. rewrite Rminus_eq_0, Rabs_R0. pose proof (H_pos 0). unfold W. cbn [sum]. lra. Qed.
Lemma sum_1 X' X d d0 start stride acc' acc : (length x <> 0)%nat -> (1 < length x -> L <> 0)%nat -> (forall i, (i < length x)%nat -> cell_ok i (X' i) (X i)) -> cell_ok 0 acc' acc ->
  upto (length x) (accum st X' (tw_at (map f' (seq 0 L)) d start stride 1) acc' 1 (length x - 1)) (accum op0 X (tw_at (map f (seq 0 L)) d0 start stride 1) acc 1 (length x - 1)).
Proof.
  intros H0 HL HX (Na & Ea & Ba). apply table_up; [lia|lia|exact HX|]. split; [exact Na|]. pose proof (H_S 0) as HS. pose proof (H_pos 0). pose proof (G_ge 0) as G0. pose proof (G_ge1 0). pose proof u_pos. pose proof eta_pos. pose proof t_ge0.
  rewrite W_S. unfold W. cbn [sum]. rewrite Rplus_0_l. split; [|exact Ba]. eapply Rle_trans; [exact Ea|]. rewrite G_S. assert (C : 0 <= cell 0) by apply Rabs_pos.
  assert (u * cell 0 <= cell 0 * ((1 + u) * G 0 - 1)) by (rewrite (Rmult_comm u); apply Rmult_le_compat_l; nra).
  assert (0 <= u * H 0) by (apply Rmult_le_pos; lra). assert (eta <= eta * (1 + t) * (1 + u) * (1 + u)).
  { rewrite <- (Rmult_1_r eta) at 1. rewrite !Rmult_assoc. apply Rmult_le_compat_l; [lra|]. nra. }
  assert (0 <= eta * (1 + t) * (1 + u) * (1 + u)) by (repeat apply Rmult_le_pos; lra). lra.
Qed.
End Loop.
Lemma plain_up X' X : (forall i, (i < length x)%nat -> cell_ok i (X' i) (X i)) -> upto (length x) (sum_from_zero (N := NS) X' (length x)) (sum_from_zero (N := NumR) X (length x)).
Proof.
  intros HX. unfold sum_from_zero. apply (accum_up (fun o sv (_ : unit) => add (Num := NS) o sv) (fun _ => True) (fun _ => 1) (fun o sv (_ : unit) => o + sv) (fun _ => 1)) with (lo := 0%nat) (cnt := length x).
  - intros o s _ No Ns _ _. exists (SF2R s). rewrite Rmult_1_r, Rminus_eq_0, Rabs_R0. split; [|apply SFadd_rounds; try lia; assumption].
    pose proof u_pos. pose proof eta_pos. pose proof (Rabs_pos (SF2R s)). nra.
  - intros X0 W0 acc lo cnt. induction cnt as [|cnt IH]; cbn [accum sum]; [ring|]. rewrite IH. ring.
  - lia.
  - exact HX.
  - split; [exact I|]. cbn. rewrite Rminus_eq_0, Rabs_R0. pose proof (H_pos 0). unfold W. cbn [sum]. lra.
  - intros i _. split; [exact I|]. rewrite Rminus_eq_0, Rabs_R0, Rabs_R1. pose proof t_ge0. lra.
Qed.
(** The operations of the loops. *)
Lemma st_add o s a : num o -> num s -> num a -> (1 + u) * Rabs (SF2R s * SF2R a) + eta <= top ->
  exists p, Rabs (p - SF2R s * SF2R a) <= u * Rabs (SF2R s * SF2R a) + eta /\ rounds_to prec emax (op_add (N := NS) o s a) (SF2R o + p).
Proof.
  intros No Ns Na Ht. destruct (rounds_err (SFmul prec emax s a) _ top (SFmul_rounds prec emax ltac:(lia) ltac:(lia) s a Ns Na) Ht (Rle_refl _)) as [Np Ep].
  exists (SF2R (SFmul prec emax s a)). split; [exact Ep|]. apply SFadd_rounds; try lia; assumption.
Qed.
Lemma st_add_re o s (a : spec_float * spec_float) : num o -> num s -> num (fst a) -> (1 + u) * Rabs (SF2R s * SF2R (fst a)) + eta <= top ->
  exists p, Rabs (p - SF2R s * SF2R (fst a)) <= u * Rabs (SF2R s * SF2R (fst a)) + eta /\ rounds_to prec emax (op_add_re (N := NS) o s a) (SF2R o + p).
Proof. apply st_add. Qed.
Lemma st_sub_im o s (a : spec_float * spec_float) : num o -> num s -> num (snd a) -> (1 + u) * Rabs (SF2R s * - SF2R (snd a)) + eta <= top ->
  exists p, Rabs (p - SF2R s * - SF2R (snd a)) <= u * Rabs (SF2R s * - SF2R (snd a)) + eta /\ rounds_to prec emax (op_sub_im (N := NS) o s a) (SF2R o + p).
Proof.
  intros No Ns Na Ht. replace (SF2R s * - SF2R (snd a)) with (- (SF2R s * SF2R (snd a))) in * by ring. rewrite Rabs_Ropp in * .
  destruct (rounds_err (SFmul prec emax s (snd a)) _ top (SFmul_rounds prec emax ltac:(lia) ltac:(lia) s (snd a) Ns Na) Ht (Rle_refl _)) as [Np Ep].
  exists (- SF2R (SFmul prec emax s (snd a))). split.
  - replace (- SF2R (SFmul prec emax s (snd a)) - - (SF2R s * SF2R (snd a))) with (- (SF2R (SFmul prec emax s (snd a)) - SF2R s * SF2R (snd a))) by ring. rewrite Rabs_Ropp. exact Ep.
  - apply SFsub_rounds; try lia; assumption.
Qed.
(** The cells of the loops. *)
Notation xr := (map real_of x).
Lemma xr_at i : at_ (N := NumR) xr i = SF2R (nth i x z0).
Proof. unfold at_. change (@zero R R NumR) with (SF2R z0). apply map_nth. Qed.
Lemma at_cell i : cell_ok i (at_ (N := NS) x i) (at_ (N := NumR) xr i).
Proof. rewrite xr_at. split; [apply cell_num|]. unfold at_. cbn [zero Spec_Binary.Binary]. rewrite Rminus_eq_0, Rabs_R0. pose proof u_pos. pose proof eta_pos. pose proof (Rabs_pos (SF2R (nth i x z0))). split; [|lra]. nra. Qed.
Lemma cell_le i : (i < length x)%nat -> cell i <= W (length x).
Proof.
  intros Hi. assert (Q : forall n, (i < n)%nat -> cell i <= W n); [|apply Q, Hi]. intros n Hn. induction Hn as [|n Hn IH]; rewrite W_S; [pose proof (W_pos i); lra|]. pose proof (Rabs_pos (SF2R (nth n x z0))). lra.
Qed.
Lemma half_num : num (half (N := NS)) /\ SF2R (half (N := NS)) = / 2.
Proof.
  destruct half64_ok as [N1 V1]. pose proof (convert_rounds prec emax Hp He _ N1) as R. rewrite V1 in R. pose proof (top_2 prec emax Hp He) as T2.
  assert (E : rnd (/ 2) = / 2).
  { pose proof v_pos. pose proof (w_from_half _ _ _ (NF prec emax) (sf_rounding prec emax v Hp He ltac:(lra))) as Q. exact Q. }
  unfold half. cbn [from_f64 f_half Spec_Binary.Binary]. fold half64. destruct R as [A B]; [rewrite E, Rabs_right; lra|]. split; [exact A|]. rewrite B. exact E.
Qed.
Lemma half_err i z r : (i < length x)%nat -> rounds_to prec emax z (SF2R (nth i x z0) * / 2) -> r = SF2R (nth i x z0) * / 2 -> cell_ok i z r.
Proof.
  intros Hi R ->. assert (C : 0 <= cell i) by apply Rabs_pos. assert (E : Rabs (SF2R (nth i x z0) * / 2) = cell i * / 2) by (rewrite Rabs_mult, (Rabs_right (/ 2)) by lra; reflexivity).
  pose proof u_pos. pose proof eta_pos. pose proof t_ge0. pose proof (cell_le i Hi). pose proof (G_ge (length x)) as Gn. pose proof (H_pos (length x)). pose proof (W_pos (length x)).
  destruct (rounds_err z _ top R) as [A B]; [|lra|].
  - rewrite E. assert (Hn : eta <= H (length x)).
    { unfold H. assert (1 <= INR (length x)) by (replace 1 with (INR 1) by reflexivity; apply le_INR; lia). pose proof (pow_ge1 (length x + 1)).
      rewrite <- (Rmult_1_r eta) at 1. replace (3 * INR (length x) * eta * (1 + t) * (1 + u) ^ (length x + 1)) with (eta * (3 * INR (length x) * ((1 + t) * (1 + u) ^ (length x + 1)))) by ring.
      apply Rmult_le_compat_l; [lra|]. assert (1 <= (1 + t) * (1 + u) ^ (length x + 1)) by nra. nra. }
    assert (W (length x) * ((1 + u) * 1) <= W (length x) * G (length x)) by (apply Rmult_le_compat_l; [assumption|]; nra). 
    eapply Rle_trans; [|apply Htop]. nra.
  - rewrite E in B. split; [exact A|]. split; [nra|]. rewrite E. lra.
Qed.
Lemma half_at_cell j i : (i < length x)%nat -> cell_ok i (half_at (N := NS) j (at_ (N := NS) x) i) (half_at (N := NumR) j (at_ (N := NumR) xr) i).
Proof.
  intros Hi. unfold half_at. destruct (i =? j)%nat; [|apply at_cell]. destruct half_num as [Nh Vh].
  apply half_err; [exact Hi| |rewrite xr_at; reflexivity]. rewrite <- Vh. apply SFmul_rounds; try lia; [apply cell_num|exact Nh].
Qed.
Lemma first_cell : (length x <> 0)%nat -> cell_ok 0 (mul (Num := NS) (at_ (N := NS) x 0) (half (N := NS))) (@mul R R NumR (at_ (N := NumR) xr 0) (half (N := NumR))).
Proof.
  intros H0. destruct half_num as [Nh Vh]. apply half_err; [lia| |rewrite xr_at; reflexivity]. rewrite <- Vh. apply SFmul_rounds; try lia; [apply cell_num|exact Nh].
Qed.
Lemma first_cell' : (length x <> 0)%nat -> cell_ok 0 (mul (Num := NS) (half (N := NS)) (at_ (N := NS) x 0)) (@mul R R NumR (half (N := NumR)) (at_ (N := NumR) xr 0)).
Proof.
  intros H0. destruct half_num as [Nh Vh]. apply half_err; [lia| |rewrite xr_at; apply Rmult_comm]. rewrite <- Vh, Rmult_comm. apply SFmul_rounds; try lia; [exact Nh|apply cell_num].
Qed.
End Sum.

(** ** The tables *)
Lemma rounded0 : rounding 0 v (along2 0 (SF2R (co (S754_zero false))) (SF2R (si (S754_zero false)))).
Proof. assert (Z : num64 (S754_zero false)) by exact I. exact (along_ok _ Z). Qed.
Lemma den_n d : rel (4 * v) (rnd_even 53 (INR d)) (INR d). Proof. exact (den_nat 0 v _ rounded0 d). Qed.
Lemma num_n i : fac ((1 + v) ^ 2) (rnd_even 53 (INR i)) (INR i). Proof. exact (nat_fac 0 v _ rounded0 i). Qed.
Lemma num_off i : fac ((1 + v) ^ 2) (rnd_even 53 (rnd_even 53 (INR i) + / 2)) (INR i + / 2). Proof. exact (off_fac 0 v _ rounded0 i). Qed.
Lemma den_p d : (1 <= d)%nat -> rel (4 * v) (rnd_even 53 (rnd_even 53 (INR d) + / 2)) (INR d + / 2). Proof. exact (den_plus 0 v _ rounded0 Hv4 d). Qed.
Lemma den_m d : (1 <= d)%nat -> rel (4 * v) (rnd_even 53 (rnd_even 53 (INR d) - / 2)) (INR d - / 2). Proof. exact (den_minus 0 v _ rounded0 Hv4 d). Qed.
Definition ent (z : spec_float) (x : R) : Prop := num z /\ Rabs (SF2R z - x) <= t /\ Rabs x <= 1.
Lemma ent_of z x : num64 z -> Rabs (SF2R z - x) <= tau 0 v -> Rabs x <= 1 -> ent (Spec_Binary.convert prec emax z) x.
Proof. intros A B C. destruct (ent_ok z x A B C) as [D E]. split; [exact D|]. split; assumption. Qed.
Lemma trig_ent D rd d J rj j : fval D rd (-3) 903 -> fnum J rj -> 0 < d -> rel (4 * v) rd d -> fac ((1 + v) ^ 2) rj j -> 0 <= j <= 2 * d ->
  ent (Spec_Binary.convert prec emax (co (SFmul 53 1024 (SFdiv 53 1024 pi64 D) J))) (cos (PI / d * j)) /\
  ent (Spec_Binary.convert prec emax (si (SFmul 53 1024 (SFdiv 53 1024 pi64 D) J))) (sin (PI / d * j)).
Proof.
  intros HD HJ Hd Rd Fj Bj. set (a := SFmul 53 1024 (SFdiv 53 1024 pi64 D) J). pose proof (quot_val _ _ _ _ pi_val HD) as Q.
  assert (E : forall A ca sa, num64 a /\ SF2R a = f_mul (Num := along2 A ca sa) (rnd_even 53 (SF2R pi64 / rd)) rj) by (intros; apply prod_val; assumption).
  destruct (E 0 0 0) as [Na _]. pose proof (along_ok a Na) as HN. set (N' := along2 (SF2R a) (SF2R (co a)) (SF2R (si a))) in * .
  pose proof (proj2 (E (SF2R a) (SF2R (co a)) (SF2R (si a)))) as Ea. fold N' in Ea.
  split; apply ent_of; try apply cos_le1; try apply sin_le1; [apply Hco, Na| |apply Hsi, Na|].
  - pose proof (cos_entry 0 v N' HN Hv4 rd d rj j Hd Rd Fj Bj) as K.
    change (Rabs ((if Req_EM_T (f_mul (Num := N') (rnd_even 53 (SF2R pi64 / rd)) rj) (SF2R a) then SF2R (co a) else cos (f_mul (Num := N') (rnd_even 53 (SF2R pi64 / rd)) rj)) - cos (PI / d * j)) <= tau 0 v) in K.
    rewrite <- Ea in K. destruct (Req_EM_T (SF2R a) (SF2R a)) as [_|X]; [exact K|contradiction X; reflexivity].
  - pose proof (sin_entry 0 v N' HN Hv4 rd d rj j Hd Rd Fj Bj) as K.
    change (Rabs ((if Req_EM_T (f_mul (Num := N') (rnd_even 53 (SF2R pi64 / rd)) rj) (SF2R a) then SF2R (si a) else sin (f_mul (Num := N') (rnd_even 53 (SF2R pi64 / rd)) rj)) - sin (PI / d * j)) <= tau 0 v) in K.
    rewrite <- Ea in K. destruct (Req_EM_T (SF2R a) (SF2R a)) as [_|X]; [exact K|contradiction X; reflexivity].
Qed.
Lemma polar_ent L J rj j : (L <> 0)%nat -> INR L <= pow2 900 -> fnum J rj -> fac ((1 + v) ^ 2) rj j -> 0 <= j <= INR L ->
  let a := SFmul 53 1024 (SFdiv 53 1024 (SFmul 53 1024 pi64 (SFopp two64)) (Spec_Binary.f64_of (Z.of_nat L) 0)) J in
  ent (Spec_Binary.convert prec emax (SFmul 53 1024 (Spec_Binary.f64_of 1 0) (co a))) (cos (PI * - (2) / INR L * j)) /\
  ent (Spec_Binary.convert prec emax (SFmul 53 1024 (Spec_Binary.f64_of 1 0) (si a))) (sin (PI * - (2) / INR L * j)).
Proof.
  intros HL BL HJ Fj Bj a. pose proof (quot_val _ _ _ _ pi2_val (fval_wider _ _ _ _ (-3) 903 (nat_val L ltac:(lia) BL) ltac:(lia) ltac:(lia))) as Q.
  assert (E : forall A ca sa, num64 a /\ SF2R a = f_mul (Num := along2 A ca sa) (rnd_even 53 (rnd_even 53 (SF2R pi64 * - (2)) / rnd_even 53 (INR L))) rj) by (intros; apply prod_val; assumption).
  destruct (E 0 0 0) as [Na _]. pose proof (along_ok a Na) as HN. set (N' := along2 (SF2R a) (SF2R (co a)) (SF2R (si a))) in * .
  pose proof (proj2 (E (SF2R a) (SF2R (co a)) (SF2R (si a)))) as Ea. fold N' in Ea. set (rq := rnd_even 53 (rnd_even 53 (SF2R pi64 * - (2)) / rnd_even 53 (INR L))) in * .
  destruct (polar_entry 0 v N' HN Hv4 L rj j HL Fj Bj) as [K1 K2]. cbn [fst snd] in K1, K2.
  assert (Th : f_mul (Num := N') (f_div (Num := N') (f_mul (Num := N') f_pi (f_neg (Num := N') f_two)) (f_of_nat L)) rj = SF2R a).
  { rewrite Ea. unfold rq. cbn [N' along2 f_mul f_div f_neg f_two f_pi f_of_nat]. pose proof pi_range. destruct (Req_EM_T (SF2R pi64) 1); [lra|reflexivity]. }
  destruct (one_times (co a) ltac:(apply Hco, Na)) as [Nc Vc]. destruct (one_times (si a) ltac:(apply Hsi, Na)) as [Ns Vs]. 
  rewrite Th in K1, K2. cbn [N' along2 f_mul f_one f_cos f_sin from_f64] in K1, K2. destruct (Req_EM_T 1 1) as [_|X]; [|contradiction X; reflexivity]. destruct (Req_EM_T (SF2R a) (SF2R a)) as [_|X]; [|contradiction X; reflexivity].
  split; apply ent_of; try apply cos_le1; try apply sin_le1; [exact Nc|rewrite Vc; exact K1|exact Ns|rewrite Vs; exact K2].
Qed.
Lemma im_ent (a : spec_float * spec_float) (b : R * R) : ent (snd a) (snd b) -> num (snd a) /\ Rabs (- SF2R (snd a) - - snd b) <= t /\ Rabs (- snd b) <= 1.
Proof. intros (A & B & C). split; [exact A|]. rewrite Rabs_Ropp. split; [|exact C]. replace (- SF2R (snd a) - - snd b) with (- (SF2R (snd a) - snd b)) by ring. rewrite Rabs_Ropp. exact B. Qed.
Lemma tw_ent i L : (i < L)%nat -> INR L <= pow2 900 ->
  ent (fst (single_twiddle (N := NS) i L)) (fst (single_twiddle (N := NumR) i L)) /\ ent (snd (single_twiddle (N := NS) i L)) (snd (single_twiddle (N := NumR) i L)).
Proof.
  intros Hi BL. unfold single_twiddle, from_polar. cbn [fst snd from_f64 f_mul f_one f_cos f_sin f_div f_pi f_neg f_two f_of_nat NumR Spec_Binary.Binary]. rewrite !Rmult_1_l.
  assert (Bi : INR i <= INR L) by (apply le_INR; lia). apply (polar_ent L _ (rnd_even 53 (INR i))); [lia|exact BL|apply nat_num; lra|apply num_n|]. split; [apply pos_INR|exact Bi].
Qed.
Lemma tw_half_ent i L : (i < L)%nat -> INR L <= pow2 900 ->
  ent (fst (single_twiddle_halfoffset (N := NS) i L)) (fst (single_twiddle_halfoffset (N := NumR) i L)) /\ ent (snd (single_twiddle_halfoffset (N := NS) i L)) (snd (single_twiddle_halfoffset (N := NumR) i L)).
Proof.
  intros Hi BL. unfold single_twiddle_halfoffset, from_polar. cbn [fst snd from_f64 f_mul f_one f_cos f_sin f_div f_pi f_neg f_two f_of_nat f_add f_half NumR Spec_Binary.Binary]. rewrite !Rmult_1_l.
  assert (Bi : INR i + 1 <= INR L) by (rewrite <- S_INR; apply le_INR; lia). pose proof (pos_INR i).
  apply (polar_ent L _ (rnd_even 53 (rnd_even 53 (INR i) + / 2))); [lia|exact BL|apply (fval_num _ _ _ _ (add_val i ltac:(lra))); lia|apply num_off|lra].
Qed.

(** ** The transforms *)
Definition approx_s (f : meth spec_float) (n : nat) (tr : list R -> nat -> R) : Prop := exists g, computes f n n g /\
  forall x k, length x = n -> (k < n)%nat -> Forall num x -> W x n * G n + H n <= top -> upto x n (g x k) (tr (map real_of x) k).
Ltac pos n := assert (1 <= INR n) by (replace 1 with (INR 1) by reflexivity; apply le_INR; lia).
Ltac inr := repeat first [ rewrite plus_INR | rewrite mult_INR | rewrite minus_INR by lia | rewrite S_INR ]; simpl INR.
Ltac inr_in H := repeat first
  [ rewrite plus_INR in H | rewrite mult_INR in H | rewrite minus_INR in H by lia | rewrite S_INR in H ]; simpl INR in H.
Ltac idx_le Hi := match type of Hi with (?i < ?L)%nat =>
  let H := fresh "Bi" in pose proof (pos_INR i); assert (H : INR i + 1 <= INR L) by (rewrite <- S_INR; apply le_INR; lia); inr_in H end.
Ltac lens := rewrite map_length, seq_length; try reflexivity; try lia.
Notation small n := (INR n <= pow2 890).
Lemma small_900 n L : small n -> INR L <= 8 * INR n + 8 -> INR L <= pow2 900.
Proof. intros A B. pose proof (pow2_le 0 890 ltac:(lia)) as C. change (pow2 0) with 1 in C. replace (pow2 900) with (1024 * pow2 890); [lra|]. change 900%Z with (10 + 890)%Z. rewrite two_pow_add. f_equal. change (pow2 10) with (2 ^ 10). ring. Qed.
Ltac big n := apply (small_900 n); [assumption|inr; pose proof (pos_INR n); try lra].
Lemma den_val d : (1 <= d)%nat -> INR d <= pow2 900 -> fval (Spec_Binary.f64_of (Z.of_nat d) 0) (rnd_even 53 (INR d)) (-3) 903.
Proof. intros A B. eapply fval_wider; [apply nat_val; assumption|lia|lia]. Qed.
Ltac idx_900 := match goal with Bi : INR _ + 1 <= _, Hs : INR (length ?x) <= _ |- _ => pose proof (small_900 (length x) (8 * length x + 8) Hs ltac:(inr; lra)) as Q9; inr_in Q9; lra end.
Lemma dst1_naive_s n : small n -> approx_s (Dst1Naive_dst1 (N := NS) (Dst1Naive_new (N := NS) n)) n dst1_at.
Proof.
  intros Hs. eexists. split; [apply sem_dst1_naive_ok; lens|].
  intros x k Hx Hk Nx Ht. rewrite <- (dst1_naive_exact (map real_of x)) by (rewrite map_length; lia). subst n.
  unfold sem_dst1_naive. rewrite map_length.
  apply (sum_0 x Ht (op_add (N := NS)) num real_of (op_add (N := NumR)) (fun w => w) st_add accum_add); [|lia|intros i _; apply at_cell; exact Nx].
  intros i Hi. pos (length x).
  idx_le Hi. apply (trig_ent _ (rnd_even 53 (INR (length x + 1))) (INR (length x + 1)) _ (rnd_even 53 (INR i)) (INR i)); [apply den_val; [lia|big (length x)]|apply nat_num; idx_900|inr; lra|apply den_n|apply num_n|]; inr; lra.
Qed.
Lemma dct2_naive_s n : small n -> approx_s (Type2And3Naive_dct2 (N := NS) (Type2And3Naive_new (N := NS) n)) n dct2_at.
Proof.
  intros Hs. eexists. split; [apply sem_dct2_naive_ok; lens|].
  intros x k Hx Hk Nx Ht. rewrite <- (dct2_naive_exact (map real_of x)) by (rewrite map_length; lia). subst n.
  unfold sem_dct2_naive. rewrite map_length.
  apply (sum_0 x Ht (op_add_re (N := NS)) (fun a => num (fst a)) (fun a => real_of (fst a)) (op_add_re (N := NumR)) fst st_add_re accum_add_re); [|lia|intros i _; apply at_cell; exact Nx].
  intros i Hi. apply (tw_ent i (length x * 4)); [exact Hi|big (length x)].
Qed.
Lemma dst2_naive_s n : small n -> approx_s (Type2And3Naive_dst2 (N := NS) (Type2And3Naive_new (N := NS) n)) n dst2_at.
Proof.
  intros Hs. eexists. split; [apply sem_dst2_naive_ok; lens|].
  intros x k Hx Hk Nx Ht. rewrite <- (dst2_naive_exact (map real_of x)) by (rewrite map_length; lia). subst n.
  unfold sem_dst2_naive. rewrite map_length.
  apply (sum_0 x Ht (op_sub_im (N := NS)) (fun a => num (snd a)) (fun a => - real_of (snd a)) (op_sub_im (N := NumR)) (fun a => - snd a) st_sub_im accum_sub_im); [|lia|intros i _; apply at_cell; exact Nx].
  intros i Hi. apply im_ent, (tw_ent i (length x * 4)); [exact Hi|big (length x)].
Qed.
Lemma dct3_naive_s n : small n -> (1 <= n)%nat -> approx_s (Type2And3Naive_dct3 (N := NS) (Type2And3Naive_new (N := NS) n)) n dct3_at.
Proof.
  intros Hs Hn. eexists. split; [apply sem_dct3_naive_ok; [lia|]; lens|].
  intros x k Hx Hk Nx Ht. rewrite <- (dct3_naive_exact (map real_of x)) by (rewrite map_length; lia). subst n.
  unfold sem_dct3_naive. rewrite map_length.
  apply (sum_1 x Ht (op_add_re (N := NS)) (fun a => num (fst a)) (fun a => real_of (fst a)) (op_add_re (N := NumR)) fst st_add_re accum_add_re); [|lia|lia|intros i _; apply at_cell; exact Nx|apply first_cell'; [exact Nx|exact Ht|lia]].
  intros i Hi. apply (tw_ent i (length x * 4)); [exact Hi|big (length x)].
Qed.
Lemma dst3_naive_s n : small n -> (1 <= n)%nat -> approx_s (Type2And3Naive_dst3 (N := NS) (Type2And3Naive_new (N := NS) n)) n dst3_at.
Proof.
  intros Hs Hn. eexists. split; [apply sem_dst3_naive_ok; [lia|]; lens|].
  intros x k Hx Hk Nx Ht. rewrite <- (dst3_naive_exact (map real_of x)) by (rewrite map_length; lia). subst n.
  unfold sem_dst3_naive. rewrite map_length.
  apply (sum_0 x Ht (op_sub_im (N := NS)) (fun a => num (snd a)) (fun a => - real_of (snd a)) (op_sub_im (N := NumR)) (fun a => - snd a) st_sub_im accum_sub_im); [|lia|intros i Hi; apply half_at_cell; assumption].
  intros i Hi. apply im_ent, (tw_ent i (length x * 4)); [exact Hi|big (length x)].
Qed.
Lemma dct4_naive_s n : small n -> approx_s (Type4Naive_dct4 (N := NS) (Type4Naive_new (N := NS) n)) n dct4_at.
Proof.
  intros Hs. eexists. split; [apply sem_dct4_naive_ok; lens|].
  intros x k Hx Hk Nx Ht. rewrite <- (dct4_naive_exact (map real_of x)) by (rewrite map_length; lia). subst n.
  unfold sem_dct4_naive. rewrite map_length.
  apply (sum_0 x Ht (op_add_re (N := NS)) (fun a => num (fst a)) (fun a => real_of (fst a)) (op_add_re (N := NumR)) fst st_add_re accum_add_re); [|lia|intros i _; apply at_cell; exact Nx].
  intros i Hi. apply (tw_half_ent i (length x * 4)); [exact Hi|big (length x)].
Qed.
Lemma dst4_naive_s n : small n -> approx_s (Type4Naive_dst4 (N := NS) (Type4Naive_new (N := NS) n)) n dst4_at.
Proof.
  intros Hs. eexists. split; [apply sem_dst4_naive_ok; lens|].
  intros x k Hx Hk Nx Ht. rewrite <- (dst4_naive_exact (map real_of x)) by (rewrite map_length; lia). subst n.
  unfold sem_dst4_naive. rewrite map_length.
  apply (sum_0 x Ht (op_sub_im (N := NS)) (fun a => num (snd a)) (fun a => - real_of (snd a)) (op_sub_im (N := NumR)) (fun a => - snd a) st_sub_im accum_sub_im); [|lia|intros i _; apply at_cell; exact Nx].
  intros i Hi. apply im_ent, (tw_half_ent i (length x * 4)); [exact Hi|big (length x)].
Qed.
Lemma dst5_naive_s n : small n -> approx_s (Dst5Naive_dst5 (N := NS) (Dst5Naive_new (N := NS) n)) n dst5_at.
Proof.
  intros Hs. eexists. split; [apply sem_dst5_naive_ok; lens|].
  intros x k Hx Hk Nx Ht. rewrite <- (dst5_naive_exact (map real_of x)) by (rewrite map_length; lia). subst n.
  unfold sem_dst5_naive. rewrite map_length.
  apply (sum_0 x Ht (op_add (N := NS)) num real_of (op_add (N := NumR)) (fun w => w) st_add accum_add); [|lia|intros i _; apply at_cell; exact Nx].
  intros i Hi. pos (length x).
  idx_le Hi. apply (trig_ent _ (rnd_even 53 (rnd_even 53 (INR (length x)) + / 2)) (INR (length x) + / 2) _ (rnd_even 53 (INR i)) (INR i)); [apply (fval_wider _ _ (-2) 903); [apply add_val; big (length x)|lia|lia]|apply nat_num; idx_900|inr; lra|apply den_p; lia|apply num_n|]; inr; lra.
Qed.
Lemma dst6_naive_s n : small n -> approx_s (Dst6And7Naive_dst6 (N := NS) (Dst6And7Naive_new (N := NS) n)) n dst6_at.
Proof.
  intros Hs. eexists. split; [apply sem_dst6_naive_ok; lens|].
  intros x k Hx Hk Nx Ht. rewrite <- (dst6_naive_exact (map real_of x)) by (rewrite map_length; lia). subst n.
  unfold sem_dst6_naive. rewrite map_length.
  apply (sum_0 x Ht (op_add (N := NS)) num real_of (op_add (N := NumR)) (fun w => w) st_add accum_add); [|lia|intros i _; apply at_cell; exact Nx].
  intros i Hi. pos (length x).
  idx_le Hi. apply (trig_ent _ (rnd_even 53 (INR (length x * 2 + 1))) (INR (length x * 2 + 1)) _ (rnd_even 53 (INR i)) (INR i)); [apply den_val; [lia|big (length x)]|apply nat_num; idx_900|inr; lra|apply den_n|apply num_n|]; inr; lra.
Qed.
Lemma dst7_naive_s n : small n -> approx_s (Dst6And7Naive_dst7 (N := NS) (Dst6And7Naive_new (N := NS) n)) n dst7_at.
Proof.
  intros Hs. eexists. split; [apply sem_dst7_naive_ok; lens|].
  intros x k Hx Hk Nx Ht. rewrite <- (dst7_naive_exact (map real_of x)) by (rewrite map_length; lia). subst n.
  unfold sem_dst7_naive. rewrite map_length.
  apply (sum_0 x Ht (op_add (N := NS)) num real_of (op_add (N := NumR)) (fun w => w) st_add accum_add); [|lia|intros i _; apply at_cell; exact Nx].
  intros i Hi. pos (length x).
  idx_le Hi. apply (trig_ent _ (rnd_even 53 (INR (length x * 2 + 1))) (INR (length x * 2 + 1)) _ (rnd_even 53 (INR i)) (INR i)); [apply den_val; [lia|big (length x)]|apply nat_num; idx_900|inr; lra|apply den_n|apply num_n|]; inr; lra.
Qed.
Lemma dct8_naive_s n : small n -> approx_s (Dct8Naive_dct8 (N := NS) (Dct8Naive_new (N := NS) n)) n dct8_at.
Proof.
  intros Hs. eexists. split; [apply sem_dct8_naive_ok; lens|].
  intros x k Hx Hk Nx Ht. rewrite <- (dct8_naive_exact (map real_of x)) by (rewrite map_length; lia). subst n.
  unfold sem_dct8_naive. rewrite map_length.
  apply (sum_0 x Ht (op_add (N := NS)) num real_of (op_add (N := NumR)) (fun w => w) st_add accum_add); [|lia|intros i _; apply at_cell; exact Nx].
  intros i Hi. pos (length x).
  idx_le Hi. apply (trig_ent _ (rnd_even 53 (INR (length x * 2 + 1))) (INR (length x * 2 + 1)) _ (rnd_even 53 (rnd_even 53 (INR i) + / 2)) (INR i + / 2)); [apply den_val; [lia|big (length x)]|apply (fval_num _ _ (-2) 903); [apply add_val; idx_900|lia|lia]|inr; lra|apply den_n|apply num_off|]; inr; lra.
Qed.
Lemma dst8_naive_s n d : small n -> (1 <= n)%nat -> Dst8Naive_new (N := NS) n = Ok d -> approx_s (Dst8Naive_dst8 (N := NS) d) n dst8_at.
Proof.
  intros Hs Hn. rewrite Dst8Naive_new_S by exact Hn. injection 1 as <-. eexists. split; [apply sem_dst8_naive_ok; [lia|]; lens|].
  intros x k Hx Hk Nx Ht. rewrite <- (dst8_naive_exact (map real_of x)) by (rewrite map_length; lia). subst n.
  unfold sem_dst8_naive. rewrite map_length.
  apply (sum_0 x Ht (op_add (N := NS)) num real_of (op_add (N := NumR)) (fun w => w) st_add accum_add); [|lia|intros i Hi; apply half_at_cell; assumption].
  intros i Hi. pos (length x).
  idx_le Hi. apply (trig_ent _ (rnd_even 53 (INR (length x * 2 - 1))) (INR (length x * 2 - 1)) _ (rnd_even 53 (rnd_even 53 (INR i) + / 2)) (INR i + / 2)); [apply den_val; [lia|big (length x)]|apply (fval_num _ _ (-2) 903); [apply add_val; idx_900|lia|lia]|inr; lra|apply den_n|apply num_off|]; inr; lra.
Qed.
Lemma dct1_naive_s n d : small n -> (2 <= n)%nat -> Dct1Naive_new (N := NS) n = Ok d -> approx_s (Dct1Naive_dct1 (N := NS) d) n dct1_at.
Proof.
  intros Hs Hn. rewrite Dct1Naive_new_S by exact Hn. injection 1 as <-. eexists. split; [apply sem_dct1_naive_ok; [lia|]; lens|].
  intros x k Hx Hk Nx Ht. rewrite <- (dct1_naive_exact (map real_of x)) by (rewrite map_length; lia). subst n.
  unfold sem_dct1_naive, dct1_tw. rewrite !map_length.
  apply (sum_1 x Ht (op_add (N := NS)) num real_of (op_add (N := NumR)) (fun w => w) st_add accum_add); [|lia|lia|intros i Hi; apply half_at_cell; assumption|apply first_cell; [exact Nx|exact Ht|lia]].
  intros i Hi. assert (2 <= INR (length x)) by (replace 2 with (INR 2) by reflexivity; apply le_INR, Hn).
  idx_le Hi. apply (trig_ent _ (rnd_even 53 (INR (length x - 1))) (INR (length x - 1)) _ (rnd_even 53 (INR i)) (INR i)); [apply den_val; [lia|big (length x)]|apply nat_num; idx_900|inr; lra|apply den_n|apply num_n|]; inr; lra.
Qed.
Lemma dct5_naive_s n d : small n -> (1 <= n)%nat -> Dct5Naive_new (N := NS) n = Ok d -> approx_s (Dct5Naive_dct5 (N := NS) d) n dct5_at.
Proof.
  intros Hs Hn. rewrite Dct5Naive_new_S by exact Hn. injection 1 as <-. eexists. split; [apply sem_dct5_naive_ok; [lia|]; lens|].
  intros x k Hx Hk Nx Ht. rewrite <- (dct5_naive_exact (map real_of x)) by (rewrite map_length; lia). subst n.
  unfold sem_dct5_naive, dct5_tw. rewrite !map_length.
  destruct (k =? 0)%nat; [apply plain_up; [exact Ht|]; intros i Hi; apply half_at_cell; assumption|].
  apply (sum_1 x Ht (op_add (N := NS)) num real_of (op_add (N := NumR)) (fun w => w) st_add accum_add); [|lia|lia|intros i _; apply at_cell; exact Nx|apply first_cell; [exact Nx|exact Ht|lia]].
  intros i Hi. pos (length x).
  idx_le Hi. apply (trig_ent _ (rnd_even 53 (rnd_even 53 (INR (length x)) - / 2)) (INR (length x) - / 2) _ (rnd_even 53 (INR i)) (INR i)); [apply sub_val; [lia|big (length x)]|apply nat_num; idx_900|inr; lra|apply den_m; lia|apply num_n|]; inr; lra.
Qed.
Lemma dct6_naive_s n d : small n -> (1 <= n)%nat -> Dct6And7Naive_new (N := NS) n = Ok d -> approx_s (Dct6And7Naive_dct6 (N := NS) d) n dct6_at.
Proof.
  intros Hs Hn. rewrite Dct6And7Naive_new_S by exact Hn. injection 1 as <-. eexists. split; [apply sem_dct6_naive_ok; [lia|]; lens|].
  intros x k Hx Hk Nx Ht. rewrite <- (dct6_naive_exact (map real_of x)) by (rewrite map_length; lia). subst n.
  unfold sem_dct6_naive, c67_tw. rewrite !map_length.
  destruct (k =? 0)%nat; [apply plain_up; [exact Ht|]; intros i Hi; apply half_at_cell; assumption|].
  apply (sum_0 x Ht (op_add (N := NS)) num real_of (op_add (N := NumR)) (fun w => w) st_add accum_add); [|lia|intros i Hi; apply half_at_cell; assumption].
  intros i Hi. pos (length x).
  idx_le Hi. apply (trig_ent _ (rnd_even 53 (INR (length x * 2 - 1))) (INR (length x * 2 - 1)) _ (rnd_even 53 (INR i)) (INR i)); [apply den_val; [lia|big (length x)]|apply nat_num; idx_900|inr; lra|apply den_n|apply num_n|]; inr; lra.
Qed.
Lemma dct7_naive_s n d : small n -> (1 <= n)%nat -> Dct6And7Naive_new (N := NS) n = Ok d -> approx_s (Dct6And7Naive_dct7 (N := NS) d) n dct7_at.
Proof.
  intros Hs Hn. rewrite Dct6And7Naive_new_S by exact Hn. injection 1 as <-. eexists. split; [apply sem_dct7_naive_ok; [lia|]; lens|].
  intros x k Hx Hk Nx Ht. rewrite <- (dct7_naive_exact (map real_of x)) by (rewrite map_length; lia). subst n.
  unfold sem_dct7_naive, c67_tw. rewrite !map_length.
  apply (sum_1 x Ht (op_add (N := NS)) num real_of (op_add (N := NumR)) (fun w => w) st_add accum_add); [|lia|lia|intros i _; apply at_cell; exact Nx|apply first_cell; [exact Nx|exact Ht|lia]].
  intros i Hi. pos (length x).
  idx_le Hi. apply (trig_ent _ (rnd_even 53 (INR (length x * 2 - 1))) (INR (length x * 2 - 1)) _ (rnd_even 53 (INR i)) (INR i)); [apply den_val; [lia|big (length x)]|apply nat_num; idx_900|inr; lra|apply den_n|apply num_n|]; inr; lra.
Qed.
End Naive.
