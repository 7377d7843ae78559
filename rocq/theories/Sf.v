(** The operations of [SpecFloat] round correctly: to nearest, ties to even, with gradual underflow. *)
From Coq Require Import Reals ZArith Lia Lra Psatz Floats.SpecFloat.
From Verif Require Import Num Spec_Round Spec_Ieee Spec_Float Spec_Ieee754 Round_Binary Round_Ieee.
Open Scope R_scope.
Notation pow2 := (powerRZ 2).

Lemma mag_high x : x <> 0 -> Rabs x < pow2 (mag x).
Proof.
  intros H. rewrite two_pow_exp. assert (P : 0 < Rabs x) by (apply Rabs_pos_lt, H). rewrite <- (exp_ln (Rabs x) P) at 1. apply exp_increasing.
  unfold mag. destruct (archimed (ln (Rabs x) / ln 2)) as [A _]. pose proof ln2_pos. apply (Rmult_gt_compat_r (ln 2)) in A; [|exact H0].
  replace (ln (Rabs x) / ln 2 * ln 2) with (ln (Rabs x)) in A by (field; lra). exact A.
Qed.
Lemma pow2_lt a b : (a < b)%Z -> pow2 a < pow2 b.
Proof. intros H. rewrite !two_pow_exp. apply exp_increasing. apply Rmult_lt_compat_r; [apply ln2_pos|apply IZR_lt, H]. Qed.
Lemma pow2_le a b : (a <= b)%Z -> pow2 a <= pow2 b.
Proof. intros H. destruct (Z.eq_dec a b) as [->|]; [lra|]. left. apply pow2_lt. lia. Qed.
Lemma pow2_lt_inv a b : pow2 a < pow2 b -> (a < b)%Z.
Proof. intros H. destruct (Z_lt_le_dec a b) as [|L]; [assumption|]. apply pow2_le in L. lra. Qed.
Lemma mag_unique x k : pow2 (k - 1) <= Rabs x < pow2 k -> mag x = k.
Proof.
  intros [L H]. assert (Nz : x <> 0) by (intros ->; rewrite Rabs_R0 in L; pose proof (two_pow_pos (k - 1)); lra).
  pose proof (mag_low x Nz). pose proof (mag_high x Nz). assert (k - 1 < mag x)%Z by (apply pow2_lt_inv; lra). assert (mag x - 1 < k)%Z by (apply pow2_lt_inv; lra). lia.
Qed.
Lemma mag_below x k : x <> 0 -> Rabs x < pow2 k -> (mag x <= k)%Z.
Proof. intros Nz H. pose proof (mag_low x Nz). assert (mag x - 1 < k)%Z by (apply pow2_lt_inv; lra). lia. Qed.
Lemma mag_above x k : pow2 k <= Rabs x -> (k < mag x)%Z.
Proof. intros H. assert (Nz : x <> 0) by (intros ->; rewrite Rabs_R0 in H; pose proof (two_pow_pos k); lra). pose proof (mag_high x Nz). apply pow2_lt_inv. lra. Qed.
Lemma pow2_Z n : (0 <= n)%Z -> pow2 n = IZR (2 ^ n).
Proof.
  intros H. pattern n. apply natlike_ind; [reflexivity| |exact H]. intros m Hm E. unfold Z.succ. rewrite two_pow_add, E, Z.pow_add_r, mult_IZR by lia. change (pow2 1) with (2 * 1). change (2 ^ 1)%Z with 2%Z. ring.
Qed.

(** *** Digits *)
Lemma digits2_ok m : (2 ^ (Zpos (digits2_pos m) - 1) <= Zpos m < 2 ^ Zpos (digits2_pos m))%Z.
Proof.
  induction m as [m IH|m IH|]; cbn [digits2_pos]; [| |cbn; lia]; rewrite Pos2Z.inj_succ; replace (Z.succ (Zpos (digits2_pos m)) - 1)%Z with (Z.succ (Zpos (digits2_pos m) - 1)) by lia;
    rewrite !Z.pow_succ_r by lia; [rewrite (Pos2Z.inj_xI m)|rewrite (Pos2Z.inj_xO m)]; lia.
Qed.
Lemma digits2_unique m d : (0 < d)%Z -> (2 ^ (d - 1) <= Zpos m < 2 ^ d)%Z -> Zpos (digits2_pos m) = d.
Proof.
  intros Hd H. pose proof (digits2_ok m) as K. assert (d - 1 < Zpos (digits2_pos m))%Z by (apply (Z.pow_lt_mono_r_iff 2); lia).
  assert (Zpos (digits2_pos m) - 1 < d)%Z by (apply (Z.pow_lt_mono_r_iff 2); lia). lia.
Qed.

(** *** Shifting to the right *)
Definition den (r : shr_record) (y : R) : Prop :=
  match r with
  | Build_shr_record m false false => y = IZR m
  | Build_shr_record m false true => IZR m < y < IZR m + / 2
  | Build_shr_record m true false => y = IZR m + / 2
  | Build_shr_record m true true => IZR m + / 2 < y < IZR m + 1
  end.
Lemma den_range r y : den r y -> IZR (shr_m r) <= y < IZR (shr_m r) + 1.
Proof. destruct r as [m [] []]; cbn; lra. Qed.
Lemma shr_1_ok r y : (0 <= shr_m r)%Z -> den r y -> (0 <= shr_m (shr_1 r))%Z /\ den (shr_1 r) (y / 2).
Proof.
  destruct r as [m r s]. cbn [shr_m]. intros Hm H. destruct m as [|p|p]; [| |lia].
  - cbn. split; [lia|]. destruct r, s; cbn in *; lra.
  - destruct p as [p|p|]; cbn [shr_1 shr_m]; (split; [lia|]).
    + rewrite Pos2Z.inj_xI in H. destruct r, s; cbn [orb den] in *; rewrite plus_IZR, mult_IZR in H; lra.
    + rewrite Pos2Z.inj_xO in H. destruct r, s; cbn [orb den] in *; rewrite mult_IZR in H; lra.
    + destruct r, s; cbn in *; lra.
Qed.
Lemma iter_ok p : forall r y, (0 <= shr_m r)%Z -> den r y -> (0 <= shr_m (iter_pos shr_1 p r))%Z /\ den (iter_pos shr_1 p r) (y * pow2 (- Zpos p)).
Proof.
  induction p as [p IH|p IH|]; intros r y Hm H; cbn [iter_pos].
  - destruct (shr_1_ok r y Hm H) as [H1 D1]. destruct (IH _ _ H1 D1) as [H2 D2]. destruct (IH _ _ H2 D2) as [H3 D3]. split; [exact H3|].
    replace (y * pow2 (- Zpos (xI p))) with (y / 2 * pow2 (- Zpos p) * pow2 (- Zpos p)); [exact D3|]. 
    replace (- Zpos (xI p))%Z with (- Zpos p + - Zpos p + - (1))%Z by lia. rewrite !two_pow_add. change (pow2 (- (1))) with (/ (2 * 1)). field.
  - destruct (IH _ _ Hm H) as [H2 D2]. destruct (IH _ _ H2 D2) as [H3 D3]. split; [exact H3|].
    replace (y * pow2 (- Zpos (xO p))) with (y * pow2 (- Zpos p) * pow2 (- Zpos p)); [exact D3|]. 
    replace (- Zpos (xO p))%Z with (- Zpos p + - Zpos p)%Z by lia. rewrite two_pow_add. ring.
  - destruct (shr_1_ok r y Hm H) as [H1 D1]. split; [exact H1|]. replace (y * pow2 (- (1))) with (y / 2); [exact D1|]. change (pow2 (- (1))) with (/ (2 * 1)). field.
Qed.
Lemma shr_ok r e n y : (0 <= n)%Z -> (0 <= shr_m r)%Z -> den r (y * pow2 (- e)) ->
  exists r', shr r e n = (r', (e + n)%Z) /\ (0 <= shr_m r')%Z /\ den r' (y * pow2 (- (e + n))).
Proof.
  intros Hn Hm H. destruct n as [|p|p]; [| |lia]; cbn [shr].
  - exists r. rewrite Z.add_0_r. auto.
  - destruct (iter_ok p r _ Hm H) as [A B]. eexists. split; [reflexivity|]. split; [exact A|]. rewrite Z.opp_add_distr, two_pow_add, <- Rmult_assoc. exact B.
Qed.
Lemma loc_record m l : shr_m (shr_record_of_loc m l) = m. Proof. destruct l as [|[]]; reflexivity. Qed.
Lemma round_record r y : den r y -> round_nearest_even (shr_m r) (loc_of_shr_record r) = nearest_even y.
Proof.
  intros H. symmetry. apply nearest_even_unique. destruct r as [m [] []]; cbn [den shr_m loc_of_shr_record round_nearest_even] in * .
  - left. rewrite plus_IZR. apply Rabs_def1; lra.
  - right. destruct (Z.even m) eqn:E.
    + split; [|exact E]. rewrite Rabs_right; lra.
    + split; [rewrite plus_IZR, Rabs_left; lra|]. rewrite Z.even_add, E. reflexivity.
  - left. apply Rabs_def1; lra.
  - left. apply Rabs_def1; lra.
Qed.

(** *** Rounding *)
Section Format.
Variables prec emax : Z.
Hypothesis (Hp : (2 <= prec)%Z) (He : (2 <= emax)%Z).
Notation fexp := (SpecFloat.fexp prec emax).
Notation emin := (SpecFloat.emin prec emax).
Notation SF2R := real_of.
Notation number := (number prec emax).
Definition sf_rnd : R -> R := rnd_grad prec (3 - emax).
Notation sf_top := (greatest prec emax).
Lemma sf_rnd_eq x : x <> 0 -> sf_rnd x = IZR (nearest_even (x * pow2 (- fexp (mag x)))) * pow2 (fexp (mag x)).
Proof.
  intros H. unfold sf_rnd, rnd_grad. destruct (Req_EM_T x 0); [contradiction|]. cbv zeta. unfold SpecFloat.fexp, SpecFloat.emin.
  replace (prec - Z.max (mag x) (3 - emax))%Z with (- Z.max (mag x - prec) (3 - emax - prec))%Z by lia.
  replace (Z.max (mag x) (3 - emax) - prec)%Z with (Z.max (mag x - prec) (3 - emax - prec))%Z by lia. reflexivity.
Qed.
Lemma sf_rnd_0 : sf_rnd 0 = 0. Proof. unfold sf_rnd, rnd_grad. destruct (Req_EM_T 0 0); [reflexivity|lra]. Qed.
Lemma sf_rnd_opp x : sf_rnd (- x) = - sf_rnd x.
Proof.
  destruct (Req_EM_T x 0) as [->|H]; [rewrite Ropp_0, sf_rnd_0; ring|]. rewrite !sf_rnd_eq by lra.
  assert (M : mag (- x) = mag x) by (unfold mag; rewrite Rabs_Ropp; reflexivity). rewrite M, Ropp_mult_distr_l_reverse, nearest_even_opp, opp_IZR. ring.
Qed.
Lemma scale_div x e : x * pow2 (- e) * pow2 e = x.
Proof. rewrite Rmult_assoc, <- two_pow_add. replace (- e + e)%Z with 0%Z by lia. cbn [powerRZ]. ring. Qed.
Lemma fexp_of m e l x : 0 < x -> (0 <= m)%Z -> den (shr_record_of_loc m l) (x * pow2 (- e)) -> (e <= fexp (mag x))%Z -> fexp (Zdigits2 m + e) = fexp (mag x).
Proof.
  intros Hx Hm D C. apply den_range in D. rewrite loc_record in D. pose proof (two_pow_pos e) as Pe.
  assert (X : IZR m * pow2 e <= x < (IZR m + 1) * pow2 e).
  { rewrite <- (scale_div x e). split; [apply Rmult_le_compat_r; lra|apply Rmult_lt_compat_r; lra]. }
  destruct m as [|p|p]; [| |lia].
  - cbn [Zdigits2]. assert (mag x <= e)%Z by (apply mag_below; [lra|rewrite Rabs_right; lra]). unfold SpecFloat.fexp in * . lia.
  - cbn [Zdigits2]. f_equal. symmetry. apply mag_unique. rewrite Rabs_right by lra. destruct (digits2_ok p) as [L H]. apply IZR_le in L.
    assert (H' : (Zpos p + 1 <= 2 ^ Zpos (digits2_pos p))%Z) by lia. apply IZR_le in H'. rewrite plus_IZR in H'. rewrite <- pow2_Z in L, H' by lia. split.
    + replace (Zpos (digits2_pos p) + e - 1)%Z with (Zpos (digits2_pos p) - 1 + e)%Z by lia. rewrite two_pow_add. eapply Rle_trans; [|apply X]. apply Rmult_le_compat_r; lra.
    + rewrite two_pow_add. eapply Rlt_le_trans; [apply X|]. apply Rmult_le_compat_r; lra.
Qed.
Lemma shr_none r e n : (n <= 0)%Z -> shr r e n = (r, e). Proof. intros H. destruct n; try reflexivity. lia. Qed.
Definition signed (s : bool) (x : R) : R := if s then - x else x.
Lemma round_aux_ok s m e l x : 0 < x -> (0 <= m)%Z -> den (shr_record_of_loc m l) (x * pow2 (- e)) -> (e <= fexp (mag x))%Z -> sf_rnd x <= sf_top ->
  number (binary_round_aux prec emax s m e l) /\ SF2R (binary_round_aux prec emax s m e l) = signed s (sf_rnd x).
Proof.
  intros Hx Hm D C Ht. unfold binary_round_aux, shr_fexp. rewrite (fexp_of m e l x Hx Hm D C).
  destruct (shr_ok (shr_record_of_loc m l) e (fexp (mag x) - e) x) as (r & E & Hr & Dr); [lia|rewrite loc_record; exact Hm|exact D|].
  rewrite E. replace (e + (fexp (mag x) - e))%Z with (fexp (mag x)) in * by lia. rewrite (round_record r _ Dr). clear r E Hr Dr m e l Hm D C.
  rewrite (sf_rnd_eq x) in * by lra. set (f := fexp (mag x)) in * . set (y := x * pow2 (- f)) in * . set (M := nearest_even y) in * .
  assert (Hy : 0 < y) by (unfold y; apply Rmult_lt_0_compat; [exact Hx|apply two_pow_pos]).
  assert (Ey : Rabs (IZR M - y) <= / 2) by apply nearest_even_err. apply abs_inv in Ey.
  assert (Hf : (emin <= f)%Z) by (unfold f, SpecFloat.fexp; lia).
  assert (HM : (0 <= M)%Z) by (assert (- 1 < M)%Z; [apply lt_IZR; lra|lia]).
  assert (Yh : y < pow2 prec).
  { unfold y. replace prec with (mag x + (prec - mag x))%Z by lia. rewrite two_pow_add. pose proof (mag_high x ltac:(lra)) as H. rewrite Rabs_right in H by lra.
    pose proof (two_pow_pos (- f)). apply Rlt_le_trans with (pow2 (mag x) * pow2 (- f)); [apply Rmult_lt_compat_r; assumption|]. apply Rmult_le_compat_l; [left; apply two_pow_pos|].
    apply pow2_le. unfold f, SpecFloat.fexp. lia. }
  assert (MP : (M <= 2 ^ prec)%Z).
  { assert (M < 2 ^ prec + 1)%Z; [|lia]. apply lt_IZR. rewrite plus_IZR, <- pow2_Z by lia. lra. }
  assert (Nm : (emin < f)%Z -> (2 ^ (prec - 1) <= M)%Z).
  { intros H. assert (F : f = (mag x - prec)%Z) by (unfold f, SpecFloat.fexp in * ; lia). assert (Yl : pow2 (prec - 1) <= y).
    { unfold y. rewrite F. replace (prec - 1)%Z with (mag x - 1 + - (mag x - prec))%Z by lia. rewrite two_pow_add. apply Rmult_le_compat_r; [left; apply two_pow_pos|].
      pose proof (mag_low x ltac:(lra)) as L. rewrite Rabs_right in L by lra. exact L. }
    rewrite pow2_Z in Yl by lia. assert (2 ^ (prec - 1) - 1 < M)%Z; [|lia]. apply lt_IZR. rewrite minus_IZR. lra. }
  assert (Tp : (emin <= emax - prec)%Z) by (unfold SpecFloat.emin; lia).
  destruct M as [|p|p] eqn:EM; [| |lia].
  - cbn [Zdigits2]. rewrite shr_none by (unfold SpecFloat.fexp; lia). cbn. split; [exact I|]. unfold signed. destruct s; ring.
  - cbn [Zdigits2 shr_record_of_loc]. destruct (Z.eq_dec (Zpos p) (2 ^ prec)) as [Ep|Np].
    + assert (Dg : Zpos (digits2_pos p) = (prec + 1)%Z).
      { apply digits2_unique; [lia|]. rewrite Ep. replace (prec + 1 - 1)%Z with prec by lia. rewrite Z.pow_add_r by lia. change (2 ^ 1)%Z with 2%Z. assert (0 < 2 ^ prec)%Z by (apply Z.pow_pos_nonneg; lia). lia. }
      rewrite Dg. replace (fexp (prec + 1 + f) - f)%Z with 1%Z by (unfold SpecFloat.fexp in * ; lia).
      replace prec with (Z.succ (prec - 1)) in Ep by lia. rewrite Z.pow_succ_r in Ep by lia. destruct p as [p|p|]; try lia. cbn [shr iter_pos shr_1 shr_m orb].
      assert (Eq : Zpos p = (2 ^ (prec - 1))%Z) by lia. assert (Dq : Zpos (digits2_pos p) = prec) by (cbn [digits2_pos] in Dg; lia).
      assert (V : IZR (Zpos (xO p)) * pow2 f = IZR (Zpos p) * pow2 (f + 1)).
      { rewrite Pos2Z.inj_xO, mult_IZR, two_pow_add. change (pow2 1) with (2 * 1). ring. }
      assert (Ov : (f + 1 <= emax - prec)%Z).
      { apply Znot_gt_le. intros G. rewrite V, Eq, <- pow2_Z, <- two_pow_add in Ht by lia. pose proof (pow2_le emax (prec - 1 + (f + 1)) ltac:(lia)). pose proof (two_pow_pos (emax - prec)). unfold greatest in Ht. lra. }
      rewrite (proj2 (Z.leb_le _ _) Ov). cbn [Spec_Ieee754.number real_of]. split.
      * unfold bounded, canonical_mantissa. rewrite Dq. apply andb_true_intro. split; [|apply Z.leb_le; exact Ov]. apply Zeq_is_eq_bool. unfold SpecFloat.fexp. lia.
      * rewrite V. unfold signed. destruct s; reflexivity.
    + assert (Dl : (Zpos (digits2_pos p) <= prec)%Z).
      { destruct (digits2_ok p) as [L _]. assert (Zpos (digits2_pos p) - 1 < prec)%Z by (apply (Z.pow_lt_mono_r_iff 2); lia). lia. }
      rewrite shr_none by (unfold SpecFloat.fexp; lia). cbn [shr_m].
      assert (Dn : (emin < f)%Z -> Zpos (digits2_pos p) = prec).
      { intros G. apply digits2_unique; [lia|]. specialize (Nm G). lia. }
      assert (Ov : (f <= emax - prec)%Z).
      { apply Znot_gt_le. intros G. specialize (Nm ltac:(lia)). apply IZR_le in Nm. rewrite <- pow2_Z in Nm by lia.
        assert (pow2 (prec - 1) * pow2 f <= IZR (Zpos p) * pow2 f) by (apply Rmult_le_compat_r; [left; apply two_pow_pos|exact Nm]). rewrite <- two_pow_add in H.
        pose proof (pow2_le emax (prec - 1 + f) ltac:(lia)). pose proof (two_pow_pos (emax - prec)). unfold greatest in Ht. lra. }
      rewrite (proj2 (Z.leb_le _ _) Ov). cbn [Spec_Ieee754.number real_of]. split; [|unfold signed; destruct s; reflexivity].
      unfold bounded, canonical_mantissa. apply andb_true_intro. split; [|apply Z.leb_le; exact Ov]. apply Zeq_is_eq_bool. unfold SpecFloat.fexp in * .
      destruct (Z.eq_dec f emin) as [Q|Q]; [lia|]. rewrite Dn by lia. lia.
Qed.
Lemma shift_pos_Z d m : Zpos (shift_pos d m) = (Zpos m * 2 ^ Zpos d)%Z.
Proof. rewrite shift_pos_correct, Zpower_pos_nat, Zpower_nat_Z, positive_nat_Z. lia. Qed.
Lemma shl_align_ok m e f : let '(m', e') := shl_align m e f in e' = Z.min e f /\ IZR (Zpos m') * pow2 e' = IZR (Zpos m) * pow2 e.
Proof.
  unfold shl_align. destruct (f - e)%Z as [|d|d] eqn:E; [split; [lia|reflexivity]|split; [lia|reflexivity]|]. split; [lia|].
  rewrite shift_pos_Z, mult_IZR, <- pow2_Z by lia. rewrite Rmult_assoc, <- two_pow_add. do 2 f_equal. lia.
Qed.
Lemma mag_pos m e : mag (IZR (Zpos m) * pow2 e) = (Zpos (digits2_pos m) + e)%Z.
Proof.
  pose proof (two_pow_pos e). destruct (digits2_ok m) as [L H1]. apply IZR_le in L. apply IZR_lt in H1. rewrite <- pow2_Z in L, H1 by lia.
  apply mag_unique. rewrite Rabs_right by (apply Rle_ge, Rmult_le_pos; [apply IZR_le; lia|lra]).
  replace (Zpos (digits2_pos m) + e - 1)%Z with (Zpos (digits2_pos m) - 1 + e)%Z by lia. rewrite !two_pow_add. split; [apply Rmult_le_compat_r; lra|apply Rmult_lt_compat_r; lra].
Qed.
Lemma pos_pow2 m e : 0 < IZR (Zpos m) * pow2 e. Proof. apply Rmult_lt_0_compat; [apply IZR_lt; lia|apply two_pow_pos]. Qed.
Lemma exact_den m e : den (shr_record_of_loc (Zpos m) loc_Exact) (IZR (Zpos m) * pow2 e * pow2 (- e)).
Proof. cbn. rewrite Rmult_assoc, <- two_pow_add. replace (e + - e)%Z with 0%Z by lia. cbn [powerRZ]. ring. Qed.
Definition rounds_to (z : spec_float) (x : R) : Prop := Rabs (sf_rnd x) <= sf_top -> number z /\ SF2R z = sf_rnd x.
Lemma sf_rnd_pos x : 0 <= x -> 0 <= sf_rnd x.
Proof.
  intros [H| <-]; [|rewrite sf_rnd_0; lra]. rewrite sf_rnd_eq by lra. apply Rmult_le_pos; [|left; apply two_pow_pos]. apply IZR_le.
  pose proof (nearest_even_err (x * pow2 (- fexp (mag x)))) as E. apply abs_inv in E. assert (0 < x * pow2 (- fexp (mag x))) by (apply Rmult_lt_0_compat; [exact H|apply two_pow_pos]).
  assert (- 1 < nearest_even (x * pow2 (- fexp (mag x))))%Z; [apply lt_IZR; lra|lia].
Qed.
Lemma signed_rnd s x : signed s (sf_rnd x) = sf_rnd (signed s x). Proof. destruct s; cbn; [rewrite sf_rnd_opp|]; reflexivity. Qed.
Lemma aux_rounds s m e l x : 0 < x -> (0 <= m)%Z -> den (shr_record_of_loc m l) (x * pow2 (- e)) -> (e <= fexp (mag x))%Z -> rounds_to (binary_round_aux prec emax s m e l) (signed s x).
Proof.
  intros Hx Hm D C Ht. rewrite <- signed_rnd in * . apply round_aux_ok; try assumption. pose proof (sf_rnd_pos x ltac:(lra)). destruct s; cbn [signed] in Ht; rewrite ?Rabs_Ropp, Rabs_right in Ht by lra; exact Ht.
Qed.
Lemma round_rounds s m e : rounds_to (binary_round prec emax s m e) (signed s (IZR (Zpos m) * pow2 e)).
Proof.
  unfold binary_round. pose proof (shl_align_ok m e (fexp (Zpos (digits2_pos m) + e))) as A. destruct (shl_align _ _ _) as [m' e']. destruct A as [-> V]. rewrite <- V.
  apply aux_rounds; [apply pos_pow2|lia|apply exact_den|]. rewrite V, mag_pos. lia.
Qed.
Lemma normalize_rounds m e s : rounds_to (binary_normalize prec emax m e s) (IZR m * pow2 e).
Proof.
  destruct m as [|p|p]; cbn [binary_normalize].
  - intros _. rewrite Rmult_0_l, sf_rnd_0. split; [exact I|reflexivity].
  - apply (round_rounds false p e).
  - replace (IZR (Zneg p) * pow2 e) with (signed true (IZR (Zpos p) * pow2 e)); [apply round_rounds|]. cbn [signed]. change (Zneg p) with (- Zpos p)%Z. rewrite opp_IZR. ring.
Qed.
(** Values of the format are not changed by rounding. *)
Lemma number_mag s m e : number (S754_finite s m e) -> fexp (Zpos (digits2_pos m) + e) = e /\ (e <= emax - prec)%Z.
Proof. cbn. unfold bounded, canonical_mantissa. intros H. apply andb_prop in H. destruct H as [A B]. apply Zeq_bool_eq in A. apply Z.leb_le in B. auto. Qed.
Lemma sf_rnd_number z : number z -> sf_rnd (SF2R z) = SF2R z /\ Rabs (SF2R z) <= sf_top.
Proof.
  destruct z as [s| | |s m e]; try contradiction.
  - intros _. cbn. rewrite sf_rnd_0, Rabs_R0. split; [reflexivity|]. unfold greatest. pose proof (pow2_le (emax - prec) emax ltac:(lia)). lra.
  - intros H. apply number_mag in H. destruct H as [A B]. pose proof (pos_pow2 m e) as P. change (SF2R (S754_finite s m e)) with (signed s (IZR (Zpos m) * pow2 e)). rewrite <- signed_rnd. split.
    + f_equal. rewrite sf_rnd_eq, mag_pos, A by lra. rewrite (exact_den m e : _ = _). rewrite nearest_even_int. reflexivity.
    + replace (Rabs (signed s (IZR (Zpos m) * pow2 e))) with (IZR (Zpos m) * pow2 e) by (destruct s; cbn [signed]; rewrite ?Rabs_Ropp, Rabs_right; lra).
      assert (D : (Zpos (digits2_pos m) <= prec)%Z) by (unfold SpecFloat.fexp in A; lia). destruct (digits2_ok m) as [_ H]. pose proof (Z.pow_le_mono_r 2 _ _ ltac:(lia) D) as D'.
      assert (M : (Zpos m <= 2 ^ prec - 1)%Z) by lia. apply IZR_le in M. rewrite minus_IZR, <- pow2_Z in M by lia. unfold greatest.
      replace (pow2 emax - pow2 (emax - prec)) with ((pow2 prec - 1) * pow2 (emax - prec)).
      * apply Rmult_le_compat; [apply IZR_le; lia|left; apply two_pow_pos|exact M|apply pow2_le, B].
      * replace emax with (prec + (emax - prec))%Z at 2 by lia. rewrite two_pow_add. ring.
Qed.
Lemma number_rounds z : number z -> rounds_to z (SF2R z).
Proof. intros H _. destruct (sf_rnd_number z H) as [E _]. auto. Qed.
(** *** The operations *)
Lemma SFopp_ok z : number z -> number (SFopp z) /\ SF2R (SFopp z) = - SF2R z.
Proof. destruct z as [s| | |s m e]; try contradiction; cbn; intros H; (split; [exact H|]); [ring|]. destruct s; cbn; ring. Qed.
Lemma cond_signed s m e : IZR (cond_Zopp s (Zpos m)) * pow2 e = SF2R (S754_finite s m e).
Proof. destruct s; cbn [cond_Zopp real_of]; [rewrite opp_IZR; ring|reflexivity]. Qed.
Lemma aligned s m e f : (f <= e)%Z -> IZR (cond_Zopp s (Zpos (fst (shl_align m e f)))) * pow2 f = SF2R (S754_finite s m e).
Proof.
  intros H. pose proof (shl_align_ok m e f) as A. destruct (shl_align m e f) as [m' e']. destruct A as [-> V]. cbn [fst]. rewrite Z.min_r in V by exact H.
  rewrite cond_signed. cbn [real_of]. rewrite V. reflexivity.
Qed.
Lemma SFadd_rounds a b : number a -> number b -> rounds_to (SFadd prec emax a b) (SF2R a + SF2R b).
Proof.
  destruct a as [sa| | |sa ma ea], b as [sb| | |sb mb eb]; try contradiction; intros Ha Hb.
  - cbn [SFadd real_of]. rewrite Rplus_0_r. intros _. rewrite sf_rnd_0. destruct (Bool.eqb sa sb); split; try exact I; reflexivity.
  - cbn [SFadd]. change (SF2R (S754_zero sa)) with 0. rewrite Rplus_0_l. apply number_rounds, Hb.
  - cbn [SFadd]. change (SF2R (S754_zero sb)) with 0. rewrite Rplus_0_r. apply number_rounds, Ha.
  - cbn [SFadd]. rewrite <- (aligned sa ma ea (Z.min ea eb)), <- (aligned sb mb eb (Z.min ea eb)), <- Rmult_plus_distr_r, <- plus_IZR by lia. apply normalize_rounds.
Qed.
Lemma SFsub_rounds a b : number a -> number b -> rounds_to (SFsub prec emax a b) (SF2R a - SF2R b).
Proof.
  destruct a as [sa| | |sa ma ea], b as [sb| | |sb mb eb]; try contradiction; intros Ha Hb.
  - cbn [SFsub real_of]. rewrite Rminus_0_r. intros _. rewrite sf_rnd_0. destruct (Bool.eqb sa (negb sb)); split; try exact I; reflexivity.
  - cbn [SFsub]. change (SF2R (S754_zero sa)) with 0. destruct (SFopp_ok _ Hb) as [A B]. rewrite Rminus_0_l, <- B. apply number_rounds, A.
  - cbn [SFsub]. change (SF2R (S754_zero sb)) with 0. rewrite Rminus_0_r. apply number_rounds, Ha.
  - cbn [SFsub]. rewrite <- (aligned sa ma ea (Z.min ea eb)), <- (aligned sb mb eb (Z.min ea eb)) by lia. rewrite <- Rmult_minus_distr_r, <- minus_IZR. apply normalize_rounds.
Qed.
Lemma digits_mul a b : (Zpos (digits2_pos a) + Zpos (digits2_pos b) - 1 <= Zpos (digits2_pos (a * b)))%Z.
Proof.
  destruct (digits2_ok a) as [A _], (digits2_ok b) as [B _], (digits2_ok (a * b)) as [_ C]. rewrite Pos2Z.inj_mul in C.
  assert (2 ^ (Zpos (digits2_pos a) - 1 + (Zpos (digits2_pos b) - 1)) < 2 ^ Zpos (digits2_pos (a * b)))%Z.
  { rewrite Z.pow_add_r by lia. eapply Z.le_lt_trans; [|exact C]. apply Z.mul_le_mono_nonneg; try assumption; apply Z.pow_nonneg; lia. }
  apply Z.pow_lt_mono_r_iff in H; lia.
Qed.
Lemma SFmul_rounds a b : number a -> number b -> rounds_to (SFmul prec emax a b) (SF2R a * SF2R b).
Proof.
  destruct a as [sa| | |sa ma ea], b as [sb| | |sb mb eb]; try contradiction; intros Ha Hb.
  - cbn [SFmul real_of]. intros _. rewrite Rmult_0_l, sf_rnd_0. split; [exact I|reflexivity].
  - cbn [SFmul]. change (SF2R (S754_zero sa)) with 0. intros _. rewrite Rmult_0_l, sf_rnd_0. split; [exact I|reflexivity].
  - cbn [SFmul]. change (SF2R (S754_zero sb)) with 0. intros _. rewrite Rmult_0_r, sf_rnd_0. split; [exact I|reflexivity].
  - cbn [SFmul]. apply number_mag in Ha. apply number_mag in Hb.
    replace (SF2R (S754_finite sa ma ea) * SF2R (S754_finite sb mb eb)) with (signed (xorb sa sb) (IZR (Zpos (ma * mb)) * pow2 (ea + eb))).
    2: { cbn [real_of]. rewrite Pos2Z.inj_mul, mult_IZR, two_pow_add. destruct sa, sb; cbn [xorb signed]; ring. }
    apply aux_rounds; [apply pos_pow2|lia|apply exact_den|]. rewrite mag_pos. pose proof (digits_mul ma mb). unfold SpecFloat.fexp, SpecFloat.emin in * . lia.
Qed.
Lemma new_location_ok n k q : (1 <= n)%Z -> (0 <= k < n)%Z -> den (shr_record_of_loc q (new_location n k)) (IZR q + IZR k / IZR n).
Proof.
  intros Hn Hk. assert (Pn : 0 < IZR n) by (apply IZR_lt; lia). set (t := IZR k / IZR n). assert (Et : IZR k = t * IZR n) by (unfold t; field; lra).
  assert (T0 : k = 0%Z -> t = 0) by (intros ->; unfold t; field; lra).
  assert (T1 : (0 < k)%Z -> 0 < t) by (intros H; unfold t; apply Rmult_lt_0_compat; [apply IZR_lt, H|apply Rinv_0_lt_compat, Pn]).
  assert (T2 : t < 1) by (apply (Rmult_lt_reg_r (IZR n)); [exact Pn|]; rewrite <- Et, Rmult_1_l; apply IZR_lt; lia).
  assert (Lt' : (2 * k < n)%Z -> t < / 2) by (intros H; apply IZR_lt in H; rewrite mult_IZR, Et in H; nra).
  assert (Gt' : (n < 2 * k)%Z -> / 2 < t) by (intros H; apply IZR_lt in H; rewrite mult_IZR, Et in H; nra).
  assert (Eq' : (2 * k = n)%Z -> t = / 2) by (intros H; apply (f_equal IZR) in H; rewrite mult_IZR, Et in H; nra).
  unfold new_location, new_location_even, new_location_odd. destruct (Z.even n) eqn:Ev; destruct (Zeq_bool k 0) eqn:Ek.
  - apply Zeq_bool_eq in Ek. specialize (T0 Ek). cbn. lra.
  - apply Zeq_bool_neq in Ek. specialize (T1 ltac:(lia)). destruct (Z.compare_spec (2 * k) n) as [Q|Q|Q]; cbn [shr_record_of_loc den]; [specialize (Eq' Q)|specialize (Lt' Q)|specialize (Gt' Q)]; lra.
  - apply Zeq_bool_eq in Ek. specialize (T0 Ek). cbn. lra.
  - apply Zeq_bool_neq in Ek. specialize (T1 ltac:(lia)). assert (Od : (2 * k <> n)%Z) by (intros <-; rewrite Z.even_mul in Ev; discriminate).
    destruct (Z.compare_spec (2 * k + 1) n) as [Q|Q|Q]; cbn [shr_record_of_loc den]; [specialize (Lt' ltac:(lia))|specialize (Lt' ltac:(lia))|specialize (Gt' ltac:(lia))]; lra.
Qed.
Lemma SFdiv_rounds a b : number a -> number b -> SF2R b <> 0 -> rounds_to (SFdiv prec emax a b) (SF2R a / SF2R b).
Proof.
  destruct a as [sa| | |sa ma ea], b as [sb| | |sb mb eb]; try contradiction; intros _ _ Nz; try (cbn in Nz; lra).
  - cbn [SFdiv]. change (SF2R (S754_zero sa)) with 0. intros _. unfold Rdiv. rewrite Rmult_0_l, sf_rnd_0. split; [exact I|reflexivity].
  - cbn [SFdiv]. unfold SFdiv_core_binary. cbn [Zdigits2].
    set (da := Zpos (digits2_pos ma)). set (db := Zpos (digits2_pos mb)). set (e := Z.min (fexp (da + ea - (db + eb))) (ea - eb)).
    set (m' := match (ea - eb - e)%Z with Z0 => Zpos ma | Zpos _ => Z.shiftl (Zpos ma) (ea - eb - e) | Zneg _ => 0%Z end).
    assert (Em : m' = (Zpos ma * 2 ^ (ea - eb - e))%Z).
    { unfold m'. destruct (ea - eb - e)%Z as [|s|s] eqn:E; [lia|apply Z.shiftl_mul_pow2; lia|unfold e in E; lia]. }
    clearbody m'. pose proof (Z.div_eucl_eq m' (Zpos mb) ltac:(lia)) as Dv. pose proof (Z_mod_lt m' (Zpos mb) ltac:(lia)) as Mr. unfold Zmod in Mr.
    destruct (Z.div_eucl m' (Zpos mb)) as [q r]. cbn [snd] in * .
    set (x := IZR (Zpos ma) * pow2 ea / (IZR (Zpos mb) * pow2 eb)).
    pose proof (pos_pow2 ma ea) as Pa. pose proof (pos_pow2 mb eb) as Pb. assert (Px : 0 < x) by (unfold x; apply Rmult_lt_0_compat; [exact Pa|apply Rinv_0_lt_compat, Pb]).
    assert (Pm : 0 < IZR (Zpos mb)) by (apply IZR_lt; lia).
    replace (SF2R (S754_finite sa ma ea) / SF2R (S754_finite sb mb eb)) with (signed (xorb sa sb) x).
    2: { unfold x. cbn [real_of]. pose proof (two_pow_pos eb). destruct sa, sb; cbn [xorb signed]; field; lra. }
    apply aux_rounds.
    + exact Px.
    + assert (0 <= m')%Z by (rewrite Em; apply Z.mul_nonneg_nonneg; [lia|apply Z.pow_nonneg; lia]). nia.
    + replace (x * pow2 (- e)) with (IZR q + IZR r / IZR (Zpos mb)); [apply new_location_ok; lia|].
      assert (V : IZR m' = IZR (Zpos ma) * pow2 (ea - eb - e)) by (rewrite Em, mult_IZR, <- pow2_Z; [reflexivity|unfold e; lia]).
      apply (f_equal IZR) in Dv. rewrite plus_IZR, mult_IZR in Dv. transitivity (IZR m' / IZR (Zpos mb)); [rewrite Dv; field; lra|].
      rewrite V. unfold x. replace (ea - eb - e)%Z with (ea + (- eb + - e))%Z by lia. rewrite !two_pow_add. 
      assert (Ie : pow2 (- eb) * pow2 eb = 1) by (rewrite <- two_pow_add; replace (- eb + eb)%Z with 0%Z by lia; reflexivity).
      pose proof (two_pow_pos eb). apply (Rmult_eq_reg_r (pow2 eb)); [|lra]. transitivity (IZR (Zpos ma) * pow2 ea * pow2 (- e) / IZR (Zpos mb) * (pow2 (- eb) * pow2 eb)); [field; lra|rewrite Ie; field; lra].
    + assert (Mg : (da + ea - (db + eb) <= mag x)%Z).
      { destruct (digits2_ok ma) as [La _]. destruct (digits2_ok mb) as [_ Hb]. apply IZR_le in La. apply IZR_lt in Hb. rewrite <- pow2_Z in La, Hb by lia. fold da in La. fold db in Hb.
        assert (G : (da + ea - (db + eb) - 1 < mag x)%Z); [|lia]. apply mag_above. rewrite Rabs_right by lra.
        apply (Rmult_le_reg_r (IZR (Zpos mb) * pow2 eb)); [exact Pb|]. replace (x * (IZR (Zpos mb) * pow2 eb)) with (IZR (Zpos ma) * pow2 ea) by (unfold x; field; split; [apply Rgt_not_eq, two_pow_pos|lra]).
        apply Rle_trans with (pow2 (da - 1) * pow2 ea); [|apply Rmult_le_compat_r; [left; apply two_pow_pos|exact La]].
        apply Rle_trans with (pow2 (da + ea - (db + eb) - 1) * (pow2 db * pow2 eb)); [|rewrite <- !two_pow_add; apply pow2_le; lia].
        apply Rmult_le_compat_l; [left; apply two_pow_pos|]. apply Rmult_le_compat_r; [left; apply two_pow_pos|lra]. }
      unfold e, SpecFloat.fexp in * . lia.
Qed.
End Format.
