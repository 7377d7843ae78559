(** Rounding errors of the naive algorithms. *)
From Coq Require Import Reals ZArith List Arith Lia Lra Psatz.
From Verif Require Import Prog Num Model_Common Model_Naive Spec Spec_Round Spec_Entry Trig Energy Wp Sem_Naive Exact_Naive Round_Ops Round_Entry.
Import ListNotations.
Open Scope R_scope.

(** [g] computes [t] on lists of length [n] with an error of at most [e] times the total. *)
Definition entry_acc (t : list R -> nat -> R) (n : nat) (e : R) (g : list R -> nat -> R) : Prop :=
  forall x k, length x = n -> (k < n)%nat -> Rabs (g x k - t x k) <= e * total x.

Section Naive.
Variables (u v : R) (N : Num R R).
Hypothesis HN : rounding u v N.
Hypothesis Hv4 : 4 * v < 1.
Let Hu : 0 <= u := r_u _ _ _ HN.
Let Hv : 0 <= v < 1 := r_v _ _ _ HN.

Lemma at_N (x : list R) i : at_ x i = nth i x 0.
Proof. unfold at_. rewrite (r_zero _ _ _ HN). reflexivity. Qed.
Lemma half_N : half = / 2.
Proof. unfold half. rewrite (r_f_half _ _ _ HN). apply (r_from_half _ _ _ HN). Qed.
Lemma mul_half_fac a : fac (1 + u) (mul a half) (a * / 2).
Proof. rewrite half_N. apply (mul_fac u v N HN). Qed.

(** The cells the inner loops read. *)
Definition cells_ok (x : list R) (X' X : nat -> R) : Prop := forall i, fac (1 + u) (X' i) (X i) /\ Rabs (X i) <= Rabs (nth i x 0).
Lemma at_ok x : cells_ok x (at_ x) (at_ (N := NumR) x).
Proof. intros i. rewrite at_N. split; [apply fac_refl; lra|]. unfold at_. simpl. lra. Qed.
Lemma half_at_ok x j : cells_ok x (half_at j (at_ x)) (half_at (N := NumR) j (at_ (N := NumR) x)).
Proof.
  intros i. unfold half_at. rewrite at_N. change (at_ (N := NumR) x i) with (nth i x 0). destruct (i =? j)%nat.
  - change (@mul R R NumR (nth i x 0) (@half R R NumR)) with (nth i x 0 * / 2). split; [apply mul_half_fac|].
    rewrite Rabs_mult, (Rabs_right (/ 2)) by lra. pose proof (Rabs_pos (nth i x 0)). lra.
  - split; [apply fac_refl; lra|lra].
Qed.

Section Loop.
Context {A A0 : Type} (st : R -> R -> A -> R) (val : A -> R) (op0 : R -> R -> A0 -> R) (val0 : A0 -> R).
Hypothesis Hst : forall o s t, exists p, fac (1 + u) p (s * val t) /\ fac (1 + u) (st o s t) (o + p).
Hypothesis Hop : forall X W acc lo cnt, accum op0 X W acc lo cnt = acc + sum (fun i => X (lo + i)%nat * val0 (W (lo + i)%nat)) cnt.
Variables (f' : nat -> A) (f : nat -> A0) (L : nat).
Hypothesis Hf : forall i, (i < L)%nat -> Rabs (val (f' i) - val0 (f i)) <= tau u v /\ Rabs (val0 (f i)) <= 1.

Lemma loop_err (x : list R) X' X d d0 start stride acc' acc B lo cnt : (0 < cnt -> L <> 0)%nat ->
  cells_ok x X' X -> fac (1 + u) acc' acc -> Rabs acc <= B -> (lo + cnt = length x)%nat ->
  B + sum (fun i => Rabs (nth (lo + i)%nat x 0)) cnt <= total x ->
  Rabs (accum st X' (tw_at (map f' (seq 0 L)) d start stride lo) acc' lo cnt
        - accum op0 X (tw_at (map f (seq 0 L)) d0 start stride lo) acc lo cnt) <= dot_error u v (length x) * total x.
Proof.
  intros HL HX Ha Hb Hn HT. rewrite Hop. pose proof (tau_ge0 u v N HN Hv4) as Ht.
  assert (HB : 0 <= B) by (pose proof (Rabs_pos acc); lra).
  destruct (accum_err u v N HN st val X' X (tw_at (map f' (seq 0 L)) d start stride lo)
     (fun i => val0 (tw_at (map f (seq 0 L)) d0 start stride lo i)) acc' acc B lo cnt (1 + u) (tau u v)) as [E _]; try assumption; try lra.
  - intros i Hi. destruct (HX i) as [Fi _]. split; [exact Fi|].
    assert (L <> 0)%nat by (apply HL; lia). rewrite !tw_at_map by assumption. apply Hf. apply Nat.mod_upper_bound. assumption.
  - unfold fac in Ha. pose proof (Rabs_pos acc). eapply Rle_trans; [exact Ha|]. apply Rmult_le_compat; [lra|apply Rabs_pos| |exact Hb].
    assert (1 + u <= (1 + u) * (1 + u) * (1 + tau u v)); [|lra]. assert (1 <= (1 + u) * (1 + tau u v)) by nra. nra.
  - eapply Rle_trans; [exact E|]. clear E.
    assert (S1 : sum (fun i => Rabs (X (lo + i)%nat)) cnt <= sum (fun i => Rabs (nth (lo + i)%nat x 0)) cnt).
    { apply sum_le. intros i _. apply HX. }
    assert (S0 : 0 <= sum (fun i => Rabs (X (lo + i)%nat)) cnt) by (apply sum_ge0; intros; apply Rabs_pos).
    assert (PG : forall a b, (a <= b)%nat -> (1 + u) ^ a <= (1 + u) ^ b) by (intros; apply Rle_pow; [lra|assumption]).
    assert (P1 : 1 <= (1 + u) ^ (cnt + 1)) by (apply pow_R1_Rle; lra).
    apply Rmult_le_compat.
    + assert (1 <= (1 + u) * (1 + u) ^ (cnt + 1)) by nra. nra.
    + lra.
    + unfold dot_error. replace ((1 + u) * (1 + u) ^ (cnt + 1)) with ((1 + u) ^ (cnt + 2)) by (replace (cnt + 2)%nat with (S (cnt + 1)) by lia; reflexivity).
      pose proof (PG (cnt + 2)%nat (length x + 2)%nat ltac:(lia)).
      assert ((1 + u) ^ (cnt + 2) * (1 + tau u v) <= (1 + u) ^ (length x + 2) * (1 + tau u v)) by (apply Rmult_le_compat_r; lra). lra.
    + lra.
Qed.
Lemma loop0 (x : list R) X' X d d0 start stride : (0 < length x -> L <> 0)%nat -> cells_ok x X' X ->
  Rabs (accum st X' (tw_at (map f' (seq 0 L)) d start stride 0) zero 0 (length x)
        - accum op0 X (tw_at (map f (seq 0 L)) d0 start stride 0) 0 0 (length x)) <= dot_error u v (length x) * total x.
Proof.
  intros HL HX. rewrite (r_zero _ _ _ HN). apply (loop_err x X' X d d0 start stride 0 0 0 0 (length x) HL HX).
  - apply fac_refl. lra. - rewrite Rabs_R0. lra. - lia. - unfold total. cbn [plus]. lra.
Qed.
Lemma loop1 (x : list R) X' X d d0 start stride acc' acc : (length x <> 0)%nat -> (1 < length x -> L <> 0)%nat -> cells_ok x X' X ->
  fac (1 + u) acc' acc -> Rabs acc <= Rabs (nth 0 x 0) ->
  Rabs (accum st X' (tw_at (map f' (seq 0 L)) d start stride 1) acc' 1 (length x - 1)
        - accum op0 X (tw_at (map f (seq 0 L)) d0 start stride 1) acc 1 (length x - 1)) <= dot_error u v (length x) * total x.
Proof.
  intros H0 HL HX Ha Hb. apply (loop_err x X' X d d0 start stride acc' acc (Rabs (nth 0 x 0)) 1 (length x - 1)); try assumption; [lia|lia|].
  unfold total. replace (length x) with (S (length x - 1)) at 2 by lia. rewrite sum_S_l. apply Req_le. reflexivity.
Qed.
End Loop.

Lemma plain_err (x : list R) X' X : cells_ok x X' X ->
  Rabs (sum_from_zero X' (length x) - sum_from_zero (N := NumR) X (length x)) <= dot_error u v (length x) * total x.
Proof.
  intros HX. rewrite sum_from_zero_R. unfold sum_from_zero. rewrite (r_zero _ _ _ HN).
  destruct (accum_err u v N HN (fun o sv (_ : unit) => add o sv) (fun _ => 1) X' X (fun _ => tt) (fun _ => 1) 0 0 0 0 (length x) (1 + u) (tau u v)) as [E _].
  - lra. - apply (tau_ge0 u v N HN Hv4).
  - intros o s []. exists s. split; [rewrite Rmult_1_r; apply fac_refl; lra|apply (add_fac u v N HN)].
  - intros i Hi. destruct (HX i) as [F _]. split; [exact F|]. rewrite Rminus_eq_0, Rabs_R0, Rabs_R1. split; [apply (tau_ge0 u v N HN Hv4)|lra].
  - rewrite Rminus_eq_0, Rabs_R0. lra. - rewrite Rabs_R0. lra.
  - cbn [plus] in E. rewrite !Rplus_0_l in E. erewrite (sum_ext (fun i => X i * 1)) in E by (intros; apply Rmult_1_r).
    eapply Rle_trans; [exact E|]. unfold dot_error.
    replace ((1 + u) * (1 + u) ^ (length x + 1)) with ((1 + u) ^ (length x + 2)) by (replace (length x + 2)%nat with (S (length x + 1)) by lia; reflexivity).
    apply Rmult_le_compat_l.
    + pose proof (tau_ge0 u v N HN Hv4). assert (1 <= (1 + u) ^ (length x + 2)) by (apply pow_R1_Rle; lra). nra.
    + unfold total. apply sum_le. intros i _. apply HX.
Qed.

(** * The sixteen transforms *)
Definition approx_e (f : meth R) (n sl : nat) (t : list R -> nat -> R) (e : R) : Prop := exists g, computes f n sl g /\ entry_acc t n e g.

Ltac pos n := assert (1 <= INR n) by (replace 1 with (INR 1) by reflexivity; apply le_INR; lia).
Ltac inr_in H := repeat first
  [ rewrite plus_INR in H | rewrite mult_INR in H | rewrite minus_INR in H by lia | rewrite S_INR in H ]; simpl INR in H.
Ltac idx_le Hi := match type of Hi with (?i < ?L)%nat =>
  let H := fresh "Bi" in pose proof (pos_INR i); assert (H : INR i + 1 <= INR L) by (rewrite <- S_INR; apply le_INR; lia); inr_in H end.

Lemma step_close i L : (i < L)%nat ->
  (Rabs (fst (single_twiddle i L) - fst (single_twiddle (N := NumR) i L)) <= tau u v /\ Rabs (fst (single_twiddle (N := NumR) i L)) <= 1) /\
  (Rabs (- snd (single_twiddle i L) - - snd (single_twiddle (N := NumR) i L)) <= tau u v /\ Rabs (- snd (single_twiddle (N := NumR) i L)) <= 1).
Proof.
  intros Hi. destruct (twiddle_close u v N HN Hv4 i L) as [A B]; [lia|lia|]. split; split; [exact A| | |].
  - cbn. rewrite Rmult_1_l. apply cos_le1.
  - replace (- snd (single_twiddle i L) - - snd (single_twiddle (N := NumR) i L)) with (- (snd (single_twiddle i L) - snd (single_twiddle (N := NumR) i L))) by ring.
    rewrite Rabs_Ropp. exact B.
  - rewrite Rabs_Ropp. cbn. rewrite Rmult_1_l. apply sin_le1.
Qed.
Lemma step_half_close i L : (i < L)%nat ->
  (Rabs (fst (single_twiddle_halfoffset i L) - fst (single_twiddle_halfoffset (N := NumR) i L)) <= tau u v /\ Rabs (fst (single_twiddle_halfoffset (N := NumR) i L)) <= 1) /\
  (Rabs (- snd (single_twiddle_halfoffset i L) - - snd (single_twiddle_halfoffset (N := NumR) i L)) <= tau u v /\ Rabs (- snd (single_twiddle_halfoffset (N := NumR) i L)) <= 1).
Proof.
  intros Hi. destruct (twiddle_half_close u v N HN Hv4 i L Hi) as [A B]. split; split; [exact A| | |].
  - cbn. rewrite Rmult_1_l. apply cos_le1.
  - replace (- snd (single_twiddle_halfoffset i L) - - snd (single_twiddle_halfoffset (N := NumR) i L)) with (- (snd (single_twiddle_halfoffset i L) - snd (single_twiddle_halfoffset (N := NumR) i L))) by ring.
    rewrite Rabs_Ropp. exact B.
  - rewrite Rabs_Ropp. cbn. rewrite Rmult_1_l. apply sin_le1.
Qed.

Ltac lens := rewrite map_length, seq_length; try reflexivity; try lia.
Notation de n := (dot_error u v n).
Notation A_add := (op_add_step u v N HN). Notation A_re := (op_add_re_step u v N HN). Notation A_im := (op_sub_im_step u v N HN).


(** The first cell, where the loop starts with it. *)
Lemma init_fac (x : list R) : fac (1 + u) (mul (at_ x 0) half) (@mul R R NumR (at_ (N := NumR) x 0) (half (N := NumR))).
Proof. rewrite at_N. apply mul_half_fac. Qed.
Lemma init_fac' (x : list R) : fac (1 + u) (mul half (at_ x 0)) (@mul R R NumR (half (N := NumR)) (at_ (N := NumR) x 0)).
Proof. rewrite at_N, half_N. change (@mul R R NumR (half (N := NumR)) (at_ (N := NumR) x 0)) with (/ 2 * nth 0 x 0). apply (mul_fac u v N HN). Qed.
Lemma init_le (x : list R) : Rabs (nth 0 x 0 * / 2) <= Rabs (nth 0 x 0).
Proof. rewrite Rabs_mult, (Rabs_right (/ 2)) by lra. pose proof (Rabs_pos (nth 0 x 0)). lra. Qed.
Lemma init_le' (x : list R) : Rabs (/ 2 * nth 0 x 0) <= Rabs (nth 0 x 0).
Proof. rewrite Rmult_comm. apply init_le. Qed.
Lemma den_plus d : (1 <= d)%nat -> rel (4 * v) (f_add (f_of_nat d) f_half) (INR d + / 2).
Proof.
  intros Hd. replace (/ 2) with (1 * / 2) at 1 by ring. apply (den_off u v N HN Hv4 d 1 f_add Hd); [left; reflexivity|].
  intros a b. rewrite Rmult_1_l. apply (r_f_add _ _ _ HN).
Qed.
Lemma den_minus d : (1 <= d)%nat -> rel (4 * v) (f_sub (f_of_nat d) f_half) (INR d - / 2).
Proof.
  intros Hd. replace (INR d - / 2) with (INR d + -1 * / 2) by ring. apply (den_off u v N HN Hv4 d (-1) f_sub Hd); [right; reflexivity|].
  intros a b. replace (a + -1 * b) with (a - b) by ring. apply (r_f_sub _ _ _ HN).
Qed.

(** What the constructors that can fail return. *)
Lemma Dct1Naive_new_N n : (2 <= n)%nat -> Dct1Naive_new n =
  Ok (mkDct1Naive (map (fun i => from_f64 (f_cos (f_mul (f_div f_pi (f_of_nat (n - 1))) (f_of_nat i)))) (seq 0 ((n - 1) * 2)))).
Proof. intros H. unfold Dct1Naive_new, rassert, rsub. destruct (Nat.eqb_spec n 1); [lia|]. destruct (Nat.leb_spec 1 n); [|lia]. reflexivity. Qed.
Lemma Dct5Naive_new_N n : (1 <= n)%nat -> Dct5Naive_new n =
  Ok (mkDct5Naive (map (fun i => from_f64 (f_cos (f_mul (f_div f_pi (f_sub (f_of_nat n) f_half)) (f_of_nat i)))) (seq 0 (n * 2 - 1)))).
Proof. intros H. unfold Dct5Naive_new, rsub. destruct (Nat.leb_spec 1 (n * 2)); [|lia]. reflexivity. Qed.
Lemma Dct6And7Naive_new_N n : (1 <= n)%nat -> Dct6And7Naive_new n =
  Ok (mkC67Naive (map (fun i => from_f64 (f_cos (f_mul (f_div f_pi (f_of_nat (n * 2 - 1))) (f_of_nat i)))) (seq 0 (n * 4 - 2)))).
Proof. intros H. unfold Dct6And7Naive_new, rsub. destruct (Nat.leb_spec 1 (n * 2)); [|lia]. cbn [rbind]. destruct (Nat.leb_spec 2 (n * 4)); [|lia]. reflexivity. Qed.
Lemma Dst8Naive_new_N n : (1 <= n)%nat -> Dst8Naive_new n =
  Ok (mkDst8Naive (map (fun i => from_f64 (f_sin (f_mul (f_div f_pi (f_of_nat (n * 2 - 1))) (f_add (f_of_nat i) f_half)))) (seq 0 (n * 4 - 2)))).
Proof. intros H. unfold Dst8Naive_new, rsub. destruct (Nat.leb_spec 1 (n * 2)); [|lia]. cbn [rbind]. destruct (Nat.leb_spec 2 (n * 4)); [|lia]. reflexivity. Qed.

Lemma dst1_naive_acc n : approx_e (Dst1Naive_dst1 (Dst1Naive_new n)) n n dst1_at (de n).
Proof.
  eexists. split; [apply sem_dst1_naive_ok; lens|]. intros x k Hx Hk. subst n. rewrite <- dst1_naive_exact by (try assumption; lia).
  apply (loop0 op_add (fun t => t) op_add (fun t => t) A_add accum_add); [|lia|apply at_ok].
  intros i Hi. split; [|cbn; apply sin_le1]. cbn. pos (length x).
  apply (sin_entry u v N HN Hv4); [inr; lra|apply (den_nat u v N HN)|apply (nat_fac u v N HN)|]. idx_le Hi. inr. lra.
Qed.

Lemma dct2_naive_acc n : approx_e (Type2And3Naive_dct2 (Type2And3Naive_new n)) n n dct2_at (de n).
Proof.
  eexists. split; [apply sem_dct2_naive_ok; lens|]. intros x k Hx Hk. subst n. rewrite <- dct2_naive_exact by (try assumption; lia).
  apply (loop0 op_add_re fst op_add_re fst A_re accum_add_re); [|lia|apply at_ok].
  intros i Hi. apply step_close, Hi.
Qed.

Lemma dst2_naive_acc n : approx_e (Type2And3Naive_dst2 (Type2And3Naive_new n)) n n dst2_at (de n).
Proof.
  eexists. split; [apply sem_dst2_naive_ok; lens|]. intros x k Hx Hk. subst n. rewrite <- dst2_naive_exact by (try assumption; lia).
  apply (loop0 op_sub_im (fun t => - snd t) op_sub_im (fun t => - snd t) A_im accum_sub_im); [|lia|apply at_ok].
  intros i Hi. apply step_close, Hi.
Qed.

Lemma dct3_naive_acc n : (1 <= n)%nat -> approx_e (Type2And3Naive_dct3 (Type2And3Naive_new n)) n n dct3_at (de n).
Proof.
  intros Hn. eexists. split; [apply sem_dct3_naive_ok; [lia|]; lens|]. intros x k Hx Hk. subst n. rewrite <- dct3_naive_exact by (try assumption; lia).
  apply (loop1 op_add_re fst op_add_re fst A_re accum_add_re); [|lia|lia|apply at_ok|apply init_fac'|apply (init_le' x)].
  intros i Hi. apply step_close, Hi.
Qed.

Lemma dst3_naive_acc n : (1 <= n)%nat -> approx_e (Type2And3Naive_dst3 (Type2And3Naive_new n)) n n dst3_at (de n).
Proof.
  intros Hn. eexists. split; [apply sem_dst3_naive_ok; [lia|]; lens|]. intros x k Hx Hk. subst n. rewrite <- dst3_naive_exact by (try assumption; lia).
  apply (loop0 op_sub_im (fun t => - snd t) op_sub_im (fun t => - snd t) A_im accum_sub_im); [|lia|apply half_at_ok].
  intros i Hi. apply step_close, Hi.
Qed.

Lemma dct4_naive_acc n : approx_e (Type4Naive_dct4 (Type4Naive_new n)) n n dct4_at (de n).
Proof.
  eexists. split; [apply sem_dct4_naive_ok; lens|]. intros x k Hx Hk. subst n. rewrite <- dct4_naive_exact by (try assumption; lia).
  apply (loop0 op_add_re fst op_add_re fst A_re accum_add_re); [|lia|apply at_ok].
  intros i Hi. apply step_half_close, Hi.
Qed.

Lemma dst4_naive_acc n : approx_e (Type4Naive_dst4 (Type4Naive_new n)) n n dst4_at (de n).
Proof.
  eexists. split; [apply sem_dst4_naive_ok; lens|]. intros x k Hx Hk. subst n. rewrite <- dst4_naive_exact by (try assumption; lia).
  apply (loop0 op_sub_im (fun t => - snd t) op_sub_im (fun t => - snd t) A_im accum_sub_im); [|lia|apply at_ok].
  intros i Hi. apply step_half_close, Hi.
Qed.

Lemma dst5_naive_acc n : approx_e (Dst5Naive_dst5 (Dst5Naive_new n)) n n dst5_at (de n).
Proof.
  eexists. split; [apply sem_dst5_naive_ok; lens|]. intros x k Hx Hk. subst n. rewrite <- dst5_naive_exact by (try assumption; lia).
  apply (loop0 op_add (fun t => t) op_add (fun t => t) A_add accum_add); [|lia|apply at_ok].
  intros i Hi. split; [|cbn; apply sin_le1]. cbn. pos (length x).
  apply (sin_entry u v N HN Hv4); [inr; lra|apply den_plus; lia|apply (nat_fac u v N HN)|]. idx_le Hi. inr. lra.
Qed.

Lemma dst6_naive_acc n : approx_e (Dst6And7Naive_dst6 (Dst6And7Naive_new n)) n n dst6_at (de n).
Proof.
  eexists. split; [apply sem_dst6_naive_ok; lens|]. intros x k Hx Hk. subst n. rewrite <- dst6_naive_exact by (try assumption; lia).
  apply (loop0 op_add (fun t => t) op_add (fun t => t) A_add accum_add); [|lia|apply at_ok].
  intros i Hi. split; [|cbn; apply sin_le1]. cbn. pos (length x).
  apply (sin_entry u v N HN Hv4); [inr; lra|apply (den_nat u v N HN)|apply (nat_fac u v N HN)|]. idx_le Hi. inr. lra.
Qed.

Lemma dst7_naive_acc n : approx_e (Dst6And7Naive_dst7 (Dst6And7Naive_new n)) n n dst7_at (de n).
Proof.
  eexists. split; [apply sem_dst7_naive_ok; lens|]. intros x k Hx Hk. subst n. rewrite <- dst7_naive_exact by (try assumption; lia).
  apply (loop0 op_add (fun t => t) op_add (fun t => t) A_add accum_add); [|lia|apply at_ok].
  intros i Hi. split; [|cbn; apply sin_le1]. cbn. pos (length x).
  apply (sin_entry u v N HN Hv4); [inr; lra|apply (den_nat u v N HN)|apply (nat_fac u v N HN)|]. idx_le Hi. inr. lra.
Qed.

Lemma dct8_naive_acc n : approx_e (Dct8Naive_dct8 (Dct8Naive_new n)) n n dct8_at (de n).
Proof.
  eexists. split; [apply sem_dct8_naive_ok; lens|]. intros x k Hx Hk. subst n. rewrite <- dct8_naive_exact by (try assumption; lia).
  apply (loop0 op_add (fun t => t) op_add (fun t => t) A_add accum_add); [|lia|apply at_ok].
  intros i Hi. split; [|cbn; apply cos_le1]. cbn. pos (length x).
  apply (cos_entry u v N HN Hv4); [inr; lra|apply (den_nat u v N HN)|apply (off_fac u v N HN)|]. idx_le Hi. inr. lra.
Qed.

Lemma dst8_naive_acc n d : (1 <= n)%nat -> Dst8Naive_new n = Ok d -> approx_e (Dst8Naive_dst8 d) n n dst8_at (de n).
Proof.
  intros Hn. rewrite Dst8Naive_new_N by exact Hn. injection 1 as <-. eexists. split; [apply sem_dst8_naive_ok; [lia|]; lens|]. intros x k Hx Hk. subst n. rewrite <- dst8_naive_exact by (try assumption; lia).
  apply (loop0 op_add (fun t => t) op_add (fun t => t) A_add accum_add); [|lia|apply half_at_ok].
  intros i Hi. split; [|cbn; apply sin_le1]. cbn. pos (length x).
  apply (sin_entry u v N HN Hv4); [inr; lra|apply (den_nat u v N HN)|apply (off_fac u v N HN)|]. idx_le Hi. inr. lra.
Qed.

Lemma dct1_naive_acc n d : (2 <= n)%nat -> Dct1Naive_new n = Ok d -> approx_e (Dct1Naive_dct1 d) n n dct1_at (de n).
Proof.
  intros Hn. rewrite Dct1Naive_new_N by exact Hn. injection 1 as <-. eexists. split; [apply sem_dct1_naive_ok; [lia|]; lens|]. intros x k Hx Hk. subst n. rewrite <- dct1_naive_exact by (try assumption; lia).
  apply (loop1 op_add (fun t => t) op_add (fun t => t) A_add accum_add); [|lia|lia|apply half_at_ok|apply init_fac|apply (init_le x)].
  intros i Hi. split; [|cbn; apply cos_le1]. cbn. assert (2 <= INR (length x)) by (replace 2 with (INR 2) by reflexivity; apply le_INR, Hn).
  apply (cos_entry u v N HN Hv4); [inr; lra|apply (den_nat u v N HN)|apply (nat_fac u v N HN)|]. idx_le Hi. inr. lra.
Qed.

Lemma dct5_naive_acc n d : (1 <= n)%nat -> Dct5Naive_new n = Ok d -> approx_e (Dct5Naive_dct5 d) n n dct5_at (de n).
Proof.
  intros Hn. rewrite Dct5Naive_new_N by exact Hn. injection 1 as <-. eexists. split; [apply sem_dct5_naive_ok; [lia|]; lens|]. intros x k Hx Hk. subst n. rewrite <- dct5_naive_exact by (try assumption; lia).
  unfold sem_dct5_naive. destruct (k =? 0)%nat; [apply plain_err, half_at_ok|].
  apply (loop1 op_add (fun t => t) op_add (fun t => t) A_add accum_add); [|lia|lia|apply at_ok|apply init_fac|apply (init_le x)].
  intros i Hi. split; [|cbn; apply cos_le1]. cbn. pos (length x).
  apply (cos_entry u v N HN Hv4); [inr; lra|apply den_minus; lia|apply (nat_fac u v N HN)|]. idx_le Hi. inr. lra.
Qed.

Lemma dct6_naive_acc n d : (1 <= n)%nat -> Dct6And7Naive_new n = Ok d -> approx_e (Dct6And7Naive_dct6 d) n n dct6_at (de n).
Proof.
  intros Hn. rewrite Dct6And7Naive_new_N by exact Hn. injection 1 as <-. eexists. split; [apply sem_dct6_naive_ok; [lia|]; lens|]. intros x k Hx Hk. subst n. rewrite <- dct6_naive_exact by (try assumption; lia).
  unfold sem_dct6_naive. destruct (k =? 0)%nat; [apply plain_err, half_at_ok|].
  apply (loop0 op_add (fun t => t) op_add (fun t => t) A_add accum_add); [|lia|apply half_at_ok].
  intros i Hi. split; [|cbn; apply cos_le1]. cbn. pos (length x).
  apply (cos_entry u v N HN Hv4); [inr; lra|apply (den_nat u v N HN)|apply (nat_fac u v N HN)|]. idx_le Hi. inr. lra.
Qed.

Lemma dct7_naive_acc n d : (1 <= n)%nat -> Dct6And7Naive_new n = Ok d -> approx_e (Dct6And7Naive_dct7 d) n n dct7_at (de n).
Proof.
  intros Hn. rewrite Dct6And7Naive_new_N by exact Hn. injection 1 as <-. eexists. split; [apply sem_dct7_naive_ok; [lia|]; lens|]. intros x k Hx Hk. subst n. rewrite <- dct7_naive_exact by (try assumption; lia).
  apply (loop1 op_add (fun t => t) op_add (fun t => t) A_add accum_add); [|lia|lia|apply at_ok|apply init_fac|apply (init_le x)].
  intros i Hi. split; [|cbn; apply cos_le1]. cbn. pos (length x).
  apply (cos_entry u v N HN Hv4); [inr; lra|apply (den_nat u v N HN)|apply (nat_fac u v N HN)|]. idx_le Hi. inr. lra.
Qed.
End Naive.
