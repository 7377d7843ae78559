(** Bad values spread along the dependences of the exact transforms: the relation "zero, or bad" between a real
    number, which stands for a derivative, and a sample. *)
From Coq Require Import Reals ZArith List Arith Lia Lra Bool.
From Verif Require Import Prog Num Model_Common Model_Mdct Model_Plan Model_Api Spec Spec_Api Spec_Fft Spec_Plan Spec_Methods Spec_Param Spec_Spread
  Trig Ref Ref_Inverse Exact_Mdct Methods Mdct_Theorems Param Param_Plan Param_Theorems.
Import ListNotations.
Open Scope R_scope.

Section Spread.
Context {T F : Type} {N : Num T F}.
Variable bad : T -> Prop.
Hypothesis A : absorbs bad.
Definition or_bad (r : R) (v : T) : Prop := r = 0 \/ bad v.
Definition any {X Y : Type} (_ : X) (_ : Y) : Prop := True.
Lemma or_bad_compatible : compatible (N := NumR) (N' := N) or_bad any (fun _ _ => True).
Proof.
  constructor; try (intros; exact I); unfold or_bad; cbn [NumR zero neg add sub mul].
  - left. reflexivity.
  - intros a a' [->|H]; [left; ring|right; apply (bad_neg _ A), H].
  - intros a a' b b' [->|H]; [|right; apply (bad_add _ A); auto]. intros [->|H]; [left; ring|right; apply (bad_add _ A); auto].
  - intros a a' b b' [->|H]; [|right; apply (bad_sub _ A); auto]. intros [->|H]; [left; ring|right; apply (bad_sub _ A); auto].
  - intros a a' b b' [->|H] _; [left; ring|right; apply (bad_mul _ A); auto].
  - intros a a' b b' _ [->|H]; [left; ring|right; apply (bad_mul _ A); auto].
Qed.

(** An exact FFT over the real numbers of the shape of a given one. *)
Definition shadow (pf : nat -> fft T) (n : nat) : fft R :=
  mkFft R n Forward (fft_scratch (pf n)) (fun b s => (dft b, repeat (0, 0) (length s))).
Lemma shadow_fits pf : fft_fits (shadow pf) /\ fft_all_exact (shadow pf).
Proof. split; [intros n; split; reflexivity|intros n xs ss _ _; reflexivity]. Qed.
Lemma F2_nth {X Y} (P : X -> Y -> Prop) l l' dx dy : length l = length l' -> (forall i, (i < length l)%nat -> P (nth i l dx) (nth i l' dy)) -> Forall2 P l l'.
Proof.
  revert l'. induction l as [|x l IH]; intros [|y l'] L H; try discriminate; constructor; [apply (H 0%nat); cbn; lia|].
  apply IH; [injection L as L; exact L|]. intros i Hi. apply (H (S i)). cbn. lia.
Qed.
Lemma F2_at {X Y} (P : X -> Y -> Prop) l l' dx dy : Forall2 P l l' -> forall i, (i < length l)%nat -> P (nth i l dx) (nth i l' dy).
Proof. induction 1; cbn; intros i Hi; [lia|]. destruct i; [assumption|]. apply IHForall2. lia. Qed.
Lemma sum_or (p : Prop) f n : (forall j, (j < n)%nat -> f j = 0 \/ p) -> sum f n = 0 \/ p.
Proof.
  induction n as [|n IH]; intros H; [left; reflexivity|]. destruct (H n ltac:(lia)) as [E|]; [|auto].
  destruct IH as [E'|]; [intros j Hj; apply H; lia| |auto]. left. cbn [sum]. rewrite E, E'. ring.
Qed.
Lemma shadow_alike pf n : fft_fits pf -> fft_spreads bad (pf n) -> fft_alike or_bad (shadow pf n) (pf n).
Proof.
  intros Hf S. split; [symmetry; apply Hf|]. split; [symmetry; apply Hf|]. split; [reflexivity|]. intros b b' s s' Hb Hs.
  destruct (S b' s') as (L1 & L2 & P). pose proof (Forall2_len _ _ _ Hb) as Lb. pose proof (Forall2_len _ _ _ Hs) as Ls. cbn [shadow fft_run fst snd]. split.
  - apply (F2_nth _ _ _ (0, 0) (zero, zero)); [unfold dft; rewrite map_length, seq_length; lia|]. intros k Hk. unfold dft in Hk. rewrite map_length, seq_length in Hk.
    unfold dft. rewrite (nth_map_seq (fun k => (dft_re b k, dft_im b k))) by exact Hk. unfold both. cbn [fst snd].
    split; unfold or_bad, dft_re, dft_im; apply sum_or; intros j Hj; cbv zeta.
    all: destruct (F2_at _ _ _ (0, 0) (zero, zero) Hb j Hj) as [Re Im]; destruct (P j k ltac:(lia) ltac:(lia)) as [Pc Ps]; rewrite <- Lb in Pc, Ps.
    all: set (a := 2 * PI * INR j * INR k / INR (length b)) in * .
    all: destruct (Req_dec (cos a) 0) as [Ec|Ec]; destruct (Req_dec (sin a) 0) as [Es|Es]; try specialize (Pc Ec); try specialize (Ps Es);
      destruct Re as [Re|Re]; destruct Im as [Im|Im]; try rewrite Ec; try rewrite Es; try rewrite Re; try rewrite Im; tauto || (left; ring).
  - apply (F2_nth _ _ _ (0, 0) (zero, zero)); [rewrite repeat_length; lia|]. intros k Hk. rewrite nth_repeat. split; left; reflexivity.
Qed.

Definition real_call (c : pcall T) : pcall R :=
  match c with
  | CDct1 n => CDct1 n | CDct2 n => CDct2 n | CDct3 n => CDct3 n | CDct4 n => CDct4 n | CDct5 n => CDct5 n | CDct6 n => CDct6 n | CDct7 n => CDct7 n | CDct8 n => CDct8 n
  | CDst1 n => CDst1 n | CDst2 n => CDst2 n | CDst3 n => CDst3 n | CDst4 n => CDst4 n | CDst5 n => CDst5 n | CDst6 n => CDst6 n | CDst7 n => CDst7 n | CDst8 n => CDst8 n
  | CMdct n w => CMdct n (fun m => repeat 1 (length (w m)))
  end.
Lemma any_len {X Y} (x : X) (l : list Y) : Forall2 any (repeat x (length l)) l.
Proof. induction l; cbn; constructor; [exact I|assumption]. Qed.
Lemma real_alike c : call_alike any (real_call c) c.
Proof. destruct c; cbn; try reflexivity. split; [reflexivity|]. intros m. apply any_len. Qed.
Lemma real_calls cs : Forall2 (call_alike any) (map real_call cs) cs.
Proof. induction cs; cbn; constructor; [apply real_alike|assumption]. Qed.
Lemma real_no_fft c : no_fft c -> no_fft (real_call c). Proof. destruct c; cbn; auto. Qed.
Lemma real_legal c : legal c -> legal (real_call c). Proof. destruct c; cbn; auto. Qed.
Lemma real_size c : size (real_call c) = size c. Proof. destruct c; reflexivity. Qed.
Lemma depends_reference c k j : depends c k j -> nth k (reference (real_call c) (impulse (size c) j)) 0 <> 0.
Proof. destruct c; cbn; auto. Qed.
Lemma impulse_length n j : length (impulse n j) = n. Proof. unfold impulse. rewrite map_length, seq_length. reflexivity. Qed.
Lemma nth_impulse n j i : (i < n)%nat -> nth i (impulse n j) 0 = if (i =? j)%nat then 1 else 0.
Proof. intros H. unfold impulse. rewrite (nth_map_seq (fun i => if (i =? j)%nat then 1 else 0)) by exact H. reflexivity. Qed.
Lemma impulse_or_bad x j : bad (nth j x zero) -> Forall2 or_bad (impulse (length x) j) x.
Proof.
  intros H. apply (F2_nth _ _ _ 0 zero); [apply impulse_length|]. intros i Hi. rewrite impulse_length in Hi. rewrite nth_impulse by exact Hi.
  destruct (Nat.eqb_spec i j) as [->|]; [right; exact H|left; reflexivity].
Qed.
Lemma zeros_or_bad (x : list T) : Forall2 or_bad (repeat 0 (length x)) x.
Proof. induction x; cbn; constructor; [left; reflexivity|assumption]. Qed.

Variable pf : nat -> fft T.
Lemma spread_planned cs c : legal c -> no_fft c \/ (fft_fits pf /\ forall n, fft_spreads bad (pf n)) ->
  exists g sl, planned_method c (after pf cs) = Some (g, sl) /\
  forall x s, length x = size c -> (sl <= length s)%nat -> exists y s', call g x s = Returned (y, s') /\ length y = size c /\
  forall j k, (j < size c)%nat -> (k < size c)%nat -> bad (nth j x zero) -> depends c k j -> bad (nth k y zero).
Proof.
  intros Hl Hf. destruct (shadow_fits pf) as [Fi Ex].
  destruct (planned_all (shadow pf) Fi Ex (real_call c) [] (real_legal c Hl)) as (f & sl & E & [P _] & _). rewrite real_size in P.
  assert (Hf' : no_fft (real_call c) \/ forall n, fft_alike or_bad (shadow pf n) (pf n)).
  { destruct Hf as [Hf|[Hf Hs]]; [left; apply real_no_fft, Hf|right; intros n; apply shadow_alike; [exact Hf|apply Hs]]. }
  pose proof (planned_alike or_bad any (fun _ _ => True) or_bad_compatible (shadow pf) pf (real_call c) c [] cs Hf' (real_alike c)) as R. rewrite E in R.
  destruct (planned_method c (after pf cs)) as [[g sl']|]; [|contradiction]. destruct R as [<- R].
  exists g, sl. split; [reflexivity|]. intros x s Lx Ls.
  assert (Run : forall u, length u = size c -> Forall2 or_bad u x -> exists y s', call g x s = Returned (y, s') /\ length y = size c /\ Forall2 or_bad (reference (real_call c) u) y).
  { intros u Lu Hu. destruct (P u (repeat 0 (length s)) Lu) as (s1 & E1 & _).
    { rewrite repeat_length. exact Ls. } { clear - Ls. revert s Ls. induction sl as [|sl IH]; intros [|a s] L; cbn in * ; try lia; [reflexivity|reflexivity|]. f_equal. apply IH. lia. }
    pose proof (call_vectors or_bad any (fun _ _ => True) or_bad_compatible f g u x (repeat 0 (length s)) s R Hu (zeros_or_bad s)) as V. rewrite E1 in V. cbn [observed_alike fst snd] in V.
    destruct (call g x s) as [[y s']| |]; try contradiction. exists y, s'. split; [reflexivity|]. destruct V as [V _]. split; [|exact V].
    cbn [fst] in V. rewrite <- (Forall2_len _ _ _ V). rewrite reference_length; exact Lu. }
  destruct (Run (repeat 0 (length x))) as (y & s' & Ey & Ly & _); [rewrite repeat_length; exact Lx|apply zeros_or_bad|].
  exists y, s'. split; [exact Ey|]. split; [exact Ly|]. intros j k Hj Hk Hb Hd.
  destruct (Run (impulse (size c) j)) as (y1 & s1 & E1 & _ & V); [apply impulse_length|rewrite <- Lx; apply impulse_or_bad, Hb|].
  rewrite Ey in E1. injection E1 as <- <-. apply depends_reference in Hd.
  destruct (F2_at _ _ _ 0 zero V k) as [Z|]; [rewrite (Forall2_len _ _ _ V); lia|contradiction|assumption].
Qed.

(** The MDCT. *)
Lemma real_in_force cs n w m : window_in_force (map real_call cs) n (fun m => repeat 1 (length (w m))) m = repeat 1 (length (window_in_force cs n w m)).
Proof.
  unfold window_in_force. induction cs as [|c cs IH]; [reflexivity|]. cbn [map find].
  destruct c; cbn [real_call valid_window]; try exact IH. rewrite repeat_length. destruct (_ && _); [reflexivity|exact IH].
Qed.
Hypothesis Hpf : fft_fits pf.
Lemma spread_mdct cs n w : (n mod 2 = 0)%nat -> length (window_in_force cs n w (n * 2)%nat) = (n * 2)%nat -> no_fft (CMdct n w) \/ (forall n, fft_spreads bad (pf n)) ->
  exists o, snd (plan_mdct n w (after pf cs)) = Ok o /\
  forall x y z s, length x = n -> length y = n -> length z = n -> (m_scratch (arc_val o) <= length s)%nat ->
  (exists r s', call4 (t_mdct (arc_val o)) x y z s = Returned r /\ snd (fst r) = s' /\ length s' = n /\
    forall u v, length u = n -> length v = n -> Forall2 or_bad u x -> Forall2 or_bad v y -> Forall2 or_bad (mdct_of n (repeat 1 (n * 2)) (u ++ v)) s') /\
  (exists r, call4 (t_imdct (arc_val o)) x y z s = Returned r /\ length (snd (fst (fst r)) ++ snd (fst r)) = (2 * n)%nat /\
    forall u v t, length u = n -> length v = n -> length t = n -> Forall2 or_bad u x -> Forall2 or_bad v y -> Forall2 or_bad t z ->
      Forall2 or_bad (add_lists (v ++ t) (imdct_of n (repeat 1 (n * 2)) u)) (snd (fst (fst r)) ++ snd (fst r))).
Proof.
  intros Hn Lw Hf. destruct (shadow_fits pf) as [Fi Ex].
  set (wr := fun m => repeat 1 (length (w m))).
  assert (Ef : window_in_force (map real_call cs) n wr (n * 2)%nat = repeat 1 (n * 2)) by (unfold wr; rewrite real_in_force, Lw; reflexivity).
  destruct (planned_mdct_in_force (shadow pf) Fi Ex (map real_call cs) n wr Hn) as (a & E & L & P & _ & Q); [rewrite Ef; apply repeat_length|]. rewrite Ef in P, Q.
  assert (Hf' : no_fft (CMdct n wr) \/ forall n, fft_alike or_bad (shadow pf n) (pf n)).
  { destruct Hf as [Hf|Hs]; [left; exact Hf|right; intros m; apply shadow_alike; [exact Hpf|apply Hs]]. }
  pose proof (planned_mdct_alike or_bad any (fun _ _ => True) or_bad_compatible (shadow pf) pf Fi Hpf n wr w (map real_call cs) cs Hf' (fun m => any_len 1 (w m)) (real_calls cs)) as R.
  rewrite E in R. destruct (snd (plan_mdct n w (after pf cs))) as [o|]; [|contradiction]. destruct R as (S & R1 & R2).
  exists o. split; [reflexivity|]. rewrite <- S. intros x y z s Lx Ly Lz Ls.
  assert (Ls' : (m_scratch (arc_val a) <= length (repeat 0%R (length s)))%nat) by (rewrite repeat_length; exact Ls).
  assert (Run1 : forall u v, length u = n -> length v = n -> Forall2 or_bad u x -> Forall2 or_bad v y ->
    exists r, call4 (t_mdct (arc_val o)) x y z s = Returned r /\ Forall2 or_bad (mdct_of n (repeat 1 (n * 2)) (u ++ v)) (snd (fst r))).
  { intros u v Lu Lv Hu Hv. destruct (P u v (repeat 0 (length z)) (repeat 0 (length s)) Lu Lv) as (s1 & E1 & _); [rewrite repeat_length; exact Lz|exact Ls'|].
    pose proof (call4_vectors or_bad any (fun _ _ => True) or_bad_compatible _ _ u x v y _ z _ s R1 Hu Hv (zeros_or_bad z) (zeros_or_bad s)) as O. rewrite E1 in O. cbn [observed_alike] in O.
    destruct (call4 (t_mdct (arc_val o)) x y z s) as [[[[p q] r] t]| |]; try contradiction. eexists. split; [reflexivity|]. apply O. }
  assert (Run2 : forall u v t, length u = n -> length v = n -> length t = n -> Forall2 or_bad u x -> Forall2 or_bad v y -> Forall2 or_bad t z ->
    exists r, call4 (t_imdct (arc_val o)) x y z s = Returned r /\ Forall2 or_bad (add_lists (v ++ t) (imdct_of n (repeat 1 (n * 2)) u)) (snd (fst (fst r)) ++ snd (fst r))).
  { intros u v t Lu Lv Lt Hu Hv Ht. destruct (Q u v t (repeat 0 (length s)) Lu Lv Lt Ls') as (l & r & s1 & E1 & B & _).
    pose proof (call4_vectors or_bad any (fun _ _ => True) or_bad_compatible _ _ u x v y t z _ s R2 Hu Hv Ht (zeros_or_bad s)) as O. rewrite E1 in O. cbn [observed_alike] in O.
    destruct (call4 (t_imdct (arc_val o)) x y z s) as [[[[p q] r'] t']| |]; try contradiction. eexists. split; [reflexivity|]. cbn [fst snd]. rewrite <- B. apply Forall2_app; apply O. }
  assert (Z : forall l : list T, length l = n -> length (repeat 0 (length l)) = n) by (intros l <-; apply repeat_length).
  split.
  - destruct (Run1 (repeat 0 (length x)) (repeat 0 (length y))) as (r & Er & V); [apply Z, Lx|apply Z, Ly|apply zeros_or_bad|apply zeros_or_bad|].
    exists r, (snd (fst r)). split; [exact Er|]. split; [reflexivity|]. split.
    { rewrite <- (Forall2_len _ _ _ V). unfold mdct_of. rewrite map_length. apply seq_length. }
    intros u v Lu Lv Hu Hv. destruct (Run1 u v Lu Lv Hu Hv) as (r2 & E2 & V2). rewrite Er in E2. injection E2 as <-. exact V2.
  - destruct (Run2 (repeat 0 (length x)) (repeat 0 (length y)) (repeat 0 (length z))) as (r & Er & V); try (apply Z; assumption); try apply zeros_or_bad.
    exists r. split; [exact Er|]. split.
    { rewrite <- (Forall2_len _ _ _ V). unfold add_lists. rewrite map_length, seq_length, app_length, !repeat_length. lia. }
    intros u v t Lu Lv Lt Hu Hv Ht. destruct (Run2 u v t Lu Lv Lt Hu Hv Ht) as (r2 & E2 & V2). rewrite Er in E2. injection E2 as <-. exact V2.
Qed.
End Spread.

(** Where every output depends on every input. *)
Lemma sum_pick (c : R) n j : (j < n)%nat -> sum (fun i => if (i =? j)%nat then c else 0) n = c.
Proof.
  intros H. rewrite (sum_single _ n j H); [rewrite Nat.eqb_refl; reflexivity|]. intros i _ Hi. destruct (Nat.eqb_spec i j); [contradiction|reflexivity].
Qed.
Lemma kern_impulse t n K j k : kern t n K -> (j < n)%nat -> (k < n)%nat -> nth k (transform t (impulse n j)) 0 = K k j.
Proof.
  intros H Hj Hk. rewrite nth_transform by (rewrite impulse_length; exact Hk). rewrite (H _ k (impulse_length n j) Hk).
  rewrite (sum_ext _ (fun i => if (i =? j)%nat then K k j else 0)).
  2: { intros i Hi. rewrite nth_impulse by exact Hi. destruct (Nat.eqb_spec i j) as [->|]; ring. }
  apply sum_pick, Hj.
Qed.
Lemma cz_zero d z : (d <> 0)%Z -> cz d z = 0 -> exists k, (2 * z = d * (2 * k + 1))%Z.
Proof.
  intros Hd H. unfold cz in H. apply cos_eq_0_0 in H. destruct H as [k H]. exists k. apply eq_IZR. rewrite !mult_IZR, plus_IZR, mult_IZR.
  pose proof PI_RGT_0. assert (D : IZR d <> 0) by (apply not_0_IZR; exact Hd).
  apply (Rmult_eq_reg_l (PI / IZR d)); [|apply Rmult_integral_contrapositive_currified; [lra|apply Rinv_neq_0_compat; exact D]].
  transitivity (2 * (PI * IZR z / IZR d)); [field; exact D|]. rewrite H. field. exact D.
Qed.
Lemma sz_zero d z : (d <> 0)%Z -> sz d z = 0 -> exists k, (z = d * k)%Z.
Proof.
  intros Hd H. unfold sz in H. apply sin_eq_0_0 in H. destruct H as [k H]. exists k. apply eq_IZR. rewrite mult_IZR.
  pose proof PI_RGT_0. assert (D : IZR d <> 0) by (apply not_0_IZR; exact Hd).
  apply (Rmult_eq_reg_l (PI / IZR d)); [|apply Rmult_integral_contrapositive_currified; [lra|apply Rinv_neq_0_compat; exact D]].
  transitivity (PI * IZR z / IZR d); [field; exact D|]. rewrite H. field. exact D.
Qed.
Lemma two_divides p : forall a b, (exists c, a * (2 * b + 1) = 2 ^ Z.of_nat p * c)%Z -> exists c, (a = 2 ^ Z.of_nat p * c)%Z.
Proof.
  induction p as [|p IH]; intros a b [c H]; [exists a; change (2 ^ Z.of_nat 0)%Z with 1%Z; lia|].
  rewrite Nat2Z.inj_succ, Z.pow_succ_r in H by lia. set (P := (2 ^ Z.of_nat p)%Z) in * .
  assert (E : exists a', (a = 2 * a')%Z).
  { exists (P * c - a * b)%Z. lia. }
  destruct E as [a' ->]. destruct (IH a' b) as [d D]; [exists c; fold P; lia|]. exists d. rewrite Nat2Z.inj_succ, Z.pow_succ_r by lia. fold P in D |- * . lia.
Qed.
Lemma half_when_nz b : half_when b <> 0. Proof. unfold half_when. destruct b; lra. Qed.
Lemma pow_Z p : zn (2 ^ p) = (2 ^ Z.of_nat p)%Z. Proof. rewrite Nat2Z.inj_pow. reflexivity. Qed.
Lemma small_multiple a P c : (0 < a < P)%Z -> a <> (P * c)%Z.
Proof. intros H E. assert (c <= 0 \/ 1 <= c)%Z as [C|C] by lia; nia. Qed.
Lemma dct2_dense p k j : (k < 2 ^ p)%nat -> cz (2 * zn (2 ^ p)) (zn k * (2 * zn j + 1)) <> 0.
Proof.
  intros Hk H. rewrite pow_Z in H. assert (Pp : (0 < 2 ^ Z.of_nat p)%Z) by (apply Z.pow_pos_nonneg; lia).
  assert (Hk' : (zn k < 2 ^ Z.of_nat p)%Z) by (rewrite <- pow_Z; lia). apply cz_zero in H; [|lia]. destruct H as [m H]. 
  destruct (two_divides p (zn k) (zn j)) as [c E]; [exists (2 * m + 1)%Z; lia|]. 
  destruct (Z.eq_dec (zn k) 0) as [Z|Z]; [rewrite Z in H; assert (M : (2 ^ Z.of_nat p * (2 * m + 1) = 0)%Z) by lia; apply Z.mul_eq_0 in M; lia|]. apply (small_multiple (zn k) (2 ^ Z.of_nat p) c); [lia|exact E].
Qed.
Lemma dst2_dense p k j : (k < 2 ^ p)%nat -> sz (2 * zn (2 ^ p)) ((zn k + 1) * (2 * zn j + 1)) <> 0.
Proof.
  intros Hk H. rewrite pow_Z in H. assert (Pp : (0 < 2 ^ Z.of_nat p)%Z) by (apply Z.pow_pos_nonneg; lia).
  assert (Hk' : (zn k < 2 ^ Z.of_nat p)%Z) by (rewrite <- pow_Z; lia). apply sz_zero in H; [|lia]. destruct H as [m H].
  destruct (two_divides (S p) (zn k + 1) (zn j)) as [c E]; [exists m; rewrite Nat2Z.inj_succ, Z.pow_succ_r by lia; lia|].
  rewrite Nat2Z.inj_succ, Z.pow_succ_r in E by lia. apply (small_multiple (zn k + 1) (2 * 2 ^ Z.of_nat p) c); [lia|exact E].
Qed.
Lemma dense_depends {T} (c : pcall T) k j : dense c -> (j < size c)%nat -> (k < size c)%nat -> depends c k j.
Proof.
  intros Hd Hj Hk. destruct c; cbn [dense size depends] in * ; try contradiction; try match type of Hd with ex _ => destruct Hd as [p ->] end.
  - unfold dct1. rewrite (kern_impulse _ _ _ _ _ (kern_dct1 (2 * p) ltac:(lia)) Hj Hk). unfold k_dct1. apply Rmult_integral_contrapositive_currified; [apply half_when_nz|].
    intros H. apply cz_zero in H; [|lia]. destruct H as [m H]. lia.
  - unfold dct2. rewrite (kern_impulse _ _ _ _ _ (kern_dct2 _) Hj Hk). apply dct2_dense, Hk.
  - unfold dct3. rewrite (kern_impulse _ _ _ _ _ (kern_dct3 _) Hj Hk). unfold k_dct3. apply Rmult_integral_contrapositive_currified; [apply half_when_nz|].
    rewrite (Z.mul_comm (2 * zn k + 1)). apply dct2_dense, Hj.
  - unfold dct4. rewrite (kern_impulse _ _ _ _ _ (kern_dct4 _) Hj Hk). unfold k_dct4. intros H. apply cz_zero in H; [|lia]. destruct H as [m H]. lia.
  - unfold dct5. rewrite (kern_impulse _ _ _ _ _ (kern_dct5 _) Hj Hk). unfold k_dct5. apply Rmult_integral_contrapositive_currified; [apply half_when_nz|].
    intros H. apply cz_zero in H; [|lia]. destruct H as [m H]. lia.
  - unfold dct6. rewrite (kern_impulse _ _ _ _ _ (kern_dct6 _) Hj Hk). unfold k_dct6. apply Rmult_integral_contrapositive_currified; [apply half_when_nz|].
    intros H. apply cz_zero in H; [|lia]. destruct H as [m H]. lia.
  - unfold dct7. rewrite (kern_impulse _ _ _ _ _ (kern_dct7 _) Hj Hk). unfold k_dct7. apply Rmult_integral_contrapositive_currified; [apply half_when_nz|].
    intros H. apply cz_zero in H; [|lia]. destruct H as [m H]. lia.
  - unfold dst2. rewrite (kern_impulse _ _ _ _ _ (kern_dst2 _) Hj Hk). apply dst2_dense, Hk.
  - unfold dst3. rewrite (kern_impulse _ _ _ _ _ (kern_dst3 _) Hj Hk). unfold k_dst3. apply Rmult_integral_contrapositive_currified; [apply half_when_nz|].
    rewrite (Z.mul_comm (2 * zn k + 1)). apply dst2_dense, Hj.
  - unfold dst4. rewrite (kern_impulse _ _ _ _ _ (kern_dst4 _) Hj Hk). unfold k_dst4. intros H. apply sz_zero in H; [|lia]. destruct H as [m H]. lia.
Qed.
Lemma mdct_angle n i k : (n mod 2 = 0)%nat -> (0 < n)%nat -> cos (PI / INR n * (INR i + / 2 + INR n / 2) * (INR k + / 2)) <> 0.
Proof.
  intros He Hn H. assert (E : cz (4 * zn n) ((2 * zn i + 1 + zn n) * (2 * zn k + 1)) = 0).
  { unfold cz. rewrite <- H. f_equal. rewrite !mult_IZR, !plus_IZR, !mult_IZR. rewrite <- !INR_IZR_INZ. field. apply not_0_INR. lia. }
  apply cz_zero in E; [|lia]. destruct E as [m E]. pose proof (Nat.div_mod n 2 ltac:(lia)) as D. rewrite He in D.
  assert (D' : zn n = (2 * zn (n / 2))%Z) by (lia). rewrite D' in E. lia.
Qed.

Section Everywhere.
Context {T F : Type} {N : Num T F}.
Variable bad : T -> Prop.
Hypothesis A : absorbs bad.
Variable pf : nat -> fft T.
Hypothesis Hpf : fft_fits pf.
Lemma dense_planned cs c : legal c -> dense c -> no_fft c \/ (fft_fits pf /\ forall n, fft_spreads bad (pf n)) ->
  exists g sl, planned_method c (after pf cs) = Some (g, sl) /\
  forall x s, length x = size c -> (sl <= length s)%nat -> Exists bad x -> exists y s', call g x s = Returned (y, s') /\ length y = size c /\ Forall bad y.
Proof.
  intros Hl Hd Hf. destruct (spread_planned bad A pf cs c Hl Hf) as (g & sl & E & P). exists g, sl. split; [exact E|]. intros x s Lx Ls Hx.
  destruct (P x s Lx Ls) as (y & s' & Ey & Ly & Q). exists y, s'. split; [exact Ey|]. split; [exact Ly|].
  apply Exists_nth in Hx. destruct Hx as (j & d & Hj & Hb). rewrite Lx in Hj. rewrite (nth_indep _ _ zero) in Hb by lia.
  apply Forall_nth. intros k d' Hk. rewrite (nth_indep _ _ zero) by exact Hk. rewrite Ly in Hk. apply (Q j k Hj Hk Hb). apply dense_depends; assumption.
Qed.
Lemma all_bad u y (n : nat) : length y = n -> Forall2 (or_bad bad) u y -> (forall k, (k < n)%nat -> nth k u 0 <> 0) -> Forall bad y.
Proof.
  intros Ly V Nz. apply Forall_nth. intros k d Hk. rewrite (nth_indep _ _ zero) by exact Hk.
  destruct (F2_at _ _ _ 0 zero V k) as [Z|]; [rewrite (Forall2_len _ _ _ V); exact Hk|exfalso; apply (Nz k); [lia|exact Z]|assumption].
Qed.
Lemma mdct_impulse n j k : (j < 2 * n)%nat -> (k < n)%nat -> nth k (mdct_of n (repeat 1 (n * 2)) (impulse (2 * n) j)) 0 = cos (PI / INR n * (INR j + / 2 + INR n / 2) * (INR k + / 2)).
Proof.
  intros Hj Hk. unfold mdct_of. rewrite nth_map_seq by exact Hk. unfold mdct_at.
  rewrite (sum_ext _ (fun i => if (i =? j)%nat then cos (PI / INR n * (INR j + / 2 + INR n / 2) * (INR k + / 2)) else 0)).
  2: { intros i Hi. rewrite nth_impulse by exact Hi. rewrite (nth_indep _ _ 1) by (rewrite repeat_length; lia). rewrite nth_repeat. destruct (Nat.eqb_spec i j) as [->|]; ring. }
  apply sum_pick, Hj.
Qed.
Lemma imdct_impulse n j i : (j < n)%nat -> (i < 2 * n)%nat -> nth i (imdct_of n (repeat 1 (n * 2)) (impulse n j)) 0 = cos (PI / INR n * (INR i + / 2 + INR n / 2) * (INR j + / 2)).
Proof.
  intros Hj Hi. unfold imdct_of. rewrite nth_map_seq by exact Hi. unfold imdct_at. rewrite (nth_indep _ _ 1) by (rewrite repeat_length; lia). rewrite nth_repeat, Rmult_1_l.
  rewrite (sum_ext _ (fun k => if (k =? j)%nat then cos (PI / INR n * (INR i + / 2 + INR n / 2) * (INR j + / 2)) else 0)).
  2: { intros k Hk. rewrite nth_impulse by exact Hk. destruct (Nat.eqb_spec k j) as [->|]; ring. }
  apply sum_pick, Hj.
Qed.
Lemma impulse_left n j : (j < n)%nat -> impulse n j ++ repeat 0 n = impulse (2 * n) j.
Proof.
  intros Hj. apply (nth_ext _ _ 0 0); [rewrite app_length, !impulse_length, repeat_length; lia|]. intros i Hi. rewrite app_length, impulse_length, repeat_length in Hi.
  rewrite nth_impulse by lia. destruct (Nat.lt_ge_cases i n).
  - rewrite app_nth1 by (rewrite impulse_length; lia). apply nth_impulse. lia.
  - rewrite app_nth2 by (rewrite impulse_length; lia). rewrite nth_repeat. destruct (Nat.eqb_spec i j); [lia|reflexivity].
Qed.
Lemma impulse_right n j : (j < n)%nat -> repeat 0 n ++ impulse n j = impulse (2 * n) (n + j).
Proof.
  intros Hj. apply (nth_ext _ _ 0 0); [rewrite app_length, !impulse_length, repeat_length; lia|]. intros i Hi. rewrite app_length, impulse_length, repeat_length in Hi.
  rewrite nth_impulse by lia. destruct (Nat.lt_ge_cases i n).
  - rewrite app_nth1 by (rewrite repeat_length; lia). rewrite nth_repeat. destruct (Nat.eqb_spec i (n + j)); [lia|reflexivity].
  - rewrite app_nth2 by (rewrite repeat_length; lia). rewrite repeat_length, nth_impulse by lia. destruct (Nat.eqb_spec (i - n) j), (Nat.eqb_spec i (n + j)); lia || reflexivity.
Qed.
Lemma zeros_n (x : list T) n : length x = n -> Forall2 (or_bad bad) (repeat 0 n) x.
Proof. intros <-. apply zeros_or_bad. Qed.
Lemma impulse_n (x : list T) n j : length x = n -> bad (nth j x zero) -> Forall2 (or_bad bad) (impulse n j) x.
Proof. intros <-. apply impulse_or_bad. Qed.
Lemma bad_at (x : list T) : Exists bad x -> exists j, (j < length x)%nat /\ bad (nth j x zero).
Proof. intros H. apply Exists_nth in H. destruct H as (j & d & Hj & Hb). rewrite (nth_indep _ _ zero) in Hb by exact Hj. eauto. Qed.
Lemma add_at u v i : (i < length u)%nat -> nth i (add_lists u v) 0 = nth i u 0 + nth i v 0.
Proof. intros H. unfold add_lists. rewrite (nth_map_seq (fun i => nth i u 0 + nth i v 0)) by exact H. reflexivity. Qed.
Lemma everywhere_mdct cs n w : (n mod 2 = 0)%nat -> length (window_in_force cs n w (n * 2)%nat) = (n * 2)%nat -> no_fft (CMdct n w) \/ (forall n, fft_spreads bad (pf n)) ->
  exists o, snd (plan_mdct n w (after pf cs)) = Ok o /\
  forall x y z s, length x = n -> length y = n -> length z = n -> (m_scratch (arc_val o) <= length s)%nat ->
  (exists p q r s', call4 (t_mdct (arc_val o)) x y z s = Returned (p, q, r, s') /\ length r = n /\ (Exists bad x \/ Exists bad y -> Forall bad r)) /\
  (exists p q r s', call4 (t_imdct (arc_val o)) x y z s = Returned (p, q, r, s') /\ length (q ++ r) = (2 * n)%nat /\ (Exists bad x -> Forall bad (q ++ r)) /\
    forall i, (i < 2 * n)%nat -> bad (nth i (y ++ z) zero) -> bad (nth i (q ++ r) zero)).
Proof.
  intros Hn Lw Hf. destruct (spread_mdct bad A pf Hpf cs n w Hn Lw Hf) as (o & E & P). exists o. split; [exact E|]. intros x y z s Lx Ly Lz Ls.
  destruct (P x y z s Lx Ly Lz Ls) as [(r1 & s1 & E1 & <- & L1 & Q1) (r2 & E2 & L2 & Q2)]. split.
  - destruct r1 as [[[p q] r] s']. cbn [fst snd] in * . exists p, q, r, s'. split; [exact E1|]. split; [exact L1|]. intros [H|H]; apply bad_at in H; destruct H as (j & Hj & Hb).
    + rewrite Lx in Hj. apply (all_bad (mdct_of n (repeat 1 (n * 2)) (impulse (2 * n) j)) r n L1).
      * rewrite <- impulse_left by exact Hj. apply Q1; [apply impulse_length|apply repeat_length|apply impulse_n; assumption|apply zeros_n, Ly].
      * intros k Hk. rewrite mdct_impulse by lia. apply mdct_angle; [exact Hn|lia].
    + rewrite Ly in Hj. apply (all_bad (mdct_of n (repeat 1 (n * 2)) (impulse (2 * n) (n + j))) r n L1).
      * rewrite <- impulse_right by exact Hj. apply Q1; [apply repeat_length|apply impulse_length|apply zeros_n, Lx|apply impulse_n; assumption].
      * intros k Hk. rewrite mdct_impulse by lia. apply mdct_angle; [exact Hn|lia].
  - destruct r2 as [[[p q] r] s']. cbn [fst snd] in * . exists p, q, r, s'. split; [exact E2|]. split; [exact L2|]. split.
    + intros H. apply bad_at in H. destruct H as (j & Hj & Hb). rewrite Lx in Hj.
      pose proof (Q2 (impulse n j) (repeat 0 n) (repeat 0 n) (impulse_length _ _) (repeat_length _ _) (repeat_length _ _) (impulse_n x n j Lx Hb) (zeros_n y n Ly) (zeros_n z n Lz)) as V.
      apply (all_bad _ _ (2 * n)%nat L2 V). intros k Hk. rewrite add_at by (rewrite app_length, !repeat_length; lia). rewrite <- repeat_app, nth_repeat, imdct_impulse by lia.
      rewrite Rplus_0_l. apply mdct_angle; [exact Hn|lia].
    + intros i Hi Hb.
      assert (V : Forall2 (or_bad bad) (add_lists (impulse (2 * n) i) (imdct_of n (repeat 1 (n * 2)) (repeat 0 n))) (q ++ r)).
      { destruct (Nat.lt_ge_cases i n).
        - rewrite app_nth1 in Hb by lia. rewrite <- impulse_left by assumption. apply Q2; try apply impulse_length; try apply repeat_length; try (apply zeros_n; assumption). apply impulse_n; assumption.
        - rewrite app_nth2 in Hb by lia. rewrite Ly in Hb. replace i with (n + (i - n))%nat by lia. rewrite <- impulse_right by lia.
          apply Q2; try apply impulse_length; try apply repeat_length; try (apply zeros_n; assumption). apply impulse_n; assumption. }
      destruct (F2_at _ _ _ 0 zero V i) as [Z|]; [rewrite (Forall2_len _ _ _ V); lia| |assumption]. exfalso.
      rewrite add_at, nth_impulse, Nat.eqb_refl in Z by (rewrite ?impulse_length; lia). unfold imdct_of in Z. rewrite nth_map_seq in Z by lia. unfold imdct_at in Z.
      rewrite sum_zero' in Z; [lra|]. intros k Hk. rewrite nth_repeat. ring.
Qed.
End Everywhere.

Lemma summed_spreads {T F} {N : Num T F} (bad : T -> Prop) tw n : absorbs bad -> fft_spreads bad (summed_fft tw n).
Proof.
  intros A b s. cbn [summed_fft fft_run fst snd]. split; [rewrite map_length, seq_length; reflexivity|]. split; [reflexivity|]. intros j k Hj Hk. cbv zeta.
  match goal with |- context [map ?g (seq 0 (length b))] => rewrite (nth_map_seq g) by exact Hk; set (G := g k) end.
  assert (H : bad (fst (nth j b (zero, zero))) \/ bad (snd (nth j b (zero, zero))) -> bad (fst G) /\ bad (snd G)).
  { unfold G. clear G. assert (I : In j (seq 0 (length b))) by (apply in_seq; lia). revert I. generalize (seq 0 (length b)). intros l.
    induction l as [|i l IH]; [intros []|]. intros [->|I] H; cbn [fold_right fst snd].
    - split; apply (bad_add _ A); left; [apply (bad_sub _ A)|apply (bad_add _ A)]; destruct H; [left|right|left|right]; apply (bad_mul _ A); left; assumption.
    - destruct (IH I H). split; apply (bad_add _ A); right; assumption. }
  split; intros _; split; intros B; apply H; auto.
Qed.
Lemma summed_fits {T F} {N : Num T F} tw : fft_fits (summed_fft tw).
Proof.
  intros n. cbn [summed_fft fft_len fft_dir fft_scratch fft_run]. repeat split; intros; cbn [fst snd]; rewrite ?map_length, ?seq_length; try reflexivity; try lia; try assumption.
Qed.
