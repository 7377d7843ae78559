(** Sign symmetry of IEEE 754 arithmetic: what claim C68 needs. *)
From Coq Require Import List Bool Lia ZArith Floats.SpecFloat.
From Verif Require Import Prog Num Model_Common Model_Plan Model_Api Spec Spec_Api Spec_Fft Spec_Plan Spec_Methods Spec_Param Spec_Binary Spec_Symmetry
  Param Param_Theorems Methods.
Import ListNotations.
Open Scope Z_scope.

Section Ops.
Variables prec emax : Z.
Lemma aux_opposite b s t m e l : t = xorb b s -> opposite b (binary_round_aux prec emax s m e l) (binary_round_aux prec emax t m e l).
Proof.
  intros ->. unfold binary_round_aux. destruct (shr_fexp prec emax m e l) as [r1 e1]. destruct (shr_fexp _ _ _ e1 _) as [r2 e2].
  destruct (shr_m r2); [exact I| |exact I]. destruct (e2 <=? emax - prec); [repeat split|reflexivity].
Qed.
Lemma round_opposite b s t m e : t = xorb b s -> opposite b (binary_round prec emax s m e) (binary_round prec emax t m e).
Proof. intros H. unfold binary_round. destruct (shl_align _ _ _). apply aux_opposite, H. Qed.
Lemma normalize_opposite b z m e : opposite b (binary_normalize prec emax m e z) (binary_normalize prec emax (cond_Zopp b m) e z).
Proof. destruct b, m; cbn [cond_Zopp Z.opp binary_normalize]; try exact I; apply round_opposite; reflexivity. Qed.
Lemma cond_xor b s m : cond_Zopp (xorb b s) m = cond_Zopp b (cond_Zopp s m).
Proof. destruct b, s; cbn; lia. Qed.
Lemma cond_plus b x y : cond_Zopp b x + cond_Zopp b y = cond_Zopp b (x + y).
Proof. destruct b; cbn; lia. Qed.
Lemma cond_minus b x y : cond_Zopp b x - cond_Zopp b y = cond_Zopp b (x - y).
Proof. destruct b; cbn; lia. Qed.
Ltac go := repeat match goal with |- context [if ?x then _ else _] => destruct x end; cbn [opposite]; repeat split; auto.

Lemma add_opposite b x x' y y' : opposite b x x' -> opposite b y y' -> opposite b (SFadd prec emax x y) (SFadd prec emax x' y').
Proof.
  destruct x as [s|s| |s m e], x' as [s'|s'| |s' m' e']; cbn [opposite]; try contradiction; intros H;
  destruct y as [t|t| |t n f], y' as [t'|t'| |t' n' f']; cbn [opposite]; try contradiction; intros H'; try exact I; try exact H; try exact H'; cbn [SFadd].
  - destruct (Bool.eqb s t), (Bool.eqb s' t'); exact I.
  - subst. destruct b, s, t; cbn; auto.
  - destruct H as (-> & -> & ->), H' as (-> & -> & ->). rewrite !cond_xor, cond_plus. apply normalize_opposite.
Qed.
Lemma sub_opposite b x x' y y' : opposite b x x' -> opposite b y y' -> opposite b (SFsub prec emax x y) (SFsub prec emax x' y').
Proof.
  destruct x as [s|s| |s m e], x' as [s'|s'| |s' m' e']; cbn [opposite]; try contradiction; intros H;
  destruct y as [t|t| |t n f], y' as [t'|t'| |t' n' f']; cbn [opposite]; try contradiction; intros H'; try exact I; try exact H; cbn [SFsub opposite].
  - destruct (Bool.eqb s (negb t)), (Bool.eqb s' (negb t')); exact I.
  - subst. destruct b, t; reflexivity.
  - destruct H' as (-> & H'). split; [destruct b, t; reflexivity|exact H'].
  - subst. destruct b, s, t; cbn; auto.
  - subst. destruct b, t; reflexivity.
  - destruct H as (-> & -> & ->), H' as (-> & -> & ->). rewrite !cond_xor, cond_minus. apply normalize_opposite.
Qed.
Lemma opp_opposite b x x' : opposite b x x' -> opposite b (SFopp x) (SFopp x').
Proof.
  destruct x as [s|s| |s m e], x' as [s'|s'| |s' m' e']; cbn [opposite SFopp]; try contradiction; auto.
  - intros ->. destruct b, s; reflexivity.
  - intros (-> & H). split; [destruct b, s; reflexivity|exact H].
Qed.
Lemma mul_opposite b c x x' y : opposite b x x' -> c = y -> opposite b (SFmul prec emax x y) (SFmul prec emax x' c).
Proof.
  intros H ->. destruct x as [s|s| |s m e], x' as [s'|s'| |s' m' e']; cbn [opposite] in H; try contradiction; destruct y as [t|t| |t n f]; cbn [SFmul opposite]; try exact I.
  - subst. destruct b, s, t; reflexivity.
  - subst. destruct b, s, t; reflexivity.
  - destruct H as (-> & _). destruct b, s, t; reflexivity.
  - destruct H as (-> & -> & ->). apply aux_opposite. destruct b, s, t; reflexivity.
Qed.
Lemma mul_comm_sf x y : SFmul prec emax x y = SFmul prec emax y x.
Proof.
  destruct x as [s|s| |s m e], y as [t|t| |t n f]; cbn [SFmul]; try reflexivity; rewrite (xorb_comm s t); try reflexivity.
  rewrite Pos.mul_comm, Z.add_comm. reflexivity.
Qed.
Lemma signs_compatible b co si : compatible (N := Binary prec emax co si) (N' := Binary prec emax co si) (opposite b) eq eq.
Proof.
  split; intros; subst; try reflexivity; try exact I.
  - apply opp_opposite; assumption.
  - apply add_opposite; assumption.
  - apply sub_opposite; assumption.
  - apply mul_opposite; [assumption|reflexivity].
  - cbn [mul Binary]. rewrite (mul_comm_sf a' b0), (mul_comm_sf a' b'). apply mul_opposite; [assumption|reflexivity].
Qed.
End Ops.

Section Planned.
Variables (prec emax : Z) (co si : spec_float -> spec_float).
Local Instance NS : Num spec_float spec_float := Binary prec emax co si.
Variables (b : bool) (pf : nat -> fft spec_float).
Let K := signs_compatible prec emax b co si.

Lemma signs_call (cs : list (pcall spec_float)) c f sl : no_fft c \/ (forall n, odd_fft b (pf n)) -> planned_method (N := NS) c (after (N := NS) pf cs) = Some (f, sl) ->
  (forall x x' s s', opposites b x x' -> opposites b s s' ->
    observed_alike (fun p q => opposites b (fst p) (fst q) /\ opposites b (snd p) (snd q)) (call (N := NS) f x s) (call (N := NS) f x' s')) /\
  (forall x x', opposites b x x' -> observed_alike (opposites b) (process (N := NS) f sl x) (process (N := NS) f sl x')).
Proof.
  intros H E. pose proof (planned_alike (N := NS) (N' := NS) (opposite b) eq eq K pf pf c c cs cs H (call_self c)) as R. rewrite E in R. destruct R as [_ R].
  split; [intros x x' s s'; exact (call_vectors (N := NS) (N' := NS) _ _ _ K f f x x' s s' R)|intros x x'; exact (process_vectors (N := NS) (N' := NS) _ _ _ K f f sl x x' R)].
Qed.
Lemma opposite_true x : opposite true x x -> zero_or_nan x.
Proof. destruct x as [s|s| |s m e]; cbn; [left; eexists; reflexivity|destruct s; discriminate|right; reflexivity|destruct s; intros (H & _); discriminate]. Qed.
Lemma opposites_true l : opposites true l l -> Forall zero_or_nan l.
Proof. induction l as [|x l IH]; intros H; inversion H; subst; constructor; [apply opposite_true; assumption|apply IH; assumption]. Qed.
Lemma zeros_opposites l l' : length l = length l' -> Forall is_zero l -> Forall is_zero l' -> opposites b l l'.
Proof.
  intros L H. revert l' L. induction H as [|x l [s ->] H IH]; intros [|y l'] L H'; try discriminate; constructor; inversion H' as [|? ? [t ->] H2]; subst; [exact I|apply IH; [injection L; auto|exact H2]].
Qed.
Lemma repeat_zeros n : Forall is_zero (repeat (zero (Num := NS)) n).
Proof. apply Forall_forall. intros x H. apply repeat_spec in H. subst. exists false. reflexivity. Qed.
Lemma signs_clean (cs : list (pcall spec_float)) c : fft_fits pf -> fft_all_clean pf -> legal c -> clean c -> no_fft c \/ (forall n, odd_fft b (pf n)) ->
  exists f sl, planned_method (N := NS) c (after (N := NS) pf cs) = Some (f, sl) /\
  forall x x' s s', length x = size c -> opposites b x x' -> (sl <= length s)%nat -> (sl <= length s')%nat ->
  exists y y' t t', call (N := NS) f x s = Returned (y, t) /\ call (N := NS) f x' s' = Returned (y', t') /\ opposites b y y'.
Proof.
  intros Hf Hc Hl Cl H. destruct (planned_same (N := NS) pf Hf Hc c cs Hl Cl) as (f & sl & E & P). exists f, sl. split; [exact E|].
  intros x x' s s' Lx O Ls Ls'. assert (Lx' : length x' = size c) by (rewrite <- Lx; symmetry; exact (Forall2_len _ _ _ O)).
  set (z := repeat (zero (Num := NS)) sl). assert (Lz : (sl <= length z)%nat) by (unfold z; rewrite repeat_length; lia).
  destruct (P x s z Lx Ls Lz) as (y & t & t0 & E1 & E3), (P x' s' z Lx' Ls' Lz) as (y' & t' & t0' & E2 & E4). exists y, y', t, t'. split; [exact E1|]. split; [exact E2|].
  destruct (signs_call cs c f sl H E) as [Q _]. specialize (Q x x' z z O (zeros_opposites _ _ eq_refl (repeat_zeros _) (repeat_zeros _))).
  rewrite E3, E4 in Q. exact (proj1 Q).
Qed.
Lemma signs_mdct cs n w a : fft_fits pf -> no_fft (CMdct n w) \/ (forall n, odd_fft b (pf n)) -> snd (plan_mdct (N := NS) n w (after (N := NS) pf cs)) = Ok a ->
  forall h, h = t_mdct (arc_val a) \/ h = t_imdct (arc_val a) ->
  forall x x' y y' z z' s s', opposites b x x' -> opposites b y y' -> opposites b z z' -> opposites b s s' ->
  observed_alike (fun u v => let '(p, q, r, t) := u in let '(p', q', r', t') := v in opposites b p p' /\ opposites b q q' /\ opposites b r r' /\ opposites b t t')
    (call4 (N := NS) h x y z s) (call4 (N := NS) h x' y' z' s').
Proof.
  intros Hf H E h Hh x x' y y' z z' s s'.
  pose proof (planned_mdct_alike (N := NS) (N' := NS) _ _ _ K pf pf Hf Hf n w w cs cs H (proj2 (call_self (CMdct n w))) (calls_self cs)) as R. rewrite E in R. destruct R as (_ & R1 & R2).
  assert (R : meth4_alike (opposite b) h h) by (destruct Hh as [->| ->]; assumption).
  exact (call4_vectors (N := NS) (N' := NS) _ _ _ K h h x x' y y' z z' s s' R).
Qed.
End Planned.

Section Silence.
Variables (prec emax : Z) (co si : spec_float -> spec_float).
Local Instance NS0 : Num spec_float spec_float := Binary prec emax co si.
Variables (pf : nat -> fft spec_float).
(** Zeros are opposite to themselves, so the results are. *)
Lemma silent_call (cs : list (pcall spec_float)) c f sl : no_fft c \/ (forall n, odd_fft true (pf n)) -> planned_method (N := NS0) c (after (N := NS0) pf cs) = Some (f, sl) ->
  forall x s y t, Forall is_zero x -> Forall is_zero s -> call (N := NS0) f x s = Returned (y, t) -> Forall zero_or_nan y /\ Forall zero_or_nan t.
Proof.
  intros H E x s y t Hx Hs C. destruct (signs_call prec emax co si true pf cs c f sl H E) as [Q _].
  specialize (Q x x s s (zeros_opposites true _ _ eq_refl Hx Hx) (zeros_opposites true _ _ eq_refl Hs Hs)). unfold NS, NS0 in * . rewrite C in Q. destruct Q as [Q1 Q2].
  split; apply opposites_true; assumption.
Qed.
Lemma silent_clean (cs : list (pcall spec_float)) c : fft_fits pf -> fft_all_clean pf -> legal c -> clean c -> no_fft c \/ (forall n, odd_fft true (pf n)) ->
  exists f sl, planned_method (N := NS0) c (after (N := NS0) pf cs) = Some (f, sl) /\
  forall x s, length x = size c -> Forall is_zero x -> (sl <= length s)%nat -> exists y t, call (N := NS0) f x s = Returned (y, t) /\ Forall zero_or_nan y.
Proof.
  intros Hf Hc Hl Cl H. destruct (signs_clean prec emax co si true pf cs c Hf Hc Hl Cl H) as (f & sl & E & P). exists f, sl. split; [exact E|].
  intros x s Lx Hx Ls. destruct (P x x s s Lx (zeros_opposites true _ _ eq_refl Hx Hx) Ls Ls) as (y & y' & t & t' & E1 & E2 & O). exists y, t. split; [exact E1|].
  unfold NS, NS0 in * . rewrite E1 in E2. injection E2 as <- _. apply opposites_true, O.
Qed.
Lemma silent_mdct cs n w a : fft_fits pf -> no_fft (CMdct n w) \/ (forall n, odd_fft true (pf n)) -> snd (plan_mdct (N := NS0) n w (after (N := NS0) pf cs)) = Ok a ->
  forall h, h = t_mdct (arc_val a) \/ h = t_imdct (arc_val a) ->
  forall x y z s p q r t, Forall is_zero x -> Forall is_zero y -> Forall is_zero z -> Forall is_zero s -> call4 (N := NS0) h x y z s = Returned (p, q, r, t) ->
  Forall zero_or_nan p /\ Forall zero_or_nan q /\ Forall zero_or_nan r /\ Forall zero_or_nan t.
Proof.
  intros Hf H E h Hh x y z s p q r t Hx Hy Hz Hs C. pose proof (fun l H => zeros_opposites true l l eq_refl H H) as Z.
  pose proof (signs_mdct prec emax co si true pf cs n w a Hf H E h Hh x x y y z z s s (Z x Hx) (Z y Hy) (Z z Hz) (Z s Hs)) as Q. unfold NS, NS0 in * . rewrite C in Q.
  destruct Q as (Q1 & Q2 & Q3 & Q4). repeat split; apply opposites_true; assumption.
Qed.
End Silence.
