(** Arithmetics related to the real numbers compute results related to the reference transforms; interval arithmetic is one. *)
From Coq Require Import Reals List Lia Lra Psatz.
From Verif Require Import Prog Num Model_Common Model_Mdct Model_Plan Model_Api Spec Spec_Api Spec_Fft Spec_Plan Spec_Methods Spec_Param Spec_Interval
  Methods Mdct_Theorems Param Param_Plan Param_Theorems Round_Ops.
Import ListNotations.
Open Scope R_scope.

Section Enclose.
Context {T' F' : Type} {N' : Num T' F'}.
Variables (D C : R -> T' -> Prop) (V : R -> F' -> Prop).
Hypothesis K : compatible (N := NumR) (N' := N') D C V.
Variable pf' : nat -> fft T'.
Lemma planned_related c c' cs' : legal c -> call_alike C c c' -> no_fft c \/ (forall n, fft_alike D (reference_fft n) (pf' n)) ->
  exists g sl, planned_method c' (after pf' cs') = Some (g, sl) /\
  forall x x', length x = size c -> Forall2 D x x' -> exists y', process g sl x' = Returned y' /\ Forall2 D (reference c x) y'.
Proof.
  intros Hl Hc Hf. destruct reference_fft_fits as [Fi Ex].
  destruct (planned_all reference_fft Fi Ex c [] Hl) as (f & sl & E & [_ P] & _).
  pose proof (planned_alike D C V K reference_fft pf' c c' [] cs' Hf Hc) as R. rewrite E in R.
  destruct (planned_method c' (after pf' cs')) as [[g sl']|]; [|contradiction]. destruct R as [<- R].
  exists g, sl. split; [reflexivity|]. intros x x' Lx Hx.
  pose proof (process_vectors D C V K f g sl x x' R Hx) as O. rewrite (P x Lx) in O. cbn [observed_alike] in O.
  destruct (process g sl x') as [y'| |]; try contradiction. eauto.
Qed.
Hypothesis Hf' : fft_fits pf'.
Lemma planned_mdct_related n (w : nat -> list R) w' cs cs' : (n mod 2 = 0)%nat -> length (w (n * 2)%nat) = (n * 2)%nat -> (forall m, Forall2 C (w m) (w' m)) ->
  (forall v, ~ In (CMdct n v) cs) -> Forall2 (call_alike C) cs cs' -> no_fft (CMdct n w) \/ (forall n, fft_alike D (reference_fft n) (pf' n)) ->
  exists a, snd (plan_mdct n w' (after pf' cs')) = Ok a /\
  (forall x x' y y' o o' s s', length x = n -> length y = n -> length o = n -> (m_scratch (arc_val a) <= length s)%nat ->
    Forall2 D x x' -> Forall2 D y y' -> Forall2 D o o' -> Forall2 D s s' ->
    exists p q r t, call4 (t_mdct (arc_val a)) x' y' o' s' = Returned (p, q, r, t) /\ Forall2 D (mdct_of n (w (n * 2)%nat) (x ++ y)) r) /\
  (forall x x' y y' o o' s s', length x = n -> length y = n -> length o = n -> (m_scratch (arc_val a) <= length s)%nat ->
    Forall2 D x x' -> Forall2 D y y' -> Forall2 D o o' -> Forall2 D s s' ->
    exists p q r t, call4 (t_imdct (arc_val a)) x' y' o' s' = Returned (p, q, r, t) /\ Forall2 D (add_lists (y ++ o) (imdct_of n (w (n * 2)%nat) x)) (q ++ r)).
Proof.
  intros Hn Lw Hw Hfresh Hcs Hf. destruct reference_fft_fits as [Fi Ex].
  destruct (planned_mdct_fresh reference_fft Fi Ex cs n w Hn Lw Hfresh) as (a & E & L & P & _ & Q).
  pose proof (planned_mdct_alike D C V K reference_fft pf' Fi Hf' n w w' cs cs' Hf Hw Hcs) as R. rewrite E in R.
  destruct (snd (plan_mdct n w' (after pf' cs'))) as [a'|]; [|contradiction]. destruct R as (S & R1 & R2).
  exists a'. split; [reflexivity|]. rewrite <- S. split; intros x x' y y' o o' s s' Lx Ly Lo Ls Hx Hy Ho Hs.
  - pose proof (call4_vectors D C V K _ _ x x' y y' o o' s s' R1 Hx Hy Ho Hs) as O. destruct (P x y o s Lx Ly Lo Ls) as (s1 & A & _). rewrite A in O.
    cbn [observed_alike] in O. destruct (call4 (t_mdct (arc_val a')) x' y' o' s') as [[[[p q] r] t]| |]; try contradiction. do 4 eexists. split; [reflexivity|]. apply O.
  - pose proof (call4_vectors D C V K _ _ x x' y y' o o' s s' R2 Hx Hy Ho Hs) as O. destruct (Q x y o s Lx Ly Lo Ls) as (l & r & s1 & A & B & _). rewrite A in O.
    cbn [observed_alike] in O. destruct (call4 (t_imdct (arc_val a')) x' y' o' s') as [[[[p q] r'] t]| |]; try contradiction. do 4 eexists. split; [reflexivity|].
    rewrite <- B. apply Forall2_app; apply O.
Qed.
End Enclose.

(** Interval arithmetic. *)
Section Interval.
Variables dn up : R -> R.
Hypothesis (Hd : forall x, dn x <= x) (Hu : forall x, x <= up x).
Lemma inside_hull x a b : a <= x <= b -> inside x (hull dn up a b).
Proof. intros []. cbn. pose proof (Hd a). pose proof (Hu b). lra. Qed.
Lemma inside_point x : inside x (point dn up x). Proof. apply inside_hull. lra. Qed.
Lemma min4_le a b c d x : a <= x \/ b <= x \/ c <= x \/ d <= x -> min4 a b c d <= x.
Proof. unfold min4, Rmin. repeat destruct (Rle_dec _ _); lra. Qed.
Lemma max4_ge a b c d x : x <= a \/ x <= b \/ x <= c \/ x <= d -> x <= max4 a b c d.
Proof. unfold max4, Rmax. repeat destruct (Rle_dec _ _); lra. Qed.
(** A bilinear function on a rectangle takes its extremes at the corners. *)
Lemma corner a b x t : a <= x <= b -> (a * t <= x * t \/ b * t <= x * t) /\ (x * t <= a * t \/ x * t <= b * t).
Proof.
  intros [A B]. destruct (Rle_dec 0 t) as [P|P].
  - split; [left|right]; apply Rmult_le_compat_r; assumption.
  - split; [right|left]; apply Rmult_le_compat_neg_l with (r := t) in A, B; lra.
Qed.
Lemma corners a b c d x y : a <= x <= b -> c <= y <= d ->
  min4 (a * c) (a * d) (b * c) (b * d) <= x * y <= max4 (a * c) (a * d) (b * c) (b * d).
Proof.
  intros Hx Hy. destruct (corner a b x y Hx) as [L U]. destruct (corner c d y a Hy) as [La Ua]. destruct (corner c d y b Hy) as [Lb Ub].
  rewrite !(Rmult_comm _ a) in La, Ua. rewrite !(Rmult_comm _ b) in Lb, Ub.
  split.
  - apply min4_le. destruct L; [destruct La|destruct Lb]; lra.
  - apply max4_ge. destruct U; [destruct Ua|destruct Ub]; lra.
Qed.
Lemma inside_mul x i y j : inside x i -> inside y j -> inside (x * y) (imul dn up i j).
Proof. destruct i as [[a b]|], j as [[c d]|]; cbn [inside imul lift2]; auto. intros Hx Hy. apply inside_hull, corners; assumption. Qed.
Lemma inside_div x i y j : inside x i -> inside y j -> inside (x / y) (idiv dn up i j).
Proof.
  destruct i as [[a b]|], j as [[c d]|]; cbn [inside idiv lift2]; auto. intros Hx [Hc Hd']. destruct (Rlt_dec 0 c) as [P|P]; [|exact I].
  apply inside_hull. assert (Q : / d <= / y <= / c) by (split; apply Rinv_le_contravar; lra).
  unfold Rdiv. pose proof (corners a b (/ d) (/ c) x (/ y) Hx Q) as [L U]. split.
  - eapply Rle_trans; [|exact L]. unfold min4. rewrite (Rmin_comm (a * / d)), (Rmin_comm (b * / d)). lra.
  - eapply Rle_trans; [exact U|]. unfold max4. rewrite (Rmax_comm (a * / d)), (Rmax_comm (b * / d)). lra.
Qed.
Lemma inside_wave f x i : (forall a b, Rabs (f a - f b) <= Rabs (a - b)) -> (forall a, -1 <= f a <= 1) -> inside x i -> inside (f x) (iwave dn up f i).
Proof.
  intros L B. destruct i as [[a b]|]; cbn [inside iwave]; [|intros _; specialize (B x); lra]. intros [A Bx]. apply inside_hull.
  pose proof (L x a) as H. rewrite (Rabs_right (x - a)) in H by lra. revert H. unfold Rabs. destruct (Rcase_abs _); lra.
Qed.
Lemma sin_lipschitz a b : Rabs (sin a - sin b) <= Rabs (a - b).
Proof.
  rewrite <- !cos_shift. eapply Rle_trans; [apply cos_lip|]. replace (PI / 2 - a - (PI / 2 - b)) with (- (a - b)) by ring. rewrite Rabs_Ropp. lra.
Qed.
Lemma interval_compatible : compatible (N := NumR) (N' := Interval dn up) inside inside inside.
Proof.
  constructor; cbn [NumR Interval f_of_nat f_pi f_half f_one f_two f_four f_neg f_add f_sub f_mul f_div f_cos f_sin f_sqrt zero one add sub mul neg from_f64 sqrt_2 frac_1_sqrt_2];
    intros; try apply inside_point; try (apply inside_mul; assumption); try (cbn [inside]; lra).
  all: try (apply inside_div; assumption).
  all: try (apply inside_wave; [apply cos_lip|intros; apply COS_bound|assumption]).
  all: try (apply inside_wave; [apply sin_lipschitz|intros; apply SIN_bound|assumption]).
  all: repeat match goal with H : inside _ ?i |- _ => destruct i as [[? ?]|]; cbn [inside] in H end; cbn [ineg iadd isub lift2 isqrt]; try exact I.
  all: try (apply inside_hull; cbn [fst snd]; lra).
  all: try (cbn [inside]; lra).
  apply inside_hull. split; apply sqrt_le_1_alt; lra.
Qed.
End Interval.
