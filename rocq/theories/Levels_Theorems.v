(** Depth and overflow of the planned transforms of power-of-two length. *)
From Coq Require Import Reals List Arith Lia Lra Bool ZArith.
From Verif Require Import Prog Num Model_Common Model_Naive Model_Plan Model_Api Spec Spec_Api Spec_Fft Spec_Plan Spec_Methods Spec_Round
  Spec_Param Spec_Levels Wp Contracts Api Planner Canon Plan_Theorems Param_Theorems Round_Ops Round_Theorems Levels Levels_Plan Levels_Lower.
Import ListNotations.
Open Scope nat_scope.

Lemma room_for k : 4 <= 2 ^ (k + 2).
Proof. rewrite Nat.pow_add_r. pose proof (pow_pos k). cbn [Nat.pow]. lia. Qed.
Lemma room k : 2 ^ (k - 1) <= 2 ^ (k + 2).
Proof. apply Nat.pow_le_mono_r; lia. Qed.
(** ** Time *)
Lemma clock_leveled a m t k : leveled (N := Clock a m) (2 ^ (k + 2)) (fun i j x => x <= t + a * i + m * j) (fun x => x = 0).
Proof. constructor; try apply room_for; cbn; intros; subst; try reflexivity; try nia. Qed.
Lemma lower_chosen a m t k (c : pcall nat) g : power_call k c -> chosen (lo2 a m t) (los2 a m t) (lo3 a m t) (los3 a m t) (lo4 a m t) (lo4 a m t) c k g ->
  exists q, q < 2 ^ k /\ forall x, length x = 2 ^ k -> Forall (fun v => t <= v) x -> t + a * adds_deep c k + m * muls_along c k <= g x q.
Proof.
  pose proof (pow_pos k) as Pk.
  assert (Z : forall x, length x = 2 ^ k -> Forall (fun v => t <= v) x -> forall q, q < 2 ^ k -> lo a m t 0 0 (nth q x 0)).
  { intros x Lx Hx q Hq. unfold lo. rewrite Forall_forall in Hx. rewrite !Nat.mul_0_r, !Nat.add_0_r. apply Hx, nth_In. lia. }
  assert (R : forall A M q, q < 2 ^ k -> reach a m t (2 ^ k) A M g q -> exists q, q < 2 ^ k /\ forall x, length x = 2 ^ k -> Forall (fun v => t <= v) x -> t + a * A + m * M <= g x q).
  { intros A M q Hq H. exists q. split; [exact Hq|]. intros x Lx Hx. specialize (H x 0 0 Lx (Z x Lx Hx)). unfold lo in H. rewrite !Nat.add_0_r in H. exact H. }
  assert (R3 : forall z A M q, q < 2 ^ k -> reach3 a m t z (2 ^ k) A M g q -> exists q, q < 2 ^ k /\ forall x, length x = 2 ^ k -> Forall (fun v => t <= v) x -> t + a * A + m * M <= g x q).
  { intros z A M q Hq H. apply (R A M q Hq). intros x i j Lx Hx. apply H; auto. }
  intros [[_ H]|[_ H]]; cbn [In] in H; repeat (destruct H as [<-|H]; [cbn [chosen adds_deep muls_along]; intros B|]); try contradiction.
  - destruct B as (q & Hq & B). apply (R _ _ q); [lia|exact B].
  - apply (R3 _ _ _ 0 Pk B).
  - destruct B as (q & Hq & B). apply (R _ _ q); [lia|exact B].
  - apply (R3 _ _ _ 0 Pk B).
  - apply (R _ _ 0 Pk B).
  - apply (R _ _ 0 Pk B).
Qed.
Lemma in_map_seq {A} (g : nat -> A) n y : In y (map g (seq 0 n)) -> exists q, q < n /\ y = g q.
Proof. intros H. apply in_map_iff in H. destruct H as (q & <- & Hq). apply in_seq in Hq. exists q. split; [lia|reflexivity]. Qed.
Lemma planned_depth a m (pf : nat -> fft nat) cs k c : power_call k c ->
  exists f sl, planned_method (N := Clock a m) c (after (N := Clock a m) pf cs) = Some (f, sl) /\
  forall t x s, length x = 2 ^ k -> sl <= length s ->
  exists y s', call (N := Clock a m) f x s = Returned (y, s') /\ length y = 2 ^ k /\
    (Forall (fun v => v <= t) x -> Forall (fun v => v <= t + a * adds_deep c k + m * muls_deep c k) y) /\
    (Forall (fun v => t <= v) x -> Exists (fun v => t + a * adds_deep c k + m * muls_along c k <= v) y).
Proof.
  intros Hc. pose proof (fun t => planned_has (N := Clock a m) _ _ _ _ _ _ (closed_both _ _ _ _ _ _ _ _ _ _ _ _ (depth_closed _ _ _ (clock_leveled a m t k)) (lower_closed a m t)) pf cs k c Hc) as P.
  destruct (P 0) as (f & sl & E & _). exists f, sl. split; [exact E|]. intros t x s Lx Ls.
  destruct (P t) as (f' & sl' & E' & g & C & G). rewrite E in E'. injection E' as <- <-.
  assert (U : deep (N := Clock a m) (fun i j x => x <= t + a * i + m * j) c k g).
  { apply (chosen_deep (N := Clock a m) _ _ _ (clock_leveled a m t k) k c g (room k) Hc). destruct c; exact (proj1 G). }
  assert (W : exists q, q < 2 ^ k /\ forall x, length x = 2 ^ k -> Forall (fun v => t <= v) x -> t + a * adds_deep c k + m * muls_along c k <= g x q).
  { apply (lower_chosen a m t k c g Hc). destruct c; exact (proj2 G). }
  destruct (computes_implements (N := Clock a m) f _ sl g C x s Lx Ls) as (s' & A & _).
  exists (map (g x) (seq 0 (length x))), s'. split; [exact A|]. split; [rewrite map_length, seq_length; exact Lx|]. split.
  - intros Hx. apply Forall_forall. intros y Hy. apply in_map_seq in Hy. destruct Hy as (q & Hq & ->). rewrite Lx in Hq.
    specialize (U x 0 0 Lx). cbv beta in U. rewrite !Nat.add_0_r in U. apply U; [|exact Hq]. intros p Hp. rewrite Forall_forall in Hx.
    rewrite !Nat.mul_0_r, !Nat.add_0_r. apply Hx, nth_In. lia.
  - intros Hx. destruct W as (q & Hq & W). apply Exists_exists. exists (g x q). split; [|apply W; assumption].
    apply in_map, in_seq. lia.
Qed.

(** ** Overflow *)
Open Scope R_scope.
Section Overflow.
Variables (u v : R) (N : Num R R) (top B : R).
Hypothesis (HN : rounding u v N) (HB : 0 <= B) (Ht : 2 * ((1 + u) * (1 + v) ^ 2) <= top).
Notation NO := (Overflow top N).
Definition size_at (i j : nat) : R := B * add_gain u ^ i * mul_gain u v ^ j.
Definition lev_o (i j : nat) (o : option R) : Prop := size_at i j <= top -> exists x, o = Some x /\ Rabs x <= size_at i j.
Definition ent_o (o : option R) : Prop := exists x, o = Some x /\ Rabs x <= (1 + u) * (1 + v) ^ 2.
Let Hu : 0 <= u := r_u _ _ _ HN.
Let Hv : 0 <= v := proj1 (r_v _ _ _ HN).
Lemma rel_mag w a b : 0 <= w -> rel w a b -> Rabs a <= (1 + w) * Rabs b.
Proof. intros Hw H. unfold rel in H. replace a with (a - b + b) by ring. eapply Rle_trans; [apply Rabs_triang|]. lra. Qed.
Lemma clip_some x : Rabs x <= top -> clip top x = Some x.
Proof. intros H. unfold clip. destruct (Rle_dec _ _); [reflexivity|contradiction]. Qed.
Lemma gain1 : 1 <= add_gain u. Proof. unfold add_gain. lra. Qed.
Lemma gain2 : (1 + u) <= mul_gain u v.
Proof.
  unfold mul_gain. assert (1 <= (1 + u)) by lra. assert (1 <= (1 + v) ^ 2) by (apply pow_R1_Rle; lra).
  assert (1 + u <= (1 + u) ^ 2) by (cbn [pow]; nra). nra.
Qed.
Lemma size_pos i j : 0 <= size_at i j.
Proof. pose proof gain1. pose proof gain2. unfold size_at. repeat apply Rmult_le_pos; try apply pow_le; lra. Qed.
Lemma size_mono i j i' j' : (i <= i')%nat -> (j <= j')%nat -> size_at i j <= size_at i' j'.
Proof.
  intros Hi Hj. pose proof gain1. pose proof gain2. unfold size_at.
  apply Rmult_le_compat; [apply Rmult_le_pos; [exact HB|apply pow_le; lra]|apply pow_le; lra| |apply Rle_pow; [lra|exact Hj]].
  apply Rmult_le_compat_l; [exact HB|]. apply Rle_pow; [lra|exact Hi].
Qed.
Lemma size_S i j : size_at (S i) j = 2 * (1 + u) * size_at i j.
Proof. unfold size_at. cbn [pow]. unfold add_gain at 1. ring. Qed.
Lemma size_Sj i j : size_at i (S j) = (1 + u) * ((1 + u) * (1 + v) ^ 2 * size_at i j).
Proof. unfold size_at. cbn [pow]. unfold mul_gain at 1. ring. Qed.
Lemma f_one_mul y : rel v (@f_mul _ _ N (@f_one _ _ N) y) y.
Proof. pose proof (r_f_mul _ _ _ HN (@f_one _ _ N) y) as H. rewrite (r_f_one _ _ _ HN), Rmult_1_l in H. rewrite (r_f_one _ _ _ HN). exact H. Qed.
Lemma table_ent y z : Rabs z <= 1 -> Rabs (y - z) <= v -> ent_o (clip top (@from_f64 _ _ N (@f_mul _ _ N (@f_one _ _ N) y))).
Proof.
  intros Hz Hy. set (e := @from_f64 _ _ N (@f_mul _ _ N (@f_one _ _ N) y)).
  assert (A : Rabs e <= (1 + u) * (1 + v) ^ 2).
  { eapply Rle_trans; [eapply (rel_mag u _ _ Hu), (r_from_f64 _ _ _ HN)|]. apply Rmult_le_compat_l; [lra|].
    eapply Rle_trans; [eapply (rel_mag v _ _ Hv), f_one_mul|]. replace ((1 + v) ^ 2) with ((1 + v) * (1 + v)) by ring. apply Rmult_le_compat_l; [lra|].
    replace y with (y - z + z) by ring. eapply Rle_trans; [apply Rabs_triang|]. lra. }
  exists e. split; [|exact A]. apply clip_some. pose proof (Rabs_pos e). lra.
Qed.
Lemma small_ent x : Rabs x <= 1 + u -> ent_o (clip top x).
Proof.
  intros H. assert (A : Rabs x <= (1 + u) * (1 + v) ^ 2).
  { assert (1 <= (1 + v) ^ 2) by (apply pow_R1_Rle; lra). nra. }
  exists x. split; [|exact A]. apply clip_some. pose proof (Rabs_pos x). lra.
Qed.
Lemma neg_ent o : ent_o o -> ent_o (neg (Num := NO) o).
Proof.
  assert (P2 : 1 <= (1 + v) ^ 2) by (apply pow_R1_Rle; lra). assert (Pt : 1 <= (1 + u) * (1 + v) ^ 2) by nra.
  intros (t' & -> & E). exists (- t'). cbn [neg Overflow lift1]. rewrite (r_neg _ _ _ HN), clip_some by (rewrite Rabs_Ropp; lra). split; [reflexivity|]. rewrite Rabs_Ropp. exact E.
Qed.
Lemma overflow_leveled k : leveled (N := NO) (2 ^ (k + 2)) lev_o ent_o.
Proof.
  assert (P2 : 1 <= (1 + v) ^ 2) by (apply pow_R1_Rle; lra). assert (Pt : 1 <= (1 + u) * (1 + v) ^ 2) by nra.
  constructor.
  - intros a m a' m' x Ha Hm H K. destruct H as (y & -> & Hy); [eapply Rle_trans; [apply size_mono; eassumption|exact K]|].
    exists y. split; [reflexivity|]. eapply Rle_trans; [exact Hy|]. apply size_mono; assumption.
  - intros K. exists 0. cbn [zero Overflow]. rewrite (r_zero _ _ _ HN), clip_some by (rewrite Rabs_R0; lra).
    split; [reflexivity|]. rewrite Rabs_R0. apply size_pos.
  - intros a m x H K. destruct (H K) as (y & -> & Hy). exists (- y). cbn [neg Overflow lift1]. rewrite (r_neg _ _ _ HN), clip_some by (rewrite Rabs_Ropp; lra).
    split; [reflexivity|]. rewrite Rabs_Ropp. exact Hy.
  - intros a m x y Hx Hy K. pose proof (size_mono a m (S a) m ltac:(lia) ltac:(lia)). destruct Hx as (x' & -> & Hx); [lra|]. destruct Hy as (y' & -> & Hy); [lra|].
    cbn [add Overflow lift2]. assert (A : Rabs (@add _ _ N x' y') <= size_at (S a) m).
    { eapply Rle_trans; [eapply (rel_mag u _ _ Hu), (r_add _ _ _ HN)|]. rewrite size_S. pose proof (Rabs_triang x' y'). nra. }
    eexists. split; [apply clip_some; lra|exact A].
  - intros a m x y Hx Hy K. pose proof (size_mono a m (S a) m ltac:(lia) ltac:(lia)). destruct Hx as (x' & -> & Hx); [lra|]. destruct Hy as (y' & -> & Hy); [lra|].
    cbn [sub Overflow lift2]. assert (A : Rabs (@sub _ _ N x' y') <= size_at (S a) m).
    { eapply Rle_trans; [eapply (rel_mag u _ _ Hu), (r_sub _ _ _ HN)|]. rewrite size_S. pose proof (Rabs_triang x' (- y')) as Q. rewrite Rabs_Ropp in Q. unfold Rminus. nra. }
    eexists. split; [apply clip_some; lra|exact A].
  - intros a m x t (t' & -> & E) Hx K. pose proof (size_mono a m a (S m) ltac:(lia) ltac:(lia)). destruct Hx as (x' & -> & Hx); [lra|].
    cbn [mul Overflow lift2]. assert (A : Rabs (@mul _ _ N x' t') <= size_at a (S m)).
    { eapply Rle_trans; [eapply (rel_mag u _ _ Hu), (r_mul _ _ _ HN)|]. rewrite size_Sj, Rabs_mult. apply Rmult_le_compat_l; [lra|].
      rewrite Rmult_comm. apply Rmult_le_compat; try apply Rabs_pos; assumption. }
    eexists. split; [apply clip_some; lra|exact A].
  - intros a m x Hx K. pose proof (size_mono a m (S a) (S m) ltac:(lia) ltac:(lia)). destruct Hx as (x' & -> & Hx); [lra|].
    unfold two. cbn [from_f64 f_two Overflow mul]. rewrite (r_f_two _ _ _ HN), (r_from_two _ _ _ HN), clip_some by (rewrite Rabs_right; lra). cbn [lift2].
    assert (A : Rabs (@mul _ _ N x' 2) <= size_at (S a) (S m)).
    { eapply Rle_trans; [eapply (rel_mag u _ _ Hu), (r_mul _ _ _ HN)|]. rewrite size_Sj, size_S, Rabs_mult, (Rabs_right 2) by lra. apply Rmult_le_compat_l; [lra|].
      pose proof (size_pos a m). pose proof (Rabs_pos x'). assert (2 * size_at a m <= 2 * (1 + u) * size_at a m) by nra.
      assert (0 <= 2 * (1 + u) * size_at a m) by nra. nra. }
    eexists. split; [apply clip_some; lra|exact A].
  - unfold half. cbn [from_f64 f_half Overflow]. rewrite (r_f_half _ _ _ HN), (r_from_half _ _ _ HN). apply small_ent. rewrite Rabs_right; lra.
  - cbn [frac_1_sqrt_2 Overflow]. apply small_ent. eapply Rle_trans; [eapply (rel_mag u _ _ Hu), (r_frac_1_sqrt_2 _ _ _ HN)|].
    assert (1 <= sqrt 2) by (rewrite <- sqrt_1 at 1; apply sqrt_le_1; lra). assert (0 < / sqrt 2 <= 1) by (split; [apply Rinv_0_lt_compat; lra|rewrite <- Rinv_1; apply Rinv_le_contravar; lra]).
    rewrite Rabs_right by lra. nra.
  - apply room_for.
  - intros q i _ _. unfold c_conj, single_twiddle, from_polar. cbv zeta. cbn [fst snd]. split.
    + cbn [from_f64 f_mul f_one f_cos Overflow]. apply (table_ent _ (cos (f_mul (f_div (f_mul f_pi (f_neg f_two)) (f_of_nat (16 * q))) (f_of_nat (2 * i + 1)))));
        [apply Rabs_le, COS_bound|apply (r_f_cos _ _ _ HN)].
    + apply neg_ent. cbn [from_f64 f_mul f_one f_sin Overflow]. apply (table_ent _ (sin (f_mul (f_div (f_mul f_pi (f_neg f_two)) (f_of_nat (16 * q))) (f_of_nat (2 * i + 1)))));
        [apply Rabs_le, SIN_bound|apply (r_f_sin _ _ _ HN)].
Qed.
End Overflow.

Definition same_or_over (x : R) (o : option R) : Prop := o = Some x \/ o = None.
Lemma clip_same top x : same_or_over x (clip top x).
Proof. unfold clip, same_or_over. destruct (Rle_dec _ _); auto. Qed.
Lemma lift2_same top f a a' b b' : same_or_over a a' -> same_or_over b b' -> same_or_over (f a b) (lift2 top f a' b').
Proof. intros [->| ->] [->| ->]; cbn [lift2]; [apply clip_same|right; reflexivity..]. Qed.
Lemma lift1_same top f a a' : same_or_over a a' -> same_or_over (f a) (lift1 top f a').
Proof. intros [->| ->]; cbn [lift1]; [apply clip_same|right; reflexivity]. Qed.
Lemma overflow_compatible top N : compatible (N := N) (N' := Overflow top N) same_or_over same_or_over eq.
Proof.
  constructor; cbn [Overflow f_of_nat f_pi f_half f_one f_two f_four f_neg f_add f_sub f_mul f_div f_cos f_sin f_sqrt zero one add sub mul neg from_f64 sqrt_2 frac_1_sqrt_2];
    intros; subst; try reflexivity; auto using clip_same, lift1_same, lift2_same.
Qed.

(** The same request, for samples of another type. *)
Definition power_call_alike {T T'} k (C : T -> T' -> Prop) (c : pcall T) (c' : pcall T') : power_call k c -> call_alike C c c' -> power_call k c'.
Proof.
  intros [[Hk H]|[Hk H]] A; [left|right]; (split; [exact Hk|]); cbn [In] in * ;
    repeat (destruct H as [<-|H]; [destruct c'; cbn [call_alike] in A; try contradiction; subst; tauto|]); contradiction.
Qed.
Lemma Forall2_some l : Forall2 same_or_over l (map Some l).
Proof. induction l; constructor; [left; reflexivity|assumption]. Qed.
Lemma any_closed {T F} {N : Num T F} : closed (N := N) (fun _ _ => True) (fun _ _ => True) (fun _ _ => True) (fun _ _ => True) (fun _ _ => True) (fun _ _ => True).
Proof. constructor; intros; auto. Qed.
Lemma planned_no_overflow u v (N : Num R R) top B : rounding u v N -> 0 <= B -> 2 * ((1 + u) * (1 + v) ^ 2) <= top ->
  forall (pf : nat -> fft R) (pf' : nat -> fft (option R)) cs cs' k c c', power_call k c -> call_alike same_or_over c c' ->
  B * add_gain u ^ adds_deep c k * mul_gain u v ^ muls_deep c k <= top ->
  exists f f' sl, planned_method (N := N) c (after (N := N) pf cs) = Some (f, sl) /\
  planned_method (N := Overflow top N) c' (after (N := Overflow top N) pf' cs') = Some (f', sl) /\
  forall x s s', length x = (2 ^ k)%nat -> (sl <= length s)%nat -> (sl <= length s')%nat -> Forall (fun w => Rabs w <= B) x ->
  exists y t t', call (N := N) f x s = Returned (y, t) /\ call (N := Overflow top N) f' (map Some x) s' = Returned (map Some y, t') /\
    Forall (fun w => Rabs w <= B * add_gain u ^ adds_deep c k * mul_gain u v ^ muls_deep c k) y.
Proof.
  intros HN HB Ht pf pf' cs cs' k c c' Hc Ha Hm.
  pose proof (planned_alike same_or_over same_or_over eq (overflow_compatible top N) pf pf' c c' cs cs' (or_introl (power_no_fft k c Hc)) Ha) as R.
  pose proof (power_call_alike k _ c c' Hc Ha) as Hc'.
  destruct (planned_has (N := Overflow top N) _ _ _ _ _ _ (depth_closed _ _ _ (overflow_leveled u v N top B HN HB Ht k)) pf' cs' k c' Hc') as (f' & sl' & E' & g' & C' & R').
  apply (chosen_deep (N := Overflow top N) _ _ _ (overflow_leveled u v N top B HN HB Ht k) k c' g' (room k) Hc') in R'. rewrite E' in R.
  destruct (planned_method c (after pf cs)) as [[f sl]|] eqn:E; [|contradiction]. destruct R as [<- R].
  exists f, f', sl. split; [reflexivity|]. split; [exact E'|]. intros x s s' Lx Ls Ls' Hx.
  assert (Ea : adds_deep c' k = adds_deep c k) by (destruct c, c'; try contradiction Ha; reflexivity).
  assert (Em : muls_deep c' k = muls_deep c k) by (destruct c, c'; try contradiction Ha; reflexivity).
  destruct (planned_has (N := N) _ _ _ _ _ _ any_closed pf cs k c Hc) as (f2 & sl2 & E2 & (g & C & _)). rewrite E in E2. injection E2 as <- <-.
  destruct (computes_implements (N := N) f _ _ g C x s Lx Ls) as (t & A & _).
  destruct (computes_implements (N := Overflow top N) f' _ _ g' C' (map Some x) s' ltac:(rewrite map_length; exact Lx) Ls') as (t' & A' & _).
  destruct (computes_implements (N := N) f _ _ g C x (repeat 0 sl) Lx ltac:(rewrite repeat_length; lia)) as (t2 & A2 & _).
  destruct (computes_implements (N := Overflow top N) f' _ _ g' C' (map Some x) (map Some (repeat 0 sl)) ltac:(rewrite map_length; exact Lx) ltac:(rewrite map_length, repeat_length; lia)) as (t2' & A2' & _).
  pose proof (call_vectors _ _ _ (overflow_compatible top N) f f' x (map Some x) (repeat 0 sl) (map Some (repeat 0 sl)) R (Forall2_some _) (Forall2_some _)) as Q.
  rewrite A2, A2' in Q. cbn [observed_alike fst snd] in Q. destruct Q as [Q _].
  exists (map (g x) (seq 0 (length x))), t, t'. split; [exact A|].
  assert (H : Forall (lev_o u v top B (adds_deep c k) (muls_deep c k)) (map (g' (map Some x)) (seq 0 (length (map Some x))))).
  { apply Forall_forall. intros y Hy. apply in_map_iff in Hy. destruct Hy as (q & <- & Hq). apply in_seq in Hq. rewrite map_length in Hq.
    rewrite <- Ea, <- Em, <- (Nat.add_0_r (adds_deep c' k)), <- (Nat.add_0_r (muls_deep c' k)). apply R'; [rewrite map_length; exact Lx| |lia].
    intros q' Hq' _. exists (nth q' x 0). rewrite (nth_indep _ _ (Some 0)) by (rewrite map_length; lia). rewrite map_nth. split; [reflexivity|].
    unfold size_at. cbn [pow]. rewrite !Rmult_1_r. rewrite Forall_forall in Hx. apply Hx, nth_In. lia. }
  rewrite A'. set (y' := map (g' _) _) in * . set (y := map (g x) _) in * . clearbody y y'.
  assert (K : y' = map Some y /\ Forall (fun w => Rabs w <= size_at u v B (adds_deep c k) (muls_deep c k)) y).
  { clear - Q H Hm. induction Q as [|a b l l' D Q IH]; [split; [reflexivity|constructor]|]. inversion H as [|? ? Hb Hl]; subst. destruct (IH Hl) as [-> Z].
    destruct (Hb Hm) as (z & Ez & Bz). destruct D as [->|D]; [|rewrite D in Ez; discriminate]. injection Ez as <-. split; [reflexivity|constructor; assumption]. }
  destruct K as [-> K]. split; [reflexivity|exact K].
Qed.
Lemma planned_no_overflow_closed u v (N : Num R R) top B : rounding u v N -> v <= u -> 0 <= B -> 4 <= top ->
  forall (pf : nat -> fft R) (pf' : nat -> fft (option R)) cs cs' k c c', power_call k c -> call_alike same_or_over c c' ->
  INR (adds_deep c k + 4 * muls_deep c k) * u <= / 2 -> B * 2 ^ (adds_deep c k + 1) <= top ->
  exists f f' sl, planned_method (N := N) c (after (N := N) pf cs) = Some (f, sl) /\
  planned_method (N := Overflow top N) c' (after (N := Overflow top N) pf' cs') = Some (f', sl) /\
  forall x s s', length x = (2 ^ k)%nat -> (sl <= length s)%nat -> (sl <= length s')%nat -> Forall (fun w => Rabs w <= B) x ->
  exists y t t', call (N := N) f x s = Returned (y, t) /\ call (N := Overflow top N) f' (map Some x) s' = Returned (map Some y, t') /\
    Forall (fun w => Rabs w <= B * 2 ^ (adds_deep c k + 1)) y.
Proof.
  intros HN Hvu HB Ht pf pf' cs cs' k c c' Hc Ha Hs Hm. pose proof (r_u _ _ _ HN) as Hu. pose proof (proj1 (r_v _ _ _ HN)) as Hv.
  set (A := adds_deep c k) in * . set (M := muls_deep c k) in * . set (Q := (A + 4 * M)%nat) in * .
  assert (HM : (1 <= M)%nat).
  { unfold M. destruct Hc as [[Hk H]|[Hk H]]; cbn [In] in H; repeat (destruct H as [<-|H]; [cbn [muls_deep]; try lia|]); try contradiction;
    apply Nat.div_le_lower_bound; lia. }
  assert (G : (1 + u) ^ Q <= 2).
  { eapply Rle_trans; [apply bernoulli_inv; lra|]. replace 2 with (/ / 2) by lra. apply Rinv_le_contravar; lra. }
  assert (G4 : (1 + u) ^ 4 <= 2) by (apply Rle_trans with (r2 := (1 + u) ^ Q); [apply Rle_pow; [lra|unfold Q; lia]|exact G]).
  assert (V2 : (1 + v) ^ 2 <= (1 + u) ^ 2) by (apply pow_incr; lra).
  assert (E : B * add_gain u ^ A * mul_gain u v ^ M <= B * 2 ^ (A + 1)).
  { rewrite Rmult_assoc. apply Rmult_le_compat_l; [exact HB|]. rewrite pow_add, pow_1. unfold add_gain. rewrite Rpow_mult_distr, Rmult_assoc.
    apply Rmult_le_compat_l; [apply pow_le; lra|]. eapply Rle_trans; [|exact G]. unfold Q. rewrite pow_add. apply Rmult_le_compat_l; [apply pow_le; lra|].
    rewrite pow_mult. apply pow_incr. unfold mul_gain. split; [apply Rmult_le_pos; apply pow_le; lra|].
    replace ((1 + u) ^ 4) with ((1 + u) ^ 2 * (1 + u) ^ 2) by ring. apply Rmult_le_compat_l; [apply pow_le; lra|exact V2]. }
  destruct (planned_no_overflow u v N top B HN HB) with (pf := pf) (pf' := pf') (cs := cs) (cs' := cs') (k := k) (c := c) (c' := c') as (f & f' & sl & P & P' & H); try assumption.
  { assert ((1 + u) * (1 + v) ^ 2 <= (1 + u) ^ 4); [|lra]. replace ((1 + u) ^ 4) with ((1 + u) ^ 2 * (1 + u) ^ 2) by ring.
    apply Rmult_le_compat; [lra|apply pow_le; lra| |exact V2]. cbn [pow]. nra. }
  { unfold A, M in E, Hm. lra. }
  exists f, f', sl. split; [exact P|]. split; [exact P'|]. intros x s s' Lx Ls Ls' Hx. destruct (H x s s' Lx Ls Ls' Hx) as (y & t & t' & X & Y & Z).
  exists y, t, t'. split; [exact X|]. split; [exact Y|]. eapply Forall_impl; [|exact Z]. cbv beta. intros w Hw. exact (Rle_trans _ _ _ Hw E).
Qed.
