(** Rounding errors of the MDCT. *)
From Coq Require Import Reals ZArith List Arith Lia Lra Psatz Bool ZifyNat.
From Verif Require Import Prog Num Model_Common Model_Naive Model_Mdct Model_Plan Model_Api
  Spec Spec_Api Spec_Fft Spec_Plan Spec_Round Spec_Entry Spec_Mdct_Round Wp Api Contracts Trig Ref Energy Objects Planner Canon
  Sem_Naive Sem_Mdct Exact_Naive Exact_Mdct Api_Mdct Mdct_Theorems
  Round_Ops Round_Sem Round_Butterflies Round_Entry Round_Naive Round_Plan Round_Theorems Round_Entry_Plan.
Import ListNotations.
Open Scope R_scope.
Ltac Zify.zify_post_hook ::= Z.div_mod_to_equations.

(** Ways to measure vectors for which the bounds hold. *)
Record measure (M : list R -> R) : Prop := mkMeasure {
  me_dct4 : forall x k, (k < length x)%nat -> Rabs (dct4_at x k) <= M x;
  me_mono : forall c x y, 0 <= c -> length x = length y ->
    (forall i, (i < length x)%nat -> Rabs (nth i x 0) <= c * Rabs (nth i y 0)) -> M x <= c * M y;
  me_fold : forall x (p q : nat -> nat) n, length x = (2 * n)%nat ->
    (forall f, sum (fun j => f (p j) + f (q j)) n = sum f (2 * n)) ->
    M (map (fun j => Rabs (nth (p j) x 0) + Rabs (nth (q j) x 0)) (seq 0 n)) <= M x }.

Lemma sum_abs f n : Rabs (sum f n) <= sum (fun i => Rabs (f i)) n.
Proof. induction n; cbn [sum]; [rewrite Rabs_R0; lra|]. eapply Rle_trans; [apply Rabs_triang|]. lra. Qed.
Lemma sum_mono f g n : (forall i, (i < n)%nat -> f i <= g i) -> sum f n <= sum g n.
Proof. intros H. induction n; cbn [sum]; [lra|]. pose proof (H n ltac:(lia)). pose proof (IHn ltac:(intros; apply H; lia)). lra. Qed.
Lemma sum_mul c f n : sum (fun i => c * f i) n = c * sum f n.
Proof. induction n; cbn [sum]; [ring|]. rewrite IHn. ring. Qed.

Lemma total_measure : measure total.
Proof.
  constructor.
  - intros x k Hk. unfold dct4_at, total. eapply Rle_trans; [apply sum_abs|]. apply sum_mono. intros i Hi. rewrite Rabs_mult.
    match goal with |- context [Rabs (cos ?a)] => pose proof (cos_le1 a) end. pose proof (Rabs_pos (nth i x 0)). nra.
  - intros c x y Hc L H. unfold total. rewrite <- L, <- sum_mul. apply sum_mono. exact H.
  - intros x p q n L Hs. unfold total. rewrite map_length, seq_length, L. rewrite <- (Hs (fun i => Rabs (nth i x 0))).
    apply sum_mono. intros j Hj. rewrite nth_map_seq by exact Hj. pose proof (Rabs_pos (nth (p j) x 0)). pose proof (Rabs_pos (nth (q j) x 0)).
    rewrite Rabs_right by lra. lra.
Qed.
Lemma energy_sq x : energy x = sq w1 (length x) (fun i => nth i x 0).
Proof. unfold energy, sq, w1. apply sum_ext. intros i Hi. ring. Qed.
Lemma sq_ge_one n f k : (k < n)%nat -> Rabs (f k) <= sqrt (sq w1 n f).
Proof.
  intros H. rewrite <- sqrt_Rsqr_abs. apply sqrt_le_1_alt. induction n; [lia|]. cbn [sum]. unfold sq in * . cbn [sum].
  assert (0 <= sum (fun i => w1 i * (f i)²) n) by (apply sum_ge0; intros; unfold w1; pose proof (Rle_0_sqr (f i)); lra).
  pose proof (Rle_0_sqr (f n)). unfold w1 in * . destruct (Nat.eq_dec k n) as [->|]; [lra|]. pose proof (IHn ltac:(lia)). lra.
Qed.
Lemma spread_sq x : spread x = sqrt (INR (length x) / 2 * sq w1 (length x) (fun i => nth i x 0)).
Proof.
  unfold spread, norm. rewrite energy_sq. symmetry. apply sqrt_mult_alt. pose proof (pos_INR (length x)). lra.
Qed.
Lemma energy_ge0 x : 0 <= energy x.
Proof. apply sum_ge0. intros. apply Rle_0_sqr. Qed.
Lemma spread_measure : measure spread.
Proof.
  constructor.
  - intros x k Hk. rewrite spread_sq, <- dct4_energy by reflexivity. apply sq_ge_one, Hk.
  - intros c x y Hc L H. unfold spread. rewrite L. rewrite (Rmult_comm c), Rmult_assoc. apply Rmult_le_compat_l; [apply sqrt_pos|].
    unfold norm. rewrite <- (sqrt_Rsqr c Hc) at 1. rewrite (Rmult_comm (sqrt _)), <- sqrt_mult_alt by apply Rle_0_sqr. apply sqrt_le_1_alt.
    unfold energy. rewrite <- L, <- sum_mul. apply sum_mono. intros i Hi. rewrite <- Rsqr_mult. apply Rsqr_le_abs_1. rewrite Rabs_mult, (Rabs_right c) by lra. apply H, Hi.
  - intros x p q n L Hs. unfold spread, norm. rewrite map_length, seq_length, L.
    pose proof (pos_INR n). rewrite <- !sqrt_mult_alt by (rewrite ?mult_INR; simpl (INR 2); lra). apply sqrt_le_1_alt.
    rewrite mult_INR. simpl (INR 2). unfold energy. rewrite map_length, seq_length, L. rewrite <- (Hs (fun i => (nth i x 0)²)).
    replace ((1 + 1) * INR n / 2 * sum (fun j => (nth (p j) x 0)² + (nth (q j) x 0)²) n)
      with (INR n / 2 * (2 * sum (fun j => (nth (p j) x 0)² + (nth (q j) x 0)²) n)) by field.
    apply Rmult_le_compat_l; [lra|]. rewrite <- sum_mul. apply sum_mono. intros j Hj. rewrite nth_map_seq by exact Hj.
    rewrite (Rsqr_abs (nth (p j) x 0)), (Rsqr_abs (nth (q j) x 0)). set (s := Rabs (nth (p j) x 0)). set (t := Rabs (nth (q j) x 0)).
    unfold Rsqr. pose proof (Rle_0_sqr (s - t)) as Z. unfold Rsqr in Z. lra.
Qed.

Section Via.
Variables (u v : R) (N : Num R R).
Hypothesis HN : rounding u v N.
Let Hu : 0 <= u := r_u _ _ _ HN.
Variables (M : list R -> R) (n : nat) (w : list R) (e : R) (D : list R -> nat -> R).
Hypothesis HM : measure M.
Hypothesis He : 0 <= e.
Hypothesis Hev : (n mod 2 = 0)%nat.
Hypothesis HD : forall x k, length x = n -> (k < n)%nat -> Rabs (D x k - dct4_at x k) <= e * M x.

Definition first_of (j : nat) : nat := if (j <? n / 2)%nat then (n + (n / 2 - 1 - j))%nat else (j - n / 2)%nat.
Definition second_of (j : nat) : nat := if (j <? n / 2)%nat then (n + (n / 2 + j))%nat else (n - 1 - (j - n / 2))%nat.
Lemma pairs_all f : sum (fun j => f (first_of j) + f (second_of j)) n = sum f (2 * n).
Proof.
  set (g := (n / 2)%nat). assert (Hg : n = (g + g)%nat) by (unfold g; lia).
  transitivity (sum (fun j => f (first_of j) + f (second_of j)) (g + g)); [f_equal; exact Hg|]. rewrite sum_app.
  transitivity (sum f ((g + g) + (g + g))); [|f_equal; lia]. rewrite !sum_app. rewrite !sum_plus.
  rewrite (sum_rev (fun i => f (g + i)%nat) g). rewrite (sum_rev (fun i => f (g + g + i)%nat) g).
  assert (X1 : sum (fun j => f (first_of j)) g = sum (fun i => f (g + g + (g - 1 - i))%nat) g)
    by (apply sum_ext; intros j Hj; unfold first_of; fold g; destruct (Nat.ltb_spec j g); [f_equal; lia|lia]).
  assert (X2 : sum (fun j => f (second_of j)) g = sum (fun i => f (g + g + (g + i))%nat) g)
    by (apply sum_ext; intros j Hj; unfold second_of; fold g; destruct (Nat.ltb_spec j g); [f_equal; lia|lia]).
  assert (X3 : sum (fun j => f (first_of (g + j))) g = sum f g)
    by (apply sum_ext; intros j Hj; unfold first_of; fold g; destruct (Nat.ltb_spec (g + j) g); [lia|f_equal; lia]).
  assert (X4 : sum (fun j => f (second_of (g + j))) g = sum (fun i => f (g + (g - 1 - i))%nat) g)
    by (apply sum_ext; intros j Hj; unfold second_of; fold g; destruct (Nat.ltb_spec (g + j) g); [lia|f_equal; lia]).
  rewrite X1, X2, X3, X4. ring.
Qed.

Let wx (a b : list R) := windowed w (a ++ b).
Let size_at (a b : list R) (j : nat) : R := Rabs (nth (first_of j) (wx a b) 0) + Rabs (nth (second_of j) (wx a b) 0).
Lemma wx_at a b i : length a = n -> length b = n -> (i < 2 * n)%nat -> nth i (wx a b) 0 = nth i w 0 * nth i (a ++ b) 0.
Proof. intros La Lb Hi. unfold wx, windowed. rewrite nth_map_seq; [reflexivity|]. rewrite app_length. lia. Qed.

Lemma fold_err a b j : length a = n -> length b = n -> (j < n)%nat ->
  nr ((1 + u) ^ 2) (size_at a b j) (fold_at (N := N) w n a b j) (fold_at (N := NumR) w n a b j).
Proof.
  intros La Lb Hj. unfold size_at.
  rewrite !wx_at by (try assumption; unfold first_of, second_of; destruct (Nat.ltb_spec j (n / 2)); lia).
  unfold fold_at, first_of, second_of. set (g := (n / 2)%nat) in * . assert (Hg : n = (2 * g)%nat) by (unfold g; lia).
  unfold at_. rewrite (r_zero _ _ _ HN). change (@zero R R NumR) with 0.
  replace ((1 + u) ^ 2) with ((1 + u) * (1 + u)) by ring.
  assert (P : forall x y, nr (1 + u) (Rabs (x * y)) (@mul _ _ N y x) (y * x)).
  { intros x y. rewrite (Rmult_comm x y). apply (nr_fac (1 + u)), (mul_fac u v N HN). }
  destruct (Nat.ltb_spec j g).
  - rewrite !app_nth2 by lia. rewrite La. replace (n + (g - 1 - j) - n)%nat with (g - 1 - j)%nat by lia. replace (n + (g + j) - n)%nat with (g + j)%nat by lia.
    apply (nr_sub u v N HN); [lra| |apply P]. apply (nr_neg u v N HN). apply P.
  - rewrite !app_nth1 by lia. apply (nr_sub u v N HN); [lra| |]; apply P.
Qed.

Lemma dct4_sub x y k : length x = length y -> dct4_at x k - dct4_at y k = dct4_at (map (fun i => nth i x 0 - nth i y 0) (seq 0 (length x))) k.
Proof.
  intros L. unfold dct4_at. rewrite map_length, seq_length, L. rewrite <- sum_minus. apply sum_ext. intros i Hi. rewrite nth_map_seq by exact Hi. ring.
Qed.
Lemma mdct_via_err a b k : length a = n -> length b = n -> (k < n)%nat ->
  Rabs (sem_mdct_dct4 (N := N) w n D a b k - mdct_at n w (a ++ b) k) <= ((1 + u) ^ 2 * (1 + e) - 1) * M (wx a b).
Proof.
  intros La Lb Hk. rewrite <- (mdct_dct4_exact n w Hev a b k La Lb Hk). unfold sem_mdct_dct4.
  set (y' := map (fold_at (N := N) w n a b) (seq 0 n)). set (y := map (fold_at (N := NumR) w n a b) (seq 0 n)).
  set (z := map (size_at a b) (seq 0 n)).
  assert (Ly' : length y' = n) by (unfold y'; rewrite map_length; apply seq_length).
  assert (Ly : length y = n) by (unfold y; rewrite map_length; apply seq_length).
  assert (Lz : length z = n) by (unfold z; rewrite map_length; apply seq_length).
  assert (G : 1 <= (1 + u) ^ 2) by (apply pow_R1_Rle; lra).
  assert (Zp : forall i, (i < n)%nat -> Rabs (nth i z 0) = size_at a b i).
  { intros i Hi. unfold z. rewrite nth_map_seq by exact Hi. apply Rabs_right. unfold size_at. apply Rle_ge, Rplus_le_le_0_compat; apply Rabs_pos. }
  assert (My' : M y' <= (1 + u) ^ 2 * M z).
  { apply (me_mono M HM); [lra|lia|]. rewrite Ly'. intros i Hi. rewrite Zp by exact Hi. unfold y'. rewrite nth_map_seq by exact Hi.
    exact (nr_abs _ _ _ _ (fold_err a b i La Lb Hi)). }
  assert (Md : M (map (fun i => nth i y' 0 - nth i y 0) (seq 0 (length y'))) <= ((1 + u) ^ 2 - 1) * M z).
  { apply (me_mono M HM); [lra|rewrite map_length, seq_length; lia|]. rewrite map_length, seq_length, Ly'. intros i Hi. rewrite Zp by exact Hi.
    rewrite nth_map_seq by exact Hi. unfold y', y. rewrite !nth_map_seq by exact Hi. exact (proj1 (fold_err a b i La Lb Hi)). }
  assert (Mz : M z <= M (wx a b)).
  { apply (me_fold M HM (wx a b) first_of second_of n); [unfold wx, windowed; rewrite map_length, seq_length, app_length; lia|]. intros f. apply pairs_all. }
  replace (D y' k - dct4_at y k) with ((D y' k - dct4_at y' k) + (dct4_at y' k - dct4_at y k)) by ring.
  eapply Rle_trans; [apply Rabs_triang|]. pose proof (HD y' k Ly' Hk) as E1.
  rewrite dct4_sub by lia. pose proof (me_dct4 M HM (map (fun i => nth i y' 0 - nth i y 0) (seq 0 (length y'))) k ltac:(rewrite map_length, seq_length; lia)) as E2.
  assert (e * M y' <= e * ((1 + u) ^ 2 * M z)) by (apply Rmult_le_compat_l; assumption).
  assert (((1 + u) ^ 2 * (1 + e) - 1) * M z <= ((1 + u) ^ 2 * (1 + e) - 1) * M (wx a b)) by (apply Rmult_le_compat_l; [nra|assumption]).
  lra.
Qed.

Lemma imdct_via_err x i o : length x = n -> (i < 2 * n)%nat ->
  Rabs (sem_imdct_dct4 (N := N) w n D x i o - (o + imdct_at n w x i)) <= ((1 + u) ^ 2 * (1 + e) - 1) * (Rabs o + Rabs (nth i w 0) * M x).
Proof.
  intros Lx Hi. rewrite <- (imdct_dct4_exact n w Hev x i o Lx Hi). unfold sem_imdct_dct4. rewrite (r_zero _ _ _ HN). change (@zero R R NumR) with 0.
  set (g := (n / 2)%nat) in * . assert (Hg : n = (2 * g)%nat) by (unfold g; lia).
  assert (P : forall j, (j < n)%nat -> nr ((1 + u) * (1 + e)) (Rabs (nth i w 0) * M x) (@mul _ _ N (D x j) (nth i w 0)) (dct4_at x j * nth i w 0)).
  { intros j Hj. rewrite (Rmult_comm (Rabs _)). replace ((1 + u) * (1 + e)) with ((1 + u) * ((1 + e) * 1)) by ring.
    apply (nr_mul u v N HN); [lra|lra| |apply nr_refl; lra]. split; [|apply (me_dct4 M HM); lia]. replace (1 + e - 1) with e by ring. apply HD; assumption. }
  assert (Q : forall b' b, nr ((1 + u) * (1 + e)) (Rabs (nth i w 0) * M x) b' b ->
     nr ((1 + u) ^ 2 * (1 + e)) (Rabs o + Rabs (nth i w 0) * M x) (@add _ _ N o b') (o + b) /\
     nr ((1 + u) ^ 2 * (1 + e)) (Rabs o + Rabs (nth i w 0) * M x) (@sub _ _ N o b') (o - b)).
  { intros b' b H. assert (1 <= (1 + u) * (1 + e)) by nra. replace ((1 + u) ^ 2 * (1 + e)) with ((1 + u) * ((1 + u) * (1 + e))) by ring.
    split; [apply (nr_add u v N HN)|apply (nr_sub u v N HN)]; try assumption; apply nr_refl; assumption. }
  destruct (Nat.ltb_spec i g); [|destruct (Nat.ltb_spec i n); [|destruct (Nat.ltb_spec i (n + g))]].
  - apply (Q _ _ (P (g + i)%nat ltac:(lia))).
  - apply (Q _ _ (P (n - 1 - (i - g))%nat ltac:(lia))).
  - apply (Q _ _ (P (g - 1 - (i - n))%nat ltac:(lia))).
  - apply (Q _ _ (P (i - (n + g))%nat ltac:(lia))).
Qed.
End Via.

(** * Calls *)
Section Calls.
Context {N : Num R R}.
Lemma mdct_error_call p n sl w M e G : computes_mdct p n sl G ->
  (forall a b k, length a = n -> length b = n -> (k < n)%nat -> Rabs (G a b k - mdct_at n w (a ++ b) k) <= e * M (windowed w (a ++ b))) ->
  mdct_error p n sl w M e.
Proof.
  intros C H a b o s La Lb Lo Ls. destruct (mdct_call p n sl G C a b o s La Lb Lo Ls) as (s' & E & _). eexists. exists s'. split; [exact E|].
  unfold mdct_of. split; [rewrite !map_length; reflexivity|]. rewrite map_length, seq_length. intros k Hk. rewrite !nth_map_seq by exact Hk. apply H; assumption.
Qed.
Lemma imdct_error_call p n sl w M e G : zero = 0 -> computes_imdct p n sl G ->
  (forall x i o, length x = n -> (i < 2 * n)%nat -> Rabs (G x i o - (o + imdct_at n w x i)) <= e * (Rabs o + Rabs (nth i w 0) * M x)) ->
  imdct_error p n sl w M e.
Proof.
  intros Z C H x a b s Lx La Lb Ls. destruct (imdct_call p n sl G C x a b s Lx La Lb Ls) as (a' & b' & s' & E & Ey & La' & Lb' & _).
  exists a', b', s'. split; [exact E|]. split; [exact La'|]. split; [exact Lb'|]. intros i Hi. rewrite Ey. rewrite nth_map_seq by exact Hi. rewrite Z. apply H; assumption.
Qed.
End Calls.

Lemma via_error u v (N : Num R R) M n inner wf d e : rounding u v N -> measure M -> 0 <= e -> t4_len inner = n ->
  (exists D, computes (t_dct4 inner) n (t4_scratch inner) D /\ forall x k, length x = n -> (k < n)%nat -> Rabs (D x k - dct4_at x k) <= e * M x) ->
  MdctViaDct4_new inner wf = Ok d ->
  mdct_error (t_mdct (MdctViaDct4_obj d)) n (m_scratch (MdctViaDct4_obj d)) (wf (n * 2)%nat) M ((1 + u) ^ 2 * (1 + e) - 1) /\
  imdct_error (t_imdct (MdctViaDct4_obj d)) n (m_scratch (MdctViaDct4_obj d)) (wf (n * 2)%nat) M ((1 + u) ^ 2 * (1 + e) - 1).
Proof.
  intros HN HM He Ln (D & HD & A) E. apply MdctViaDct4_new_inv in E. cbv zeta in E. rewrite Ln in E. destruct E as (Ev & Lw & ->).
  unfold MdctViaDct4_obj. cbn [m_scratch t_mdct t_imdct md_scratch]. split.
  - eapply mdct_error_call; [apply (mdct_dct4_ok inner (wf (n * 2)%nat) n (t4_scratch inner) D); auto|]. intros. eapply mdct_via_err; eassumption.
  - eapply imdct_error_call; [apply (r_zero _ _ _ HN)|apply (imdct_dct4_ok inner (wf (n * 2)%nat) n (t4_scratch inner) D); auto|]. intros. eapply imdct_via_err; eassumption.
Qed.

Section Plan.
Variables (u v : R) (N : Num R R).
Hypothesis HN : rounding u v N.
Variable pf : nat -> fft R.
Hypothesis Hpf : fft_fits pf.
Let Hu : 0 <= u := r_u _ _ _ HN.

Lemma planned_mdct_gen cs n w M e : (n mod 2 = 0)%nat -> length (window_in_force cs n w (n * 2)) = (n * 2)%nat -> measure M -> 0 <= e ->
  (exists i, canon4 pf n = Ok i /\ t4_len i = n /\
     exists D, computes (t_dct4 i) n (t4_scratch i) D /\ forall x k, length x = n -> (k < n)%nat -> Rabs (D x k - dct4_at x k) <= e * M x) ->
  exists a, snd (plan_mdct n w (after pf cs)) = Ok a /\
    mdct_error (t_mdct (arc_val a)) n (m_scratch (arc_val a)) (window_in_force cs n w (n * 2)%nat) M ((1 + u) ^ 2 * (1 + e) - 1) /\
    imdct_error (t_imdct (arc_val a)) n (m_scratch (arc_val a)) (window_in_force cs n w (n * 2)%nat) M ((1 + u) ^ 2 * (1 + e) - 1).
Proof.
  intros Hev Hw HM He (i' & Ei' & Li & A). destruct (planned_mdct_canon pf Hpf cs n w Hev Hw) as (i & d & a & Ei & Ed & Ea & Ev).
  rewrite Ei in Ei'. apply Ok_inj in Ei'. subst i'. exists a. split; [exact Ea|]. rewrite Ev. apply (via_error u v N M n i (window_in_force cs n w) d e); assumption.
Qed.
Lemma planned_mdct_entry phi cs n w : 4 * v < 1 -> fft_all_clean pf -> 0 <= phi -> (forall m, (m <= n)%nat -> fft_error phi (pf m)) ->
  (n mod 2 = 0)%nat -> length (window_in_force cs n w (n * 2)) = (n * 2)%nat -> (forall k, (3 <= k)%nat -> n <> (2 ^ k)%nat) ->
  exists a, snd (plan_mdct n w (after pf cs)) = Ok a /\
    mdct_error (t_mdct (arc_val a)) n (m_scratch (arc_val a)) (window_in_force cs n w (n * 2)%nat) total ((1 + u) ^ 2 * (1 + entry_bound u v phi (CDct4 n)) - 1) /\
    imdct_error (t_imdct (arc_val a)) n (m_scratch (arc_val a)) (window_in_force cs n w (n * 2)%nat) total ((1 + u) ^ 2 * (1 + entry_bound u v phi (CDct4 n)) - 1).
Proof.
  intros Hv4 Hcl Hphi Hf Hev Hw Hk. apply planned_mdct_gen; [assumption|assumption|apply total_measure| |].
  - pose proof (K_e4 u v N HN Hv4 phi Hphi 9 (le_n 9)). pose proof (K_ge0 u v N HN Hv4 phi Hphi 9). unfold e4 in H. cbn [entry_bound]. lra.
  - destruct (canon4_entry u v N HN Hv4 pf phi Hpf Hcl Hphi n Hk Hf) as (i & Ei & L & (D & C & A) & _). exists i. split; [exact Ei|]. split; [exact L|].
    exists D. split; [exact C|]. intros x k Hx Hk'. apply A; assumption.
Qed.
Lemma planned_mdct_spread cs n w k : (3 <= k)%nat -> n = (2 ^ k)%nat -> length (window_in_force cs n w (n * 2)) = (n * 2)%nat ->
  exists a, snd (plan_mdct n w (after pf cs)) = Ok a /\
    mdct_error (t_mdct (arc_val a)) n (m_scratch (arc_val a)) (window_in_force cs n w (n * 2)%nat) spread ((1 + u) ^ 2 * growth u v (k - 1) - 1) /\
    imdct_error (t_imdct (arc_val a)) n (m_scratch (arc_val a)) (window_in_force cs n w (n * 2)%nat) spread ((1 + u) ^ 2 * growth u v (k - 1) - 1).
Proof.
  intros Hk En Hw. pose proof (growth_ge1 u v N HN (k - 1)) as Hg. replace (growth u v (k - 1)) with (1 + (growth u v (k - 1) - 1)) by ring.
  apply planned_mdct_gen; [|assumption|apply spread_measure|lra|].
  - rewrite En. replace k with (S (k - 1)) by lia. rewrite Nat.pow_succ_r'. lia.
  - destruct (canon4_approx u v N HN pf Hpf k Hk) as (i & Ei & L & (D & C & A) & _). rewrite <- En in * . exists i. split; [exact Ei|]. split; [exact L|].
    exists D. split; [exact C|]. intros x j Hx Hj. specialize (A x Hx). unfold near4 in A. rewrite spread_sq, Hx.
    eapply Rle_trans; [|exact A]. apply (sq_ge_one n (fun k => D x k - dct4_at x k) j Hj).
Qed.
End Plan.

(** * The naive MDCT *)
Lemma accum_win_add {T F} {N : Num T F} X (V : nat -> T * T) acc lo cnt :
  accum op_win X V acc lo cnt = accum op_add (fun i => mul (X i) (fst (V i))) (fun i => snd (V i)) acc lo cnt.
Proof. induction cnt; [reflexivity|]. cbn [accum]. rewrite IHcnt. reflexivity. Qed.
Lemma accum_two {T A} (op : T -> T -> A -> T) X V X2 V2 acc n m :
  accum op X2 V2 (accum op X V acc 0 n) 0 m
  = accum op (fun i => if (i <? n)%nat then X i else X2 (i - n)%nat) (fun i => if (i <? n)%nat then V i else V2 (i - n)%nat) acc 0 (n + m).
Proof.
  induction m.
  - rewrite Nat.add_0_r. cbn [accum]. apply accum_ext; intros i Hi; destruct (Nat.ltb_spec i n); try reflexivity; lia.
  - replace (n + S m)%nat with (S (n + m)) by lia. cbn [accum]. rewrite IHm. cbn [Nat.add].
    destruct (Nat.ltb_spec (n + m) n); [lia|]. replace (n + m - n)%nat with m by lia. reflexivity.
Qed.

Section NaiveErr.
Variables (u v : R) (N : Num R R).
Hypothesis HN : rounding u v N.
Hypothesis Hv4 : 4 * v < 1.
Let Hu : 0 <= u := r_u _ _ _ HN.
Let Ht : 0 <= tau u v := tau_ge0 u v N HN Hv4.
Variables (n : nat) (w : list R).
Hypothesis Hev : (n mod 2 = 0)%nat.
Definition mtable (K : Num R R) : nat -> R :=
  fun i => @from_f64 _ _ K (f_cos (f_mul (f_div (f_mul f_half f_pi) (f_of_nat n)) (f_add (f_of_nat i) f_half))).

Lemma mtable_close i : (i < n * 4)%nat -> Rabs (mtable N i - mtable NumR i) <= tau u v /\ Rabs (mtable NumR i) <= 1.
Proof.
  intros Hi. unfold mtable. cbn [from_f64 f_mul f_cos f_div f_pi f_half f_of_nat f_add NumR]. split; [|apply cos_le1].
  pose proof PI_RGT_0. assert (Pn : 0 < INR n) by (apply lt_0_INR; lia). pose proof (pos_INR i).
  assert (Hi' : INR i + 1 <= INR n * 4) by (rewrite <- S_INR; replace (INR n * 4) with (INR (n * 4)) by (rewrite mult_INR; simpl (INR 4); ring); apply le_INR; lia).
  apply (table_any u v N HN Hv4 _ _ cos f_cos cos_lip cos_le1 (r_f_cos _ _ _ HN)).
  - apply (angle_any u v N HN Hv4); [|lra|apply (den_nat u v N HN)|apply (off_fac u v N HN)].
    rewrite (r_f_half _ _ _ HN). replace ((1 + v) ^ 2) with ((1 + v) * (1 + v)) by ring. pose proof (r_v _ _ _ HN).
    eapply fac_trans; [lra|lra|apply fac_rel, (r_f_mul _ _ _ HN)|].
    replace (1 + v) with (1 * (1 + v)) by ring. apply fac_mul; [lra|lra|apply fac_refl; lra|apply fac_rel, (r_f_pi _ _ _ HN)].
  - apply angle_range; nra.
Qed.
Lemma mtable_at start stride i : (0 < n)%nat ->
  Rabs (tw_at (map (mtable N) (seq 0 (n * 4))) (@zero _ _ N) start stride 0 i - tw_at (map (mtable NumR) (seq 0 (n * 4))) 0 start stride 0 i) <= tau u v /\
  Rabs (tw_at (map (mtable NumR) (seq 0 (n * 4))) 0 start stride 0 i) <= 1.
Proof. intros Hn. rewrite !tw_at_map by lia. apply mtable_close. apply Nat.mod_upper_bound. lia. Qed.

Lemma mdct_naive_err a b k : length a = n -> length b = n -> (k < n)%nat ->
  Rabs (sem_mdct_naive (map (mtable N) (seq 0 (n * 4))) w n a b k - mdct_at n w (a ++ b) k) <= dot_error u v (2 * n) * total (windowed w (a ++ b)).
Proof.
  intros La Lb Hk. rewrite <- (mdct_naive_exact n w Hev a b k La Lb Hk). fold (mtable NumR).
  unfold sem_mdct_naive. rewrite !map_length, !seq_length.
  set (s1 := ((n / 2 + k * (n + 1)) mod (n * 4))%nat). set (st := (k * 2 + 1)%nat). set (s2 := ((s1 + n * st) mod (n * 4))%nat).
  rewrite !accum_win_add, !accum_two. cbn [fst snd].
  destruct (accum_err u v N HN (@op_add _ _ N) (fun t => t)
    (fun i => if (i <? n)%nat then @mul _ _ N (at_ a i) (nth i w (@zero _ _ N)) else @mul _ _ N (at_ b (i - n)) (nth (i - n + n) w (@zero _ _ N)))
    (fun i => if (i <? n)%nat then nth i a 0 * nth i w 0 else nth (i - n) b 0 * nth (i - n + n) w 0)
    (fun i => if (i <? n)%nat then tw_at (map (mtable N) (seq 0 (n * 4))) (@zero _ _ N) s1 st 0 i
              else tw_at (map (mtable N) (seq 0 (n * 4))) (@zero _ _ N) s2 st 0 (i - n))
    (fun i => if (i <? n)%nat then tw_at (map (mtable NumR) (seq 0 (n * 4))) 0 s1 st 0 i
              else tw_at (map (mtable NumR) (seq 0 (n * 4))) 0 s2 st 0 (i - n))
    (@zero _ _ N) 0 0 0 (n + n) (1 + u) (tau u v)) as [E _].
  - lra. - exact Ht. - intros. apply (op_add_step u v N HN).
  - intros i Hi. destruct (Nat.ltb_spec i n).
    + split; [unfold at_; rewrite (r_zero _ _ _ HN); apply (mul_fac u v N HN)|]. apply mtable_at. lia.
    + split; [unfold at_; rewrite (r_zero _ _ _ HN); apply (mul_fac u v N HN)|]. apply mtable_at. lia.
  - rewrite (r_zero _ _ _ HN). unfold Rminus at 1. rewrite Rplus_0_l, Ropp_0, Rabs_R0. lra.
  - rewrite Rabs_R0. lra.
  - rewrite Exact_Naive.accum_add. change (@zero R R NumR) with 0.
    assert (ET : total (windowed w (a ++ b)) = 0 + sum (fun i => Rabs (if (i <? n)%nat then nth i a 0 * nth i w 0 else nth (i - n) b 0 * nth (i - n + n) w 0)) (n + n)).
    { rewrite Rplus_0_l. unfold total, windowed. rewrite map_length, seq_length, app_length, La, Lb. apply sum_ext. intros i Hi.
      rewrite nth_map_seq by exact Hi. f_equal. destruct (Nat.ltb_spec i n).
      - rewrite app_nth1 by lia. ring. - rewrite app_nth2 by lia. rewrite La. replace (i - n + n)%nat with i by lia. ring. }
    rewrite ET. unfold dot_error. replace (2 * n + 2)%nat with (S (n + n + 1)) by lia. cbn [pow]. exact E.
Qed.

Lemma imdct_naive_err x i o : length x = n -> (i < 2 * n)%nat ->
  Rabs (sem_imdct_naive (map (mtable N) (seq 0 (n * 4))) w n x i o - (o + imdct_at n w x i)) <= dot_error u v (n + 1) * (Rabs o + Rabs (nth i w 0) * total x).
Proof.
  intros Lx Hi. rewrite <- (imdct_naive_exact n w Hev x i o Lx Hi). fold (mtable NumR).
  assert (S1 : forall start stride, nr ((1 + u) ^ (n + 1) * (1 + tau u v)) (total x)
    (accum (@op_add _ _ N) (at_ x) (tw_at (map (mtable N) (seq 0 (n * 4))) (@zero _ _ N) start stride 0) (@zero _ _ N) 0 n)
    (accum (@op_add _ _ NumR) (at_ (N := NumR) x) (tw_at (map (mtable NumR) (seq 0 (n * 4))) (@zero _ _ NumR) start stride 0) (@zero _ _ NumR) 0 n)).
  { intros start stride. rewrite Exact_Naive.accum_add. change (@zero R R NumR) with 0.
    destruct (accum_err u v N HN (@op_add _ _ N) (fun t => t) (at_ (N := N) x) (at_ (N := NumR) x) (tw_at (map (mtable N) (seq 0 (n * 4))) (@zero _ _ N) start stride 0)
      (tw_at (map (mtable NumR) (seq 0 (n * 4))) 0 start stride 0) (@zero _ _ N) 0 0 0 n 1 (tau u v)) as [E B].
    - lra. - exact Ht. - intros. apply (op_add_step u v N HN).
    - intros j Hj. split; [unfold at_; rewrite (r_zero _ _ _ HN); apply fac_refl; lra|]. apply mtable_at. lia.
    - rewrite (r_zero _ _ _ HN). unfold Rminus at 1. rewrite Rplus_0_l, Ropp_0, Rabs_R0. lra.
    - rewrite Rabs_R0. lra.
    - assert (ET : total x = 0 + sum (fun i => Rabs (at_ (N := NumR) x (0 + i)%nat)) n) by (rewrite Rplus_0_l; unfold total; rewrite Lx; reflexivity).
      rewrite ET. split; [|exact B]. rewrite <- (Rmult_1_l ((1 + u) ^ (n + 1))). exact E. }
  assert (G : 1 <= (1 + u) ^ (n + 1)) by (apply pow_R1_Rle; lra). assert (G' : 1 <= (1 + u) ^ (n + 1) * (1 + tau u v)) by nra.
  assert (S2 : forall start stride, Rabs (@add _ _ N o (@mul _ _ N
      (accum (@op_add _ _ N) (at_ x) (tw_at (map (mtable N) (seq 0 (n * 4))) (@zero _ _ N) start stride 0) (@zero _ _ N) 0 n) (nth i w 0))
      - (o + accum (@op_add _ _ NumR) (at_ (N := NumR) x) (tw_at (map (mtable NumR) (seq 0 (n * 4))) (@zero _ _ NumR) start stride 0) (@zero _ _ NumR) 0 n * nth i w 0))
     <= dot_error u v (n + 1) * (Rabs o + Rabs (nth i w 0) * total x)).
  { intros start stride. unfold dot_error. rewrite (Rmult_comm (Rabs (nth i w 0))).
    pose proof (nr_mul u v N HN _ 1 _ _ _ _ _ _ G' (Rle_refl 1) (S1 start stride) (nr_refl 1 (nth i w 0) (Rle_refl 1))) as P. rewrite Rmult_1_r in P.
    assert (Gm : 1 <= (1 + u) * ((1 + u) ^ (n + 1) * (1 + tau u v))) by nra.
    pose proof (nr_add u v N HN _ _ _ _ _ _ _ Gm (nr_refl _ o Gm) P) as Q. destruct Q as [Q _].
    replace (n + 1 + 2)%nat with (S (S (n + 1))) by lia. cbn [pow]. rewrite !Rmult_assoc. exact Q. }
  unfold sem_imdct_naive. change (@zero R R NumR) with 0 in * . rewrite (r_zero _ _ _ HN) in * . destruct (Nat.ltb_spec i n) as [H|H]; [apply S2|].
  cbv zeta. replace (i - n + n)%nat with i by lia. apply S2.
Qed.
End NaiveErr.

Lemma naive_error u v (N : Num R R) n wf d : rounding u v N -> 4 * v < 1 -> MdctNaive_new n wf = Ok d ->
  mdct_error (t_mdct (MdctNaive_obj d)) n (m_scratch (MdctNaive_obj d)) (wf (n * 2)%nat) total (dot_error u v (2 * n)) /\
  imdct_error (t_imdct (MdctNaive_obj d)) n (m_scratch (MdctNaive_obj d)) (wf (n * 2)%nat) total (dot_error u v (n + 1)).
Proof.
  intros HN Hv4 E. apply MdctNaive_new_inv in E. destruct E as (Ev & Lw & Hd). assert (Lw' : length (wf (n * 2)%nat) = (2 * n)%nat) by lia.
  unfold MdctNaive_obj. cbn [m_scratch t_mdct t_imdct]. unfold MdctNaive_scratch. split.
  - eapply mdct_error_call; [apply (mdct_naive_ok n _ d Ev Lw' Hd)|]. intros. apply (mdct_naive_err u v N HN Hv4 n _ Ev); assumption.
  - eapply imdct_error_call; [apply (r_zero _ _ _ HN)|apply (imdct_naive_ok n _ d Ev Lw' Hd)|]. intros. apply (imdct_naive_err u v N HN Hv4 n _ Ev); assumption.
Qed.

(** * Closed forms *)
Lemma mdct_error_mono {N : Num R R} f n sl w M e e' : e <= e' -> (forall x, 0 <= M x) -> mdct_error f n sl w M e -> mdct_error f n sl w M e'.
Proof.
  intros He HM H a b o s La Lb Lo Ls. destruct (H a b o s La Lb Lo Ls) as (y & s' & C & D). exists y, s'. split; [exact C|]. destruct D as [Dl D]. split; [exact Dl|].
  intros k Hk. eapply Rle_trans; [exact (D k Hk)|]. apply Rmult_le_compat_r; [apply HM|exact He].
Qed.
Lemma imdct_error_mono {N : Num R R} f n sl w M e e' : e <= e' -> (forall x, 0 <= M x) -> imdct_error f n sl w M e -> imdct_error f n sl w M e'.
Proof.
  intros He HM H x a b s Lx La Lb Ls. destruct (H x a b s Lx La Lb Ls) as (a' & b' & s' & C & L1 & L2 & D). exists a', b', s'. split; [exact C|]. split; [exact L1|]. split; [exact L2|].
  intros k Hk. eapply Rle_trans; [exact (D k Hk)|]. apply Rmult_le_compat_r; [|exact He]. apply Rplus_le_le_0_compat; [apply Rabs_pos|apply Rmult_le_pos; [apply Rabs_pos|apply HM]].
Qed.
Lemma spread_ge0 x : 0 <= spread x.
Proof. unfold spread. apply Rmult_le_pos; apply sqrt_pos. Qed.

Lemma mdct_closed u v phi w n : 0 <= u -> 0 <= phi -> 0 <= tau u v -> 1 + tau u v <= (1 + u) ^ w -> (11 + 3 * INR w) * u < 1 ->
  (1 + u) ^ 2 * (1 + entry_bound u v phi (CDct4 n)) - 1 <= 2 * closed (11 + 3 * INR w) (phi * (2 + phi)) u.
Proof.
  intros Hu Hp Ht Hw Hs. cbn [entry_bound]. replace (11 + 3 * INR w) with (INR (11 + 3 * w)) in * by (rewrite plus_INR, mult_INR; simpl; ring).
  assert (C : (1 + u) ^ (11 + 3 * w) * (1 + phi * (2 + phi)) - 1 <= closed (INR (11 + 3 * w)) (phi * (2 + phi)) u) by (apply closed_pow; [exact Hu|nra|exact Hs]).
  assert (D : (1 + u) ^ 11 * ((1 + phi) ^ 2 * (1 + tau u v) ^ 3) <= (1 + u) ^ (11 + 3 * w) * (1 + phi * (2 + phi))).
  { replace (1 + phi * (2 + phi)) with ((1 + phi) ^ 2) by ring. rewrite (pow_add _ 11), (Nat.mul_comm 3 w), pow_mult.
    assert (0 < (1 + u) ^ 11) by (apply pow_lt; lra). assert (0 < (1 + phi) ^ 2) by (apply pow_lt; lra).
    assert ((1 + tau u v) ^ 3 <= ((1 + u) ^ w) ^ 3) by (apply pow_incr; lra).
    replace ((1 + u) ^ 11 * ((1 + u) ^ w) ^ 3 * (1 + phi) ^ 2) with ((1 + u) ^ 11 * ((1 + phi) ^ 2 * ((1 + u) ^ w) ^ 3)) by ring.
    repeat (apply Rmult_le_compat_l; [lra|]). assumption. }
  assert (E : (1 + u) ^ 11 = (1 + u) ^ 2 * (1 + u) ^ 9) by ring. rewrite E in D.
  assert (P : 1 <= (1 + u) ^ 2) by (apply pow_R1_Rle; lra).
  set (A := (1 + phi) ^ 2 * (1 + tau u v) ^ 3) in * . set (B := (1 + u) ^ 9) in * . set (Q := (1 + u) ^ 2) in * . set (S := (1 + u) ^ (11 + 3 * w) * _) in * .
  set (Z := closed _ _ _) in * . clearbody A B Q S Z. nra.
Qed.
Lemma mdct_growth c u v k : 0 <= u <= / 1024 -> 7 <= c -> 0 <= level u v <= 1 + c * u -> INR k * (c * u) < 1 -> (1 <= k)%nat ->
  (1 + u) ^ 2 * growth u v (k - 1) - 1 <= INR k * (c * u) / (1 - INR k * (c * u)).
Proof.
  intros Hu Hc Hl Hk Hk1. assert (Ha : 0 <= c * u) by nra. assert (H7 : 7 * u <= c * u) by nra.
  assert (H5 : (1 + u) ^ 2 * (1 + u) ^ 3 <= 1 + c * u).
  { assert (A2 : u * u <= u / 1024) by nra. assert (0 <= u * u) by nra. assert (A3 : u * u * u <= u / 1024) by nra.
    assert (0 <= u * u * u) by nra. assert (A4 : u * u * u * u <= u / 1024) by nra. assert (0 <= u * u * u * u) by nra. assert (A5 : u * u * u * u * u <= u / 1024) by nra.
    replace ((1 + u) ^ 2 * (1 + u) ^ 3) with (1 + 5 * u + 10 * (u * u) + 10 * (u * u * u) + 5 * (u * u * u * u) + u * u * u * u * u) by ring. lra. }
  assert (G : (1 + u) ^ 2 * growth u v (k - 1) <= (1 + c * u) ^ k).
  { unfold growth. rewrite <- Rmult_assoc.
    replace ((1 + c * u) ^ k) with ((1 + c * u) * (1 + c * u) ^ (k - 1)) by (change ((1 + c * u) * (1 + c * u) ^ (k - 1)) with ((1 + c * u) ^ S (k - 1)); f_equal; lia).
    apply Rmult_le_compat; [apply Rmult_le_pos; apply pow_le; lra|apply pow_le; lra|exact H5|].
    apply pow_incr. exact Hl. }
  pose proof (bernoulli_inv (c * u) k Ha Hk) as B.
  replace (INR k * (c * u) / (1 - INR k * (c * u))) with (/ (1 - INR k * (c * u)) - 1) by (field; lra). lra.
Qed.

Section Final.
Variables u v : R.
Variable N : Num R R.
Hypothesis HN : rounding u v N.
Hypothesis Hu1 : u <= / 1024.
Variable pf : nat -> fft R.
Hypothesis Hpf : fft_fits pf.
Let Hu : 0 <= u := r_u _ _ _ HN.
Let Hv : 0 <= v := proj1 (r_v _ _ _ HN).

Lemma planned_mdct_closed k phi cs n w : 1 + tau u v <= (1 + u) ^ k -> 4 * v < 1 -> (11 + 3 * INR k) * u < 1 -> fft_all_clean pf ->
  (forall m, (m <= n)%nat -> fft_error phi (pf m)) -> (n mod 2 = 0)%nat -> length (window_in_force cs n w (n * 2)) = (n * 2)%nat -> (forall k, (3 <= k)%nat -> n <> (2 ^ k)%nat) ->
  exists a, snd (plan_mdct n w (after pf cs)) = Ok a /\
    mdct_error (t_mdct (arc_val a)) n (m_scratch (arc_val a)) (window_in_force cs n w (n * 2)%nat) total (2 * closed (11 + 3 * INR k) (phi * (2 + phi)) u) /\
    imdct_error (t_imdct (arc_val a)) n (m_scratch (arc_val a)) (window_in_force cs n w (n * 2)%nat) total (2 * closed (11 + 3 * INR k) (phi * (2 + phi)) u).
Proof.
  intros Ht Hv4 Hk Hcl Hf Hev Hw Hn. assert (Hp : 0 <= phi) by apply (Hf 0%nat ltac:(lia)).
  destruct (planned_mdct_entry u v N HN pf Hpf phi cs n w Hv4 Hcl Hp Hf Hev Hw Hn) as (a & Ea & A & B).
  pose proof (mdct_closed u v phi k n Hu Hp (tau_ge0 u v N HN Hv4) Ht Hk) as C. exists a. split; [exact Ea|].
  split; [exact (mdct_error_mono _ _ _ _ _ _ _ C total_ge0 A)|exact (imdct_error_mono _ _ _ _ _ _ _ C total_ge0 B)].
Qed.
Lemma planned_mdct_90 phi cs n w : v <= u -> 281 * u < 1 -> fft_all_clean pf ->
  (forall m, (m <= n)%nat -> fft_error phi (pf m)) -> (n mod 2 = 0)%nat -> length (window_in_force cs n w (n * 2)) = (n * 2)%nat -> (forall k, (3 <= k)%nat -> n <> (2 ^ k)%nat) ->
  exists a, snd (plan_mdct n w (after pf cs)) = Ok a /\
    mdct_error (t_mdct (arc_val a)) n (m_scratch (arc_val a)) (window_in_force cs n w (n * 2)%nat) total (2 * closed 281 (phi * (2 + phi)) u) /\
    imdct_error (t_imdct (arc_val a)) n (m_scratch (arc_val a)) (window_in_force cs n w (n * 2)%nat) total (2 * closed 281 (phi * (2 + phi)) u).
Proof.
  intros H K. assert (E : 11 + 3 * INR 90 = 281) by (simpl INR; lra). rewrite <- E in K |- * . apply planned_mdct_closed; [apply tau_same; lra|lra|exact K].
Qed.
Lemma planned_mdct_3 phi cs n w : v <= u * u -> 20 * u < 1 -> fft_all_clean pf ->
  (forall m, (m <= n)%nat -> fft_error phi (pf m)) -> (n mod 2 = 0)%nat -> length (window_in_force cs n w (n * 2)) = (n * 2)%nat -> (forall k, (3 <= k)%nat -> n <> (2 ^ k)%nat) ->
  exists a, snd (plan_mdct n w (after pf cs)) = Ok a /\
    mdct_error (t_mdct (arc_val a)) n (m_scratch (arc_val a)) (window_in_force cs n w (n * 2)%nat) total (2 * closed 20 (phi * (2 + phi)) u) /\
    imdct_error (t_imdct (arc_val a)) n (m_scratch (arc_val a)) (window_in_force cs n w (n * 2)%nat) total (2 * closed 20 (phi * (2 + phi)) u).
Proof.
  intros H K. assert (E : 11 + 3 * INR 3 = 20) by (simpl INR; lra). rewrite <- E in K |- * . apply planned_mdct_closed; [apply tau_wide; lra|nra|exact K].
Qed.
Lemma planned_mdct_pow c cs n w k : 7 <= c -> 0 <= level u v <= 1 + c * u -> (3 <= k)%nat -> n = (2 ^ k)%nat -> c * INR k * u < 1 ->
  length (window_in_force cs n w (n * 2)) = (n * 2)%nat ->
  exists a, snd (plan_mdct n w (after pf cs)) = Ok a /\
    mdct_error (t_mdct (arc_val a)) n (m_scratch (arc_val a)) (window_in_force cs n w (n * 2)%nat) spread (c * INR k * u / (1 - c * INR k * u)) /\
    imdct_error (t_imdct (arc_val a)) n (m_scratch (arc_val a)) (window_in_force cs n w (n * 2)%nat) spread (c * INR k * u / (1 - c * INR k * u)).
Proof.
  intros Hc Hl Hk En H Hw. destruct (planned_mdct_spread u v N HN pf Hpf cs n w k Hk En Hw) as (a & Ea & A & B).
  replace (c * INR k * u) with (INR k * (c * u)) in * by ring.
  pose proof (mdct_growth c u v k ltac:(lra) Hc Hl H ltac:(lia)) as C. exists a. split; [exact Ea|].
  split; [exact (mdct_error_mono _ _ _ _ _ _ _ C spread_ge0 A)|exact (imdct_error_mono _ _ _ _ _ _ _ C spread_ge0 B)].
Qed.
Lemma planned_mdct_pow_26 cs n w k : v <= u -> (3 <= k)%nat -> n = (2 ^ k)%nat -> 26 * INR k * u < 1 -> length (window_in_force cs n w (n * 2)) = (n * 2)%nat ->
  exists a, snd (plan_mdct n w (after pf cs)) = Ok a /\
    mdct_error (t_mdct (arc_val a)) n (m_scratch (arc_val a)) (window_in_force cs n w (n * 2)%nat) spread (26 * INR k * u / (1 - 26 * INR k * u)) /\
    imdct_error (t_imdct (arc_val a)) n (m_scratch (arc_val a)) (window_in_force cs n w (n * 2)%nat) spread (26 * INR k * u / (1 - 26 * INR k * u)).
Proof. intros H. apply planned_mdct_pow; [lra|apply level_26; lra]. Qed.
Lemma planned_mdct_pow_10 cs n w k : v <= u * u -> (3 <= k)%nat -> n = (2 ^ k)%nat -> 10 * INR k * u < 1 -> length (window_in_force cs n w (n * 2)) = (n * 2)%nat ->
  exists a, snd (plan_mdct n w (after pf cs)) = Ok a /\
    mdct_error (t_mdct (arc_val a)) n (m_scratch (arc_val a)) (window_in_force cs n w (n * 2)%nat) spread (10 * INR k * u / (1 - 10 * INR k * u)) /\
    imdct_error (t_imdct (arc_val a)) n (m_scratch (arc_val a)) (window_in_force cs n w (n * 2)%nat) spread (10 * INR k * u / (1 - 10 * INR k * u)).
Proof. intros H. apply planned_mdct_pow; [lra|apply level_10; lra]. Qed.
End Final.
