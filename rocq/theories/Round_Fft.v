(** Rounding errors of the conversions to an FFT, given those of the FFT. *)
From Coq Require Import Reals ZArith List Arith Lia Lra Psatz Bool ZifyNat.
From Verif Require Import Prog Num Model_Common Model_Naive Model_Fft Spec Spec_Fft Spec_Round Spec_Entry Trig Ref Energy Wp Sem_Naive Sem_Fft Sem_Fft2
  Exact_Fft Round_Ops Round_Entry Round_Naive.
Import ListNotations.
Open Scope R_scope.
Ltac Zify.zify_post_hook ::= Z.div_mod_to_equations.

(** * The exact transform *)
Definition ct (L : nat) (z : nat -> R * R) : R := sum (fun j => Rabs (fst (z j)) + Rabs (snd (z j))) L.
Definition cdist (z' z : nat -> R * R) (j : nat) : R * R := (fst (z' j) - fst (z j), snd (z' j) - snd (z j)).

Lemma ct_ge0 L z : 0 <= ct L z.
Proof. apply sum_ge0. intros. pose proof (Rabs_pos (fst (z i))). pose proof (Rabs_pos (snd (z i))). lra. Qed.
Lemma ct_ext L z' z : (forall j, (j < L)%nat -> z' j = z j) -> ct L z' = ct L z.
Proof. intros H. apply sum_ext. intros j Hj. rewrite H by exact Hj. reflexivity. Qed.
Lemma ct_dist L z' z : ct L z' <= ct L z + ct L (cdist z' z).
Proof.
  unfold ct. rewrite <- sum_plus. apply sum_le. intros j _. unfold cdist. cbn [fst snd].
  pose proof (Rabs_triang (fst (z j)) (fst (z' j) - fst (z j))). pose proof (Rabs_triang (snd (z j)) (snd (z' j) - snd (z j))).
  replace (fst (z j) + (fst (z' j) - fst (z j))) with (fst (z' j)) in * by ring. replace (snd (z j) + (snd (z' j) - snd (z j))) with (snd (z' j)) in * by ring. lra.
Qed.
Lemma ctotal_map z L : ctotal (map z (seq 0 L)) = ct L z.
Proof. unfold ctotal, ct. rewrite map_length, seq_length. apply sum_ext. intros j Hj. rewrite (nth_map_seq z) by exact Hj. reflexivity. Qed.
Lemma sum_abs_le f g n : (forall i, (i < n)%nat -> Rabs (f i) <= g i) -> Rabs (sum f n) <= sum g n.
Proof.
  induction n as [|n IH]; intros H; cbn [sum]; [rewrite Rabs_R0; lra|].
  eapply Rle_trans; [apply Rabs_triang|]. specialize (IH (fun i Hi => H i ltac:(lia))). specialize (H n ltac:(lia)). lra.
Qed.
Lemma cz_le1 d j : Rabs (cz d j) <= 1. Proof. apply cos_le1. Qed.
Lemma sz_le1 d j : Rabs (sz d j) <= 1. Proof. apply sin_le1. Qed.
Lemma two_terms a b s t : Rabs s <= 1 -> Rabs t <= 1 -> Rabs (a * s + b * t) <= Rabs a + Rabs b /\ Rabs (a * s - b * t) <= Rabs a + Rabs b.
Proof.
  intros Hs Ht. pose proof (Rabs_pos a). pose proof (Rabs_pos b). split.
  - eapply Rle_trans; [apply Rabs_triang|]. rewrite !Rabs_mult. nra.
  - unfold Rminus. eapply Rle_trans; [apply Rabs_triang|]. rewrite Rabs_Ropp, !Rabs_mult. nra.
Qed.
Lemma Dre_le L z k : Rabs (Dre L z k) <= ct L z.
Proof. apply sum_abs_le. intros j _. apply two_terms; [apply cz_le1|apply sz_le1]. Qed.
Lemma Dim_le L z k : Rabs (Dim L z k) <= ct L z.
Proof.
  apply sum_abs_le. intros j _. rewrite (Rplus_comm (Rabs (fst _))). apply two_terms; [apply cz_le1|apply sz_le1].
Qed.
Lemma D_dist L z' z k : Dre L z' k - Dre L z k = Dre L (cdist z' z) k /\ Dim L z' k - Dim L z k = Dim L (cdist z' z) k.
Proof. unfold Dre, Dim, cdist. cbn [fst snd]. rewrite <- !sum_minus. split; apply sum_ext; intros; ring. Qed.
Lemma dft_nth L z k : (k < L)%nat -> nth k (dft (map z (seq 0 L))) (0, 0) = (Dre L z (zn k), Dim L z (zn k)).
Proof. intros Hk. exact (fft_out_nth (reference_fft L) z k (proj2 reference_fft_fits L) Hk). Qed.

Section Fft.
Variables (u v : R) (N : Num R R).
Hypothesis HN : rounding u v N.
Hypothesis Hv4 : 4 * v < 1.
Let Hu : 0 <= u := r_u _ _ _ HN.
Let Hv : 0 <= v < 1 := r_v _ _ _ HN.
Variables (phi : R) (f : fft R).
Hypothesis Hf : fft_error phi f.
Let Hphi : 0 <= phi := proj1 Hf.
Notation L := (fft_len f).

Lemma out_err z' z k : (k < L)%nat -> let y := nth k (fft_out f (map z' (seq 0 L))) c0 in
  let e := (1 + phi) * ct L (cdist z' z) + phi * ct L z in
  Rabs (fst y - Dre L z (zn k)) <= e /\ Rabs (snd y - Dim L z (zn k)) <= e.
Proof.
  intros Hk y e.
  assert (Ey : y = nth k (fst (fft_run f (map z' (seq 0 L)) (repeat (0, 0) (fft_scratch f)))) (0, 0)).
  { unfold y, fft_out, c0. rewrite (r_zero _ _ _ HN). reflexivity. }
  destruct (proj2 Hf (map z' (seq 0 L)) (repeat (0, 0) (fft_scratch f)) k) as [A B]; [rewrite map_length, seq_length; reflexivity|apply repeat_length|exact Hk|].
  cbv zeta in A, B. rewrite <- Ey in A, B. rewrite dft_nth, ctotal_map in A, B by exact Hk. cbn [fst snd] in A, B.
  pose proof (ct_dist L z' z) as T. assert (phi * ct L z' <= phi * (ct L z + ct L (cdist z' z))) by (apply Rmult_le_compat_l; assumption).
  destruct (D_dist L z' z (zn k)) as [E1 E2]. unfold e. split.
  - replace (fst y - Dre L z (zn k)) with ((fst y - Dre L z' (zn k)) + (Dre L z' (zn k) - Dre L z (zn k))) by ring.
    eapply Rle_trans; [apply Rabs_triang|]. rewrite E1. pose proof (Dre_le L (cdist z' z) (zn k)). lra.
  - replace (snd y - Dim L z (zn k)) with ((snd y - Dim L z' (zn k)) + (Dim L z' (zn k) - Dim L z (zn k))) by ring.
    eapply Rle_trans; [apply Rabs_triang|]. rewrite E2. pose proof (Dim_le L (cdist z' z) (zn k)). lra.
Qed.
Notation nr := nr.
Lemma out_nr z' z S S' g T k : (k < L)%nat -> 1 <= g ->
  (forall j, (j < L)%nat -> nr g (S j) (fst (z' j)) (fst (z j)) /\ nr g (S' j) (snd (z' j)) (snd (z j))) ->
  sum (fun j => S j + S' j) L <= T ->
  let y := nth k (fft_out f (map z' (seq 0 L))) c0 in
  nr (g * (1 + phi)) T (fst y) (Dre L z (zn k)) /\ nr (g * (1 + phi)) T (snd y) (Dim L z (zn k)).
Proof.
  intros Hk Hg Hz HT y. destruct (out_err z' z k Hk) as [A B]. fold y in A, B.
  assert (C1 : ct L z <= T).
  { eapply Rle_trans; [|exact HT]. apply sum_le. intros j Hj. destruct (Hz j Hj) as [[_ P] [_ Q]]. lra. }
  assert (C2 : ct L (cdist z' z) <= (g - 1) * T).
  { apply Rle_trans with ((g - 1) * sum (fun j => S j + S' j) L); [|apply Rmult_le_compat_l; lra]. rewrite <- sum_scal_l.
    apply sum_le. intros j Hj. unfold cdist. cbn [fst snd]. destruct (Hz j Hj) as [[P _] [Q _]]. lra. }
  assert (E : (1 + phi) * ct L (cdist z' z) + phi * ct L z <= (g * (1 + phi) - 1) * T).
  { assert ((1 + phi) * ct L (cdist z' z) <= (1 + phi) * ((g - 1) * T)) by (apply Rmult_le_compat_l; lra).
    assert (phi * ct L z <= phi * T) by (apply Rmult_le_compat_l; assumption). lra. }
  pose proof (Dre_le L z (zn k)). pose proof (Dim_le L z (zn k)). repeat split; lra.
Qed.
(** When the input of the FFT is exact. *)
Lemma out_exact z' z T k : (k < L)%nat -> (forall j, (j < L)%nat -> z' j = z j) -> ct L z <= T ->
  let y := nth k (fft_out f (map z' (seq 0 L))) c0 in
  nr (1 + phi) T (fst y) (Dre L z (zn k)) /\ nr (1 + phi) T (snd y) (Dim L z (zn k)).
Proof.
  intros Hk Hz HT. replace (1 + phi) with (1 * (1 + phi)) by ring.
  apply (out_nr z' z (fun j => Rabs (fst (z j))) (fun j => Rabs (snd (z j))) 1 T k Hk (Rle_refl 1)); [|exact HT].
  intros j Hj. rewrite Hz by exact Hj. split; apply nr_refl; lra.
Qed.
Lemma nr_half g S a' a : 1 <= g -> nr g S a' a -> nr ((1 + u) * g) (S * / 2) (mul a' half) (a * / 2).
Proof.
  intros Hg H. replace ((1 + u) * g) with ((1 + u) * (g * 1)) by ring. apply (nr_mul u v N HN); [exact Hg|lra|exact H|].
  rewrite (half_N u v N HN). rewrite <- (Rabs_right (/ 2)) at 1 by lra. apply nr_refl. lra.
Qed.
Lemma nr_entry c g x a' a : nr g (c * total x) a' a -> Rabs (a' - a) <= c * (g - 1) * total x.
Proof. intros [A _]. lra. Qed.
(** Exact lemmas hold of the reference FFT. *)
Notation F0 := (reference_fft L).
Ltac exactly H := rewrite <- H by (first [apply (proj2 reference_fft_fits)|cbn [fft_len reference_fft]; first [lia|assumption]]).
Ltac plain := rewrite (fft_out_nth F0) by (first [apply (proj2 reference_fft_fits)|cbn [fft_len reference_fft]; lia]); cbn [fst snd fft_len reference_fft].

Lemma total_ge0 x : 0 <= total x.
Proof. apply sum_ge0. intros. apply Rabs_pos. Qed.

(** * Type 1 *)
Lemma ct_dct1 x n : length x = n -> (2 <= n)%nat -> ct (2 * (n - 1)) (pre_dct1_fft (N := NumR) n x) <= 2 * total x.
Proof.
  intros Hx Hn. unfold ct. replace (2 * (n - 1))%nat with (n + (n - 2))%nat by lia. rewrite sum_app.
  assert (A : sum (fun j => Rabs (fst (pre_dct1_fft (N := NumR) n x j)) + Rabs (snd (pre_dct1_fft (N := NumR) n x j))) n = total x).
  { unfold total. rewrite Hx. apply sum_ext. intros j Hj. unfold pre_dct1_fft. destruct (Nat.ltb_spec j n); [|lia]. cbn [fst snd].
    change (@zero R R NumR) with 0. rewrite Rabs_R0, Rplus_0_r. reflexivity. }
  rewrite A. assert (B : sum (fun j => Rabs (nth (n - 2 - j) x 0)) (n - 2) <= total x).
  { unfold total. rewrite Hx. replace (sum (fun i => Rabs (nth i x 0)) n) with (sum (fun i => Rabs (nth i x 0)) (S (S (n - 2)))) by (f_equal; lia).
    rewrite sum_S_l. cbn [sum].
    rewrite (sum_rev (fun i => Rabs (nth (S i) x 0))).
    pose proof (Rabs_pos (nth 0 x 0)). pose proof (Rabs_pos (nth (S (n - 2)) x 0)).
    assert (sum (fun j => Rabs (nth (n - 2 - j) x 0)) (n - 2) = sum (fun i => Rabs (nth (S (n - 2 - 1 - i)) x 0)) (n - 2)); [|lra].
    apply sum_ext. intros j Hj. do 2 f_equal. lia. }
  erewrite (sum_ext _ (fun j => Rabs (nth (n - 2 - j) x 0))); [lra|]. intros j Hj. unfold pre_dct1_fft.
  destruct (Nat.ltb_spec (n + j) n); [lia|]. cbn [fst snd]. change (@zero R R NumR) with 0. rewrite Rabs_R0, Rplus_0_r. unfold at_. do 2 f_equal. lia.
Qed.
Lemma dct1_fft_acc n : L = (2 * (n - 1))%nat -> (2 <= n)%nat ->
  entry_acc dct1_at n ((1 + u) * (1 + phi) - 1) (sem_dct1_fft f n).
Proof.
  intros HL Hn x k Hx Hk. subst n. exactly (dct1_fft_exact F0 x k). unfold sem_dct1_fft. plain.
  replace ((1 + u) * (1 + phi) - 1) with (1 * ((1 + u) * (1 + phi) - 1)) by ring. apply nr_entry.
  replace (1 * total x) with (2 * total x * / 2) by field. apply nr_half; [lra|].
  apply out_exact; [lia| |rewrite HL; apply ct_dct1; auto].
  intros j _. unfold pre_dct1_fft. rewrite !(at_N u v N HN), (r_zero _ _ _ HN). reflexivity.
Qed.

Lemma abs0 : Rabs 0 = 0. Proof. apply Rabs_R0. Qed.
Lemma ct_dst1 x n z : length x = n -> (forall i, nth i z 0 = 0) -> ct (2 * (n + 1)) (pre_dst1_fft (N := NumR) n x z) <= 2 * total x.
Proof.
  intros Hx Hz. unfold ct. replace (2 * (n + 1))%nat with (S n + S n)%nat by lia. rewrite sum_app, !sum_S_l.
  assert (Z : forall i, at_ (N := NumR) z i = 0) by exact Hz.
  set (A := sum _ n). match goal with |- context [sum ?g n] => set (B := sum g n) end.
  replace A with (total x); [replace B with (total x)|].
  - unfold pre_dst1_fft. cbn [Nat.eqb].
    replace (S n + 0 <? n + 1)%nat with false by (symmetry; apply Nat.ltb_ge; lia). replace (S n + 0 =? 0)%nat with false by reflexivity.
    replace (S n + 0 =? n + 1)%nat with true by (symmetry; apply Nat.eqb_eq; lia). cbn [fst snd]. rewrite !Z, !abs0. lra.
  - unfold total. rewrite Hx, (sum_rev (fun i => Rabs (nth i x 0))). unfold B. apply sum_ext.
    intros i Hi. unfold pre_dst1_fft. replace (S n + S i =? 0)%nat with false by reflexivity.
    replace (S n + S i <? n + 1)%nat with false by (symmetry; apply Nat.ltb_ge; lia).
    replace (S n + S i =? n + 1)%nat with false by (symmetry; apply Nat.eqb_neq; lia). cbn [fst snd c_from].
    change (@zero R R NumR) with 0. change (@neg R R NumR) with Ropp. rewrite abs0, Rplus_0_r, Rabs_Ropp. unfold at_. do 2 f_equal. lia.
  - unfold total. rewrite Hx. unfold A. apply sum_ext. intros i Hi. unfold pre_dst1_fft. cbn [Nat.eqb]. replace (S i <? n + 1)%nat with true by (symmetry; apply Nat.ltb_lt; lia). cbn [fst snd c_from].
    change (@zero R R NumR) with 0. rewrite abs0, Rplus_0_r. unfold at_. do 2 f_equal. lia.
Qed.
Lemma dst1_fft_acc n z : L = (2 * (n + 1))%nat -> (forall i, nth i z 0 = 0) ->
  entry_acc dst1_at n ((1 + u) * (1 + phi) - 1) (fun x => sem_dst1_fft f n x z).
Proof.
  intros HL Hz x k Hx Hk. subst n. exactly (dst1_fft_exact F0 x z k). unfold sem_dst1_fft. plain.
  replace ((1 + u) * (1 + phi) - 1) with (1 * ((1 + u) * (1 + phi) - 1)) by ring. apply nr_entry.
  replace (1 * total x) with (2 * total x * / 2) by field. apply nr_half; [lra|].
  apply out_exact; [lia| |rewrite HL; apply ct_dst1; auto].
  intros j _. unfold pre_dst1_fft, c_from. rewrite !(at_N u v N HN), (r_zero _ _ _ HN), (r_neg _ _ _ HN). reflexivity.
Qed.

(** * Types 2 and 3 *)
Lemma fold_total x n : length x = n -> sum (fun j => Rabs (nth (fold_pos n j) x 0)) n = total x.
Proof. intros Hx. rewrite (sum_perm n (fold_pos n) (fun i => Rabs (nth i x 0))); [unfold total; rewrite Hx; reflexivity|apply fold_pos_lt|apply fold_pos_inj]. Qed.
Lemma tau_nr t' t : Rabs (t' - t) <= tau u v -> Rabs t <= 1 -> nr (1 + tau u v) 1 t' t.
Proof. intros A B. split; lra. Qed.
Lemma tw_nr n k : (k < n)%nat ->
  let t' := nth k (map (fun i => single_twiddle i (n * 4)) (seq 0 n)) c0 in let t := nth k (t23_tw n) (c0 (N := NumR)) in
  nr (1 + tau u v) 1 (fst t') (fst t) /\ nr (1 + tau u v) 1 (snd t') (snd t).
Proof.
  intros Hk. cbv zeta. rewrite (nth_map_seq (fun i => single_twiddle i (n * 4))) by exact Hk.
  rewrite nth_t23_tw by exact Hk. rewrite <- (single_twiddle_cz k n) by lia.
  destruct (twiddle_close u v N HN Hv4 k (n * 4)) as [A B]; [lia|lia|].
  split; apply tau_nr; try assumption; cbn; rewrite Rmult_1_l; [apply cos_le1|apply sin_le1].
Qed.
(** Multiplication with a table entry. *)
Lemma cmul_nr g S S' a' a t' t : 1 <= g -> nr g S (fst a') (fst a) -> nr g S' (snd a') (snd a) ->
  nr (1 + tau u v) 1 (fst t') (fst t) -> nr (1 + tau u v) 1 (snd t') (snd t) ->
  nr ((1 + u) ^ 2 * (g * (1 + tau u v))) (S + S') (fst (c_mul a' t')) (fst (c_mul (N := NumR) a t)) /\
  nr ((1 + u) ^ 2 * (g * (1 + tau u v))) (S + S') (snd (c_mul a' t')) (snd (c_mul (N := NumR) a t)).
Proof.
  intros Hg A1 A2 T1 T2. pose proof (tau_ge0 u v N HN Hv4) as Ht. unfold c_mul. cbn [fst snd].
  change (@mul R R NumR) with Rmult. change (@add R R NumR) with Rplus. change (@sub R R NumR) with Rminus.
  replace ((1 + u) ^ 2 * (g * (1 + tau u v))) with ((1 + u) * ((1 + u) * (g * (1 + tau u v)))) by ring.
  assert (G : 1 <= (1 + u) * (g * (1 + tau u v))) by (assert (1 <= g * (1 + tau u v)) by nra; nra).
  split.
  - apply (nr_sub u v N HN); [exact G| |]; rewrite <- (Rmult_1_r S) || rewrite <- (Rmult_1_r S'); apply (nr_mul u v N HN); try assumption; lra.
  - apply (nr_add u v N HN); [exact G| |]; rewrite <- (Rmult_1_r S) || rewrite <- (Rmult_1_r S'); apply (nr_mul u v N HN); try assumption; lra.
Qed.
Notation tabN n := (map (fun i => single_twiddle i (n * 4)) (seq 0 n)).
Definition fft_const (c : nat) : R := 2 * ((1 + u) ^ c * ((1 + phi) * (1 + tau u v)) - 1).

Lemma dct2_fft_acc n : L = n -> entry_acc dct2_at n (fft_const 2) (sem_dct2_fft f (tabN n)).
Proof.
  intros HL x k Hx Hk. subst n. exactly (dct2_fft_exact F0 x k). unfold sem_dct2_fft. rewrite Hx. plain.
  unfold fft_const. apply nr_entry. replace (2 * total x) with (total x + total x) by ring.
  destruct (tw_nr L k Hk) as [T1 T2]. destruct (out_exact (pre_dct2_fft x) (pre_dct2_fft (N := NumR) x) (total x) k Hk) as [O1 O2].
  - intros j _. unfold pre_dct2_fft, c_from. rewrite !(at_N u v N HN), (r_zero _ _ _ HN). reflexivity.
  - apply Req_le. rewrite <- (fold_total x L) by exact Hx. apply sum_ext. intros j _. unfold pre_dct2_fft, c_from. cbn [fst snd].
    change (@zero R R NumR) with 0. rewrite abs0, Rplus_0_r, Hx. reflexivity.
  - apply cmul_nr; try assumption. lra.
Qed.
Lemma dst2_fft_acc n : L = n -> entry_acc dst2_at n (fft_const 2) (sem_dst2_fft f (tabN n)).
Proof.
  intros HL x k Hx Hk. subst n. exactly (dst2_fft_exact F0 x k). unfold sem_dst2_fft. cbv zeta. rewrite Hx. plain.
  unfold fft_const. apply nr_entry. replace (2 * total x) with (total x + total x) by ring.
  destruct (tw_nr L (L - 1 - k) ltac:(lia)) as [T1 T2].
  destruct (out_exact (pre_dst2_fft x) (pre_dst2_fft (N := NumR) x) (total x) (L - 1 - k) ltac:(lia)) as [O1 O2].
  - intros j _. unfold pre_dst2_fft, c_from. cbv zeta. rewrite !(at_N u v N HN), (r_zero _ _ _ HN), (r_neg _ _ _ HN). reflexivity.
  - apply Req_le. rewrite <- (fold_total x L) by exact Hx. apply sum_ext. intros j _. unfold pre_dst2_fft, c_from. cbv zeta. cbn [fst snd].
    change (@zero R R NumR) with 0. change (@neg R R NumR) with Ropp. rewrite abs0, Rplus_0_r, Hx. destruct (is_odd _); [apply Rabs_Ropp|reflexivity].
  - apply cmul_nr; try assumption. lra.
Qed.

(** The preparation for types 3: products with the table, halved. *)
Lemma pre3_nr n j a b : (j < n)%nat -> j <> 0%nat ->
  let z' := c_scale (c_mul (a, b) (nth j (tabN n) c0)) half in
  let z := c_scale (N := NumR) (c_mul (N := NumR) (a, b) (nth j (t23_tw n) (c0 (N := NumR)))) (half (N := NumR)) in
  nr ((1 + u) ^ 3 * (1 + tau u v)) ((Rabs a + Rabs b) * / 2) (fst z') (fst z) /\
  nr ((1 + u) ^ 3 * (1 + tau u v)) ((Rabs a + Rabs b) * / 2) (snd z') (snd z).
Proof.
  intros Hj Hj0 z' z. pose proof (tau_ge0 u v N HN Hv4) as Ht. destruct (tw_nr n j Hj) as [T1 T2].
  destruct (cmul_nr 1 (Rabs a) (Rabs b) (a, b) (a, b) (nth j (tabN n) c0) (nth j (t23_tw n) (c0 (N := NumR))) (Rle_refl 1)) as [C1 C2];
    try assumption; try (apply nr_refl; lra).
  assert (G : 1 <= (1 + u) ^ 2 * (1 * (1 + tau u v))).
  { assert (1 <= (1 + u) ^ 2) by nra. nra. }
  unfold z', z, c_scale. cbn [fst snd]. change (@half R R NumR) with (/ 2).
  replace ((1 + u) ^ 3 * (1 + tau u v)) with ((1 + u) * ((1 + u) ^ 2 * (1 * (1 + tau u v)))) by ring.
  split; apply nr_half; assumption.
Qed.
Lemma first_nr a : nr ((1 + u) ^ 3 * (1 + tau u v)) (Rabs a) (mul a half) (a * / 2).
Proof.
  pose proof (tau_ge0 u v N HN Hv4) as Ht. pose proof (Rabs_pos a).
  eapply nr_mono; [| | |apply (nr_half 1 (Rabs a) a a (Rle_refl 1)), nr_refl; lra]; [nra| |lra].
  assert ((1 + u) <= (1 + u) ^ 3) by (assert (1 <= (1 + u) ^ 2) by nra; nra). nra.
Qed.
Lemma zero_nr g : nr g 0 0 0.
Proof. split; rewrite ?Rminus_eq_0, abs0; lra. Qed.
Lemma type3_out n (p0 : nat) (pa pb : nat -> nat) x k : L = n -> (k < n)%nat ->
  Rabs (nth p0 x 0) + sum (fun i => Rabs (nth (pa (S i)) x 0) + Rabs (nth (pb (S i)) x 0)) (n - 1) <= 2 * total x ->
  let z' := fun j => if (j =? 0)%nat then c_from (mul (at_ x p0) half)
                     else c_scale (c_mul (at_ x (pa j), at_ x (pb j)) (nth j (tabN n) c0)) half in
  let z := fun j => if (j =? 0)%nat then c_from (N := NumR) (mul (Num := NumR) (at_ (N := NumR) x p0) (half (N := NumR)))
                    else c_scale (N := NumR) (c_mul (N := NumR) (at_ (N := NumR) x (pa j), at_ (N := NumR) x (pb j)) (nth j (t23_tw n) (c0 (N := NumR)))) (half (N := NumR)) in
  nr ((1 + u) ^ 3 * (1 + tau u v) * (1 + phi)) (2 * total x) (fst (nth k (fft_out f (map z' (seq 0 L))) c0)) (Dre L z (zn k)).
Proof.
  intros HL Hk HT z' z. pose proof (tau_ge0 u v N HN Hv4) as Ht. subst n.
  pose (S := fun j => if (j =? 0)%nat then Rabs (nth p0 x 0) else (Rabs (nth (pa j) x 0) + Rabs (nth (pb j) x 0)) * / 2).
  pose (S' := fun j => if (j =? 0)%nat then 0 else (Rabs (nth (pa j) x 0) + Rabs (nth (pb j) x 0)) * / 2).
  apply (out_nr z' z S S'); [exact Hk| | |].
  - assert (1 <= (1 + u) ^ 3) by (assert (1 <= (1 + u) ^ 2) by nra; nra). nra.
  - intros j Hj. unfold S, S', z', z. destruct (Nat.eqb_spec j 0).
    + unfold c_from. cbn [fst snd]. rewrite (r_zero _ _ _ HN), (at_N u v N HN). split; [apply first_nr|apply zero_nr].
    + rewrite !(at_N u v N HN). apply pre3_nr; assumption.
  - eapply Rle_trans; [apply Req_le|exact HT]. rewrite (sum_first _ L) by lia. unfold S, S'. cbn [Nat.eqb].
    rewrite Rplus_0_r. f_equal. apply sum_ext. intros i _. lra.
Qed.
Lemma dct3_fft_acc n : L = n -> entry_acc dct3_at n (fft_const 3) (sem_dct3_fft f (tabN n)).
Proof.
  intros HL x k Hx Hk. subst n. exactly (dct3_fft_exact F0 x k). unfold sem_dct3_fft. rewrite Hx.
  rewrite (fft_out_nth F0) by (first [apply (proj2 reference_fft_fits)|cbn [fft_len reference_fft]; apply unfold_pos_lt; exact Hk]). cbn [fst snd fft_len reference_fft].
  unfold fft_const. apply nr_entry. replace ((1 + u) ^ 3 * ((1 + phi) * (1 + tau u v))) with ((1 + u) ^ 3 * (1 + tau u v) * (1 + phi)) by ring.
  unfold pre_dct3_fft. rewrite Hx. apply (type3_out L 0 (fun j => j) (fun j => L - j)%nat); [reflexivity|apply unfold_pos_lt; exact Hk|].
  rewrite sum_plus, (sum_rev (fun i => Rabs (nth (L - S i) x 0))).
  rewrite (sum_ext (fun i => Rabs (nth (L - S (L - 1 - 1 - i)) x 0)) (fun i => Rabs (nth (S i) x 0))) by (intros i Hi; do 2 f_equal; lia).
  unfold total. rewrite Hx, (sum_first _ L) by lia. pose proof (Rabs_pos (nth 0 x 0)). lra.
Qed.
Lemma dst3_fft_acc n : L = n -> entry_acc dst3_at n (fft_const 3) (sem_dst3_fft f (tabN n)).
Proof.
  intros HL x k Hx Hk. subst n. exactly (dst3_fft_exact F0 x k). unfold sem_dst3_fft. cbv zeta. rewrite Hx.
  rewrite (fft_out_nth F0) by (first [apply (proj2 reference_fft_fits)|cbn [fft_len reference_fft]; apply unfold_pos_lt; exact Hk]). cbn [fst snd fft_len reference_fft].
  unfold fft_const. apply nr_entry. replace ((1 + u) ^ 3 * ((1 + phi) * (1 + tau u v))) with ((1 + u) ^ 3 * (1 + tau u v) * (1 + phi)) by ring.
  assert (O : nr ((1 + u) ^ 3 * (1 + tau u v) * (1 + phi)) (2 * total x)
    (fst (nth (unfold_pos L k) (fft_out f (map (pre_dst3_fft (tabN L) x) (seq 0 L))) c0)) (Dre L (pre_dst3_fft (N := NumR) (t23_tw L) x) (zn (unfold_pos L k)))).
  { unfold pre_dst3_fft. rewrite Hx. apply (type3_out L (L - 1) (fun j => L - j - 1)%nat (fun j => j - 1)%nat); [reflexivity|apply unfold_pos_lt; exact Hk|].
    rewrite sum_plus, (sum_rev (fun i => Rabs (nth (L - S i - 1) x 0))).
    rewrite (sum_ext (fun i => Rabs (nth (L - S (L - 1 - 1 - i) - 1) x 0)) (fun i => Rabs (nth i x 0))) by (intros i Hi; do 2 f_equal; lia).
    rewrite (sum_ext (fun i => Rabs (nth (S i - 1) x 0)) (fun i => Rabs (nth i x 0))) by (intros i Hi; do 2 f_equal; lia).
    unfold total. rewrite Hx. replace (sum (fun i => Rabs (nth i x 0)) L) with (sum (fun i => Rabs (nth i x 0)) (S (L - 1))) by (f_equal; lia).
    cbn [sum]. pose proof (Rabs_pos (nth (L - 1) x 0)). lra. }
  destruct (is_odd k); [change (@neg R R NumR) with Ropp; apply (nr_neg u v N HN)|]; exact O.
Qed.

(** * DST6 and DST7 *)
Lemma ct_dst6 x n z : length x = n -> (forall i, nth i z 0 = 0) -> ct (2 * n + 1) (pre_dst6_fft (N := NumR) x z) <= total x.
Proof.
  intros Hx Hz. unfold ct. rewrite sum_even_odd_S.
  assert (Z : forall i, at_ (N := NumR) z i = 0) by exact Hz.
  rewrite sum_zero'.
  - rewrite Rplus_0_l. unfold total. rewrite Hx. apply Req_le, sum_ext. intros i Hi. unfold pre_dst6_fft, is_odd.
    replace ((2 * i + 1) mod 2)%nat with 1%nat by lia. replace ((2 * i + 1) / 2)%nat with i by lia. cbn [Nat.eqb fst snd]. rewrite Z, abs0, Rplus_0_l. reflexivity.
  - intros i Hi. unfold pre_dst6_fft, is_odd. replace ((2 * i) mod 2)%nat with 0%nat by lia. cbn [Nat.eqb fst snd]. rewrite !Z, abs0. lra.
Qed.
Lemma dst6_fft_acc n z : L = (2 * n + 1)%nat -> (forall i, nth i z 0 = 0) ->
  entry_acc dst6_at n phi (fun x => sem_dst6_fft f x z).
Proof.
  intros HL Hz x k Hx Hk. subst n. exactly (dst6_fft_exact F0 x z k). unfold sem_dst6_fft. pose proof (post_dst6_pos_lt _ _ Hk). plain.
  replace phi with (1 * ((1 + phi) - 1)) by ring. apply nr_entry. rewrite Rmult_1_l.
  apply out_exact; [lia| |rewrite HL; apply ct_dst6; auto].
  intros j _. unfold pre_dst6_fft. rewrite !(at_N u v N HN). reflexivity.
Qed.
Lemma ct_dst7 x n z : length x = n -> (forall i, nth i z 0 = 0) -> ct (2 * n + 1) (pre_dst7_fft (N := NumR) x z) <= 2 * total x.
Proof.
  intros Hx Hz. assert (Z : forall i, at_ (N := NumR) z i = 0) by exact Hz. unfold ct.
  replace (2 * n + 1)%nat with (S (n + n)) by lia. rewrite sum_S_l, sum_app.
  replace (Rabs (fst (pre_dst7_fft (N := NumR) x z 0)) + Rabs (snd (pre_dst7_fft (N := NumR) x z 0))) with 0
    by (unfold pre_dst7_fft; cbn [Nat.eqb fst snd]; rewrite !Z, abs0; lra).
  assert (P : sum (fun i => Rabs (nth (up7_pos n i) x 0)) n = total x).
  { rewrite (sum_perm n (up7_pos n) (fun i => Rabs (nth i x 0)) (up7_pos_lt n) (up7_pos_inj n)). unfold total. rewrite Hx. reflexivity. }
  rewrite (sum_rev _ n), Rplus_0_l, <- sum_plus. rewrite <- P, <- sum_scal_l. apply Req_le, sum_ext. intros i Hi.
  assert (E1 : pre_dst7_fft (N := NumR) x z (S (n + i)) = (nth (up7_pos n i) x 0, 0)).
  { unfold pre_dst7_fft. cbv zeta. rewrite Hx. rewrite (proj2 (Nat.eqb_neq _ _)) by lia. rewrite (proj2 (Nat.ltb_ge _ _)) by lia.
    replace (S (n + i)) with (n + 1 + i)%nat by lia. apply up_dst7_at. }
  assert (E2 : pre_dst7_fft (N := NumR) x z (S (n - 1 - i)) = (- nth (up7_pos n i) x 0, - 0)).
  { unfold pre_dst7_fft. cbv zeta. rewrite Hx. rewrite (proj2 (Nat.eqb_neq _ _)) by lia. rewrite (proj2 (Nat.ltb_lt _ _)) by lia.
    replace (2 * n + 1 - S (n - 1 - i))%nat with (n + 1 + i)%nat by lia. rewrite up_dst7_at. reflexivity. }
  rewrite E1, E2. cbn [fst snd]. rewrite !Rabs_Ropp, abs0. lra.
Qed.
Lemma dst7_fft_acc n z : L = (2 * n + 1)%nat -> (forall i, nth i z 0 = 0) ->
  entry_acc dst7_at n ((1 + u) * (1 + phi) - 1) (fun x => sem_dst7_fft f x z).
Proof.
  intros HL Hz x k Hx Hk. subst n. exactly (dst7_fft_exact F0 x z k). unfold sem_dst7_fft. plain.
  replace ((1 + u) * (1 + phi) - 1) with (1 * ((1 + u) * (1 + phi) - 1)) by ring. apply nr_entry.
  replace (1 * total x) with (2 * total x * / 2) by field. apply nr_half; [lra|].
  apply out_exact; [lia| |rewrite HL; apply ct_dst7; auto].
  intros j _. unfold pre_dst7_fft, up_dst7_fft, c_neg. cbv zeta. rewrite !(at_N u v N HN), (r_zero _ _ _ HN).
  destruct (j =? 0)%nat; [reflexivity|]. destruct (j <? length x + 1)%nat; destruct (_ <? _)%nat; cbn [fst snd]; rewrite ?(r_neg _ _ _ HN); reflexivity.
Qed.

(** * Type 4, odd lengths *)
Lemma sgn_N i : sgn (N := N) i = alt i.
Proof.
  induction i; cbn [sgn]; [rewrite (r_one _ _ _ HN); reflexivity|]. rewrite IHi, (r_neg _ _ _ HN), alt_S. reflexivity.
Qed.
Lemma alt_abs i : Rabs (alt i) = 1.
Proof. unfold alt. destruct (_ =? _)%nat; [apply Rabs_R1|]. rewrite Rabs_left by lra. lra. Qed.
Lemma sign_nr a : Rabs a = 1 -> nr 1 1 a a.
Proof. intros H. pose proof (nr_refl 1 a (Rle_refl 1)) as R0. rewrite H in R0. exact R0. Qed.
Lemma sqrt2_pos : 0 < sqrt 2. Proof. apply sqrt_lt_R0. lra. Qed.
Lemma root_nr : nr ((1 + u) * (1 + u)) (sqrt 2 * / 2) (mul sqrt_2 half) (sqrt 2 * / 2).
Proof.
  pose proof sqrt2_pos. apply nr_half; [lra|]. rewrite <- (Rabs_right (sqrt 2)) at 1 by lra. apply nr_fac. apply fac_rel, (r_sqrt_2 _ _ _ HN).
Qed.
Lemma scale_nr i : nr ((1 + u) ^ 3) (sqrt 2 * / 2) (mul (sgn i) (mul sqrt_2 half)) (alt i * (sqrt 2 * / 2)).
Proof.
  rewrite sgn_N. replace ((1 + u) ^ 3) with ((1 + u) * (1 * ((1 + u) * (1 + u)))) by ring.
  replace (sqrt 2 * / 2) with (1 * (sqrt 2 * / 2)) at 1 by ring.
  apply (nr_mul u v N HN); [lra|nra|apply sign_nr, alt_abs|apply root_nr].
Qed.
Section T4.
Variables (g T : R) (n : nat) (Z' Z : list (R * R)).
Hypothesis Hg : 1 <= g.
Hypothesis HZ : forall j, (j < n)%nat -> nr g T (fst (nth j Z' c0)) (fst (nth j Z (c0 (N := NumR)))) /\ nr g T (snd (nth j Z' c0)) (snd (nth j Z (c0 (N := NumR)))).
Let S := T * (sqrt 2 * / 2).
Lemma t4_scaled_nr j i : (j < n)%nat ->
  nr ((1 + u) ^ 4 * g) S (fst (t4_scaled (N := N) Z' j i)) (fst (t4_scaled (N := NumR) Z j i)) /\
  nr ((1 + u) ^ 4 * g) S (snd (t4_scaled (N := N) Z' j i)) (snd (t4_scaled (N := NumR) Z j i)).
Proof.
  intros Hj. destruct (HZ j Hj) as [A B]. unfold t4_scaled, c_scale. cbn [fst snd]. rewrite sgn_alt.
  change (@half R R NumR) with (/ 2). change (@sqrt_2 R R NumR) with (sqrt 2). change (@mul R R NumR) with Rmult.
  replace ((1 + u) ^ 4 * g) with ((1 + u) * (g * (1 + u) ^ 3)) by ring.
  assert (1 <= (1 + u) ^ 3) by (assert (1 <= (1 + u) ^ 2) by nra; nra).
  split; apply (nr_mul u v N HN); try assumption; apply scale_nr.
Qed.
Lemma pow4_ge1 : 1 <= (1 + u) ^ 4 * g.
Proof. assert (1 <= (1 + u) ^ 2) by nra. assert (1 <= (1 + u) ^ 4) by nra. nra. Qed.
Lemma T_pos : (0 < n)%nat -> 0 <= T.
Proof. intros H. destruct (HZ 0%nat H) as [A _]. exact (nr_pos _ _ _ _ A). Qed.
Lemma t4_add j i : (j < n)%nat ->
  let c' := t4_scaled (N := N) Z' j i in let c := t4_scaled (N := NumR) Z j i in
  nr ((1 + u) ^ 5 * g) (S + S) (add (fst c') (snd c')) (fst c + snd c) /\
  nr ((1 + u) ^ 5 * g) (S + S) (sub (fst c') (snd c')) (fst c - snd c) /\
  nr ((1 + u) ^ 5 * g) (S + S) (add (neg (fst c')) (snd c')) (- fst c + snd c).
Proof.
  intros Hj c' c. destruct (t4_scaled_nr j i Hj) as [A B]. pose proof pow4_ge1.
  replace ((1 + u) ^ 5 * g) with ((1 + u) * ((1 + u) ^ 4 * g)) by ring.
  split; [|split]; [apply (nr_add u v N HN)|apply (nr_sub u v N HN)|apply (nr_add u v N HN)]; try assumption. apply (nr_neg u v N HN). exact A.
Qed.
Lemma ssign_N : t4_ssign (N := N) n = t4_ssign (N := NumR) n.
Proof. unfold t4_ssign. rewrite (r_neg _ _ _ HN), (r_one _ _ _ HN). reflexivity. Qed.
Lemma ssign_abs : Rabs (t4_ssign (N := NumR) n) = 1.
Proof. unfold t4_ssign. destruct (_ =? _)%nat; [apply Rabs_R1|]. change (Rabs (- (1)) = 1). rewrite Rabs_Ropp; apply Rabs_R1. Qed.
Lemma t4_sign w' w : nr ((1 + u) ^ 5 * g) (S + S) w' w -> nr ((1 + u) ^ 6 * g) (S + S) (mul w' (t4_ssign (N := N) n)) (w * t4_ssign (N := NumR) n).
Proof.
  intros H. rewrite ssign_N. pose proof pow4_ge1.
  replace ((1 + u) ^ 6 * g) with ((1 + u) * ((1 + u) ^ 5 * g * 1)) by ring. replace (S + S) with ((S + S) * 1) by ring.
  apply (nr_mul u v N HN); [|lra|exact H|apply sign_nr, ssign_abs].
  replace ((1 + u) ^ 5 * g) with ((1 + u) * ((1 + u) ^ 4 * g)) by ring. set (w0 := (1 + u) ^ 4 * g) in * . nra.
Qed.
Lemma up6 w' w : nr ((1 + u) ^ 5 * g) (S + S) w' w -> nr ((1 + u) ^ 6 * g) (S + S) w' w.
Proof.
  intros H. pose proof pow4_ge1. assert (E : (1 + u) ^ 5 * g = (1 + u) * ((1 + u) ^ 4 * g)) by ring. assert (E' : (1 + u) ^ 6 * g = (1 + u) * ((1 + u) ^ 5 * g)) by ring.
  assert (P : 1 <= (1 + u) ^ 5 * g) by (rewrite E; set (w0 := (1 + u) ^ 4 * g) in *; nra).
  apply (nr_mono ((1 + u) ^ 5 * g) _ (S + S)); [exact P| |lra|exact H]. rewrite E'. set (w0 := (1 + u) ^ 5 * g) in * . nra.
Qed.
Lemma t4_mid (s : bool) : (0 < n)%nat ->
  nr ((1 + u) ^ 6 * g) (S + S)
    (mul (mul (if s then fst (nth 0 Z' c0) else neg (fst (nth 0 Z' c0))) (sgn (n / 4))) (mul sqrt_2 half))
    ((if s then fst (nth 0 Z (c0 (N := NumR))) else - fst (nth 0 Z (c0 (N := NumR)))) * alt (n / 4) * (sqrt 2 * / 2)).
Proof.
  intros Hn. destruct (HZ 0%nat Hn) as [A _]. rewrite sgn_N. pose proof sqrt2_pos. pose proof (T_pos Hn). pose proof pow4_ge1 as P4.
  assert (B : nr g T (if s then fst (nth 0 Z' c0) else neg (fst (nth 0 Z' c0))) (if s then fst (nth 0 Z (c0 (N := NumR))) else - fst (nth 0 Z (c0 (N := NumR))))).
  { destruct s; [exact A|apply (nr_neg u v N HN); exact A]. }
  pose proof (nr_mul u v N HN _ _ _ _ _ _ _ _ Hg (Rle_refl 1) B (sign_nr _ (alt_abs (n / 4)))) as C.
  assert (G1 : 1 <= (1 + u) * (g * 1)) by nra. assert (G2 : 1 <= (1 + u) * (1 + u)) by nra.
  pose proof (nr_mul u v N HN _ _ _ _ _ _ _ _ G1 G2 C root_nr) as D.
  assert (SP : 0 <= S) by (unfold S; apply Rmult_le_pos; lra).
  assert (E : (1 + u) * ((1 + u) * (g * 1) * ((1 + u) * (1 + u))) = (1 + u) ^ 4 * g) by ring. rewrite E in D.
  assert (E' : (1 + u) ^ 6 * g = (1 + u) ^ 2 * ((1 + u) ^ 4 * g)) by ring. assert (1 <= (1 + u) ^ 2) by nra.
  eapply nr_mono; [| | |exact D]; [exact P4|rewrite E'; set (w0 := (1 + u) ^ 4 * g) in *; set (w1 := (1 + u) ^ 2) in *; nra|]. unfold S in * . lra.
Qed.
Lemma post_t4_nr dst k : (n mod 2 = 1)%nat -> (k < n)%nat ->
  nr ((1 + u) ^ 6 * g) (S + S) (post_t4 (N := N) dst n Z' k) (post_t4 (N := NumR) dst n Z k).
Proof.
  intros Hodd Hk. unfold post_t4. cbv zeta. rewrite !sgn_alt.
  change (@half R R NumR) with (/ 2). change (@sqrt_2 R R NumR) with (sqrt 2). change (@mul R R NumR) with Rmult.
  change (@neg R R NumR) with Ropp. change (@add R R NumR) with Rplus. change (@sub R R NumR) with Rminus.
  assert (n mod 4 = 1 \/ n mod 4 = 3)%nat by lia.
  destruct (Nat.ltb_spec k (2 * (n / 4))).
  - destruct (Nat.eqb_spec (k mod 2) 0); [|destruct dst]; apply up6; apply t4_add; lia.
  - destruct (Nat.ltb_spec (n - 1 - k) (2 * (n / 4))).
    + destruct (Nat.eqb_spec ((n - 1 - k) mod 2) 0); [|destruct dst]; apply t4_sign; try (apply t4_add; lia).
      apply (nr_neg u v N HN). apply t4_add; lia.
    + destruct (Nat.eqb_spec (n mod 4) 1); [apply (t4_mid true); lia|].
      destruct (Nat.eqb_spec k (n / 2 - 1)); [apply up6; apply t4_add; lia|].
      destruct (Nat.eqb_spec k (n / 2 + 1)); [apply up6; apply t4_add; lia|].
      destruct dst; [apply (t4_mid true); lia|apply (t4_mid false); lia].
Qed.
End T4.

Lemma ext4_abs flip x p n : length x = n -> (0 < n)%nat -> (p < 5 * n)%nat ->
  Rabs (ext4 (N := NumR) flip x p) = Rabs (nth (if flip then (n - 1 - fold4 n p)%nat else fold4 n p) x 0).
Proof.
  intros Hx Hn Hp. destruct (fold4_cases n p Hn Hp) as (q & r & _ & Hr & Hq & E1 & E2).
  unfold ext4, fold4. cbv zeta. rewrite Hx, E1, E2. change (@neg R R NumR) with Ropp. unfold at_.
  destruct q as [|[|[|[|[|?]]]]]; try lia; cbn [Nat.eqb Nat.modulo Nat.divmod fst snd Nat.sub]; destruct flip; rewrite ?Rabs_Ropp; try reflexivity; try (do 2 f_equal; lia).
Qed.
Lemma ct_t4 flip x n : length x = n -> (n mod 2 = 1)%nat -> ct n (pre_t4_fft (N := NumR) flip x) <= total x.
Proof.
  intros Hx Hodd. unfold ct, pre_t4_fft. cbn [fst snd]. change (@zero R R NumR) with 0. rewrite abs0.
  rewrite (sum_ext _ (fun t => Rabs (nth ((fun t => if flip then (n - 1 - fold4 n (n / 2 + 4 * t))%nat else fold4 n (n / 2 + 4 * t)) t) x 0))).
  2:{ intros t Ht. rewrite Rplus_0_r, Hx. apply ext4_abs; [exact Hx|lia|lia]. }
  rewrite (sum_perm n (fun t => if flip then (n - 1 - fold4 n (n / 2 + 4 * t))%nat else fold4 n (n / 2 + 4 * t)) (fun i => Rabs (nth i x 0))).
  - unfold total. rewrite Hx. apply Rle_refl.
  - intros t Ht. pose proof (fold4_lt n (n / 2 + 4 * t) ltac:(lia)). destruct flip; lia.
  - intros s t Hs Ht E. apply (fold4_inj n); [exact Hodd|exact Hs|exact Ht|].
    pose proof (fold4_lt n (n / 2 + 4 * t) ltac:(lia)). pose proof (fold4_lt n (n / 2 + 4 * s) ltac:(lia)). destruct flip; lia.
Qed.
Lemma t4_out dst n x k : L = n -> (n mod 2 = 1)%nat -> length x = n -> (k < n)%nat ->
  nr ((1 + u) ^ 6 * (1 + phi)) (2 * total x) (sem_t4_fft dst f x k) (sem_t4_fft (N := NumR) dst F0 x k).
Proof.
  intros HL Hodd Hx Hk. subst n. unfold sem_t4_fft. rewrite Hx. pose proof (total_ge0 x) as HT.
  assert (R2 : sqrt 2 <= 2) by (rewrite <- (sqrt_square 2) at 2 by lra; apply sqrt_le_1_alt; lra).
  eapply nr_mono; [| | |apply (post_t4_nr (1 + phi) (total x) L); [lra| |exact Hodd|exact Hk]].
  - assert (1 <= (1 + u) ^ 2) by nra. assert (1 <= (1 + u) ^ 6) by (replace ((1 + u) ^ 6) with (((1 + u) ^ 2) * ((1 + u) ^ 2) * ((1 + u) ^ 2)) by ring; nra). nra.
  - apply Rle_refl.
  - assert (total x * sqrt 2 <= total x * 2) by (apply Rmult_le_compat_l; assumption). lra.
  - intros j Hj. plain. apply out_exact; [exact Hj| |apply ct_t4; assumption].
    intros t _. unfold pre_t4_fft, ext4. cbv zeta. rewrite !(at_N u v N HN), (r_zero _ _ _ HN), !(r_neg _ _ _ HN). reflexivity.
Qed.
Lemma const_6 n (t : list R -> nat -> R) g :
  (forall x k, length x = n -> (k < n)%nat -> nr ((1 + u) ^ 6 * (1 + phi)) (2 * total x) (g x k) (t x k)) -> entry_acc t n (fft_const 6) g.
Proof.
  intros H x k Hx Hk. specialize (H x k Hx Hk). unfold fft_const. apply nr_entry. pose proof (tau_ge0 u v N HN Hv4).
  assert (1 <= (1 + u) ^ 2) by nra. assert (1 <= (1 + u) ^ 6) by (replace ((1 + u) ^ 6) with (((1 + u) ^ 2) * ((1 + u) ^ 2) * ((1 + u) ^ 2)) by ring; nra).
  assert (1 <= (1 + u) ^ 6 * (1 + phi)) by nra. eapply nr_mono; [| |apply Rle_refl|exact H]; [assumption|]. rewrite <- Rmult_assoc. nra.
Qed.
Lemma dct4_fft_acc n : L = n -> (n mod 2 = 1)%nat -> entry_acc dct4_at n (fft_const 6) (sem_t4_fft false f).
Proof.
  intros HL Hodd. apply const_6. intros x k Hx Hk. rewrite <- (t4_exact F0 x k); [apply (t4_out false n); assumption|apply (proj2 reference_fft_fits)|cbn [fft_len reference_fft]; lia|rewrite Hx; exact Hodd|lia].
Qed.
Lemma dst4_fft_acc n : L = n -> (n mod 2 = 1)%nat -> entry_acc dst4_at n (fft_const 6) (sem_t4_fft true f).
Proof.
  intros HL Hodd. apply const_6. intros x k Hx Hk. rewrite <- (t4_exact_dst F0 x k); [apply (t4_out true n); assumption|apply (proj2 reference_fft_fits)|cbn [fft_len reference_fft]; lia|rewrite Hx; exact Hodd|lia].
Qed.
End Fft.
