(** Accuracy of the split radix and type 4 algorithms in rounded arithmetic, from the accuracy of their
    inner transforms. *)
From Coq Require Import Reals ZArith List Arith Lia Lra Psatz ZifyNat.
From Verif Require Import Num Model_Common Spec Spec_Round Trig Ref Ref_Split Wp Sem_Naive Sem_Split Sem_Split2
  Exact_Split Energy Round_Ops Round_Stage Round_Stage3.
Import ListNotations.
Open Scope R_scope.
Ltac Zify.zify_post_hook ::= Z.div_mod_to_equations.

(** * Accuracy: [h] approximates the transform of [x] up to [r - 1] times the size of the exact result. *)
Definition near2 (n : nat) (r : R) (h : nat -> R) (x : list R) : Prop :=
  sqrt (sq wf n (fun k => h k - dct2_at x k)) <= (r - 1) * sqrt (INR n * sq w1 n (nt x)).
Definition nears2 (n : nat) (r : R) (h : nat -> R) (x : list R) : Prop :=
  sqrt (sq (wl n) n (fun k => h k - dst2_at x k)) <= (r - 1) * sqrt (INR n * sq w1 n (nt x)).
Definition near3 (n : nat) (r : R) (h : nat -> R) (x : list R) : Prop :=
  sqrt (sq w1 n (fun k => h k - dct3_at x k)) <= (r - 1) * sqrt (INR n / 4 * sq wf n (nt x)).
Definition nears3 (n : nat) (r : R) (h : nat -> R) (x : list R) : Prop :=
  sqrt (sq w1 n (fun k => h k - dst3_at x k)) <= (r - 1) * sqrt (INR n / 4 * sq (wl n) n (nt x)).
Definition near4 (n : nat) (r : R) (h : nat -> R) (x : list R) : Prop :=
  sqrt (sq w1 n (fun k => h k - dct4_at x k)) <= (r - 1) * sqrt (INR n / 2 * sq w1 n (nt x)).
Definition nears4 (n : nat) (r : R) (h : nat -> R) (x : list R) : Prop :=
  sqrt (sq w1 n (fun k => h k - dst4_at x k)) <= (r - 1) * sqrt (INR n / 2 * sq w1 n (nt x)).
Definition acc (near : nat -> R -> (nat -> R) -> list R -> Prop) (n : nat) (r : R) (G : list R -> nat -> R) : Prop :=
  forall x, length x = n -> near n r (G x) x.

Lemma near2_mono n r r' h x : r <= r' -> near2 n r h x -> near2 n r' h x.
Proof. unfold near2. intros Hr H. eapply Rle_trans; [exact H|]. apply Rmult_le_compat_r; [apply sqrt_pos|lra]. Qed.
Lemma nears2_mono n r r' h x : r <= r' -> nears2 n r h x -> nears2 n r' h x.
Proof. unfold nears2. intros Hr H. eapply Rle_trans; [exact H|]. apply Rmult_le_compat_r; [apply sqrt_pos|lra]. Qed.
Lemma near3_mono n r r' h x : r <= r' -> near3 n r h x -> near3 n r' h x.
Proof. unfold near3. intros Hr H. eapply Rle_trans; [exact H|]. apply Rmult_le_compat_r; [apply sqrt_pos|lra]. Qed.
Lemma nears3_mono n r r' h x : r <= r' -> nears3 n r h x -> nears3 n r' h x.
Proof. unfold nears3. intros Hr H. eapply Rle_trans; [exact H|]. apply Rmult_le_compat_r; [apply sqrt_pos|lra]. Qed.

(** * Reversal and signs *)
Lemma sq_rev w n f : sq w n (fun k => f (n - 1 - k)%nat) = sq (fun k => w (n - 1 - k)%nat) n f.
Proof.
  unfold sq. rewrite sum_rev. apply sum_ext. intros i Hi. replace (n - 1 - (n - 1 - i))%nat with i by lia. reflexivity.
Qed.
Lemma sq_abs w v n f g : (forall i, (i < n)%nat -> w i = v i) -> (forall i, (i < n)%nat -> Rabs (f i) = Rabs (g i)) -> sq w n f = sq v n g.
Proof. intros E H. unfold sq. apply sum_ext. intros i Hi. rewrite (Rsqr_abs (f i)), (Rsqr_abs (g i)), H, E by exact Hi. reflexivity. Qed.
Lemma wl_wf n k : (k < n)%nat -> wl n (n - 1 - k) = wf k.
Proof. intros H. unfold wl, wf. destruct (Nat.eqb_spec (n - 1 - k) (n - 1)), (Nat.eqb_spec k 0); try lia; reflexivity. Qed.
Lemma wf_wl n k : (k < n)%nat -> wf (n - 1 - k) = wl n k.
Proof. intros H. unfold wl, wf. destruct (Nat.eqb_spec (n - 1 - k) 0), (Nat.eqb_spec k (n - 1)); try lia; reflexivity. Qed.
Lemma Rabs_alt i a : Rabs (alt i * a) = Rabs a.
Proof. unfold alt. destruct (_ =? _)%nat; [rewrite Rmult_1_l; reflexivity|]. replace (-1 * a) with (- a) by ring. apply Rabs_Ropp. Qed.
Lemma w1_rev n (x : list R) : length x = n -> sq w1 n (nt (rev x)) = sq w1 n (nt x).
Proof.
  intros Hx. rewrite (sq_ext w1 w1 n (nt (rev x)) (fun k => nth (n - 1 - k) x 0)); [|reflexivity|].
  - rewrite (sq_rev w1 n (nt x)). apply sq_ext; reflexivity.
  - intros i Hi. rewrite rev_nth by lia. f_equal. lia.
Qed.
Lemma wf_rev n (x : list R) : length x = n -> sq wf n (nt (rev x)) = sq (wl n) n (nt x).
Proof.
  intros Hx. rewrite (sq_ext wf wf n (nt (rev x)) (fun k => nth (n - 1 - k) x 0)); [|reflexivity|].
  - rewrite (sq_rev wf n (nt x)). apply sq_ext; [|reflexivity]. intros. apply wf_wl. assumption.
  - intros i Hi. rewrite rev_nth by lia. f_equal. lia.
Qed.
Lemma w1_alt n (x : list R) : length x = n -> sq w1 n (nt (alt_list x)) = sq w1 n (nt x).
Proof. intros Hx. apply sq_abs; [reflexivity|]. intros i Hi. rewrite nth_alt_list by lia. apply Rabs_alt. Qed.

(** A DST2 from a DCT2, a reversed DST2, a DST3 from a DCT3. *)
Lemma nears2_of_near2 n r h h' x : length x = n -> (forall k, (k < n)%nat -> h k = h' (n - 1 - k)%nat) ->
  near2 n r h' (alt_list x) -> nears2 n r h x.
Proof.
  intros Hx E H. unfold near2, nears2 in * . rewrite w1_alt in H by exact Hx. eapply Rle_trans; [|exact H]. apply Req_le. f_equal.
  rewrite (sq_ext (wl n) (wl n) n _ (fun k => (fun j => h' j - dct2_at (alt_list x) j) (n - 1 - k)%nat)); [|reflexivity|].
  - rewrite (sq_rev (wl n) n (fun j => h' j - dct2_at (alt_list x) j)). apply sq_ext; [|reflexivity]. intros. apply wl_wf. assumption.
  - intros i Hi. cbv beta. rewrite E, dst2_dct2_at, Hx by lia. reflexivity.
Qed.
Lemma nears2_rev n r h h' x : length x = n -> (forall k, (k < n)%nat -> h k = alt k * h' k) -> nears2 n r h' (rev x) -> nears2 n r h x.
Proof.
  intros Hx E H. unfold nears2 in * . rewrite w1_rev in H by exact Hx. eapply Rle_trans; [|exact H]. apply Req_le. f_equal.
  apply sq_abs; [reflexivity|]. intros i Hi. rewrite E by exact Hi. rewrite dst2_rev by lia. rewrite <- (Rabs_alt i (alt i * h' i - _)). f_equal.
  rewrite Rmult_minus_distr_l, <- Rmult_assoc, alt_sq, Rmult_1_l. reflexivity.
Qed.
Lemma nears3_of_near3 n r h h' x : length x = n -> (forall k, (k < n)%nat -> h k = alt k * h' k) -> near3 n r h' (rev x) -> nears3 n r h x.
Proof.
  intros Hx E H. unfold near3, nears3 in * . rewrite wf_rev in H by exact Hx. eapply Rle_trans; [|exact H]. apply Req_le. f_equal.
  apply sq_abs; [reflexivity|]. intros i Hi. rewrite E by exact Hi. rewrite dst3_dct3_at by lia. rewrite <- Rmult_minus_distr_l. apply Rabs_alt.
Qed.

Section Sem.
Variables (u v : R) (N : Num R R).
Hypothesis HN : rounding u v N.
Let Hu : 0 <= u := r_u _ _ _ HN.

(** A table of twiddle factors for length [4q] (or [2q] for the type 4 algorithm). *)
Definition tw_ok (q : nat) (tw : list (R * R)) : Prop :=
  length tw = q /\ forall i, (i < q)%nat ->
  Rabs (fst (nth i tw (0, 0)) - cz (8 * zn q) (2 * zn i + 1)) <= eps u v /\ Rabs (snd (nth i tw (0, 0)) - sz (8 * zn q) (2 * zn i + 1)) <= eps u v.

Lemma tw_ok_new q : tw_ok q (map (fun i => c_conj (single_twiddle (2 * i + 1) (16 * q))) (seq 0 q)).
Proof.
  split; [apply map_seq_len|]. intros i Hi.
  match goal with |- context [map ?f _] => rewrite (nth_map_seq f) by exact Hi end. apply (q_twiddle_err u v N HN q i Hi).
Qed.

Definition mu3 : R := 2 * ((1 + u) ^ 2 * (1 + eps u v) - 1).
Lemma mu3_ge0 : 0 <= mu3.
Proof. unfold mu3. pose proof (eps_ge0 u v N HN). assert (1 <= (1 + u) ^ 2) by (simpl; nra). nra. Qed.
Lemma mu3_mu : (1 + mu3) * (1 + u) <= 1 + mu u v.
Proof. unfold mu3, mu. simpl. pose proof (eps_ge0 u v N HN). nra. Qed.
Lemma mu_ge0 : 0 <= mu u v. Proof. pose proof (mu_ge u v N HN). lra. Qed.

Lemma at_0 (x : list R) i : @at_ _ _ N x i = nth i x 0.
Proof. unfold at_. rewrite (r_zero _ _ _ HN). reflexivity. Qed.
Lemma cc0_0 : @cc0 _ _ N = (0, 0).
Proof. unfold cc0. rewrite (r_zero _ _ _ HN). reflexivity. Qed.
Lemma two_2 : @two _ _ N = 2.
Proof. unfold two. rewrite (r_f_two _ _ _ HN). apply (r_from_two _ _ _ HN). Qed.
Lemma half_2 : @half _ _ N = / 2.
Proof. unfold half. rewrite (r_f_half _ _ _ HN). apply (r_from_half _ _ _ HN). Qed.
Lemma neg_0 a : @neg _ _ N a = - a. Proof. apply (r_neg _ _ _ HN). Qed.
Lemma cz_le1 d j : Rabs (cz d j) <= 1. Proof. apply cos_le1. Qed.
Lemma sz_le1 d j : Rabs (sz d j) <= 1. Proof. apply sin_le1. Qed.

(** Pairs of rotated values, with and without a rounded difference before. *)
Notation fadd := (@add _ _ N). Notation fsub := (@sub _ _ N). Notation fmul := (@mul _ _ N).
Lemma rot_a q i tw x' x y' y : tw_ok q tw -> (i < q)%nat -> fac (1 + u) x' x -> fac (1 + u) y' y ->
  let tc := fst (nth i tw (0, 0)) in let ts := snd (nth i tw (0, 0)) in
  let C := cz (8 * zn q) (2 * zn i + 1) in let S := sz (8 * zn q) (2 * zn i + 1) in
  Rabs (fadd (fmul x' tc) (fmul y' ts) - (x * C + y * S)) <= mu u v / 2 * (Rabs x + Rabs y) /\
  Rabs (fsub (fmul x' tc) (fmul y' ts) - (x * C - y * S)) <= mu u v / 2 * (Rabs x + Rabs y).
Proof.
  intros [_ T] Hi Hx Hy. destruct (T i Hi) as [Tc Ts].
  replace (mu u v / 2) with ((1 + u) ^ 2 * (1 + u) * (1 + eps u v) - 1) by (unfold mu; field).
  apply (rot_err u v N HN (1 + u)); auto using cz_le1, sz_le1. lra.
Qed.
Lemma rot_a3 q i tw x y : tw_ok q tw -> (i < q)%nat ->
  let tc := fst (nth i tw (0, 0)) in let ts := snd (nth i tw (0, 0)) in
  let C := cz (8 * zn q) (2 * zn i + 1) in let S := sz (8 * zn q) (2 * zn i + 1) in
  (fadd (fmul x tc) (fmul y ts) - (x * C + y * S))² + (fsub (fmul x ts) (fmul y tc) - (x * S - y * C))² <= mu3² * (x² + y²).
Proof.
  intros [_ T] Hi tc ts C S. destruct (T i Hi) as [Tc Ts]. pose proof mu3_ge0 as M.
  assert (E : mu3 = 2 * ((1 + u) ^ 2 * 1 * (1 + eps u v) - 1)) by (unfold mu3; ring).
  assert (CS : C * C + S * S = 1) by (pose proof (cz_sz_1 (8 * zn q) ltac:(lia) (2 * zn i + 1)) as H; unfold Rsqr in H; exact H).
  assert (EN : (x * C + y * S)² + (x * S - y * C)² = x² + y²).
  { unfold Rsqr. transitivity ((x * x + y * y) * (C * C + S * S)); [ring|]. rewrite CS. ring. }
  assert (BC : Rabs C <= 1) by apply cz_le1. assert (BS : Rabs S <= 1) by apply sz_le1.
  rewrite <- EN. rewrite E. apply (pair_err _ x y); [lra| | |exact EN].
  - apply (rot_err u v N HN 1); auto using fac_refl, Rle_refl.
  - apply (rot_err u v N HN 1); auto using fac_refl, Rle_refl.
Qed.

Lemma level_r r : 1 <= r -> 1 <= level u v * r.
Proof. intros Hr. pose proof (level_ge1 u v N HN). nra. Qed.

(** ** Split radix, DCT2 *)
Lemma sr_dct2_acc q r H2 Q2 tw : (0 < q)%nat -> 1 <= r -> tw_ok q tw -> acc near2 (2 * q) r H2 -> acc near2 q r Q2 ->
  acc near2 (4 * q) (level u v * r) (sem_sr_dct2 H2 Q2 tw).
Proof.
  intros Hq Hr HT AH AQ x Lx. pose proof (proj1 HT) as LT.
  set (X i := nth i x 0).
  set (C i := cz (8 * zn q) (2 * zn i + 1)). set (S i := sz (8 * zn q) (2 * zn i + 1)).
  set (y := map (fun i => X i + X (4 * q - 1 - i)%nat) (seq 0 (2 * q))).
  set (c := map (fun i => (X i - X (4 * q - 1 - i)%nat) * C i + (X (2 * q - 1 - i)%nat - X (2 * q + i)%nat) * S i) (seq 0 q)).
  set (s := map (fun i => (X (2 * q - 1 - i)%nat - X (2 * q + i)%nat) * C i - (X i - X (4 * q - 1 - i)%nat) * S i) (seq 0 q)).
  set (yh := map (sr_in2 tw x) (seq 0 (2 * q))). set (ch := map (sr_cos tw x) (seq 0 q)). set (sh := map (sr_sin tw x) (seq 0 q)).
  set (z := map (sr_odd tw x) (seq 0 q)).
  set (Dh := H2 yh). set (Ch := Q2 ch). set (O := Q2 z). set (Sh m := alt (q - 1) * alt m * O (q - 1 - m)%nat).
  assert (Lz : length z = q) by apply map_seq_len. assert (Lsh : length sh = q) by apply map_seq_len.
  assert (Nz : forall j, (j < q)%nat -> nth j z 0 = alt (q - 1 - j) * nth (q - 1 - j)%nat sh 0).
  { intros j Hj. unfold z, sh. rewrite (nth_map_seq (sr_odd tw x)), (nth_map_seq (sr_sin tw x)) by lia. unfold sr_odd. rewrite LT.
    replace (q - j - 1)%nat with (q - 1 - j)%nat by lia. unfold alt. destruct (_ =? 0)%nat; rewrite ?neg_0; ring. }
  assert (G : near2 (4 * q) (level u v * r) (sem_sr_dct2 H2 Q2 tw x) x); [|exact G].
  unfold near2. replace (level u v * r) with ((1 + u) * (r * (1 + mu u v))) by (unfold level; ring).
  apply (stage2 q Hq x y c s) with (yh := yh) (ch := ch) (sh := sh) (Dh := Dh) (Ch := Ch) (Sh := Sh);
    try exact Lx; try apply map_seq_len; try exact Hu; try exact mu_ge0; try exact Hr; try exact (mu_ge u v N HN).
  - intros i Hi. unfold y. apply (nth_map_seq (fun i => X i + X (4 * q - 1 - i)%nat)), Hi.
  - intros i Hi. unfold c. match goal with |- nth i (map ?f _) 0 = _ => apply (nth_map_seq f), Hi end.
  - intros i Hi. unfold s. match goal with |- nth i (map ?f _) 0 = _ => apply (nth_map_seq f), Hi end.
  - intros i Hi. unfold yh, y. rewrite (nth_map_seq (sr_in2 tw x)), (nth_map_seq (fun i => X i + X (4 * q - 1 - i)%nat)) by exact Hi.
    unfold sr_in2. rewrite LT, !at_0. replace (4 * q - i - 1)%nat with (4 * q - 1 - i)%nat by lia. fold (X i) (X (4 * q - 1 - i)%nat).
    eapply Rle_trans; [|apply Rmult_le_compat_r; [apply Rabs_pos|exact (mu_ge u v N HN)]].
    destruct (_ <? q)%nat; [rewrite (Rplus_comm (X i))|]; apply (r_add _ _ _ HN).
  - intros i Hi. unfold ch, sh, c, s. rewrite (nth_map_seq (sr_cos tw x)), (nth_map_seq (sr_sin tw x)) by exact Hi.
    match goal with |- context [nth i (map ?f (seq 0 q)) 0] => rewrite (nth_map_seq f) by exact Hi end.
    match goal with |- context [nth i (map ?f (seq 0 q)) 0] => rewrite (nth_map_seq f) by exact Hi end.
    unfold sr_cos, sr_sin, sr_lower, sr_upper. rewrite LT, !at_0, cc0_0.
    replace (4 * q - i - 1)%nat with (4 * q - 1 - i)%nat by lia. replace (2 * q - i - 1)%nat with (2 * q - 1 - i)%nat by lia.
    fold (X i) (X (4 * q - 1 - i)%nat) (X (2 * q - 1 - i)%nat) (X (2 * q + i)%nat).
    set (l := X i - X (4 * q - 1 - i)%nat). set (w := X (2 * q - 1 - i)%nat - X (2 * q + i)%nat).
    assert (Fl : fac (1 + u) (fsub (X i) (X (4 * q - 1 - i)%nat)) l) by apply (sub_fac u v N HN).
    assert (Fw : fac (1 + u) (fsub (X (2 * q - 1 - i)%nat) (X (2 * q + i)%nat)) w) by apply (sub_fac u v N HN).
    replace (mu u v) with (2 * (mu u v / 2)) by field. apply (pair_err _ l w).
    + pose proof mu_ge0; lra.
    + apply (rot_a q i tw _ _ _ _ HT Hi Fl Fw).
    + rewrite (Rplus_comm (Rabs l)). apply (rot_a q i tw _ _ _ _ HT Hi Fw Fl).
    + pose proof (cz_sz_1 (8 * zn q) ltac:(lia) (2 * zn i + 1)) as H. fold (C i) (S i) in H. unfold Rsqr in H |- * .
      transitivity ((l * l + w * w) * (C i * C i + S i * S i)); [ring|]. rewrite H. ring.
  - apply (AH yh). apply map_seq_len.
  - apply (AQ ch). apply map_seq_len.
  - pose proof (AQ z Lz) as H. unfold near2 in H.
    replace (sq w1 q (nt z)) with (sq w1 q (nt sh)) in H.
    2: { symmetry. rewrite (sq_abs w1 w1 q (nt z) (fun k => nth (q - 1 - k) sh 0)); [|reflexivity|intros i Hi; rewrite Nz by exact Hi; apply Rabs_alt].
         rewrite (sq_rev w1 q (nt sh)). apply sq_ext; reflexivity. }
    eapply Rle_trans; [|exact H]. apply Req_le. f_equal.
    rewrite (sq_abs (wl q) (wl q) q _ (fun k => (fun j => O j - dct2_at z j) (q - 1 - k)%nat)); [|reflexivity|].
    + rewrite (sq_rev (wl q) q (fun j => O j - dct2_at z j)). apply sq_ext; [|reflexivity]. intros. apply wl_wf. assumption.
    + intros k Hk. cbv beta. pose proof (dct2_of_signed sh z k) as D. rewrite Lsh in D. rewrite (D Lz Hk Nz). unfold Sh.
      rewrite <- (Rabs_alt (q - 1) (_ - dst2_at sh k)), <- (Rabs_alt k (alt (q - 1) * _)). f_equal.
      pose proof (alt_sq (q - 1)) as A1. pose proof (alt_sq k) as A2.
      transitivity ((alt (q - 1) * alt (q - 1)) * (alt k * alt k) * O (q - 1 - k)%nat - alt (q - 1) * alt k * dst2_at sh k); [ring|rewrite A1, A2; ring].
  - intros k Hk. unfold sem_sr_dct2. cbv zeta. rewrite LT. fold yh ch z. fold Dh Ch O. unfold post2.
    assert (Ex : forall a, Rabs (a - a) <= u * Rabs a) by (intros; rewrite Rminus_eq_0, Rabs_R0; apply Rmult_le_pos; [exact Hu|apply Rabs_pos]).
    assert (SO : forall i, (0 < i)%nat -> (i < q)%nat -> sr_sinout tw O i = - Sh (i - 1)%nat).
    { intros i H1 H2'. unfold sr_sinout, Sh. rewrite LT. replace (q - 1 - (i - 1))%nat with (q - i)%nat by lia.
      rewrite <- alt_add. replace (alt (q - 1 + (i - 1))) with (alt (i + q)).
      2: { replace (i + q)%nat with (Datatypes.S (Datatypes.S (q - 1 + (i - 1)))) by lia. rewrite !alt_S. ring. }
      unfold alt. destruct (_ =? 0)%nat; rewrite ?neg_0; ring. }
    destruct (Nat.eqb_spec (k mod 2) 0); [apply Ex|]. destruct (Nat.eqb_spec (k mod 4) 1).
    + destruct (Nat.eqb_spec k 1); [apply Ex|]. rewrite SO by lia.
      replace (Ch (k / 4)%nat + Sh (k / 4 - 1)%nat) with (Ch (k / 4)%nat - - Sh (k / 4 - 1)%nat) by ring. apply (r_sub _ _ _ HN).
    + destruct (Nat.eqb_spec k (4 * q - 1)).
      * rewrite neg_0. unfold Sh. replace (q - 1 - (q - 1))%nat with 0%nat by lia. rewrite alt_sq, Rmult_1_l. apply Ex.
      * rewrite SO by lia. replace (k / 4 + 1 - 1)%nat with (k / 4)%nat by lia. unfold Rminus at 2 3. apply (r_add _ _ _ HN).
Qed.

(** ** Split radix, DCT3 *)
Lemma sr_dct3_acc q r H3 Q3 tw : (0 < q)%nat -> 1 <= r -> tw_ok q tw -> acc near3 (2 * q) r H3 -> acc near3 q r Q3 ->
  acc near3 (4 * q) (level u v * r) (sem_sr_dct3 H3 Q3 tw).
Proof.
  intros Hq Hr HT AH AQ x Lx. pose proof (proj1 HT) as LT.
  set (X i := nth i x 0).
  set (fa i := if (i =? 0)%nat then 2 * X 1%nat else X (4 * i - 1)%nat + X (4 * i + 1)%nat).
  set (fb i := if (i =? q - 1)%nat then 2 * X (4 * i + 3)%nat else X (4 * i + 3)%nat - X (4 * i + 5)%nat).
  set (e := map (fun i => at_ x (2 * i)) (seq 0 (2 * q))). set (a := map fa (seq 0 q)). set (b := map fb (seq 0 q)).
  set (ah := map (sr_n1 x) (seq 0 q)). set (z := map (sr_n3 tw x) (seq 0 q)). set (bh := rev z).
  assert (Lz : length z = q) by apply map_seq_len.
  assert (Lbh : length bh = q) by (unfold bh; rewrite rev_length; exact Lz).
  set (Ah := H3 e). set (Ch := Q3 ah). set (Z := Q3 z). set (Sh k := alt k * Z k).
  assert (ES : forall i, sr_sine Z i = Sh i) by (intros i; unfold sr_sine, Sh, alt; destruct (_ =? 0)%nat; rewrite ?neg_0; ring).
  set (Lh k := sr_low tw Ch Z k). set (Uh k := sr_upp tw Ch Z k).
  assert (G : near3 (4 * q) ((1 + u) * ((1 + mu3) * (r * (1 + u)))) (sem_sr_dct3 H3 Q3 tw x) x).
  2: { eapply near3_mono; [|exact G]. unfold level. pose proof mu3_mu. replace ((1 + u) * (1 + mu u v) * r) with ((1 + u) * (r * (1 + mu u v))) by ring.
       apply Rmult_le_compat_l; [lra|]. replace ((1 + mu3) * (r * (1 + u))) with (r * ((1 + mu3) * (1 + u))) by ring. apply Rmult_le_compat_l; lra. }
  assert (Nn3 : forall i, (i < q)%nat -> nth i bh 0 = sr_n3 tw x (q - 1 - i)).
  { intros i Hi. unfold bh. rewrite rev_nth by lia. rewrite Lz. replace (q - S i)%nat with (q - 1 - i)%nat by lia. unfold z.
    apply (nth_map_seq (sr_n3 tw x)). lia. }
  unfold near3. apply (stage3 q Hq x e a b) with (ah := ah) (bh := bh) (Ah := Ah) (Ch := Ch) (Sh := Sh) (Lh := Lh) (Uh := Uh);
    try exact Lx; try exact Lbh; try apply map_seq_len; try exact Hu; try exact mu3_ge0; try exact Hr.
  - intros i Hi. unfold e. rewrite (nth_map_seq (fun i => at_ x (2 * i))) by exact Hi. apply at_0.
  - intros i Hi. unfold a. apply (nth_map_seq fa), Hi.
  - intros i Hi. unfold b. apply (nth_map_seq fb), Hi.
  - intros i Hi. unfold ah, a. rewrite (nth_map_seq (sr_n1 x)), (nth_map_seq fa) by exact Hi. unfold sr_n1, fa. rewrite !at_0, two_2. fold (X 1%nat) (X (4 * i - 1)%nat) (X (4 * i + 1)%nat).
    destruct (i =? 0)%nat; [rewrite (Rmult_comm 2); apply (r_mul _ _ _ HN)|apply (r_add _ _ _ HN)].
  - intros i Hi. rewrite Nn3 by exact Hi. unfold b. rewrite (nth_map_seq fb) by exact Hi. unfold sr_n3, fb. rewrite LT, !at_0, two_2.
    destruct (Nat.eqb_spec i (q - 1)), (Nat.eqb_spec (q - 1 - i) 0); try lia.
    + replace (4 * i + 3)%nat with (4 * q - 1)%nat by lia. rewrite (Rmult_comm 2). apply (r_mul _ _ _ HN).
    + replace (4 * (q - (q - 1 - i)) - 1)%nat with (4 * i + 3)%nat by lia. replace (4 * (q - (q - 1 - i)) + 1)%nat with (4 * i + 5)%nat by lia. apply (r_sub _ _ _ HN).
  - apply (AH e). apply map_seq_len.
  - apply (AQ ah). apply map_seq_len.
  - apply (nears3_of_near3 q r Sh Z bh Lbh); [reflexivity|]. unfold bh. rewrite rev_involutive. apply AQ. exact Lz.
  - intros k Hk. unfold Lh, Uh, sr_low, sr_upp. rewrite !ES, cc0_0. apply rot_a3; assumption.
  - intros k Hk. unfold sem_sr_dct3. cbv zeta. rewrite LT. fold e ah z. fold Ah Ch Z. unfold post3.
    replace (2 * q - k - 1)%nat with (2 * q - 1 - k)%nat by lia. replace (4 * q - k - 1)%nat with (4 * q - 1 - k)%nat by lia.
    fold (Lh k) (Uh (2 * q - 1 - k)%nat) (Uh (k - 2 * q)%nat) (Lh (4 * q - 1 - k)%nat).
    destruct (_ <? q)%nat; [apply (r_add _ _ _ HN)|]. destruct (_ <? 2 * q)%nat; [apply (r_add _ _ _ HN)|].
    destruct (_ <? 3 * q)%nat; apply (r_sub _ _ _ HN).
Qed.

(** ** Split radix, DST2 and DST3 *)
Lemma sr_dst2_acc n r G : acc near2 n r G -> acc nears2 n r (sem_sr_dst2 n G).
Proof.
  intros A x Lx. apply (nears2_of_near2 n r _ (G (alt_list x)) x Lx).
  - intros k Hk. unfold sem_sr_dst2. f_equal. unfold alt_list. rewrite Lx. apply Wp.map_seq_ext. intros i Hi.
    unfold neg_odd, alt. rewrite at_0. destruct (_ =? 0)%nat; rewrite ?neg_0; ring.
  - apply A. rewrite alt_list_length. exact Lx.
Qed.
Lemma sr_dst3_acc n r G : acc near3 n r G -> acc nears3 n r (sem_sr_dst3 n G).
Proof.
  intros A x Lx. apply (nears3_of_near3 n r _ (G (rev x)) x Lx).
  - intros k Hk. unfold sem_sr_dst3. cbv zeta. replace (map _ (seq 0 n)) with (rev x).
    + unfold alt. destruct (_ =? 0)%nat; rewrite ?neg_0; ring.
    + rewrite <- map_rev_list, Lx. apply Wp.map_seq_ext. intros i Hi. rewrite at_0. reflexivity.
  - apply A. rewrite rev_length. exact Lx.
Qed.

(** ** Type 4 of even length *)
Lemma two_halves q h f : sqrt (sq2 w1 w1 q q (fun k => h k - f k) (fun k => h (2 * q - 1 - k)%nat - f (2 * q - 1 - k)%nat)) =
  sqrt (sq w1 (2 * q) (fun k => h k - f k)).
Proof.
  f_equal. unfold sq2, sq. match goal with |- _ = sum ?f _ => transitivity (sum f (q + q)); [|f_equal; lia] end. rewrite (sum_app _ q q). f_equal. rewrite (sum_rev _ q). apply sum_ext.
  intros i Hi. replace (2 * q - 1 - (q - 1 - i))%nat with (q + i)%nat by lia. reflexivity.
Qed.
Lemma level_4 r : 1 <= r -> (1 + mu3) * (r * (1 + u)) <= level u v * r.
Proof.
  intros Hr. unfold level. pose proof mu3_mu. pose proof mu_ge0. assert (1 + mu u v <= (1 + u) * (1 + mu u v)) by nra.
  replace ((1 + mu3) * (r * (1 + u))) with (((1 + mu3) * (1 + u)) * r) by ring. apply Rmult_le_compat_r; lra.
Qed.
Lemma t4e_dct4_acc q r C3 S3 tw : (0 < q)%nat -> 1 <= r -> tw_ok q tw -> acc near3 q r C3 -> acc nears3 q r S3 ->
  acc near4 (2 * q) (level u v * r) (sem_t4e_dct4 C3 S3 tw).
Proof.
  intros Hq Hr HT AC AS x Lx. pose proof (proj1 HT) as LT.
  set (X i := nth i x 0).
  set (fa i := if (i =? 0)%nat then 2 * X 0%nat else X (2 * i - 1)%nat + X (2 * i)%nat).
  set (fb i := if (i =? q - 1)%nat then 2 * X (2 * i + 1)%nat else X (2 * i + 1)%nat - X (2 * i + 2)%nat).
  set (a := map fa (seq 0 q)). set (b := map fb (seq 0 q)).
  set (ah := map (t4e_l x) (seq 0 q)). set (bh := map (t4e_r tw x) (seq 0 q)).
  assert (Na : forall i, (i < q)%nat -> nth i a 0 = fa i) by (intros i Hi; apply (nth_map_seq fa), Hi).
  assert (Nb : forall i, (i < q)%nat -> nth i b 0 = fb i) by (intros i Hi; apply (nth_map_seq fb), Hi).
  assert (La : length a = q) by apply map_seq_len. assert (Lb : length b = q) by apply map_seq_len.
  pose proof (fun k => dct4_even_dct3 q x Hq Lx a b k La Lb Na Nb) as EX.
  set (h := sem_t4e_dct4 C3 S3 tw x).
  assert (G : sqrt (sq2 w1 w1 q q (fun k => h k - dct4_at x k) (fun k => h (2 * q - 1 - k)%nat - dct4_at x (2 * q - 1 - k)%nat)) <=
     ((1 + mu3) * (r * (1 + u)) - 1) * sqrt (INR q * sq w1 (2 * q) (nt x))).
  2: { rewrite two_halves in G. unfold near4. replace (INR (2 * q) / 2) with (INR q) by (rewrite mult_INR; simpl (INR 2); field).
       eapply Rle_trans; [exact G|]. apply Rmult_le_compat_r; [apply sqrt_pos|]. pose proof (level_4 r Hr). lra. }
  apply (stage4 q a b ah bh (fun k => cz (8 * zn q) (2 * zn k + 1)) (fun k => sz (8 * zn q) (2 * zn k + 1)) (sq w1 (2 * q) (nt x)))
    with (Ch := C3 ah) (Sh := S3 bh) (Lh := h) (Uh := fun k => h (2 * q - 1 - k)%nat) (L := dct4_at x) (U := fun k => dct4_at x (2 * q - 1 - k)%nat);
    try apply map_seq_len; try exact Hu; try exact mu3_ge0; try exact Hr.
  - intros k Hk. pose proof (cz_sz_1 (8 * zn q) ltac:(lia) (2 * zn k + 1)) as H. unfold Rsqr in H. exact H.
  - apply (pre4_energy q x a b 1 Hq); [ring| |].
    + intros i Hi. rewrite Na by exact Hi. unfold fa, X. destruct (_ =? 0)%nat; ring.
    + intros i Hi. rewrite Nb by exact Hi. unfold fb, X. destruct (_ =? _)%nat; ring.
  - intros i Hi. rewrite Na by exact Hi. unfold ah. rewrite (nth_map_seq (t4e_l x)) by exact Hi. unfold t4e_l, fa. rewrite !at_0, two_2.
    destruct (i =? 0)%nat; [rewrite (Rmult_comm 2); apply (r_mul _ _ _ HN)|apply (r_add _ _ _ HN)].
  - intros i Hi. rewrite Nb by exact Hi. unfold bh. rewrite (nth_map_seq (t4e_r tw x)) by exact Hi. unfold t4e_r, fb. rewrite LT, !at_0, two_2.
    destruct (Nat.eqb_spec i (q - 1)); [|apply (r_sub _ _ _ HN)].
    replace (2 * q - 1)%nat with (2 * i + 1)%nat by lia. rewrite (Rmult_comm 2). apply (r_mul _ _ _ HN).
  - apply AC. apply map_seq_len.
  - apply AS. apply map_seq_len.
  - intros k Hk. unfold h, sem_t4e_dct4. cbv zeta. rewrite LT. fold ah bh.
    rewrite (proj2 (Nat.ltb_lt k q)) by exact Hk. rewrite (proj2 (Nat.ltb_ge (2 * q - 1 - k) q)) by lia.
    replace (2 * q - 1 - (2 * q - 1 - k))%nat with k by lia. rewrite cc0_0. apply rot_a3; assumption.
  - intros k Hk. apply EX.
  - intros k Hk. apply EX. lia.
Qed.
Lemma t4e_dst4_acc q r C3 S3 tw : (0 < q)%nat -> 1 <= r -> tw_ok q tw -> acc near3 q r C3 -> acc nears3 q r S3 ->
  acc nears4 (2 * q) (level u v * r) (sem_t4e_dst4 C3 S3 tw).
Proof.
  intros Hq Hr HT AC AS x Lx. pose proof (proj1 HT) as LT.
  set (X i := nth i x 0).
  set (fa i := if (i =? 0)%nat then 2 * X 0%nat else X (2 * i)%nat - X (2 * i - 1)%nat).
  set (fb i := if (i =? q - 1)%nat then 2 * X (2 * i + 1)%nat else X (2 * i + 1)%nat + X (2 * i + 2)%nat).
  set (a := map fa (seq 0 q)). set (b := map fb (seq 0 q)).
  set (ah := map (t4e_r' x) (seq 0 q)). set (bh := map (t4e_l' tw x) (seq 0 q)).
  assert (Na : forall i, (i < q)%nat -> nth i a 0 = fa i) by (intros i Hi; apply (nth_map_seq fa), Hi).
  assert (Nb : forall i, (i < q)%nat -> nth i b 0 = fb i) by (intros i Hi; apply (nth_map_seq fb), Hi).
  assert (La : length a = q) by apply map_seq_len. assert (Lb : length b = q) by apply map_seq_len.
  pose proof (fun k => dst4_even_dct3 q x Hq Lx b a k Lb La Na Nb) as EX.
  set (h := sem_t4e_dst4 C3 S3 tw x).
  assert (G : sqrt (sq2 w1 w1 q q (fun k => h k - dst4_at x k) (fun k => h (2 * q - 1 - k)%nat - dst4_at x (2 * q - 1 - k)%nat)) <=
     ((1 + mu3) * (r * (1 + u)) - 1) * sqrt (INR q * sq w1 (2 * q) (nt x))).
  2: { rewrite two_halves in G. unfold nears4. replace (INR (2 * q) / 2) with (INR q) by (rewrite mult_INR; simpl (INR 2); field).
       eapply Rle_trans; [exact G|]. apply Rmult_le_compat_r; [apply sqrt_pos|]. pose proof (level_4 r Hr). lra. }
  apply (stage4 q a b ah bh (fun k => sz (8 * zn q) (2 * zn k + 1)) (fun k => cz (8 * zn q) (2 * zn k + 1)) (sq w1 (2 * q) (nt x)))
    with (Ch := C3 ah) (Sh := S3 bh) (Lh := h) (Uh := fun k => h (2 * q - 1 - k)%nat) (L := dst4_at x) (U := fun k => dst4_at x (2 * q - 1 - k)%nat);
    try apply map_seq_len; try exact Hu; try exact mu3_ge0; try exact Hr.
  - intros k Hk. pose proof (cz_sz_1 (8 * zn q) ltac:(lia) (2 * zn k + 1)) as H. unfold Rsqr in H. lra.
  - apply (pre4_energy q x a b (-1) Hq); [ring| |].
    + intros i Hi. rewrite Na by exact Hi. unfold fa, X. destruct (_ =? 0)%nat; ring.
    + intros i Hi. rewrite Nb by exact Hi. unfold fb, X. destruct (_ =? _)%nat; ring.
  - intros i Hi. rewrite Na by exact Hi. unfold ah. rewrite (nth_map_seq (t4e_r' x)) by exact Hi. unfold t4e_r', fa. rewrite !at_0, two_2.
    destruct (i =? 0)%nat; [rewrite (Rmult_comm 2); apply (r_mul _ _ _ HN)|apply (r_sub _ _ _ HN)].
  - intros i Hi. rewrite Nb by exact Hi. unfold bh. rewrite (nth_map_seq (t4e_l' tw x)) by exact Hi. unfold t4e_l', fb. rewrite LT, !at_0, two_2.
    destruct (Nat.eqb_spec i (q - 1)); [|apply (r_add _ _ _ HN)].
    replace (2 * q - 1)%nat with (2 * i + 1)%nat by lia. rewrite (Rmult_comm 2). apply (r_mul _ _ _ HN).
  - apply AC. apply map_seq_len.
  - apply AS. apply map_seq_len.
  - intros k Hk. unfold h, sem_t4e_dst4. cbv zeta. rewrite LT. fold ah bh.
    rewrite (proj2 (Nat.ltb_lt k q)) by exact Hk. rewrite (proj2 (Nat.ltb_ge (2 * q - 1 - k) q)) by lia.
    replace (2 * q - 1 - (2 * q - 1 - k))%nat with k by lia. rewrite cc0_0.
    set (l := S3 bh k). set (c := C3 ah k). set (S := sz _ _). set (C := cz _ _).
    pose proof (cz_sz_1 (8 * zn q) ltac:(lia) (2 * zn k + 1)) as CS. fold C S in CS. unfold Rsqr in CS.
    destruct HT as [_ T]. destruct (T k Hk) as [Tc Ts]. pose proof mu3_ge0 as M.
    assert (EN : (c * S + l * C)² + (c * C - l * S)² = c² + l²).
    { unfold Rsqr. transitivity ((c * c + l * l) * (C * C + S * S)); [ring|]. rewrite CS. ring. }
    assert (BC : Rabs C <= 1) by apply cz_le1. assert (BS : Rabs S <= 1) by apply sz_le1.
    rewrite <- EN. replace mu3 with (2 * ((1 + u) ^ 2 * 1 * (1 + eps u v) - 1)) by (unfold mu3; ring). apply (pair_err _ c l); [unfold mu3 in M; lra| | |exact EN].
    + rewrite (Rplus_comm (c * S)), (Rplus_comm (Rabs c)). apply (rot_err u v N HN 1); auto using fac_refl, Rle_refl.
    + apply (rot_err u v N HN 1); auto using fac_refl, Rle_refl.
  - intros k Hk. rewrite (proj1 (EX k)). ring.
  - intros k Hk. rewrite (proj2 (EX k)) by lia. ring.
Qed.
End Sem.
