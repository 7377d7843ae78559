(** Entrywise rounding errors of the size 3 butterflies and of type 4 via type 3. *)
From Coq Require Import Reals ZArith List Arith Lia Lra Psatz.
From Verif Require Import Prog Num Model_Common Model_Naive Model_Butterflies Model_SplitRadix Spec Spec_Round Spec_Entry Trig Ref Energy Sem_Naive Sem_Butterflies Sem_Split Sem_Split2
  Exact_Butterflies Exact_Split Round_Ops Round_Sem Round_Entry Round_Naive Round_Fft.
Import ListNotations.
Open Scope R_scope.

Section B3.
Variables (u v : R) (N : Num R R).
Hypothesis HN : rounding u v N.
Hypothesis Hv4 : 4 * v < 1.
Let Hu : 0 <= u := r_u _ _ _ HN.
Let Hv : 0 <= v < 1 := r_v _ _ _ HN.
Let Ht : 0 <= tau u v := tau_ge0 u v N HN Hv4.

Definition P (k : nat) (S a' a : R) : Prop := nr ((1 + u) ^ k * (1 + tau u v)) S a' a.
Lemma pk k : 1 <= (1 + u) ^ k * (1 + tau u v).
Proof. assert (1 <= (1 + u) ^ k) by (apply pow_R1_Rle; lra). nra. Qed.
Lemma P_leaf k a : P k (Rabs a) a a. Proof. apply nr_refl, pk. Qed.
Lemma P_S k S a' a : P k S a' a -> P (Datatypes.S k) S a' a.
Proof. apply nr_mono; [apply pk| |lra]. cbn [pow]. pose proof (pk k). set (p := (1 + u) ^ k) in * . assert (0 < p) by (apply pow_lt; lra). nra. Qed.
Lemma P_add k S S' a' a b' b : P k S a' a -> P k S' b' b -> P (Datatypes.S k) (S + S') (add a' b') (a + b).
Proof. intros A B. unfold P. cbn [pow]. rewrite Rmult_assoc. apply (nr_add u v N HN); [apply pk|exact A|exact B]. Qed.
Lemma P_sub k S S' a' a b' b : P k S a' a -> P k S' b' b -> P (Datatypes.S k) (S + S') (sub a' b') (a - b).
Proof. intros A B. unfold P. cbn [pow]. rewrite Rmult_assoc. apply (nr_sub u v N HN); [apply pk|exact A|exact B]. Qed.
Lemma P_half k S a' a : P k S a' a -> P (Datatypes.S k) S (mul a' half) (a * / 2).
Proof.
  intros A. pose proof (nr_pos _ _ _ _ A). unfold P. cbn [pow]. rewrite Rmult_assoc.
  eapply nr_mono; [| | |apply (nr_half u v N HN); [apply pk|exact A]]; [|lra|lra]. pose proof (pk k). nra.
Qed.
(** A product of something without table entries with one. *)
Lemma P_tw k S a' a t' t : nr ((1 + u) ^ k) S a' a -> Rabs (t' - t) <= tau u v -> Rabs t <= 1 -> P (Datatypes.S k) S (mul a' t') (a * t).
Proof.
  intros A B C. unfold P. cbn [pow]. rewrite Rmult_assoc. replace S with (S * 1) by ring.
  apply (nr_mul u v N HN); [apply pow_R1_Rle; lra|lra|exact A|split; lra].
Qed.
Lemma nr_0 a : nr ((1 + u) ^ 0) (Rabs a) a a. Proof. apply nr_refl. simpl. lra. Qed.
Lemma nr_sub0 a b : nr ((1 + u) ^ 1) (Rabs a + Rabs b) (sub a b) (a - b).
Proof. replace ((1 + u) ^ 1) with ((1 + u) * 1) by ring. apply (nr_sub u v N HN); [lra| |]; apply nr_refl; lra. Qed.

Lemma b3_new_close : Rabs (Butterfly3_new (N := N) - Butterfly3_new (N := NumR)) <= tau u v /\ Rabs (Butterfly3_new (N := NumR)) <= 1.
Proof.
  split; [|rewrite b3_tw; apply cz_le1].
  apply (twiddle_re_close u v N HN Hv4 1 12); lia.
Qed.
Lemma b3_neg_close : Rabs (neg (Butterfly3_new (N := N)) - - (Butterfly3_new (N := NumR))) <= tau u v /\ Rabs (- Butterfly3_new (N := NumR)) <= 1.
Proof.
  destruct b3_new_close as [A B]. rewrite (r_neg _ _ _ HN), Rabs_Ropp. split; [|exact B].
  replace (- Butterfly3_new (N := N) - - Butterfly3_new (N := NumR)) with (- (Butterfly3_new (N := N) - Butterfly3_new (N := NumR))) by ring. rewrite Rabs_Ropp. exact A.
Qed.
Definition b3_const : R := (1 + u) ^ 3 * (1 + tau u v) - 1.
Lemma P_end S T a' a : P 3 S a' a -> S <= T -> Rabs (a' - a) <= b3_const * T.
Proof.
  intros [A _] B. unfold b3_const. eapply Rle_trans; [exact A|]. apply Rmult_le_compat_l; [|exact B]. pose proof (pk 3). lra.
Qed.
Ltac three x Hx k Hk := destruct x as [|a [|b [|c [|? ?]]]]; try discriminate Hx; unfold total; cbn [length sum nth]; pose proof (Rabs_pos a); pose proof (Rabs_pos b); pose proof (Rabs_pos c);
  destruct k as [|[|[|k]]]; [..|lia].
Ltac start E := intros x k Hx Hk; rewrite <- (is_list_at 3 _ _ x k E Hx Hk); three x Hx k Hk; unfold b3_dct2, b3_dst2, b3_dct3, b3_dst3, at_; cbn [nth];
  change (@mul R R NumR) with Rmult; change (@add R R NumR) with Rplus; change (@sub R R NumR) with Rminus; change (@neg R R NumR) with Ropp; change (@half R R NumR) with (/ 2).
Lemma b3_dct2_acc : entry_acc dct2_at 3 b3_const (fun x i => at_ (b3_dct2 (Butterfly3_new (N := N)) x) i).
Proof.
  destruct b3_new_close as [T1 T2]. start b3_dct2_exact.
  - eapply P_end; [apply P_S, P_add; [apply P_add; apply P_leaf|apply P_leaf]|lra].
  - eapply P_end; [apply P_S, P_tw; [apply nr_sub0|exact T1|exact T2]|lra].
  - eapply P_end; [apply P_sub; [apply P_half, P_add; apply P_leaf|apply P_leaf]|lra].
Qed.
Lemma b3_dst2_acc : entry_acc dst2_at 3 b3_const (fun x i => at_ (b3_dst2 (Butterfly3_new (N := N)) x) i).
Proof.
  destruct b3_new_close as [T1 T2]. start b3_dst2_exact.
  - eapply P_end; [apply P_add; [apply P_half, P_add; apply P_leaf|apply P_leaf]|lra].
  - eapply P_end; [apply P_S, P_tw; [apply nr_sub0|exact T1|exact T2]|lra].
  - eapply P_end; [apply P_S, P_add; [apply P_sub; apply P_leaf|apply P_leaf]|lra].
Qed.
Lemma b3_dct3_acc : entry_acc dct3_at 3 b3_const (fun x i => at_ (b3_dct3 (Butterfly3_new (N := N)) x) i).
Proof.
  destruct b3_new_close as [T1 T2]. destruct b3_neg_close as [U1 U2]. start b3_dct3_exact.
  - eapply P_end; [apply P_add; [apply P_add; [apply P_half, P_leaf|apply P_tw; [apply nr_0|exact T1|exact T2]]|apply P_half, P_leaf]|lra].
  - eapply P_end; [apply P_S, P_sub; [apply P_half, P_leaf|apply P_leaf]|lra].
  - eapply P_end; [apply P_add; [apply P_add; [apply P_half, P_leaf|apply P_tw; [apply nr_0|exact U1|exact U2]]|apply P_half, P_leaf]|lra].
Qed.
Lemma b3_dst3_acc : entry_acc dst3_at 3 b3_const (fun x i => at_ (b3_dst3 (Butterfly3_new (N := N)) x) i).
Proof.
  destruct b3_new_close as [T1 T2]. destruct b3_neg_close as [U1 U2]. start b3_dst3_exact.
  - eapply P_end; [apply P_add; [apply P_add; [apply P_half, P_leaf|apply P_tw; [apply nr_0|exact T1|exact T2]]|apply P_half, P_leaf]|lra].
  - eapply P_end; [apply P_S, P_sub; [apply P_leaf|apply P_half, P_leaf]|lra].
  - eapply P_end; [apply P_add; [apply P_add; [apply P_half, P_leaf|apply P_tw; [apply nr_0|exact U1|exact U2]]|apply P_half, P_leaf]|lra].
Qed.
End B3.

(** * Type 4 of even length, via type 3 of half the length *)
Definition contract (t : list R -> nat -> R) (n : nat) : Prop :=
  forall x y k, length x = n -> length y = n -> (k < n)%nat ->
  Rabs (t x k) <= sum (fun i => Rabs (nth i x 0)) n /\ Rabs (t y k - t x k) <= sum (fun i => Rabs (nth i y 0 - nth i x 0)) n.
Lemma contract_sum n (t : list R -> nat -> R) (w : nat -> nat -> R) :
  (forall k i, (k < n)%nat -> (i < n)%nat -> Rabs (w k i) <= 1) ->
  (forall x k, length x = n -> (k < n)%nat -> t x k = sum (fun i => nth i x 0 * w k i) n) -> contract t n.
Proof.
  intros Hw E x y k Hx Hy Hk. rewrite !E by assumption. split.
  - apply sum_abs_le. intros i Hi. rewrite Rabs_mult. pose proof (Rabs_pos (nth i x 0)). pose proof (Hw k i Hk Hi). nra.
  - rewrite <- sum_minus. apply sum_abs_le. intros i Hi.
    replace (nth i y 0 * w k i - nth i x 0 * w k i) with ((nth i y 0 - nth i x 0) * w k i) by ring. rewrite Rabs_mult.
    pose proof (Rabs_pos (nth i y 0 - nth i x 0)). pose proof (Hw k i Hk Hi). nra.
Qed.
Lemma half_when_le b c : Rabs c <= 1 -> Rabs (half_when b * c) <= 1.
Proof. intros H. rewrite Rabs_mult. unfold half_when. destruct b; [rewrite (Rabs_right (/ 2)) by lra|rewrite Rabs_R1]; pose proof (Rabs_pos c); lra. Qed.
Lemma dct3_contract n : contract dct3_at n.
Proof.
  destruct n as [|n]; [intros x y k _ _ Hk; lia|]. set (m := S n).
  apply (contract_sum m _ (fun k i => half_when (i =? 0)%nat * cz (2 * zn m) ((2 * zn k + 1) * zn i))).
  - intros. apply half_when_le, cz_le1.
  - intros x k Hx Hk. rewrite dct3_cz by lia. rewrite Hx. apply sum_ext. intros. ring.
Qed.
Lemma dst3_contract n : contract dst3_at n.
Proof.
  destruct n as [|n]; [intros x y k _ _ Hk; lia|]. set (m := S n).
  apply (contract_sum m _ (fun k i => half_when (i =? m - 1)%nat * sz (2 * zn m) ((2 * zn k + 1) * (zn i + 1)))).
  - intros. apply half_when_le, sz_le1.
  - intros x k Hx Hk. rewrite dst3_cz by lia. rewrite Hx. apply sum_ext. intros. ring.
Qed.

Section T4E.
Variables (u v : R) (N : Num R R).
Hypothesis HN : rounding u v N.
Hypothesis Hv4 : 4 * v < 1.
Let Hu : 0 <= u := r_u _ _ _ HN.
Let Hv : 0 <= v < 1 := r_v _ _ _ HN.
Let Ht : 0 <= tau u v := tau_ge0 u v N HN Hv4.
Variables (q : nat) (e : R).
Hypothesis Hq : (0 < q)%nat.
Hypothesis He : 0 <= e.

Lemma inner_nr t C z' z (S : nat -> R) T g k : contract t q -> entry_acc t q e C -> (k < q)%nat -> 1 <= g ->
  (forall i, (i < q)%nat -> nr g (S i) (z' i) (z i)) -> sum S q <= T ->
  nr ((1 + e) * g) T (C (map z' (seq 0 q)) k) (t (map z (seq 0 q)) k).
Proof.
  intros Ct A Hk Hg Hz HT. set (y := map z' (seq 0 q)). set (x := map z (seq 0 q)).
  assert (Ly : length y = q) by apply map_seq_len. assert (Lx : length x = q) by apply map_seq_len.
  destruct (Ct x y k Lx Ly Hk) as [B D]. specialize (A y k Ly Hk). unfold total in A. rewrite Ly in A.
  assert (E1 : sum (fun i => Rabs (nth i x 0)) q <= T).
  { eapply Rle_trans; [|exact HT]. apply sum_le. intros i Hi. unfold x. rewrite (nth_map_seq z) by exact Hi. apply (Hz i Hi). }
  assert (E2 : sum (fun i => Rabs (nth i y 0 - nth i x 0)) q <= (g - 1) * T).
  { apply Rle_trans with ((g - 1) * sum S q); [|apply Rmult_le_compat_l; lra]. rewrite <- sum_scal_l. apply sum_le. intros i Hi.
    unfold x, y. rewrite (nth_map_seq z), (nth_map_seq z') by exact Hi. apply (Hz i Hi). }
  assert (E3 : sum (fun i => Rabs (nth i y 0)) q <= g * T).
  { apply Rle_trans with (g * sum S q); [|apply Rmult_le_compat_l; lra]. rewrite <- sum_scal_l. apply sum_le. intros i Hi.
    unfold y. rewrite (nth_map_seq z') by exact Hi. apply (nr_abs _ _ _ _ (Hz i Hi)). }
  split; [|lra].
  replace (C y k - t x k) with ((C y k - t y k) + (t y k - t x k)) by ring. eapply Rle_trans; [apply Rabs_triang|].
  assert (e * sum (fun i => Rabs (nth i y 0)) q <= e * (g * T)) by (apply Rmult_le_compat_l; assumption). lra.
Qed.

Lemma q_tw_nr i : (i < q)%nat ->
  let t' := nth i (map (fun i => c_conj (single_twiddle (2 * i + 1) (16 * q))) (seq 0 q)) (cc0 (N := N)) in
  let t := nth i (q_tw q) (cc0 (N := NumR)) in
  nr (1 + tau u v) 1 (fst t') (fst t) /\ nr (1 + tau u v) 1 (snd t') (snd t).
Proof.
  intros Hi. cbv zeta. rewrite (nth_map_seq (fun i => c_conj (single_twiddle (2 * i + 1) (16 * q)))) by exact Hi.
  unfold q_tw. rewrite (nth_map_seq (fun i => c_conj (N := NumR) (single_twiddle (N := NumR) (2 * i + 1) (16 * q)))) by exact Hi.
  destruct (twiddle_close u v N HN Hv4 (2 * i + 1) (16 * q)) as [A B]; [lia|lia|].
  assert (M : Rabs (fst (single_twiddle (N := NumR) (2 * i + 1) (16 * q))) <= 1 /\ Rabs (snd (single_twiddle (N := NumR) (2 * i + 1) (16 * q))) <= 1).
  { split; cbn; rewrite Rmult_1_l; [apply cos_le1|apply sin_le1]. }
  destruct M as [M1 M2]. unfold c_conj. cbn [fst snd]. split; [split; lra|]. change (@neg R R NumR) with Ropp. apply (nr_neg u v N HN). split; lra.
Qed.

(** The sums of magnitudes of the two half-size inputs. *)
Definition Sl (x : list R) (k : nat) : R := if (k =? 0)%nat then 2 * Rabs (nth 0 x 0) else Rabs (nth (2 * k - 1) x 0) + Rabs (nth (2 * k) x 0).
Definition Sr (x : list R) (j : nat) : R := if (j =? q - 1)%nat then 2 * Rabs (nth (2 * q - 1) x 0) else Rabs (nth (2 * j + 1) x 0) + Rabs (nth (2 * j + 2) x 0).
Lemma pairs_sum (f : nat -> R) m : sum (fun i => f (2 * i)%nat + f (2 * i + 1)%nat) m = sum f (2 * m).
Proof.
  induction m as [|m IH]; [reflexivity|]. replace (2 * S m)%nat with (S (S (2 * m))) by lia. cbn [sum]. rewrite IH.
  replace (2 * m + 1)%nat with (S (2 * m)) by lia. ring.
Qed.
Lemma Sl_Sr x : length x = (2 * q)%nat -> sum (Sl x) q + sum (Sr x) q = 2 * total x.
Proof.
  intros Hx. unfold total. rewrite Hx. set (f := fun i => Rabs (nth i x 0)).
  assert (E : sum f (2 * q) = f 0%nat + sum (fun i => f (S i)) (2 * (q - 1)) + f (2 * q - 1)%nat).
  { replace (sum f (2 * q)) with (sum f (S (S (2 * (q - 1))))) by (f_equal; lia). rewrite sum_S_l. cbn [sum].
    replace (S (2 * (q - 1)))%nat with (2 * q - 1)%nat by lia. ring. }
  assert (A : sum (Sl x) q = 2 * f 0%nat + sum (fun i => f (S i)) (2 * (q - 1))).
  { rewrite (Exact_Fft.sum_first (Sl x) q) by lia. f_equal. rewrite <- (pairs_sum (fun i => f (S i))). apply sum_ext. intros i Hi.
    unfold Sl, f. cbn [Nat.eqb]. f_equal; do 2 f_equal; lia. }
  assert (B : sum (Sr x) q = sum (fun i => f (S i)) (2 * (q - 1)) + 2 * f (2 * q - 1)%nat).
  { replace (sum (Sr x) q) with (sum (Sr x) (S (q - 1))) by (f_equal; lia). cbn [sum]. f_equal.
    - rewrite <- (pairs_sum (fun i => f (S i))). apply sum_ext. intros i Hi. unfold Sr, f. replace (i =? q - 1)%nat with false by (symmetry; apply Nat.eqb_neq; lia).
      f_equal; do 2 f_equal; lia.
    - unfold Sr. rewrite Nat.eqb_refl. reflexivity. }
  rewrite A, B, E. ring.
Qed.
Lemma add_nr a b : nr (1 + u) (Rabs a + Rabs b) (add a b) (a + b).
Proof. rewrite <- (Rmult_1_r (1 + u)). apply (nr_add u v N HN); [lra| |]; apply nr_refl; lra. Qed.
Lemma sub_nr a b : nr (1 + u) (Rabs a + Rabs b) (sub a b) (a - b).
Proof. rewrite <- (Rmult_1_r (1 + u)). apply (nr_sub u v N HN); [lra| |]; apply nr_refl; lra. Qed.
Lemma dbl_nr a : nr (1 + u) (2 * Rabs a) (mul a two) (a * 2).
Proof.
  rewrite (two_2 u v N HN). replace (1 + u) with ((1 + u) * (1 * 1)) by ring. rewrite (Rmult_comm 2 (Rabs a)). apply (nr_mul u v N HN); [lra|lra|apply nr_refl; lra|].
  split; [replace (2 - 2) with 0 by ring; rewrite Rabs_R0|rewrite Rabs_right]; lra.
Qed.
Definition t4e_const : R := 2 * ((1 + u) ^ 3 * ((1 + e) * (1 + tau u v)) - 1).
(** The last step: two products with table entries. *)
Lemma last_nr A A' B B' Tl Tr a b a' b' : nr ((1 + e) * (1 + u)) Tl A' A -> nr ((1 + e) * (1 + u)) Tr B' B ->
  nr (1 + tau u v) 1 a' a -> nr (1 + tau u v) 1 b' b ->
  nr ((1 + u) ^ 3 * ((1 + e) * (1 + tau u v))) (Tl + Tr) (add (mul A' a') (mul B' b')) (A * a + B * b) /\
  nr ((1 + u) ^ 3 * ((1 + e) * (1 + tau u v))) (Tl + Tr) (sub (mul A' a') (mul B' b')) (A * a - B * b).
Proof.
  intros HA HB Ha Hb. assert (G : 1 <= (1 + e) * (1 + u)) by nra.
  assert (G2 : 1 <= (1 + e) * (1 + u) * (1 + tau u v)) by (set (g := (1 + e) * (1 + u)) in *; nra).
  assert (G3 : 1 <= (1 + u) * ((1 + e) * (1 + u) * (1 + tau u v))) by (set (g := (1 + e) * (1 + u) * (1 + tau u v)) in *; nra).
  replace ((1 + u) ^ 3 * ((1 + e) * (1 + tau u v))) with ((1 + u) * ((1 + u) * ((1 + e) * (1 + u) * (1 + tau u v)))) by ring.
  assert (PA : nr ((1 + u) * ((1 + e) * (1 + u) * (1 + tau u v))) Tl (mul A' a') (A * a)).
  { rewrite <- (Rmult_1_r Tl). apply (nr_mul u v N HN); try assumption. lra. }
  assert (PB : nr ((1 + u) * ((1 + e) * (1 + u) * (1 + tau u v))) Tr (mul B' b') (B * b)).
  { rewrite <- (Rmult_1_r Tr). apply (nr_mul u v N HN); try assumption. lra. }
  split; [apply (nr_add u v N HN)|apply (nr_sub u v N HN)]; assumption.
Qed.
Notation twN := (map (fun i => c_conj (single_twiddle (2 * i + 1) (16 * q))) (seq 0 q)).
Variables (C S3 : list R -> nat -> R).
Hypothesis HC : entry_acc dct3_at q e C.
Hypothesis HS : entry_acc dst3_at q e S3.

Lemma t4e_dct4_entry : entry_acc dct4_at (2 * q) t4e_const (sem_t4e_dct4 (N := N) C S3 twN).
Proof.
  intros x k Hx Hk. rewrite <- (t4e_dct4_exact q Hq dct3_at dst3_at) by (first [intros ? ? ? ?; reflexivity|assumption]).
  unfold t4e_const. apply nr_entry. rewrite <- (Sl_Sr x Hx).
  unfold sem_t4e_dct4. cbv zeta. rewrite q_tw_length, map_seq_len.
  assert (IL : forall k, (k < q)%nat -> nr ((1 + e) * (1 + u)) (sum (Sl x) q) (C (map (t4e_l (N := N) x) (seq 0 q)) k) (dct3_at (map (t4e_l (N := NumR) x) (seq 0 q)) k)).
  { intros i Hi. apply (inner_nr dct3_at C _ _ (Sl x)); [apply dct3_contract|exact HC|exact Hi|lra| |lra].
    intros j Hj. unfold t4e_l, Sl. rewrite !(at_N u v N HN). destruct (j =? 0)%nat; [apply dbl_nr|apply add_nr]. }
  assert (IR : forall k, (k < q)%nat -> nr ((1 + e) * (1 + u)) (sum (Sr x) q) (S3 (map (t4e_r (N := N) twN x) (seq 0 q)) k) (dst3_at (map (t4e_r (N := NumR) (q_tw q) x) (seq 0 q)) k)).
  { intros i Hi. apply (inner_nr dst3_at S3 _ _ (Sr x)); [apply dst3_contract|exact HS|exact Hi|lra| |lra].
    intros j Hj. unfold t4e_r, Sr. rewrite !(at_N u v N HN), q_tw_length, map_seq_len. destruct (j =? q - 1)%nat; [apply dbl_nr|apply sub_nr]. }
  destruct (Nat.ltb_spec k q) as [H|H].
  - destruct (q_tw_nr k H) as [A B]. apply last_nr; [apply IL, H|apply IR, H|exact A|exact B].
  - assert (H' : (2 * q - 1 - k < q)%nat) by lia. destruct (q_tw_nr _ H') as [A B]. apply last_nr; [apply IL, H'|apply IR, H'|exact B|exact A].
Qed.
Lemma t4e_dst4_entry : entry_acc dst4_at (2 * q) t4e_const (sem_t4e_dst4 (N := N) C S3 twN).
Proof.
  intros x k Hx Hk. rewrite <- (t4e_dst4_exact q Hq dct3_at dst3_at) by (first [intros ? ? ? ?; reflexivity|assumption]).
  unfold t4e_const. apply nr_entry. rewrite <- (Sl_Sr x Hx).
  unfold sem_t4e_dst4. cbv zeta. rewrite q_tw_length, map_seq_len.
  assert (IL : forall k, (k < q)%nat -> nr ((1 + e) * (1 + u)) (sum (Sl x) q) (C (map (t4e_r' (N := N) x) (seq 0 q)) k) (dct3_at (map (t4e_r' (N := NumR) x) (seq 0 q)) k)).
  { intros i Hi. apply (inner_nr dct3_at C _ _ (Sl x)); [apply dct3_contract|exact HC|exact Hi|lra| |lra].
    intros j Hj. unfold t4e_r', Sl. rewrite !(at_N u v N HN). destruct (j =? 0)%nat; [apply dbl_nr|rewrite (Rplus_comm (Rabs (nth (2 * j - 1) x 0))); apply sub_nr]. }
  assert (IR : forall k, (k < q)%nat -> nr ((1 + e) * (1 + u)) (sum (Sr x) q) (S3 (map (t4e_l' (N := N) twN x) (seq 0 q)) k) (dst3_at (map (t4e_l' (N := NumR) (q_tw q) x) (seq 0 q)) k)).
  { intros i Hi. apply (inner_nr dst3_at S3 _ _ (Sr x)); [apply dst3_contract|exact HS|exact Hi|lra| |lra].
    intros j Hj. unfold t4e_l', Sr. rewrite !(at_N u v N HN), q_tw_length, map_seq_len. destruct (j =? q - 1)%nat; [apply dbl_nr|apply add_nr]. }
  destruct (Nat.ltb_spec k q) as [H|H].
  - destruct (q_tw_nr k H) as [A B]. rewrite (Rplus_comm (sum (Sl x) q)). apply last_nr; [apply IR, H|apply IL, H|exact A|exact B].
  - assert (H' : (2 * q - 1 - k < q)%nat) by lia. destruct (q_tw_nr _ H') as [A B]. apply last_nr; [apply IL, H'|apply IR, H'|exact A|exact B].
Qed.
End T4E.
