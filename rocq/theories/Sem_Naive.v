(** What the naive algorithms compute, for any numeric type. *)
From Coq Require Import List Arith Lia Bool.
From Verif Require Import Prog Num Model_Common Model_Naive Wp.
Import ListNotations.

Section NaiveLoop.
Context {T F : Type} {N : Num T F}.
Open Scope num_scope.

(** Result of the inner loop: [op] folded over the cells [lo .. lo+cnt). *)
Fixpoint accum {X} (op : T -> T -> X -> T) (x : nat -> T) (w : nat -> X) (acc : T) (lo cnt : nat) : T :=
  match cnt with
  | 0 => acc
  | S c => op (accum op x w acc lo c) (x (lo + c)) (w (lo + c))
  end.

Lemma accum_ext {X} (op : T -> T -> X -> T) x x' w w' acc lo cnt :
  (forall i, lo <= i < lo + cnt -> x i = x' i) ->
  (forall i, lo <= i < lo + cnt -> w i = w' i) ->
  accum op x w acc lo cnt = accum op x' w' acc lo cnt.
Proof.
  induction cnt; intros H1 H2; simpl; auto.
  rewrite IHcnt; [|intros; apply H1; lia|intros; apply H2; lia].
  rewrite H1, H2 by lia. reflexivity.
Qed.

(** The twiddle used for cell [i]. *)
Definition tw_at {X} (tw : list X) (d : X) (start stride lo i : nat) : X :=
  nth ((start + (i - lo) * stride) mod length tw) tw d.

Lemma wp_naive_loop {X} (d : X) (op : T -> T -> X -> T) (tw : list X) (cell : nat) (s : slice)
  (start stride lo : nat) m (Q : unit -> mem T -> Prop) :
  start < length tw -> stride <= length tw ->
  ~ (base s + lo <= cell < base s + slen s) ->
  (forall m', m' cell = accum op (fun i => m (base s + i)) (tw_at tw d start stride lo)
                          (m cell) lo (slen s - lo) ->
     (forall q, q <> cell -> m' q = m q) -> Q tt m') ->
  wp (fold_range lo (slen s) start (fun i twiddle_index =>
        bind (idx tw twiddle_index) (fun twiddle =>
        bind (deref (mkS cell 1)) (fun o =>
        bind (rd s i) (fun sv =>
        bind (assign (mkS cell 1) (op o sv twiddle)) (fun _ =>
        if length tw <=? twiddle_index + stride
        then usub (twiddle_index + stride) (length tw)
        else Ret (twiddle_index + stride)))))) ;;; Ret tt) m Q.
Proof.
  intros Hst Hstr Hcell HQ. apply wp_bind. unfold fold_range.
  apply (wp_fold_inv (fun i ti m' =>
    ti = (start + (i - lo) * stride) mod length tw /\
    m' cell = accum op (fun i => m (base s + i)) (tw_at tw d start stride lo)
                          (m cell) lo (i - lo) /\
    (forall q, q <> cell -> m' q = m q))).
  - rewrite Nat.sub_diag. simpl. rewrite Nat.add_0_r. split; [|split]; auto.
    symmetry. apply Nat.mod_small. exact Hst.
  - intros i ti m' Hi (Hti & Hc & Hf).
    assert (Hlt : ti < length tw) by (subst ti; apply Nat.mod_upper_bound; lia).
    apply (wp_idx_b _ d); [exact Hlt|].
    apply wp_deref_b. apply wp_rd_b; [lia|]. apply wp_assign_b.
    rewrite (Hf (base s + i)) by lia. rewrite Hc.
    assert (Hnext : (if length tw <=? ti + stride then ti + stride - length tw else ti + stride)
                    = (start + (S i - lo) * stride) mod length tw).
    { replace (S i - lo) with (S (i - lo)) by lia. simpl.
      replace (start + (stride + (i - lo) * stride))
        with ((start + (i - lo) * stride) + stride) by lia.
      rewrite <- (Nat.add_mod_idemp_l (start + (i - lo) * stride)) by lia. rewrite <- Hti.
      destruct (Nat.leb_spec (length tw) (ti + stride)).
      - replace (ti + stride) with ((ti + stride - length tw) + 1 * length tw) at 2 by lia.
        rewrite Nat.mod_add by lia.
        destruct (Nat.eq_dec (ti + stride - length tw) (length tw)) as [E|E]; [lia|].
        rewrite Nat.mod_small by lia. reflexivity.
      - rewrite Nat.mod_small by lia. reflexivity. }
    assert (Hfin : upd m' cell (op (accum op (fun i => m (base s + i)) (tw_at tw d start stride lo)
                          (m cell) lo (i - lo)) (m (base s + i)) (nth ti tw d)) cell =
        accum op (fun i => m (base s + i)) (tw_at tw d start stride lo) (m cell) lo (S i - lo)).
    { rewrite upd_same. replace (S i - lo) with (S (i - lo)) by lia. simpl.
      replace (lo + (i - lo)) with i by lia. unfold tw_at at 3. rewrite <- Hti. reflexivity. }
    destruct (Nat.leb_spec (length tw) (ti + stride)).
    + apply wp_usub; [lia|]. split; [exact Hnext|]. split; [exact Hfin|].
      intros q Hq. rewrite upd_other by exact Hq. apply Hf. exact Hq.
    + apply wp_ret. split; [exact Hnext|]. split; [exact Hfin|].
      intros q Hq. rewrite upd_other by exact Hq. apply Hf. exact Hq.
  - intros ti m' (_ & Hc & Hf). apply wp_ret.
    destruct (le_lt_dec lo (slen s)).
    + replace (lo + (slen s - lo)) with (slen s) in * by lia. apply HQ; auto.
    + replace (lo + (slen s - lo) - lo) with 0 in * by lia.
      apply HQ; [|exact Hf]. rewrite Hc. replace (slen s - lo) with 0 by lia. reflexivity.
Qed.

(** Line 49 of type5_naive.rs and line 50 of type6and7_naive.rs. *)
Lemma wp_sum_loop (s : slice) m (Q : T -> mem T -> Prop) :
  Q (accum (fun o sv (_ : unit) => o +. sv) (fun i => m (base s + i)) (fun _ => tt) zero 0 (slen s)) m ->
  wp (fold_range 0 (slen s) zero (fun i acc => bind (rd s i) (fun e => Ret (acc +. e)))) m Q.
Proof.
  intros HQ. unfold fold_range.
  apply (wp_fold_inv (fun i acc m' => m' = m /\
    acc = accum (fun o sv (_ : unit) => o +. sv) (fun i => m (base s + i)) (fun _ => tt) zero 0 i)).
  - auto.
  - intros i acc m' Hi [-> ->]. apply wp_rd_b; [lia|]. apply wp_ret. auto.
  - intros acc m' [-> ->]. rewrite Nat.add_0_l, Nat.sub_0_r. exact HQ.
Qed.

End NaiveLoop.

(** The outer loop: initialise cell [k], run the inner loop over the scratch. *)
Section Outer.
Context {T F : Type} {N : Num T F}.
Open Scope num_scope.

Lemma wp_naive_outer {X} (d : X) (op : T -> T -> X -> T) (tw : list X) (b s : slice)
  (from lo : nat) (start stride : nat -> nat) (init : T) m (Q : unit -> mem T -> Prop) :
  (forall k, from <= k < slen b -> start k < length tw /\ stride k <= length tw) ->
  disj b s ->
  (forall m',
     (forall k, from <= k < slen b ->
        m' (base b + k) = accum op (fun i => m (base s + i)) (tw_at tw d (start k) (stride k) lo)
                            init lo (slen s - lo)) ->
     (forall q, ~ (base b + from <= q < base b + slen b) -> m' q = m q) -> Q tt m') ->
  wp (for_range from (slen b) (fun k =>
    bind (get_mut_unwrap b k) (fun cell =>
    bind (assign cell init) (fun _ =>
    bind (fold_range lo (slen s) (start k) (fun i twiddle_index =>
        bind (idx tw twiddle_index) (fun twiddle =>
        bind (deref cell) (fun o =>
        bind (rd s i) (fun sv =>
        bind (assign cell (op o sv twiddle)) (fun _ =>
        if length tw <=? twiddle_index + stride k
        then usub (twiddle_index + stride k) (length tw)
        else Ret (twiddle_index + stride k))))))) (fun _ => Ret tt))))) m Q.
Proof.
  intros Hr Hd HQ.
  eapply (wp_for_cells (base b) (fun k =>
    accum op (fun i => m (base s + i)) (tw_at tw d (start k) (stride k) lo) init lo (slen s - lo))).
  - intros k m' Hk Hm. destruct (Hr k Hk) as [R1 R2].
    apply wp_get_mut_b; [lia|]. apply wp_assign_b.
    apply (wp_naive_loop d); auto.
    + unfold disj in Hd. lia.
    + intros m'' A1 A2. split.
      * rewrite A1, upd_same. apply accum_ext; [|auto].
        intros i Hi. rewrite upd_other by (unfold disj in Hd; lia).
        apply Hm. unfold disj in Hd. lia.
      * intros q Hq. rewrite A2 by exact Hq. apply upd_other. exact Hq.
  - exact HQ.
Qed.

(** Variant in which the initial value is read from scratch cell 0. *)
Lemma wp_naive_outer0 {X} (d : X) (op : T -> T -> X -> T) (tw : list X) (b s : slice)
  (from lo : nat) (start stride : nat -> nat) m (Q : unit -> mem T -> Prop) :
  (forall k, from <= k < slen b -> start k < length tw /\ stride k <= length tw) ->
  disj b s -> 0 < slen s ->
  (forall m',
     (forall k, from <= k < slen b ->
        m' (base b + k) = accum op (fun i => m (base s + i)) (tw_at tw d (start k) (stride k) lo)
                            (m (base s + 0)) lo (slen s - lo)) ->
     (forall q, ~ (base b + from <= q < base b + slen b) -> m' q = m q) -> Q tt m') ->
  wp (for_range from (slen b) (fun k =>
    bind (get_mut_unwrap b k) (fun cell =>
    bind (rd s 0) (fun s0 =>
    bind (assign cell s0) (fun _ =>
    bind (fold_range lo (slen s) (start k) (fun i twiddle_index =>
        bind (idx tw twiddle_index) (fun twiddle =>
        bind (deref cell) (fun o =>
        bind (rd s i) (fun sv =>
        bind (assign cell (op o sv twiddle)) (fun _ =>
        if length tw <=? twiddle_index + stride k
        then usub (twiddle_index + stride k) (length tw)
        else Ret (twiddle_index + stride k))))))) (fun _ => Ret tt)))))) m Q.
Proof.
  intros Hr Hd Hs0 HQ.
  eapply (wp_for_cells (base b) (fun k =>
    accum op (fun i => m (base s + i)) (tw_at tw d (start k) (stride k) lo)
      (m (base s + 0)) lo (slen s - lo))).
  - intros k m' Hk Hm. destruct (Hr k Hk) as [R1 R2].
    apply wp_get_mut_b; [lia|]. apply wp_rd_b; [exact Hs0|]. apply wp_assign_b.
    assert (E0 : m' (base s + 0) = m (base s + 0)) by (apply Hm; unfold disj in Hd; lia).
    apply (wp_naive_loop d); auto.
    + unfold disj in Hd. lia.
    + intros m'' A1 A2. split.
      * rewrite A1, upd_same, E0. apply accum_ext; [|auto].
        intros i Hi. rewrite upd_other by (unfold disj in Hd; lia).
        apply Hm. unfold disj in Hd. lia.
      * intros q Hq. rewrite A2 by exact Hq. apply upd_other. exact Hq.
  - exact HQ.
Qed.

End Outer.

Section Naive.
Context {T F : Type} {N : Num T F}.
Open Scope num_scope.

Definition op_add (o s t : T) : T := o +. s *. t.
Definition op_add_re (o s : T) (t : T * T) : T := o +. s *. fst t.
Definition op_sub_im (o s : T) (t : T * T) : T := o -. s *. snd t.

(** Cell access with default, and the two half-weighted variants. *)
Definition at_ (x : list T) (i : nat) : T := nth i x zero.
Definition half_at (j : nat) (x : nat -> T) (i : nat) : T :=
  if i =? j then x i *. half else x i.

Ltac divn :=
  match goal with
  | |- context [?a / ?b] =>
      pose proof (Nat.div_mod a b ltac:(lia)); pose proof (Nat.mod_upper_bound a b ltac:(lia)); lia
  end.

Ltac naive_copy m1 A1 A2 :=
  match goal with
  | Hb : slen ?b = _, Hs : _ <= slen ?s, Hd : disj ?b ?s |- _ =>
    apply validate_buffers_ok; [exact Hb|exact Hs|];
    apply wp_bind, wp_copy_from_slice;
      [simpl; lia | unfold disj in Hd |- *; simpl; lia |];
    intros m1 A1 A2; simpl in A1, A2; cbn [slen]
  end.

Definition sem_dst1_naive (tw : list T) (x : list T) (k : nat) : T :=
  accum op_add (at_ x) (tw_at tw zero (k + 1) (k + 1) 0) zero 0 (length x).

Lemma sem_dst1_naive_ok tw n :
  length tw = (n + 1) * 2 ->
  computes (Dst1Naive_dst1 (mkDst1Naive tw)) n n (sem_dst1_naive tw).
Proof.
  intros Htw m b s Hb Hs Hd. unfold Dst1Naive_dst1, Dst1Naive_scratch, Dst1Naive_len. simpl dst1n_tw.
  replace (length tw / 2 - 1) with n by (rewrite Htw; divn).
  naive_copy m1 A1 A2.
  apply (wp_naive_outer zero op_add tw b (mkS (base s) n) 0 0 (fun k => k + 1) (fun k => k + 1) zero).
  - intros k Hk. lia.
  - unfold disj in Hd |- *; simpl; lia.
  - simpl. intros m2 B1 B2. split.
    + intros k Hk. rewrite B1 by lia. unfold sem_dst1_naive. rewrite vals_length, Hb, Nat.sub_0_r.
      apply accum_ext; [|auto]. intros i Hi. rewrite A1 by lia.
      unfold at_. rewrite nth_vals by lia. reflexivity.
    + intros q Hq1 Hq2. rewrite B2 by lia. apply A2. lia.
Qed.

Definition sem_dct2_naive (tw : list (T * T)) (x : list T) (k : nat) : T :=
  accum op_add_re (at_ x) (tw_at tw (zero, zero) (k) (k * 2) 0) zero 0 (length x).

Lemma sem_dct2_naive_ok tw n :
  length tw = n * 4 ->
  computes (Type2And3Naive_dct2 (mkT23Naive tw)) n n (sem_dct2_naive tw).
Proof.
  intros Htw m b s Hb Hs Hd. unfold Type2And3Naive_dct2, Type2And3Naive_scratch, Type2And3Naive_len. simpl t23n_tw.
  replace (length tw / 4) with n by (rewrite Htw; divn).
  naive_copy m1 A1 A2.
  apply (wp_naive_outer (zero, zero) op_add_re tw b (mkS (base s) n) 0 0 (fun k => k) (fun k => k * 2) zero).
  - intros k Hk. lia.
  - unfold disj in Hd |- *; simpl; lia.
  - simpl. intros m2 B1 B2. split.
    + intros k Hk. rewrite B1 by lia. unfold sem_dct2_naive. rewrite vals_length, Hb, Nat.sub_0_r.
      apply accum_ext; [|auto]. intros i Hi. rewrite A1 by lia.
      unfold at_. rewrite nth_vals by lia. reflexivity.
    + intros q Hq1 Hq2. rewrite B2 by lia. apply A2. lia.
Qed.

Definition sem_dst2_naive (tw : list (T * T)) (x : list T) (k : nat) : T :=
  accum op_sub_im (at_ x) (tw_at tw (zero, zero) (k + 1) ((k + 1) * 2) 0) zero 0 (length x).

Lemma sem_dst2_naive_ok tw n :
  length tw = n * 4 ->
  computes (Type2And3Naive_dst2 (mkT23Naive tw)) n n (sem_dst2_naive tw).
Proof.
  intros Htw m b s Hb Hs Hd. unfold Type2And3Naive_dst2, Type2And3Naive_scratch, Type2And3Naive_len. simpl t23n_tw.
  replace (length tw / 4) with n by (rewrite Htw; divn).
  naive_copy m1 A1 A2.
  apply (wp_naive_outer (zero, zero) op_sub_im tw b (mkS (base s) n) 0 0 (fun k => k + 1) (fun k => (k + 1) * 2) zero).
  - intros k Hk. lia.
  - unfold disj in Hd |- *; simpl; lia.
  - simpl. intros m2 B1 B2. split.
    + intros k Hk. rewrite B1 by lia. unfold sem_dst2_naive. rewrite vals_length, Hb, Nat.sub_0_r.
      apply accum_ext; [|auto]. intros i Hi. rewrite A1 by lia.
      unfold at_. rewrite nth_vals by lia. reflexivity.
    + intros q Hq1 Hq2. rewrite B2 by lia. apply A2. lia.
Qed.

Definition sem_dst3_naive (tw : list (T * T)) (x : list T) (k : nat) : T :=
  accum op_sub_im (half_at (length x - 1) (at_ x)) (tw_at tw (zero, zero) (k * 2 + 1) (k * 2 + 1) 0) zero 0 (length x).

Lemma sem_dst3_naive_ok tw n :
  0 < n -> length tw = n * 4 ->
  computes (Type2And3Naive_dst3 (mkT23Naive tw)) n n (sem_dst3_naive tw).
Proof.
  intros Hn Htw m b s Hb Hs Hd. unfold Type2And3Naive_dst3, Type2And3Naive_scratch, Type2And3Naive_len. simpl t23n_tw.
  replace (length tw / 4) with n by (rewrite Htw; divn).
  naive_copy m1 A1 A2.
  do 3 wpi (zero : T). cbn [slen base]. set (m2 := upd m1 _ _).
  apply (wp_naive_outer (zero, zero) op_sub_im tw b (mkS (base s) n) 0 0 (fun k => k * 2 + 1) (fun k => k * 2 + 1) zero).
  - intros k Hk. lia.
  - unfold disj in Hd |- *; simpl; lia.
  - simpl. intros m3 B1 B2. split.
    + intros k Hk. rewrite B1 by lia. unfold sem_dst3_naive. rewrite vals_length, Hb, Nat.sub_0_r.
      apply accum_ext; [|auto]. intros i Hi. unfold m2, half_at, at_, upd.
      rewrite nth_vals by lia. rewrite !A1 by lia.
      destruct (Nat.eqb_spec (base s + i) (base s + (n - 1))), (Nat.eqb_spec i (n - 1)); try lia; auto.
      subst i. reflexivity.
    + intros q Hq1 Hq2. rewrite B2 by lia. unfold m2. rewrite upd_other by lia. apply A2. lia.
Qed.

Definition sem_dct4_naive (tw : list (T * T)) (x : list T) (k : nat) : T :=
  accum op_add_re (at_ x) (tw_at tw (zero, zero) (k) (k * 2 + 1) 0) zero 0 (length x).

Lemma sem_dct4_naive_ok tw n :
  length tw = n * 4 ->
  computes (Type4Naive_dct4 (mkT4Naive tw)) n n (sem_dct4_naive tw).
Proof.
  intros Htw m b s Hb Hs Hd. unfold Type4Naive_dct4, Type4Naive_scratch, Type4Naive_len. simpl t4n_tw.
  replace (length tw / 4) with n by (rewrite Htw; divn).
  naive_copy m1 A1 A2.
  apply (wp_naive_outer (zero, zero) op_add_re tw b (mkS (base s) n) 0 0 (fun k => k) (fun k => k * 2 + 1) zero).
  - intros k Hk. lia.
  - unfold disj in Hd |- *; simpl; lia.
  - simpl. intros m2 B1 B2. split.
    + intros k Hk. rewrite B1 by lia. unfold sem_dct4_naive. rewrite vals_length, Hb, Nat.sub_0_r.
      apply accum_ext; [|auto]. intros i Hi. rewrite A1 by lia.
      unfold at_. rewrite nth_vals by lia. reflexivity.
    + intros q Hq1 Hq2. rewrite B2 by lia. apply A2. lia.
Qed.

Definition sem_dst4_naive (tw : list (T * T)) (x : list T) (k : nat) : T :=
  accum op_sub_im (at_ x) (tw_at tw (zero, zero) (k) (k * 2 + 1) 0) zero 0 (length x).

Lemma sem_dst4_naive_ok tw n :
  length tw = n * 4 ->
  computes (Type4Naive_dst4 (mkT4Naive tw)) n n (sem_dst4_naive tw).
Proof.
  intros Htw m b s Hb Hs Hd. unfold Type4Naive_dst4, Type4Naive_scratch, Type4Naive_len. simpl t4n_tw.
  replace (length tw / 4) with n by (rewrite Htw; divn).
  naive_copy m1 A1 A2.
  apply (wp_naive_outer (zero, zero) op_sub_im tw b (mkS (base s) n) 0 0 (fun k => k) (fun k => k * 2 + 1) zero).
  - intros k Hk. lia.
  - unfold disj in Hd |- *; simpl; lia.
  - simpl. intros m2 B1 B2. split.
    + intros k Hk. rewrite B1 by lia. unfold sem_dst4_naive. rewrite vals_length, Hb, Nat.sub_0_r.
      apply accum_ext; [|auto]. intros i Hi. rewrite A1 by lia.
      unfold at_. rewrite nth_vals by lia. reflexivity.
    + intros q Hq1 Hq2. rewrite B2 by lia. apply A2. lia.
Qed.

Definition sem_dst5_naive (tw : list T) (x : list T) (k : nat) : T :=
  accum op_add (at_ x) (tw_at tw zero (k + 1) (k + 1) 0) zero 0 (length x).

Lemma sem_dst5_naive_ok tw n :
  length tw = n * 2 + 1 ->
  computes (Dst5Naive_dst5 (mkDst5Naive tw)) n n (sem_dst5_naive tw).
Proof.
  intros Htw m b s Hb Hs Hd. unfold Dst5Naive_dst5, Dst5Naive_scratch, Dst5Naive_len. simpl dst5n_tw.
  replace ((length tw - 1) / 2) with n by (rewrite Htw; divn).
  naive_copy m1 A1 A2.
  apply (wp_naive_outer zero op_add tw b (mkS (base s) n) 0 0 (fun k => k + 1) (fun k => k + 1) zero).
  - intros k Hk. lia.
  - unfold disj in Hd |- *; simpl; lia.
  - simpl. intros m2 B1 B2. split.
    + intros k Hk. rewrite B1 by lia. unfold sem_dst5_naive. rewrite vals_length, Hb, Nat.sub_0_r.
      apply accum_ext; [|auto]. intros i Hi. rewrite A1 by lia.
      unfold at_. rewrite nth_vals by lia. reflexivity.
    + intros q Hq1 Hq2. rewrite B2 by lia. apply A2. lia.
Qed.

Definition sem_dst6_naive (tw : list T) (x : list T) (k : nat) : T :=
  accum op_add (at_ x) (tw_at tw zero (k + 1) ((k + 1) * 2) 0) zero 0 (length x).

Lemma sem_dst6_naive_ok tw n :
  length tw = n * 4 + 2 ->
  computes (Dst6And7Naive_dst6 (mkS67Naive tw)) n n (sem_dst6_naive tw).
Proof.
  intros Htw m b s Hb Hs Hd. unfold Dst6And7Naive_dst6, Dst6And7Naive_scratch, Dst6And7Naive_len. simpl s67n_tw.
  replace ((length tw - 2) / 4) with n by (rewrite Htw; divn).
  naive_copy m1 A1 A2.
  apply (wp_naive_outer zero op_add tw b (mkS (base s) n) 0 0 (fun k => k + 1) (fun k => (k + 1) * 2) zero).
  - intros k Hk. lia.
  - unfold disj in Hd |- *; simpl; lia.
  - simpl. intros m2 B1 B2. split.
    + intros k Hk. rewrite B1 by lia. unfold sem_dst6_naive. rewrite vals_length, Hb, Nat.sub_0_r.
      apply accum_ext; [|auto]. intros i Hi. rewrite A1 by lia.
      unfold at_. rewrite nth_vals by lia. reflexivity.
    + intros q Hq1 Hq2. rewrite B2 by lia. apply A2. lia.
Qed.

Definition sem_dst7_naive (tw : list T) (x : list T) (k : nat) : T :=
  accum op_add (at_ x) (tw_at tw zero (k * 2 + 1) (k * 2 + 1) 0) zero 0 (length x).

Lemma sem_dst7_naive_ok tw n :
  length tw = n * 4 + 2 ->
  computes (Dst6And7Naive_dst7 (mkS67Naive tw)) n n (sem_dst7_naive tw).
Proof.
  intros Htw m b s Hb Hs Hd. unfold Dst6And7Naive_dst7, Dst6And7Naive_scratch, Dst6And7Naive_len. simpl s67n_tw.
  replace ((length tw - 2) / 4) with n by (rewrite Htw; divn).
  naive_copy m1 A1 A2.
  apply (wp_naive_outer zero op_add tw b (mkS (base s) n) 0 0 (fun k => k * 2 + 1) (fun k => k * 2 + 1) zero).
  - intros k Hk. lia.
  - unfold disj in Hd |- *; simpl; lia.
  - simpl. intros m2 B1 B2. split.
    + intros k Hk. rewrite B1 by lia. unfold sem_dst7_naive. rewrite vals_length, Hb, Nat.sub_0_r.
      apply accum_ext; [|auto]. intros i Hi. rewrite A1 by lia.
      unfold at_. rewrite nth_vals by lia. reflexivity.
    + intros q Hq1 Hq2. rewrite B2 by lia. apply A2. lia.
Qed.

Definition sem_dct8_naive (tw : list T) (x : list T) (k : nat) : T :=
  accum op_add (at_ x) (tw_at tw zero (k) (k * 2 + 1) 0) zero 0 (length x).

Lemma sem_dct8_naive_ok tw n :
  length tw = n * 4 + 2 ->
  computes (Dct8Naive_dct8 (mkDct8Naive tw)) n n (sem_dct8_naive tw).
Proof.
  intros Htw m b s Hb Hs Hd. unfold Dct8Naive_dct8, Dct8Naive_scratch, Dct8Naive_len. simpl dct8n_tw.
  replace ((length tw - 2) / 4) with n by (rewrite Htw; divn).
  naive_copy m1 A1 A2.
  apply (wp_naive_outer zero op_add tw b (mkS (base s) n) 0 0 (fun k => k) (fun k => k * 2 + 1) zero).
  - intros k Hk. lia.
  - unfold disj in Hd |- *; simpl; lia.
  - simpl. intros m2 B1 B2. split.
    + intros k Hk. rewrite B1 by lia. unfold sem_dct8_naive. rewrite vals_length, Hb, Nat.sub_0_r.
      apply accum_ext; [|auto]. intros i Hi. rewrite A1 by lia.
      unfold at_. rewrite nth_vals by lia. reflexivity.
    + intros q Hq1 Hq2. rewrite B2 by lia. apply A2. lia.
Qed.

Definition sem_dst8_naive (tw : list T) (x : list T) (k : nat) : T :=
  accum op_add (half_at (length x - 1) (at_ x)) (tw_at tw zero (k) (k * 2 + 1) 0) zero 0 (length x).

Lemma sem_dst8_naive_ok tw n :
  0 < n -> length tw = n * 4 - 2 ->
  computes (Dst8Naive_dst8 (mkDst8Naive tw)) n n (sem_dst8_naive tw).
Proof.
  intros Hn Htw m b s Hb Hs Hd. unfold Dst8Naive_dst8, Dst8Naive_scratch, Dst8Naive_len. simpl dst8n_tw.
  replace ((length tw + 2) / 4) with n by (rewrite Htw; divn).
  naive_copy m1 A1 A2.
  do 3 wpi (zero : T). cbn [slen base]. set (m2 := upd m1 _ _).
  apply (wp_naive_outer zero op_add tw b (mkS (base s) n) 0 0 (fun k => k) (fun k => k * 2 + 1) zero).
  - intros k Hk. lia.
  - unfold disj in Hd |- *; simpl; lia.
  - simpl. intros m3 B1 B2. split.
    + intros k Hk. rewrite B1 by lia. unfold sem_dst8_naive. rewrite vals_length, Hb, Nat.sub_0_r.
      apply accum_ext; [|auto]. intros i Hi. unfold m2, half_at, at_, upd.
      rewrite nth_vals by lia. rewrite !A1 by lia.
      destruct (Nat.eqb_spec (base s + i) (base s + (n - 1))), (Nat.eqb_spec i (n - 1)); try lia; auto.
      subst i. reflexivity.
    + intros q Hq1 Hq2. rewrite B2 by lia. unfold m2. rewrite upd_other by lia. apply A2. lia.
Qed.

Definition sem_dct1_naive (tw : list T) (x : list T) (k : nat) : T :=
  accum op_add (half_at (length x - 1) (at_ x)) (tw_at tw zero k k 1) (at_ x 0 *. half) 1 (length x - 1).

Lemma sem_dct1_naive_ok tw n :
  2 <= n -> length tw = (n - 1) * 2 ->
  computes (Dct1Naive_dct1 (mkDct1Naive tw)) n n (sem_dct1_naive tw).
Proof.
  intros Hn Htw m b s Hb Hs Hd. unfold Dct1Naive_dct1, Dct1Naive_scratch, Dct1Naive_len. simpl dct1n_tw.
  replace (length tw / 2 + 1) with n by (rewrite Htw; divn).
  naive_copy m1 A1 A2.
  do 5 wpi (zero : T). cbn [slen base]. set (m2 := upd (upd m1 _ _) _ _).
  apply (wp_naive_outer0 zero op_add tw b (mkS (base s) n) 0 1 (fun k => k) (fun k => k)).
  - intros k Hk. lia.
  - unfold disj in Hd |- *; simpl; lia.
  - simpl; lia.
  - simpl. intros m3 B1 B2. split.
    + intros k Hk. rewrite B1 by lia. unfold sem_dct1_naive. rewrite vals_length, Hb.
      replace (m2 (base s + 0)) with (at_ (vals m b) 0 *. half).
      2:{ unfold m2, at_. rewrite nth_vals by lia. rewrite upd_other by lia. rewrite upd_same.
          rewrite A1 by lia. reflexivity. }
      apply accum_ext; [|auto]. intros i Hi. unfold m2, half_at, at_.
      rewrite nth_vals by lia. destruct (Nat.eqb_spec i (n - 1)).
      * subst i. rewrite upd_same. rewrite upd_other by lia. rewrite A1 by lia. reflexivity.
      * rewrite !upd_other by lia. rewrite A1 by lia. reflexivity.
    + intros q Hq1 Hq2. rewrite B2 by lia. unfold m2. rewrite !upd_other by lia. apply A2. lia.
Qed.

Definition sem_dct3_naive (tw : list (T * T)) (x : list T) (k : nat) : T :=
  accum op_add_re (at_ x) (tw_at tw (zero, zero) (k * 2 + 1) (k * 2 + 1) 1) (half *. at_ x 0) 1 (length x - 1).

Lemma sem_dct3_naive_ok tw n :
  0 < n -> length tw = n * 4 ->
  computes (Type2And3Naive_dct3 (mkT23Naive tw)) n n (sem_dct3_naive tw).
Proof.
  intros Hn Htw m b s Hb Hs Hd.
  unfold Type2And3Naive_dct3, Type2And3Naive_scratch, Type2And3Naive_len. simpl t23n_tw.
  replace (length tw / 4) with n by (rewrite Htw; divn).
  naive_copy m1 A1 A2.
  wpi (zero : T). cbn [base]. rewrite A1 by lia.
  apply (wp_naive_outer (zero, zero) op_add_re tw b (mkS (base s) n) 0 1
           (fun k => k * 2 + 1) (fun k => k * 2 + 1)).
  - intros k Hk. lia.
  - unfold disj in Hd |- *; simpl; lia.
  - simpl. intros m3 B1 B2. split.
    + intros k Hk. rewrite B1 by lia. unfold sem_dct3_naive. rewrite vals_length, Hb.
      unfold at_ at 2. rewrite nth_vals by lia.
      apply accum_ext; [|auto]. intros i Hi. rewrite A1 by lia.
      unfold at_. rewrite nth_vals by lia. reflexivity.
    + intros q Hq1 Hq2. rewrite B2 by lia. apply A2. lia.
Qed.

(** Plain sum of the cells, from the left. *)
Definition sum_from_zero (x : nat -> T) (n : nat) : T :=
  accum (fun o sv (_ : unit) => o +. sv) x (fun _ => tt) zero 0 n.

Definition sem_dct5_naive (tw : list T) (x : list T) (k : nat) : T :=
  if k =? 0 then sum_from_zero (half_at 0 (at_ x)) (length x)
  else accum op_add (at_ x) (tw_at tw zero k k 1) (at_ x 0 *. half) 1 (length x - 1).

Lemma sem_dct5_naive_ok tw n :
  0 < n -> length tw = n * 2 - 1 ->
  computes (Dct5Naive_dct5 (mkDct5Naive tw)) n n (sem_dct5_naive tw).
Proof.
  intros Hn Htw m b s Hb Hs Hd. unfold Dct5Naive_dct5, Dct5Naive_scratch, Dct5Naive_len. simpl dct5n_tw.
  replace ((length tw + 1) / 2) with n by (rewrite Htw; divn).
  naive_copy m1 A1 A2.
  do 2 wpi (zero : T). cbn [slen base]. set (m2 := upd m1 _ _).
  assert (C1 : forall i, i < n -> m2 (base s + i) = half_at 0 (at_ (vals m b)) i).
  { intros i Hi. unfold m2, half_at, at_. rewrite nth_vals by lia. destruct (Nat.eqb_spec i 0).
    - subst i. rewrite upd_same, A1 by lia. reflexivity.
    - rewrite upd_other by lia. rewrite A1 by lia. reflexivity. }
  apply wp_bind, (wp_sum_loop (mkS (base s) n)). cbn [slen base]. wpi (zero : T). cbn [slen base].
  set (m3 := upd m2 _ _).
  assert (C3 : forall i, i < n -> m3 (base s + i) = half_at 0 (at_ (vals m b)) i).
  { intros i Hi. unfold m3. rewrite upd_other by (unfold disj in Hd; lia). auto. }
  apply (wp_naive_outer0 zero op_add tw b (mkS (base s) n) 1 1 (fun k => k) (fun k => k)).
  - intros k Hk. lia.
  - unfold disj in Hd |- *; simpl; lia.
  - simpl; lia.
  - simpl. intros m4 B1 B2. split.
    + intros k Hk. unfold sem_dct5_naive. rewrite vals_length, Hb.
      destruct (Nat.eqb_spec k 0).
      * subst k. rewrite B2 by lia. unfold m3. rewrite upd_same. unfold sum_from_zero.
        apply accum_ext; [|auto]. intros i Hi. apply C1. lia.
      * rewrite B1 by lia. rewrite C3 by lia. unfold half_at at 1. simpl (0 =? 0).
        apply accum_ext; [|auto]. intros i Hi. rewrite C3 by lia. unfold half_at.
        destruct (Nat.eqb_spec i 0); [lia|reflexivity].
    + intros q Hq1 Hq2. rewrite B2 by lia. unfold m3, m2. rewrite !upd_other by lia. apply A2. lia.
Qed.

Definition sem_dct6_naive (tw : list T) (x : list T) (k : nat) : T :=
  if k =? 0 then sum_from_zero (half_at (length x - 1) (at_ x)) (length x)
  else accum op_add (half_at (length x - 1) (at_ x)) (tw_at tw zero k (k * 2) 0) zero 0 (length x).

Lemma sem_dct6_naive_ok tw n :
  0 < n -> length tw = n * 4 - 2 ->
  computes (Dct6And7Naive_dct6 (mkC67Naive tw)) n n (sem_dct6_naive tw).
Proof.
  intros Hn Htw m b s Hb Hs Hd.
  unfold Dct6And7Naive_dct6, Dct6And7Naive_scratch, Dct6And7Naive_len. simpl c67n_tw.
  replace ((length tw + 2) / 4) with n by (rewrite Htw; divn).
  naive_copy m1 A1 A2.
  do 3 wpi (zero : T). cbn [slen base]. set (m2 := upd m1 _ _).
  assert (C1 : forall i, i < n -> m2 (base s + i) = half_at (n - 1) (at_ (vals m b)) i).
  { intros i Hi. unfold m2, half_at, at_. rewrite nth_vals by lia. destruct (Nat.eqb_spec i (n - 1)).
    - subst i. rewrite upd_same, A1 by lia. reflexivity.
    - rewrite upd_other by lia. rewrite A1 by lia. reflexivity. }
  apply wp_bind, (wp_sum_loop (mkS (base s) n)). cbn [slen base]. wpi (zero : T). cbn [slen base].
  set (m3 := upd m2 _ _).
  assert (C3 : forall i, i < n -> m3 (base s + i) = half_at (n - 1) (at_ (vals m b)) i).
  { intros i Hi. unfold m3. rewrite upd_other by (unfold disj in Hd; lia). auto. }
  apply (wp_naive_outer zero op_add tw b (mkS (base s) n) 1 0 (fun k => k) (fun k => k * 2)).
  - intros k Hk. lia.
  - unfold disj in Hd |- *; simpl; lia.
  - simpl. intros m4 B1 B2. split.
    + intros k Hk. unfold sem_dct6_naive. rewrite vals_length, Hb.
      destruct (Nat.eqb_spec k 0).
      * subst k. rewrite B2 by lia. unfold m3. rewrite upd_same. unfold sum_from_zero.
        apply accum_ext; [|auto]. intros i Hi. apply C1. lia.
      * rewrite B1 by lia. rewrite Nat.sub_0_r. apply accum_ext; [|auto].
        intros i Hi. apply C3. lia.
    + intros q Hq1 Hq2. rewrite B2 by lia. unfold m3, m2. rewrite !upd_other by lia. apply A2. lia.
Qed.

Definition sem_dct7_naive (tw : list T) (x : list T) (k : nat) : T :=
  accum op_add (at_ x) (tw_at tw zero (k * 2 + 1) (k * 2 + 1) 1) (at_ x 0 *. half) 1 (length x - 1).

Lemma sem_dct7_naive_ok tw n :
  0 < n -> length tw = n * 4 - 2 ->
  computes (Dct6And7Naive_dct7 (mkC67Naive tw)) n n (sem_dct7_naive tw).
Proof.
  intros Hn Htw m b s Hb Hs Hd.
  unfold Dct6And7Naive_dct7, Dct6And7Naive_scratch, Dct6And7Naive_len. simpl c67n_tw.
  replace ((length tw + 2) / 4) with n by (rewrite Htw; divn).
  naive_copy m1 A1 A2.
  do 2 wpi (zero : T). cbn [slen base]. set (m2 := upd m1 _ _).
  assert (C1 : forall i, i < n -> m2 (base s + i) = half_at 0 (at_ (vals m b)) i).
  { intros i Hi. unfold m2, half_at, at_. rewrite nth_vals by lia. destruct (Nat.eqb_spec i 0).
    - subst i. rewrite upd_same, A1 by lia. reflexivity.
    - rewrite upd_other by lia. rewrite A1 by lia. reflexivity. }
  apply (wp_naive_outer0 zero op_add tw b (mkS (base s) n) 0 1 (fun k => k * 2 + 1) (fun k => k * 2 + 1)).
  - intros k Hk. lia.
  - unfold disj in Hd |- *; simpl; lia.
  - simpl; lia.
  - simpl. intros m4 B1 B2. split.
    + intros k Hk. unfold sem_dct7_naive. rewrite vals_length, Hb.
      rewrite B1 by lia. rewrite C1 by lia. unfold half_at at 1. simpl (0 =? 0).
      apply accum_ext; [|auto]. intros i Hi. rewrite C1 by lia. unfold half_at.
      destruct (Nat.eqb_spec i 0); [lia|reflexivity].
    + intros q Hq1 Hq2. rewrite B2 by lia. unfold m2. rewrite !upd_other by lia. apply A2. lia.
Qed.

End Naive.
