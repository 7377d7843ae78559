(** Reasoning about runs of programs: a weakest precondition for "returns
    normally and the result satisfies Q", with rules for every operation of
    [Prog.v]. *)
From Coq Require Import List Arith Lia Bool.
From Verif Require Import Prog Num Model_Common.
Import ListNotations.

Definition wp {T A} (p : prog T A) (m : mem T) (Q : A -> mem T -> Prop) : Prop :=
  match run p m with Done a m' => Q a m' | _ => False end.

Lemma Ok_inj {A} (a b : A) : Ok a = Ok b -> a = b.
Proof. congruence. Qed.

Section Basic.
Context {T : Type}.
Implicit Types m : mem T.

Lemma run_bind {A B} (p : prog T A) (f : A -> prog T B) m :
  run (bind p f) m =
  match run p m with
  | Done a m' => run (f a) m'
  | Panicked e m' => Panicked e m'
  | Undef => Undef
  end.
Proof. revert m; induction p; intros m; simpl; auto. Qed.

Lemma wp_bind {A B} (p : prog T A) (f : A -> prog T B) m Q :
  wp p m (fun a m' => wp (f a) m' Q) -> wp (bind p f) m Q.
Proof. unfold wp. rewrite run_bind. destruct (run p m); auto. Qed.

Lemma wp_bind_inv {A B} (p : prog T A) (f : A -> prog T B) m Q :
  wp (bind p f) m Q -> wp p m (fun a m' => wp (f a) m' Q).
Proof. unfold wp. rewrite run_bind. destruct (run p m); auto. Qed.

Lemma wp_conseq {A} (p : prog T A) m (Q Q' : A -> mem T -> Prop) :
  wp p m Q -> (forall a m', Q a m' -> Q' a m') -> wp p m Q'.
Proof. unfold wp. destruct (run p m); auto. Qed.

Lemma wp_ret {A} (a : A) m (Q : A -> mem T -> Prop) : Q a m -> wp (Ret a) m Q.
Proof. auto. Qed.

Lemma wp_ret_b {A B} (a : A) (f : A -> prog T B) m Q : wp (f a) m Q -> wp (bind (Ret a) f) m Q.
Proof. auto. Qed.

Lemma wp_assoc {A B C} (p : prog T A) (f : A -> prog T B) (g : B -> prog T C) m Q :
  wp (bind p (fun a => bind (f a) g)) m Q -> wp (bind (bind p f) g) m Q.
Proof.
  intros H. apply wp_bind, wp_bind. apply wp_bind_inv in H.
  eapply wp_conseq; [exact H|]. intros a m' Ha. apply wp_bind_inv. exact Ha.
Qed.

(** Single operations, in tail position and before a continuation. *)
Lemma wp_rd_b {B} s i (f : T -> prog T B) m Q :
  i < slen s -> wp (f (m (base s + i))) m Q -> wp (bind (rd s i) f) m Q.
Proof. intros Hi H. unfold rd. rewrite (proj2 (Nat.ltb_lt _ _) Hi). exact H. Qed.
Lemma wp_rd s i m (Q : T -> mem T -> Prop) : i < slen s -> Q (m (base s + i)) m -> wp (rd s i) m Q.
Proof. intros Hi H. unfold rd. rewrite (proj2 (Nat.ltb_lt _ _) Hi). exact H. Qed.
Lemma wp_rdu_b {B} s i (f : T -> prog T B) m Q :
  i < slen s -> wp (f (m (base s + i))) m Q -> wp (bind (rdu s i) f) m Q.
Proof. intros Hi H. unfold rdu. rewrite (proj2 (Nat.ltb_lt _ _) Hi). exact H. Qed.
Lemma wp_rdu s i m (Q : T -> mem T -> Prop) : i < slen s -> Q (m (base s + i)) m -> wp (rdu s i) m Q.
Proof. intros Hi H. unfold rdu. rewrite (proj2 (Nat.ltb_lt _ _) Hi). exact H. Qed.
Lemma wp_wr_b {B} s i v (f : unit -> prog T B) m Q :
  i < slen s -> wp (f tt) (upd m (base s + i) v) Q -> wp (bind (wr s i v) f) m Q.
Proof. intros Hi H. unfold wr. rewrite (proj2 (Nat.ltb_lt _ _) Hi). exact H. Qed.
Lemma wp_wr s i v m (Q : unit -> mem T -> Prop) :
  i < slen s -> Q tt (upd m (base s + i) v) -> wp (wr s i v) m Q.
Proof. intros Hi H. unfold wr. rewrite (proj2 (Nat.ltb_lt _ _) Hi). exact H. Qed.
Lemma wp_wru_b {B} s i v (f : unit -> prog T B) m Q :
  i < slen s -> wp (f tt) (upd m (base s + i) v) Q -> wp (bind (wru s i v) f) m Q.
Proof. intros Hi H. unfold wru. rewrite (proj2 (Nat.ltb_lt _ _) Hi). exact H. Qed.
Lemma wp_wru s i v m (Q : unit -> mem T -> Prop) :
  i < slen s -> Q tt (upd m (base s + i) v) -> wp (wru s i v) m Q.
Proof. intros Hi H. unfold wru. rewrite (proj2 (Nat.ltb_lt _ _) Hi). exact H. Qed.
Lemma wp_get_mut_b {B} s i (f : slice -> prog T B) m Q :
  i < slen s -> wp (f (mkS (base s + i) 1)) m Q -> wp (bind (get_mut_unwrap s i) f) m Q.
Proof. intros Hi H. unfold get_mut_unwrap. rewrite (proj2 (Nat.ltb_lt _ _) Hi). exact H. Qed.
Lemma wp_deref_b {B} a (f : T -> prog T B) m Q :
  wp (f (m a)) m Q -> wp (bind (deref (mkS a 1)) f) m Q.
Proof. intros H. unfold deref, rd. simpl. rewrite Nat.add_0_r. exact H. Qed.
Lemma wp_assign_b {B} a v (f : unit -> prog T B) m Q :
  wp (f tt) (upd m a v) Q -> wp (bind (assign (mkS a 1) v) f) m Q.
Proof. intros H. unfold assign, wr. simpl. rewrite Nat.add_0_r. exact H. Qed.
Lemma wp_usub_b {B} a b (f : nat -> prog T B) m Q :
  b <= a -> wp (f (a - b)) m Q -> wp (bind (usub a b) f) m Q.
Proof. intros Hi H. unfold usub. rewrite (proj2 (Nat.leb_le _ _) Hi). exact H. Qed.
Lemma wp_usub a b m (Q : nat -> mem T -> Prop) : b <= a -> Q (a - b) m -> wp (usub a b) m Q.
Proof. intros Hi H. unfold usub. rewrite (proj2 (Nat.leb_le _ _) Hi). exact H. Qed.
Lemma wp_idx_b {X B} (l : list X) d i (f : X -> prog T B) m Q :
  i < length l -> wp (f (nth i l d)) m Q -> wp (bind (idx l i) f) m Q.
Proof. intros Hi H. unfold idx. rewrite (nth_error_nth' l d Hi). exact H. Qed.
Lemma wp_idxu_b {X B} (l : list X) d i (f : X -> prog T B) m Q :
  i < length l -> wp (f (nth i l d)) m Q -> wp (bind (idxu l i) f) m Q.
Proof. intros Hi H. unfold idxu. rewrite (nth_error_nth' l d Hi). exact H. Qed.
Lemma wp_split_b {B} s n (f : slice * slice -> prog T B) m Q :
  n <= slen s -> wp (f (mkS (base s) n, mkS (base s + n) (slen s - n))) m Q ->
  wp (bind (split_at_mut s n) f) m Q.
Proof. intros Hi H. unfold split_at_mut. rewrite (proj2 (Nat.leb_le _ _) Hi). exact H. Qed.
Lemma wp_csplit_b {B} s n (f : cslice * cslice -> prog T B) m Q :
  n <= clen s -> wp (f (mkC (cbase s) n, mkC (cbase s + 2 * n) (clen s - n))) m Q ->
  wp (bind (csplit_at_mut s n) f) m Q.
Proof. intros Hi H. unfold csplit_at_mut. rewrite (proj2 (Nat.leb_le _ _) Hi). exact H. Qed.
Lemma wp_slice_from_b {B} s n (f : slice -> prog T B) m Q :
  n <= slen s -> wp (f (mkS (base s + n) (slen s - n))) m Q -> wp (bind (slice_from s n) f) m Q.
Proof. intros Hi H. unfold slice_from. rewrite (proj2 (Nat.leb_le _ _) Hi). exact H. Qed.
Lemma wp_slice_to_b {B} s n (f : slice -> prog T B) m Q :
  n <= slen s -> wp (f (mkS (base s) n)) m Q -> wp (bind (slice_to s n) f) m Q.
Proof. intros Hi H. unfold slice_to. rewrite (proj2 (Nat.leb_le _ _) Hi). exact H. Qed.
Lemma wp_cslice_from_b {B} s n (f : cslice -> prog T B) m Q :
  n <= clen s -> wp (f (mkC (cbase s + 2 * n) (clen s - n))) m Q ->
  wp (bind (cslice_from s n) f) m Q.
Proof. intros Hi H. unfold cslice_from. rewrite (proj2 (Nat.leb_le _ _) Hi). exact H. Qed.
Lemma wp_cslice_to_b {B} s n (f : cslice -> prog T B) m Q :
  n <= clen s -> wp (f (mkC (cbase s) n)) m Q -> wp (bind (cslice_to s n) f) m Q.
Proof. intros Hi H. unfold cslice_to. rewrite (proj2 (Nat.leb_le _ _) Hi). exact H. Qed.
Lemma wp_list_from_b {X B} (l : list X) n (f : list X -> prog T B) m Q :
  n <= length l -> wp (f (skipn n l)) m Q -> wp (bind (list_from l n) f) m Q.
Proof. intros Hi H. unfold list_from. rewrite (proj2 (Nat.leb_le _ _) Hi). exact H. Qed.
Lemma wp_crd_re_b {B} s i (f : T -> prog T B) m Q :
  i < clen s -> wp (f (m (cbase s + 2 * i))) m Q -> wp (bind (crd_re s i) f) m Q.
Proof. intros Hi H. unfold crd_re. rewrite (proj2 (Nat.ltb_lt _ _) Hi). exact H. Qed.
Lemma wp_crd_im_b {B} s i (f : T -> prog T B) m Q :
  i < clen s -> wp (f (m (cbase s + 2 * i + 1))) m Q -> wp (bind (crd_im s i) f) m Q.
Proof. intros Hi H. unfold crd_im. rewrite (proj2 (Nat.ltb_lt _ _) Hi). exact H. Qed.
Lemma wp_crd_b {B} s i (f : T * T -> prog T B) m Q :
  i < clen s -> wp (f (m (cbase s + 2 * i), m (cbase s + 2 * i + 1))) m Q ->
  wp (bind (crd s i) f) m Q.
Proof.
  intros Hi H. unfold crd, crd_re, crd_im. rewrite (proj2 (Nat.ltb_lt _ _) Hi). exact H.
Qed.
Lemma wp_cwr_im_b {B} s i v (f : unit -> prog T B) m Q :
  i < clen s -> wp (f tt) (upd m (cbase s + 2 * i + 1) v) Q -> wp (bind (cwr_im s i v) f) m Q.
Proof. intros Hi H. unfold cwr_im. rewrite (proj2 (Nat.ltb_lt _ _) Hi). exact H. Qed.
Lemma wp_cwr_im s i v m (Q : unit -> mem T -> Prop) :
  i < clen s -> Q tt (upd m (cbase s + 2 * i + 1) v) -> wp (cwr_im s i v) m Q.
Proof. intros Hi H. unfold cwr_im. rewrite (proj2 (Nat.ltb_lt _ _) Hi). exact H. Qed.
Lemma wp_cwr_b {B} s i v (f : unit -> prog T B) m Q :
  i < clen s ->
  wp (f tt) (upd (upd m (cbase s + 2 * i) (fst v)) (cbase s + 2 * i + 1) (snd v)) Q ->
  wp (bind (cwr s i v) f) m Q.
Proof. intros Hi H. unfold cwr. rewrite (proj2 (Nat.ltb_lt _ _) Hi). exact H. Qed.
Lemma wp_cwr s i v m (Q : unit -> mem T -> Prop) :
  i < clen s ->
  Q tt (upd (upd m (cbase s + 2 * i) (fst v)) (cbase s + 2 * i + 1) (snd v)) ->
  wp (cwr s i v) m Q.
Proof. intros Hi H. unfold cwr. rewrite (proj2 (Nat.ltb_lt _ _) Hi). exact H. Qed.

Lemma upd_same m p v : upd m p v p = v.
Proof. unfold upd. rewrite Nat.eqb_refl. reflexivity. Qed.
Lemma upd_other m p v q : q <> p -> upd m p v q = m q.
Proof. intros H. unfold upd. rewrite (proj2 (Nat.eqb_neq _ _) H). reflexivity. Qed.

(** Loops. *)
Lemma wp_for_inv (I : nat -> mem T -> Prop) a n body m (Q : unit -> mem T -> Prop) :
  I a m ->
  (forall i m', a <= i < a + n -> I i m' -> wp (body i) m' (fun _ m'' => I (S i) m'')) ->
  (forall m', I (a + n) m' -> Q tt m') ->
  wp (for_n a n body) m Q.
Proof.
  revert a m. induction n; intros a m H0 Hs HQ.
  - simpl. apply wp_ret. apply HQ. rewrite Nat.add_0_r. exact H0.
  - simpl. apply wp_bind. eapply wp_conseq; [apply Hs; [lia|exact H0]|].
    intros [] m' Hm'. apply IHn; [exact Hm'| |].
    + intros i m'' Hi. apply Hs. lia.
    + intros m'' Hm''. apply HQ. replace (a + S n) with (S a + n) by lia. exact Hm''.
Qed.

Lemma wp_fold_inv {X} (I : nat -> X -> mem T -> Prop) a n x0 body m (Q : X -> mem T -> Prop) :
  I a x0 m ->
  (forall i x m', a <= i < a + n -> I i x m' ->
     wp (body i x) m' (fun x' m'' => I (S i) x' m'')) ->
  (forall x m', I (a + n) x m' -> Q x m') ->
  wp (fold_n a n x0 body) m Q.
Proof.
  revert a x0 m. induction n; intros a x0 m H0 Hs HQ.
  - simpl. apply wp_ret. apply HQ. rewrite Nat.add_0_r. exact H0.
  - simpl. apply wp_bind. eapply wp_conseq; [apply Hs; [lia|exact H0]|].
    intros x1 m' Hm'. apply IHn; [exact Hm'| |].
    + intros i x m'' Hi. apply Hs. lia.
    + intros x m'' Hm''. apply HQ. replace (a + S n) with (S a + n) by lia. exact Hm''.
Qed.

(** A loop whose iterations write pairwise disjoint sets of cells [W i], with
    values [v i q] that only depend on cells no earlier iteration writes. *)
Lemma wp_for_par (W : nat -> nat -> Prop) (v : nat -> nat -> T) a b body m (Q : unit -> mem T -> Prop) :
  (forall i j q, a <= i < b -> a <= j < b -> i <> j -> W i q -> W j q -> False) ->
  (forall i m', a <= i < b ->
     (forall q, (forall j, a <= j < i -> ~ W j q) -> m' q = m q) ->
     wp (body i) m' (fun _ m'' =>
       (forall q, W i q -> m'' q = v i q) /\ (forall q, ~ W i q -> m'' q = m' q))) ->
  (forall m',
     (forall i q, a <= i < b -> W i q -> m' q = v i q) ->
     (forall q, (forall i, a <= i < b -> ~ W i q) -> m' q = m q) ->
     Q tt m') ->
  wp (for_range a b body) m Q.
Proof.
  intros Hdis Hbody HQ. unfold for_range.
  destruct (le_lt_dec b a) as [Hab|Hab].
  { replace (b - a) with 0 by lia. simpl. apply HQ; [intros; lia|auto]. }
  apply (wp_for_inv (fun k m' =>
    (forall i q, a <= i < k -> W i q -> m' q = v i q) /\
    (forall q, (forall i, a <= i < k -> ~ W i q) -> m' q = m q))).
  - split; [intros; lia|auto].
  - intros i m' Hi [H1 H2]. eapply wp_conseq; [apply Hbody; [lia|exact H2]|].
    intros [] m'' [K1 K2]. split.
    + intros j q Hj Hw. destruct (Nat.eq_dec j i) as [->|Hne]; [auto|].
      rewrite K2; [apply H1; [lia|auto]|]. intros Hw'. apply (Hdis i j q); auto; lia.
    + intros q Hq. rewrite K2; [apply H2|].
      * intros j Hj. apply Hq. lia.
      * apply Hq. lia.
  - intros m' [H1 H2]. replace (a + (b - a)) with b in * by lia. apply HQ; auto.
Qed.

(** The same when iteration [i] writes the single cell [base s + i]. *)
Lemma wp_for_cells (s0 : nat) (v : nat -> T) a b body m (Q : unit -> mem T -> Prop) :
  (forall i m', a <= i < b ->
     (forall q, ~ (s0 + a <= q < s0 + i) -> m' q = m q) ->
     wp (body i) m' (fun _ m'' =>
       m'' (s0 + i) = v i /\ (forall q, q <> s0 + i -> m'' q = m' q))) ->
  (forall m',
     (forall i, a <= i < b -> m' (s0 + i) = v i) ->
     (forall q, ~ (s0 + a <= q < s0 + b) -> m' q = m q) ->
     Q tt m') ->
  wp (for_range a b body) m Q.
Proof.
  intros Hb HQ.
  apply (wp_for_par (fun i q => q = s0 + i) (fun i _ => v i)).
  - intros. lia.
  - intros i m' Hi Hm. eapply wp_conseq; [apply Hb; [exact Hi|]|].
    + intros q Hq. apply Hm. intros j Hj. lia.
    + intros [] m'' [K1 K2]. split; [intros q ->; exact K1|exact K2].
  - intros m' H1 H2. apply HQ; [auto|]. intros q Hq. apply H2. intros i Hi. lia.
Qed.

(** Contents of slices. *)
Lemma vals_length m s : length (vals m s) = slen s.
Proof. unfold vals. rewrite map_length, seq_length. reflexivity. Qed.

Lemma nth_map_seq {A} (f : nat -> A) n i d : i < n -> nth i (map f (seq 0 n)) d = f i.
Proof.
  intros H. rewrite (nth_indep _ d (f 0)) by (rewrite map_length, seq_length; exact H).
  rewrite (map_nth f). rewrite seq_nth by exact H. reflexivity.
Qed.

Lemma nth_vals m s i d : i < slen s -> nth i (vals m s) d = m (base s + i).
Proof. intros H. unfold vals. apply (nth_map_seq (fun i => m (base s + i))). exact H. Qed.

Lemma map_seq_ext {A} (f g : nat -> A) a n :
  (forall i, a <= i < a + n -> f i = g i) -> map f (seq a n) = map g (seq a n).
Proof. intros H. apply map_ext_in. intros i Hi. apply in_seq in Hi. apply H. lia. Qed.

Lemma vals_map m s (g : nat -> T) n :
  slen s = n -> (forall i, i < n -> m (base s + i) = g i) -> vals m s = map g (seq 0 n).
Proof. intros <- H. unfold vals. apply map_seq_ext. intros. apply H. lia. Qed.

Lemma vals_ext m m' s :
  (forall i, i < slen s -> m (base s + i) = m' (base s + i)) -> vals m s = vals m' s.
Proof. intros H. unfold vals. apply map_seq_ext. intros. apply H. lia. Qed.

Lemma cvals_length m s : length (cvals m s) = clen s.
Proof. unfold cvals. rewrite map_length, seq_length. reflexivity. Qed.

Lemma cvals_map m s (g : nat -> T * T) n :
  clen s = n ->
  (forall i, i < n -> m (cbase s + 2 * i) = fst (g i) /\ m (cbase s + 2 * i + 1) = snd (g i)) ->
  cvals m s = map g (seq 0 n).
Proof.
  intros <- H. unfold cvals. apply map_seq_ext. intros i Hi.
  destruct (H i) as [-> ->]; [lia|]. symmetry. apply surjective_pairing.
Qed.

Lemma list_eq_nth {A} (d : A) (l l' : list A) :
  length l = length l' -> (forall i, i < length l -> nth i l d = nth i l' d) -> l = l'.
Proof.
  revert l'. induction l; intros [|b l'] Hl H; simpl in *; try discriminate; auto.
  f_equal.
  - apply (H 0). lia.
  - apply IHl; [lia|]. intros i Hi. apply (H (S i)). lia.
Qed.

(** Library calls on whole slices. *)
Definition disj (s1 s2 : slice) : Prop :=
  slen s1 = 0 \/ slen s2 = 0 \/ base s1 + slen s1 <= base s2 \/ base s2 + slen s2 <= base s1.

Lemma wp_copy_from_slice dst src m (Q : unit -> mem T -> Prop) :
  slen dst = slen src -> disj dst src ->
  (forall m', (forall i, i < slen dst -> m' (base dst + i) = m (base src + i)) ->
     (forall q, ~ (base dst <= q < base dst + slen dst) -> m' q = m q) -> Q tt m') ->
  wp (copy_from_slice dst src) m Q.
Proof.
  intros Hl Hd HQ. unfold copy_from_slice. rewrite Hl, Nat.eqb_refl. rewrite <- Hl.
  apply (wp_for_cells (base dst) (fun i => m (base src + i))).
  - intros i m' Hi Hm. apply wp_rd_b; [lia|]. apply wp_wr; [lia|]. split.
    + rewrite upd_same. apply Hm. unfold disj in Hd. lia.
    + intros q Hq. apply upd_other. exact Hq.
  - intros m' H1 H2. apply HQ.
    + intros i Hi. apply H1. lia.
    + intros q Hq. apply H2. lia.
Qed.

Lemma wp_reverse s m (Q : unit -> mem T -> Prop) :
  (forall m', (forall i, i < slen s -> m' (base s + i) = m (base s + (slen s - 1 - i))) ->
     (forall q, ~ (base s <= q < base s + slen s) -> m' q = m q) -> Q tt m') ->
  wp (reverse s) m Q.
Proof.
  intros HQ. unfold reverse.
  assert (Hdiv : slen s / 2 * 2 <= slen s < slen s / 2 * 2 + 2).
  { pose proof (Nat.div_mod (slen s) 2 ltac:(lia)).
    pose proof (Nat.mod_upper_bound (slen s) 2 ltac:(lia)). lia. }
  apply (wp_for_par
    (fun i q => q = base s + i \/ q = base s + (slen s - 1 - i))
    (fun i q => if q =? base s + i then m (base s + (slen s - 1 - i)) else m (base s + i))).
  - intros. lia.
  - intros i m' Hi Hm.
    apply wp_rd_b; [lia|]. apply wp_rd_b; [lia|]. apply wp_wr_b; [lia|]. apply wp_wr; [lia|].
    assert (E1 : m' (base s + i) = m (base s + i)) by (apply Hm; intros; lia).
    assert (E2 : m' (base s + (slen s - 1 - i)) = m (base s + (slen s - 1 - i)))
      by (apply Hm; intros; lia).
    split.
    + intros q Hq. unfold upd.
      destruct (Nat.eqb_spec q (base s + (slen s - 1 - i))), (Nat.eqb_spec q (base s + i));
        auto; try lia.
    + intros q Hq. rewrite !upd_other by lia. reflexivity.
  - intros m' H1 H2. apply HQ.
    + intros i Hi.
      destruct (lt_dec i (slen s / 2)) as [Hlt|Hge].
      * rewrite (H1 i) by lia. rewrite Nat.eqb_refl. reflexivity.
      * destruct (Nat.eq_dec i (slen s - 1 - i)) as [E|E].
        -- rewrite <- E. apply H2. intros. lia.
        -- rewrite (H1 (slen s - 1 - i)) by lia.
           destruct (Nat.eqb_spec (base s + i) (base s + (slen s - 1 - i))); [lia|reflexivity].
    + intros q Hq. apply H2. intros. lia.
Qed.

Lemma wp_cread_all s m (Q : list (T * T) -> mem T -> Prop) : Q (cvals m s) m -> wp (cread_all s) m Q.
Proof.
  intros HQ. unfold cread_all, fold_range.
  apply (wp_fold_inv (fun k l m' => m' = m /\
     l = map (fun i => (m (cbase s + 2 * i), m (cbase s + 2 * i + 1))) (seq 0 k))).
  - auto.
  - intros i l m' Hi [-> ->]. apply wp_crd_b; [lia|]. apply wp_ret. split; [auto|].
    rewrite seq_S, map_app. reflexivity.
  - intros l m' [-> ->]. rewrite Nat.add_0_l, Nat.sub_0_r. exact HQ.
Qed.

Lemma wp_cwrite_all d s l m (Q : unit -> mem T -> Prop) :
  (forall m', (forall i, i < clen s -> m' (cbase s + 2 * i) = fst (nth i l d) /\
                                       m' (cbase s + 2 * i + 1) = snd (nth i l d)) ->
     (forall q, ~ (cbase s <= q < cbase s + 2 * clen s) -> m' q = m q) -> Q tt m') ->
  wp (cwrite_all d s l) m Q.
Proof.
  intros HQ. unfold cwrite_all.
  apply (wp_for_par
    (fun i q => q = cbase s + 2 * i \/ q = cbase s + 2 * i + 1)
    (fun i q => if q =? cbase s + 2 * i then fst (nth i l d) else snd (nth i l d))).
  - intros. lia.
  - intros i m' Hi Hm. apply wp_cwr; [lia|]. split.
    + intros q [->| ->].
      * rewrite upd_other by lia. rewrite upd_same, Nat.eqb_refl. reflexivity.
      * rewrite upd_same. destruct (Nat.eqb_spec (cbase s + 2 * i + 1) (cbase s + 2 * i)); [lia|auto].
    + intros q Hq. rewrite !upd_other by lia. reflexivity.
  - intros m' H1 H2. apply HQ.
    + intros i Hi. split.
      * rewrite (H1 i) by lia. rewrite Nat.eqb_refl. reflexivity.
      * rewrite (H1 i) by lia.
        destruct (Nat.eqb_spec (cbase s + 2 * i + 1) (cbase s + 2 * i)); [lia|auto].
    + intros q Hq. apply H2. intros. lia.
Qed.

End Basic.

(** Loops that write one cell, or one complex element, per iteration at
    pairwise different positions. *)
Section Loops.
Context {T : Type}.
Implicit Types m : mem T.

Lemma wp_for_wr (s0 : nat) (pos : nat -> nat) (v : nat -> T) a b body m (Q : unit -> mem T -> Prop) :
  (forall i j, a <= i < b -> a <= j < b -> pos i = pos j -> i = j) ->
  (forall i m', a <= i < b ->
     (forall q, (forall j, a <= j < i -> q <> s0 + pos j) -> m' q = m q) ->
     forall K : unit -> mem T -> Prop,
       K tt (upd m' (s0 + pos i) (v i)) -> wp (body i) m' K) ->
  (forall m',
     (forall i, a <= i < b -> m' (s0 + pos i) = v i) ->
     (forall q, (forall i, a <= i < b -> q <> s0 + pos i) -> m' q = m q) ->
     Q tt m') ->
  wp (for_range a b body) m Q.
Proof.
  intros Hinj Hb HQ.
  apply (wp_for_par (fun i q => q = s0 + pos i) (fun i _ => v i)).
  - intros i j q Hi Hj Hne -> E. apply Hne, Hinj; auto. lia.
  - intros i m' Hi Hm. apply Hb; [exact Hi|exact Hm|]. split.
    + intros q ->. apply upd_same.
    + intros q Hq. apply upd_other. exact Hq.
  - intros m' H1 H2. apply HQ; auto.
Qed.

Lemma wp_for_cwr (s0 : nat) (pos : nat -> nat) (v : nat -> T * T) a b body m (Q : unit -> mem T -> Prop) :
  (forall i j, a <= i < b -> a <= j < b -> pos i = pos j -> i = j) ->
  (forall i m', a <= i < b ->
     (forall q, (forall j, a <= j < i -> q <> s0 + 2 * pos j /\ q <> s0 + 2 * pos j + 1) -> m' q = m q) ->
     forall K : unit -> mem T -> Prop,
       K tt (upd (upd m' (s0 + 2 * pos i) (fst (v i))) (s0 + 2 * pos i + 1) (snd (v i))) ->
       wp (body i) m' K) ->
  (forall m',
     (forall i, a <= i < b -> m' (s0 + 2 * pos i) = fst (v i) /\ m' (s0 + 2 * pos i + 1) = snd (v i)) ->
     (forall q, (forall i, a <= i < b -> q <> s0 + 2 * pos i /\ q <> s0 + 2 * pos i + 1) -> m' q = m q) ->
     Q tt m') ->
  wp (for_range a b body) m Q.
Proof.
  intros Hinj Hb HQ.
  apply (wp_for_par (fun i q => q = s0 + 2 * pos i \/ q = s0 + 2 * pos i + 1)
    (fun i q => if q =? s0 + 2 * pos i then fst (v i) else snd (v i))).
  - intros i j q Hi Hj Hne [-> | ->] [E | E]; try lia; apply Hne, Hinj; auto; lia.
  - intros i m' Hi Hm. apply Hb; [exact Hi| |].
    { intros q Hq. apply Hm. intros j Hj [E|E]; apply (Hq j Hj) in E; auto. }
    split.
    + intros q [-> | ->].
      * rewrite upd_other by lia. rewrite upd_same, Nat.eqb_refl. reflexivity.
      * rewrite upd_same. destruct (Nat.eqb_spec (s0 + 2 * pos i + 1) (s0 + 2 * pos i)); [lia|auto].
    + intros q Hq. rewrite !upd_other by lia. reflexivity.
  - intros m' H1 H2. apply HQ.
    + intros i Hi. split.
      * rewrite (H1 i) by lia. rewrite Nat.eqb_refl. reflexivity.
      * rewrite (H1 i) by lia.
        destruct (Nat.eqb_spec (s0 + 2 * pos i + 1) (s0 + 2 * pos i)); [lia|auto].
    + intros q Hq. apply H2. intros i Hi [E|E]; apply (Hq i Hi) in E; auto.
Qed.
(** A loop with a local variable whose value before iteration [i] is [g i]. *)
Lemma wp_fold_par {X} (g : nat -> X) (W : nat -> nat -> Prop) (v : nat -> nat -> T) a b body m
  (Q : X -> mem T -> Prop) :
  a <= b ->
  (forall i j q, a <= i < b -> a <= j < b -> i <> j -> W i q -> W j q -> False) ->
  (forall i m', a <= i < b ->
     (forall q, (forall j, a <= j < i -> ~ W j q) -> m' q = m q) ->
     wp (body i (g i)) m' (fun x m'' => x = g (S i) /\
       (forall q, W i q -> m'' q = v i q) /\ (forall q, ~ W i q -> m'' q = m' q))) ->
  (forall m',
     (forall i q, a <= i < b -> W i q -> m' q = v i q) ->
     (forall q, (forall i, a <= i < b -> ~ W i q) -> m' q = m q) ->
     Q (g b) m') ->
  wp (fold_range a b (g a) body) m Q.
Proof.
  intros Hab Hdis Hbody HQ. unfold fold_range.
  apply (wp_fold_inv (fun k x m' => x = g k /\
    (forall i q, a <= i < k -> W i q -> m' q = v i q) /\
    (forall q, (forall i, a <= i < k -> ~ W i q) -> m' q = m q))).
  - split; [reflexivity|]. split; [intros; lia|auto].
  - intros i x m' Hi (-> & H1 & H2). eapply wp_conseq; [apply Hbody; [lia|exact H2]|].
    intros y m'' (Hy & K1 & K2). split; [exact Hy|]. split.
    + intros j q Hj Hw. destruct (Nat.eq_dec j i) as [->|Hne]; [auto|].
      rewrite K2; [apply H1; [lia|auto]|]. intros Hw'. apply (Hdis i j q); auto; lia.
    + intros q Hq. rewrite K2; [apply H2|].
      * intros j Hj. apply Hq. lia.
      * apply Hq. lia.
  - intros x m' (-> & H1 & H2). replace (a + (b - a)) with b in * by lia. apply HQ; auto.
Qed.

Lemma wp_while {X} (I : X -> mem T -> Prop) (meas : X -> nat) fuel cond body x m
  (Q : X -> mem T -> Prop) :
  I x m -> meas x < fuel ->
  (forall y m', I y m' -> cond y = true ->
     wp (body y) m' (fun z m'' => I z m'' /\ meas z < meas y)) ->
  (forall y m', I y m' -> cond y = false -> Q y m') ->
  wp (while_ fuel cond body x) m Q.
Proof.
  revert x m. induction fuel; intros x m HI Hf Hs HQ; [lia|].
  simpl. destruct (cond x) eqn:E.
  - apply wp_bind. eapply wp_conseq; [apply Hs; [exact HI|exact E]|].
    intros z m' [HI' Hz]. apply IHfuel; auto. lia.
  - apply wp_ret. apply HQ; auto.
Qed.
End Loops.

(** FFT calls: the buffer receives the FFT of its contents, the scratch is
    changed arbitrarily. *)
Lemma wp_fft_process {T F} {N : Num T F} (f : fft T) (b s : cslice) m (Q : unit -> mem T -> Prop) :
  clen b = fft_len f -> fft_scratch f <= clen s ->
  (clen b = 0 \/ clen s = 0 \/ cbase b + 2 * clen b <= cbase s \/ cbase s + 2 * clen s <= cbase b) ->
  (forall m',
     let r := fst (fft_run f (cvals m b) (cvals m s)) in
     (forall i, i < clen b -> m' (cbase b + 2 * i) = fst (nth i r (zero, zero)) /\
                              m' (cbase b + 2 * i + 1) = snd (nth i r (zero, zero))) ->
     (forall q, ~ (cbase b <= q < cbase b + 2 * clen b) ->
                ~ (cbase s <= q < cbase s + 2 * clen s) -> m' q = m q) -> Q tt m') ->
  wp (fft_process f b s) m Q.
Proof.
  intros Hb Hs Hd HQ. unfold fft_process.
  rewrite (proj2 (Nat.eqb_eq _ _) Hb), (proj2 (Nat.ltb_ge _ _) Hs). simpl.
  apply wp_bind, wp_cread_all, wp_bind, wp_cread_all.
  apply wp_bind, wp_cwrite_all. intros m1 A1 A2.
  apply wp_cwrite_all. intros m2 B1 B2.
  apply HQ.
  - intros i Hi. destruct (A1 i Hi) as [C1 C2]. split.
    + rewrite B2 by lia. exact C1.
    + rewrite B2 by lia. exact C2.
  - intros q Hq1 Hq2. rewrite B2 by exact Hq2. apply A2. exact Hq1.
Qed.

(** Specification of a [process_X_with_scratch] method on legal arguments: it
    returns; cell [i] of the buffer becomes [F (old buffer) i]; nothing else than
    the buffer and the first [sl] scratch cells changes. *)
Definition computes {T} (p : meth T) (n sl : nat) (F : list T -> nat -> T) : Prop :=
  forall m b s, slen b = n -> sl <= slen s -> disj b s ->
  wp (p b s) m (fun _ m' =>
    (forall i, i < n -> m' (base b + i) = F (vals m b) i) /\
    (forall q, ~ (base b <= q < base b + n) -> ~ (base s <= q < base s + sl) -> m' q = m q)).

(** The same for methods whose result also depends on the old contents of the
    first [sl] scratch cells. *)
Definition computes2 {T} (p : meth T) (n sl : nat) (F : list T -> list T -> nat -> T) : Prop :=
  forall m b s, slen b = n -> sl <= slen s -> disj b s ->
  wp (p b s) m (fun _ m' =>
    (forall i, i < n -> m' (base b + i) = F (vals m b) (vals m (mkS (base s) sl)) i) /\
    (forall q, ~ (base b <= q < base b + n) -> ~ (base s <= q < base s + sl) -> m' q = m q)).

Lemma computes_computes2 {T} (p : meth T) n sl F :
  computes p n sl F -> computes2 p n sl (fun x _ => F x).
Proof. intros H m b s Hb Hs Hd. exact (H m b s Hb Hs Hd). Qed.

(** Rejection of illegal arguments, without any memory access. *)
Definition rejects_len {T} (p : meth T) (n : nat) : Prop :=
  forall m b s, slen b <> n -> run (p b s) m = Panicked EBufLen m.
Definition rejects_scratch {T} (p : meth T) (n sl : nat) : Prop :=
  forall m b s, slen b = n -> slen s < sl -> run (p b s) m = Panicked EScratchLen m.

Lemma computes_ext {T} (p : meth T) n sl F G :
  computes p n sl F ->
  (forall x i, length x = n -> i < n -> F x i = G x i) -> computes p n sl G.
Proof.
  intros H E m b s Hb Hs Hd. eapply wp_conseq; [apply H; auto|].
  intros [] m' [A B]. split; [|exact B]. intros i Hi. rewrite A by exact Hi. apply E; [|exact Hi].
  rewrite vals_length. exact Hb.
Qed.

Lemma validate_buffers_ok {T F} {N : Num T F} b s n sl k m Q :
  slen b = n -> sl <= slen s -> wp (k (mkS (base s) sl)) m Q ->
  wp (validate_buffers (T:=T) b s n sl k) m Q.
Proof.
  intros Hb Hs H. unfold validate_buffers, get_range.
  rewrite (proj2 (Nat.eqb_eq _ _) Hb), (proj2 (Nat.leb_le _ _) Hs). exact H.
Qed.

Lemma validate_buffer_ok {T F} {N : Num T F} b n k m Q :
  slen b = n -> wp k m Q -> wp (validate_buffer (T:=T) b n k) m Q.
Proof.
  intros Hb H. unfold validate_buffer. rewrite (proj2 (Nat.eqb_eq _ _) Hb). exact H.
Qed.

Lemma validate_buffers_mdct_ok {T F} {N : Num T F} a b c s n sl k m Q :
  slen a = n -> slen b = n -> slen c = n -> sl <= slen s -> wp (k (mkS (base s) sl)) m Q ->
  wp (validate_buffers_mdct (T:=T) a b c s n sl k) m Q.
Proof.
  intros Ha Hb Hc Hs H. unfold validate_buffers_mdct, get_range.
  rewrite (proj2 (Nat.eqb_eq _ _) Ha), (proj2 (Nat.eqb_eq _ _) Hb), (proj2 (Nat.eqb_eq _ _) Hc),
    (proj2 (Nat.leb_le _ _) Hs). exact H.
Qed.

Lemma validate_buffers_len {T F} {N : Num T F} b s n sl k m :
  slen b <> n -> run (validate_buffers (T:=T) b s n sl k) m = Panicked EBufLen m.
Proof.
  intros H. unfold validate_buffers, dct_error_inplace.
  rewrite (proj2 (Nat.eqb_neq _ _) H). reflexivity.
Qed.

Lemma validate_buffer_len {T F} {N : Num T F} b n k m :
  slen b <> n -> run (validate_buffer (T:=T) b n k) m = Panicked EBufLen m.
Proof.
  intros H. unfold validate_buffer, dct_error_inplace.
  rewrite (proj2 (Nat.eqb_neq _ _) H). reflexivity.
Qed.

Lemma validate_buffers_scratch {T F} {N : Num T F} b s n sl k m :
  slen b = n -> slen s < sl -> run (validate_buffers (T:=T) b s n sl k) m = Panicked EScratchLen m.
Proof.
  intros H Hs. unfold validate_buffers, dct_error_inplace, get_range.
  rewrite (proj2 (Nat.eqb_eq _ _) H). simpl.
  rewrite (proj2 (Nat.leb_gt _ _) Hs). reflexivity.
Qed.

(** Symbolic execution.  [wpi] performs one step, leaving the side condition to
    [lia]. *)
Ltac wp_side := cbn [slen base clen cbase]; try lia.
Ltac wpi d :=
  match goal with
  | |- wp (bind (bind _ _) _) _ _ => apply wp_assoc
  | |- wp (bind (Ret _) _) _ _ => apply wp_ret_b
  | |- wp (bind (rd _ _) _) _ _ => apply wp_rd_b; [wp_side|]
  | |- wp (bind (rdu _ _) _) _ _ => apply wp_rdu_b; [wp_side|]
  | |- wp (bind (wr _ _ _) _) _ _ => apply wp_wr_b; [wp_side|]
  | |- wp (bind (wru _ _ _) _) _ _ => apply wp_wru_b; [wp_side|]
  | |- wp (bind (get_mut_unwrap _ _) _) _ _ => apply wp_get_mut_b; [wp_side|]
  | |- wp (bind (deref _) _) _ _ => apply wp_deref_b
  | |- wp (bind (assign _ _) _) _ _ => apply wp_assign_b
  | |- wp (bind (usub _ _) _) _ _ => apply wp_usub_b; [wp_side|]
  | |- wp (bind (idx _ _) _) _ _ => apply (wp_idx_b _ d); [wp_side|]
  | |- wp (bind (idxu _ _) _) _ _ => apply (wp_idxu_b _ d); [wp_side|]
  | |- wp (bind (split_at_mut _ _) _) _ _ => apply wp_split_b; [wp_side|]
  | |- wp (bind (csplit_at_mut _ _) _) _ _ => apply wp_csplit_b; [wp_side|]
  | |- wp (bind (slice_from _ _) _) _ _ => apply wp_slice_from_b; [wp_side|]
  | |- wp (bind (slice_to _ _) _) _ _ => apply wp_slice_to_b; [wp_side|]
  | |- wp (bind (cslice_from _ _) _) _ _ => apply wp_cslice_from_b; [wp_side|]
  | |- wp (bind (cslice_to _ _) _) _ _ => apply wp_cslice_to_b; [wp_side|]
  | |- wp (bind (list_from _ _) _) _ _ => apply wp_list_from_b; [wp_side|]
  | |- wp (bind (crd_re _ _) _) _ _ => apply wp_crd_re_b; [wp_side|]
  | |- wp (bind (crd_im _ _) _) _ _ => apply wp_crd_im_b; [wp_side|]
  | |- wp (bind (crd _ _) _) _ _ => apply wp_crd_b; [wp_side|]
  | |- wp (bind (cwr_im _ _ _) _) _ _ => apply wp_cwr_im_b; [wp_side|]
  | |- wp (bind (cwr _ _ _) _) _ _ => apply wp_cwr_b; [wp_side|]
  | |- wp (rd _ _) _ _ => apply wp_rd; [wp_side|]
  | |- wp (rdu _ _) _ _ => apply wp_rdu; [wp_side|]
  | |- wp (wr _ _ _) _ _ => apply wp_wr; [wp_side|]
  | |- wp (wru _ _ _) _ _ => apply wp_wru; [wp_side|]
  | |- wp (usub _ _) _ _ => apply wp_usub; [wp_side|]
  | |- wp (cwr_im _ _ _) _ _ => apply wp_cwr_im; [wp_side|]
  | |- wp (cwr _ _ _) _ _ => apply wp_cwr; [wp_side|]
  | |- wp (Ret _) _ _ => apply wp_ret
  end.

(** Decide the address tests left by [upd]. *)
Ltac upd_cases :=
  unfold upd;
  repeat match goal with
  | |- context [Nat.eqb ?a ?b] => destruct (Nat.eqb_spec a b); try lia
  end.
