(** What a call with a wrong buffer length or too little scratch does, for every
    instance that can be built. *)
From Coq Require Import List Arith Lia Bool ZArith ZifyNat Reals.
From Verif Require Import Prog Num Model_Common Model_Naive Model_Fft Model_Butterflies Model_SplitRadix
  Model_Mdct Model_Plan Model_Api Spec_Memory Spec_Methods Spec_Build Wp Api Confine Confine_Meth Interleave Objects Build_Conf.
Import ListNotations.
Open Scope nat_scope.
Ltac Zify.zify_post_hook ::= Z.div_mod_to_equations.

Section Reject.
Context {T F : Type} {N : Num T F}.

(** At the level of memory. *)
Definition rej (f : meth T) (n sl : nat) : Prop := forall b s m,
  (slen b <> n -> run (f b s) m = Panicked EBufLen m) /\
  (slen b = n -> slen s < sl -> run (f b s) m = Panicked EScratchLen m).
Lemma rej_buffers (f : meth T) n sl k : (forall b s, f b s = validate_buffers b s n sl (k b)) -> rej f n sl.
Proof. intros E b s m. rewrite E. split; intros; [apply validate_buffers_len|apply validate_buffers_scratch]; assumption. Qed.
Lemma rej_buffer (f : meth T) n k : (forall b s, f b s = validate_buffer b n (k b)) -> rej f n 0.
Proof. intros E b s m. rewrite E. split; intros; [apply validate_buffer_len; assumption|lia]. Qed.
Lemma rej_cleanly f n sl : rej f n sl -> rejects_cleanly f n sl.
Proof.
  intros H x s. specialize (H (mkS 0 (length x)) (mkS (length x) (length s)) (mem_of zero (x ++ s))). cbn [slen] in H.
  destruct H as [A B]. unfold call. split; [|split].
  - intros Hl. rewrite A by lia. rewrite vals_mem_of_1, vals_mem_of_2. reflexivity.
  - intros Hl. rewrite A by lia. rewrite vals_mem_of_1, vals_mem_of_2. reflexivity.
  - intros Hl Hs. rewrite B by assumption. rewrite vals_mem_of_1, vals_mem_of_2. reflexivity.
Qed.
Lemma with_somehow f n sl e l : rejects_with (T:=T) f n sl e l -> rejects_somehow f n sl.
Proof.
  intros H x s Hw. destruct (H x s) as (A & B & C). destruct (lt_eq_lt_dec (length x) n) as [[L|L]|L]; eauto.
  destruct Hw as [W|W]; [contradiction|]. eauto.
Qed.

Ltac rb := eapply rej_buffers; intros; reflexivity.
Ltac rb1 := eapply rej_buffer; intros; reflexivity.

(** *** The loop that negates the odd cells *)
Lemma run_bind {A B} (p : prog T A) (g : A -> prog T B) m :
  run (bind p g) m = match run p m with Done a m' => run (g a) m' | Panicked e m' => Panicked e m' | Undef => Undef end.
Proof. revert m. induction p as [a|q k IH|q v k IH|e|]; intros m; cbn [bind run]; auto. Qed.
Definition flip (b : slice) : nat -> prog T unit := fun i => v <- rd b (2 * i + 1) ;; wr b (2 * i + 1) (neg v).
Definition flipped b a n (m m' : mem T) : Prop :=
  (forall i, a <= i < a + n -> 2 * i + 1 < slen b -> m' (base b + (2 * i + 1)) = neg (m (base b + (2 * i + 1)))) /\
  (forall q, (forall i, a <= i < a + n -> 2 * i + 1 < slen b -> q <> base b + (2 * i + 1)) -> m' q = m q).
Lemma flip_loop b n : forall a m, exists m', flipped b a n m m' /\
  run (for_n a n (flip b)) m = (if (n =? 0) || (2 * (a + n) <=? slen b) then Done tt m' else Panicked EIndex m').
Proof.
  induction n as [|n IH]; intros a m.
  - exists m. split; [split; [intros; lia|auto]|]. reflexivity.
  - cbn [for_n]. rewrite run_bind. cbn [Nat.eqb orb].
    destruct (Nat.ltb_spec (2 * a + 1) (slen b)) as [Hi|Hi].
    + assert (E : run (flip b a) m = Done tt (upd m (base b + (2 * a + 1)) (neg (m (base b + (2 * a + 1)))))).
      { unfold flip, rd, wr. replace (2 * a + 1 <? slen b) with true by (symmetry; apply Nat.ltb_lt; exact Hi). reflexivity. }
      rewrite E. destruct (IH (S a) (upd m (base b + (2 * a + 1)) (neg (m (base b + (2 * a + 1)))))) as (m' & (F1 & F2) & R).
      exists m'. split.
      * split.
        -- intros i Hi1 Hi2. destruct (Nat.eq_dec i a) as [->|Hne].
           ++ rewrite F2 by (intros; lia). unfold upd. rewrite Nat.eqb_refl. reflexivity.
           ++ rewrite F1 by lia. unfold upd. destruct (Nat.eqb_spec (base b + (2 * i + 1)) (base b + (2 * a + 1))); [lia|reflexivity].
        -- intros q Hq. rewrite F2 by (intros i ? ?; apply Hq; lia). unfold upd.
           destruct (Nat.eqb_spec q (base b + (2 * a + 1))) as [->|]; [|reflexivity]. exfalso. apply (Hq a); lia.
      * rewrite R. replace (S a + n) with (a + S n) by lia. destruct n as [|n]; [|reflexivity].
        cbn [Nat.eqb orb]. destruct (Nat.leb_spec (2 * (a + 1)) (slen b)); [reflexivity|lia].
    + assert (E : run (flip b a) m = Panicked EIndex m).
      { unfold flip, rd. replace (2 * a + 1 <? slen b) with false by (symmetry; apply Nat.ltb_ge; exact Hi). reflexivity. }
      rewrite E. exists m. split; [split; [intros; lia|auto]|].
      destruct (Nat.leb_spec (2 * (a + S n)) (slen b)); [lia|reflexivity].
Qed.

Lemma odd_form i : Nat.odd i = true -> exists k, i = 2 * k + 1.
Proof. intros H. apply Nat.odd_spec in H. destruct H as [k ->]. exists k. reflexivity. Qed.
Lemma flipped_vals b h m m' : flipped b 0 h m m' ->
  vals m' b = map (fun i => if Nat.odd i && (i <? 2 * h) then neg (m (base b + i)) else m (base b + i)) (seq 0 (slen b)).
Proof.
  intros [F1 F2]. unfold vals. apply map_seq_ext. intros i Hi. destruct (Nat.odd i) eqn:O; cbn [andb].
  - destruct (odd_form i O) as [k ->]. destruct (Nat.ltb_spec (2 * k + 1) (2 * h)).
    + apply F1; lia.
    + apply F2. intros j ? ?. lia.
  - apply F2. intros j ? ? E. assert (i = 2 * j + 1) by lia. subst i. rewrite Nat.odd_add, Nat.odd_mul in O. discriminate.
Qed.

Lemma split_dst2_rejects f n : is_split_dst2 f n -> rejects_with f n n EIndex (negate_odd_below n).
Proof.
  intros (h & q & d & E & -> & ->). apply Type2And3SplitRadix_new_inv in E. destruct E as (Hp & _ & ->).
  set (d := mkT23Split _ _ _). set (n := Type2And3SplitRadix_len d).
  assert (Hn : n = 4 * t23_len q) by (unfold n, Type2And3SplitRadix_len, d; cbn [sr_tw]; rewrite map_length, seq_length; lia).
  clearbody d. intros x s. unfold call.
  set (b := mkS 0 (length x)). set (sc := mkS (length x) (length s)). set (m := mem_of zero (x ++ s)).
  unfold Type2And3SplitRadix_dst2. change (fun i => v <- rd b (2 * i + 1) ;; wr b (2 * i + 1) (neg v)) with (flip b).
  rewrite run_bind. unfold for_range. fold n. rewrite Nat.sub_0_r.
  destruct (flip_loop b (n / 2) 0 m) as (m' & Hf & R). rewrite R.
  assert (Hb : vals m' b = negate_odd_below n x).
  { rewrite (flipped_vals b (n / 2) m m' Hf). unfold negate_odd_below. cbn [slen base b]. apply map_seq_ext. intros i Hi.
    assert (Em : m (0 + i) = nth i x zero) by (unfold m, mem_of; cbn [Nat.add]; rewrite app_nth1 by lia; reflexivity).
    rewrite Em. replace (2 * (n / 2)) with n by lia. reflexivity. }
  assert (Hs : vals m' sc = s).
  { transitivity (vals m sc); [|apply vals_mem_of_2]. unfold vals. apply map_seq_ext. intros i Hi. cbn [slen base sc] in * .
    apply (proj2 Hf). cbn [base slen b]. intros; lia. }
  cbn [slen b]. replace (n / 2 =? 0) with false by (symmetry; apply Nat.eqb_neq; lia). cbn [orb].
  replace (2 * (0 + n / 2)) with n by lia. split; [|split].
  - intros Hl. destruct (Nat.leb_spec n (length x)); [lia|]. rewrite Hb, Hs. reflexivity.
  - intros Hl. destruct (Nat.leb_spec n (length x)); [|lia]. rewrite run_bind. unfold Type2And3SplitRadix_dct2.
    rewrite validate_buffers_len by (cbn [slen b]; fold n; lia). rewrite Hb, Hs. reflexivity.
  - intros Hl Hsc. destruct (Nat.leb_spec n (length x)); [|lia]. rewrite run_bind. unfold Type2And3SplitRadix_dct2.
    rewrite validate_buffers_scratch; [rewrite Hb, Hs; reflexivity|exact Hl|exact Hsc].
Qed.

Lemma split_dst3_rejects f n : is_split_dst3 f n -> rejects_with f n n EBufLen (@rev T).
Proof.
  intros (h & q & d & E & -> & ->). apply Type2And3SplitRadix_new_inv in E. destruct E as (Hp & _ & ->).
  set (d := mkT23Split _ _ _). set (n := Type2And3SplitRadix_len d). clearbody d. intros x s. unfold call.
  set (b := mkS 0 (length x)). set (sc := mkS (length x) (length s)). set (m := mem_of zero (x ++ s)).
  unfold Type2And3SplitRadix_dst3. rewrite run_bind.
  assert (K : wp (reverse b) m (fun _ m' => (forall i, i < slen b -> m' (base b + i) = m (base b + (slen b - 1 - i))) /\
     (forall q, ~ (base b <= q < base b + slen b) -> m' q = m q))) by (apply wp_reverse; auto).
  unfold wp in K. destruct (run (reverse b) m) as [[] m'| |]; [|contradiction|contradiction]. destruct K as [K1 K2].
  assert (Hb : vals m' b = rev x).
  { apply nth_ext with (d := zero) (d' := zero); [unfold vals; rewrite map_length, seq_length, rev_length; reflexivity|].
    unfold vals at 1. rewrite map_length, seq_length. intros i Hi. unfold vals. rewrite nth_map_seq by exact Hi. rewrite K1 by exact Hi.
    cbn [slen base b] in * . rewrite rev_nth by exact Hi. unfold m, mem_of. rewrite app_nth1 by lia. f_equal. lia. }
  assert (Hs : vals m' sc = s).
  { transitivity (vals m sc); [|apply vals_mem_of_2]. unfold vals. apply map_seq_ext. intros i Hi. cbn [slen base sc b] in * .
    apply K2. cbn [base slen]. lia. }
  rewrite run_bind. unfold Type2And3SplitRadix_dct3. split; [|split].
  - intros Hl. rewrite validate_buffers_len by (cbn [slen b]; fold n; lia). rewrite Hb, Hs. reflexivity.
  - intros Hl. rewrite validate_buffers_len by (cbn [slen b]; fold n; lia). rewrite Hb, Hs. reflexivity.
  - intros Hl Hsc. rewrite validate_buffers_scratch; [rewrite Hb, Hs; reflexivity|exact Hl|exact Hsc].
Qed.

(** *** Every instance *)
Variable usable : fft T -> Prop.
Variable joined : t23 T -> t23 T -> Prop.

Lemma built23_rej o : built23 usable joined o ->
  rej (t_dct2 o) (t23_len o) (t23_scratch o) /\ rej (t_dct3 o) (t23_len o) (t23_scratch o) /\
  (rej (t_dst2 o) (t23_len o) (t23_scratch o) /\ rej (t_dst3 o) (t23_len o) (t23_scratch o) \/
   is_split_dst2 (t_dst2 o) (t23_len o) /\ is_split_dst3 (t_dst3 o) (t23_len o) /\ t23_scratch o = t23_len o).
Proof.
  destruct 1 as [n| | | | | |f d Hf E|h q d Hh Hq Hj E];
    try (split; [rb|split; [rb|left; split; rb]]); try (split; [rb1|split; [rb1|left; split; rb1]]).
  split; [rb|]. split; [rb|]. right. split; [|split; [|reflexivity]]; exists h, q, d; auto.
Qed.
Lemma built4_rej o : built4 usable joined o ->
  rej (t_dct4 o) (t4_len o) (t4_scratch o) /\ rej (t_dst4 o) (t4_len o) (t4_scratch o).
Proof. destruct 1; split; rb. Qed.

Lemma built_rejects c f sl : built_method usable joined c f sl ->
  rejects_cleanly f (size c) sl \/
  (exists n, c = CDst2 n /\ is_split_dst2 f n /\ sl = n) \/ (exists n, c = CDst3 n /\ is_split_dst3 f n /\ sl = n).
Proof.
  destruct c as [n|n|n|n|n|n|n|n|n|n|n|n|n|n|n|n|n w]; cbn [built_method size]; try contradiction; intros (o & Ho & <- & <- & <-).
  1: left; apply rej_cleanly; destruct Ho; rb.
  1: left; apply rej_cleanly, (built23_rej o Ho).
  1: left; apply rej_cleanly, (built23_rej o Ho).
  1: left; apply rej_cleanly, (built4_rej o Ho).
  1-5: left; apply rej_cleanly; destruct Ho; rb.
  1: { destruct (built23_rej o Ho) as (_ & _ & [[A B]|(A & B & C)]); [left; apply rej_cleanly, A|right; left; eauto]. }
  1: { destruct (built23_rej o Ho) as (_ & _ & [[A B]|(A & B & C)]); [left; apply rej_cleanly, B|right; right; eauto]. }
  1: left; apply rej_cleanly, (built4_rej o Ho).
  1-4: left; apply rej_cleanly; destruct Ho; rb.
Qed.
Lemma built_rejects_others c f sl : built_method usable joined c f sl ->
  ~ is_split_dst2 f (size c) -> ~ is_split_dst3 f (size c) -> rejects_cleanly f (size c) sl.
Proof.
  intros H N2 N3. destruct (built_rejects c f sl H) as [A|[(n & -> & A & _)|(n & -> & A & _)]]; [exact A|contradiction|contradiction].
Qed.
Lemma built_rejects_somehow c f sl : built_method usable joined c f sl -> rejects_somehow f (size c) sl.
Proof.
  intros H. destruct (built_rejects c f sl H) as [A|[(n & -> & A & ->)|(n & -> & A & ->)]]; eapply with_somehow;
    [exact A|apply split_dst2_rejects, A|apply split_dst3_rejects, A].
Qed.

(** *** MDCT *)
Lemma mdct_rejects (f : slice -> slice -> slice -> slice -> prog T unit) n sl k :
  (forall a b c s, f a b c s = validate_buffers_mdct a b c s n sl (k a b c)) -> rejects_mdct f n sl.
Proof.
  intros E a b c s. unfold call4. rewrite !E. unfold validate_buffers_mdct. cbn [slen].
  set (m := mem_of zero (a ++ b ++ c ++ s)).
  assert (V : vals m (mkS 0 (length a)) = a /\ vals m (mkS (length a) (length b)) = b /\
    vals m (mkS (length a + length b) (length c)) = c /\ vals m (mkS (length a + length b + length c) (length s)) = s).
  { unfold m. split; [apply vals_mem_of_1|]. split; [apply vals_mem_of|]. split.
    - rewrite <- app_length. rewrite app_assoc. apply vals_mem_of.
    - rewrite <- !app_length. rewrite !app_assoc. rewrite <- (app_nil_r s) at 1. apply (vals_mem_of zero _ s []). }
  destruct V as (Va & Vb & Vc & Vs). split.
  - intros H. assert (X : negb (length a =? n) || negb (length b =? n) || negb (length c =? n) = true).
    { rewrite !orb_true_iff, !negb_true_iff, !Nat.eqb_neq. tauto. }
    rewrite X. unfold mdct_error_inplace.
    destruct (Nat.eqb_spec (length a) n); [destruct (Nat.eqb_spec (length b) n); [destruct (Nat.eqb_spec (length c) n); [lia|]|]|];
      cbn [bind run]; rewrite Va, Vb, Vc, Vs; reflexivity.
  - intros <- Hb Hc Hs. rewrite Hb, Hc, Nat.eqb_refl. cbn [negb orb]. unfold get_range. cbn [slen].
    destruct (Nat.leb_spec sl (length s)); [lia|]. unfold mdct_error_inplace. rewrite Nat.eqb_refl.
    destruct (Nat.leb_spec sl (length s)); [lia|]. cbn [bind run]. rewrite Hb in Vb, Vc, Vs. rewrite Hc in Vc, Vs.
    repeat match goal with H : vals m ?s = _ |- context [vals m ?s] => rewrite H end. reflexivity.
Qed.
Lemma built_mdct_rejects o : built_mdct usable joined o ->
  rejects_mdct (t_mdct o) (m_len o) (m_scratch o) /\ rejects_mdct (t_imdct o) (m_len o) (m_scratch o).
Proof. destruct 1; split; eapply mdct_rejects; intros; reflexivity. Qed.
End Reject.
