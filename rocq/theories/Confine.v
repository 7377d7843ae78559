(** Programs that touch only given cells: proof rules, consequences for a single
    run and for interleaved runs. *)
From Coq Require Import List Arith Lia Bool.
From Verif Require Import Prog Num Model_Common Spec_Memory Wp.
Import ListNotations.

Section Conf.
Context {T : Type}.
Variables R W : nat -> Prop.

(** Whatever values it reads, the program reads only in [R], writes only in [W], is
    never undefined, and returns only values satisfying [Q]. *)
Fixpoint conf {A} (p : prog T A) (Q : A -> Prop) : Prop :=
  match p with
  | Ret a => Q a
  | Rd q k => R q /\ forall v, conf (k v) Q
  | Wr q v k => W q /\ conf k Q
  | Panic _ => True
  | UB => False
  end.

Definition insideR (s : slice) := forall i, i < slen s -> R (base s + i).
Definition insideW (s : slice) := forall i, i < slen s -> W (base s + i).
Definition cinside (s : cslice) := forall i, i < 2 * clen s -> R (cbase s + i) /\ W (cbase s + i).

Lemma conf_conseq {A} (p : prog T A) (Q Q' : A -> Prop) : conf p Q -> (forall a, Q a -> Q' a) -> conf p Q'.
Proof.
  intros H HQ. induction p as [a|q k IH|q v k IH|e|]; cbn in * .
  - auto.
  - destruct H; split; auto.
  - destruct H; split; auto.
  - exact I.
  - exact H.
Qed.
Lemma conf_bind {A B} (p : prog T A) (f : A -> prog T B) Q Q' :
  conf p Q' -> (forall a, Q' a -> conf (f a) Q) -> conf (bind p f) Q.
Proof.
  intros H HQ. induction p as [a|q k IH|q v k IH|e|]; cbn in * .
  - auto.
  - destruct H; split; auto.
  - destruct H; split; auto.
  - exact I.
  - exact H.
Qed.
Lemma conf_ret {A} (a : A) (Q : A -> Prop) : Q a -> conf (Ret a) Q. Proof. auto. Qed.
Lemma conf_panic {A} e (Q : A -> Prop) : conf (Panic e) Q. Proof. exact I. Qed.

Definition any {A} : A -> Prop := fun _ => True.

Lemma conf_rd s i : insideR s -> conf (rd s i) any.
Proof. intros H. unfold rd. destruct (Nat.ltb_spec i (slen s)); cbn; [split; [apply H; assumption|intros; exact I]|exact I]. Qed.
Lemma conf_wr s i v : insideW s -> conf (wr s i v) any.
Proof. intros H. unfold wr. destruct (Nat.ltb_spec i (slen s)); cbn; [split; [apply H; assumption|exact I]|exact I]. Qed.
Lemma conf_rdu s i : insideR s -> i < slen s -> conf (rdu s i) any.
Proof. intros H Hi. unfold rdu. destruct (Nat.ltb_spec i (slen s)); [|lia]. cbn. split; [apply H; assumption|intros; exact I]. Qed.
Lemma conf_wru s i v : insideW s -> i < slen s -> conf (wru s i v) any.
Proof. intros H Hi. unfold wru. destruct (Nat.ltb_spec i (slen s)); [|lia]. cbn. split; [apply H; assumption|exact I]. Qed.
Lemma conf_get_mut s i : insideR s -> insideW s -> conf (get_mut_unwrap (T:=T) s i) (fun c => insideR c /\ insideW c).
Proof.
  intros HR HW. unfold get_mut_unwrap. destruct (Nat.ltb_spec i (slen s)) as [Hi|]; [|exact I]. cbn. split; intros j Hj; cbn in * ;
    replace (base s + i + j) with (base s + i) by lia; auto.
Qed.
Lemma conf_deref c : insideR c -> conf (deref c) any. Proof. apply conf_rd. Qed.
Lemma conf_assign c v : insideW c -> conf (assign c v) any. Proof. apply conf_wr. Qed.
Lemma conf_usub a b : conf (usub (T:=T) a b) (fun v => b <= a /\ v = a - b).
Proof. unfold usub. destruct (Nat.leb_spec b a); cbn; auto. Qed.
Lemma conf_idx {X} (l : list X) i : conf (idx (T:=T) l i) any.
Proof. unfold idx. destruct (nth_error l i); exact I. Qed.
Lemma conf_idxu {X} (l : list X) i : i < length l -> conf (idxu (T:=T) l i) any.
Proof. intros H. unfold idxu. destruct (nth_error l i) eqn:E; [exact I|]. apply nth_error_None in E. lia. Qed.

Lemma insideR_sub s o l : insideR s -> o + l <= slen s -> insideR (mkS (base s + o) l).
Proof. intros H Hl i Hi. cbn in * . rewrite <- Nat.add_assoc. apply H. lia. Qed.
Lemma insideW_sub s o l : insideW s -> o + l <= slen s -> insideW (mkS (base s + o) l).
Proof. intros H Hl i Hi. cbn in * . rewrite <- Nat.add_assoc. apply H. lia. Qed.
Lemma insideR_pre s l : insideR s -> l <= slen s -> insideR (mkS (base s) l).
Proof. intros H Hl i Hi. cbn in * . apply H. lia. Qed.
Lemma insideW_pre s l : insideW s -> l <= slen s -> insideW (mkS (base s) l).
Proof. intros H Hl i Hi. cbn in * . apply H. lia. Qed.
Lemma cinside_sub s o l : cinside s -> o + l <= clen s -> cinside (mkC (cbase s + 2 * o) l).
Proof. intros H Hl i Hi. cbn [cbase clen] in * . rewrite <- Nat.add_assoc. apply H. lia. Qed.
Lemma cinside_pre s l : cinside s -> l <= clen s -> cinside (mkC (cbase s) l).
Proof. intros H Hl i Hi. cbn [cbase clen] in * . apply H. lia. Qed.

Lemma conf_split s n : insideR s -> insideW s ->
  conf (split_at_mut (T:=T) s n) (fun sp => insideR (fst sp) /\ insideW (fst sp) /\ insideR (snd sp) /\ insideW (snd sp) /\
    slen (fst sp) = n /\ slen (snd sp) = slen s - n /\ n <= slen s).
Proof.
  intros HR HW. unfold split_at_mut. destruct (Nat.leb_spec n (slen s)) as [Hn|]; [|exact I]. cbn.
  split; [apply insideR_pre; assumption|]. split; [apply insideW_pre; assumption|].
  split; [apply insideR_sub; [assumption|lia]|]. split; [apply insideW_sub; [assumption|lia]|]. auto.
Qed.
Lemma conf_csplit s n : cinside s -> conf (csplit_at_mut (T:=T) s n) (fun sp => cinside (fst sp) /\ cinside (snd sp)).
Proof.
  intros H. unfold csplit_at_mut. destruct (Nat.leb_spec n (clen s)) as [Hn|]; [|exact I]. cbn [conf fst snd].
  split; [apply cinside_pre; assumption|apply cinside_sub; [assumption|lia]].
Qed.
Lemma conf_slice_from s n : conf (slice_from (T:=T) s n) (fun s' => (insideR s -> insideR s') /\ (insideW s -> insideW s')).
Proof.
  unfold slice_from. destruct (Nat.leb_spec n (slen s)) as [Hn|]; [|exact I]. cbn.
  split; intros H; [apply insideR_sub|apply insideW_sub]; auto; lia.
Qed.
Lemma conf_slice_to s n : conf (slice_to (T:=T) s n) (fun s' => (insideR s -> insideR s') /\ (insideW s -> insideW s')).
Proof.
  unfold slice_to. destruct (Nat.leb_spec n (slen s)) as [Hn|]; [|exact I]. cbn.
  split; intros H; [apply insideR_pre|apply insideW_pre]; auto.
Qed.
Lemma conf_cslice_from s n : cinside s -> conf (cslice_from (T:=T) s n) cinside.
Proof.
  intros H. unfold cslice_from. destruct (Nat.leb_spec n (clen s)) as [Hn|]; [|exact I]. apply conf_ret. apply cinside_sub; auto; lia.
Qed.
Lemma conf_cslice_to s n : cinside s -> conf (cslice_to (T:=T) s n) cinside.
Proof.
  intros H. unfold cslice_to. destruct (Nat.leb_spec n (clen s)) as [Hn|]; [|exact I]. apply conf_ret. apply cinside_pre; auto.
Qed.
Lemma conf_list_from {X} (l : list X) n : conf (list_from (T:=T) l n) any.
Proof. unfold list_from. destruct (n <=? length l); exact I. Qed.
Lemma conf_crd_re s i : cinside s -> conf (crd_re s i) any.
Proof.
  intros H. unfold crd_re. destruct (Nat.ltb_spec i (clen s)); [|exact I]. split; [apply H; lia|intros; exact I].
Qed.
Lemma conf_crd_im s i : cinside s -> conf (crd_im s i) any.
Proof.
  intros H. unfold crd_im. destruct (Nat.ltb_spec i (clen s)); [|exact I]. rewrite <- Nat.add_assoc. split; [apply H; lia|intros; exact I].
Qed.
Lemma conf_crd s i : cinside s -> conf (crd s i) any.
Proof.
  intros H. unfold crd. eapply conf_bind; [apply conf_crd_re, H|]. intros; eapply conf_bind; [apply conf_crd_im, H|]. intros; exact I.
Qed.
Lemma conf_cwr_im s i v : cinside s -> conf (cwr_im s i v) any.
Proof.
  intros H. unfold cwr_im. destruct (Nat.ltb_spec i (clen s)); [|exact I]. rewrite <- Nat.add_assoc. split; [apply H; lia|exact I].
Qed.
Lemma conf_cwr s i v : cinside s -> conf (cwr s i v) any.
Proof.
  intros H. unfold cwr. destruct (Nat.ltb_spec i (clen s)); [|exact I]. rewrite <- Nat.add_assoc. cbn [conf].
  split; [apply H; lia|]. split; [apply H; lia|exact I].
Qed.

Lemma conf_for_n n a body : (forall i, a <= i < a + n -> conf (body i) any) -> conf (for_n (T:=T) a n body) any.
Proof.
  revert a. induction n as [|n IH]; intros a H; [exact I|]. cbn [for_n]. eapply conf_bind; [apply H; lia|].
  intros _ _. apply IH. intros i Hi. apply H. lia.
Qed.
Lemma conf_for a b body : (forall i, a <= i < b -> conf (body i) any) -> conf (for_range (T:=T) a b body) any.
Proof. intros H. apply conf_for_n. intros i Hi. apply H. lia. Qed.
Lemma conf_fold_n {X} n a (x : X) body (I : X -> Prop) : I x -> (forall i x, a <= i < a + n -> I x -> conf (body i x) I) -> conf (fold_n (T:=T) a n x body) I.
Proof.
  revert a x. induction n as [|n IH]; intros a x Hx H; [exact Hx|]. cbn [fold_n]. eapply conf_bind; [apply H; [lia|exact Hx]|].
  intros y Hy. apply IH; [exact Hy|]. intros i z Hi. apply H. lia.
Qed.
Lemma conf_fold {X} a b (x : X) body : (forall i x, a <= i < b -> conf (body i x) any) -> conf (fold_range (T:=T) a b x body) any.
Proof. intros H. apply conf_fold_n; [exact I|]. intros i y Hi _. apply H. lia. Qed.
Lemma conf_while {X} fuel cond body (x : X) : (forall x, conf (body x) any) -> conf (while_ (T:=T) fuel cond body x) any.
Proof.
  intros H. revert x. induction fuel as [|f IH]; intros x; [exact I|]. cbn [while_]. destruct (cond x); [|exact I].
  eapply conf_bind; [apply H|]. intros y _. apply IH.
Qed.
Lemma conf_copy d s : insideW d -> insideR s -> conf (copy_from_slice d s) any.
Proof.
  intros HW HR. unfold copy_from_slice. destruct (slen d =? slen s); [|exact I]. apply conf_for. intros i Hi.
  eapply conf_bind; [apply conf_rd, HR|]. intros; apply conf_wr, HW.
Qed.
Lemma conf_reverse s : insideW s -> insideR s -> conf (reverse s) any.
Proof.
  intros HW HR. unfold reverse. apply conf_for. intros i Hi. eapply conf_bind; [apply conf_rd, HR|]. intros.
  eapply conf_bind; [apply conf_rd, HR|]. intros. eapply conf_bind; [apply conf_wr, HW|]. intros. apply conf_wr, HW.
Qed.
Lemma conf_cread_all s : cinside s -> conf (cread_all s) any.
Proof. intros H. apply conf_fold. intros i l Hi. eapply conf_bind; [apply conf_crd, H|]. intros; exact I. Qed.
Lemma conf_cwrite_all d s l : cinside s -> conf (cwrite_all d s l) any.
Proof. intros H. apply conf_for. intros i Hi. apply conf_cwr, H. Qed.
Lemma conf_into_complex s : insideR s -> insideW s -> cinside (into_complex_mut s).
Proof.
  intros HR HW i Hi. unfold into_complex_mut in * . cbn [cbase clen] in * .
  assert (i < slen s) by (pose proof (Nat.mul_div_le (slen s) 2 ltac:(lia)); lia). auto.
Qed.
Lemma conf_local d l f : (forall m, run (f (mkS 0 (length l))) m <> Undef) -> conf (local_call (T:=T) d l f) (fun r => length r = length l).
Proof.
  intros H. unfold local_call. specialize (H (mem_of d l)). destruct (run _ _); cbn [conf]; [|exact I|congruence].
  apply vals_length.
Qed.

Context {F : Type} {N : Num T F}.
Lemma conf_fft (f : fft T) b s : cinside b -> cinside s -> conf (fft_process f b s) any.
Proof.
  intros Hb Hs. unfold fft_process. destruct (_ || _); [exact I|]. eapply conf_bind; [apply conf_cread_all, Hb|]. intros xs _.
  eapply conf_bind; [apply conf_cread_all, Hs|]. intros ss _. cbv zeta. eapply conf_bind; [apply conf_cwrite_all, Hb|].
  intros _ _. apply conf_cwrite_all, Hs.
Qed.
Lemma conf_dct_error a b c d : conf (dct_error_inplace (T:=T) a b c d) any.
Proof. unfold dct_error_inplace. destruct (a =? c); [destruct (d <=? b)|]; exact I. Qed.
Lemma conf_mdct_error a b c d e f : conf (mdct_error_inplace (T:=T) a b c d e f) any.
Proof. unfold mdct_error_inplace. destruct (a =? e); [destruct (b =? e); [destruct (c =? e); [destruct (f <=? d)|]|]|]; exact I. Qed.
Lemma conf_validate_buffer b n k : (slen b = n -> conf k any) -> conf (validate_buffer (T:=T) b n k) any.
Proof.
  intros H. unfold validate_buffer. destruct (Nat.eqb_spec (slen b) n); cbn [negb]; [apply H; assumption|].
  eapply conf_bind; [apply conf_dct_error|]. intros; exact I.
Qed.
Lemma conf_validate_buffers b s n sl k : insideR s -> insideW s ->
  (forall s', slen b = n -> insideR s' -> insideW s' -> slen s' = sl -> conf (k s') any) ->
  conf (validate_buffers (T:=T) b s n sl k) any.
Proof.
  intros HR HW H. unfold validate_buffers. destruct (Nat.eqb_spec (slen b) n); cbn [negb].
  - unfold get_range. destruct (Nat.leb_spec sl (slen s)).
    + apply H; [assumption| | |reflexivity]; [apply insideR_pre|apply insideW_pre]; assumption.
    + eapply conf_bind; [apply conf_dct_error|]. intros; exact I.
  - eapply conf_bind; [apply conf_dct_error|]. intros; exact I.
Qed.
Lemma conf_validate_mdct a b c s n sl k : insideR s -> insideW s ->
  (forall s', slen a = n -> slen b = n -> slen c = n -> insideR s' -> insideW s' -> slen s' = sl -> conf (k s') any) ->
  conf (validate_buffers_mdct (T:=T) a b c s n sl k) any.
Proof.
  intros HR HW H. unfold validate_buffers_mdct.
  destruct (Nat.eqb_spec (slen a) n), (Nat.eqb_spec (slen b) n), (Nat.eqb_spec (slen c) n); cbn [negb orb];
    try (eapply conf_bind; [apply conf_mdct_error|]; intros; exact I).
  unfold get_range. destruct (Nat.leb_spec sl (slen s)).
  - apply H; try assumption; [| |reflexivity]; [apply insideR_pre|apply insideW_pre]; assumption.
  - eapply conf_bind; [apply conf_mdct_error|]. intros; exact I.
Qed.
End Conf.
