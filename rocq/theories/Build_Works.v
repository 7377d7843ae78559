(** Every instance that can be built either returns on every buffer of its length,
    or on none. *)
From Coq Require Import List Arith Lia Bool ZArith ZifyNat Reals.
From Verif Require Import Prog Num Model_Common Model_Naive Model_Fft Model_Butterflies Model_SplitRadix
  Model_Mdct Model_Plan Model_Api Spec Spec_Api Spec_Fft Spec_Plan Spec_Methods Spec_Memory Spec_Build
  Wp Api Contracts Naive_Objects Exact_Fft Objects Plan_Theorems Confine Confine_Meth Interleave Build_Conf Build_Reject.
Import ListNotations.
Open Scope nat_scope.
Ltac Zify.zify_post_hook ::= Z.div_mod_to_equations.

Definition anywhere (q : nat) : Prop := True.
Definition none {A} (a : A) : Prop := False.
Notation cf0 p Q := (conf anywhere anywhere p Q).

Section Barren.
Context {T F : Type} {N : Num T F}.

(** Never returns on a buffer of length [n]; or not with [room] scratch cells. *)
Definition barren (f : meth T) (n : nat) : Prop := forall b s, slen b = n -> cf0 (f b s) none.
Definition blocked (f : meth T) (n room : nat) : Prop := forall b s, slen b = n -> slen s = room -> cf0 (f b s) none.
Lemma barren_blocked f n room : barren f n -> blocked f n room.
Proof. intros H b s Hb _. apply H, Hb. Qed.

Lemma none_panics {A} (p : prog T A) : cf0 p none -> forall m, exists e m', run p m = Panicked e m'.
Proof.
  induction p as [a|q k IH|q v k IH|e|]; cbn [conf run]; intros H m; try contradiction.
  - apply IH, H.
  - apply IH, H.
  - eauto.
Qed.
Lemma barren_never f n : barren f n -> never_accepts f n.
Proof.
  intros H x s Hx. unfold call. destruct (none_panics _ (H (mkS 0 (length x)) (mkS (length x) (length s)) Hx) (mem_of zero (x ++ s))) as (e & m' & E).
  rewrite E. eauto.
Qed.

Lemma v_buffer b n k (Q : unit -> Prop) : (slen b = n -> cf0 k Q) -> cf0 (validate_buffer (T:=T) b n k) Q.
Proof.
  intros H. unfold validate_buffer. destruct (Nat.eqb_spec (slen b) n) as [E|E]; cbn [negb]; [apply H, E|].
  unfold dct_error_inplace. destruct (Nat.eqb_spec (slen b) n); [contradiction|]. exact I.
Qed.
Lemma v_buffers b s n sl k (Q : unit -> Prop) : (forall s', slen b = n -> slen s' = sl -> sl <= slen s -> cf0 (k s') Q) ->
  cf0 (validate_buffers (T:=T) b s n sl k) Q.
Proof.
  intros H. unfold validate_buffers. destruct (Nat.eqb_spec (slen b) n) as [E|E]; cbn [negb].
  - unfold get_range. destruct (Nat.leb_spec sl (slen s)) as [Hs|Hs].
    + apply H; [exact E|reflexivity|exact Hs].
    + unfold dct_error_inplace. rewrite E, Nat.eqb_refl. destruct (Nat.leb_spec sl (slen s)); [lia|]. exact I.
  - unfold dct_error_inplace. destruct (Nat.eqb_spec (slen b) n); [contradiction|]. exact I.
Qed.
Lemma v_mdct a b c s n sl k (Q : unit -> Prop) :
  (forall s', slen a = n -> slen b = n -> slen c = n -> slen s' = sl -> cf0 (k s') Q) ->
  cf0 (validate_buffers_mdct (T:=T) a b c s n sl k) Q.
Proof.
  intros H. unfold validate_buffers_mdct, mdct_error_inplace.
  destruct (Nat.eqb_spec (slen a) n), (Nat.eqb_spec (slen b) n), (Nat.eqb_spec (slen c) n); cbn [negb orb]; try exact I.
  unfold get_range. destruct (Nat.leb_spec sl (slen s)) as [Hs|Hs]; [apply H; auto|exact I].
Qed.
Lemma blocked_buffers (f : meth T) n sl room k : (forall b s, f b s = validate_buffers b s n sl (k b)) -> room < sl -> blocked f n room.
Proof. intros E H b s Hb Hs. rewrite E. apply v_buffers. intros. lia. Qed.

Lemma in_any_R s : insideR anywhere s. Proof. intros i _. exact I. Qed.
Lemma in_any_W s : insideW anywhere s. Proof. intros i _. exact I. Qed.
Ltac prim_more ::= fail.
Hint Resolve in_any_R in_any_W : core.
Ltac ins ::= first [assumption|apply in_any_R|apply in_any_W].
Ltac inner H := eapply conf_bind; [apply H; ins|intros _ _].
Ltac stop H := eapply conf_bind; [apply H; (assumption || lia)|intros _ []].
Ltac go := eapply conf_bind; [cfp|let a := fresh "x" in let Ha := fresh "H" in intros a Ha; tidy].

Lemma Dct2Split_barren d (q := length (sr_tw d)) :
  conf_meth (t_dct2 (sr_half d)) -> conf_meth (t_dct2 (sr_quarter d)) -> 0 < q ->
  blocked (t_dct2 (sr_half d)) (2 * q) (4 * q) \/ blocked (t_dct2 (sr_quarter d)) q (4 * q) ->
  barren (Type2And3SplitRadix_dct2 (T:=T) d) (4 * q).
Proof.
  intros Hh Hq Hp Hbl b s Hb. unfold Type2And3SplitRadix_dct2. apply v_buffers. intros s' Hb' Hs' _. cbv zeta. clear Hb'.
  unfold Type2And3SplitRadix_scratch, Type2And3SplitRadix_len in * . fold q. fold q in Hs'.
  replace (q * 4 / 2) with (2 * q) by lia. replace (q * 4 / 4) with q by lia.
  go. destruct x as [h r]. tidy. go. destruct x as [ev od]. tidy. go.
  destruct Hbl as [Hbl|Hbl]; [stop Hbl|]. inner Hh. stop Hbl.
Qed.
Lemma Dct3Split_barren d (q := length (sr_tw d)) :
  conf_meth (t_dct3 (sr_half d)) -> conf_meth (t_dct3 (sr_quarter d)) ->
  blocked (t_dct3 (sr_half d)) (2 * q) (4 * q) \/ blocked (t_dct3 (sr_quarter d)) q (4 * q) ->
  barren (Type2And3SplitRadix_dct3 (T:=T) d) (4 * q).
Proof.
  intros Hh Hq Hbl b s Hb. unfold Type2And3SplitRadix_dct3. apply v_buffers. intros s' Hb' Hs' _. cbv zeta. clear Hb'.
  unfold Type2And3SplitRadix_scratch, Type2And3SplitRadix_len in * . fold q. fold q in Hs'. rewrite Hb.
  replace (4 * q / 2) with (2 * q) by lia. replace (4 * q / 4) with q by lia.
  go. destruct x as [h r]. tidy. go. destruct x as [ev od]. tidy. do 10 go.
  destruct Hbl as [Hbl|Hbl]; [stop Hbl|]. inner Hh. stop Hbl.
Qed.
Lemma Dst2Split_barren d n : barren (Type2And3SplitRadix_dct2 (T:=T) d) n -> barren (Type2And3SplitRadix_dst2 d) n.
Proof. intros H b s Hb. unfold Type2And3SplitRadix_dst2. go. stop H. Qed.
Lemma Dst3Split_barren d n : barren (Type2And3SplitRadix_dct3 (T:=T) d) n -> barren (Type2And3SplitRadix_dst3 d) n.
Proof. intros H b s Hb. unfold Type2And3SplitRadix_dst3. go. stop H. Qed.

Lemma rd_empty s i : slen s = 0 -> cf0 (rd (T:=T) s i) none.
Proof. intros H. unfold rd. destruct (Nat.ltb_spec i (slen s)); [lia|exact I]. Qed.
Lemma Dct4Even_barren d (n := length (t4e_tw d)) : conf_meth (t_dct3 (t4e_inner d)) ->
  n = 0 \/ barren (t_dct3 (t4e_inner d)) n \/ barren (t_dst3 (t4e_inner d)) n ->
  barren (Type4ConvertToType3Even_dct4 (T:=T) d) (n * 2).
Proof.
  intros Hc Hbl b s Hb. unfold Type4ConvertToType3Even_dct4. apply v_buffers. intros s' Hb' Hs' _. clear Hb'.
  unfold Type4ConvertToType3Even_len in * . fold n. go. destruct x as [h r]. tidy.
  replace (n * 2 / 2) with n by lia. go. destruct x as [ev od]. tidy.
  destruct Hbl as [Hz|Hbl]; [eapply conf_bind; [apply (rd_empty b 0); lia|intros _ []]|].
  do 7 go. cbv zeta. destruct Hbl as [Hbl|Hbl]; [stop Hbl|]. inner Hc. stop Hbl.
Qed.
Lemma Dst4Even_barren d (n := length (t4e_tw d)) : conf_meth (t_dst3 (t4e_inner d)) ->
  n = 0 \/ barren (t_dct3 (t4e_inner d)) n \/ barren (t_dst3 (t4e_inner d)) n ->
  barren (Type4ConvertToType3Even_dst4 (T:=T) d) (n * 2).
Proof.
  intros Hc Hbl b s Hb. unfold Type4ConvertToType3Even_dst4. apply v_buffers. intros s' Hb' Hs' _. clear Hb'.
  unfold Type4ConvertToType3Even_len in * . fold n. go. destruct x as [h r]. tidy.
  replace (n * 2 / 2) with n by lia. go. destruct x as [ev od]. tidy.
  destruct Hbl as [Hz|Hbl]; [eapply conf_bind; [apply (rd_empty b 0); lia|intros _ []]|].
  do 7 go. cbv zeta. destruct Hbl as [Hbl|Hbl]; [|stop Hbl]. inner Hc. stop Hbl.
Qed.
End Barren.

(** *** Types 2 and 3 *)
Section Two.
Context {T F : Type} {N : Num T F}.
Variable usable : fft T -> Prop.
Variable joined : t23 T -> t23 T -> Prop.

Definition barren23 (o : t23 T) : Prop :=
  barren (t_dct2 o) (t23_len o) /\ barren (t_dct3 o) (t23_len o) /\ barren (t_dst2 o) (t23_len o) /\ barren (t_dst3 o) (t23_len o).
Definition barren4 (o : t4 T) : Prop := barren (t_dct4 o) (t4_len o) /\ barren (t_dst4 o) (t4_len o).

Lemma built23_short o room : built23 usable joined o -> room < t23_scratch o ->
  blocked (t_dct2 o) (t23_len o) room /\ blocked (t_dct3 o) (t23_len o) room.
Proof.
  destruct 1 as [n| | | | | |f d Hf E|h q d Hh Hq Hj E]; intros H; try (cbn in H; lia);
    (split; (eapply blocked_buffers; [intros; reflexivity|exact H])).
Qed.
Lemma split_barren h q d : Type2And3SplitRadix_new h q = Ok d -> built23 usable joined h -> built23 usable joined q ->
  barren23 h \/ barren23 q \/ ~ roomy h q -> barren23 (Type2And3SplitRadix_obj d).
Proof.
  intros E Bh Bq H. pose proof (built23_conf _ _ _ Bh) as (Ch2 & Ch3 & _). pose proof (built23_conf _ _ _ Bq) as (Cq2 & Cq3 & _).
  apply Type2And3SplitRadix_new_inv in E. destruct E as (Hp & L & ->). set (d := mkT23Split _ _ _).
  assert (Lt : length (sr_tw d) = t23_len q) by (unfold d; cbn [sr_tw]; rewrite map_length, seq_length; reflexivity).
  assert (Ln : t23_len (Type2And3SplitRadix_obj d) = 4 * t23_len q) by (cbn [Type2And3SplitRadix_obj t23_len]; unfold Type2And3SplitRadix_len; rewrite Lt; lia).
  assert (K : (blocked (t_dct2 h) (2 * t23_len q) (4 * t23_len q) \/ blocked (t_dct2 q) (t23_len q) (4 * t23_len q)) /\
              (blocked (t_dct3 h) (2 * t23_len q) (4 * t23_len q) \/ blocked (t_dct3 q) (t23_len q) (4 * t23_len q))).
  { rewrite <- L. destruct H as [(A & B & _)|[(A & B & _)|H]].
    - split; left; apply barren_blocked; assumption.
    - split; right; apply barren_blocked; assumption.
    - unfold roomy in H. destruct (le_lt_dec (t23_scratch h) (4 * t23_len q)) as [X|X].
      + destruct (built23_short q (4 * t23_len q) Bq) as [A B]; [lia|]. split; right; assumption.
      + destruct (built23_short h (4 * t23_len q) Bh X) as [A B]. split; left; assumption. }
  destruct K as [K2 K3]. unfold barren23. rewrite Ln. cbn [Type2And3SplitRadix_obj t_dct2 t_dct3 t_dst2 t_dst3].
  assert (B2 : barren (Type2And3SplitRadix_dct2 d) (4 * t23_len q)).
  { rewrite <- Lt. apply Dct2Split_barren; rewrite ?Lt; assumption. }
  assert (B3 : barren (Type2And3SplitRadix_dct3 d) (4 * t23_len q)).
  { rewrite <- Lt. apply Dct3Split_barren; rewrite ?Lt; assumption. }
  split; [exact B2|]. split; [exact B3|]. split; [apply Dst2Split_barren, B2|apply Dst3Split_barren, B3].
Qed.

(** [Q o n]: the instance does what it should. *)
Variable Q : t23 T -> nat -> Prop.
Hypothesis Q_len : forall o n, Q o n -> t23_len o = n.
Hypothesis Qn : forall n, Q (Type2And3Naive_obj (Type2And3Naive_new n)) n.
Hypothesis Q2 : Q Type2And3Butterfly2_obj 2.
Hypothesis Q3 : Q (Type2And3Butterfly3_obj Butterfly3_new) 3.
Hypothesis Q4 : Q (Type2And3Butterfly4_obj Butterfly4_new) 4.
Hypothesis Q8 : Q (Type2And3Butterfly8_obj Butterfly8_new) 8.
Hypothesis Q16 : Q (Type2And3Butterfly16_obj Butterfly16_new) 16.
Hypothesis Qfft : forall f d, usable f -> Type2And3ConvertToFft_new f = Ok d -> Q (Type2And3ConvertToFft_obj d) (fft_len f).
Hypothesis Qsr : forall h q d nh nq, Type2And3SplitRadix_new h q = Ok d -> Q h nh -> Q q nq ->
  t23_scratch h <= 4 * nq -> t23_scratch q <= 4 * nq -> Q (Type2And3SplitRadix_obj d) (4 * nq).

Lemma Q_self o n : Q o n -> Q o (t23_len o).
Proof. intros H. rewrite (Q_len o n H). exact H. Qed.
Lemma split_Q h q d : Type2And3SplitRadix_new h q = Ok d -> Q h (t23_len h) -> Q q (t23_len q) -> roomy h q ->
  Q (Type2And3SplitRadix_obj d) (4 * t23_len q).
Proof.
  intros E Hh Hq [R1 R2]. pose proof E as E'. apply Type2And3SplitRadix_new_inv in E'. destruct E' as (_ & L & _).
  apply (Qsr h q d (t23_len h) (t23_len q) E Hh Hq); lia.
Qed.
Lemma built23_all o : (forall h q, joined h q -> roomy h q) -> built23 usable joined o -> Q o (t23_len o).
Proof.
  intros J. induction 1 as [n| | | | | |f d Hf E|h q d Hh IHh Hq IHq Hj E]; eapply Q_self;
    [apply Qn|apply Q2|apply Q3|apply Q4|apply Q8|apply Q16|apply Qfft; [exact Hf|exact E]|].
  apply (split_Q h q d E IHh IHq (J h q Hj)).
Qed.
Lemma built23_or o : built23 usable joined o -> Q o (t23_len o) \/ barren23 o.
Proof.
  induction 1 as [n| | | | | |f d Hf E|h q d Hh IHh Hq IHq Hj E].
  1-7: left; eapply Q_self; first [apply Qn|apply Q2|apply Q3|apply Q4|apply Q8|apply Q16|apply Qfft; eassumption].
  destruct IHh as [IHh|IHh]; [|right; apply (split_barren h q d E Hh Hq); auto].
  destruct IHq as [IHq|IHq]; [|right; apply (split_barren h q d E Hh Hq); auto].
  destruct (le_dec (t23_scratch h) (2 * t23_len h)) as [R1|R1];
    [destruct (le_dec (t23_scratch q) (2 * t23_len h)) as [R2|R2]|].
  - left. eapply Q_self, (split_Q h q d E IHh IHq). split; assumption.
  - right. apply (split_barren h q d E Hh Hq). right. right. intros [_ X]. contradiction.
  - right. apply (split_barren h q d E Hh Hq). right. right. intros [X _]. contradiction.
Qed.

(** *** Type 4 *)
Variable Q' : t4 T -> nat -> Prop.
Hypothesis Q'_len : forall o n, Q' o n -> t4_len o = n.
Hypothesis Q'n : forall n, Q' (Type4Naive_obj (Type4Naive_new n)) n.
Hypothesis Q'e : forall i n, Q i n -> 0 < n -> Q' (Type4ConvertToType3Even_obj (Type4ConvertToType3Even_new i)) (2 * n).
Hypothesis Q'f : forall f d, usable f -> Type4ConvertToFftOdd_new f = Ok d -> Q' (Type4ConvertToFftOdd_obj d) (fft_len f).

Lemma Q'_self o n : Q' o n -> Q' o (t4_len o).
Proof. intros H. rewrite (Q'_len o n H). exact H. Qed.
Lemma even_barren i : built23 usable joined i -> t23_len i = 0 \/ barren23 i ->
  barren4 (Type4ConvertToType3Even_obj (Type4ConvertToType3Even_new i)).
Proof.
  intros B H. pose proof (built23_conf _ _ _ B) as (_ & C3 & _ & S3). set (d := Type4ConvertToType3Even_new i).
  assert (Lt : length (t4e_tw d) = t23_len i) by (unfold d, Type4ConvertToType3Even_new; cbn [t4e_tw]; rewrite map_length, seq_length; reflexivity).
  assert (K : length (t4e_tw d) = 0 \/ barren (t_dct3 (t4e_inner d)) (length (t4e_tw d)) \/ barren (t_dst3 (t4e_inner d)) (length (t4e_tw d))).
  { rewrite Lt. change (t4e_inner d) with i. destruct H as [H|(_ & H & _)]; auto. }
  split; cbn [Type4ConvertToType3Even_obj t_dct4 t_dst4 t4_len]; unfold Type4ConvertToType3Even_len;
    [apply Dct4Even_barren|apply Dst4Even_barren]; assumption.
Qed.
Lemma built4_or o : built4 usable joined o -> Q' o (t4_len o) \/ barren4 o.
Proof.
  destruct 1 as [n|f d Hf E|i Hi]; [left; eapply Q'_self, Q'n|left; eapply Q'_self, Q'f; eassumption|].
  destruct (Nat.eq_dec (t23_len i) 0) as [Z|Z]; [right; apply even_barren; auto|].
  destruct (built23_or i Hi) as [H|H]; [left; eapply Q'_self, Q'e; [exact H|lia]|right; apply even_barren; auto].
Qed.
Lemma built4_all o : (forall h q, joined h q -> roomy h q) -> 0 < t4_len o -> built4 usable joined o -> Q' o (t4_len o).
Proof.
  intros J Hp B. destruct B as [n|f d Hf E|i Hi]; [eapply Q'_self, Q'n|eapply Q'_self, Q'f; eassumption|].
  eapply Q'_self, Q'e; [apply (built23_all i J Hi)|].
  cbn in Hp. unfold Type4ConvertToType3Even_len, Type4ConvertToType3Even_new in Hp. cbn in Hp. rewrite map_length, seq_length in Hp. lia.
Qed.
End Two.

(** *** Any numeric type *)
Section Works.
Context {T F : Type} {N : Num T F}.
Variable joined : t23 T -> t23 T -> Prop.
Notation b23 := (built23 (@fft_clean T) joined).
Notation b4 := (built4 (@fft_clean T) joined).

Lemma works_len (o : t23 T) n : works_t23 o n -> t23_len o = n. Proof. intros H; apply H. Qed.
Lemma works4_len (o : t4 T) n : works_t4 o n -> t4_len o = n. Proof. intros H; apply H. Qed.
Lemma fft23_works (f : fft T) d : fft_clean f -> Type2And3ConvertToFft_new f = Ok d -> works_t23 (Type2And3ConvertToFft_obj d) (fft_len f).
Proof. intros H E. apply (Type2And3ConvertToFft_works f d E H). Qed.
Lemma fft4_works (f : fft T) d : fft_clean f -> Type4ConvertToFftOdd_new f = Ok d -> works_t4 (Type4ConvertToFftOdd_obj d) (fft_len f).
Proof. intros H E. apply (Type4ConvertToFftOdd_works f d E H). Qed.
Lemma built23_works_or o : b23 o -> works_t23 o (t23_len o) \/ barren23 o.
Proof.
  apply built23_or; [apply works_len|apply Type2And3Naive_works|apply Butterfly2_works|apply Butterfly3_works|apply Butterfly4_works
    |apply Butterfly8_works|apply Butterfly16_works|apply fft23_works|intros h q d nh nq; apply Type2And3SplitRadix_works].
Qed.
Lemma built4_works_or o : b4 o -> works_t4 o (t4_len o) \/ barren4 o.
Proof.
  apply (built4_or _ _ works_t23); [apply works_len|apply Type2And3Naive_works|apply Butterfly2_works|apply Butterfly3_works|apply Butterfly4_works
    |apply Butterfly8_works|apply Butterfly16_works|apply fft23_works|intros h q d nh nq; apply Type2And3SplitRadix_works
    |apply works4_len|apply Type4Naive_works|apply Type4ConvertToType3Even_works|apply fft4_works].
Qed.
Section Roomy.
Hypothesis J : forall h q, joined h q -> roomy h q.
Lemma built23_works o : b23 o -> works_t23 o (t23_len o).
Proof.
  apply built23_all; [apply works_len|apply Type2And3Naive_works|apply Butterfly2_works|apply Butterfly3_works|apply Butterfly4_works
    |apply Butterfly8_works|apply Butterfly16_works|apply fft23_works|intros h q d nh nq; apply Type2And3SplitRadix_works|exact J].
Qed.
Lemma built4_works o : 0 < t4_len o -> b4 o -> works_t4 o (t4_len o).
Proof.
  apply (built4_all _ _ works_t23); [apply works_len|apply Type2And3Naive_works|apply Butterfly2_works|apply Butterfly3_works|apply Butterfly4_works
    |apply Butterfly8_works|apply Butterfly16_works|apply fft23_works|intros h q d nh nq; apply Type2And3SplitRadix_works
    |apply works4_len|apply Type4Naive_works|apply Type4ConvertToType3Even_works|apply fft4_works|exact J].
Qed.
End Roomy.

Lemma runs2_accepts (f : meth T) n sl : runs2 f n sl -> accepts f n sl.
Proof. intros H x s Hx Hs. destruct (runs2_determined f n sl H) as [t K]. destruct (K x s Hx Hs) as (s1 & E & _). eauto. Qed.
Lemma runs_accepts (f : meth T) n sl : runs f n sl -> accepts f n sl.
Proof. intros H. apply runs2_accepts, runs_runs2, H. Qed.

Lemma dct1_len o : built_dct1 (@fft_clean T) o -> 2 <= x_len o -> runs (x_run o) (x_len o) (x_scratch o).
Proof.
  destruct 1 as [n d E|f d Hf E]; intros Hn.
  - destruct (Dct1Naive_works n d E) as [L K]. rewrite L. exact K.
  - destruct (Nat.eq_dec (fft_len f) 0) as [Z|Z].
    + exfalso. revert E. unfold Dct1ConvertToFft_new, rassert. destruct (_ =? 0); [|discriminate]. cbn [rbind].
      destruct (dir_eqb _ _); [|discriminate]. cbn [rbind]. intros X. apply Ok_inj in X. subst d. cbn in Hn. rewrite Z in Hn. cbn in Hn. lia.
    + destruct (Dct1ConvertToFft_works f d E Hf ltac:(lia)) as [L K]. rewrite L. exact K.
Qed.
Lemma dst1_len o : built_dst1 (@fft_clean T) o -> runs2 (x_run o) (x_len o) (x_scratch o).
Proof.
  destruct 1 as [n|f d Hf E].
  - destruct (Dst1Naive_works (T:=T) n) as [L K]. rewrite L. apply runs_runs2, K.
  - destruct (Dst1ConvertToFft_works f d E Hf) as [L K]. rewrite L. exact K.
Qed.
Lemma s67_len_ o : built_s67 (@fft_clean T) o -> runs2 (t_dst6 o) (s67_len o) (s67_scratch o) /\ runs2 (t_dst7 o) (s67_len o) (s67_scratch o).
Proof.
  destruct 1 as [n|f d Hf E].
  - destruct (Dst6And7Naive_works (T:=T) n) as (L & K & K'). rewrite L. split; apply runs_runs2; assumption.
  - destruct (Dst6And7ConvertToFft_works f d E Hf) as (L & K & K'). rewrite L. auto.
Qed.
Ltac by_works H := rewrite (proj1 H); apply runs_accepts, H.

Lemma built_accepts_or c f sl : built_method (@fft_clean T) joined c f sl -> legal c ->
  accepts f (size c) sl \/ barren f (size c).
Proof.
  destruct c as [n|n|n|n|n|n|n|n|n|n|n|n|n|n|n|n|n w]; cbn [built_method size legal]; try contradiction;
    intros (o & Ho & <- & <- & <-) Hl.
  - left. apply runs_accepts, dct1_len; assumption.
  - destruct (built23_works_or o Ho) as [H|H]; [left; apply runs_accepts, H|right; apply H].
  - destruct (built23_works_or o Ho) as [H|H]; [left; apply runs_accepts, H, Hl|right; apply H].
  - destruct (built4_works_or o Ho) as [H|H]; [left; apply runs_accepts, H|right; apply H].
  - left. destruct Ho as [n d E]. pose proof (Dct5Naive_works n d E) as H. by_works H.
  - left. destruct Ho as [n d E]. pose proof (Dct6And7Naive_works n d E) as H. by_works H.
  - left. destruct Ho as [n d E]. pose proof (Dct6And7Naive_works n d E) as H. by_works H.
  - left. destruct Ho as [n]. pose proof (Dct8Naive_works (T:=T) n) as H. by_works H.
  - left. apply runs2_accepts, dst1_len. assumption.
  - destruct (built23_works_or o Ho) as [H|H]; [left; apply runs_accepts, H|right; apply H].
  - destruct (built23_works_or o Ho) as [H|H]; [left; apply runs_accepts, H, Hl|right; apply H].
  - destruct (built4_works_or o Ho) as [H|H]; [left; apply runs_accepts, H|right; apply H].
  - left. destruct Ho as [n]. pose proof (Dst5Naive_works (T:=T) n) as H. by_works H.
  - left. apply runs2_accepts, s67_len_. assumption.
  - left. apply runs2_accepts, s67_len_. assumption.
  - left. destruct Ho as [n d E]. pose proof (Dst8Naive_works n d E) as H. by_works H.
Qed.
Lemma built_accepts_or_never c f sl : built_method (@fft_clean T) joined c f sl -> legal c ->
  accepts f (size c) sl \/ never_accepts f (size c).
Proof. intros H L. destruct (built_accepts_or c f sl H L) as [A|A]; [left; exact A|right; apply barren_never, A]. Qed.
Lemma built_accepts c f sl : (forall h q, joined h q -> roomy h q) -> built_method (@fft_clean T) joined c f sl -> legal c -> 0 < size c ->
  accepts f (size c) sl.
Proof.
  intros J. destruct c as [n|n|n|n|n|n|n|n|n|n|n|n|n|n|n|n|n w]; cbn [built_method size legal]; try contradiction;
    intros (o & Ho & <- & <- & <-) Hl Hp.
  - apply runs_accepts, dct1_len; assumption.
  - apply runs_accepts, (built23_works J o Ho).
  - apply runs_accepts, (built23_works J o Ho), Hl.
  - apply runs_accepts, (built4_works J o Hp Ho).
  - destruct Ho as [n d E]. pose proof (Dct5Naive_works n d E) as H. by_works H.
  - destruct Ho as [n d E]. pose proof (Dct6And7Naive_works n d E) as H. by_works H.
  - destruct Ho as [n d E]. pose proof (Dct6And7Naive_works n d E) as H. by_works H.
  - destruct Ho as [n]. pose proof (Dct8Naive_works (T:=T) n) as H. by_works H.
  - apply runs2_accepts, dst1_len. assumption.
  - apply runs_accepts, (built23_works J o Ho).
  - apply runs_accepts, (built23_works J o Ho), Hl.
  - apply runs_accepts, (built4_works J o Hp Ho).
  - destruct Ho as [n]. pose proof (Dst5Naive_works (T:=T) n) as H. by_works H.
  - apply runs2_accepts, s67_len_. assumption.
  - apply runs2_accepts, s67_len_. assumption.
  - destruct Ho as [n d E]. pose proof (Dst8Naive_works n d E) as H. by_works H.
Qed.
(** A split radix over inner transforms that need more scratch than it has for them. *)
Lemma split_never usable j h q d : Type2And3SplitRadix_new h q = Ok d -> built23 usable j h -> built23 usable j q -> ~ roomy h q ->
  never_accepts (Type2And3SplitRadix_dct2 (T:=T) d) (Type2And3SplitRadix_len d) /\
  never_accepts (Type2And3SplitRadix_dct3 d) (Type2And3SplitRadix_len d) /\
  never_accepts (Type2And3SplitRadix_dst2 d) (Type2And3SplitRadix_len d) /\
  never_accepts (Type2And3SplitRadix_dst3 d) (Type2And3SplitRadix_len d).
Proof.
  intros E Bh Bq H. destruct (split_barren usable j h q d E Bh Bq ltac:(auto)) as (A & B & C & D).
  repeat split; apply barren_never; assumption.
Qed.
End Works.
