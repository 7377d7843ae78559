(** Every method of the crate touches only its slices, for every numeric type and
    for slices of any length. *)
From Coq Require Import List Arith Lia Bool ZArith ZifyNat.
From Verif Require Import Prog Num Model_Common Model_Naive Model_Fft Model_Butterflies Model_SplitRadix
  Model_Mdct Spec_Memory Wp Confine.
Import ListNotations.
Ltac Zify.zify_post_hook ::= Z.div_mod_to_equations.

Definition conf_meth {T} (f : meth T) : Prop :=
  forall R W b s, insideR R b -> insideW W b -> insideR R s -> insideW W s -> conf R W (f b s) any.
Definition conf_mdct {T} (f : slice -> slice -> slice -> slice -> prog T unit) : Prop :=
  forall R W a b c s, insideR R a -> insideR R b -> insideR R c -> insideW W c -> insideR R s -> insideW W s ->
  conf R W (f a b c s) any.
Definition conf_imdct {T} (f : slice -> slice -> slice -> slice -> prog T unit) : Prop :=
  forall R W a b c s, insideR R a -> insideR R b -> insideW W b -> insideR R c -> insideW W c -> insideR R s -> insideW W s ->
  conf R W (f a b c s) any.

Ltac tidy := cbv beta in * ; cbn [fst snd] in * ; repeat match goal with H : _ /\ _ |- _ => destruct H end; subst.
Ltac ins := first [assumption | match goal with H : insideR _ ?s -> _ |- _ => apply H; assumption | H : insideW _ ?s -> _ |- _ => apply H; assumption end].
Ltac prim_more := fail.
Ltac prim := first
  [ prim_more | apply conf_rd; ins | apply conf_wr; ins | apply conf_usub | apply conf_idx | apply conf_get_mut; ins
  | apply conf_deref; ins | apply conf_assign; ins
  | apply conf_rdu; [ins|lia] | apply conf_wru; [ins|lia] | apply conf_idxu; lia
  | apply conf_split; ins | apply conf_csplit; ins | apply conf_slice_from | apply conf_slice_to
  | apply conf_cslice_from; ins | apply conf_cslice_to; ins | apply conf_list_from
  | apply conf_crd_re; ins | apply conf_crd_im; ins | apply conf_crd; ins | apply conf_cwr; ins | apply conf_cwr_im; ins
  | apply conf_copy; ins | apply conf_reverse; ins | apply conf_fft; ins ].
Ltac cf := lazymatch goal with
  | |- conf _ _ (let x := _ in _) _ => cbv zeta; cf
  | |- conf _ _ (bind _ _) _ => eapply conf_bind; [cfp|let a := fresh "x" in let Ha := fresh "H" in intros a Ha; tidy; cf]
  | |- conf _ _ (Ret _) any => exact I
  | |- conf _ _ (Panic _) _ => exact I
  | |- conf _ _ (if ?b then _ else _) _ => let E := fresh in destruct b eqn:E; cf
  | |- conf _ _ (match ?z with (_, _) => _ end) _ => destruct z; tidy; cf
  | |- conf _ _ (for_range _ _ _) _ => apply conf_for; intros; cf
  | |- conf _ _ (fold_range _ _ _ _) _ => apply conf_fold; intros; cf
  | |- conf _ _ (while_ _ _ _ _) _ => apply conf_while; intros; cf
  | |- _ => first [prim | eapply conf_conseq; [prim|intros; exact I]]
  end
with cfp := lazymatch goal with
  | |- conf _ _ (bind _ _) _ => instantiate (1 := any); cf
  | |- conf _ _ (if _ then _ else _) _ => instantiate (1 := any); cf
  | |- conf _ _ (for_range _ _ _) _ => instantiate (1 := any); cf
  | |- conf _ _ (fold_range _ _ _ _) _ => instantiate (1 := any); cf
  | |- conf _ _ (while_ _ _ _ _) _ => instantiate (1 := any); cf
  | |- _ => prim
  end.
Ltac start := intros R W b s HbR HbW HsR HsW.
Ltac validated := apply conf_validate_buffers; [assumption|assumption|]; intros s' Hb HsR' HsW' Hs'; cbv zeta.
Ltac complexed := match goal with |- conf ?R ?W ?p _ => match p with context [into_complex_mut ?s] =>
  assert (HC : cinside R W (into_complex_mut s)) by (apply conf_into_complex; assumption) end end.

Section Naive.
Context {T F : Type} {N : Num T F}.
Lemma Dct1Naive_conf d : conf_meth (Dct1Naive_dct1 (T:=T) d).
Proof. start. unfold Dct1Naive_dct1. validated. cf. Qed.
Lemma Dst1Naive_conf d : conf_meth (Dst1Naive_dst1 (T:=T) d).
Proof. start. unfold Dst1Naive_dst1. validated. cf. Qed.
Lemma Dct5Naive_conf d : conf_meth (Dct5Naive_dct5 (T:=T) d).
Proof. start. unfold Dct5Naive_dct5. validated. cf. Qed.
Lemma Dst5Naive_conf d : conf_meth (Dst5Naive_dst5 (T:=T) d).
Proof. start. unfold Dst5Naive_dst5. validated. cf. Qed.
Lemma Dct8Naive_conf d : conf_meth (Dct8Naive_dct8 (T:=T) d).
Proof. start. unfold Dct8Naive_dct8. validated. cf. Qed.
Lemma Dst8Naive_conf d : conf_meth (Dst8Naive_dst8 (T:=T) d).
Proof. start. unfold Dst8Naive_dst8. validated. cf. Qed.
Lemma Dct6Naive_conf d : conf_meth (Dct6And7Naive_dct6 (T:=T) d).
Proof. start. unfold Dct6And7Naive_dct6. validated. cf. Qed.
Lemma Dct7Naive_conf d : conf_meth (Dct6And7Naive_dct7 (T:=T) d).
Proof. start. unfold Dct6And7Naive_dct7. validated. cf. Qed.
Lemma Dst6Naive_conf d : conf_meth (Dst6And7Naive_dst6 (T:=T) d).
Proof. start. unfold Dst6And7Naive_dst6. validated. cf. Qed.
Lemma Dst7Naive_conf d : conf_meth (Dst6And7Naive_dst7 (T:=T) d).
Proof. start. unfold Dst6And7Naive_dst7. validated. cf. Qed.
Lemma Dct2Naive_conf d : conf_meth (Type2And3Naive_dct2 (T:=T) d).
Proof. start. unfold Type2And3Naive_dct2. validated. cf. Qed.
Lemma Dst2Naive_conf d : conf_meth (Type2And3Naive_dst2 (T:=T) d).
Proof. start. unfold Type2And3Naive_dst2. validated. cf. Qed.
Lemma Dct3Naive_conf d : conf_meth (Type2And3Naive_dct3 (T:=T) d).
Proof. start. unfold Type2And3Naive_dct3. validated. cf. Qed.
Lemma Dst3Naive_conf d : conf_meth (Type2And3Naive_dst3 (T:=T) d).
Proof. start. unfold Type2And3Naive_dst3. validated. cf. Qed.
Lemma Dct4Naive_conf d : conf_meth (Type4Naive_dct4 (T:=T) d).
Proof. start. unfold Type4Naive_dct4. validated. cf. Qed.
Lemma Dst4Naive_conf d : conf_meth (Type4Naive_dst4 (T:=T) d).
Proof. start. unfold Type4Naive_dst4. validated. cf. Qed.
End Naive.

Section Fft.
Context {T F : Type} {N : Num T F}.
Lemma Dct1Fft_conf d : conf_meth (Dct1ConvertToFft_dct1 (T:=T) d).
Proof. start. unfold Dct1ConvertToFft_dct1. validated. complexed. cf. Qed.
Lemma Dst1Fft_conf d : conf_meth (Dst1ConvertToFft_dst1 (T:=T) d).
Proof. start. unfold Dst1ConvertToFft_dst1. validated. complexed. cf. Qed.
Lemma Dct2Fft_conf d : conf_meth (Type2And3ConvertToFft_dct2 (T:=T) d).
Proof. start. unfold Type2And3ConvertToFft_dct2. validated. complexed. cf. Qed.
Lemma Dst2Fft_conf d : conf_meth (Type2And3ConvertToFft_dst2 (T:=T) d).
Proof. start. unfold Type2And3ConvertToFft_dst2. validated. complexed. cf. Qed.
Lemma Dct3Fft_conf d : conf_meth (Type2And3ConvertToFft_dct3 (T:=T) d).
Proof. start. unfold Type2And3ConvertToFft_dct3. validated. complexed. cf. Qed.
Lemma Dst3Fft_conf d : conf_meth (Type2And3ConvertToFft_dst3 (T:=T) d).
Proof. start. unfold Type2And3ConvertToFft_dst3. validated. complexed. cf. Qed.
Lemma Dct4Fft_conf d : conf_meth (Type4ConvertToFftOdd_dct4 (T:=T) d).
Proof. start. unfold Type4ConvertToFftOdd_dct4. validated. complexed. cf. Qed.
Lemma Dst4Fft_conf d : conf_meth (Type4ConvertToFftOdd_dst4 (T:=T) d).
Proof. start. unfold Type4ConvertToFftOdd_dst4. validated. complexed. cf. Qed.
Lemma Dst6Fft_conf d : conf_meth (Dst6And7ConvertToFft_dst6 (T:=T) d).
Proof. start. unfold Dst6And7ConvertToFft_dst6. validated. complexed. cf. Qed.
Lemma Dst7Fft_conf d : conf_meth (Dst6And7ConvertToFft_dst7 (T:=T) d).
Proof. start. unfold Dst6And7ConvertToFft_dst7. validated. complexed. cf. Qed.
End Fft.

Section SplitRadix.
Context {T F : Type} {N : Num T F}.

Definition conf_t23 (o : t23 T) : Prop :=
  conf_meth (t_dct2 o) /\ conf_meth (t_dct3 o) /\ conf_meth (t_dst2 o) /\ conf_meth (t_dst3 o).
Definition conf_t4 (o : t4 T) : Prop := conf_meth (t_dct4 o) /\ conf_meth (t_dst4 o).

Ltac inner H := eapply conf_bind; [apply H; assumption|intros _ _].
Ltac go := eapply conf_bind; [cfp|let a := fresh "x" in let Ha := fresh "H" in intros a Ha; tidy].

Lemma Dct2Split_conf d : conf_meth (t_dct2 (sr_half d)) -> conf_meth (t_dct2 (sr_quarter d)) ->
  0 < length (sr_tw d) -> conf_meth (Type2And3SplitRadix_dct2 (T:=T) d).
Proof.
  intros Hh Hq Hp. start. unfold Type2And3SplitRadix_dct2. validated. unfold Type2And3SplitRadix_scratch, Type2And3SplitRadix_len in * .
  set (q := length (sr_tw d)) in * . replace (q * 4 / 2) with (2 * q) by lia. replace (q * 4 / 4) with q by lia.
  go. destruct x as [h r]. tidy. go. destruct x as [ev od]. tidy. go.
  inner Hh. inner Hq. inner Hq. cf.
Qed.

Lemma Dct3Split_conf d : conf_meth (t_dct3 (sr_half d)) -> conf_meth (t_dct3 (sr_quarter d)) ->
  conf_meth (Type2And3SplitRadix_dct3 (T:=T) d).
Proof.
  intros Hh Hq. start. unfold Type2And3SplitRadix_dct3. validated. unfold Type2And3SplitRadix_scratch, Type2And3SplitRadix_len in * .
  rewrite Hb. set (q := length (sr_tw d)) in * . replace (q * 4 / 2) with (2 * q) by lia. replace (q * 4 / 4) with q by lia.
  go. destruct x as [h r]. tidy. go. destruct x as [ev od]. tidy. do 10 go. inner Hh. inner Hq. inner Hq. cf.
Qed.
Lemma Dst2Split_conf d : conf_meth (Type2And3SplitRadix_dct2 (T:=T) d) -> conf_meth (Type2And3SplitRadix_dst2 d).
Proof. intros H. start. unfold Type2And3SplitRadix_dst2. go. inner H. cf. Qed.
Lemma Dst3Split_conf d : conf_meth (Type2And3SplitRadix_dct3 (T:=T) d) -> conf_meth (Type2And3SplitRadix_dst3 d).
Proof. intros H. start. unfold Type2And3SplitRadix_dst3. go. inner H. cf. Qed.

Lemma Dct4Even_conf d : conf_meth (t_dct3 (t4e_inner d)) -> conf_meth (t_dst3 (t4e_inner d)) ->
  conf_meth (Type4ConvertToType3Even_dct4 (T:=T) d).
Proof.
  intros Hc Hs. start. unfold Type4ConvertToType3Even_dct4. validated.
  go. destruct x as [h r]. tidy. go. destruct x as [ev od]. tidy. do 7 go. cbv zeta.
  destruct (0 <? slen r); (inner Hc; inner Hs; cf).
Qed.
Lemma Dst4Even_conf d : conf_meth (t_dct3 (t4e_inner d)) -> conf_meth (t_dst3 (t4e_inner d)) ->
  conf_meth (Type4ConvertToType3Even_dst4 (T:=T) d).
Proof.
  intros Hc Hs. start. unfold Type4ConvertToType3Even_dst4. validated.
  go. destruct x as [h r]. tidy. go. destruct x as [ev od]. tidy. do 7 go. cbv zeta.
  destruct (0 <? slen r); (inner Hs; inner Hc; cf).
Qed.
End SplitRadix.

Section Mdct.
Context {T F : Type} {N : Num T F}.
Ltac go := eapply conf_bind; [cfp|let a := fresh "x" in let Ha := fresh "H" in intros a Ha; tidy].
Ltac validated_mdct := apply conf_validate_mdct; [assumption|assumption|]; intros s' ? ? ? ? ? ?; cbv zeta.

Lemma MdctNaive_conf d : conf_mdct (MdctNaive_mdct (T:=T) d).
Proof.
  intros R W a b c s Ha Hb Hc Hc' Hs Hs'. unfold MdctNaive_mdct. validated_mdct. apply conf_for. intros i Hi. go. go.
  eapply conf_bind; [unfold umod; instantiate (1 := any); cf|intros ? _].
  unfold mn_advance. cf.
Qed.
Lemma ImdctNaive_conf d : conf_imdct (MdctNaive_imdct (T:=T) d).
Proof.
  intros R W a b c s Ha Hb Hb' Hc Hc' Hs Hs'. unfold MdctNaive_imdct. validated_mdct. unfold mn_advance. cf.
Qed.
Lemma MdctDct4_conf d : conf_meth (t_dct4 (md_dct d)) -> conf_mdct (MdctViaDct4_mdct (T:=T) d).
Proof.
  intros H4 R W a b c s Ha Hb Hc Hc' Hs Hs'. unfold MdctViaDct4_mdct. validated_mdct. do 4 go. apply H4; assumption.
Qed.
Lemma ImdctDct4_conf d : conf_meth (t_dct4 (md_dct d)) -> conf_imdct (MdctViaDct4_imdct (T:=T) d).
Proof.
  intros H4 R W a b c s Ha Hb Hb' Hc Hc' Hs Hs'. unfold MdctViaDct4_imdct. validated_mdct. go. destruct x as [u v]. tidy.
  go. eapply conf_bind; [apply H4; assumption|intros _ _]. cf.
Qed.
End Mdct.

Section Butterflies.
Context {T F : Type} {N : Num T F}.
Definition confI (f : slice -> prog T unit) (n : nat) : Prop :=
  forall R W b, insideR R b -> insideW W b -> slen b = n -> conf R W (f b) any.
Lemma conf_not_undef {A} R W (p : prog T A) Q : conf R W p Q -> forall m, run p m <> Undef.
Proof. induction p as [a|q k IH|q v k IH|e|]; cbn; intros H m; try congruence; try contradiction; apply IH; apply H. Qed.
Lemma conf_local' R W d l f n : confI f n -> length l = n -> conf R W (local_call (T:=T) d l f) (fun r => length r = n).
Proof.
  intros H Hl. rewrite <- Hl. apply conf_local. apply (conf_not_undef (fun _ => True) (fun _ => True) _ any).
  apply H; [intros ? ?; exact I|intros ? ?; exact I|exact Hl].
Qed.
Ltac st := intros R W b HR HW Hb.
Ltac cb := unfold rd_add, rd_sub, rd_nadd, rd_nsub, Butterfly2_scattered_dct2, Butterfly2_scattered_dct3; cf.

Lemma b2_dct2 : confI Butterfly2_inplace_dct2 2. Proof. st. unfold Butterfly2_inplace_dct2. cf. Qed.
Lemma b2_dct3 : confI Butterfly2_inplace_dct3 2. Proof. st. unfold Butterfly2_inplace_dct3. cf. Qed.
Lemma b2_dst2 : confI Butterfly2_inplace_dst2 2. Proof. st. unfold Butterfly2_inplace_dst2. cf. Qed.
Lemma b2_dst3 : confI Butterfly2_inplace_dst3 2. Proof. st. unfold Butterfly2_inplace_dst3. cf. Qed.
Lemma b3_dct2 t : confI (Butterfly3_inplace_dct2 t) 3. Proof. st. unfold Butterfly3_inplace_dct2. cf. Qed.
Lemma b3_dct3 t : confI (Butterfly3_inplace_dct3 t) 3. Proof. st. unfold Butterfly3_inplace_dct3. cf. Qed.
Lemma b3_dst2 t : confI (Butterfly3_inplace_dst2 t) 3. Proof. st. unfold Butterfly3_inplace_dst2. cf. Qed.
Lemma b3_dst3 t : confI (Butterfly3_inplace_dst3 t) 3. Proof. st. unfold Butterfly3_inplace_dst3. cf. Qed.
Lemma b4_dct2 t : confI (Butterfly4_inplace_dct2 t) 4. Proof. st. unfold Butterfly4_inplace_dct2. cb. Qed.
Lemma b4_dct3 t : confI (Butterfly4_inplace_dct3 t) 4. Proof. st. unfold Butterfly4_inplace_dct3. cb. Qed.
Lemma b4_dst2 t : confI (Butterfly4_inplace_dst2 t) 4. Proof. st. unfold Butterfly4_inplace_dst2. cb. Qed.
Lemma b4_dst3 t : confI (Butterfly4_inplace_dst3 t) 4. Proof. st. unfold Butterfly4_inplace_dst3. cb. Qed.
Ltac prim_more ::= match goal with
  | |- conf _ _ (local_call _ _ Butterfly2_inplace_dct2) _ => apply (conf_local' _ _ _ _ _ 2 b2_dct2); reflexivity
  | |- conf _ _ (local_call _ _ Butterfly2_inplace_dct3) _ => apply (conf_local' _ _ _ _ _ 2 b2_dct3); reflexivity
  | |- conf _ _ (local_call _ _ Butterfly2_inplace_dst2) _ => apply (conf_local' _ _ _ _ _ 2 b2_dst2); reflexivity
  | |- conf _ _ (local_call _ _ Butterfly2_inplace_dst3) _ => apply (conf_local' _ _ _ _ _ 2 b2_dst3); reflexivity
  | |- conf _ _ (local_call _ _ (Butterfly4_inplace_dct2 _)) _ => apply (conf_local' _ _ _ _ _ 4 (b4_dct2 _)); reflexivity
  | |- conf _ _ (local_call _ _ (Butterfly4_inplace_dct3 _)) _ => apply (conf_local' _ _ _ _ _ 4 (b4_dct3 _)); reflexivity
  | |- conf _ _ (local_call _ _ (Butterfly4_inplace_dst2 _)) _ => apply (conf_local' _ _ _ _ _ 4 (b4_dst2 _)); reflexivity
  | |- conf _ _ (local_call _ _ (Butterfly4_inplace_dst3 _)) _ => apply (conf_local' _ _ _ _ _ 4 (b4_dst3 _)); reflexivity
  end.
Lemma b8_dct2 t : confI (Butterfly8_inplace_dct2 t) 8. Proof. st. unfold Butterfly8_inplace_dct2. cb. Qed.
Lemma b8_dct3 t : confI (Butterfly8_inplace_dct3 t) 8. Proof. st. unfold Butterfly8_inplace_dct3. cb. Qed.
Lemma b8_dst2 t : confI (Butterfly8_inplace_dst2 t) 8. Proof. st. unfold Butterfly8_inplace_dst2. cb. Qed.
Lemma b8_dst3 t : confI (Butterfly8_inplace_dst3 t) 8. Proof. st. unfold Butterfly8_inplace_dst3. cb. Qed.
Ltac prim_more ::= match goal with
  | |- conf _ _ (local_call _ _ (Butterfly4_inplace_dct2 _)) _ => apply (conf_local' _ _ _ _ _ 4 (b4_dct2 _)); reflexivity
  | |- conf _ _ (local_call _ _ (Butterfly4_inplace_dct3 _)) _ => apply (conf_local' _ _ _ _ _ 4 (b4_dct3 _)); reflexivity
  | |- conf _ _ (local_call _ _ (Butterfly4_inplace_dst2 _)) _ => apply (conf_local' _ _ _ _ _ 4 (b4_dst2 _)); reflexivity
  | |- conf _ _ (local_call _ _ (Butterfly4_inplace_dst3 _)) _ => apply (conf_local' _ _ _ _ _ 4 (b4_dst3 _)); reflexivity
  | |- conf _ _ (local_call _ _ (Butterfly8_inplace_dct2 _)) _ => apply (conf_local' _ _ _ _ _ 8 (b8_dct2 _)); reflexivity
  | |- conf _ _ (local_call _ _ (Butterfly8_inplace_dct3 _)) _ => apply (conf_local' _ _ _ _ _ 8 (b8_dct3 _)); reflexivity
  end.
Lemma b16_dct2 t : confI (Butterfly16_inplace_dct2 t) 16. Proof. st. unfold Butterfly16_inplace_dct2. cb. Qed.
Lemma b16_dct3 t : confI (Butterfly16_inplace_dct3 t) 16. Proof. st. unfold Butterfly16_inplace_dct3. cb. Qed.
Lemma b16_dst2 t : confI (Butterfly16_inplace_dst2 t) 16. Proof. st. unfold Butterfly16_inplace_dst2. cb. Qed.
Lemma b16_dst3 t : confI (Butterfly16_inplace_dst3 t) 16. Proof. st. unfold Butterfly16_inplace_dst3. cb. Qed.

Lemma conf_b2 : conf_t23 Type2And3Butterfly2_obj.
Proof.
  repeat split; intros R W b s HR HW _ _; cbn [t_dct2 t_dct3 t_dst2 t_dst3 Type2And3Butterfly2_obj];
    [unfold Butterfly2_dct2|unfold Butterfly2_dct3|unfold Butterfly2_dst2|unfold Butterfly2_dst3];
    apply conf_validate_buffer; intros Hb; cf.
Qed.
Lemma conf_butterfly n c2 c3 s2 s3 : confI c2 n -> confI c3 n -> confI s2 n -> confI s3 n ->
  conf_t23 (butterfly_obj n c2 c3 s2 s3).
Proof.
  intros A B C D. repeat split; intros R W b s HR HW _ _; cbn [t_dct2 t_dct3 t_dst2 t_dst3 butterfly_obj];
    apply conf_validate_buffer; intros Hb; auto.
Qed.
Lemma conf_b3 t : conf_t23 (Type2And3Butterfly3_obj t).
Proof. apply conf_butterfly; [apply b3_dct2|apply b3_dct3|apply b3_dst2|apply b3_dst3]. Qed.
Lemma conf_b4 t : conf_t23 (Type2And3Butterfly4_obj t).
Proof. apply conf_butterfly; [apply b4_dct2|apply b4_dct3|apply b4_dst2|apply b4_dst3]. Qed.
Lemma conf_b8 t : conf_t23 (Type2And3Butterfly8_obj t).
Proof. apply conf_butterfly; [apply b8_dct2|apply b8_dct3|apply b8_dst2|apply b8_dst3]. Qed.
Lemma conf_b16 t : conf_t23 (Type2And3Butterfly16_obj t).
Proof. apply conf_butterfly; [apply b16_dct2|apply b16_dct3|apply b16_dst2|apply b16_dst3]. Qed.
End Butterflies.
