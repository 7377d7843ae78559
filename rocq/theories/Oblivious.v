(** Control flow and addresses do not depend on the values in memory. *)
From Coq Require Import List Arith Lia Bool.
From Verif Require Import Prog Num Model_Common Model_Naive Model_Fft Model_Butterflies Model_SplitRadix
  Model_Mdct Model_Plan Model_Api Spec Spec_Api Spec_Fft Spec_Plan Spec_Methods Spec_Memory Spec_Build Spec_Trace Wp Objects Build_Conf Build_Plan.
Import ListNotations.
Open Scope nat_scope.

Section Sim.
Context {T : Type}.

(** [p] and [q] make the same accesses and end alike whatever each of them reads; the results
    are related by [R]. *)
Fixpoint osim {A} (R : A -> A -> Prop) (p q : prog T A) {struct p} : Prop :=
  match p, q with
  | Ret a, Ret b => R a b
  | Rd x k, Rd y k' => x = y /\ forall v v', osim R (k v) (k' v')
  | Wr x _ k, Wr y _ k' => x = y /\ osim R k k'
  | Panic e, Panic e' => e = e'
  | UB, UB => True
  | _, _ => False
  end.
Definition any2 {A} : A -> A -> Prop := fun _ _ => True.

Lemma osim_trace {A} (R : A -> A -> Prop) (p q : prog T A) : osim R p q -> forall m1 m2, trace p m1 = trace q m2.
Proof.
  revert q. induction p as [a|x k IH|x v k IH|e|]; intros [b|y k'|y v' k'|e'|] H m1 m2; cbn [osim trace] in * ; try contradiction.
  - reflexivity.
  - destruct H as [-> H]. f_equal. apply IH, H.
  - destruct H as [-> H]. f_equal. apply IH, H.
  - now subst.
  - reflexivity.
Qed.
Lemma osim_conseq {A} (R R' : A -> A -> Prop) (p q : prog T A) : osim R p q -> (forall a b, R a b -> R' a b) -> osim R' p q.
Proof.
  revert q. induction p as [a|x k IH|x v k IH|e|]; intros [b|y k'|y v' k'|e'|] H HR; cbn [osim] in * ; try contradiction; auto.
  - destruct H as [-> H]. split; [reflexivity|]. intros v v'. apply IH; auto.
  - destruct H as [-> H]. split; [reflexivity|]. apply IH; auto.
Qed.
Lemma osim_bind {A B} (R : A -> A -> Prop) (S : B -> B -> Prop) (p q : prog T A) (f g : A -> prog T B) :
  osim R p q -> (forall a b, R a b -> osim S (f a) (g b)) -> osim S (bind p f) (bind q g).
Proof.
  revert q. induction p as [a|x k IH|x v k IH|e|]; intros [b|y k'|y v' k'|e'|] H HR; cbn [osim bind] in * ; try contradiction; auto.
  - destruct H as [-> H]. split; [reflexivity|]. intros v v'. apply IH; auto.
  - destruct H as [-> H]. split; [reflexivity|]. apply IH; auto.
Qed.

Lemma o_ret {A} (R : A -> A -> Prop) a b : R a b -> osim R (Ret a) (Ret b). Proof. auto. Qed.
Lemma o_panic {A} (R : A -> A -> Prop) e : osim R (Panic e) (Panic e). Proof. reflexivity. Qed.
Lemma o_rd s i : osim any2 (rd (T:=T) s i) (rd s i). Proof. unfold rd. destruct (_ <? _); cbn; unfold any2; auto. Qed.
Lemma o_rdu s i : osim any2 (rdu (T:=T) s i) (rdu s i). Proof. unfold rdu. destruct (_ <? _); cbn; unfold any2; auto. Qed.
Lemma o_wr s i v v' : osim any2 (wr (T:=T) s i v) (wr s i v'). Proof. unfold wr. destruct (_ <? _); cbn; unfold any2; auto. Qed.
Lemma o_wru s i v v' : osim any2 (wru (T:=T) s i v) (wru s i v'). Proof. unfold wru. destruct (_ <? _); cbn; unfold any2; auto. Qed.
Lemma o_deref c : osim any2 (deref (T:=T) c) (deref c). Proof. apply o_rd. Qed.
Lemma o_assign c v v' : osim any2 (assign (T:=T) c v) (assign c v'). Proof. apply o_wr. Qed.
Lemma o_get_mut s i : osim eq (get_mut_unwrap (T:=T) s i) (get_mut_unwrap s i). Proof. unfold get_mut_unwrap. destruct (_ <? _); reflexivity. Qed.
Lemma o_usub a b : osim eq (usub (T:=T) a b) (usub a b). Proof. unfold usub. destruct (_ <=? _); reflexivity. Qed.
Lemma o_umod a b : osim eq (umod (T:=T) a b) (umod a b). Proof. unfold umod. destruct (_ =? _); reflexivity. Qed.
Lemma o_idx {X} (l : list X) i : osim eq (idx (T:=T) l i) (idx l i). Proof. unfold idx. destruct (nth_error l i); reflexivity. Qed.
Lemma o_idxu {X} (l : list X) i : osim eq (idxu (T:=T) l i) (idxu l i). Proof. unfold idxu. destruct (nth_error l i); cbn; auto. Qed.
Lemma o_split s n : osim eq (split_at_mut (T:=T) s n) (split_at_mut s n). Proof. unfold split_at_mut. destruct (_ <=? _); reflexivity. Qed.
Lemma o_csplit s n : osim eq (csplit_at_mut (T:=T) s n) (csplit_at_mut s n). Proof. unfold csplit_at_mut. destruct (_ <=? _); reflexivity. Qed.
Lemma o_slice_from s n : osim eq (slice_from (T:=T) s n) (slice_from s n). Proof. unfold slice_from. destruct (_ <=? _); reflexivity. Qed.
Lemma o_slice_to s n : osim eq (slice_to (T:=T) s n) (slice_to s n). Proof. unfold slice_to. destruct (_ <=? _); reflexivity. Qed.
Lemma o_cslice_from s n : osim eq (cslice_from (T:=T) s n) (cslice_from s n). Proof. unfold cslice_from. destruct (_ <=? _); reflexivity. Qed.
Lemma o_cslice_to s n : osim eq (cslice_to (T:=T) s n) (cslice_to s n). Proof. unfold cslice_to. destruct (_ <=? _); reflexivity. Qed.
Lemma o_list_from {X} (l : list X) n : osim eq (list_from (T:=T) l n) (list_from l n). Proof. unfold list_from. destruct (_ <=? _); reflexivity. Qed.
Lemma o_crd_re s i : osim any2 (crd_re (T:=T) s i) (crd_re s i). Proof. unfold crd_re. destruct (_ <? _); cbn; unfold any2; auto. Qed.
Lemma o_crd_im s i : osim any2 (crd_im (T:=T) s i) (crd_im s i). Proof. unfold crd_im. destruct (_ <? _); cbn; unfold any2; auto. Qed.
Lemma o_crd s i : osim any2 (crd (T:=T) s i) (crd s i).
Proof. eapply osim_bind; [apply o_crd_re|]. intros a b _. eapply osim_bind; [apply o_crd_im|]. intros c d _. exact I. Qed.
Lemma o_cwr_im s i v v' : osim any2 (cwr_im (T:=T) s i v) (cwr_im s i v'). Proof. unfold cwr_im. destruct (_ <? _); cbn; unfold any2; auto. Qed.
Lemma o_cwr s i v v' : osim any2 (cwr (T:=T) s i v) (cwr s i v'). Proof. unfold cwr. destruct (_ <? _); cbn; unfold any2; auto. Qed.

Lemma o_for_n n (f g : nat -> prog T unit) : (forall i, osim any2 (f i) (g i)) -> forall a, osim any2 (for_n a n f) (for_n a n g).
Proof. intros H. induction n as [|n IH]; intros a; [exact I|]. cbn [for_n]. eapply osim_bind; [apply H|]. intros _ _ _. apply IH. Qed.
Lemma o_for a b (f g : nat -> prog T unit) : (forall i, osim any2 (f i) (g i)) -> osim any2 (for_range a b f) (for_range a b g).
Proof. intros H. apply o_for_n, H. Qed.
Lemma o_fold {X} (R : X -> X -> Prop) a b x x' (f g : nat -> X -> prog T X) : R x x' ->
  (forall i y y', R y y' -> osim R (f i y) (g i y')) -> osim R (fold_range a b x f) (fold_range a b x' g).
Proof.
  intros Hx H. unfold fold_range. generalize (b - a). intros n. revert a x x' Hx.
  induction n as [|n IH]; intros a x x' Hx; [exact Hx|]. cbn [fold_n]. eapply osim_bind; [apply H, Hx|]. intros y y' Hy. apply IH, Hy.
Qed.
Lemma o_while {X} fuel cond (x : X) (f g : X -> prog T X) : (forall y, osim eq (f y) (g y)) ->
  osim eq (while_ fuel cond f x) (while_ fuel cond g x).
Proof.
  intros H. revert x. induction fuel as [|n IH]; intros x; [reflexivity|]. cbn [while_]. destruct (cond x); [|reflexivity].
  eapply osim_bind; [apply H|]. intros y y' <-. apply IH.
Qed.
Lemma o_copy d s : osim any2 (copy_from_slice (T:=T) d s) (copy_from_slice d s).
Proof.
  unfold copy_from_slice. destruct (_ =? _); [|reflexivity]. apply o_for. intros i. eapply osim_bind; [apply o_rd|]. intros a b _. apply o_wr.
Qed.
Lemma o_reverse s : osim any2 (reverse (T:=T) s) (reverse s).
Proof.
  apply o_for. intros i. eapply osim_bind; [apply o_rd|]. intros a a' _. eapply osim_bind; [apply o_rd|]. intros b b' _.
  eapply osim_bind; [apply o_wr|]. intros _ _ _. apply o_wr.
Qed.
Lemma o_local d l l' (f : slice -> prog T unit) : (forall b, osim any2 (f b) (f b)) -> length l = length l' ->
  osim any2 (local_call d l f) (local_call d l' f).
Proof.
  intros H L. unfold local_call. rewrite L. specialize (H (mkS 0 (length l'))).
  assert (G : forall (p q : prog T unit), osim any2 p q -> forall m m', match run p m, run q m' with
    | Done _ _, Done _ _ => True | Panicked e _, Panicked e' _ => e = e' | Undef, Undef => True | _, _ => False end).
  { clear. induction p as [a|x k IH|x v k IH|e|]; intros [b|y k'|y v' k'|e'|] H m m'; cbn [osim run] in * ; try contradiction; auto.
    - apply IH, H.
    - apply IH, H. }
  specialize (G _ _ H (mem_of d l) (mem_of d l')). destruct (run _ (mem_of d l)), (run _ (mem_of d l')); cbn; try contradiction; unfold any2; auto.
Qed.
End Sim.

Section Sim2.
Context {T F : Type} {N : Num T F}.
Lemma o_cread_all s : osim any2 (cread_all (T:=T) s) (cread_all s).
Proof. unfold cread_all. apply o_fold; [exact I|]. intros i y y' _. eapply osim_bind; [apply o_crd|]. intros a b _. exact I. Qed.
Lemma o_cwrite_all d s l l' : osim any2 (cwrite_all (T:=T) d s l) (cwrite_all d s l').
Proof. unfold cwrite_all. apply o_for. intros i. apply o_cwr. Qed.
Lemma o_fft (f : fft T) b s : osim any2 (fft_process f b s) (fft_process f b s).
Proof.
  unfold fft_process. destruct (_ || _); [reflexivity|]. eapply osim_bind; [apply o_cread_all|]. intros xs xs' _.
  eapply osim_bind; [apply o_cread_all|]. intros ss ss' _. cbv zeta. eapply osim_bind; [apply o_cwrite_all|]. intros _ _ _. apply o_cwrite_all.
Qed.
Lemma o_dct_error a b c d : osim any2 (dct_error_inplace (T:=T) a b c d) (dct_error_inplace a b c d).
Proof. unfold dct_error_inplace. destruct (a =? c); [destruct (d <=? b)|]; cbn; unfold any2; auto. Qed.
Lemma o_mdct_error a b c d e f : osim any2 (mdct_error_inplace (T:=T) a b c d e f) (mdct_error_inplace a b c d e f).
Proof. unfold mdct_error_inplace. destruct (a =? e); [destruct (b =? e); [destruct (c =? e); [destruct (f <=? d)|]|]|]; cbn; unfold any2; auto. Qed.
Lemma o_validate_buffer b n (k : prog T unit) : osim any2 k k -> osim any2 (validate_buffer b n k) (validate_buffer b n k).
Proof. intros H. unfold validate_buffer. destruct (negb _); [|exact H]. eapply osim_bind; [apply o_dct_error|]. intros; exact I. Qed.
Lemma o_validate b s n sl (k : slice -> prog T unit) : (forall s, osim any2 (k s) (k s)) ->
  osim any2 (validate_buffers b s n sl k) (validate_buffers b s n sl k).
Proof.
  intros H. unfold validate_buffers. destruct (negb _); [eapply osim_bind; [apply o_dct_error|]; intros; exact I|].
  destruct (get_range _ _); [apply H|]. eapply osim_bind; [apply o_dct_error|]; intros; exact I.
Qed.
Lemma o_validate_mdct a b c s n sl (k : slice -> prog T unit) : (forall s, osim any2 (k s) (k s)) ->
  osim any2 (validate_buffers_mdct a b c s n sl k) (validate_buffers_mdct a b c s n sl k).
Proof.
  intros H. unfold validate_buffers_mdct. destruct (_ || _); [eapply osim_bind; [apply o_mdct_error|]; intros; exact I|].
  destruct (get_range _ _); [apply H|]. eapply osim_bind; [apply o_mdct_error|]; intros; exact I.
Qed.
End Sim2.

Definition same_snd {A} (x y : A * nat) : Prop := snd x = snd y.
Ltac otidy := unfold any2, same_snd in * ; cbv beta in * ; cbn [fst snd] in * ;
  repeat match goal with H : _ /\ _ |- _ => destruct H | H : True |- _ => clear H end; subst.
Ltac oprim_more := fail.
Ltac oprim := first
  [ oprim_more | apply o_rd | apply o_wr | apply o_usub | apply o_umod | apply o_idx | apply o_get_mut | apply o_deref | apply o_assign
  | apply o_rdu | apply o_wru | apply o_idxu | apply o_split | apply o_csplit | apply o_slice_from | apply o_slice_to
  | apply o_cslice_from | apply o_cslice_to | apply o_list_from | apply o_crd_re | apply o_crd_im | apply o_crd | apply o_cwr | apply o_cwr_im
  | apply o_copy | apply o_reverse | apply o_fft ].
Ltac ob := lazymatch goal with
  | |- osim _ (let x := _ in _) _ => cbv zeta; ob
  | |- osim _ (bind (bind _ _) _) _ => eapply osim_bind; [obp|let a := fresh "x" in let b := fresh "y" in let H := fresh "H" in intros a b H; otidy; ob]
  | |- osim _ (bind _ _) _ => eapply osim_bind; [obp|let a := fresh "x" in let b := fresh "y" in let H := fresh "H" in intros a b H; otidy; ob]
  | |- osim any2 (Ret _) _ => exact I
  | |- osim _ (Ret _) _ => apply o_ret; first [reflexivity | assumption]
  | |- osim _ (Panic _) _ => reflexivity
  | |- osim _ (if ?b then _ else _) _ => destruct b; ob
  | |- osim _ (match ?z with (_, _) => _ end) (match ?z' with (_, _) => _ end) => first [is_var z; destruct z | idtac]; first [is_var z'; destruct z' | idtac]; otidy; ob
  | |- osim _ (for_range _ _ _) _ => apply o_for; intros; ob
  | |- osim _ (fold_range _ _ _ _) _ => obf
  | |- osim _ (while_ _ _ _ _) _ => apply o_while; intros; ob
  | |- _ => first [oprim | eapply osim_conseq; [oprim|intros; exact I]]
  end
with obf := lazymatch goal with
  | |- osim _ (@fold_range _ nat _ _ _ _) _ => first [apply (o_fold eq); [reflexivity|intros; otidy; ob] | eapply osim_conseq; [apply (o_fold eq); [reflexivity|intros; otidy; ob]|intros; exact I]]
  | |- osim _ (@fold_range _ (_ * nat) _ _ _ _) _ => apply (o_fold same_snd); [reflexivity|intros; otidy; ob]
  | |- osim _ (@fold_range _ _ _ _ _ _) _ => apply (o_fold any2); [exact I|intros; otidy; ob]
  end
with obp := lazymatch goal with
  | |- osim _ (bind _ _) _ => instantiate (1 := any2); ob
  | |- osim _ (if _ then _ else _) _ => first [instantiate (1 := eq); solve [ob] | instantiate (1 := any2); ob]
  | |- osim _ (for_range _ _ _) _ => ob
  | |- osim _ (fold_range _ _ _ _) _ => obf
  | |- osim _ (while_ _ _ _ _) _ => ob
  | |- osim _ (Ret _) _ => apply o_ret; reflexivity
  | |- _ => oprim
  end.

Definition obl {T} (f : meth T) : Prop := forall b s, osim any2 (f b s) (f b s).
Definition obl4 {T} (f : slice -> slice -> slice -> slice -> prog T unit) : Prop := forall a b c s, osim any2 (f a b c s) (f a b c s).

Section Naive.
Context {T F : Type} {N : Num T F}.
Ltac go := intros b s; apply o_validate; clear s; intros s; cbv zeta; ob.
Lemma Dct1Naive_obl d : obl (Dct1Naive_dct1 (T:=T) d). Proof. unfold Dct1Naive_dct1. go. Qed.
Lemma Dst1Naive_obl d : obl (Dst1Naive_dst1 (T:=T) d). Proof. unfold Dst1Naive_dst1. go. Qed.
Lemma Dct5Naive_obl d : obl (Dct5Naive_dct5 (T:=T) d). Proof. unfold Dct5Naive_dct5. go. Qed.
Lemma Dst5Naive_obl d : obl (Dst5Naive_dst5 (T:=T) d). Proof. unfold Dst5Naive_dst5. go. Qed.
Lemma Dct8Naive_obl d : obl (Dct8Naive_dct8 (T:=T) d). Proof. unfold Dct8Naive_dct8. go. Qed.
Lemma Dst8Naive_obl d : obl (Dst8Naive_dst8 (T:=T) d). Proof. unfold Dst8Naive_dst8. go. Qed.
Lemma Dct6Naive_obl d : obl (Dct6And7Naive_dct6 (T:=T) d). Proof. unfold Dct6And7Naive_dct6. go. Qed.
Lemma Dct7Naive_obl d : obl (Dct6And7Naive_dct7 (T:=T) d). Proof. unfold Dct6And7Naive_dct7. go. Qed.
Lemma Dst6Naive_obl d : obl (Dst6And7Naive_dst6 (T:=T) d). Proof. unfold Dst6And7Naive_dst6. go. Qed.
Lemma Dst7Naive_obl d : obl (Dst6And7Naive_dst7 (T:=T) d). Proof. unfold Dst6And7Naive_dst7. go. Qed.
Lemma Dct2Naive_obl d : obl (Type2And3Naive_dct2 (T:=T) d). Proof. unfold Type2And3Naive_dct2. go. Qed.
Lemma Dst2Naive_obl d : obl (Type2And3Naive_dst2 (T:=T) d). Proof. unfold Type2And3Naive_dst2. go. Qed.
Lemma Dct3Naive_obl d : obl (Type2And3Naive_dct3 (T:=T) d). Proof. unfold Type2And3Naive_dct3. go. Qed.
Lemma Dst3Naive_obl d : obl (Type2And3Naive_dst3 (T:=T) d). Proof. unfold Type2And3Naive_dst3. go. Qed.
Lemma Dct4Naive_obl d : obl (Type4Naive_dct4 (T:=T) d). Proof. unfold Type4Naive_dct4. go. Qed.
Lemma Dst4Naive_obl d : obl (Type4Naive_dst4 (T:=T) d). Proof. unfold Type4Naive_dst4. go. Qed.
End Naive.

Section Fft.
Context {T F : Type} {N : Num T F}.
Ltac go := intros b s; apply o_validate; clear s; intros s; cbv zeta; ob.
Lemma Dct1Fft_obl d : obl (Dct1ConvertToFft_dct1 (T:=T) d). Proof. unfold Dct1ConvertToFft_dct1. go. Qed.
Lemma Dst1Fft_obl d : obl (Dst1ConvertToFft_dst1 (T:=T) d). Proof. unfold Dst1ConvertToFft_dst1. go. Qed.
Lemma Dct2Fft_obl d : obl (Type2And3ConvertToFft_dct2 (T:=T) d). Proof. unfold Type2And3ConvertToFft_dct2. go. Qed.
Lemma Dst2Fft_obl d : obl (Type2And3ConvertToFft_dst2 (T:=T) d). Proof. unfold Type2And3ConvertToFft_dst2. go. Qed.
Lemma Dct3Fft_obl d : obl (Type2And3ConvertToFft_dct3 (T:=T) d). Proof. unfold Type2And3ConvertToFft_dct3. go. Qed.
Lemma Dst3Fft_obl d : obl (Type2And3ConvertToFft_dst3 (T:=T) d). Proof. unfold Type2And3ConvertToFft_dst3. go. Qed.
Lemma Dct4Fft_obl d : obl (Type4ConvertToFftOdd_dct4 (T:=T) d). Proof. unfold Type4ConvertToFftOdd_dct4. go. Qed.
Lemma Dst4Fft_obl d : obl (Type4ConvertToFftOdd_dst4 (T:=T) d). Proof. unfold Type4ConvertToFftOdd_dst4. go. Qed.
Lemma Dst6Fft_obl d : obl (Dst6And7ConvertToFft_dst6 (T:=T) d). Proof. unfold Dst6And7ConvertToFft_dst6. go. Qed.
Lemma Dst7Fft_obl d : obl (Dst6And7ConvertToFft_dst7 (T:=T) d). Proof. unfold Dst6And7ConvertToFft_dst7. go. Qed.
End Fft.

Section SplitRadix.
Context {T F : Type} {N : Num T F}.
Definition obl23 (o : t23 T) : Prop := obl (t_dct2 o) /\ obl (t_dct3 o) /\ obl (t_dst2 o) /\ obl (t_dst3 o).
Definition obl_4 (o : t4 T) : Prop := obl (t_dct4 o) /\ obl (t_dst4 o).
Ltac oprim_more ::= match goal with H : obl ?f |- osim _ (?f _ _) (?f _ _) => apply H end.
Ltac go := intros b s; apply o_validate; clear s; intros s; cbv zeta; ob.
Lemma Dct2Split_obl d : obl (t_dct2 (sr_half d)) -> obl (t_dct2 (sr_quarter d)) -> obl (Type2And3SplitRadix_dct2 (T:=T) d).
Proof. intros Hh Hq. unfold Type2And3SplitRadix_dct2. go. Qed.
Lemma Dct3Split_obl d : obl (t_dct3 (sr_half d)) -> obl (t_dct3 (sr_quarter d)) -> obl (Type2And3SplitRadix_dct3 (T:=T) d).
Proof. intros Hh Hq. unfold Type2And3SplitRadix_dct3. go. Qed.
Lemma Dst2Split_obl d : obl (Type2And3SplitRadix_dct2 (T:=T) d) -> obl (Type2And3SplitRadix_dst2 d).
Proof. intros H b s. unfold Type2And3SplitRadix_dst2. ob. Qed.
Lemma Dst3Split_obl d : obl (Type2And3SplitRadix_dct3 (T:=T) d) -> obl (Type2And3SplitRadix_dst3 d).
Proof. intros H b s. unfold Type2And3SplitRadix_dst3. ob. Qed.
Lemma Dct4Even_obl d : obl (t_dct3 (t4e_inner d)) -> obl (t_dst3 (t4e_inner d)) -> obl (Type4ConvertToType3Even_dct4 (T:=T) d).
Proof. intros Hh Hq. unfold Type4ConvertToType3Even_dct4. go. Qed.
Lemma Dst4Even_obl d : obl (t_dct3 (t4e_inner d)) -> obl (t_dst3 (t4e_inner d)) -> obl (Type4ConvertToType3Even_dst4 (T:=T) d).
Proof. intros Hh Hq. unfold Type4ConvertToType3Even_dst4. go. Qed.
Ltac gom := intros a b c s; apply o_validate_mdct; clear s; intros s; cbv zeta; unfold mn_advance; ob.
Lemma MdctNaive_obl d : obl4 (MdctNaive_mdct (T:=T) d). Proof. unfold MdctNaive_mdct. gom. Qed.
Lemma ImdctNaive_obl d : obl4 (MdctNaive_imdct (T:=T) d). Proof. unfold MdctNaive_imdct. gom. Qed.
Lemma MdctDct4_obl d : obl (t_dct4 (md_dct d)) -> obl4 (MdctViaDct4_mdct (T:=T) d). Proof. intros H. unfold MdctViaDct4_mdct. gom. Qed.
Lemma ImdctDct4_obl d : obl (t_dct4 (md_dct d)) -> obl4 (MdctViaDct4_imdct (T:=T) d). Proof. intros H. unfold MdctViaDct4_imdct. gom. Qed.
End SplitRadix.

Section Butterflies.
Context {T F : Type} {N : Num T F}.
Definition oblI (f : slice -> prog T unit) : Prop := forall b, osim any2 (f b) (f b).
Ltac oprim_more ::= apply o_local; [assumption || eauto with obl|reflexivity].
Ltac cb := intros b; unfold rd_add, rd_sub, rd_nadd, rd_nsub, Butterfly2_scattered_dct2, Butterfly2_scattered_dct3; ob.
Lemma ob2_dct2 : oblI Butterfly2_inplace_dct2. Proof. unfold Butterfly2_inplace_dct2. cb. Qed.
Lemma ob2_dct3 : oblI Butterfly2_inplace_dct3. Proof. unfold Butterfly2_inplace_dct3. cb. Qed.
Lemma ob2_dst2 : oblI Butterfly2_inplace_dst2. Proof. unfold Butterfly2_inplace_dst2. cb. Qed.
Lemma ob2_dst3 : oblI Butterfly2_inplace_dst3. Proof. unfold Butterfly2_inplace_dst3. cb. Qed.
Lemma ob3_dct2 t : oblI (Butterfly3_inplace_dct2 t). Proof. unfold Butterfly3_inplace_dct2. cb. Qed.
Lemma ob3_dct3 t : oblI (Butterfly3_inplace_dct3 t). Proof. unfold Butterfly3_inplace_dct3. cb. Qed.
Lemma ob3_dst2 t : oblI (Butterfly3_inplace_dst2 t). Proof. unfold Butterfly3_inplace_dst2. cb. Qed.
Lemma ob3_dst3 t : oblI (Butterfly3_inplace_dst3 t). Proof. unfold Butterfly3_inplace_dst3. cb. Qed.
Lemma ob4_dct2 t : oblI (Butterfly4_inplace_dct2 t). Proof. unfold Butterfly4_inplace_dct2. cb. Qed.
Lemma ob4_dct3 t : oblI (Butterfly4_inplace_dct3 t). Proof. unfold Butterfly4_inplace_dct3. cb. Qed.
Lemma ob4_dst2 t : oblI (Butterfly4_inplace_dst2 t). Proof. unfold Butterfly4_inplace_dst2. cb. Qed.
Lemma ob4_dst3 t : oblI (Butterfly4_inplace_dst3 t). Proof. unfold Butterfly4_inplace_dst3. cb. Qed.
Ltac oprim_more ::= apply o_local; [first [apply ob2_dct2 | apply ob2_dct3 | apply ob2_dst2 | apply ob2_dst3 | apply ob4_dct2 | apply ob4_dct3 | apply ob4_dst2 | apply ob4_dst3]|reflexivity].
Lemma ob8_dct2 t : oblI (Butterfly8_inplace_dct2 t). Proof. unfold Butterfly8_inplace_dct2. cb. Qed.
Lemma ob8_dct3 t : oblI (Butterfly8_inplace_dct3 t). Proof. unfold Butterfly8_inplace_dct3. cb. Qed.
Lemma ob8_dst2 t : oblI (Butterfly8_inplace_dst2 t). Proof. unfold Butterfly8_inplace_dst2. cb. Qed.
Lemma ob8_dst3 t : oblI (Butterfly8_inplace_dst3 t). Proof. unfold Butterfly8_inplace_dst3. cb. Qed.
Ltac oprim_more ::= apply o_local; [first [apply ob4_dct2 | apply ob4_dct3 | apply ob4_dst2 | apply ob4_dst3 | apply ob8_dct2 | apply ob8_dct3]|reflexivity].
Lemma ob16_dct2 t : oblI (Butterfly16_inplace_dct2 t). Proof. unfold Butterfly16_inplace_dct2. cb. Qed.
Lemma ob16_dct3 t : oblI (Butterfly16_inplace_dct3 t). Proof. unfold Butterfly16_inplace_dct3. cb. Qed.
Lemma ob16_dst2 t : oblI (Butterfly16_inplace_dst2 t). Proof. unfold Butterfly16_inplace_dst2. cb. Qed.
Lemma ob16_dst3 t : oblI (Butterfly16_inplace_dst3 t). Proof. unfold Butterfly16_inplace_dst3. cb. Qed.
Lemma obl_b2 : obl23 Type2And3Butterfly2_obj.
Proof.
  repeat split; intros b s; cbn [t_dct2 t_dct3 t_dst2 t_dst3 Type2And3Butterfly2_obj];
    [unfold Butterfly2_dct2|unfold Butterfly2_dct3|unfold Butterfly2_dst2|unfold Butterfly2_dst3];
    apply o_validate_buffer; ob.
Qed.
Lemma obl_butterfly n c2 c3 s2 s3 : oblI c2 -> oblI c3 -> oblI s2 -> oblI s3 -> obl23 (butterfly_obj n c2 c3 s2 s3).
Proof.
  intros A B C D. repeat split; intros b s; cbn [t_dct2 t_dct3 t_dst2 t_dst3 butterfly_obj]; apply o_validate_buffer; auto.
Qed.
Lemma obl_b3 t : obl23 (Type2And3Butterfly3_obj t).
Proof. apply obl_butterfly; [apply ob3_dct2|apply ob3_dct3|apply ob3_dst2|apply ob3_dst3]. Qed.
Lemma obl_b4 t : obl23 (Type2And3Butterfly4_obj t).
Proof. apply obl_butterfly; [apply ob4_dct2|apply ob4_dct3|apply ob4_dst2|apply ob4_dst3]. Qed.
Lemma obl_b8 t : obl23 (Type2And3Butterfly8_obj t).
Proof. apply obl_butterfly; [apply ob8_dct2|apply ob8_dct3|apply ob8_dst2|apply ob8_dst3]. Qed.
Lemma obl_b16 t : obl23 (Type2And3Butterfly16_obj t).
Proof. apply obl_butterfly; [apply ob16_dct2|apply ob16_dct3|apply ob16_dst2|apply ob16_dst3]. Qed.
End Butterflies.

Section Build.
Context {T F : Type} {N : Num T F}.
Variable usable : fft T -> Prop.
Variable joined : t23 T -> t23 T -> Prop.
Lemma built23_obl o : built23 usable joined o -> obl23 o.
Proof.
  induction 1 as [n| | | | | |f d Hf E|h q d Hh IHh Hq IHq Hj E].
  - repeat split; [apply Dct2Naive_obl|apply Dct3Naive_obl|apply Dst2Naive_obl|apply Dst3Naive_obl].
  - apply obl_b2.
  - apply obl_b3.
  - apply obl_b4.
  - apply obl_b8.
  - apply obl_b16.
  - repeat split; [apply Dct2Fft_obl|apply Dct3Fft_obl|apply Dst2Fft_obl|apply Dst3Fft_obl].
  - destruct IHh as (A2 & A3 & _), IHq as (B2 & B3 & _). apply Type2And3SplitRadix_new_inv in E. destruct E as (_ & _ & ->).
    assert (C2 : obl (Type2And3SplitRadix_dct2 (mkT23Split h q (map (fun i => c_conj (single_twiddle (2 * i + 1) (16 * t23_len q))) (seq 0 (t23_len q)))))).
    { apply Dct2Split_obl; [exact A2|exact B2]. }
    assert (C3 : obl (Type2And3SplitRadix_dct3 (mkT23Split h q (map (fun i => c_conj (single_twiddle (2 * i + 1) (16 * t23_len q))) (seq 0 (t23_len q)))))).
    { apply Dct3Split_obl; [exact A3|exact B3]. }
    split; [exact C2|]. split; [exact C3|]. split; [apply Dst2Split_obl, C2|apply Dst3Split_obl, C3].
Qed.
Lemma built4_obl o : built4 usable joined o -> obl_4 o.
Proof.
  destruct 1 as [n|f d Hf E|i Hi].
  - split; [apply Dct4Naive_obl|apply Dst4Naive_obl].
  - split; [apply Dct4Fft_obl|apply Dst4Fft_obl].
  - destruct (built23_obl i Hi) as (_ & A & _ & B). split; [apply Dct4Even_obl|apply Dst4Even_obl]; assumption.
Qed.
Lemma built_obl c f sl : built_method usable joined c f sl -> obl f.
Proof.
  destruct c as [n|n|n|n|n|n|n|n|n|n|n|n|n|n|n|n|n w]; cbn [built_method]; try contradiction; intros (o & Ho & _ & <- & _).
  - destruct Ho; [apply Dct1Naive_obl|apply Dct1Fft_obl].
  - apply (built23_obl o Ho).
  - apply (built23_obl o Ho).
  - apply (built4_obl o Ho).
  - destruct Ho. apply Dct5Naive_obl.
  - destruct Ho. apply Dct6Naive_obl.
  - destruct Ho. apply Dct7Naive_obl.
  - destruct Ho. apply Dct8Naive_obl.
  - destruct Ho; [apply Dst1Naive_obl|apply Dst1Fft_obl].
  - apply (built23_obl o Ho).
  - apply (built23_obl o Ho).
  - apply (built4_obl o Ho).
  - destruct Ho. apply Dst5Naive_obl.
  - destruct Ho; [apply Dst6Naive_obl|apply Dst6Fft_obl].
  - destruct Ho; [apply Dst7Naive_obl|apply Dst7Fft_obl].
  - destruct Ho. apply Dst8Naive_obl.
Qed.
Lemma built_mdct_obl o : built_mdct usable joined o -> obl4 (t_mdct o) /\ obl4 (t_imdct o).
Proof.
  destruct 1 as [n w d E|i w d Hi E].
  - split; [apply MdctNaive_obl|apply ImdctNaive_obl].
  - assert (md_dct d = i) as <-.
    { revert E. unfold MdctViaDct4_new, rassert. destruct (_ =? 0); [|discriminate]. cbn [rbind].
      destruct (length _ =? _); [|discriminate]. cbn [rbind]. intros E. apply Ok_inj in E. subst d. reflexivity. }
    destruct (built4_obl _ Hi) as [A _]. split; [apply MdctDct4_obl|apply ImdctDct4_obl]; exact A.
Qed.
End Build.

Section Jobs.
Context {T F : Type} {N : Num T F}.
Lemma job_oblivious j : built_job (T:=T) j -> oblivious (program j).
Proof.
  intros H m1 m2. apply (osim_trace any2). destruct j as [f b s|o a b out s|o x a b s]; cbn [built_job program] in * .
  - destruct H as (c & sl & H). apply (built_obl _ _ _ _ _ H).
  - apply (built_mdct_obl _ _ _ H).
  - apply (built_mdct_obl _ _ _ H).
Qed.
Lemma trace_ends {A} (p q : prog T A) m1 m2 : trace p m1 = trace q m2 ->
  match run p m1, run q m2 with
  | Done _ _, Done _ _ => True | Panicked e _, Panicked e' _ => e = e' | Undef, Undef => True | _, _ => False end.
Proof.
  revert q m1 m2. induction p as [a|x k IH|x v k IH|e|]; intros [b|y k'|y v' k'|e'|] m1 m2; cbn [trace run]; try discriminate; auto.
  - intros H. injection H as _ H. apply IH, H.
  - intros H. injection H as _ H. apply IH, H.
  - intros H. injection H as ->. reflexivity.
Qed.
Lemma job_ends_alike j : built_job (T:=T) j -> forall m1 m2,
  (forall e, (exists m, run (program j) m1 = Panicked e m) <-> (exists m, run (program j) m2 = Panicked e m)) /\
  ((exists m, run (program j) m1 = Done tt m) <-> (exists m, run (program j) m2 = Done tt m)).
Proof.
  intros H m1 m2. pose proof (trace_ends _ _ _ _ (job_oblivious j H m1 m2)) as K.
  destruct (run (program j) m1) as [[] x|e x|], (run (program j) m2) as [[] y|e' y|]; try contradiction; subst;
    (split; [intros e0|]; split; intros [m E]; first [discriminate E | injection E as E _; subst; eauto | eauto]).
Qed.
Lemma planned_oblivious pf : fft_fits pf -> forall cs c f sl, planned_method c (after pf cs) = Some (f, sl) ->
  forall b s, oblivious (f b s).
Proof.
  intros Hpf cs c f sl H b s m1 m2. apply (osim_trace any2). apply (built_obl _ _ _ _ _ (planned_built pf Hpf c cs f sl H)).
Qed.
Lemma planned_mdct_oblivious pf : fft_fits pf -> forall cs n w a, snd (plan_mdct n w (after pf cs)) = Ok a ->
  forall x y z s, oblivious (t_mdct (arc_val a) x y z s) /\ oblivious (t_imdct (arc_val a) x y z s).
Proof.
  intros Hpf cs n w a H x y z s. destruct (planned_mdct_built pf Hpf n w cs a H) as [B _].
  destruct (built_mdct_obl _ _ _ B) as [P Q]. split; intros m1 m2; apply (osim_trace any2); [apply P|apply Q].
Qed.
End Jobs.
