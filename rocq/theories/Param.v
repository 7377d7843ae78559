(** Programs over two sample types: every method of the crate respects relations between them. *)
From Coq Require Import List Arith Lia Bool.
From Verif Require Import Prog Num Model_Common Model_Naive Model_Fft Model_Butterflies Model_SplitRadix
  Model_Mdct Model_Plan Model_Api Spec_Param.
Import ListNotations.
Open Scope nat_scope.

Section Sim.
Context {T T' : Type}.
Variable D : T -> T' -> Prop.

Fixpoint psim {A B} (R : A -> B -> Prop) (p : prog T A) (q : prog T' B) {struct p} : Prop :=
  match p, q with
  | Ret a, Ret b => R a b
  | Rd x k, Rd y k' => x = y /\ forall v v', D v v' -> psim R (k v) (k' v')
  | Wr x v k, Wr y v' k' => x = y /\ D v v' /\ psim R k k'
  | Panic e, Panic e' => e = e'
  | UB, UB => True
  | _, _ => False
  end.
Definition anyr {A B} : A -> B -> Prop := fun _ _ => True.

Lemma psim_run {A B} (R : A -> B -> Prop) (p : prog T A) (q : prog T' B) : psim R p q -> forall m m', (forall a, D (m a) (m' a)) ->
  match run p m, run q m' with
  | Done a x, Done b y => R a b /\ forall a, D (x a) (y a)
  | Panicked e x, Panicked e' y => e = e' /\ forall a, D (x a) (y a)
  | Undef, Undef => True
  | _, _ => False
  end.
Proof.
  revert q. induction p as [a|x k IH|x v k IH|e|]; intros [b|y k'|y v' k'|e'|] H m m' Hm; cbn [psim run] in * ; try contradiction; auto.
  - destruct H as [-> H]. apply IH; auto.
  - destruct H as (-> & Hv & H). apply IH; [exact H|]. intros a. unfold upd. destruct (a =? y); auto.
Qed.
Lemma psim_runs (R : unit -> unit -> Prop) p q : psim R p q -> runs_alike D p q.
Proof.
  intros H m m' Hm. pose proof (psim_run R p q H m m' Hm) as K. destruct (run p m), (run q m'); try exact K. apply K.
Qed.
Lemma psim_conseq {A B} (R R' : A -> B -> Prop) p q : psim R p q -> (forall a b, R a b -> R' a b) -> psim R' p q.
Proof.
  revert q. induction p as [a|x k IH|x v k IH|e|]; intros [b|y k'|y v' k'|e'|] H HR; cbn [psim] in * ; try contradiction; auto.
  - destruct H as [-> H]. split; [reflexivity|]. intros v v' Hv. apply IH; auto.
  - destruct H as (-> & Hv & H). split; [reflexivity|]. split; [exact Hv|]. apply IH; auto.
Qed.
Lemma psim_bind {A B A' B'} (R : A -> B -> Prop) (S : A' -> B' -> Prop) p q f g :
  psim R p q -> (forall a b, R a b -> psim S (f a) (g b)) -> psim S (bind p f) (bind q g).
Proof.
  revert q. induction p as [a|x k IH|x v k IH|e|]; intros [b|y k'|y v' k'|e'|] H HR; cbn [psim bind] in * ; try contradiction; auto.
  - destruct H as [-> H]. split; [reflexivity|]. intros v v' Hv. apply IH; auto.
  - destruct H as (-> & Hv & H). split; [reflexivity|]. split; [exact Hv|]. apply IH; auto.
Qed.
Lemma p_rd s i : psim D (rd s i) (rd s i). Proof. unfold rd. destruct (_ <? _); cbn; auto. Qed.
Lemma p_rdu s i : psim D (rdu s i) (rdu s i). Proof. unfold rdu. destruct (_ <? _); cbn; auto. Qed.
Lemma p_wr s i v v' : D v v' -> psim anyr (wr s i v) (wr s i v'). Proof. unfold wr. destruct (_ <? _); cbn; unfold anyr; auto. Qed.
Lemma p_wru s i v v' : D v v' -> psim anyr (wru s i v) (wru s i v'). Proof. unfold wru. destruct (_ <? _); cbn; unfold anyr; auto. Qed.
Lemma p_deref c : psim D (deref c) (deref c). Proof. apply p_rd. Qed.
Lemma p_assign c v v' : D v v' -> psim anyr (assign c v) (assign c v'). Proof. apply p_wr. Qed.
Lemma p_get_mut s i : psim eq (get_mut_unwrap s i) (get_mut_unwrap s i). Proof. unfold get_mut_unwrap. destruct (_ <? _); reflexivity. Qed.
Lemma p_usub a b : psim eq (usub a b) (usub a b). Proof. unfold usub. destruct (_ <=? _); reflexivity. Qed.
Lemma p_umod a b : psim eq (umod a b) (umod a b). Proof. unfold umod. destruct (_ =? _); reflexivity. Qed.
Lemma Forall2_nth_error {X Y} (R : X -> Y -> Prop) l l' i : Forall2 R l l' ->
  match nth_error l i, nth_error l' i with Some a, Some b => R a b | None, None => True | _, _ => False end.
Proof. intros H. revert i. induction H; intros [|i]; cbn; auto. apply IHForall2. Qed.
Lemma p_idx {X Y} (R : X -> Y -> Prop) l l' i : Forall2 R l l' -> psim R (idx l i) (idx l' i).
Proof. intros H. unfold idx. pose proof (Forall2_nth_error R l l' i H). destruct (nth_error l i), (nth_error l' i); cbn; auto. Qed.
Lemma p_idxu {X Y} (R : X -> Y -> Prop) l l' i : Forall2 R l l' -> psim R (idxu l i) (idxu l' i).
Proof. intros H. unfold idxu. pose proof (Forall2_nth_error R l l' i H). destruct (nth_error l i), (nth_error l' i); cbn; auto. Qed.
Lemma p_split s n : psim eq (split_at_mut s n) (split_at_mut s n). Proof. unfold split_at_mut. destruct (_ <=? _); reflexivity. Qed.
Lemma p_csplit s n : psim eq (csplit_at_mut s n) (csplit_at_mut s n). Proof. unfold csplit_at_mut. destruct (_ <=? _); reflexivity. Qed.
Lemma p_slice_from s n : psim eq (slice_from s n) (slice_from s n). Proof. unfold slice_from. destruct (_ <=? _); reflexivity. Qed.
Lemma p_slice_to s n : psim eq (slice_to s n) (slice_to s n). Proof. unfold slice_to. destruct (_ <=? _); reflexivity. Qed.
Lemma p_cslice_from s n : psim eq (cslice_from s n) (cslice_from s n). Proof. unfold cslice_from. destruct (_ <=? _); reflexivity. Qed.
Lemma p_cslice_to s n : psim eq (cslice_to s n) (cslice_to s n). Proof. unfold cslice_to. destruct (_ <=? _); reflexivity. Qed.
Lemma Forall2_skipn {X Y} (R : X -> Y -> Prop) l l' n : Forall2 R l l' -> Forall2 R (skipn n l) (skipn n l').
Proof. intros H. revert n. induction H; intros [|n]; cbn [skipn]; auto. Qed.
Lemma Forall2_len {X Y} (R : X -> Y -> Prop) l l' : Forall2 R l l' -> length l = length l'.
Proof. induction 1; cbn; congruence. Qed.
Lemma p_list_from {X Y} (R : X -> Y -> Prop) l l' n : Forall2 R l l' -> psim (Forall2 R) (list_from l n) (list_from l' n).
Proof. intros H. unfold list_from. rewrite (Forall2_len _ _ _ H). destruct (_ <=? _); cbn; [apply Forall2_skipn, H|reflexivity]. Qed.
Lemma p_crd_re s i : psim D (crd_re s i) (crd_re s i). Proof. unfold crd_re. destruct (_ <? _); cbn; auto. Qed.
Lemma p_crd_im s i : psim D (crd_im s i) (crd_im s i). Proof. unfold crd_im. destruct (_ <? _); cbn; auto. Qed.
Lemma p_crd s i : psim (both D) (crd s i) (crd s i).
Proof. eapply psim_bind; [apply p_crd_re|]. intros a b H. eapply psim_bind; [apply p_crd_im|]. intros c d K. split; assumption. Qed.
Lemma p_cwr_im s i v v' : D v v' -> psim anyr (cwr_im s i v) (cwr_im s i v'). Proof. unfold cwr_im. destruct (_ <? _); cbn; unfold anyr; auto. Qed.
Lemma p_cwr s i v v' : both D v v' -> psim anyr (cwr s i v) (cwr s i v'). Proof. intros [A B]. unfold cwr. destruct (_ <? _); cbn; unfold anyr; auto. Qed.
Lemma p_for a b (f : nat -> prog T unit) g : (forall i, psim anyr (f i) (g i)) -> psim anyr (for_range a b f) (for_range a b g).
Proof.
  intros H. unfold for_range. generalize (b - a). intros n. revert a. induction n as [|n IH]; intros a; [exact I|].
  cbn [for_n]. eapply psim_bind; [apply H|]. intros _ _ _. apply IH.
Qed.
Lemma p_fold {X Y} (R : X -> Y -> Prop) a b x x' (f : nat -> X -> prog T X) g : R x x' ->
  (forall i y y', R y y' -> psim R (f i y) (g i y')) -> psim R (fold_range a b x f) (fold_range a b x' g).
Proof.
  intros Hx H. unfold fold_range. generalize (b - a). intros n. revert a x x' Hx.
  induction n as [|n IH]; intros a x x' Hx; [exact Hx|]. cbn [fold_n]. eapply psim_bind; [apply H, Hx|]. intros y y' Hy. apply IH, Hy.
Qed.
Lemma p_while {X} fuel cond (x : X) (f : X -> prog T X) g : (forall y, psim eq (f y) (g y)) -> psim eq (while_ fuel cond f x) (while_ fuel cond g x).
Proof.
  intros H. revert x. induction fuel as [|n IH]; intros x; [reflexivity|]. cbn [while_]. destruct (cond x); [|reflexivity].
  eapply psim_bind; [apply H|]. intros y y' <-. apply IH.
Qed.
Lemma p_copy d s : psim anyr (copy_from_slice d s) (copy_from_slice d s).
Proof.
  unfold copy_from_slice. destruct (_ =? _); [|reflexivity]. apply p_for. intros i. eapply psim_bind; [apply p_rd|]. intros a b H. apply p_wr, H.
Qed.
Lemma p_reverse s : psim anyr (reverse s) (reverse s).
Proof.
  apply p_for. intros i. eapply psim_bind; [apply p_rd|]. intros a a' Ha. eapply psim_bind; [apply p_rd|]. intros b b' Hb.
  eapply psim_bind; [apply p_wr, Hb|]. intros _ _ _. apply p_wr, Ha.
Qed.
Lemma Forall2_nth {X Y} (R : X -> Y -> Prop) l l' d d' i : Forall2 R l l' -> R d d' -> R (nth i l d) (nth i l' d').
Proof. intros H K. revert i. induction H; intros [|i]; cbn; auto. Qed.
Lemma Forall2_map_seq {X Y} (R : X -> Y -> Prop) f g a n : (forall i, R (f i) (g i)) -> Forall2 R (map f (seq a n)) (map g (seq a n)).
Proof. intros H. revert a. induction n as [|n IH]; intros a; cbn; constructor; auto. Qed.
Lemma mem_of_alike d d' l l' : D d d' -> Forall2 D l l' -> forall a, D (mem_of d l a) (mem_of d' l' a).
Proof. intros. unfold mem_of. apply Forall2_nth; assumption. Qed.
Lemma vals_alike m m' s : (forall a, D (m a) (m' a)) -> Forall2 D (vals m s) (vals m' s).
Proof. intros H. unfold vals. apply Forall2_map_seq. intros i. apply H. Qed.
Lemma p_local d d' l l' f g : (forall b, psim anyr (f b) (g b)) -> D d d' -> Forall2 D l l' -> psim (Forall2 D) (local_call d l f) (local_call d' l' g).
Proof.
  intros H Hd Hl. unfold local_call. rewrite (Forall2_len _ _ _ Hl).
  pose proof (psim_run anyr _ _ (H (mkS 0 (length l'))) (mem_of d l) (mem_of d' l') (mem_of_alike _ _ _ _ Hd Hl)) as K.
  destruct (run _ (mem_of d l)), (run _ (mem_of d' l')); cbn [psim]; try contradiction; [|apply K|exact I]. apply vals_alike, K.
Qed.
Lemma p_cread_all s : psim (Forall2 (both D)) (cread_all s) (cread_all s).
Proof.
  unfold cread_all. apply p_fold; [constructor|]. intros i y y' H. eapply psim_bind; [apply p_crd|]. intros a b K. cbn. apply Forall2_app; auto.
Qed.
Lemma p_cwrite_all d d' s l l' : both D d d' -> Forall2 (both D) l l' -> psim anyr (cwrite_all d s l) (cwrite_all d' s l').
Proof. intros Hd Hl. unfold cwrite_all. apply p_for. intros i. apply p_cwr, Forall2_nth; assumption. Qed.
End Sim.

Section Methods.
Context {T T' F F' : Type} {N : Num T F} {N' : Num T' F'}.
Variables (D C : T -> T' -> Prop) (V : F -> F' -> Prop).
Hypothesis K : compatible D C V.

Lemma C_half : C half half. Proof. apply (k_from _ _ _ K), K. Qed.
Lemma C_two : C two two. Proof. apply (k_from _ _ _ K), K. Qed.

Lemma p_fft f g b s : fft_alike D f g -> psim D anyr (fft_process f b s) (fft_process g b s).
Proof.
  intros (L & _ & S & H). unfold fft_process. rewrite L, S. destruct (_ || _); [reflexivity|].
  eapply psim_bind; [apply p_cread_all|]. intros xs xs' Hx. eapply psim_bind; [apply p_cread_all|]. intros ss ss' Hs. cbv zeta.
  destruct (H _ _ _ _ Hx Hs) as [A B].
  assert (Z : both D (zero, zero) (zero, zero)) by (split; apply (k_zero _ _ _ K)).
  eapply psim_bind; [apply p_cwrite_all; [exact Z|exact A]|]. intros _ _ _. apply p_cwrite_all; [exact Z|exact B].
Qed.
Lemma p_dct_error a b c d : psim D anyr (dct_error_inplace (T:=T) a b c d) (dct_error_inplace (T:=T') a b c d).
Proof. unfold dct_error_inplace. destruct (a =? c); [destruct (d <=? b)|]; cbn; unfold anyr; auto. Qed.
Lemma p_mdct_error a b c d e f : psim D anyr (mdct_error_inplace (T:=T) a b c d e f) (mdct_error_inplace (T:=T') a b c d e f).
Proof. unfold mdct_error_inplace. destruct (a =? e); [destruct (b =? e); [destruct (c =? e); [destruct (f <=? d)|]|]|]; cbn; unfold anyr; auto. Qed.
Lemma p_validate_buffer b n k k' : psim D anyr k k' -> psim D anyr (validate_buffer b n k) (validate_buffer b n k').
Proof. intros H. unfold validate_buffer. destruct (negb _); [|exact H]. eapply psim_bind; [apply p_dct_error|]. intros; exact I. Qed.
Lemma p_validate b s n n' sl sl' k k' : n = n' -> sl = sl' -> (forall s, psim D anyr (k s) (k' s)) ->
  psim D anyr (validate_buffers b s n sl k) (validate_buffers b s n' sl' k').
Proof.
  intros <- <- H. unfold validate_buffers. destruct (negb _); [eapply psim_bind; [apply p_dct_error|]; intros; exact I|].
  destruct (get_range _ _); [apply H|]. eapply psim_bind; [apply p_dct_error|]; intros; exact I.
Qed.
Lemma p_validate_mdct a b c s n n' sl sl' k k' : n = n' -> sl = sl' -> (forall s, psim D anyr (k s) (k' s)) ->
  psim D anyr (validate_buffers_mdct a b c s n sl k) (validate_buffers_mdct a b c s n' sl' k').
Proof.
  intros <- <- H. unfold validate_buffers_mdct. destruct (_ || _); [eapply psim_bind; [apply p_mdct_error|]; intros; exact I|].
  destruct (get_range _ _); [apply H|]. eapply psim_bind; [apply p_mdct_error|]; intros; exact I.
Qed.

(** Values. *)
Lemma vc_fst x y : both C x y -> C (fst x) (fst y). Proof. intros H. apply H. Qed.
Lemma vc_snd x y : both C x y -> C (snd x) (snd y). Proof. intros H. apply H. Qed.
Ltac vc := lazymatch goal with
  | |- C half half => apply C_half
  | |- C two two => apply C_two
  | |- C one one => apply (k_one _ _ _ K)
  | |- C zero zero => apply (k_zero_c _ _ _ K)
  | |- C sqrt_2 sqrt_2 => apply (k_sqrt_2 _ _ _ K)
  | |- C frac_1_sqrt_2 frac_1_sqrt_2 => apply (k_frac _ _ _ K)
  | |- C (neg _) (neg _) => apply (k_neg_c _ _ _ K); vc
  | |- C (mul _ _) (mul _ _) => apply (k_mul_c _ _ _ K); vc
  | |- C (if ?b then _ else _) _ => destruct b; vc
  | |- C (fst (nth _ _ _)) _ => apply vc_fst; vcc
  | |- C (snd (nth _ _ _)) _ => apply vc_snd; vcc
  | |- C _ _ => first [eassumption | match goal with H : both C ?x _ |- C (_ ?x) _ => apply H end]
  end
with vcc := lazymatch goal with |- both C (nth _ _ _) _ => apply Forall2_nth; [eassumption|split; cbn [fst snd]; vc] end.
Ltac vd := lazymatch goal with
  | |- D zero zero => apply (k_zero _ _ _ K)
  | |- D (add _ _) (add _ _) => apply (k_add _ _ _ K); vd
  | |- D (sub _ _) (sub _ _) => apply (k_sub _ _ _ K); vd
  | |- D (neg _) (neg _) => apply (k_neg _ _ _ K); vd
  | |- D (mul _ _) (mul _ _) => first [apply (k_mul _ _ _ K); [vd|vc] | apply (k_mul' _ _ _ K); [vc|vd]]
  | |- D (if ?b then _ else _) _ => destruct b; vd
  | |- D (nth _ _ _) _ => apply Forall2_nth; [vdl|vd]
  | |- D _ _ => first [eassumption | match goal with H : both D ?x _ |- D (_ ?x) _ => apply H end]
  end
with vdl := first [eassumption | repeat first [apply Forall2_nil | apply Forall2_cons; [vd|]]].
Ltac vb := unfold c_from, c_conj, c_neg, c_mul, c_scale; cbn [fst snd];
  lazymatch goal with
  | |- both D (_, _) (_, _) => split; cbn [fst snd]; vd
  | |- both D _ _ => first [eassumption | split; cbn [fst snd]; vd]
  | |- D _ _ => vd
  end.

(** Programs. *)
Definition dn (x : T * nat) (y : T' * nat) : Prop := D (fst x) (fst y) /\ snd x = snd y.
Ltac ptidy := unfold anyr, dn in * ; cbv beta in * ; cbn [fst snd] in * ;
  repeat match goal with H : _ /\ _ |- _ => destruct H | H : True |- _ => clear H | H : ?x = ?y |- _ => is_var x; is_var y; subst y end;
  repeat match goal with H : Forall2 _ ?l ?l' |- _ => progress rewrite (Forall2_len _ _ _ H) end.
Ltac pprim_more := fail.
Ltac pprim := first
  [ pprim_more | apply p_rd | apply p_wr; vb | apply p_usub | apply p_umod | eapply p_idx; eassumption | apply p_get_mut | apply p_deref | apply p_assign; vb
  | apply p_rdu | apply p_wru; vb | eapply p_idxu; eassumption | apply p_split | apply p_csplit | apply p_slice_from | apply p_slice_to
  | apply p_cslice_from | apply p_cslice_to | eapply p_list_from; eassumption | apply p_crd_re | apply p_crd_im | apply p_crd | apply p_cwr; vb | apply p_cwr_im; vb
  | apply p_copy | apply p_reverse | apply p_fft; eassumption ].
Ltac pbv := let a := fresh "x" in let b := fresh "y" in let H := fresh "H" in intros a b H.
Ltac pb := lazymatch goal with
  | |- psim _ _ (let x := _ in _) _ => cbv zeta; pb
  | |- psim _ _ (bind _ _) _ => eapply psim_bind; [pbp|pbv; ptidy; pb]
  | |- psim _ anyr (Ret _) _ => exact I
  | |- psim _ (fun _ _ => True) (Ret _) _ => exact I
  | |- psim _ eq (Ret _) _ => reflexivity
  | |- psim _ _ (Ret _) _ => cbn [psim fst snd]; first [vb | vc | split; cbn [fst snd]; [vd|reflexivity]]
  | |- psim _ _ (Panic _) _ => reflexivity
  | |- psim _ _ (if ?b then _ else _) _ => destruct b; pb
  | |- psim _ _ (match ?z with (_, _) => _ end) (match ?z' with (_, _) => _ end) => first [is_var z; destruct z | idtac]; first [is_var z'; destruct z' | idtac]; ptidy; pb
  | |- psim _ _ (for_range _ _ _) _ => apply p_for; intros; pb
  | |- psim _ _ (fold_range _ _ _ _) _ => pbf
  | |- psim _ _ (while_ _ _ _ _) _ => apply p_while; intros; pb
  | |- _ => first [pprim | eapply psim_conseq; [pprim|intros; exact I]]
  end
with pbf := lazymatch goal with
  | |- psim _ _ (@fold_range _ nat _ _ _ _) _ => first [apply (p_fold _ eq); [reflexivity|intros; ptidy; pb] | eapply psim_conseq; [apply (p_fold _ eq); [reflexivity|intros; ptidy; pb]|intros; exact I]]
  | |- psim _ _ (@fold_range _ (_ * nat) _ _ _ _) _ => apply (p_fold _ dn); [split; cbn [fst snd]; [vd|reflexivity]|intros; ptidy; pb]
  | |- psim _ _ (@fold_range _ _ _ _ one _) _ => apply (p_fold _ C); [vc|intros; ptidy; pb]
  | |- psim _ _ (@fold_range _ _ _ _ _ _) _ => apply (p_fold _ D); [vd|intros; ptidy; pb]
  end
with pbp := lazymatch goal with
  | |- psim _ _ (bind _ _) _ => first [instantiate (1 := D); solve [pb] | instantiate (1 := anyr); pb]
  | |- psim _ _ (if _ then _ else _) _ => first [instantiate (1 := eq); solve [pb] | instantiate (1 := D); solve [pb] | instantiate (1 := anyr); pb]
  | |- psim _ _ (for_range _ _ _) _ => pb
  | |- psim _ _ (fold_range _ _ _ _) _ => pbf
  | |- psim _ _ (while_ _ _ _ _) _ => pb
  | |- psim _ _ (Ret _) _ => instantiate (1 := eq); reflexivity
  | |- _ => pprim
  end.

Definition sims (f : meth T) (g : meth T') : Prop := forall b s, psim D anyr (f b s) (g b s).
Definition sims4 (f : slice -> slice -> slice -> slice -> prog T unit) (g : slice -> slice -> slice -> slice -> prog T' unit) : Prop :=
  forall a b c s, psim D anyr (f a b c s) (g a b c s).

Ltac lens := repeat match goal with H : Forall2 _ ?l ?l' |- _ => progress rewrite (Forall2_len _ _ _ H) end.
Ltac go := intros ? b s; lens; apply p_validate; [reflexivity|reflexivity|]; clear s; intros s; cbv zeta; pb.
Lemma Dct1Naive_dct1_sims d d' : Forall2 C (dct1n_tw d) (dct1n_tw d') -> sims (Dct1Naive_dct1 d) (Dct1Naive_dct1 d').
Proof. unfold sims, Dct1Naive_dct1, Dct1Naive_scratch, Dct1Naive_len. go. Qed.
Lemma Dst1Naive_dst1_sims d d' : Forall2 C (dst1n_tw d) (dst1n_tw d') -> sims (Dst1Naive_dst1 d) (Dst1Naive_dst1 d').
Proof. unfold sims, Dst1Naive_dst1, Dst1Naive_scratch, Dst1Naive_len. go. Qed.
Lemma Type2And3Naive_dct2_sims d d' : Forall2 (both C) (t23n_tw d) (t23n_tw d') -> sims (Type2And3Naive_dct2 d) (Type2And3Naive_dct2 d').
Proof. unfold sims, Type2And3Naive_dct2, Type2And3Naive_scratch, Type2And3Naive_len. go. Qed.
Lemma Type2And3Naive_dst2_sims d d' : Forall2 (both C) (t23n_tw d) (t23n_tw d') -> sims (Type2And3Naive_dst2 d) (Type2And3Naive_dst2 d').
Proof. unfold sims, Type2And3Naive_dst2, Type2And3Naive_scratch, Type2And3Naive_len. go. Qed.
Lemma Type2And3Naive_dct3_sims d d' : Forall2 (both C) (t23n_tw d) (t23n_tw d') -> sims (Type2And3Naive_dct3 d) (Type2And3Naive_dct3 d').
Proof. unfold sims, Type2And3Naive_dct3, Type2And3Naive_scratch, Type2And3Naive_len. go. Qed.
Lemma Type2And3Naive_dst3_sims d d' : Forall2 (both C) (t23n_tw d) (t23n_tw d') -> sims (Type2And3Naive_dst3 d) (Type2And3Naive_dst3 d').
Proof. unfold sims, Type2And3Naive_dst3, Type2And3Naive_scratch, Type2And3Naive_len. go. Qed.
Lemma Type4Naive_dct4_sims d d' : Forall2 (both C) (t4n_tw d) (t4n_tw d') -> sims (Type4Naive_dct4 d) (Type4Naive_dct4 d').
Proof. unfold sims, Type4Naive_dct4, Type4Naive_scratch, Type4Naive_len. go. Qed.
Lemma Type4Naive_dst4_sims d d' : Forall2 (both C) (t4n_tw d) (t4n_tw d') -> sims (Type4Naive_dst4 d) (Type4Naive_dst4 d').
Proof. unfold sims, Type4Naive_dst4, Type4Naive_scratch, Type4Naive_len. go. Qed.
Lemma Dct5Naive_dct5_sims d d' : Forall2 C (dct5n_tw d) (dct5n_tw d') -> sims (Dct5Naive_dct5 d) (Dct5Naive_dct5 d').
Proof. unfold sims, Dct5Naive_dct5, Dct5Naive_scratch, Dct5Naive_len. go. Qed.
Lemma Dst5Naive_dst5_sims d d' : Forall2 C (dst5n_tw d) (dst5n_tw d') -> sims (Dst5Naive_dst5 d) (Dst5Naive_dst5 d').
Proof. unfold sims, Dst5Naive_dst5, Dst5Naive_scratch, Dst5Naive_len. go. Qed.
Lemma Dct6And7Naive_dct6_sims d d' : Forall2 C (c67n_tw d) (c67n_tw d') -> sims (Dct6And7Naive_dct6 d) (Dct6And7Naive_dct6 d').
Proof. unfold sims, Dct6And7Naive_dct6, Dct6And7Naive_scratch, Dct6And7Naive_len. go. Qed.
Lemma Dct6And7Naive_dct7_sims d d' : Forall2 C (c67n_tw d) (c67n_tw d') -> sims (Dct6And7Naive_dct7 d) (Dct6And7Naive_dct7 d').
Proof. unfold sims, Dct6And7Naive_dct7, Dct6And7Naive_scratch, Dct6And7Naive_len. go. Qed.
Lemma Dst6And7Naive_dst6_sims d d' : Forall2 C (s67n_tw d) (s67n_tw d') -> sims (Dst6And7Naive_dst6 d) (Dst6And7Naive_dst6 d').
Proof. unfold sims, Dst6And7Naive_dst6, Dst6And7Naive_scratch, Dst6And7Naive_len. go. Qed.
Lemma Dst6And7Naive_dst7_sims d d' : Forall2 C (s67n_tw d) (s67n_tw d') -> sims (Dst6And7Naive_dst7 d) (Dst6And7Naive_dst7 d').
Proof. unfold sims, Dst6And7Naive_dst7, Dst6And7Naive_scratch, Dst6And7Naive_len. go. Qed.
Lemma Dct8Naive_dct8_sims d d' : Forall2 C (dct8n_tw d) (dct8n_tw d') -> sims (Dct8Naive_dct8 d) (Dct8Naive_dct8 d').
Proof. unfold sims, Dct8Naive_dct8, Dct8Naive_scratch, Dct8Naive_len. go. Qed.
Lemma Dst8Naive_dst8_sims d d' : Forall2 C (dst8n_tw d) (dst8n_tw d') -> sims (Dst8Naive_dst8 d) (Dst8Naive_dst8 d').
Proof. unfold sims, Dst8Naive_dst8, Dst8Naive_scratch, Dst8Naive_len. go. Qed.

Ltac gof := intros ? b s; cbn [dct1f_fft dct1f_len dct1f_scratch dct1f_inner dst1f_fft dst1f_len dst1f_scratch dst1f_inner t4f_fft t4f_len t4f_scratch
  s67f_fft s67f_len s67f_scratch s67f_inner]; apply p_validate; [reflexivity|reflexivity|]; clear s; intros s; cbv zeta; pb.
Lemma Dct1Fft_sims f f' l z i : fft_alike D f f' -> sims (Dct1ConvertToFft_dct1 (mkDct1Fft f l z i)) (Dct1ConvertToFft_dct1 (mkDct1Fft f' l z i)).
Proof. unfold sims, Dct1ConvertToFft_dct1. gof. Qed.
Lemma Dst1Fft_sims f f' l z i : fft_alike D f f' -> sims (Dst1ConvertToFft_dst1 (mkDst1Fft f l z i)) (Dst1ConvertToFft_dst1 (mkDst1Fft f' l z i)).
Proof. unfold sims, Dst1ConvertToFft_dst1. gof. Qed.
Ltac got := intros ? ? b s; cbn [t23f_fft t23f_tw t23f_scratch]; lens; apply p_validate; [reflexivity|reflexivity|]; clear s; intros s; cbv zeta; pb.
Lemma Dct2Fft_sims f f' t t' z : fft_alike D f f' -> Forall2 (both C) t t' -> sims (Type2And3ConvertToFft_dct2 (mkT23Fft f t z)) (Type2And3ConvertToFft_dct2 (mkT23Fft f' t' z)).
Proof. unfold sims, Type2And3ConvertToFft_dct2, Type2And3ConvertToFft_len. got. Qed.
Lemma Dst2Fft_sims f f' t t' z : fft_alike D f f' -> Forall2 (both C) t t' -> sims (Type2And3ConvertToFft_dst2 (mkT23Fft f t z)) (Type2And3ConvertToFft_dst2 (mkT23Fft f' t' z)).
Proof. unfold sims, Type2And3ConvertToFft_dst2, Type2And3ConvertToFft_len. got. Qed.
Lemma Dct3Fft_sims f f' t t' z : fft_alike D f f' -> Forall2 (both C) t t' -> sims (Type2And3ConvertToFft_dct3 (mkT23Fft f t z)) (Type2And3ConvertToFft_dct3 (mkT23Fft f' t' z)).
Proof. unfold sims, Type2And3ConvertToFft_dct3, Type2And3ConvertToFft_len. got. Qed.
Lemma Dst3Fft_sims f f' t t' z : fft_alike D f f' -> Forall2 (both C) t t' -> sims (Type2And3ConvertToFft_dst3 (mkT23Fft f t z)) (Type2And3ConvertToFft_dst3 (mkT23Fft f' t' z)).
Proof. unfold sims, Type2And3ConvertToFft_dst3, Type2And3ConvertToFft_len. got. Qed.
Lemma Dct4Fft_sims f f' l z : fft_alike D f f' -> sims (Type4ConvertToFftOdd_dct4 (mkT4Fft f l z)) (Type4ConvertToFftOdd_dct4 (mkT4Fft f' l z)).
Proof. unfold sims, Type4ConvertToFftOdd_dct4. gof. Qed.
Lemma Dst4Fft_sims f f' l z : fft_alike D f f' -> sims (Type4ConvertToFftOdd_dst4 (mkT4Fft f l z)) (Type4ConvertToFftOdd_dst4 (mkT4Fft f' l z)).
Proof. unfold sims, Type4ConvertToFftOdd_dst4. gof. Qed.
Lemma Dst6Fft_sims f f' l z i : fft_alike D f f' -> sims (Dst6And7ConvertToFft_dst6 (mkS67Fft f l z i)) (Dst6And7ConvertToFft_dst6 (mkS67Fft f' l z i)).
Proof. unfold sims, Dst6And7ConvertToFft_dst6. gof. Qed.
Lemma Dst7Fft_sims f f' l z i : fft_alike D f f' -> sims (Dst6And7ConvertToFft_dst7 (mkS67Fft f l z i)) (Dst6And7ConvertToFft_dst7 (mkS67Fft f' l z i)).
Proof. unfold sims, Dst6And7ConvertToFft_dst7. gof. Qed.

(** Methods that call others. *)
Ltac pprim_more ::= match goal with H : sims ?f ?g |- psim _ _ (?f _ _) (?g _ _) => apply H end.
Ltac gos := intros; intros b s; cbn [sr_half sr_quarter sr_tw t4e_inner t4e_tw t4e_scratch]; lens; apply p_validate; [reflexivity|reflexivity|]; clear s; intros s; cbv zeta; pb.
Lemma Dct2Split_sims h h' q q' t t' : sims (t_dct2 h) (t_dct2 h') -> sims (t_dct2 q) (t_dct2 q') -> Forall2 (both C) t t' ->
  sims (Type2And3SplitRadix_dct2 (mkT23Split h q t)) (Type2And3SplitRadix_dct2 (mkT23Split h' q' t')).
Proof. unfold Type2And3SplitRadix_dct2, Type2And3SplitRadix_scratch, Type2And3SplitRadix_len. gos. Qed.
Lemma Dct3Split_sims h h' q q' t t' : sims (t_dct3 h) (t_dct3 h') -> sims (t_dct3 q) (t_dct3 q') -> Forall2 (both C) t t' ->
  sims (Type2And3SplitRadix_dct3 (mkT23Split h q t)) (Type2And3SplitRadix_dct3 (mkT23Split h' q' t')).
Proof. unfold Type2And3SplitRadix_dct3, Type2And3SplitRadix_scratch, Type2And3SplitRadix_len. gos. Qed.
Lemma Dst2Split_sims h h' q q' t t' : Forall2 (both C) t t' -> sims (Type2And3SplitRadix_dct2 (mkT23Split h q t)) (Type2And3SplitRadix_dct2 (mkT23Split h' q' t')) ->
  sims (Type2And3SplitRadix_dst2 (mkT23Split h q t)) (Type2And3SplitRadix_dst2 (mkT23Split h' q' t')).
Proof. intros Ht H b s. unfold Type2And3SplitRadix_dst2, Type2And3SplitRadix_len. cbn [sr_tw]. lens. pb. Qed.
Lemma Dst3Split_sims h h' q q' t t' : Forall2 (both C) t t' -> sims (Type2And3SplitRadix_dct3 (mkT23Split h q t)) (Type2And3SplitRadix_dct3 (mkT23Split h' q' t')) ->
  sims (Type2And3SplitRadix_dst3 (mkT23Split h q t)) (Type2And3SplitRadix_dst3 (mkT23Split h' q' t')).
Proof. intros Ht H b s. unfold Type2And3SplitRadix_dst3, Type2And3SplitRadix_len. cbn [sr_tw]. lens. pb. Qed.
Lemma Dct4Even_sims i i' t t' z : sims (t_dct3 i) (t_dct3 i') -> sims (t_dst3 i) (t_dst3 i') -> Forall2 (both C) t t' ->
  sims (Type4ConvertToType3Even_dct4 (mkT4Even i t z)) (Type4ConvertToType3Even_dct4 (mkT4Even i' t' z)).
Proof. unfold Type4ConvertToType3Even_dct4, Type4ConvertToType3Even_len. gos. Qed.
Lemma Dst4Even_sims i i' t t' z : sims (t_dct3 i) (t_dct3 i') -> sims (t_dst3 i) (t_dst3 i') -> Forall2 (both C) t t' ->
  sims (Type4ConvertToType3Even_dst4 (mkT4Even i t z)) (Type4ConvertToType3Even_dst4 (mkT4Even i' t' z)).
Proof. unfold Type4ConvertToType3Even_dst4, Type4ConvertToType3Even_len. gos. Qed.
Ltac gom := intros; intros a b c s; cbn [mn_tw mn_window md_dct md_window md_scratch]; lens; apply p_validate_mdct; [first [reflexivity|assumption]|reflexivity|]; clear s; intros s; cbv zeta; unfold mn_advance; lens; pb.
Lemma MdctNaive_sims t t' w w' : Forall2 C t t' -> Forall2 C w w' -> sims4 (MdctNaive_mdct (mkMdctNaive t w)) (MdctNaive_mdct (mkMdctNaive t' w')).
Proof. unfold MdctNaive_mdct, MdctNaive_len. gom. Qed.
Lemma ImdctNaive_sims t t' w w' : Forall2 C t t' -> Forall2 C w w' -> sims4 (MdctNaive_imdct (mkMdctNaive t w)) (MdctNaive_imdct (mkMdctNaive t' w')).
Proof. unfold MdctNaive_imdct, MdctNaive_len. gom. Qed.
Lemma MdctDct4_sims i i' w w' z : t4_len i = t4_len i' -> sims (t_dct4 i) (t_dct4 i') -> Forall2 C w w' ->
  sims4 (MdctViaDct4_mdct (mkMdctDct4 i w z)) (MdctViaDct4_mdct (mkMdctDct4 i' w' z)).
Proof. intros L. unfold MdctViaDct4_mdct, MdctViaDct4_len. cbn [md_dct]. rewrite L. gom. Qed.
Lemma ImdctDct4_sims i i' w w' z : t4_len i = t4_len i' -> sims (t_dct4 i) (t_dct4 i') -> Forall2 C w w' ->
  sims4 (MdctViaDct4_imdct (mkMdctDct4 i w z)) (MdctViaDct4_imdct (mkMdctDct4 i' w' z)).
Proof. intros L. unfold MdctViaDct4_imdct, MdctViaDct4_len. cbn [md_dct]. rewrite L. gom. Qed.

(** Butterflies. *)
Definition simsI (f : slice -> prog T unit) (g : slice -> prog T' unit) : Prop := forall b, psim D anyr (f b) (g b).
Lemma p_local_at l l' f g : simsI f g -> Forall2 D l l' -> psim D (Forall2 D) (local_call zero l f) (local_call zero l' g).
Proof. intros H. apply p_local; [exact H|apply (k_zero _ _ _ K)]. Qed.
Ltac cb := intros b; unfold rd_add, rd_sub, rd_nadd, rd_nsub, Butterfly2_scattered_dct2, Butterfly2_scattered_dct3; pb.
Ltac pprim_more ::= fail.
Lemma s2_dct2 : simsI Butterfly2_inplace_dct2 Butterfly2_inplace_dct2. Proof. unfold Butterfly2_inplace_dct2. cb. Qed.
Lemma s2_dct3 : simsI Butterfly2_inplace_dct3 Butterfly2_inplace_dct3. Proof. unfold Butterfly2_inplace_dct3. cb. Qed.
Lemma s2_dst2 : simsI Butterfly2_inplace_dst2 Butterfly2_inplace_dst2. Proof. unfold Butterfly2_inplace_dst2. cb. Qed.
Lemma s2_dst3 : simsI Butterfly2_inplace_dst3 Butterfly2_inplace_dst3. Proof. unfold Butterfly2_inplace_dst3. cb. Qed.
Lemma s3_dct2 t t' : C t t' -> simsI (Butterfly3_inplace_dct2 t) (Butterfly3_inplace_dct2 t'). Proof. intros H. unfold Butterfly3_inplace_dct2. cb. Qed.
Lemma s3_dct3 t t' : C t t' -> simsI (Butterfly3_inplace_dct3 t) (Butterfly3_inplace_dct3 t'). Proof. intros H. unfold Butterfly3_inplace_dct3. cb. Qed.
Lemma s3_dst2 t t' : C t t' -> simsI (Butterfly3_inplace_dst2 t) (Butterfly3_inplace_dst2 t'). Proof. intros H. unfold Butterfly3_inplace_dst2. cb. Qed.
Lemma s3_dst3 t t' : C t t' -> simsI (Butterfly3_inplace_dst3 t) (Butterfly3_inplace_dst3 t'). Proof. intros H. unfold Butterfly3_inplace_dst3. cb. Qed.
Lemma s4_dct2 t t' : both C t t' -> simsI (Butterfly4_inplace_dct2 t) (Butterfly4_inplace_dct2 t'). Proof. intros H. unfold Butterfly4_inplace_dct2. cb. Qed.
Lemma s4_dct3 t t' : both C t t' -> simsI (Butterfly4_inplace_dct3 t) (Butterfly4_inplace_dct3 t'). Proof. intros H. unfold Butterfly4_inplace_dct3. cb. Qed.
Lemma s4_dst2 t t' : both C t t' -> simsI (Butterfly4_inplace_dst2 t) (Butterfly4_inplace_dst2 t'). Proof. intros H. unfold Butterfly4_inplace_dst2. cb. Qed.
Lemma s4_dst3 t t' : both C t t' -> simsI (Butterfly4_inplace_dst3 t) (Butterfly4_inplace_dst3 t'). Proof. intros H. unfold Butterfly4_inplace_dst3. cb. Qed.
Definition rel8 (x : bf8 T) (y : bf8 T') : Prop := both C (b8_b4 x) (b8_b4 y) /\ Forall2 (both C) (b8_tw x) (b8_tw y).
Definition rel16 (x : bf16 T) (y : bf16 T') : Prop := rel8 (b16_b8 x) (b16_b8 y) /\ both C (b16_b4 x) (b16_b4 y) /\ Forall2 (both C) (b16_tw x) (b16_tw y).
Ltac pprim_more ::= apply p_local_at; [first [apply s2_dct2 | apply s2_dct3 | apply s2_dst2 | apply s2_dst3 | apply s4_dct2; assumption | apply s4_dct3; assumption | apply s4_dst2; assumption | apply s4_dst3; assumption]|vdl].
Lemma s8_dct2 t t' : rel8 t t' -> simsI (Butterfly8_inplace_dct2 t) (Butterfly8_inplace_dct2 t'). Proof. intros [H4 Ht]. unfold Butterfly8_inplace_dct2. cb. Qed.
Lemma s8_dct3 t t' : rel8 t t' -> simsI (Butterfly8_inplace_dct3 t) (Butterfly8_inplace_dct3 t'). Proof. intros [H4 Ht]. unfold Butterfly8_inplace_dct3. cb. Qed.
Lemma s8_dst2 t t' : rel8 t t' -> simsI (Butterfly8_inplace_dst2 t) (Butterfly8_inplace_dst2 t'). Proof. intros [H4 Ht]. unfold Butterfly8_inplace_dst2. cb. Qed.
Lemma s8_dst3 t t' : rel8 t t' -> simsI (Butterfly8_inplace_dst3 t) (Butterfly8_inplace_dst3 t'). Proof. intros [H4 Ht]. unfold Butterfly8_inplace_dst3. cb. Qed.
Ltac pprim_more ::= apply p_local_at; [first [apply s4_dct2; assumption | apply s4_dct3; assumption | apply s4_dst2; assumption | apply s4_dst3; assumption | apply s8_dct2; assumption | apply s8_dct3; assumption]|vdl].
Lemma s16_dct2 t t' : rel16 t t' -> simsI (Butterfly16_inplace_dct2 t) (Butterfly16_inplace_dct2 t'). Proof. intros (H8 & H4 & Ht). unfold Butterfly16_inplace_dct2. cb. Qed.
Lemma s16_dct3 t t' : rel16 t t' -> simsI (Butterfly16_inplace_dct3 t) (Butterfly16_inplace_dct3 t'). Proof. intros (H8 & H4 & Ht). unfold Butterfly16_inplace_dct3. cb. Qed.
Lemma s16_dst2 t t' : rel16 t t' -> simsI (Butterfly16_inplace_dst2 t) (Butterfly16_inplace_dst2 t'). Proof. intros (H8 & H4 & Ht). unfold Butterfly16_inplace_dst2. cb. Qed.
Lemma s16_dst3 t t' : rel16 t t' -> simsI (Butterfly16_inplace_dst3 t) (Butterfly16_inplace_dst3 t'). Proof. intros (H8 & H4 & Ht). unfold Butterfly16_inplace_dst3. cb. Qed.
Ltac pprim_more ::= fail.

(** Objects. *)
Definition rel23 (o : t23 T) (o' : t23 T') : Prop := t23_len o = t23_len o' /\ t23_scratch o = t23_scratch o' /\
  sims (t_dct2 o) (t_dct2 o') /\ sims (t_dct3 o) (t_dct3 o') /\ sims (t_dst2 o) (t_dst2 o') /\ sims (t_dst3 o) (t_dst3 o').
Definition rel4 (o : t4 T) (o' : t4 T') : Prop := t4_len o = t4_len o' /\ t4_scratch o = t4_scratch o' /\
  sims (t_dct4 o) (t_dct4 o') /\ sims (t_dst4 o) (t_dst4 o').
Definition relx (o : xform T) (o' : xform T') : Prop := x_len o = x_len o' /\ x_scratch o = x_scratch o' /\ sims (x_run o) (x_run o').
Definition relc (o : c67 T) (o' : c67 T') : Prop := c67_len o = c67_len o' /\ c67_scratch o = c67_scratch o' /\
  sims (t_dct6 o) (t_dct6 o') /\ sims (t_dct7 o) (t_dct7 o').
Definition rels (o : s67 T) (o' : s67 T') : Prop := s67_len o = s67_len o' /\ s67_scratch o = s67_scratch o' /\
  sims (t_dst6 o) (t_dst6 o') /\ sims (t_dst7 o) (t_dst7 o').
Definition relm (o : mdct T) (o' : mdct T') : Prop := m_len o = m_len o' /\ m_scratch o = m_scratch o' /\
  sims4 (t_mdct o) (t_mdct o') /\ sims4 (t_imdct o) (t_imdct o').
Definition rres {A B} (R : A -> B -> Prop) (x : result A) (y : result B) : Prop :=
  match x, y with Ok a, Ok b => R a b | Err e, Err e' => e = e' | _, _ => False end.
Lemma rres_bind {A B A' B'} (R : A -> B -> Prop) (S : A' -> B' -> Prop) x y f g :
  rres R x y -> (forall a b, R a b -> rres S (f a) (g b)) -> rres S (rbind x f) (rbind y g).
Proof. destruct x, y; cbn; try contradiction; auto. Qed.
Lemma rres_map {A B A' B'} (R : A -> B -> Prop) (S : A' -> B' -> Prop) x y f g :
  rres R x y -> (forall a b, R a b -> S (f a) (g b)) -> rres S (rmap f x) (rmap g y).
Proof. destruct x, y; cbn; try contradiction; auto. Qed.

Lemma rel23_b2 : rel23 Type2And3Butterfly2_obj Type2And3Butterfly2_obj.
Proof.
  split; [reflexivity|]. split; [reflexivity|]. repeat split; intros b s; cbn [t_dct2 t_dct3 t_dst2 t_dst3 Type2And3Butterfly2_obj];
    [unfold Butterfly2_dct2|unfold Butterfly2_dct3|unfold Butterfly2_dst2|unfold Butterfly2_dst3]; apply p_validate_buffer; pb.
Qed.
Lemma rel23_bf n a b c d a' b' c' d' : simsI a a' -> simsI b b' -> simsI c c' -> simsI d d' -> rel23 (butterfly_obj n a b c d) (butterfly_obj n a' b' c' d').
Proof.
  intros Ha Hb Hc Hd. split; [reflexivity|]. split; [reflexivity|]. repeat split; intros x s; cbn [t_dct2 t_dct3 t_dst2 t_dst3 butterfly_obj]; apply p_validate_buffer; auto.
Qed.

(** Tables. *)
Lemma k_single i n : both C (single_twiddle i n) (single_twiddle i n).
Proof. unfold single_twiddle, from_polar. split; cbn [fst snd]; repeat (apply K). Qed.
Lemma k_single_re i n : C (single_twiddle_re i n) (single_twiddle_re i n).
Proof. unfold single_twiddle_re. repeat (apply K). Qed.
Lemma k_single_ho i n : both C (single_twiddle_halfoffset i n) (single_twiddle_halfoffset i n).
Proof. unfold single_twiddle_halfoffset, from_polar. split; cbn [fst snd]; repeat (apply K). Qed.
Lemma k_conj x y : both C x y -> both C (c_conj x) (c_conj y).
Proof. intros [A B]. split; cbn [c_conj fst snd]; [exact A|apply (k_neg_c _ _ _ K), B]. Qed.
Lemma rel23_b3 : rel23 (Type2And3Butterfly3_obj Butterfly3_new) (Type2And3Butterfly3_obj Butterfly3_new).
Proof. apply rel23_bf; [apply s3_dct2|apply s3_dct3|apply s3_dst2|apply s3_dst3]; apply k_single_re. Qed.
Lemma rel23_b4 : rel23 (Type2And3Butterfly4_obj Butterfly4_new) (Type2And3Butterfly4_obj Butterfly4_new).
Proof. apply rel23_bf; [apply s4_dct2|apply s4_dct3|apply s4_dst2|apply s4_dst3]; apply k_conj, k_single. Qed.
Lemma rel8_new : rel8 Butterfly8_new Butterfly8_new.
Proof. split; [apply k_conj, k_single|]. repeat constructor; apply k_conj, k_single. Qed.
Lemma rel16_new : rel16 Butterfly16_new Butterfly16_new.
Proof. split; [apply rel8_new|]. split; [apply k_conj, k_single|]. repeat constructor; apply k_conj, k_single. Qed.
Lemma rel23_b8 : rel23 (Type2And3Butterfly8_obj Butterfly8_new) (Type2And3Butterfly8_obj Butterfly8_new).
Proof. apply rel23_bf; [apply s8_dct2|apply s8_dct3|apply s8_dst2|apply s8_dst3]; apply rel8_new. Qed.
Lemma rel23_b16 : rel23 (Type2And3Butterfly16_obj Butterfly16_new) (Type2And3Butterfly16_obj Butterfly16_new).
Proof. apply rel23_bf; [apply s16_dct2|apply s16_dct3|apply s16_dst2|apply s16_dst3]; apply rel16_new. Qed.
End Methods.
