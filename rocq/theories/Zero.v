(** Length zero. *)
From Coq Require Import List Arith Lia Bool ZArith ZifyNat.
From Verif Require Import Prog Num Model_Common Model_Naive Model_Fft Model_SplitRadix Model_Plan Model_Api Spec_Api Spec_Fft Spec_Plan
  Spec_Methods Spec_Build Wp Api Api_Mdct Planner Canon Plan_Theorems Methods Mdct_Theorems Confine Build_Works Build_Exact.
Import ListNotations.
Open Scope nat_scope.
Ltac Zify.zify_post_hook ::= Z.div_mod_to_equations.

Section Any.
Context {T F : Type} {N : Num T F}.

Lemma call_length (f : meth T) x s y s' : call f x s = Returned (y, s') -> length y = length x /\ length s' = length s.
Proof.
  unfold call. destruct (run _ _) as [[] m| |]; intros E; try discriminate. injection E as <- <-.
  unfold vals. rewrite !map_length, !seq_length. auto.
Qed.
Lemma nil_length (x : list T) : length x = 0 -> x = [].
Proof. destruct x; [reflexivity|discriminate]. Qed.

Lemma empty_split_dct3 (d : t23_fft T) s : Type2And3ConvertToFft_len d = 0 -> t23f_scratch d <= length s ->
  call (Type2And3ConvertToFft_dct3 d) [] s = Panics EIndex ([], s) /\ call (Type2And3ConvertToFft_dst3 d) [] s = Panics EOverflow ([], s).
Proof.
  intros L S. unfold call, Type2And3ConvertToFft_dct3, Type2And3ConvertToFft_dst3, validate_buffers. rewrite L. cbn [slen length Nat.eqb negb].
  unfold get_range. cbn [slen]. destruct (Nat.leb_spec (t23f_scratch d) (length s)); [|lia].
  unfold csplit_at_mut, into_complex_mut. cbn [Nat.leb bind run slen base clen cbase app].
  assert (V : vals (mem_of zero s) (mkS 0 (length s)) = s) by (pose proof (vals_at zero [] s [] 0 eq_refl) as K; cbn [app] in K; rewrite app_nil_r in K; exact K).
  split; [unfold rd|unfold usub]; cbn [slen length Nat.ltb Nat.leb bind run base]; rewrite V; reflexivity.
Qed.

Variable pf : nat -> fft T.
Hypothesis Hpf : fft_fits pf.

Lemma canon23_zero : exists d, canon23 pf 0 = Ok (Type2And3ConvertToFft_obj d) /\ Type2And3ConvertToFft_len d = 0.
Proof.
  rewrite canon23_eq. unfold canon23_step. cbn [existsb DCT2_BUTTERFLIES Nat.eqb orb is_power_of_two Nat.ltb Nat.leb andb].
  unfold Type2And3ConvertToFft_new. destruct (Hpf 0) as [L ->]. cbn [dir_eqb rassert rbind rmap]. rewrite L. eexists. split; reflexivity.
Qed.
Lemma zero_dct3 cs : exists f g sl,
  planned_method (CDct3 0) (after pf cs) = Some (f, sl) /\ planned_method (CDst3 0) (after pf cs) = Some (g, sl) /\
  forall s, sl <= length s -> call f [] s = Panics EIndex ([], s) /\ call g [] s = Panics EOverflow ([], s).
Proof.
  destruct canon23_zero as (d & E & L).
  destruct (planned_ex pf _ _ cs (fun o => o = Type2And3ConvertToFft_obj d) (plan_dct2_ok pf _ 0) (ex_intro _ _ (conj E eq_refl))) as (a & Ea & Va).
  exists (t_dct3 (arc_val a)), (t_dst3 (arc_val a)), (t23_scratch (arc_val a)). cbn [planned_method]. unfold plan_dct3, plan_dst3. rewrite Ea. cbn [use].
  split; [reflexivity|]. split; [reflexivity|]. rewrite Va. cbn [Type2And3ConvertToFft_obj t_dct3 t_dst3 t23_scratch].
  intros s. apply empty_split_dct3, L.
Qed.
Lemma zero_returns cs c : fft_all_clean pf -> legal c -> size c = 0 -> exists f sl,
  planned_method c (after pf cs) = Some (f, sl) /\ forall s, sl <= length s -> exists s', call f [] s = Returned ([], s') /\ length s' = length s.
Proof.
  intros Hcl Hl Hz. destruct (planned_good pf Hpf Hcl c cs Hl) as (f & sl & E & [[t K] _]). exists f, sl. split; [exact E|].
  intros s Hs. rewrite Hz in K. destruct (K [] s eq_refl Hs) as (s' & E' & L & _). exists s'. split; [|exact L].
  pose proof (call_length _ _ _ _ _ E') as [Ly _]. rewrite (nil_length _ Ly) in E'. exact E'.
Qed.
Lemma zero_among cs c : fft_all_clean pf -> In c [CDct2 0; CDst2 0; CDct4 0; CDst4 0; CDct8 0; CDst1 0; CDst5 0; CDst6 0; CDst7 0] -> exists f sl,
  planned_method c (after pf cs) = Some (f, sl) /\ forall s, sl <= length s -> exists s', call f [] s = Returned ([], s') /\ length s' = length s.
Proof. intros Hcl H. apply zero_returns; [exact Hcl| |]; cbn [In] in H; decompose [or] H; subst; try contradiction; cbn; auto. Qed.
Lemma zero_mdct cs w : fft_all_clean pf -> length (w 0) = 0 -> exists a, snd (plan_mdct 0 w (after pf cs)) = Ok a /\
  accepts_mdct (t_mdct (arc_val a)) 0 (m_scratch (arc_val a)) /\ accepts_mdct (t_imdct (arc_val a)) 0 (m_scratch (arc_val a)).
Proof.
  intros Hcl Hw. destruct (planned_mdct_canon pf Hpf cs 0 w eq_refl) as (i & d & a & _ & _ & Ea & _).
  { apply (window_in_force_valid cs 0 w). exact Hw. }
  exists a. split; [exact Ea|]. pose proof (planned_mdct_works pf Hpf cs 0 w a Hcl Ea) as W.
  pose proof (works_mdct_accepts _ _ W) as K. rewrite (proj1 W) in K. exact K.
Qed.

(** User built instances. *)
Lemma zero_dct1 (f : fft T) d : Dct1ConvertToFft_new f = Ok d -> fft_len f = 0 -> x_len (Dct1ConvertToFft_obj d) = 1 /\
  never_accepts (Dct1ConvertToFft_dct1 d) 1.
Proof.
  unfold Dct1ConvertToFft_new, rassert. destruct (_ =? 0); [|discriminate]. cbn [rbind]. destruct (dir_eqb _ _); [|discriminate]. cbn [rbind].
  intros E Z. apply Ok_inj in E. subst d. rewrite Z. split; [reflexivity|]. apply barren_never. intros b s Hb.
  unfold Dct1ConvertToFft_dct1. apply v_buffers. cbn [dct1f_len dct1f_scratch dct1f_inner]. intros s' _ _ _.
  unfold csplit_at_mut, into_complex_mut. cbn [Nat.leb bind clen cbase]. unfold cslice_to. cbn [clen]. rewrite Hb. exact I.
Qed.
Lemma zero_dct4_even usable joined (i : t23 T) : built23 usable joined i -> t23_len i = 0 ->
  let o := Type4ConvertToType3Even_obj (Type4ConvertToType3Even_new i) in
  t4_len o = 0 /\ never_accepts (t_dct4 o) 0 /\ never_accepts (t_dst4 o) 0.
Proof.
  intros B Z. cbv zeta. assert (L : t4_len (Type4ConvertToType3Even_obj (Type4ConvertToType3Even_new i)) = 0).
  { cbn [Type4ConvertToType3Even_obj t4_len]. unfold Type4ConvertToType3Even_len, Type4ConvertToType3Even_new. cbn [t4e_tw]. rewrite map_length, seq_length, Z. reflexivity. }
  destruct (even_barren usable joined i B (or_introl Z)) as [A A']. rewrite L in A, A'. split; [exact L|]. split; apply barren_never; assumption.
Qed.
End Any.
