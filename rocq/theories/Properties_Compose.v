(** Instances built by putting the public algorithm structs on top of each other: C23, C29. *)
From Coq Require Import List Arith Lia Bool Reals Lra.
From Verif Require Import Prog Num Model_Common Model_Naive Model_Fft Model_Butterflies Model_SplitRadix Model_Mdct Model_Plan
  Model_Api Spec Spec_Api Spec_Fft Spec_Plan Spec_Methods Spec_Memory Spec_Build Wp Canon Build_Works Build_Exact.
Import ListNotations.
Open Scope nat_scope.

(** C29, for every numeric type: [get_scratch_len()] cells are enough, if each split
    radix has room for its inner transforms ([roomy]) and the length is not zero. *)
Theorem scratch_is_enough : forall {T F} {N : Num T F} c f sl,
  built_method (@fft_clean T) roomy c f sl -> legal c -> 0 < size c -> accepts f (size c) sl.
Proof. intros T F N c f sl. exact (built_accepts roomy c f sl (fun h q H => H)). Qed.
Print Assumptions scratch_is_enough.
Theorem mdct_scratch_is_enough : forall {T F} {N : Num T F} (o : mdct T), built_mdct (@fft_clean T) roomy o -> 0 < m_len o ->
  accepts_mdct (t_mdct o) (m_len o) (m_scratch o) /\ accepts_mdct (t_imdct o) (m_len o) (m_scratch o).
Proof. intros T F N o. exact (built_mdct_accepts roomy o (fun h q H => H)). Qed.
Print Assumptions mdct_scratch_is_enough.
(** Without the condition an instance accepts all buffers of its length, or none. *)
Theorem accepts_all_or_none : forall {T F} {N : Num T F} c f sl,
  built_method (@fft_clean T) any_inner c f sl -> legal c -> accepts f (size c) sl \/ never_accepts f (size c).
Proof. intros T F N c f sl. exact (built_accepts_or_never any_inner c f sl). Qed.
Print Assumptions accepts_all_or_none.
(** The condition is needed, for every FFT, correct or not. *)
Theorem split_radix_without_room_never_accepts : forall {T F} {N : Num T F} h q (d : t23_split T),
  Type2And3SplitRadix_new h q = Ok d -> built23 any_fft any_inner h -> built23 any_fft any_inner q -> ~ roomy h q ->
  never_accepts (Type2And3SplitRadix_dct2 d) (Type2And3SplitRadix_len d) /\
  never_accepts (Type2And3SplitRadix_dct3 d) (Type2And3SplitRadix_len d) /\
  never_accepts (Type2And3SplitRadix_dst2 d) (Type2And3SplitRadix_len d) /\
  never_accepts (Type2And3SplitRadix_dst3 d) (Type2And3SplitRadix_len d).
Proof. intros T F N h q d. exact (split_never any_fft any_inner h q d). Qed.
Print Assumptions split_radix_without_room_never_accepts.
(** In particular on top of FFT conversions whose FFT asks for scratch. *)
Theorem split_radix_over_ffts_with_scratch_never_accepts : forall {T F} {N : Num T F} (f g : fft T) h q d,
  Type2And3ConvertToFft_new f = Ok h -> Type2And3ConvertToFft_new g = Ok q ->
  Type2And3SplitRadix_new (Type2And3ConvertToFft_obj h) (Type2And3ConvertToFft_obj q) = Ok d -> 0 < fft_scratch f ->
  never_accepts (Type2And3SplitRadix_dct2 d) (Type2And3SplitRadix_len d) /\
  never_accepts (Type2And3SplitRadix_dct3 d) (Type2And3SplitRadix_len d) /\
  never_accepts (Type2And3SplitRadix_dst2 d) (Type2And3SplitRadix_len d) /\
  never_accepts (Type2And3SplitRadix_dst3 d) (Type2And3SplitRadix_len d).
Proof. intros T F N. exact split_over_fft_never. Qed.
Print Assumptions split_radix_over_ffts_with_scratch_never_accepts.
(** So C29 fails at every power of two from 4: instances that accept no buffer at all. *)
Theorem scratch_is_enough_refuted : forall k, exists f2 f3 g2 g3 sl,
  let n := 2 ^ (k + 2) in
  (built_method fft_exact any_inner (CDct2 n) f2 sl /\ never_accepts f2 n) /\
  (built_method fft_exact any_inner (CDct3 n) f3 sl /\ never_accepts f3 n) /\
  (built_method fft_exact any_inner (CDst2 n) g2 sl /\ never_accepts g2 n) /\
  (built_method fft_exact any_inner (CDst3 n) g3 sl /\ never_accepts g3 n).
Proof. exact scratchy_refutes. Qed.
Print Assumptions scratch_is_enough_refuted.
(** A split radix of length 8 over an FFT conversion of length 4 and a naive instance of
    length 2. *)
Lemma some_mixed_split : exists h d,
  Type2And3ConvertToFft_new (reference_fft 4) = Ok h /\
  Type2And3SplitRadix_new (T:=R) (Type2And3ConvertToFft_obj h) (Type2And3Naive_obj (Type2And3Naive_new 2)) = Ok d.
Proof. eexists. eexists. split; reflexivity. Qed.
Lemma some_mixed_built : exists f sl, built_method fft_exact roomy (CDst3 8) f sl /\ is_split_dst3 f 8.
Proof.
  destruct some_mixed_split as (h & d & Eh & E). exists (Type2And3SplitRadix_dst3 d), (Type2And3SplitRadix_scratch d).
  assert (L : Type2And3SplitRadix_len d = 8) by (apply Ok_inj in Eh; subst h; apply Ok_inj in E; subst d; reflexivity). split.
  - exists (Type2And3SplitRadix_obj d). split; [|repeat split; exact L].
    apply (built23_split _ _ (Type2And3ConvertToFft_obj h) (Type2And3Naive_obj (Type2And3Naive_new 2))); [| |split|exact E].
    + apply (built23_fft _ _ (reference_fft 4)); [apply (proj2 reference_fft_fits 4)|exact Eh].
    + constructor.
    + apply Ok_inj in Eh. subst h. cbn. lia.
    + apply Ok_inj in Eh. subst h. cbn. lia.
  - exists (Type2And3ConvertToFft_obj h), (Type2And3Naive_obj (Type2And3Naive_new 2)), d. repeat split; [exact E|]. symmetry. exact L.
Qed.
Example scratch_is_enough_case : exists f sl, built_method fft_exact roomy (CDst3 8) f sl /\ is_split_dst3 f 8 /\
  accepts f 8 sl.
Proof.
  destruct some_mixed_built as (f & sl & B & S). exists f, sl. split; [exact B|]. split; [exact S|].
  apply (scratch_is_enough (CDst3 8) f sl); [apply built_fft_clean, B|cbn; lia|cbn; lia].
Qed.
Example accepts_all_or_none_case : exists f sl, built_method fft_exact any_inner (CDct2 8) f sl /\ never_accepts f 8.
Proof. destruct (scratch_is_enough_refuted 1) as (f2 & _ & _ & _ & sl & H & _). exists f2, sl. exact H. Qed.
Example split_radix_over_ffts_case : exists h q d,
  Type2And3ConvertToFft_new (scratchy_fft 8) = Ok h /\ Type2And3ConvertToFft_new (scratchy_fft 4) = Ok q /\
  Type2And3SplitRadix_new (Type2And3ConvertToFft_obj h) (Type2And3ConvertToFft_obj q) = Ok d /\ Type2And3SplitRadix_len d = 16.
Proof. exact (scratchy_split 2). Qed.
Example mdct_scratch_is_enough_case : exists d, MdctViaDct4_new (Type4Naive_obj (Type4Naive_new 6)) (window_one (T:=R)) = Ok d /\
  accepts_mdct (MdctViaDct4_mdct d) 6 12.
Proof.
  destruct (MdctViaDct4_new (Type4Naive_obj (Type4Naive_new 6)) (window_one (T:=R))) as [d|] eqn:E; [|discriminate]. exists d. split; [reflexivity|].
  assert (B : built_mdct (@fft_clean R) roomy (MdctViaDct4_obj d)) by (apply (builtm_dct4 _ _ (Type4Naive_obj (Type4Naive_new 6)) window_one); [constructor|exact E]).
  apply Ok_inj in E. subst d. exact (proj1 (mdct_scratch_is_enough _ B ltac:(cbn; lia))).
Qed.

(** C23, exact arithmetic: whatever an instance returns is the reference transform ... *)
Theorem built_instances_return_the_transform : forall c f sl x y, built_method fft_exact any_inner c f sl -> legal c ->
  process f sl x = Returned y -> length x = size c /\ y = reference c x.
Proof. exact (built_returns any_inner). Qed.
Print Assumptions built_instances_return_the_transform.
(** ... also with dirty scratch, for the transforms that never read it ... *)
Theorem built_instances_return_the_transform_whatever_the_scratch : forall c f sl x s y s',
  built_method fft_exact any_inner c f sl -> legal c -> keeps_scratch_apart c ->
  call f x s = Returned (y, s') -> length x = size c /\ y = reference c x.
Proof. exact (built_returns_call any_inner). Qed.
Print Assumptions built_instances_return_the_transform_whatever_the_scratch.
(** ... and with room it does return. *)
Theorem built_instances_transform : forall c f sl, built_method fft_exact roomy c f sl -> legal c -> 0 < size c ->
  does_zeroed f (size c) sl (reference c) /\ (keeps_scratch_apart c -> does f (size c) sl (reference c)).
Proof. exact (built_transforms roomy (fun h q H => H)). Qed.
Print Assumptions built_instances_transform.
(** So any two agree. *)
Theorem built_instances_agree : forall c f sl g sl' x y z,
  built_method fft_exact any_inner c f sl -> built_method fft_exact any_inner c g sl' -> legal c ->
  process f sl x = Returned y -> process g sl' x = Returned z -> y = z.
Proof. exact (built_agree any_inner any_inner). Qed.
Print Assumptions built_instances_agree.
Theorem built_mdcts_are_correct : forall i w d, built4 fft_exact roomy i -> 0 < t4_len i -> MdctViaDct4_new i w = Ok d ->
  correct_mdct (MdctViaDct4_obj d) (t4_len i) (w (t4_len i * 2)).
Proof. exact (built_mdct_correct roomy (fun h q H => H)). Qed.
Print Assumptions built_mdcts_are_correct.
Example built_instances_agree_case : exists f sl g sl',
  built_method fft_exact any_inner (CDst3 8) f sl /\ is_split_dst3 f 8 /\
  built_method fft_exact any_inner (CDst3 8) g sl' /\ g = Type2And3Naive_dst3 (Type2And3Naive_new 8) /\
  forall x, length x = 8 -> process f sl x = process g sl' x.
Proof.
  destruct some_mixed_built as (f & sl & B & S). exists f, sl, (Type2And3Naive_dst3 (Type2And3Naive_new 8)), 8.
  assert (B' : built_method fft_exact roomy (CDst3 8) (Type2And3Naive_dst3 (Type2And3Naive_new 8)) 8).
  { exists (Type2And3Naive_obj (Type2And3Naive_new 8)). split; [constructor|repeat split]. }
  assert (M : forall f sl, built_method fft_exact roomy (CDst3 8) f sl -> built_method fft_exact any_inner (CDst3 8) f sl).
  { intros f' sl'. apply Build_Conf.built_method_mono; [auto|intros; exact I]. }
  split; [apply M, B|]. split; [exact S|]. split; [apply M, B'|]. split; [reflexivity|]. intros x Hx.
  destruct (built_instances_transform (CDst3 8) f sl B ltac:(cbn; lia) ltac:(cbn; lia)) as [[_ H] _].
  destruct (built_instances_transform (CDst3 8) _ _ B' ltac:(cbn; lia) ltac:(cbn; lia)) as [[_ H'] _].
  rewrite (H x Hx), (H' x Hx). reflexivity.
Qed.
