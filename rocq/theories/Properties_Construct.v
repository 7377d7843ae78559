(** What the public constructors accept (C39), and instances of length zero (C42), for
    every numeric type. *)
From Coq Require Import List Arith Lia Bool Reals.
From Verif Require Import Prog Num Model_Common Model_Naive Model_Fft Model_Butterflies Model_SplitRadix Model_Mdct Model_Plan
  Model_Api Spec Spec_Api Spec_Fft Spec_Plan Spec_Methods Spec_Build Construct Zero Methods.
Import ListNotations.
Open Scope nat_scope.

(** C39 *)
Theorem fft_constructors_accept : forall {T F} {N : Num T F} (f : fft T),
  let L := fft_len f in
  builds_iff (Dct1ConvertToFft_new f) (fft_dir f = Forward /\ Nat.Even L) (@dct1f_len T) (L / 2 + 1) /\
  builds_iff (Dst1ConvertToFft_new f) (fft_dir f = Forward /\ Nat.Even L /\ L <> 0) (@dst1f_len T) (L / 2 - 1) /\
  builds_iff (Type2And3ConvertToFft_new f) (fft_dir f = Forward) Type2And3ConvertToFft_len L /\
  builds_iff (Type4ConvertToFftOdd_new f) (fft_dir f = Forward /\ Nat.Odd L) (@t4f_len T) L /\
  builds_iff (Dst6And7ConvertToFft_new f) (fft_dir f = Forward /\ Nat.Odd L) (@s67f_len T) ((L - 1) / 2).
Proof.
  intros T F N f. exact (conj (Dct1ConvertToFft_builds f) (conj (Dst1ConvertToFft_builds f) (conj (Type2And3ConvertToFft_builds f)
    (conj (Type4ConvertToFftOdd_builds f) (Dst6And7ConvertToFft_builds f))))).
Qed.
Print Assumptions fft_constructors_accept.
Theorem split_radix_accepts : forall {T F} {N : Num T F} (half quarter : t23 T),
  builds_iff (Type2And3SplitRadix_new half quarter)
    ((exists k, 2 <= k /\ 2 * t23_len half = 2 ^ k) /\ t23_len half = 2 * t23_len quarter)
    Type2And3SplitRadix_len (4 * t23_len quarter).
Proof. intros T F N. exact Type2And3SplitRadix_builds. Qed.
Print Assumptions split_radix_accepts.
Theorem mdct_constructors_accept : forall {T F} {N : Num T F} n (inner : t4 T) (window : nat -> list T),
  builds_iff (MdctNaive_new n window) (Nat.Even n /\ length (window (2 * n)) = 2 * n) MdctNaive_len n /\
  builds_iff (MdctViaDct4_new inner window) (Nat.Even (t4_len inner) /\ length (window (2 * t4_len inner)) = 2 * t4_len inner)
    MdctViaDct4_len (t4_len inner).
Proof. intros T F N n inner window. exact (conj (MdctNaive_builds n window) (MdctViaDct4_builds inner window)). Qed.
Print Assumptions mdct_constructors_accept.
Theorem naive_constructors_accept : forall {T F} {N : Num T F} n,
  builds_iff (Dct1Naive_new (T:=T) n) (2 <= n) Dct1Naive_len n /\ builds_iff (Dct5Naive_new (T:=T) n) (1 <= n) Dct5Naive_len n /\
  builds_iff (Dct6And7Naive_new (T:=T) n) (1 <= n) Dct6And7Naive_len n /\ builds_iff (Dst8Naive_new (T:=T) n) (1 <= n) Dst8Naive_len n.
Proof.
  intros T F N n. exact (conj (Dct1Naive_builds n) (conj (Dct5Naive_builds n) (conj (Dct6And7Naive_builds n) (Dst8Naive_builds n)))).
Qed.
Print Assumptions naive_constructors_accept.
(** The other naive constructors cannot panic. *)
Theorem other_naive_lengths : forall {T F} {N : Num T F} n,
  Dst1Naive_len (Dst1Naive_new (T:=T) n) = n /\ Type2And3Naive_len (Type2And3Naive_new (T:=T) n) = n /\
  Type4Naive_len (Type4Naive_new (T:=T) n) = n /\ Dst5Naive_len (Dst5Naive_new (T:=T) n) = n /\
  Dst6And7Naive_len (Dst6And7Naive_new (T:=T) n) = n /\ Dct8Naive_len (Dct8Naive_new (T:=T) n) = n.
Proof. intros T F N. exact other_lengths. Qed.
Print Assumptions other_naive_lengths.
Example constructors_accept_case :
  (exists d, Dct1ConvertToFft_new (reference_fft 6) = Ok d /\ dct1f_len d = 4) /\
  (exists e, Dct1ConvertToFft_new (reference_fft 7) = Err e) /\
  (exists e, Type2And3ConvertToFft_new (mkFft R 6 Inverse 0 (fun xs ss => (xs, ss))) = Err e) /\
  (exists e, Type2And3SplitRadix_new (T:=R) (Type2And3Naive_obj (Type2And3Naive_new 6)) (Type2And3Naive_obj (Type2And3Naive_new 3)) = Err e).
Proof.
  split; [|split; [|split]].
  - apply (fft_constructors_accept (reference_fft 6)). split; [reflexivity|]. exists 3. reflexivity.
  - apply (fft_constructors_accept (reference_fft 7)). intros [_ [k E]]. cbn in E. lia.
  - apply (fft_constructors_accept (mkFft R 6 Inverse 0 (fun xs ss => (xs, ss)))). discriminate.
  - apply (split_radix_accepts (T:=R)). intros [(k & K & E) _]. cbn in E.
    do 4 (destruct k as [|k]; [cbn in E; lia|]). rewrite !Nat.pow_succ_r' in E. lia.
Qed.

(** C42: on a planner with any history, the calls on empty buffers that return ... *)
Theorem zero_length_calls_return : forall {T F} {N : Num T F} (pf : nat -> fft T) cs c, fft_fits pf -> fft_all_clean pf ->
  In c [CDct2 0; CDst2 0; CDct4 0; CDst4 0; CDct8 0; CDst1 0; CDst5 0; CDst6 0; CDst7 0] -> exists f sl,
  planned_method c (after pf cs) = Some (f, sl) /\
  forall s, sl <= length s -> exists s', call f [] s = Returned ([], s') /\ length s' = length s.
Proof. intros T F N pf cs c Hf Hc H. exact (zero_among pf Hf cs c Hc H). Qed.
Print Assumptions zero_length_calls_return.
Theorem zero_length_mdct_returns : forall {T F} {N : Num T F} (pf : nat -> fft T) cs w, fft_fits pf -> fft_all_clean pf ->
  length (w 0) = 0 -> exists a, snd (plan_mdct 0 w (after pf cs)) = Ok a /\
  accepts_mdct (t_mdct (arc_val a)) 0 (m_scratch (arc_val a)) /\ accepts_mdct (t_imdct (arc_val a)) 0 (m_scratch (arc_val a)).
Proof. intros T F N pf cs w Hf. exact (zero_mdct pf Hf cs w). Qed.
Print Assumptions zero_length_mdct_returns.
(** ... and those that panic. *)
Theorem zero_length_dct3_dst3_panic : forall {T F} {N : Num T F} (pf : nat -> fft T) cs, fft_fits pf -> exists f g sl,
  planned_method (CDct3 0) (after pf cs) = Some (f, sl) /\ planned_method (CDst3 0) (after pf cs) = Some (g, sl) /\
  forall s, sl <= length s -> call f [] s = Panics EIndex ([], s) /\ call g [] s = Panics EOverflow ([], s).
Proof. intros T F N pf cs Hf. exact (zero_dct3 pf Hf cs). Qed.
Print Assumptions zero_length_dct3_dst3_panic.
(** Two instances a user can build and never use. *)
Theorem dct1_over_empty_fft_never_accepts : forall {T F} {N : Num T F} (f : fft T) d, Dct1ConvertToFft_new f = Ok d -> fft_len f = 0 ->
  x_len (Dct1ConvertToFft_obj d) = 1 /\ never_accepts (Dct1ConvertToFft_dct1 d) 1.
Proof. intros T F N. exact zero_dct1. Qed.
Print Assumptions dct1_over_empty_fft_never_accepts.
Theorem dct4_over_empty_dct3_never_accepts : forall {T F} {N : Num T F} (i : t23 T), built23 any_fft any_inner i -> t23_len i = 0 ->
  let o := Type4ConvertToType3Even_obj (Type4ConvertToType3Even_new i) in
  t4_len o = 0 /\ never_accepts (t_dct4 o) 0 /\ never_accepts (t_dst4 o) 0.
Proof. intros T F N. exact (zero_dct4_even any_fft any_inner). Qed.
Print Assumptions dct4_over_empty_dct3_never_accepts.
Example zero_length_case : exists f sl s', planned_method (CDst6 0) (planner_new reference_fft) = Some (f, sl) /\
  call f [] (repeat 7%R sl) = Returned ([], s').
Proof.
  destruct (zero_length_calls_return reference_fft [] (CDst6 0) (proj1 reference_fft_fits)
    (fun n => Exact_Fft.fft_exact_clean _ (proj2 reference_fft_fits n)) ltac:(cbn; tauto)) as (f & sl & E & H).
  destruct (H (repeat 7%R sl)) as (s' & E' & _); [rewrite repeat_length; lia|]. exists f, sl, s'. auto.
Qed.
Example zero_length_panic_case : exists d, Dct1ConvertToFft_new (reference_fft 0) = Ok d /\ never_accepts (Dct1ConvertToFft_dct1 d) 1.
Proof.
  destruct (Dct1ConvertToFft_new (reference_fft 0)) as [d|e] eqn:E; [|discriminate]. exists d. split; [reflexivity|].
  apply (dct1_over_empty_fft_never_accepts _ d E eq_refl).
Qed.
