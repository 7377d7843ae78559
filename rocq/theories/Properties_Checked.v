(** Word size and overflow checks (C51, C52). *)
From Coq Require Import List Arith Lia Bool Reals Lra ZArith ZifyNat.
From Verif Require Import Prog Num Model_Common Model_Mdct Model_Plan Model_Api Model_Checked Model_Checked_Mdct Model_Checked_Plan
  Spec Spec_Api Spec_Fft Spec_Plan Spec_Methods Spec_Checked Properties_Calls Checked_Theorems Checked_Naive_Mdct.
Import ListNotations.
Open Scope nat_scope.

(** C51: with [usize] arithmetic up to [MAX] that panics (debug build) or wraps around (release
    build) on overflow, any sequence of planner calls whose lengths fit the word size does what it
    does with unbounded naturals: the last call returns the same shared pointer and an instance
    with the same length, scratch length and methods, or the same panic. *)
Theorem planned_same_in_both_builds : forall T F (N : Num T F) B MAX (pf : nat -> fft T) cs c, fft_fits pf ->
  Forall (admissible B MAX pf) cs -> admissible B MAX pf c ->
  returned_arc_ck B MAX c (after_ck B MAX pf cs) = returned_arc c (after pf cs) /\
  same_result B (returned_instance_ck B MAX c (after_ck B MAX pf cs)) (returned_instance c (after pf cs)).
Proof. intros T F N B MAX pf cs c H. exact (planned_same_build B MAX pf H cs c). Qed.
Print Assumptions planned_same_in_both_builds.
Lemma reference_admissible B MAX c : 12 * size c + 12 <= MAX -> 0 < size c -> admissible B MAX reference_fft c.
Proof. intros H H'. split; [|now right]. split; [lia|]. intros m Hm. cbn [reference_fft fft_scratch]. lia. Qed.
Example planned_same_in_both_builds_case :
  same_result Release (returned_instance_ck Release 255 (CDct4 20) (after_ck Release 255 reference_fft [CDct2 10; CDst6 12]))
    (returned_instance (CDct4 20) (after reference_fft [CDct2 10; CDst6 12])) /\
  same_result Debug (returned_instance_ck Debug 255 (CDct5 0) (after_ck Debug 255 reference_fft [CDct1 0]))
    (Err EOverflow).
Proof.
  split.
  - apply planned_same_in_both_builds; [apply reference_fft_fits| |apply reference_admissible; cbn; lia].
    repeat (apply Forall_cons; [apply reference_admissible; cbn; lia|]). apply Forall_nil.
  - apply (planned_same_in_both_builds _ _ _ Debug 255 reference_fft [CDct1 0] (CDct5 0)); [apply reference_fft_fits| |].
    + apply Forall_cons; [|apply Forall_nil]. split; [split; [cbn; lia|]; intros m Hm; cbn in Hm |- * ; lia|now left].
    + split; [split; [cbn; lia|]; intros m Hm; cbn in Hm |- * ; lia|now left].
Qed.

(** C51: so in either build every planned transform returns its textbook definition. *)
Theorem planned_correct_in_both_builds : forall B MAX (pf : nat -> fft R) cs c, fft_fits pf -> fft_all_exact pf ->
  Forall (admissible B MAX pf) cs -> admissible B MAX pf c -> legal c ->
  exists f sl, planned_method_ck B MAX c (after_ck B MAX pf cs) = Some (f, sl) /\
  does_zeroed f (size c) sl (reference c) /\ (clean c -> does f (size c) sl (reference c)).
Proof. intros B MAX pf cs c H E. exact (planned_exact B MAX pf H E cs c). Qed.
Print Assumptions planned_correct_in_both_builds.
Example planned_correct_in_both_builds_case : exists f sl,
  planned_method_ck Release 255 (CDct3 16) (after_ck Release 255 reference_fft [CDct2 8; CDst1 11]) = Some (f, sl) /\
  does f 16 sl dct3.
Proof.
  destruct (planned_correct_in_both_builds Release 255 reference_fft [CDct2 8; CDst1 11] (CDct3 16)
    (proj1 reference_fft_fits) (proj2 reference_fft_fits)) as (f & sl & E & _ & K).
  - repeat (apply Forall_cons; [apply reference_admissible; cbn; lia|]). apply Forall_nil.
  - apply reference_admissible; cbn; lia.
  - cbn. lia.
  - exists f, sl. split; [exact E|]. apply K. exact I.
Qed.
Theorem planned_mdct_correct_in_both_builds : forall B MAX (pf : nat -> fft R) cs n w, fft_fits pf -> fft_all_exact pf ->
  Forall (admissible B MAX pf) cs -> admissible B MAX pf (CMdct n w) ->
  n mod 2 = 0 -> length (window_in_force cs n w (n * 2)) = n * 2 ->
  exists a, snd (plan_mdct_ck B MAX n w (after_ck B MAX pf cs)) = Ok a /\ correct_mdct (arc_val a) n (window_in_force cs n w (n * 2)).
Proof. intros B MAX pf cs n w H E. exact (planned_mdct_exact B MAX pf H E cs n w). Qed.
Print Assumptions planned_mdct_correct_in_both_builds.
Example planned_mdct_correct_in_both_builds_case : exists a,
  snd (plan_mdct_ck Debug 255 18 window_one (after_ck Debug 255 reference_fft [CDct4 18])) = Ok a /\
  correct_mdct (arc_val a) 18 (window_one 36).
Proof.
  apply (planned_mdct_correct_in_both_builds Debug 255 reference_fft [CDct4 18] 18 window_one
    (proj1 reference_fft_fits) (proj2 reference_fft_fits)); try reflexivity.
  - repeat (apply Forall_cons; [apply reference_admissible; cbn; lia|]). apply Forall_nil.
  - apply reference_admissible; cbn; lia.
Qed.

(** C52: the naive MDCT starts its walk through the table of cosines at entry
    [(n/2 + k * (n + 1)) % (4 * n)].  While that sum can be represented for every [k] both builds
    compute what is computed with unbounded naturals; the naive IMDCT has no such limit. *)
Theorem mdct_naive_construction_in_both_builds : forall T F (N : Num T F) B MAX n w, 4 * n <= MAX ->
  MdctNaive_new_ck B MAX n w = MdctNaive_new n w.
Proof. intros T F N B MAX. exact (MdctNaive_new_eq MAX B). Qed.
Print Assumptions mdct_naive_construction_in_both_builds.
Theorem mdct_naive_same_while_representable : forall T F (N : Num T F) B MAX n w d, MdctNaive_new n w = Ok d ->
  8 * n + 2 <= MAX -> n / 2 + (n - 1) * (n + 1) <= MAX ->
  same_method4 B (MdctNaive_mdct_ck B MAX d) (MdctNaive_mdct d).
Proof. intros T F N B MAX. exact (naive_same MAX B). Qed.
Print Assumptions mdct_naive_same_while_representable.
Theorem imdct_naive_same_in_both_builds : forall T F (N : Num T F) B MAX n w d, MdctNaive_new n w = Ok d ->
  8 * n + 2 <= MAX -> same_method4 B (MdctNaive_imdct_ck B MAX d) (MdctNaive_imdct d).
Proof. intros T F N B MAX. exact (naive_same_inverse MAX B). Qed.
Print Assumptions imdct_naive_same_in_both_builds.

(** C52: beyond, the forward transform panics in a debug build on all inputs. *)
Theorem mdct_naive_debug_panics_beyond : forall T F (N : Num T F) MAX n w d a b out scratch, MdctNaive_new n w = Ok d ->
  8 * n + 2 <= MAX -> MAX < n / 2 + (n - 1) * (n + 1) ->
  length a = n -> length b = n -> length out = n ->
  exists r, call4 (MdctNaive_mdct_ck Debug MAX d) a b out scratch = Panics EOverflow r.
Proof. intros T F N. exact naive_panics. Qed.
Print Assumptions mdct_naive_debug_panics_beyond.

(** C52: in a release build, what it computes at any size; *)
Theorem mdct_naive_release_value : forall MAX n (w : nat -> list R) d, MdctNaive_new n w = Ok d -> 8 * n + 2 <= MAX ->
  implements_mdct (MdctNaive_mdct_ck Release MAX d) n 0
    (fun a b => map (wrapped_mdct_at MAX n (w (n * 2)) (a ++ b)) (seq 0 n)).
Proof. exact naive_release. Qed.
Print Assumptions mdct_naive_release_value.
(** which is the MDCT if the length of the table divides the number of words, *)
Theorem mdct_naive_release_right : forall MAX n (w : nat -> list R) d, MdctNaive_new n w = Ok d -> 8 * n + 2 <= MAX ->
  (MAX + 1) mod (4 * n) = 0 ->
  implements_mdct (MdctNaive_mdct_ck Release MAX d) n 0 (fun a b => mdct_of n (w (n * 2)) (a ++ b)).
Proof. exact release_right. Qed.
Print Assumptions mdct_naive_release_right.
(** and is not, for some input, at every other size beyond. *)
Theorem mdct_naive_correct_at_every_size_refuted : forall MAX n (w : nat -> list R) d, MdctNaive_new n w = Ok d ->
  8 * n + 2 <= MAX -> MAX < n / 2 + (n - 1) * (n + 1) -> (MAX + 1) mod (4 * n) <> 0 ->
  nth 0 (w (n * 2)) 0%R <> 0%R -> nth 1 (w (n * 2)) 0%R <> 0%R ->
  exists a b, length a = n /\ length b = n /\
    forall out scratch, length out = n -> exists r,
      call4 (MdctNaive_mdct_ck Release MAX d) a b out scratch = Returned (a, b, r, scratch) /\
      r <> mdct_of n (w (n * 2)) (a ++ b).
Proof. exact release_wrong. Qed.
Print Assumptions mdct_naive_correct_at_every_size_refuted.

(** Sizes of each kind with words of 8 bits, *)
Definition naive_of (n : nat) : mdct_naive R :=
  mkMdctNaive (map (fun i => from_f64 (f_cos (f_mul (f_div (f_mul f_half f_pi) (f_of_nat n)) (f_add (f_of_nat i) f_half)))) (seq 0 (n * 4)))
    (window_one (n * 2)).
Example mdct_naive_8_bits :
  same_method4 Debug (MdctNaive_mdct_ck Debug 255 (naive_of 14)) (MdctNaive_mdct (naive_of 14)) /\
  same_method4 Release (MdctNaive_imdct_ck Release 255 (naive_of 18)) (MdctNaive_imdct (naive_of 18)) /\
  (exists r, call4 (MdctNaive_mdct_ck Debug 255 (naive_of 16)) (repeat 0%R 16) (repeat 0%R 16) (repeat 0%R 16) [] = Panics EOverflow r) /\
  implements_mdct (MdctNaive_mdct_ck Release 255 (naive_of 16)) 16 0 (fun a b => mdct_of 16 (window_one 32) (a ++ b)) /\
  ~ implements_mdct (MdctNaive_mdct_ck Release 255 (naive_of 18)) 18 0 (fun a b => mdct_of 18 (window_one 36) (a ++ b)).
Proof.
  split; [|split; [|split; [|split]]].
  - apply (mdct_naive_same_while_representable _ _ _ Debug 255 14 window_one); [reflexivity|cbn; lia|cbn; lia].
  - apply (imdct_naive_same_in_both_builds _ _ _ Release 255 18 window_one); [reflexivity|cbn; lia].
  - apply (mdct_naive_debug_panics_beyond _ _ _ 255 16 window_one); try reflexivity; cbn; lia.
  - apply (mdct_naive_release_right 255 16 window_one); [reflexivity|cbn; lia|reflexivity].
  - intros K. destruct (mdct_naive_correct_at_every_size_refuted 255 18 window_one (naive_of 18)) as (a & b & La & Lb & H);
      try reflexivity; try (cbn; lia); try (cbn; lra); try discriminate.
    destruct (H (repeat 0%R 18) [] eq_refl) as (r & C & Ne).
    destruct (K a b (repeat 0%R 18) [] La Lb eq_refl ltac:(lia)) as (s2 & C2 & _).
    rewrite C in C2. apply (f_equal (fun o => match o with Returned (_, _, y, _) => y | _ => [] end)) in C2. exact (Ne C2).
Qed.
(** and with words of 32 bits: 65534 is the last size before, the size 65536 is right in a
    release build, and 65538 is wrong. *)
Example mdct_naive_32_bits : forall MAX n, Z.of_nat MAX = (2 ^ 32 - 1)%Z ->
  (Z.of_nat n = 65534%Z -> 8 * n + 2 <= MAX /\ n / 2 + (n - 1) * (n + 1) <= MAX) /\
  (Z.of_nat n = 65536%Z -> 8 * n + 2 <= MAX /\ MAX < n / 2 + (n - 1) * (n + 1) /\ (MAX + 1) mod (4 * n) = 0) /\
  (Z.of_nat n = 65538%Z -> 8 * n + 2 <= MAX /\ MAX < n / 2 + (n - 1) * (n + 1) /\ (MAX + 1) mod (4 * n) <> 0).
Proof.
  intros MAX n HM. split; [|split]; intros Hn.
  - split; [lia|]. apply Nat2Z.inj_le. rewrite Nat2Z.inj_add, Nat2Z.inj_mul, Nat2Z.inj_div. rewrite Nat2Z.inj_sub, Nat2Z.inj_add, HM, Hn by lia. vm_compute. discriminate.
  - split; [lia|]. split.
    + apply Nat2Z.inj_lt. rewrite Nat2Z.inj_add, Nat2Z.inj_mul, Nat2Z.inj_div. rewrite Nat2Z.inj_sub, Nat2Z.inj_add, HM, Hn by lia. reflexivity.
    + apply Nat2Z.inj. rewrite Nat2Z.inj_mod, Nat2Z.inj_add, Nat2Z.inj_mul, HM, Hn. reflexivity.
  - split; [lia|]. split.
    + apply Nat2Z.inj_lt. rewrite Nat2Z.inj_add, Nat2Z.inj_mul, Nat2Z.inj_div. rewrite Nat2Z.inj_sub, Nat2Z.inj_add, HM, Hn by lia. reflexivity.
    + intros E. apply (f_equal Z.of_nat) in E. rewrite Nat2Z.inj_mod, Nat2Z.inj_add, Nat2Z.inj_mul, HM, Hn in E. discriminate.
Qed.
