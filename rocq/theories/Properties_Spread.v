(** C65: NaN and the like reach every output that depends on them. *)
From Coq Require Import List Reals Lia Lra Floats.SpecFloat.
From Verif Require Import Prog Num Model_Common Model_Mdct Model_Plan Model_Api Spec Spec_Api Spec_Fft Spec_Plan Spec_Methods Spec_Param Spec_Spread Spec_Binary
  Spread Binary.
Import ListNotations.
Open Scope nat_scope.

(** C65: a bad input makes bad every output that depends on it by the definition of the transform. *)
Theorem bad_spreads : forall {T F} {N : Num T F} (bad : T -> Prop) pf cs (c : pcall T), absorbs bad -> legal c ->
  no_fft c \/ (fft_fits pf /\ forall n, fft_spreads bad (pf n)) ->
  exists g sl, planned_method c (after pf cs) = Some (g, sl) /\
  forall x s, length x = size c -> sl <= length s -> exists y s', call g x s = Returned (y, s') /\ length y = size c /\
  forall j k, j < size c -> k < size c -> bad (nth j x zero) -> depends c k j -> bad (nth k y zero).
Proof. intros T F N bad pf cs c A. exact (spread_planned bad A pf cs c). Qed.
Print Assumptions bad_spreads.

(** C65: where every output depends on every input, one bad input makes all outputs bad. *)
Theorem bad_everywhere : forall {T F} {N : Num T F} (bad : T -> Prop) pf cs (c : pcall T), absorbs bad -> legal c -> dense c ->
  no_fft c \/ (fft_fits pf /\ forall n, fft_spreads bad (pf n)) ->
  exists g sl, planned_method c (after pf cs) = Some (g, sl) /\
  forall x s, length x = size c -> sl <= length s -> Exists bad x ->
  exists y s', call g x s = Returned (y, s') /\ length y = size c /\ Forall bad y.
Proof. intros T F N bad pf cs c A. exact (dense_planned bad A pf cs c). Qed.
Print Assumptions bad_everywhere.

(** C65: one bad entry of either input makes all outputs of the MDCT bad; one bad input makes all outputs of
    the IMDCT bad; and what was bad in an output buffer of the IMDCT stays bad. *)
Theorem bad_mdct : forall {T F} {N : Num T F} (bad : T -> Prop) pf cs n w, absorbs bad -> fft_fits pf -> n mod 2 = 0 ->
  length (window_in_force cs n w (n * 2)) = n * 2 -> no_fft (CMdct n w) \/ (forall n, fft_spreads bad (pf n)) ->
  exists o, snd (plan_mdct n w (after pf cs)) = Ok o /\
  forall x y z s, length x = n -> length y = n -> length z = n -> m_scratch (arc_val o) <= length s ->
  (exists p q r s', call4 (t_mdct (arc_val o)) x y z s = Returned (p, q, r, s') /\ length r = n /\ (Exists bad x \/ Exists bad y -> Forall bad r)) /\
  (exists p q r s', call4 (t_imdct (arc_val o)) x y z s = Returned (p, q, r, s') /\ length (q ++ r) = 2 * n /\ (Exists bad x -> Forall bad (q ++ r)) /\
    forall i, i < 2 * n -> bad (nth i (y ++ z) zero) -> bad (nth i (q ++ r) zero)).
Proof. intros T F N bad pf cs n w A Hpf. exact (everywhere_mdct bad A pf Hpf cs n w). Qed.
Print Assumptions bad_mdct.

(** C65: in the arithmetic of IEEE 754 no operation gets rid of a NaN, and none makes a finite number
    out of an operand that is not. *)
Theorem binary_absorbs : forall prec emax c s,
  absorbs (N := Binary prec emax c s) not_a_number /\ absorbs (N := Binary prec emax c s) not_finite.
Proof. intros prec emax c s. exact (conj (binary_nan prec emax c s) (binary_not_finite prec emax c s)). Qed.
Print Assumptions binary_absorbs.

(** C65: so in [f32] and [f64] one finite output shows that all the inputs were finite. *)
Theorem finite_output : forall prec emax co si pf cs (c : pcall spec_float), let N := Binary prec emax co si in
  legal c -> dense c -> no_fft c \/ (fft_fits pf /\ forall n, fft_spreads not_finite (pf n)) ->
  exists g sl, planned_method c (after pf cs) = Some (g, sl) /\
  forall x s, length x = size c -> sl <= length s -> exists y s', call g x s = Returned (y, s') /\ length y = size c /\
  ((exists v, In v y /\ ~ not_finite v) -> Forall (fun v => ~ not_finite v) x).
Proof. intros prec emax co si pf cs c N. exact (finite_dense prec emax co si pf cs c). Qed.
Print Assumptions finite_output.

(** The cases: binary32 with whatever [cos] and [sin], a NaN in a DCT4 of length 6 by way of an FFT, one in the
    MDCT of length 4, and a DCT2 of length 4 computed. *)
Section Cases.
Variables co si : spec_float -> spec_float.
#[local] Instance N32 : Num spec_float spec_float := binary32 co si.
Variable tw : nat -> nat -> spec_float * spec_float.
Example bad_everywhere_case : exists g sl, planned_method (CDct4 6) (after (summed_fft tw) [CDst4 6; CDct2 5]) = Some (g, sl) /\
  forall s, sl <= length s -> exists y s', call g [one; zero; S754_nan; one; neg one; one] s = Returned (y, s') /\ length y = 6 /\ Forall not_a_number y.
Proof.
  pose proof (binary_nan 24 128 co si) as A.
  destruct (bad_everywhere (N := N32) not_a_number (summed_fft tw) [CDst4 6; CDct2 5] (CDct4 6) A) as (g & sl & E & P); [cbn; lia|exact I| |].
  - right. split; [apply summed_fits|]. intros n. apply summed_spreads, A.
  - exists g, sl. split; [exact E|]. intros s Hs. apply P; [reflexivity|exact Hs|]. do 2 apply Exists_cons_tl. apply Exists_cons_hd. reflexivity.
Qed.
Example bad_spreads_case : exists g sl, planned_method (CDct5 3) (after (summed_fft tw) []) = Some (g, sl) /\
  forall s, sl <= length s -> exists y s', call g [one; S754_infinity true; zero] s = Returned (y, s') /\ not_finite (nth 2 y zero).
Proof.
  pose proof (binary_not_finite 24 128 co si) as A.
  destruct (bad_spreads (N := N32) not_finite (summed_fft tw) [] (CDct5 3) A) as (g & sl & E & P); [cbn; lia|left; exact I|].
  exists g, sl. split; [exact E|]. intros s Hs. destruct (P [one; S754_infinity true; zero] s eq_refl Hs) as (y & s' & Ey & _ & Q). exists y, s'. split; [exact Ey|].
  apply (Q 1 2); [cbn; lia|cbn; lia|exact I|]. apply dense_depends; [exact I|cbn; lia|cbn; lia].
Qed.
Example bad_mdct_case : exists o, snd (plan_mdct 4 (fun m => repeat one m) (after (summed_fft tw) [CDct4 2])) = Ok o /\
  exists p q r s', call4 (t_mdct (arc_val o)) (repeat one 4) [one; one; one; S754_nan] (repeat zero 4) (repeat zero (m_scratch (arc_val o))) = Returned (p, q, r, s') /\
  length r = 4 /\ Forall not_a_number r.
Proof.
  pose proof (binary_nan 24 128 co si) as A.
  destruct (bad_mdct (N := N32) not_a_number (summed_fft tw) [CDct4 2] 4 (fun m => repeat one m) A) as (o & E & P).
  - apply summed_fits.
  - reflexivity.
  - reflexivity.
  - left. exists 2. reflexivity.
  - exists o. split; [exact E|].
    destruct (P (repeat one 4) [one; one; one; S754_nan] (repeat zero 4) (repeat zero (m_scratch (arc_val o)))) as [(p & q & r & s' & Er & Lr & Q) _]; try reflexivity.
    + rewrite repeat_length. reflexivity.
    + exists p, q, r, s'. split; [exact Er|]. split; [exact Lr|]. apply Q. right. do 3 apply Exists_cons_tl. apply Exists_cons_hd. reflexivity.
Qed.
Example finite_output_case : exists g sl, planned_method (CDct2 4) (after (summed_fft tw) []) = Some (g, sl) /\
  forall x, length x = 4 -> exists y s', call g x (repeat zero sl) = Returned (y, s') /\ ((exists v, In v y /\ ~ not_finite v) -> Forall (fun v => ~ not_finite v) x).
Proof.
  destruct (finite_output 24 128 co si (summed_fft tw) [] (CDct2 4)) as (g & sl & E & P); [cbn; lia|exists 2; reflexivity|left; exists 1; reflexivity|].
  exists g, sl. split; [exact E|]. intros x Lx. destruct (P x (repeat zero sl) Lx) as (y & s' & Ey & _ & Q); [rewrite repeat_length; lia|]. eauto.
Qed.
End Cases.
Example computed_case :
  let N := binary32 (fun x => x) (fun x => x) in
  option_map (fun p => process (fst p) (snd p) [one; one; one; S754_nan]) (planned_method (CDct2 4) (planner_new (summed_fft (fun _ _ => (zero, zero))))) =
  Some (Returned [S754_nan; S754_nan; S754_nan; S754_nan]).
Proof. vm_compute. reflexivity. Qed.
