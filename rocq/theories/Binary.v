(** NaN, and any value that is not finite, in the arithmetic of IEEE 754. *)
From Coq Require Import List Arith Lia ZArith Floats.SpecFloat.
From Verif Require Import Prog Num Model_Common Model_Plan Model_Api Spec_Api Spec_Fft Spec_Plan Spec_Methods Spec_Param Spec_Spread Spec_Binary Spread.
Import ListNotations.
Open Scope nat_scope.

Lemma binary_nan prec emax c s : absorbs (N := Binary prec emax c s) not_a_number.
Proof.
  unfold not_a_number. split; cbn.
  - intros a ->. reflexivity.
  - intros a b [-> | ->]; [reflexivity|destruct a; reflexivity].
  - intros a b [-> | ->]; [reflexivity|destruct a; reflexivity].
  - intros a b [-> | ->]; [reflexivity|destruct a; reflexivity].
Qed.
Lemma binary_not_finite prec emax c s : absorbs (N := Binary prec emax c s) not_finite.
Proof.
  split; cbn [neg add sub mul Binary].
  - intros []; cbn; tauto.
  - intros [] [] [H|H]; cbn in *; try tauto; try (destruct (Bool.eqb _ _); exact I).
  - intros [] [] [H|H]; cbn in *; try tauto; try (destruct (Bool.eqb _ _); exact I).
  - intros [] [] [H|H]; cbn in *; tauto.
Qed.
Lemma finite_dense prec emax co si pf cs (c : pcall spec_float) : let N := Binary prec emax co si in
  legal c -> dense c -> no_fft c \/ (fft_fits pf /\ forall n, fft_spreads not_finite (pf n)) ->
  exists g sl, planned_method c (after pf cs) = Some (g, sl) /\
  forall x s, length x = size c -> sl <= length s -> exists y s', call g x s = Returned (y, s') /\ length y = size c /\
  ((exists v, In v y /\ ~ not_finite v) -> Forall (fun v => ~ not_finite v) x).
Proof.
  intros N Hl Hd Hf. pose proof (binary_not_finite prec emax co si) as A.
  destruct (spread_planned (N := N) not_finite A pf cs c Hl Hf) as (g & sl & E & P). exists g, sl. split; [exact E|]. intros x s Lx Ls.
  destruct (P x s Lx Ls) as (y & s' & Ey & Ly & Q). exists y, s'. split; [exact Ey|]. split; [exact Ly|]. intros (v & I & Hv).
  apply Forall_nth. intros j d Hj Hb. apply Hv. rewrite (nth_indep _ _ zero) in Hb by exact Hj. rewrite Lx in Hj.
  apply (In_nth _ _ zero) in I. destruct I as (k & Hk & <-). rewrite Ly in Hk. apply (Q j k Hj Hk Hb). apply dense_depends; assumption.
Qed.
