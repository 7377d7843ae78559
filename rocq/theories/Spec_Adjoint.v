(** Weighted inner products. *)
From Coq Require Import List Arith Bool Reals.
From Verif Require Import Model_Plan Spec Spec_Methods.
Import ListNotations.
Open Scope R_scope.

(** The sum of w(i) x(i) y(i). *)
Definition inner (w : nat -> R) (x y : list R) : R := sum (fun i => w i * nth i x 0 * nth i y 0) (length x).
Definition plain (i : nat) : R := 1.

(** One half at the ends of the input that the definition of the transform halves. *)
Definition end_weight (c : pcall R) (i : nat) : R :=
  let first := (i =? 0)%nat in
  let last := (i =? size c - 1)%nat in
  match c with
  | CDct1 _ => half_when (first || last)
  | CDct3 _ | CDct5 _ | CDct7 _ => half_when first
  | CDct6 _ | CDst3 _ | CDst8 _ => half_when last
  | _ => 1
  end.
