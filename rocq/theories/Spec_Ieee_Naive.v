(** What claim C67 is stated with. *)
From Coq Require Import Reals List ZArith Floats.SpecFloat.
From Verif Require Import Prog Num Model_Common Model_Plan Model_Api Spec Spec_Api Spec_Entry Spec_Ieee754 Spec_Binary.
Open Scope R_scope.

(** The requests the planner serves with the definition itself, a sum of [n] products for each output. *)
Definition naive_call {T} (c : pcall T) : Prop :=
  match c with
  | CDct5 _ | CDct6 _ | CDct7 _ | CDct8 _ | CDst5 _ | CDst8 _ => True
  | CDct1 n => (n < 10)%nat
  | CDst1 n => (n < 25)%nat
  | CDst6 n | CDst7 n => (n < 45)%nat
  | CDct4 n | CDst4 n => (n < 6)%nat
  | _ => False
  end.
(** A bound for all values in such a sum of inputs whose magnitudes add up to [S], when operations err by a relative [u] plus an absolute [eta]. *)
Definition dot_top (u v eta : R) (n : nat) (S : R) : R :=
  S * ((1 + u) ^ (n + 2) * (1 + (tau u v + eta))) + 3 * INR n * eta * (1 + (tau u v + eta)) * (1 + u) ^ (n + 1).
(** On [n] finite inputs, [f] returns finite numbers, within [wide S - S] of what [tr] gives for the real numbers the inputs stand for, where [S] is the sum of their magnitudes,
    if [wide S] is within the range of the format; whatever the scratch holds. *)
Definition sum_accurate (prec emax : Z) (co si : spec_float -> spec_float) (f : meth spec_float) (n sl : nat) (tr : list R -> list R) (wide : R -> R) : Prop :=
  forall x s, length x = n -> (sl <= length s)%nat -> Forall (number prec emax) x -> let S := total (map real_of x) in wide S <= greatest prec emax ->
  exists y t, call (N := Binary prec emax co si) f x s = Returned (y, t) /\ Forall (number prec emax) y /\
    Forall2 (fun z b => Rabs (real_of z - b) <= wide S - S) y (tr (map real_of x)).
