(** A transform and its inverse, called in turns in rounded arithmetic. *)
From Coq Require Import Reals List.
From Verif Require Import Prog Num Model_Common Model_Api Spec Spec_Round.
Import ListNotations.
Open Scope R_scope.

Section Trip.
Context {N : Num R R}.
Variables (f : meth R) (sl : nat) (g : meth R) (sl' : nat).
(** [z] is what [j] calls of [f] and [g] in turns, each with enough scratch of any contents, make of [x]. *)
Inductive round_trips : nat -> list R -> list R -> Prop :=
| no_trip x : round_trips 0 x x
| one_more j x y s a t s' z t' : round_trips j x y -> (sl <= length s)%nat -> call f y s = Returned (a, t) ->
    (sl' <= length s')%nat -> call g a s' = Returned (z, t') -> round_trips (S j) x z.
(** On buffers of length [n], [j] round trips can always be made. *)
Definition trips_return (n : nat) : Prop := forall x, length x = n -> forall j, exists z, round_trips j x z.
(** After [j] round trips a buffer of length [n] is [m]^[j] times what it was, up to [e j] times its norm. *)
Definition trips_restore (n : nat) (m : R) (e : nat -> R) : Prop := forall x, length x = n -> forall j z,
  round_trips j x z -> length z = n /\ dist z (scale (m ^ j) x) <= e j * norm (scale (m ^ j) x).
End Trip.
