(** Depth of the computation, and overflow: what claims C58 and C59 are stated with. *)
From Coq Require Import Reals List Arith.
From Verif Require Import Prog Num Model_Common Model_Plan Model_Api Spec Spec_Round.
Import ListNotations.
Open Scope nat_scope.

(** ** Time *)
(** A sample is the time at which its value is known.  A sum or difference is known [a] after both its operands, a product
    [m] after both its factors.  Negation takes no time and the tables are there from the start. *)
Definition Clock (a m : nat) : Num nat unit := {|
  f_of_nat := fun _ => tt; f_pi := tt; f_half := tt; f_one := tt; f_two := tt; f_four := tt;
  f_neg := fun _ => tt; f_add := fun _ _ => tt; f_sub := fun _ _ => tt; f_mul := fun _ _ => tt; f_div := fun _ _ => tt;
  f_cos := fun _ => tt; f_sin := fun _ => tt; f_sqrt := fun _ => tt;
  zero := 0; one := 0; add := fun x y => a + Nat.max x y; sub := fun x y => a + Nat.max x y;
  mul := fun x y => m + Nat.max x y; neg := fun x => x; from_f64 := fun _ => 0; sqrt_2 := 0; frac_1_sqrt_2 := 0 |}.

(** The most additions between the input and an output, for length 2^k; the most multiplications; and the multiplications
    on a path that also has the most additions. *)
Definition adds_deep {T} (c : pcall T) (k : nat) : nat := match c with CDct4 _ | CDst4 _ => 3 * k / 2 | _ => (3 * k - 1) / 2 end.
Definition muls_deep {T} (c : pcall T) (k : nat) : nat :=
  match c with CDct2 _ | CDst2 _ => (k + 1) / 2 | CDct3 _ | CDst3 _ => (k + 1) / 2 + 1 | _ => k / 2 + 2 end.
Definition muls_along {T} (c : pcall T) (k : nat) : nat :=
  match c with CDct2 _ | CDst2 _ | CDct3 _ | CDst3 _ => (k + 1) / 2 | _ => k / 2 + 1 end.

(** The transforms of length 2^k of types 2, 3 and 4 that are planned without naive algorithms. *)
Definition power_call {T} (k : nat) (c : pcall T) : Prop :=
  1 <= k /\ In c [CDct2 (2 ^ k); CDct3 (2 ^ k); CDst2 (2 ^ k); CDst3 (2 ^ k)] \/ 3 <= k /\ In c [CDct4 (2 ^ k); CDst4 (2 ^ k)].

(** ** Overflow *)
Open Scope R_scope.
(** The arithmetic [N] with results of magnitude above [top] replaced by [None], which stands for infinities and NaN and
    which every further operation returns.  The [f64] values are left as they are. *)
Definition clip (top x : R) : option R := if Rle_dec (Rabs x) top then Some x else None.
Definition lift1 (top : R) (f : R -> R) (x : option R) : option R := match x with Some a => clip top (f a) | None => None end.
Definition lift2 (top : R) (f : R -> R -> R) (x y : option R) : option R := match x, y with Some a, Some b => clip top (f a b) | _, _ => None end.
Definition Overflow (top : R) (N : Num R R) : Num (option R) R := {|
  f_of_nat := f_of_nat; f_pi := f_pi; f_half := f_half; f_one := f_one; f_two := f_two; f_four := f_four;
  f_neg := f_neg; f_add := f_add; f_sub := f_sub; f_mul := f_mul; f_div := f_div; f_cos := f_cos; f_sin := f_sin; f_sqrt := f_sqrt;
  zero := clip top zero; one := clip top one; add := lift2 top add; sub := lift2 top sub; mul := lift2 top mul; neg := lift1 top neg;
  from_f64 := fun x => clip top (from_f64 x); sqrt_2 := clip top sqrt_2; frac_1_sqrt_2 := clip top frac_1_sqrt_2 |}.
(** What one addition, and one multiplication with a table entry, can make of a magnitude of at most 1. *)
Definition add_gain (u : R) : R := 2 * (1 + u).
Definition mul_gain (u v : R) : R := (1 + u) ^ 2 * (1 + v) ^ 2.
