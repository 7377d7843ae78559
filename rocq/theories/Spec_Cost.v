(** How many accesses each planned transform may make. *)
From Coq Require Import List Arith Bool.
From Verif Require Import Prog Num Model_Common Model_Plan Spec_Methods.
Import ListNotations.
Open Scope nat_scope.

Definition power_of_two (n : nat) : bool := 2 ^ Nat.log2 n =? n.

Section Cost.
Context {T : Type}.
Variable pf : nat -> fft T.

(** Work with an FFT of length [m] besides the steps of the FFT itself: the library
    is counted as reading and writing its buffer and its scratch once. *)
Definition scratch_work (m : nat) : nat := 4 * fft_scratch (pf m).

(** Types 2 and 3: n log n without an FFT when the length is a power of two, and
    linear besides one FFT of the same length otherwise. *)
Definition budget23 (n : nat) : nat :=
  if power_of_two n && (2 <=? n) then 6 * n * (Nat.log2 n + 1) else 16 * n + 16 + scratch_work n.
(** Type 4: n log n for powers of two, otherwise linear besides two FFTs of half the
    length or one of the same length. *)
Definition budget4 (n : nat) : nat :=
  if power_of_two n then 4 * n * (Nat.log2 n + 2)
  else if Nat.even n then 40 * n + 40 + 2 * scratch_work (n / 2)
  else 40 * n + 40 + scratch_work n.

(** Types 1 and DST 6 and 7 are linear besides one FFT; DCT 5 to 8, DST 5 and DST 8
    have only the quadratic algorithm. *)
Definition budget (c : pcall T) : nat :=
  match c with
  | CDct1 n => 40 * n + scratch_work (2 * (n - 1))
  | CDst1 n => 80 * n + scratch_work (2 * (n + 1))
  | CDct2 n | CDct3 n | CDst2 n | CDst3 n => budget23 n
  | CDct4 n | CDst4 n => budget4 n
  | CDst6 n | CDst7 n => 160 * n + scratch_work (2 * n + 1)
  | CDct5 n | CDct6 n | CDct7 n | CDct8 n | CDst5 n | CDst8 n => 4 * n * (n + 1) + 4
  | CMdct n _ => budget4 n + 8 * n
  end.
End Cost.
