(** How many instances a planner creates (C54). *)
From Coq Require Import List Arith Bool.
From Verif Require Import Prog Num Model_Common Model_Plan.
Import ListNotations.

Section Count.
Context {T F : Type} {N : Num T F}.

(** Every [Arc::new] in src/plan.rs takes the next number. *)
Definition instances (p : planner T) : nat := p_next p.

Definition is_pow2 (n : nat) : bool := 2 ^ Nat.log2 n =? n.
(** DCT2, DCT3, DST2, DST3: sizes 2^k, 2^(k-1), ..., 8 from 32 on, else one. *)
Definition chain23 (n : nat) : nat := if is_pow2 n && (32 <=? n) then Nat.log2 n - 2 else 1.
Definition chain4 (n : nat) : nat := if Nat.even n && (6 <=? n) then 1 + chain23 (n / 2) else 1.
(** How many instances one call needs on a new planner. *)
Definition chain (c : pcall T) : nat :=
  match c with
  | CDct2 n | CDct3 n | CDst2 n | CDst3 n => chain23 n
  | CDct4 n | CDst4 n => chain4 n
  | CMdct n _ => 1 + chain4 n
  | _ => 1
  end.
End Count.
