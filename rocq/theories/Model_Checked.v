(** [usize] arithmetic of the compiled program.  The other model files compute sums and products
    of [usize] values in [nat], and their subtraction panics below zero.  A debug build panics
    when a result leaves [0..MAX], where [MAX] is [usize::MAX] of the target; a release build
    (without [overflow-checks]) keeps the result modulo [MAX + 1].  The [Model_Checked_*] files
    repeat every function of the crate that computes with [usize] values, with these
    operations. *)
From Coq Require Import List Arith Bool.
From Verif Require Import Prog Model_Common.
Import ListNotations.

Inductive build := Debug | Release.
(** What [a op b] gives when its exact value is out of range and [w] is that value modulo
    [MAX + 1]. *)
Definition overflow {T} (B : build) (w : nat) : prog T nat :=
  match B with Debug => Panic EOverflow | Release => Ret w end.
(** [a + b], [a * b], [a - b]. *)
Definition uadd {T} (B : build) (MAX a b : nat) : prog T nat :=
  if a + b <=? MAX then Ret (a + b) else overflow B ((a + b) mod (MAX + 1)).
Definition umul {T} (B : build) (MAX a b : nat) : prog T nat :=
  if a * b <=? MAX then Ret (a * b) else overflow B ((a * b) mod (MAX + 1)).
Definition usub_ck {T} (B : build) (MAX a b : nat) : prog T nat :=
  if b <=? a then Ret (a - b) else overflow B (a + (MAX + 1) - b).
(** Operands are evaluated from left to right. *)
Definition ulift {T} (op : nat -> nat -> prog T nat) (x y : prog T nat) : prog T nat :=
  a <- x ;; b <- y ;; op a b.

(** An expression in a constructor, where nothing is read or written. *)
Definition rof {T A} (p : prog T A) : result A :=
  match p with Ret a => Ok a | Panic e => Err e | _ => Err EFuel end.
(** [(0..n).map(f).collect()] where [f] may panic. *)
Fixpoint rmap_list {A B} (f : A -> result B) (l : list A) : result (list B) :=
  match l with
  | [] => Ok []
  | x :: l' => y <-? f x ;; ys <-? rmap_list f l' ;; Ok (y :: ys)
  end.

(** [<{ a * 2 + 1 }>] is a program that computes the expression with checks; [r<{ .. }>] the same
    in a constructor; ['(e)] is a value that involves no checked operation. *)
Declare Custom Entry usize.
Notation "<{ e }>" := e (e custom usize at level 99, only parsing).
Notation "r<{ e }>" := (rof (T := unit) e) (e custom usize at level 99, only parsing).
Notation "x" := (Ret x) (in custom usize at level 0, x ident, only parsing).
Notation "1" := (Ret 1) (in custom usize at level 0, only parsing).
Notation "2" := (Ret 2) (in custom usize at level 0, only parsing).
Notation "3" := (Ret 3) (in custom usize at level 0, only parsing).
Notation "4" := (Ret 4) (in custom usize at level 0, only parsing).
Notation "8" := (Ret 8) (in custom usize at level 0, only parsing).
Notation "( x )" := x (in custom usize, x at level 99, only parsing).
Notation "' x" := (Ret x) (in custom usize at level 0, x constr at level 9, only parsing).
