(** Programs over a flat memory.

    A call such as [process_dct2_with_scratch] is a sequence of reads and writes
    of single cells of type [T] that ends by returning or by panicking.  Memory
    reached before a panic is kept: Rust unwinding does not undo writes made
    through [&mut [T]]. *)
From Coq Require Import List Arith Lia Bool.
Import ListNotations.

(** Reasons for a panic.  [EOverflow] is the debug-build panic of a [usize]
    subtraction that goes below zero.  [EFuel] marks fuel exhaustion of a
    modelled loop; it is not a Rust panic and is proved unreachable. *)
Inductive perr :=
| EIndex | EOverflow | EUnwrap | ESplit | ECopyLen
| EBufLen | EScratchLen | EMdctLen
| EAssert | EFft | EFuel.

Inductive prog (T A : Type) : Type :=
| Ret (a : A)
| Rd (p : nat) (k : T -> prog T A)
| Wr (p : nat) (v : T) (k : prog T A)
| Panic (e : perr)
| UB.
Arguments Ret {T A}.
Arguments Rd {T A}.
Arguments Wr {T A}.
Arguments Panic {T A}.
Arguments UB {T A}.

Fixpoint bind {T A B} (p : prog T A) (f : A -> prog T B) : prog T B :=
  match p with
  | Ret a => f a
  | Rd q k => Rd q (fun v => bind (k v) f)
  | Wr q v k => Wr q v (bind k f)
  | Panic e => Panic e
  | UB => UB
  end.

Declare Scope prog_scope.
Delimit Scope prog_scope with prog.
Notation "x <- p ;; q" := (bind p (fun x => q))
  (at level 61, p at next level, right associativity) : prog_scope.
Notation "p ;;; q" := (bind p (fun _ => q))
  (at level 61, right associativity) : prog_scope.
Open Scope prog_scope.

Definition mem (T : Type) := nat -> T.

Definition upd {T} (m : mem T) (p : nat) (v : T) : mem T :=
  fun q => if Nat.eqb q p then v else m q.

Inductive outcome (T A : Type) : Type :=
| Done (a : A) (m : mem T)
| Panicked (e : perr) (m : mem T)
| Undef.
Arguments Done {T A}.
Arguments Panicked {T A}.
Arguments Undef {T A}.

Fixpoint run {T A} (p : prog T A) (m : mem T) : outcome T A :=
  match p with
  | Ret a => Done a m
  | Rd q k => run (k (m q)) m
  | Wr q v k => run k (upd m q v)
  | Panic e => Panicked e m
  | UB => Undef
  end.

(** A slice [&mut [T]] or [&[T]]: address of its first cell and its length. *)
Record slice := mkS { base : nat; slen : nat }.

(** A slice of [Complex<T>]: element [i] occupies cells [cbase + 2*i] (re) and
    [cbase + 2*i + 1] (im). *)
Record cslice := mkC { cbase : nat; clen : nat }.

Section Ops.
Context {T : Type}.
Notation P := (prog T).

(** [s[i]] as a value and as an assignment target. *)
Definition rd (s : slice) (i : nat) : P T :=
  if i <? slen s then Rd (base s + i) Ret else Panic EIndex.
Definition wr (s : slice) (i : nat) (v : T) : P unit :=
  if i <? slen s then Wr (base s + i) v (Ret tt) else Panic EIndex.

(** [s.get_unchecked(i)] and [s.get_unchecked_mut(i)]. *)
Definition rdu (s : slice) (i : nat) : P T :=
  if i <? slen s then Rd (base s + i) Ret else UB.
Definition wru (s : slice) (i : nat) (v : T) : P unit :=
  if i <? slen s then Wr (base s + i) v (Ret tt) else UB.

(** [s.get_mut(i).unwrap()]: a reference to one cell, as a one-cell slice. *)
Definition get_mut_unwrap (s : slice) (i : nat) : P slice :=
  if i <? slen s then Ret (mkS (base s + i) 1) else Panic EUnwrap.
(** [*cell] as a value and as an assignment target. *)
Definition deref (c : slice) : P T := rd c 0.
Definition assign (c : slice) (v : T) : P unit := wr c 0 v.

(** [a - b] on [usize]. *)
Definition usub (a b : nat) : P nat :=
  if b <=? a then Ret (a - b) else Panic EOverflow.

(** [list[i]] and [list.get_unchecked(i)] on an immutable table. *)
Definition idx {X} (l : list X) (i : nat) : P X :=
  match nth_error l i with Some x => Ret x | None => Panic EIndex end.
Definition idxu {X} (l : list X) (i : nat) : P X :=
  match nth_error l i with Some x => Ret x | None => UB end.

(** [s.get_mut(0..n)]. *)
Definition get_range (s : slice) (n : nat) : option slice :=
  if n <=? slen s then Some (mkS (base s) n) else None.

(** [s.split_at_mut(n)]. *)
Definition split_at_mut (s : slice) (n : nat) : P (slice * slice) :=
  if n <=? slen s
  then Ret (mkS (base s) n, mkS (base s + n) (slen s - n))
  else Panic ESplit.
Definition csplit_at_mut (s : cslice) (n : nat) : P (cslice * cslice) :=
  if n <=? clen s
  then Ret (mkC (cbase s) n, mkC (cbase s + 2 * n) (clen s - n))
  else Panic ESplit.

(** [&s[n..]], [&s[..n]]. *)
Definition slice_from (s : slice) (n : nat) : P slice :=
  if n <=? slen s then Ret (mkS (base s + n) (slen s - n)) else Panic EIndex.
Definition slice_to (s : slice) (n : nat) : P slice :=
  if n <=? slen s then Ret (mkS (base s) n) else Panic EIndex.
Definition cslice_from (s : cslice) (n : nat) : P cslice :=
  if n <=? clen s then Ret (mkC (cbase s + 2 * n) (clen s - n)) else Panic EIndex.
Definition cslice_to (s : cslice) (n : nat) : P cslice :=
  if n <=? clen s then Ret (mkC (cbase s) n) else Panic EIndex.
Definition list_from {X} (l : list X) (n : nat) : P (list X) :=
  if n <=? length l then Ret (skipn n l) else Panic EIndex.

(** Accesses to the elements of a complex slice. *)
Definition crd_re (s : cslice) (i : nat) : P T :=
  if i <? clen s then Rd (cbase s + 2 * i) Ret else Panic EIndex.
Definition crd_im (s : cslice) (i : nat) : P T :=
  if i <? clen s then Rd (cbase s + 2 * i + 1) Ret else Panic EIndex.
Definition crd (s : cslice) (i : nat) : P (T * T) :=
  re <- crd_re s i ;; im <- crd_im s i ;; Ret (re, im).
Definition cwr_im (s : cslice) (i : nat) (v : T) : P unit :=
  if i <? clen s then Wr (cbase s + 2 * i + 1) v (Ret tt) else Panic EIndex.
Definition cwr (s : cslice) (i : nat) (v : T * T) : P unit :=
  if i <? clen s
  then Wr (cbase s + 2 * i) (fst v) (Wr (cbase s + 2 * i + 1) (snd v) (Ret tt))
  else Panic EIndex.

(** Loops.  [for_range a b body] is [for i in a..b { body }];
    [fold_range] is the same loop updating a local variable;
    [while_] needs fuel. *)
Fixpoint for_n (i n : nat) (body : nat -> P unit) : P unit :=
  match n with
  | 0 => Ret tt
  | S n' => body i ;;; for_n (S i) n' body
  end.
Definition for_range (a b : nat) (body : nat -> P unit) : P unit :=
  for_n a (b - a) body.

Fixpoint fold_n {X} (i n : nat) (x : X) (body : nat -> X -> P X) : P X :=
  match n with
  | 0 => Ret x
  | S n' => y <- body i x ;; fold_n (S i) n' y body
  end.
Definition fold_range {X} (a b : nat) (x : X) (body : nat -> X -> P X) : P X :=
  fold_n a (b - a) x body.

Fixpoint while_ {X} (fuel : nat) (cond : X -> bool) (body : X -> P X) (x : X) : P X :=
  match fuel with
  | 0 => Panic EFuel
  | S f => if cond x then y <- body x ;; while_ f cond body y else Ret x
  end.

(** [dst.copy_from_slice(src)]. *)
Definition copy_from_slice (dst src : slice) : P unit :=
  if slen dst =? slen src
  then for_range 0 (slen dst) (fun i => v <- rd src i ;; wr dst i v)
  else Panic ECopyLen.

(** [s.reverse()]: swaps cells pairwise from the ends. *)
Definition reverse (s : slice) : P unit :=
  for_range 0 (slen s / 2) (fun i =>
    a <- rd s i ;; b <- rd s (slen s - 1 - i) ;;
    wr s i b ;;; wr s (slen s - 1 - i) a).

(** Reading and writing a whole complex slice (used for FFT calls). *)
Definition cread_all (s : cslice) : P (list (T * T)) :=
  fold_range 0 (clen s) [] (fun i l => c <- crd s i ;; Ret (l ++ [c])).
Definition cwrite_all (d : T * T) (s : cslice) (l : list (T * T)) : P unit :=
  for_range 0 (clen s) (fun i => cwr s i (nth i l d)).

(** Contents of a slice, and a memory holding a list from address 0 on. *)
Definition vals (m : mem T) (s : slice) : list T :=
  map (fun i => m (base s + i)) (seq 0 (slen s)).
Definition cvals (m : mem T) (s : cslice) : list (T * T) :=
  map (fun i => (m (cbase s + 2 * i), m (cbase s + 2 * i + 1))) (seq 0 (clen s)).
Definition mem_of (d : T) (l : list T) : mem T := fun p => nth p l d.

(** A call on a local array ([let mut a = [..]; f(&mut a)]): runs on private
    memory and returns the new array. *)
Definition local_call (d : T) (l : list T) (f : slice -> P unit) : P (list T) :=
  match run (f (mkS 0 (length l))) (mem_of d l) with
  | Done _ m => Ret (vals m (mkS 0 (length l)))
  | Panicked e _ => Panic e
  | Undef => UB
  end.

End Ops.
