(** What an observer sees who watches the addresses but not the values (C53). *)
From Coq Require Import List Arith.
From Verif Require Import Prog.
Import ListNotations.

Section Trace.
Context {T : Type}.

Inductive event := Reads (q : nat) | Writes (q : nat) | Returns | Panicking (e : perr) | Undefined_behaviour.

(** The accesses a call makes, in order, and how it ends. *)
Fixpoint trace {A} (p : prog T A) (m : mem T) : list event :=
  match p with
  | Ret _ => [Returns]
  | Rd q k => Reads q :: trace (k (m q)) m
  | Wr q v k => Writes q :: trace k (upd m q v)
  | Panic e => [Panicking e]
  | UB => [Undefined_behaviour]
  end.

(** The values in memory have no influence on it. *)
Definition oblivious (p : prog T unit) : Prop := forall m1 m2, trace p m1 = trace p m2.
End Trace.
