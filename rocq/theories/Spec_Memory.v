(** Which cells a program may touch, how many accesses it makes, and what happens
    when several programs run at the same time on one memory. *)
From Coq Require Import List Arith.
From Verif Require Import Prog.
Import ListNotations.

(** Address [q] is a cell of the slice. *)
Definition cell_of (s : slice) (q : nat) : Prop := base s <= q < base s + slen s.

Section Memory.
Context {T : Type}.

(** How a call ended. *)
Inductive ending := Finished | Failed (e : perr).

(** The call is not undefined behaviour and writes no cell outside [W], whether it
    returns or panics. *)
Definition safe_within (p : prog T unit) (W : nat -> Prop) : Prop :=
  forall m, match run p m with
            | Done _ m' | Panicked _ m' => forall q, ~ W q -> m' q = m q
            | Undef => False
            end.

(** How the call ends and what it leaves in [W] is determined by the cells in [R]. *)
Definition sees_only (p : prog T unit) (R W : nat -> Prop) : Prop :=
  forall m1 m2, (forall q, R q -> m1 q = m2 q) ->
  match run p m1, run p m2 with
  | Done _ m1', Done _ m2' => forall q, W q -> m1' q = m2' q
  | Panicked e1 m1', Panicked e2 m2' => e1 = e2 /\ forall q, W q -> m1' q = m2' q
  | _, _ => False
  end.

(** Number of single-cell reads and writes made by the call. *)
Fixpoint accesses {A} (p : prog T A) (m : mem T) : nat :=
  match p with
  | Rd q k => S (accesses (k (m q)) m)
  | Wr q v k => S (accesses k (upd m q v))
  | _ => 0
  end.

(** Several programs on one memory: one access of one of them at a time, in any order. *)
Inductive step : prog T unit -> mem T -> prog T unit -> mem T -> Prop :=
| step_read q k m : step (Rd q k) m (k (m q)) m
| step_write q v k m : step (Wr q v k) m k (upd m q v).
Inductive interleaved : list (prog T unit) -> mem T -> list (prog T unit) -> mem T -> Prop :=
| no_step ps m : interleaved ps m ps m
| one_step before p after m p' m' ps'' m'' :
    step p m p' m' -> interleaved (before ++ p' :: after) m' ps'' m'' ->
    interleaved (before ++ p :: after) m ps'' m''.

(** The same single step, between pairs of programs and memory. *)
Definition advances (c c' : list (prog T unit) * mem T) : Prop :=
  exists before p after p', fst c = before ++ p :: after /\ fst c' = before ++ p' :: after /\ step p (snd c) p' (snd c').

(** One after the other; a panic of one is caught and the next one runs. *)
Fixpoint one_by_one (ps : list (prog T unit)) (m : mem T) : option (list ending * mem T) :=
  match ps with
  | [] => Some ([], m)
  | p :: ps' =>
      match run p m with
      | Done _ m' => match one_by_one ps' m' with Some (es, m'') => Some (Finished :: es, m'') | None => None end
      | Panicked e m' => match one_by_one ps' m' with Some (es, m'') => Some (Failed e :: es, m'') | None => None end
      | Undef => None
      end
  end.

(** The programs have all ended, in this way. *)
Fixpoint ended (ps : list (prog T unit)) (es : list ending) : Prop :=
  match ps, es with
  | [], [] => True
  | Ret _ :: ps', Finished :: es' => ended ps' es'
  | Panic e :: ps', Failed e' :: es' => e = e' /\ ended ps' es'
  | _, _ => False
  end.
End Memory.
