(** What claim C69 is stated with. *)
From Coq Require Import List Bool ZArith Floats.SpecFloat.
From Verif Require Import Spec_Symmetry.

(** [flipped b x x']: every second entry has the opposite sign; the first has it if [b] holds. *)
Fixpoint flipped (b : bool) (x x' : list spec_float) : Prop :=
  match x, x' with
  | nil, nil => True
  | cons a l, cons a' l' => opposite b a a' /\ flipped (negb b) l l'
  | _, _ => False
  end.
(** [c], added to itself, and so on, [k] times. *)
Fixpoint added (prec emax : Z) (k : nat) (c : spec_float) : spec_float :=
  match k with 0 => c | S k => added prec emax k (SFadd prec emax c c) end.
