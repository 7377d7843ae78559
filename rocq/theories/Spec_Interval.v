(** Interval arithmetic with outward rounding: what claim C57 is stated with. *)
From Coq Require Import Reals List.
From Verif Require Import Num.
Open Scope R_scope.

(** [None] is the interval without bounds. *)
Definition interval : Type := option (R * R).
Definition inside (x : R) (i : interval) : Prop := match i with Some (a, b) => a <= x <= b | None => True end.

Section Interval.
(** Directed rounding: [dn x <= x <= up x]. *)
Variables dn up : R -> R.
Definition hull (a b : R) : interval := Some (dn a, up b).
Definition lift2 (f : R * R -> R * R -> interval) (i j : interval) : interval :=
  match i, j with Some a, Some b => f a b | _, _ => None end.
Definition min4 (a b c d : R) : R := Rmin (Rmin a b) (Rmin c d).
Definition max4 (a b c d : R) : R := Rmax (Rmax a b) (Rmax c d).
Definition ineg (i : interval) : interval := match i with Some (a, b) => Some (- b, - a) | None => None end.
Definition iadd : interval -> interval -> interval := lift2 (fun i j => hull (fst i + fst j) (snd i + snd j)).
Definition isub : interval -> interval -> interval := lift2 (fun i j => hull (fst i - snd j) (snd i - fst j)).
Definition imul : interval -> interval -> interval := lift2 (fun i j =>
  let '(a, b) := i in let '(c, d) := j in hull (min4 (a * c) (a * d) (b * c) (b * d)) (max4 (a * c) (a * d) (b * c) (b * d))).
(** Not bounded when the divisor may be zero. *)
Definition idiv : interval -> interval -> interval := lift2 (fun i j =>
  let '(a, b) := i in let '(c, d) := j in
  if Rlt_dec 0 c then hull (min4 (a / c) (a / d) (b / c) (b / d)) (max4 (a / c) (a / d) (b / c) (b / d)) else None).
(** The derivative is at most one. *)
Definition iwave (f : R -> R) (i : interval) : interval :=
  match i with Some (a, b) => hull (f a - (b - a)) (f a + (b - a)) | None => Some (- (1), 1) end.
Definition isqrt (i : interval) : interval := match i with Some (a, b) => hull (sqrt a) (sqrt b) | None => None end.
Definition point (x : R) : interval := hull x x.
Definition Interval : Num interval interval := {|
  f_of_nat := fun n => point (INR n); f_pi := point PI; f_half := point (/ 2); f_one := point 1; f_two := point 2; f_four := point 4;
  f_neg := ineg; f_add := iadd; f_sub := isub; f_mul := imul; f_div := idiv;
  f_cos := iwave cos; f_sin := iwave sin; f_sqrt := isqrt;
  zero := Some (0, 0); one := Some (1, 1); add := iadd; sub := isub; mul := imul; neg := ineg;
  from_f64 := fun i => match i with Some (a, b) => hull a b | None => None end;
  sqrt_2 := point (sqrt 2); frac_1_sqrt_2 := point (/ sqrt 2) |}.
End Interval.
