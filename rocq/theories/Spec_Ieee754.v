(** Real numbers denoted by IEEE 754 floating-point numbers: what claim C66 is stated with. *)
From Coq Require Import Reals ZArith Floats.SpecFloat.
From Verif Require Import Spec_Ieee.
Open Scope R_scope.

(** The number that a finite floating-point number stands for. *)
Definition real_of (z : spec_float) : R :=
  match z with S754_finite s m e => (if s then - (IZR (Zpos m) * powerRZ 2 e) else IZR (Zpos m) * powerRZ 2 e) | _ => 0 end.
(** Finite, and a value of the format: not infinite, not NaN, with a mantissa of at most [prec] bits, normalized unless the exponent is the least. *)
Definition number (prec emax : Z) (z : spec_float) : Prop :=
  match z with S754_zero _ => True | S754_finite _ m e => bounded prec emax m e = true | _ => False end.
(** The greatest finite number of the format. *)
Definition greatest (prec emax : Z) : R := powerRZ 2 emax - powerRZ 2 (emax - prec).
(** Functions for [f64] that are accurate to an absolute error of [v]; 2^-53 when the last bit may be wrong. *)
Definition accurate (v : R) (f : spec_float -> spec_float) (g : R -> R) : Prop :=
  forall z, number 53 1024 z -> number 53 1024 (f z) /\ Rabs (real_of (f z) - g (real_of z)) <= v.
(** Such functions exist: the value rounded to 52 bits after the point. *)
Definition rounded (g : R -> R) (z : spec_float) : spec_float := binary_normalize 53 1024 (nearest_even (g (real_of z) * powerRZ 2 52)) (-52) false.
