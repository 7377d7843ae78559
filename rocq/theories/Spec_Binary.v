(** The floating-point numbers of IEEE 754 with signed zeros, infinities and NaN, as [SpecFloat] of the
    standard library defines them: the numbers [f32] and [f64] of the code. *)
From Coq Require Import ZArith Floats.SpecFloat.
From Verif Require Import Num.
Open Scope Z_scope.

(** [T] of precision [prec] and exponents up to [emax]; [F] is binary64. The standard library of Rust leaves the
    results of [cos] and [sin] to the platform, so they are parameters. [SQRT_2] and [FRAC_1_SQRT_2] are the
    binary64 constants rounded. *)
Definition convert (prec emax : Z) (x : spec_float) : spec_float :=
  match x with S754_finite s m e => binary_round prec emax s m e | _ => x end.
Definition f64_of (m e : Z) : spec_float := binary_normalize 53 1024 m e false.
Definition Binary (prec emax : Z) (c s : spec_float -> spec_float) : Num spec_float spec_float := {|
  f_of_nat n := f64_of (Z.of_nat n) 0;
  f_pi := f64_of 7074237752028440 (-51);
  f_half := f64_of 1 (-1);
  f_one := f64_of 1 0;
  f_two := f64_of 2 0;
  f_four := f64_of 4 0;
  f_neg := SFopp;
  f_add := SFadd 53 1024;
  f_sub := SFsub 53 1024;
  f_mul := SFmul 53 1024;
  f_div := SFdiv 53 1024;
  f_cos := c;
  f_sin := s;
  f_sqrt := SFsqrt 53 1024;
  zero := S754_zero false;
  one := convert prec emax (f64_of 1 0);
  add := SFadd prec emax;
  sub := SFsub prec emax;
  mul := SFmul prec emax;
  neg := SFopp;
  from_f64 := convert prec emax;
  sqrt_2 := convert prec emax (f64_of 6369051672525773 (-52));
  frac_1_sqrt_2 := convert prec emax (f64_of 6369051672525773 (-53))
|}.
Definition binary32 := Binary 24 128.
Definition binary64 := Binary 53 1024.

Definition not_a_number (x : spec_float) : Prop := x = S754_nan.
Definition not_finite (x : spec_float) : Prop :=
  match x with S754_infinity _ | S754_nan => True | _ => False end.
