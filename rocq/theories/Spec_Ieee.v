(** Binary arithmetic rounding to nearest with ties to even, the default of IEEE 754, with unbounded exponents. *)
From Coq Require Import Reals ZArith.
From Verif Require Import Num Spec_Round.
Open Scope R_scope.

Definition nearest_even (x : R) : Z :=
  let n := Int_part x in
  if Rlt_dec (x - IZR n) (/ 2) then n else if Rlt_dec (/ 2) (x - IZR n) then (n + 1)%Z else if Z.even n then n else (n + 1)%Z.
Definition rnd_even (p : Z) (x : R) : R :=
  if Req_EM_T x 0 then 0 else IZR (nearest_even (x * powerRZ 2 (p - mag x))) * powerRZ 2 (mag x - p).
(** Samples with [p] bits, tables computed with [p'] bits. *)
Definition Ieee (p p' : Z) : Num R R := {|
  f_of_nat := fun n => rnd_even p' (INR n); f_pi := rnd_even p' PI; f_half := / 2; f_one := 1; f_two := 2; f_four := 4;
  f_neg := Ropp; f_add := fun a b => rnd_even p' (a + b); f_sub := fun a b => rnd_even p' (a - b);
  f_mul := fun a b => rnd_even p' (a * b); f_div := fun a b => rnd_even p' (a / b);
  f_cos := fun a => rnd_even p' (cos a); f_sin := fun a => rnd_even p' (sin a); f_sqrt := fun a => rnd_even p' (sqrt a);
  zero := 0; one := 1; add := fun a b => rnd_even p (a + b); sub := fun a b => rnd_even p (a - b);
  mul := fun a b => rnd_even p (a * b); neg := Ropp; from_f64 := rnd_even p;
  sqrt_2 := rnd_even p (sqrt 2); frac_1_sqrt_2 := rnd_even p (/ sqrt 2) |}.

(** Powers of two and their negatives. *)
Definition signed_power (c : R) : Prop := exists e, c = powerRZ 2 e \/ c = - powerRZ 2 e.
