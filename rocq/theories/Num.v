(** The numeric interface used by the crate.

    [F] is [f64] (used to build twiddle tables), [T] is the sample type
    ([T: DctNum], src/common.rs:5-17).  No law is assumed: [f32]/[f64] with
    rounding and NaN are instances, and so are the real numbers. *)
From Coq Require Import Reals.

Class Num (T F : Type) := {
  (* f64 *)
  f_of_nat : nat -> F;              (* [n as f64] *)
  f_pi : F;                         (* [f64::consts::PI] *)
  f_half : F;                       (* [0.5f64] *)
  f_one : F;                        (* [1f64] *)
  f_two : F;                        (* [2f64] *)
  f_four : F;                       (* [4.0] *)
  f_neg : F -> F;
  f_add : F -> F -> F;
  f_sub : F -> F -> F;
  f_mul : F -> F -> F;
  f_div : F -> F -> F;
  f_cos : F -> F;
  f_sin : F -> F;
  f_sqrt : F -> F;
  (* T: FftNum + FloatConst *)
  zero : T;                         (* [T::zero()] *)
  one : T;                          (* [T::one()] *)
  add : T -> T -> T;
  sub : T -> T -> T;
  mul : T -> T -> T;
  neg : T -> T;
  from_f64 : F -> T;                (* [T::from_f64(x).unwrap()], total here *)
  sqrt_2 : T;                       (* [T::SQRT_2()] *)
  frac_1_sqrt_2 : T                 (* [T::FRAC_1_SQRT_2()] *)
}.

Declare Scope num_scope.
Delimit Scope num_scope with num.
Infix "+." := add (at level 50, left associativity) : num_scope.
Infix "-." := sub (at level 50, left associativity) : num_scope.
Infix "*." := mul (at level 40, left associativity) : num_scope.
Notation "-. x" := (neg x) (at level 35, right associativity) : num_scope.

Section Derived.
Context {T F : Type} {N : Num T F}.
Open Scope num_scope.

(** src/common.rs:11-16, [DctNum::half] and [DctNum::two]. *)
Definition half : T := from_f64 f_half.
Definition two : T := from_f64 f_two.

(** num_complex: the operations on [Complex<T>] used by the crate.
    [Complex::from(x)], [c.conj()], [-c], [a * b], [a * t]. *)
Definition cplx := (T * T)%type.
Definition c_from (x : T) : cplx := (x, zero).
Definition c_conj (a : cplx) : cplx := (fst a, -. snd a).
Definition c_neg (a : cplx) : cplx := (-. fst a, -. snd a).
Definition c_mul (a b : cplx) : cplx :=
  (fst a *. fst b -. snd a *. snd b, fst a *. snd b +. snd a *. fst b).
Definition c_scale (a : cplx) (t : T) : cplx := (fst a *. t, snd a *. t).

End Derived.

(** Exact arithmetic. *)
#[global] Instance NumR : Num R R := {|
  f_of_nat := INR; f_pi := PI; f_half := (/2)%R; f_one := 1%R; f_two := 2%R; f_four := 4%R;
  f_neg := Ropp; f_add := Rplus; f_sub := Rminus; f_mul := Rmult; f_div := Rdiv;
  f_cos := cos; f_sin := sin; f_sqrt := sqrt;
  zero := 0%R; one := 1%R; add := Rplus; sub := Rminus; mul := Rmult; neg := Ropp;
  from_f64 := (fun x : R => x); sqrt_2 := sqrt 2; frac_1_sqrt_2 := (/ sqrt 2)%R
|}.
