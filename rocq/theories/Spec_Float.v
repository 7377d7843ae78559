(** Floating-point arithmetic with underflow and overflow: what claim C60 is stated with. *)
From Coq Require Import Reals ZArith.
From Verif Require Import Prog Num Model_Common Model_Plan Spec Spec_Round Spec_Ieee Spec_Levels.
Open Scope R_scope.

(** [x'] is [x] up to a relative error of at most [u] and an absolute error of at most [eta]. *)
Definition close (u eta x' x : R) : Prop := Rabs (x' - x) <= u * Rabs x + eta.

(** The standard model with underflow: as [rounding], but every operation on samples may also err by [eta], whatever the size of
    its result.  The [f64] side is as in [rounding]. *)
Record rounding_under (u v eta : R) (N : Num R R) : Prop := mkUnder {
  w_u : 0 <= u;
  w_v : 0 <= v < 1;
  w_eta : 0 <= eta;
  w_zero : @zero _ _ N = 0;
  w_neg : forall a, @neg _ _ N a = - a;
  w_add : forall a b, close u eta (@add _ _ N a b) (a + b);
  w_sub : forall a b, close u eta (@sub _ _ N a b) (a - b);
  w_mul : forall a b, close u eta (@mul _ _ N a b) (a * b);
  w_from_f64 : forall a, close u eta (@from_f64 _ _ N a) a;
  w_from_half : @from_f64 _ _ N (/ 2) = / 2;
  w_from_two : @from_f64 _ _ N 2 = 2;
  w_frac_1_sqrt_2 : close u eta (@frac_1_sqrt_2 _ _ N) (/ sqrt 2);
  w_f_of_nat : forall n, rel v (@f_of_nat _ _ N n) (INR n);
  w_f_pi : rel v (@f_pi _ _ N) PI;
  w_f_half : @f_half _ _ N = / 2;
  w_f_one : @f_one _ _ N = 1;
  w_f_two : @f_two _ _ N = 2;
  w_f_four : @f_four _ _ N = 4;
  w_f_neg : forall a, @f_neg _ _ N a = - a;
  w_f_add : forall a b, rel v (@f_add _ _ N a b) (a + b);
  w_f_sub : forall a b, rel v (@f_sub _ _ N a b) (a - b);
  w_f_mul : forall a b, rel v (@f_mul _ _ N a b) (a * b);
  w_f_div : forall a b, b <> 0 -> rel v (@f_div _ _ N a b) (a / b);
  w_f_cos : forall a, Rabs (@f_cos _ _ N a - cos a) <= v;
  w_f_sin : forall a, Rabs (@f_sin _ _ N a - sin a) <= v;
  w_f_sqrt : forall a, 0 <= a -> rel v (@f_sqrt _ _ N a) (sqrt a)
}.

(** Round to nearest, ties to even, with [p] bits of precision and gradual underflow: below 2^(e-1), the least normal number,
    the spacing stays at 2^(e-p). *)
Definition rnd_grad (p e : Z) (x : R) : R :=
  if Req_EM_T x 0 then 0 else let m := Z.max (mag x) e in IZR (nearest_even (x * powerRZ 2 (p - m))) * powerRZ 2 (m - p).
Definition Float (p e p' : Z) : Num R R := {|
  f_of_nat := fun n => rnd_even p' (INR n); f_pi := rnd_even p' PI; f_half := / 2; f_one := 1; f_two := 2; f_four := 4;
  f_neg := Ropp; f_add := fun a b => rnd_even p' (a + b); f_sub := fun a b => rnd_even p' (a - b);
  f_mul := fun a b => rnd_even p' (a * b); f_div := fun a b => rnd_even p' (a / b);
  f_cos := fun a => rnd_even p' (cos a); f_sin := fun a => rnd_even p' (sin a); f_sqrt := fun a => rnd_even p' (sqrt a);
  zero := 0; one := 1; add := fun a b => rnd_grad p e (a + b); sub := fun a b => rnd_grad p e (a - b);
  mul := fun a b => rnd_grad p e (a * b); neg := Ropp; from_f64 := rnd_grad p e;
  sqrt_2 := rnd_grad p e (sqrt 2); frac_1_sqrt_2 := rnd_grad p e (/ sqrt 2) |}.
(** The samples of [f32], with tables computed in [f64]: 24 bits, least normal number 2^-126, greatest number 2^128 - 2^104. *)
Definition F32 : Num (option R) R := Overflow (2 ^ 128 - 2 ^ 104) (Float 24 (-125) 53).

(** The greatest magnitude a value can have that is [a] additions and [m] multiplications away from inputs of magnitude at most [B]. *)
Definition widest (u v eta B : R) (a m : nat) : R := (B + INR (a + m) * eta) * (2 * (1 + u)) ^ a * ((1 + u) * (1 + eps u v + eta)) ^ m.
