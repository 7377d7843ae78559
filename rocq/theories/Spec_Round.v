(** Rounded arithmetic and norms: what the claims about rounding errors are stated with. *)
From Coq Require Import Reals List ZArith.
From Verif Require Import Prog Num Model_Common Model_Plan Model_Api Spec.
Import ListNotations.
Open Scope R_scope.

(** [x'] is [x] up to a relative error of at most [u]. *)
Definition rel (u x' x : R) : Prop := Rabs (x' - x) <= u * Rabs x.

(** The standard model of floating-point arithmetic, with unit roundoff [u] for the sample type and [v]
    for [f64]: every operation returns the exact result up to that relative error.  Cosine and sine
    are within [v] of the exact value.  Negation, and the conversion of one half and of two, are exact.
    Neither overflow nor underflow occurs. *)
Record rounding (u v : R) (N : Num R R) : Prop := mkRounding {
  r_u : 0 <= u;
  r_v : 0 <= v < 1;
  r_zero : @zero _ _ N = 0;
  r_one : @one _ _ N = 1;
  r_neg : forall a, @neg _ _ N a = - a;
  r_add : forall a b, rel u (@add _ _ N a b) (a + b);
  r_sub : forall a b, rel u (@sub _ _ N a b) (a - b);
  r_mul : forall a b, rel u (@mul _ _ N a b) (a * b);
  r_from_f64 : forall a, rel u (@from_f64 _ _ N a) a;
  r_from_half : @from_f64 _ _ N (/ 2) = / 2;
  r_from_two : @from_f64 _ _ N 2 = 2;
  r_sqrt_2 : rel u (@sqrt_2 _ _ N) (sqrt 2);
  r_frac_1_sqrt_2 : rel u (@frac_1_sqrt_2 _ _ N) (/ sqrt 2);
  r_f_of_nat : forall n, rel v (@f_of_nat _ _ N n) (INR n);
  r_f_pi : rel v (@f_pi _ _ N) PI;
  r_f_half : @f_half _ _ N = / 2;
  r_f_one : @f_one _ _ N = 1;
  r_f_two : @f_two _ _ N = 2;
  r_f_four : @f_four _ _ N = 4;
  r_f_neg : forall a, @f_neg _ _ N a = - a;
  r_f_add : forall a b, rel v (@f_add _ _ N a b) (a + b);
  r_f_sub : forall a b, rel v (@f_sub _ _ N a b) (a - b);
  r_f_mul : forall a b, rel v (@f_mul _ _ N a b) (a * b);
  r_f_div : forall a b, b <> 0 -> rel v (@f_div _ _ N a b) (a / b);
  r_f_cos : forall a, Rabs (@f_cos _ _ N a - cos a) <= v;
  r_f_sin : forall a, Rabs (@f_sin _ _ N a - sin a) <= v;
  r_f_sqrt : forall a, 0 <= a -> rel v (@f_sqrt _ _ N a) (sqrt a)
}.

(** Squared Euclidean norm, Euclidean norm and distance of vectors. *)
Definition energy (x : list R) : R := sum (fun i => (nth i x 0)²) (length x).
Definition norm (x : list R) : R := sqrt (energy x).
Definition diff (x y : list R) : list R := map (fun i => nth i x 0 - nth i y 0) (seq 0 (length x)).
Definition dist (x y : list R) : R := norm (diff x y).

(** For any buffer of length [n] and any scratch of at least [sl] cells, the call returns, and its
    result is within [e] times the norm of the exact result of that exact result. *)
Definition relative_error {N : Num R R} (f : meth R) (n sl : nat) (t : list R -> list R) (e : R) : Prop :=
  forall x s, length x = n -> (sl <= length s)%nat -> exists y s',
    call f x s = Returned (y, s') /\ length y = n /\ dist y (t x) <= e * norm (t x).

(** ** The constants of the bounds *)
(** Relative error of a computed angle; absolute error of a table entry for an angle of at most [A]. *)
Definition rho (v : R) : R := (1 + v) ^ 5 * / (1 - v) - 1.
Definition eps_of (A u v : R) : R := (1 + u) * (1 + v) * (1 + v + A * rho v) - 1.
Definition eps (u v : R) : R := eps_of 1 u v.
(** Error of a rotation of the plane, and growth of the error per level of recursion. *)
Definition mu (u v : R) : R := 2 * ((1 + u) ^ 3 * (1 + eps u v) - 1).
Definition level (u v : R) : R := (1 + u) * (1 + mu u v).
Definition growth (u v : R) (k : nat) : R := (1 + u) ^ 3 * level u v ^ k.
(** Types 3 and 4 are orthogonal up to weights on the input; type 2 only after dividing the first
    output, or the last for the sine transform, by the square root of two.  This costs a factor. *)
Definition loss (c : pcall R) : R := match c with CDct2 _ | CDst2 _ => sqrt 2 | _ => 1 end.

(** ** Binary arithmetic *)
(** Round to nearest, with [p] bits of precision and unbounded exponents: [mag x] is the [e] with
    2^(e-1) <= |x| < 2^e. *)
Definition mag (x : R) : Z := up (ln (Rabs x) / ln 2).
Definition nearest (x : R) : Z := Int_part (x + / 2).
Definition rnd (p : Z) (x : R) : R :=
  if Req_EM_T x 0 then 0 else IZR (nearest (x * powerRZ 2 (p - mag x))) * powerRZ 2 (mag x - p).
(** Samples with [p] bits, tables computed with [p'] bits. *)
Definition Binary (p p' : Z) : Num R R := {|
  f_of_nat := fun n => rnd p' (INR n); f_pi := rnd p' PI; f_half := / 2; f_one := 1; f_two := 2; f_four := 4;
  f_neg := Ropp; f_add := fun a b => rnd p' (a + b); f_sub := fun a b => rnd p' (a - b);
  f_mul := fun a b => rnd p' (a * b); f_div := fun a b => rnd p' (a / b);
  f_cos := fun a => rnd p' (cos a); f_sin := fun a => rnd p' (sin a); f_sqrt := fun a => rnd p' (sqrt a);
  zero := 0; one := 1; add := fun a b => rnd p (a + b); sub := fun a b => rnd p (a - b);
  mul := fun a b => rnd p (a * b); neg := Ropp; from_f64 := rnd p;
  sqrt_2 := rnd p (sqrt 2); frac_1_sqrt_2 := rnd p (/ sqrt 2) |}.
