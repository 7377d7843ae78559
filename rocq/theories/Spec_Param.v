(** Two sample types side by side: what claim C56 is stated with. *)
From Coq Require Import List Arith.
From Verif Require Import Prog Num Model_Common Model_Plan Model_Api.
Import ListNotations.

Section Param.
Context {T T' F F' : Type} {N : Num T F} {N' : Num T' F'}.
(** How samples, table entries and [f64] values of the one side relate to those of the other. *)
Variables (D C : T -> T' -> Prop) (V : F -> F' -> Prop).

(** The operations respect the relations.  A product of two samples is not asked for: the crate only ever multiplies
    samples with table entries. *)
Record compatible : Prop := mkCompatible {
  k_of_nat : forall n, V (f_of_nat n) (f_of_nat n);
  k_pi : V f_pi f_pi; k_fhalf : V f_half f_half; k_fone : V f_one f_one; k_ftwo : V f_two f_two; k_four : V f_four f_four;
  k_fneg : forall a a', V a a' -> V (f_neg a) (f_neg a');
  k_fadd : forall a a' b b', V a a' -> V b b' -> V (f_add a b) (f_add a' b');
  k_fsub : forall a a' b b', V a a' -> V b b' -> V (f_sub a b) (f_sub a' b');
  k_fmul : forall a a' b b', V a a' -> V b b' -> V (f_mul a b) (f_mul a' b');
  k_fdiv : forall a a' b b', V a a' -> V b b' -> V (f_div a b) (f_div a' b');
  k_cos : forall a a', V a a' -> V (f_cos a) (f_cos a');
  k_sin : forall a a', V a a' -> V (f_sin a) (f_sin a');
  k_sqrt : forall a a', V a a' -> V (f_sqrt a) (f_sqrt a');
  k_from : forall a a', V a a' -> C (from_f64 a) (from_f64 a');
  k_one : C one one; k_zero_c : C zero zero; k_sqrt_2 : C sqrt_2 sqrt_2; k_frac : C frac_1_sqrt_2 frac_1_sqrt_2;
  k_neg_c : forall a a', C a a' -> C (neg a) (neg a');
  k_mul_c : forall a a' b b', C a a' -> C b b' -> C (mul a b) (mul a' b');
  k_zero : D zero zero;
  k_neg : forall a a', D a a' -> D (neg a) (neg a');
  k_add : forall a a' b b', D a a' -> D b b' -> D (add a b) (add a' b');
  k_sub : forall a a' b b', D a a' -> D b b' -> D (sub a b) (sub a' b');
  k_mul : forall a a' b b', D a a' -> C b b' -> D (mul a b) (mul a' b');
  k_mul' : forall a a' b b', C a a' -> D b b' -> D (mul a b) (mul a' b')
}.

(** FFTs of the same shape that respect the relation. *)
Definition both {A B} (R : A -> B -> Prop) (x : A * A) (y : B * B) : Prop := R (fst x) (fst y) /\ R (snd x) (snd y).
Definition fft_alike (f : fft T) (g : fft T') : Prop :=
  fft_len f = fft_len g /\ fft_dir f = fft_dir g /\ fft_scratch f = fft_scratch g /\
  forall b b' s s', Forall2 (both D) b b' -> Forall2 (both D) s s' ->
    Forall2 (both D) (fst (fft_run f b s)) (fst (fft_run g b' s')) /\ Forall2 (both D) (snd (fft_run f b s)) (snd (fft_run g b' s')).

(** The same request, with windows that are related entry by entry. *)
Definition call_alike (c : pcall T) (c' : pcall T') : Prop :=
  match c, c' with
  | CDct1 n, CDct1 n' | CDct2 n, CDct2 n' | CDct3 n, CDct3 n' | CDct4 n, CDct4 n'
  | CDct5 n, CDct5 n' | CDct6 n, CDct6 n' | CDct7 n, CDct7 n' | CDct8 n, CDct8 n'
  | CDst1 n, CDst1 n' | CDst2 n, CDst2 n' | CDst3 n, CDst3 n' | CDst4 n, CDst4 n'
  | CDst5 n, CDst5 n' | CDst6 n, CDst6 n' | CDst7 n, CDst7 n' | CDst8 n, CDst8 n' => n = n'
  | CMdct n w, CMdct n' w' => n = n' /\ forall m, Forall2 C (w m) (w' m)
  | _, _ => False
  end.

(** From related memories both calls end in the same way, and leave related memories. *)
Definition runs_alike (p : prog T unit) (q : prog T' unit) : Prop :=
  forall m m', (forall a, D (m a) (m' a)) ->
  match run p m, run q m' with
  | Done _ x, Done _ y => forall a, D (x a) (y a)
  | Panicked e x, Panicked e' y => e = e' /\ forall a, D (x a) (y a)
  | Undef, Undef => True
  | _, _ => False
  end.
Definition meth_alike (f : meth T) (g : meth T') : Prop := forall b s, runs_alike (f b s) (g b s).
Definition meth4_alike (f : slice -> slice -> slice -> slice -> prog T unit) (g : slice -> slice -> slice -> slice -> prog T' unit) : Prop :=
  forall x y z s, runs_alike (f x y z s) (g x y z s).
(** The outcome of a call on vectors. *)
Definition observed_alike {A B} (R : A -> B -> Prop) (x : observed A) (y : observed B) : Prop :=
  match x, y with
  | Returned a, Returned b => R a b
  | Panics e a, Panics e' b => e = e' /\ R a b
  | Undefined, Undefined => True
  | _, _ => False
  end.
End Param.

(** Requests that are planned without an FFT: powers of two for types 2, 3 and 4 and the MDCT; types 5 and 8 and the
    cosine types 6 and 7 at every length; the others at small lengths. *)
Definition no_fft {T} (c : pcall T) : Prop :=
  match c with
  | CDct2 n | CDct3 n | CDst2 n | CDst3 n => exists k, n = 2 ^ S k
  | CDct4 n | CDst4 n | CMdct n _ => exists k, n = 2 ^ k
  | CDct1 n => n < 10 | CDst1 n => n < 25 | CDst6 n | CDst7 n => n < 45
  | _ => True
  end.

(** ** Maps that the arithmetic commutes with *)
Section Commutes.
Context {T F : Type} {N : Num T F}.
Variable g : T -> T.
Record commutes : Prop := mkCommutes {
  g_zero : g zero = zero;
  g_neg : forall a, g (neg a) = neg (g a);
  g_add : forall a b, g (add a b) = add (g a) (g b);
  g_sub : forall a b, g (sub a b) = sub (g a) (g b);
  g_mul : forall a b, g (mul a b) = mul (g a) b;
  g_mul' : forall a b, g (mul a b) = mul a (g b)
}.
Definition pairwise (x : T * T) : T * T := (g (fst x), g (snd x)).
Definition fft_commutes (f : fft T) : Prop := forall b s, fft_run f (map pairwise b) (map pairwise s) =
  (map pairwise (fst (fft_run f b s)), map pairwise (snd (fft_run f b s))).
Definition mapped (o : observed (list T * list T)) : observed (list T * list T) :=
  match o with
  | Returned (b, s) => Returned (map g b, map g s) | Panics e (b, s) => Panics e (map g b, map g s) | Undefined => Undefined
  end.
Definition mapped4 (o : observed (list T * list T * list T * list T)) : observed (list T * list T * list T * list T) :=
  match o with
  | Returned (x, y, z, s) => Returned (map g x, map g y, map g z, map g s)
  | Panics e (x, y, z, s) => Panics e (map g x, map g y, map g z, map g s) | Undefined => Undefined
  end.
End Commutes.

(** ** Lanes *)
(** Vectors of samples, with every operation done lane by lane, as a SIMD type does. *)
Definition Lanes {T F} (N : Num T F) : Num (nat -> T) F := {|
  f_of_nat := f_of_nat; f_pi := f_pi; f_half := f_half; f_one := f_one; f_two := f_two; f_four := f_four;
  f_neg := f_neg; f_add := f_add; f_sub := f_sub; f_mul := f_mul; f_div := f_div; f_cos := f_cos; f_sin := f_sin; f_sqrt := f_sqrt;
  zero := fun _ => zero; one := fun _ => one; add := fun a b i => add (a i) (b i); sub := fun a b i => sub (a i) (b i);
  mul := fun a b i => mul (a i) (b i); neg := fun a i => neg (a i); from_f64 := fun x _ => from_f64 x;
  sqrt_2 := fun _ => sqrt_2; frac_1_sqrt_2 := fun _ => frac_1_sqrt_2 |}.
Definition lane {T} (i : nat) (v : nat -> T) : T := v i.
Definition on_lane {T} (i : nat) (x : T) (v : nat -> T) : Prop := x = lane i v.
Definition lane_of {T} (i : nat) (o : observed (list (nat -> T) * list (nat -> T))) : observed (list T * list T) :=
  match o with
  | Returned (b, s) => Returned (map (lane i) b, map (lane i) s) | Panics e (b, s) => Panics e (map (lane i) b, map (lane i) s) | Undefined => Undefined
  end.
