(** What claim C68 is stated with. *)
From Coq Require Import List Bool ZArith Floats.SpecFloat.
From Verif Require Import Prog Num Model_Common Model_Plan Model_Api Spec_Plan Spec_Methods Spec_Param Spec_Binary.

(** [opposite b x y]: [y] is [x], negated if [b] holds.  The sign of a zero is left out of account, and NaN is its own opposite. *)
Definition opposite (b : bool) (x y : spec_float) : Prop :=
  match x, y with
  | S754_zero _, S754_zero _ => True
  | S754_nan, S754_nan => True
  | S754_infinity s, S754_infinity t => t = xorb b s
  | S754_finite s m e, S754_finite t m' e' => t = xorb b s /\ m' = m /\ e' = e
  | _, _ => False
  end.
(** Entry by entry. *)
Definition opposites (b : bool) : list spec_float -> list spec_float -> Prop := Forall2 (opposite b).
(** An FFT whose result is negated with its input, and does not depend on the signs of zeros. *)
Definition odd_fft (b : bool) (f : fft spec_float) : Prop := fft_alike (opposite b) f f.
Definition is_zero (x : spec_float) : Prop := exists s, x = S754_zero s.
Definition zero_or_nan (x : spec_float) : Prop := is_zero x \/ x = S754_nan.
(** Whatever the scratch holds, zeros are transformed to zeros. *)
Definition silent (prec emax : Z) (co si : spec_float -> spec_float) (pf : nat -> fft spec_float) (cs : list (pcall spec_float)) (c : pcall spec_float) : Prop :=
  let N := Binary prec emax co si in exists f sl, planned_method (N := N) c (after (N := N) pf cs) = Some (f, sl) /\
  forall x s, length x = size c -> (sl <= length s)%nat -> Forall is_zero x -> exists y t, call (N := N) f x s = Returned (y, t) /\ Forall is_zero y.
