(** Values that no operation gets rid of, such as NaN: what claim C65 is stated with. *)
From Coq Require Import Reals List Arith.
From Verif Require Import Prog Num Model_Common Model_Plan Spec Spec_Methods.
Import ListNotations.
Open Scope R_scope.

Section Spread.
Context {T F : Type} {N : Num T F}.
Variable bad : T -> Prop.

(** An operation on a bad operand has a bad result. *)
Record absorbs : Prop := mkAbsorbs {
  bad_neg : forall a, bad a -> bad (neg a);
  bad_add : forall a b, bad a \/ bad b -> bad (add a b);
  bad_sub : forall a b, bad a \/ bad b -> bad (sub a b);
  bad_mul : forall a b, bad a \/ bad b -> bad (mul a b)
}.

(** The lengths are kept, and a part of an output of the FFT is bad if a part of an input is that has
    a coefficient other than zero in the definition of the DFT. *)
Definition fft_spreads (f : fft T) : Prop := forall b s,
  length (fst (fft_run f b s)) = length b /\ length (snd (fft_run f b s)) = length s /\
  forall j k, (j < length b)%nat -> (k < length b)%nat ->
  let angle := 2 * PI * INR j * INR k / INR (length b) in
  let x := nth j b (zero, zero) in
  let y := nth k (fst (fft_run f b s)) (zero, zero) in
  (cos angle <> 0 -> (bad (fst x) -> bad (fst y)) /\ (bad (snd x) -> bad (snd y))) /\
  (sin angle <> 0 -> (bad (snd x) -> bad (fst y)) /\ (bad (fst x) -> bad (snd y))).
End Spread.

(** Output [k] of the transform depends on input [j]. *)
Definition impulse (n j : nat) : list R := map (fun i => if (i =? j)%nat then 1 else 0) (seq 0 n).
Definition depends {T} (c : pcall T) (k j : nat) : Prop :=
  let at_ (t : list R -> list R) (n : nat) := nth k (t (impulse n j)) 0 <> 0 in
  match c with
  | CDct1 n => at_ dct1 n | CDct2 n => at_ dct2 n | CDct3 n => at_ dct3 n | CDct4 n => at_ dct4 n
  | CDct5 n => at_ dct5 n | CDct6 n => at_ dct6 n | CDct7 n => at_ dct7 n | CDct8 n => at_ dct8 n
  | CDst1 n => at_ dst1 n | CDst2 n => at_ dst2 n | CDst3 n => at_ dst3 n | CDst4 n => at_ dst4 n
  | CDst5 n => at_ dst5 n | CDst6 n => at_ dst6 n | CDst7 n => at_ dst7 n | CDst8 n => at_ dst8 n
  | CMdct _ _ => False
  end.
(** Transforms of which every output depends on every input. *)
Definition dense {T} (c : pcall T) : Prop :=
  match c with
  | CDct2 n | CDct3 n | CDst2 n | CDst3 n => exists p, n = (2 ^ p)%nat
  | CDct1 n => exists m, n = (2 * m)%nat
  | CDct4 _ | CDst4 _ | CDct5 _ | CDct6 _ | CDct7 _ => True
  | _ => False
  end.

(** The sum that defines the DFT, in the arithmetic of [T] with any coefficients [tw j k]. *)
Definition summed_fft {T F} {N : Num T F} (tw : nat -> nat -> T * T) (n : nat) : fft T :=
  mkFft T n Forward 0 (fun xs ss =>
    (map (fun k => fold_right (fun j a =>
       let x := nth j xs (zero, zero) in let w := tw j k in
       (add (sub (mul (fst x) (fst w)) (mul (snd x) (snd w))) (fst a), add (add (mul (fst x) (snd w)) (mul (snd x) (fst w))) (snd a)))
       (zero, zero) (seq 0 (length xs))) (seq 0 (length xs)), ss)).
