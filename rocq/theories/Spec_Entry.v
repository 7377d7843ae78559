(** Entry by entry bounds for rounding errors: what the claims about transforms of all sizes are stated with. *)
From Coq Require Import Reals List ZArith.
From Verif Require Import Prog Num Model_Common Model_Plan Model_Api Spec Spec_Round.
Import ListNotations.
Open Scope R_scope.

(** The sum of the magnitudes of the cells of a vector, and of the components of a complex vector. *)
Definition total (x : list R) : R := sum (fun i => Rabs (nth i x 0)) (length x).
Definition ctotal (z : list (R * R)) : R :=
  sum (fun i => Rabs (fst (nth i z (0, 0))) + Rabs (snd (nth i z (0, 0)))) (length z).

(** Every entry of [y] is within [e] of that of [t]. *)
Definition entries_within (e : R) (y t : list R) : Prop :=
  length y = length t /\ forall k, (k < length t)%nat -> Rabs (nth k y 0 - nth k t 0) <= e.

(** The FFT is accurate up to [phi] times the total of its input in each component of each entry. *)
Definition fft_error (phi : R) (f : fft R) : Prop :=
  0 <= phi /\ forall xs ss k, length xs = fft_len f -> length ss = fft_scratch f -> (k < fft_len f)%nat ->
    let y := nth k (fst (fft_run f xs ss)) (0, 0) in let t := nth k (dft xs) (0, 0) in
    Rabs (fst y - fst t) <= phi * ctotal xs /\ Rabs (snd y - snd t) <= phi * ctotal xs.

(** For any buffer of length [n] and any scratch of at least [sl] cells, the call returns, and every
    cell of the result is within [e] times the total of the buffer of the exact one. *)
Definition entry_error {N : Num R R} (f : meth R) (n sl : nat) (t : list R -> list R) (e : R) : Prop :=
  forall x s, length x = n -> (sl <= length s)%nat -> exists y s',
    call f x s = Returned (y, s') /\ entries_within (e * total x) y (t x).
(** The same when the first [sl] scratch cells are zero. *)
Definition entry_error_zeroed {N : Num R R} (f : meth R) (n sl : nat) (t : list R -> list R) (e : R) : Prop :=
  forall x s, length x = n -> (sl <= length s)%nat -> firstn sl s = repeat 0 sl -> exists y s',
    call f x s = Returned (y, s') /\ entries_within (e * total x) y (t x).

(** Relative error of a computed angle, and absolute error of a table entry, for any angle up to 2 pi. *)
Definition rho_any (v : R) : R := (1 + v) ^ 6 * / (1 - 4 * v) - 1.
Definition tau (u v : R) : R := (1 + u) * (1 + v) * (1 + v + 2 * PI * rho_any v) - 1.
(** Error of a sum of [n] products with table entries, computed from left to right. *)
Definition dot_error (u v : R) (n : nat) : R := (1 + u) ^ (n + 2) * (1 + tau u v) - 1.

(** The requests the planner serves by recursive halving down to the power-of-two butterflies: their errors are
    bounded in another norm, by [growth] of [Spec_Round]. *)
Definition halving (c : pcall R) : Prop :=
  match c with
  | CDct2 n | CDct3 n | CDst2 n | CDst3 n => exists k, (1 <= k)%nat /\ n = (2 ^ k)%nat
  | CDct4 n | CDst4 n => exists k, (3 <= k)%nat /\ n = (2 ^ k)%nat
  | _ => False
  end.
(** The bound for every other request, relative to the total of the buffer, when the FFTs are accurate up to [phi]. *)
Definition entry_bound (u v phi : R) (c : pcall R) : R :=
  match c with
  | CDct1 _ => (1 + u) ^ 11 * ((1 + phi) * (1 + tau u v)) - 1
  | CDst1 _ => (1 + u) ^ 26 * ((1 + phi) * (1 + tau u v)) - 1
  | CDst6 _ | CDst7 _ => (1 + u) ^ 46 * ((1 + phi) * (1 + tau u v)) - 1
  | CDct2 _ | CDct3 _ | CDst2 _ | CDst3 _ => 2 * ((1 + u) ^ 3 * ((1 + phi) * (1 + tau u v)) - 1)
  | CDct4 _ | CDst4 _ => 2 * ((1 + u) ^ 9 * ((1 + phi) ^ 2 * (1 + tau u v) ^ 3) - 1)
  | CDct5 n | CDct6 n | CDct7 n | CDct8 n | CDst5 n | CDst8 n => dot_error u v n
  | CMdct _ _ => 0
  end.

(** The same in closed form, for table entries with an error of at most [w] units. *)
Definition closed (k p u : R) : R := (k * u + p) / (1 - k * u).
Definition closed_bound (w u phi : R) (c : pcall R) : R :=
  match c with
  | CDct1 _ => closed (11 + w) phi u
  | CDst1 _ => closed (26 + w) phi u
  | CDst6 _ | CDst7 _ => closed (46 + w) phi u
  | CDct2 _ | CDct3 _ | CDst2 _ | CDst3 _ => 2 * closed (3 + w) phi u
  | CDct4 _ | CDst4 _ => 2 * closed (9 + 3 * w) (phi * (2 + phi)) u
  | CDct5 n | CDct6 n | CDct7 n | CDct8 n | CDst5 n | CDst8 n => closed (INR n + 2 + w) 0 u
  | CMdct _ _ => 0
  end.

(** An FFT with rounding: the exact one, with every component of the result rounded to [p] bits. *)
Definition rounded_fft (p : Z) (n : nat) : fft R :=
  mkFft R n Forward 0 (fun xs ss => (map (fun z => (rnd p (fst z), rnd p (snd z))) (dft xs), ss)).
