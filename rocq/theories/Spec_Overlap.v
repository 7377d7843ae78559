(** What the claims about rounding errors of overlap-add are stated with. *)
From Coq Require Import Reals List ZArith.
From Verif Require Import Prog Num Model_Common Model_Mdct Model_Plan Model_Api Spec Spec_Api Spec_Round Spec_Entry Spec_Mdct_Round.
Import ListNotations.
Open Scope R_scope.

(** For any inputs and outputs of length [n] and any scratch of at least [sl] cells, the call returns,
    the inputs are unchanged, and the distance to the exact MDCT is at most [e] times the square root of [n] times
    the norm of the windowed samples.  (Without errors the norm of an MDCT can be that large but not larger.) *)
Definition mdct_norm_error {N : Num R R} (f : slice -> slice -> slice -> slice -> prog R unit) (n sl : nat)
  (w : list R) (e : R) : Prop :=
  forall a b out s, length a = n -> length b = n -> length out = n -> (sl <= length s)%nat -> exists y s',
    call4 f a b out s = Returned (a, b, y, s') /\ length y = n /\
    dist y (mdct_of n w (a ++ b)) <= e * (sqrt (INR n) * norm (windowed w (a ++ b))).
(** The same for the inverse: each of the [2 n] outputs is increased by the IMDCT, up to [e] times its old magnitude
    and its window value times an error; the norm of these errors is at most [e] times the square root of [n]
    times the norm of the input. *)
Definition imdct_norm_error {N : Num R R} (f : slice -> slice -> slice -> slice -> prog R unit) (n sl : nat)
  (w : list R) (e : R) : Prop :=
  forall x a b s, length x = n -> length a = n -> length b = n -> (sl <= length s)%nat -> exists a' b' s' d,
    call4 f x a b s = Returned (x, a', b', s') /\ length a' = n /\ length b' = n /\
    length d = (2 * n)%nat /\ norm d <= e * (sqrt (INR n) * norm x) /\
    forall i, (i < 2 * n)%nat -> Rabs (nth i (a' ++ b') 0 - (nth i (a ++ b) 0 + imdct_at n w x i)) <=
      e * Rabs (nth i (a ++ b) 0) + Rabs (nth i w 0) * nth i d 0.

(** How far block [j] of the result may be from [c n / 2] times block [j] of the signal [x], when the stored window
    is within [eta] of one with Princen-Bradley constant [c] and MDCT and IMDCT are accurate up to [e]. *)
Definition overlap_bound (c eta e : R) (n : nat) (x : list R) (j : nat) : R :=
  INR n * ((sqrt c + eta) ^ 2 * ((1 + e) ^ 3 - 1) * (norm (block n x (j - 1) ++ block n x j) + norm (block n x j ++ block n x (j + 1)))
           + 2 * (2 * sqrt c * eta + eta ^ 2) * norm (block n x j)).
(** Overlap-add over [m + 1] blocks reconstructs every block but the first and the last one up to that bound. *)
Definition reconstructs_within {N : Num R R} (o : mdct R) (n : nat) (c eta e : R) : Prop :=
  forall signal m y scratch, length signal = ((m + 1) * n)%nat -> length y = n -> (m_scratch o <= length scratch)%nat ->
  exists out y' scratch', overlap_add o n signal y scratch m = Some (out, y', scratch') /\ length out = length signal /\
    forall j, (1 <= j < m)%nat ->
      dist (block n out j) (scale (c * INR n / 2) (block n signal j)) <= overlap_bound c eta e n signal j.

(** ** Accuracy of the windows of the crate *)
(** Absolute error of a computed sine of an angle up to 2 pi, and of the nested sine of the Vorbis window, before
    conversion to the sample type; relative error of a computed square root of a quotient. *)
Definition sine_error (v : R) : R := v + 2 * PI * rho_any v.
Definition vorbis_error (v : R) : R := v + PI / 2 * ((1 + v) ^ 4 * (1 + sine_error v) ^ 2 - 1).
Definition root_error (v : R) : R := (1 + v) * ((1 + v) * / (1 - v)) - 1.

(** The window functions of the crate (src/mdct/window_fn.rs) for blocks of size [n], each with its Princen-Bradley
    constant and how far a stored window of length [2 n] may be from the exact one. *)
Inductive crate_window {N : Num R R} (u v : R) (n : nat) : (nat -> list R) -> R -> R -> Prop :=
| W_mp3 : crate_window u v n window_mp3 1 ((1 + u) * (1 + sine_error v) - 1)
| W_vorbis : crate_window u v n window_vorbis 1 ((1 + u) * (1 + vorbis_error v) - 1)
| W_one : crate_window u v n window_one 2 0
| W_mp3_invertible : crate_window u v n window_mp3_invertible (2 / INR n)
    (((1 + u) * ((1 + v) * (1 + sine_error v) * (1 + root_error v)) - 1) * sqrt (2 / INR n))
| W_vorbis_invertible : crate_window u v n window_vorbis_invertible (2 / INR n)
    (((1 + u) * ((1 + v) * (1 + vorbis_error v) * (1 + root_error v)) - 1) * sqrt (2 / INR n))
| W_invertible : crate_window u v n window_invertible (2 / INR n) (((1 + u) * (1 + root_error v) - 1) * sqrt (1 / INR n)).
