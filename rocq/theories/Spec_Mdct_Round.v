(** What the claims about rounding errors of the MDCT are stated with. *)
From Coq Require Import Reals List ZArith.
From Verif Require Import Prog Num Model_Common Model_Plan Model_Api Spec Spec_Round Spec_Entry.
Import ListNotations.
Open Scope R_scope.

(** The second way to measure a vector, next to [total]: the length of its DCT4 in the Euclidean norm. *)
Definition spread (x : list R) : R := sqrt (INR (length x) / 2) * norm x.
(** The samples after multiplication with the window. *)
Definition windowed (w x : list R) : list R := map (fun i => nth i w 0 * nth i x 0) (seq 0 (length x)).

(** For any inputs and outputs of length [n] and any scratch of at least [sl] cells, the call returns,
    the inputs are unchanged, and every coefficient is within [e] times the size of the windowed samples of the MDCT
    with the stored window [w]. *)
Definition mdct_error {N : Num R R} (f : slice -> slice -> slice -> slice -> prog R unit) (n sl : nat)
  (w : list R) (size : list R -> R) (e : R) : Prop :=
  forall a b out s, length a = n -> length b = n -> length out = n -> (sl <= length s)%nat -> exists y s',
    call4 f a b out s = Returned (a, b, y, s') /\ entries_within (e * size (windowed w (a ++ b))) y (mdct_of n w (a ++ b)).
(** The same for the inverse: each of the [2 n] outputs is increased by the IMDCT, up to [e] times the
    magnitudes of the old value and of the input under the window. *)
Definition imdct_error {N : Num R R} (f : slice -> slice -> slice -> slice -> prog R unit) (n sl : nat)
  (w : list R) (size : list R -> R) (e : R) : Prop :=
  forall x a b s, length x = n -> length a = n -> length b = n -> (sl <= length s)%nat -> exists a' b' s',
    call4 f x a b s = Returned (x, a', b', s') /\ length a' = n /\ length b' = n /\
    forall i, (i < 2 * n)%nat -> Rabs (nth i (a' ++ b') 0 - (nth i (a ++ b) 0 + imdct_at n w x i)) <=
      e * (Rabs (nth i (a ++ b) 0) + Rabs (nth i w 0) * size x).
