(** Reference definitions, over the real numbers, of what the crate promises to
    compute.  Nothing here mentions the model. *)
From Coq Require Import Reals List.
Import ListNotations.
Open Scope R_scope.

(** [f 0 + ... + f (n-1)]. *)
Fixpoint sum (f : nat -> R) (n : nat) : R :=
  match n with
  | O => 0
  | S k => sum f k + f k
  end.

(** The transforms, as documented in the README and on the structs of
    src/algorithm: "x[i]" is [nth i x 0], no normalisation. *)
Definition transform (f : list R -> nat -> R) (x : list R) : list R :=
  map (f x) (seq 0 (length x)).

(** Weight one half at a given position. *)
Definition half_when (b : bool) : R := if b then / 2 else 1.

Section Defs.
Variable x : list R.
Let n := length x.
Let X (i : nat) := nth i x 0.
Let N := INR n.

Definition dct1_at (k : nat) : R :=
  sum (fun i => X i * half_when ((i =? 0) || (i =? n - 1))%nat%bool
                * cos (PI * INR k * INR i / (N - 1))) n.
Definition dct2_at (k : nat) : R :=
  sum (fun i => X i * cos (PI * INR k * (INR i + / 2) / N)) n.
Definition dct3_at (k : nat) : R :=
  sum (fun i => X i * half_when (i =? 0)%nat * cos (PI * (INR k + / 2) * INR i / N)) n.
Definition dct4_at (k : nat) : R :=
  sum (fun i => X i * cos (PI * (INR k + / 2) * (INR i + / 2) / N)) n.
Definition dct5_at (k : nat) : R :=
  sum (fun i => X i * half_when (i =? 0)%nat * cos (PI * INR k * INR i / (N - / 2))) n.
Definition dct6_at (k : nat) : R :=
  sum (fun i => X i * half_when (i =? n - 1)%nat
                * cos (PI * INR k * (INR i + / 2) / (N - / 2))) n.
Definition dct7_at (k : nat) : R :=
  sum (fun i => X i * half_when (i =? 0)%nat
                * cos (PI * (INR k + / 2) * INR i / (N - / 2))) n.
Definition dct8_at (k : nat) : R :=
  sum (fun i => X i * cos (PI * (INR k + / 2) * (INR i + / 2) / (N + / 2))) n.

Definition dst1_at (k : nat) : R :=
  sum (fun i => X i * sin (PI * (INR k + 1) * (INR i + 1) / (N + 1))) n.
Definition dst2_at (k : nat) : R :=
  sum (fun i => X i * sin (PI * (INR k + 1) * (INR i + / 2) / N)) n.
Definition dst3_at (k : nat) : R :=
  sum (fun i => X i * half_when (i =? n - 1)%nat
                * sin (PI * (INR k + / 2) * (INR i + 1) / N)) n.
Definition dst4_at (k : nat) : R :=
  sum (fun i => X i * sin (PI * (INR k + / 2) * (INR i + / 2) / N)) n.
Definition dst5_at (k : nat) : R :=
  sum (fun i => X i * sin (PI * (INR k + 1) * (INR i + 1) / (N + / 2))) n.
Definition dst6_at (k : nat) : R :=
  sum (fun i => X i * sin (PI * (INR k + 1) * (INR i + / 2) / (N + / 2))) n.
Definition dst7_at (k : nat) : R :=
  sum (fun i => X i * sin (PI * (INR k + / 2) * (INR i + 1) / (N + / 2))) n.
Definition dst8_at (k : nat) : R :=
  sum (fun i => X i * half_when (i =? n - 1)%nat
                * sin (PI * (INR k + / 2) * (INR i + / 2) / (N - / 2))) n.
End Defs.

Definition dct1 := transform dct1_at.
Definition dct2 := transform dct2_at.
Definition dct3 := transform dct3_at.
Definition dct4 := transform dct4_at.
Definition dct5 := transform dct5_at.
Definition dct6 := transform dct6_at.
Definition dct7 := transform dct7_at.
Definition dct8 := transform dct8_at.
Definition dst1 := transform dst1_at.
Definition dst2 := transform dst2_at.
Definition dst3 := transform dst3_at.
Definition dst4 := transform dst4_at.
Definition dst5 := transform dst5_at.
Definition dst6 := transform dst6_at.
Definition dst7 := transform dst7_at.
Definition dst8 := transform dst8_at.

Definition scale (c : R) (x : list R) : list R := map (Rmult c) x.

(** The MDCT of size [n]: [2n] samples [x], window [w], [n] outputs; and the
    IMDCT, which produces [2n] windowed samples from [n] inputs. *)
Definition mdct_at (n : nat) (w x : list R) (k : nat) : R :=
  sum (fun i => nth i w 0 * nth i x 0
                * cos (PI / INR n * (INR i + / 2 + INR n / 2) * (INR k + / 2))) (2 * n).
Definition mdct_of (n : nat) (w x : list R) : list R := map (mdct_at n w x) (seq 0 n).

Definition imdct_at (n : nat) (w y : list R) (i : nat) : R :=
  nth i w 0 * sum (fun k => nth k y 0
                * cos (PI / INR n * (INR i + / 2 + INR n / 2) * (INR k + / 2))) n.
Definition imdct_of (n : nat) (w y : list R) : list R := map (imdct_at n w y) (seq 0 (2 * n)).

(** Cellwise addition. *)
Definition add_lists (x y : list R) : list R :=
  map (fun i => nth i x 0 + nth i y 0) (seq 0 (length x)).

(** Window conditions for perfect reconstruction with overlap [n]:
    symmetry and Princen-Bradley with constant [c]. *)
Definition symmetric (w : list R) : Prop :=
  forall i, (i < length w)%nat -> nth i w 0 = nth (length w - 1 - i) w 0.
Definition princen_bradley (c : R) (n : nat) (w : list R) : Prop :=
  length w = (2 * n)%nat /\
  forall i, (i < n)%nat -> (nth i w 0)² + (nth (i + n) w 0)² = c.

(** The discrete Fourier transform of length [n], forward direction, on pairs
    (re, im). *)
Definition dft_re (x : list (R * R)) (k : nat) : R :=
  sum (fun j => let a := 2 * PI * INR j * INR k / INR (length x) in
        fst (nth j x (0, 0)) * cos a + snd (nth j x (0, 0)) * sin a) (length x).
Definition dft_im (x : list (R * R)) (k : nat) : R :=
  sum (fun j => let a := 2 * PI * INR j * INR k / INR (length x) in
        snd (nth j x (0, 0)) * cos a - fst (nth j x (0, 0)) * sin a) (length x).
Definition dft (x : list (R * R)) : list (R * R) :=
  map (fun k => (dft_re x k, dft_im x k)) (seq 0 (length x)).
