(** What is assumed of rustfft. *)
From Coq Require Import Reals List.
From Verif Require Import Prog Num Model_Common Spec.
Import ListNotations.
Open Scope nat_scope.

(** The output does not depend on the old contents of the scratch. *)
Definition fft_clean {T} (f : fft T) : Prop :=
  forall xs ss ss', length xs = fft_len f -> length ss = fft_scratch f ->
    length ss' = fft_scratch f -> fst (fft_run f xs ss) = fst (fft_run f xs ss').

(** In exact arithmetic the output is the DFT of the input. *)
Definition fft_exact (f : fft R) : Prop :=
  forall xs ss, length xs = fft_len f -> length ss = fft_scratch f -> fst (fft_run f xs ss) = dft xs.

(** [fft_planner.plan_fft_forward(n)] returns a forward FFT of length [n] ... *)
Definition fft_fits {T} (pf : nat -> fft T) : Prop :=
  forall n, fft_len (pf n) = n /\ fft_dir (pf n) = Forward.
(** ... that is clean, and exact. *)
Definition fft_all_clean {T} (pf : nat -> fft T) : Prop := forall n, fft_clean (pf n).
Definition fft_all_exact (pf : nat -> fft R) : Prop := forall n, fft_exact (pf n).

(** The assumptions can be met: the DFT computed by its definition, with no scratch. *)
Definition reference_fft (n : nat) : fft R := mkFft R n Forward 0 (fun xs ss => (dft xs, ss)).
Example reference_fft_fits : fft_fits reference_fft /\ fft_all_exact reference_fft.
Proof. split; [intros n; split; reflexivity|intros n xs ss _ _; reflexivity]. Qed.
