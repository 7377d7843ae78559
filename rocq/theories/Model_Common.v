(** src/lib.rs, src/common.rs, src/array_utils.rs, src/twiddles.rs and the
    interface of rustfft used by the crate. *)
From Coq Require Import List Arith Bool.
From Verif Require Import Prog Num.
Import ListNotations.

(** Result of a constructor or of a planner call. *)
Inductive result (A : Type) := Ok (a : A) | Err (e : perr).
Arguments Ok {A}.
Arguments Err {A}.

Definition rbind {A B} (r : result A) (f : A -> result B) : result B :=
  match r with Ok a => f a | Err e => Err e end.
Notation "x <-? p ;; q" := (rbind p (fun x => q))
  (at level 61, p at next level, right associativity).

(** [assert!(c, ..)] and [a - b] on [usize] inside a constructor. *)
Definition rassert (c : bool) : result unit := if c then Ok tt else Err EAssert.
Definition rsub (a b : nat) : result nat := if b <=? a then Ok (a - b) else Err EOverflow.

(** [usize::is_power_of_two]. *)
Definition is_power_of_two (n : nat) : bool :=
  (0 <? n) && (2 ^ Nat.log2 n =? n).

(** rustfft (external): [Fft] trait objects.  [fft_run buffer scratch] gives the
    contents of both after [process_with_scratch]. *)
Inductive fft_direction := Forward | Inverse.
Definition dir_eqb (a b : fft_direction) : bool :=
  match a, b with Forward, Forward | Inverse, Inverse => true | _, _ => false end.

Record fft (T : Type) := mkFft {
  fft_len : nat;                                   (* [Length::len] *)
  fft_dir : fft_direction;                         (* [fft_direction()] *)
  fft_scratch : nat;                               (* [get_inplace_scratch_len()] *)
  fft_run : list (T * T) -> list (T * T) -> list (T * T) * list (T * T)
}.
Arguments fft_len {T}.
Arguments fft_dir {T}.
Arguments fft_scratch {T}.
Arguments fft_run {T}.

(** Trait objects of src/lib.rs: [len()], [get_scratch_len()] and the
    [process_X_with_scratch] methods, taking buffer and scratch. *)
Definition meth (T : Type) := slice -> slice -> prog T unit.

(** lib.rs:31-46 and the other single-transform traits
    (Dct1, Dst1, Dct5, Dst5, Dct8, Dst8). *)
Record xform (T : Type) := mkX { x_len : nat; x_scratch : nat; x_run : meth T }.
Arguments x_len {T}.
Arguments x_scratch {T}.
Arguments x_run {T}.

(** lib.rs:319, [TransformType2And3]. *)
Record t23 (T : Type) := mkT23 {
  t23_len : nat; t23_scratch : nat;
  t_dct2 : meth T; t_dct3 : meth T; t_dst2 : meth T; t_dst3 : meth T }.
Arguments t23_len {T}.
Arguments t23_scratch {T}.
Arguments t_dct2 {T}.
Arguments t_dct3 {T}.
Arguments t_dst2 {T}.
Arguments t_dst3 {T}.

(** lib.rs:322, [TransformType4]. *)
Record t4 (T : Type) := mkT4 {
  t4_len : nat; t4_scratch : nat; t_dct4 : meth T; t_dst4 : meth T }.
Arguments t4_len {T}.
Arguments t4_scratch {T}.
Arguments t_dct4 {T}.
Arguments t_dst4 {T}.

(** lib.rs:325, [Dct6And7]. *)
Record c67 (T : Type) := mkC67 {
  c67_len : nat; c67_scratch : nat; t_dct6 : meth T; t_dct7 : meth T }.
Arguments c67_len {T}.
Arguments c67_scratch {T}.
Arguments t_dct6 {T}.
Arguments t_dct7 {T}.

(** lib.rs:328, [Dst6And7]. *)
Record s67 (T : Type) := mkS67 {
  s67_len : nat; s67_scratch : nat; t_dst6 : meth T; t_dst7 : meth T }.
Arguments s67_len {T}.
Arguments s67_scratch {T}.
Arguments t_dst6 {T}.
Arguments t_dst7 {T}.

(** mdct/mod.rs:9-41, [Mdct]: [t_mdct input_a input_b output scratch] and
    [t_imdct input output_a output_b scratch]. *)
Record mdct (T : Type) := mkMdct {
  m_len : nat; m_scratch : nat;
  t_mdct : slice -> slice -> slice -> slice -> prog T unit;
  t_imdct : slice -> slice -> slice -> slice -> prog T unit }.
Arguments m_len {T}.
Arguments m_scratch {T}.
Arguments t_mdct {T}.
Arguments t_imdct {T}.

Section Common.
Context {T F : Type} {N : Num T F}.
Open Scope num_scope.
Notation P := (prog T).

(** common.rs:92-110, [dct_error_inplace]. *)
Definition dct_error_inplace (actual_len actual_scratch expected_len expected_scratch : nat)
  : P unit :=
  if actual_len =? expected_len
  then if expected_scratch <=? actual_scratch then Ret tt else Panic EScratchLen
  else Panic EBufLen.

(** common.rs:116-148, [mdct_error_inplace]. *)
Definition mdct_error_inplace (a b c actual_scratch expected_len expected_scratch : nat)
  : P unit :=
  if a =? expected_len
  then if b =? expected_len
       then if c =? expected_len
            then if expected_scratch <=? actual_scratch then Ret tt else Panic EScratchLen
            else Panic EMdctLen
       else Panic EMdctLen
  else Panic EMdctLen.

(** common.rs:20-27, [validate_buffer!].  [k] is the code after the macro; the
    [return] of the macro is the other branch. *)
Definition validate_buffer (buffer : slice) (expected_len : nat) (k : P unit) : P unit :=
  if negb (slen buffer =? expected_len)
  then dct_error_inplace (slen buffer) 0 expected_len 0 ;;; Ret tt
  else k.

(** common.rs:30-53, [validate_buffers!].  [k] receives the sliced scratch. *)
Definition validate_buffers (buffer scratch : slice) (expected_len expected_scratch : nat)
  (k : slice -> P unit) : P unit :=
  if negb (slen buffer =? expected_len)
  then dct_error_inplace (slen buffer) (slen scratch) expected_len expected_scratch ;;; Ret tt
  else match get_range scratch expected_scratch with
       | Some sliced_scratch => k sliced_scratch
       | None =>
           dct_error_inplace (slen buffer) (slen scratch) expected_len expected_scratch ;;; Ret tt
       end.

(** common.rs:56-86, [validate_buffers_mdct!]. *)
Definition validate_buffers_mdct (a b c scratch : slice) (expected_len expected_scratch : nat)
  (k : slice -> P unit) : P unit :=
  if negb (slen a =? expected_len) || negb (slen b =? expected_len)
     || negb (slen c =? expected_len)
  then mdct_error_inplace (slen a) (slen b) (slen c) (slen scratch)
         expected_len expected_scratch ;;; Ret tt
  else match get_range scratch expected_scratch with
       | Some sliced_scratch => k sliced_scratch
       | None =>
           mdct_error_inplace (slen a) (slen b) (slen c) (slen scratch)
             expected_len expected_scratch ;;; Ret tt
       end.

(** array_utils.rs:10-14, [into_complex_mut]. *)
Definition into_complex_mut (s : slice) : cslice := mkC (base s) (slen s / 2).

(** rustfft (external), [Fft::process_with_scratch(buffer, scratch)].  The
    library also accepts buffers that are a multiple of the FFT length; the crate
    never passes one, and the model panics on it. *)
Definition fft_process (f : fft T) (buffer scratch : cslice) : P unit :=
  if negb (clen buffer =? fft_len f) || (clen scratch <? fft_scratch f)
  then Panic EFft
  else
    xs <- cread_all buffer ;;
    ss <- cread_all scratch ;;
    let r := fft_run f xs ss in
    cwrite_all (zero, zero) buffer (fst r) ;;;
    cwrite_all (zero, zero) scratch (snd r).

(** num_complex, [Complex::from_polar(r, theta)] on [f64]. *)
Definition from_polar (r theta : F) : F * F := (f_mul r (f_cos theta), f_mul r (f_sin theta)).

(** twiddles.rs:7-16. *)
Definition single_twiddle (i fft_len : nat) : T * T :=
  let angle_constant := f_div (f_mul f_pi (f_neg f_two)) (f_of_nat fft_len) in
  let c := from_polar f_one (f_mul angle_constant (f_of_nat i)) in
  (from_f64 (fst c), from_f64 (snd c)).

(** twiddles.rs:20-26. *)
Definition single_twiddle_re (i fft_len : nat) : T :=
  let angle_constant := f_div (f_mul f_pi (f_neg f_two)) (f_of_nat fft_len) in
  let c := f_cos (f_mul angle_constant (f_of_nat i)) in
  from_f64 c.

(** twiddles.rs:30-39. *)
Definition single_twiddle_halfoffset (i fft_len : nat) : T * T :=
  let angle_constant := f_div (f_mul f_pi (f_neg f_two)) (f_of_nat fft_len) in
  let c := from_polar f_one (f_mul angle_constant (f_add (f_of_nat i) f_half)) in
  (from_f64 (fst c), from_f64 (snd c)).

End Common.
