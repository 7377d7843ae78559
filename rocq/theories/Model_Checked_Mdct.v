(** The definitions of Model_Mdct.v once more, with the [usize] arithmetic of
    Model_Checked.v for the build [B] and the greatest value [MAX].
    [MdctViaDct4] processes with iterators only (mdct_via_dct4.rs:70-190), and the window
    functions use no [usize] arithmetic, so those definitions serve both models.
    Everything else is copied; the comments cite the same lines. *)
From Coq Require Import List Arith Bool.
From Verif Require Import Prog Num Model_Common Model_Mdct Model_Checked.
Import ListNotations.

Section CheckedMdct.
Context {T F : Type} {N : Num T F}.
Open Scope num_scope.
Notation P := (prog T).
Variable B : build.
Variable MAX : nat.
Notation "x + y" := (ulift (uadd B MAX) x y) (in custom usize at level 50, left associativity).
Notation "x - y" := (ulift (usub_ck B MAX) x y) (in custom usize at level 50, left associativity).
Notation "x * y" := (ulift (umul B MAX) x y) (in custom usize at level 40, left associativity).

(** mdct_naive.rs:42-69, [MdctNaive::new].  [window_fn] is an [FnOnce(usize) -> Vec<T>]
    that returns; a window function that panics or has side effects is not modelled. *)
Definition MdctNaive_new_ck (output_len : nat) (window_fn : nat -> list T) : result (mdct_naive T) :=
  _ <-? rassert (output_len mod 2 =? 0) ;;
  let constant_factor := f_div (f_mul f_half f_pi) (f_of_nat output_len) in
  d <-? r<{ output_len * 4 }> ;;
  let twiddles :=
    map (fun i => from_f64 (f_cos (f_mul constant_factor (f_add (f_of_nat i) f_half))))
        (seq 0 d) in
  window_len <-? r<{ output_len * 2 }> ;;
  let window := window_fn window_len in
  window_len <-? r<{ output_len * 2 }> ;;
  _ <-? rassert (length window =? window_len) ;;
  Ok (mkMdctNaive twiddles window).

(** mdct_naive.rs:104-107, 115-118, 152-155, 178-181. *)
Definition mn_advance_ck (twiddles : list T) (twiddle_index twiddle_stride : nat) : P nat :=
  twiddle_index <- <{ twiddle_index + twiddle_stride }> ;;
  if length twiddles <=? twiddle_index
  then usub_ck B MAX twiddle_index (length twiddles)
  else Ret twiddle_index.

(** mdct_naive.rs:73-121. *)
Definition MdctNaive_mdct_ck (self : mdct_naive T) (input_a input_b output scratch : slice) : P unit :=
  let twiddles := mn_tw self in
  validate_buffers_mdct input_a input_b output scratch (MdctNaive_len self)
    (MdctNaive_scratch self) (fun _ =>
  let output_len := slen output in
  let half_output := slen output / 2 in
  for_range 0 output_len (fun k =>
    output_cell <- get_mut_unwrap output k ;;
    assign output_cell zero ;;;
    t <- <{ half_output + k * (output_len + 1) }> ;;
    twiddle_index <- umod t (length twiddles) ;;
    twiddle_stride <- <{ k * 2 + 1 }> ;;
    twiddle_index <- fold_range 0 (slen input_a) twiddle_index (fun i twiddle_index =>
      twiddle <- idx twiddles twiddle_index ;;
      o <- deref output_cell ;;
      a <- rd input_a i ;;
      w <- idx (mn_window self) i ;;
      assign output_cell (o +. a *. w *. twiddle) ;;;
      mn_advance_ck twiddles twiddle_index twiddle_stride) ;;
    fold_range 0 (slen input_b) twiddle_index (fun i twiddle_index =>
      twiddle <- idx twiddles twiddle_index ;;
      o <- deref output_cell ;;
      b <- rd input_b i ;;
      t <- <{ i + output_len }> ;;
      w <- idx (mn_window self) t ;;
      assign output_cell (o +. b *. w *. twiddle) ;;;
      mn_advance_ck twiddles twiddle_index twiddle_stride) ;;;
    Ret tt)).

(** mdct_naive.rs:122-185.  [output_val] is a local variable, so the inner loops
    fold over [(output_val, twiddle_index)]. *)
Definition MdctNaive_imdct_ck (self : mdct_naive T) (input output_a output_b scratch : slice) : P unit :=
  let twiddles := mn_tw self in
  validate_buffers_mdct input output_a output_b scratch (MdctNaive_len self)
    (MdctNaive_scratch self) (fun _ =>
  let input_len := slen input in
  let half_input := input_len / 2 in
  for_range 0 input_len (fun k =>
    twiddle_index <- <{ half_input + k }> ;;
    twiddle_stride <- <{ input_len + k * 2 + 1 }> ;;
    st <- fold_range 0 (slen input) (zero, twiddle_index) (fun i st =>
      let '(output_val, twiddle_index) := st in
      twiddle <- idx twiddles twiddle_index ;;
      v <- rd input i ;;
      let output_val := output_val +. v *. twiddle in
      twiddle_index <- mn_advance_ck twiddles twiddle_index twiddle_stride ;;
      Ret (output_val, twiddle_index)) ;;
    o <- rd output_a k ;;
    w <- idx (mn_window self) k ;;
    wr output_a k (o +. fst st *. w)) ;;;
  for_range 0 input_len (fun k =>
    twiddle_k <- (if k <? input_len / 2 then Ret k
                  else j <- usub_ck B MAX input_len k ;; usub_ck B MAX j 1) ;;
    twiddle_index <- <{ '(length twiddles) - input_len * 2 + half_input - twiddle_k - 1 }> ;;
    twiddle_stride <- <{ input_len - 1 - twiddle_k * 2 }> ;;
    st <- fold_range 0 (slen input) (zero, twiddle_index) (fun i st =>
      let '(output_val, twiddle_index) := st in
      twiddle <- idx twiddles twiddle_index ;;
      v <- rd input i ;;
      let output_val := output_val +. v *. twiddle in
      twiddle_index <- mn_advance_ck twiddles twiddle_index twiddle_stride ;;
      Ret (output_val, twiddle_index)) ;;
    o <- rd output_b k ;;
    t <- <{ k + input_len }> ;;
    w <- idx (mn_window self) t ;;
    wr output_b k (o +. fst st *. w))).

Definition MdctNaive_obj_ck (self : mdct_naive T) : mdct T :=
  mkMdct T (MdctNaive_len self) (MdctNaive_scratch self)
    (MdctNaive_mdct_ck self) (MdctNaive_imdct_ck self).

(** mdct_via_dct4.rs:47-67, [MdctViaDct4::new]. *)
Definition MdctViaDct4_new_ck (inner_dct : t4 T) (window_fn : nat -> list T) : result (mdct_dct4 T) :=
  let len := t4_len inner_dct in
  _ <-? rassert (len mod 2 =? 0) ;;
  window_len <-? r<{ len * 2 }> ;;
  let window := window_fn window_len in
  window_len <-? r<{ len * 2 }> ;;
  _ <-? rassert (length window =? window_len) ;;
  scratch_len <-? r<{ len + '(t4_scratch inner_dct) }> ;;
  Ok (mkMdctDct4 inner_dct window scratch_len).

End CheckedMdct.
