(** src/mdct/mdct_naive.rs, src/mdct/mdct_via_dct4.rs, src/mdct/window_fn.rs. *)
From Coq Require Import List Arith Bool.
From Verif Require Import Prog Num Model_Common.
Import ListNotations.

Section Mdct.
Context {T F : Type} {N : Num T F}.
Open Scope num_scope.
Notation P := (prog T).

(** ** Naive MDCT *)

(** mdct_naive.rs:29-32. *)
Record mdct_naive := mkMdctNaive { mn_tw : list T; mn_window : list T }.

(** mdct_naive.rs:42-69, [MdctNaive::new].  [window_fn] is an [FnOnce(usize) -> Vec<T>]
    that returns; a window function that panics or has side effects is not modelled. *)
Definition MdctNaive_new (output_len : nat) (window_fn : nat -> list T) : result mdct_naive :=
  _ <-? rassert (output_len mod 2 =? 0) ;;
  let constant_factor := f_div (f_mul f_half f_pi) (f_of_nat output_len) in
  let twiddles :=
    map (fun i => from_f64 (f_cos (f_mul constant_factor (f_add (f_of_nat i) f_half))))
        (seq 0 (output_len * 4)) in
  let window := window_fn (output_len * 2) in
  _ <-? rassert (length window =? output_len * 2) ;;
  Ok (mkMdctNaive twiddles window).

(** mdct_naive.rs:187-196. *)
Definition MdctNaive_len (self : mdct_naive) : nat := length (mn_tw self) / 4.
Definition MdctNaive_scratch (self : mdct_naive) : nat := 0.

(** mdct_naive.rs:104-107, 115-118, 152-155, 178-181. *)
Definition mn_advance (twiddles : list T) (twiddle_index twiddle_stride : nat) : P nat :=
  let twiddle_index := twiddle_index + twiddle_stride in
  if length twiddles <=? twiddle_index
  then usub twiddle_index (length twiddles)
  else Ret twiddle_index.

(** [a % b]: panics when [b] is zero. *)
Definition umod (a b : nat) : P nat := if b =? 0 then Panic EOverflow else Ret (a mod b).

(** mdct_naive.rs:73-121. *)
Definition MdctNaive_mdct (self : mdct_naive) (input_a input_b output scratch : slice) : P unit :=
  let twiddles := mn_tw self in
  validate_buffers_mdct input_a input_b output scratch (MdctNaive_len self)
    (MdctNaive_scratch self) (fun _ =>
  let output_len := slen output in
  let half_output := slen output / 2 in
  for_range 0 output_len (fun k =>
    output_cell <- get_mut_unwrap output k ;;
    assign output_cell zero ;;;
    twiddle_index <- umod (half_output + k * (output_len + 1)) (length twiddles) ;;
    let twiddle_stride := k * 2 + 1 in
    twiddle_index <- fold_range 0 (slen input_a) twiddle_index (fun i twiddle_index =>
      twiddle <- idx twiddles twiddle_index ;;
      o <- deref output_cell ;;
      a <- rd input_a i ;;
      w <- idx (mn_window self) i ;;
      assign output_cell (o +. a *. w *. twiddle) ;;;
      mn_advance twiddles twiddle_index twiddle_stride) ;;
    fold_range 0 (slen input_b) twiddle_index (fun i twiddle_index =>
      twiddle <- idx twiddles twiddle_index ;;
      o <- deref output_cell ;;
      b <- rd input_b i ;;
      w <- idx (mn_window self) (i + output_len) ;;
      assign output_cell (o +. b *. w *. twiddle) ;;;
      mn_advance twiddles twiddle_index twiddle_stride) ;;;
    Ret tt)).

(** mdct_naive.rs:122-185.  [output_val] is a local variable, so the inner loops
    fold over [(output_val, twiddle_index)]. *)
Definition MdctNaive_imdct (self : mdct_naive) (input output_a output_b scratch : slice) : P unit :=
  let twiddles := mn_tw self in
  validate_buffers_mdct input output_a output_b scratch (MdctNaive_len self)
    (MdctNaive_scratch self) (fun _ =>
  let input_len := slen input in
  let half_input := input_len / 2 in
  for_range 0 input_len (fun k =>
    let twiddle_index := half_input + k in
    let twiddle_stride := input_len + k * 2 + 1 in
    st <- fold_range 0 (slen input) (zero, twiddle_index) (fun i st =>
      let '(output_val, twiddle_index) := st in
      twiddle <- idx twiddles twiddle_index ;;
      v <- rd input i ;;
      let output_val := output_val +. v *. twiddle in
      twiddle_index <- mn_advance twiddles twiddle_index twiddle_stride ;;
      Ret (output_val, twiddle_index)) ;;
    o <- rd output_a k ;;
    w <- idx (mn_window self) k ;;
    wr output_a k (o +. fst st *. w)) ;;;
  for_range 0 input_len (fun k =>
    twiddle_k <- (if k <? input_len / 2 then Ret k
                  else j <- usub input_len k ;; usub j 1) ;;
    j <- usub (length twiddles) (input_len * 2) ;;
    j <- usub (j + half_input) twiddle_k ;;
    twiddle_index <- usub j 1 ;;
    j <- usub input_len 1 ;;
    twiddle_stride <- usub j (twiddle_k * 2) ;;
    st <- fold_range 0 (slen input) (zero, twiddle_index) (fun i st =>
      let '(output_val, twiddle_index) := st in
      twiddle <- idx twiddles twiddle_index ;;
      v <- rd input i ;;
      let output_val := output_val +. v *. twiddle in
      twiddle_index <- mn_advance twiddles twiddle_index twiddle_stride ;;
      Ret (output_val, twiddle_index)) ;;
    o <- rd output_b k ;;
    w <- idx (mn_window self) (k + input_len) ;;
    wr output_b k (o +. fst st *. w))).

Definition MdctNaive_obj (self : mdct_naive) : mdct T :=
  mkMdct T (MdctNaive_len self) (MdctNaive_scratch self)
    (MdctNaive_mdct self) (MdctNaive_imdct self).

(** ** MDCT via DCT4 *)

(** mdct_via_dct4.rs:34-38. *)
Record mdct_dct4 := mkMdctDct4 { md_dct : t4 T; md_window : list T; md_scratch : nat }.

(** mdct_via_dct4.rs:47-67, [MdctViaDct4::new]. *)
Definition MdctViaDct4_new (inner_dct : t4 T) (window_fn : nat -> list T) : result mdct_dct4 :=
  let len := t4_len inner_dct in
  _ <-? rassert (len mod 2 =? 0) ;;
  let window := window_fn (len * 2) in
  _ <-? rassert (length window =? len * 2) ;;
  Ok (mkMdctDct4 inner_dct window (len + t4_scratch inner_dct)).

(** mdct_via_dct4.rs:192-196. *)
Definition MdctViaDct4_len (self : mdct_dct4) : nat := t4_len (md_dct self).

(** mdct_via_dct4.rs:70-128.  Item [i] of [x.iter().zip(y.iter())] is
    [(x[i], y[i])]; [.rev()] counts from the end; the iterators are lazy, so the
    inputs are read inside the loops. *)
Definition MdctViaDct4_mdct (self : mdct_dct4) (input_a input_b output scratch : slice) : P unit :=
  validate_buffers_mdct input_a input_b output scratch (MdctViaDct4_len self) (md_scratch self)
  (fun scratch =>
  let group_size := MdctViaDct4_len self / 2 in
  window_b <- list_from (md_window self) (MdctViaDct4_len self) ;;
  let zip_a := Nat.min (slen input_a) (length (md_window self)) in
  let zip_b := Nat.min (slen input_b) (length window_b) in
  (* lines 114-117 *)
  for_range 0 (Nat.min (slen output) (zip_b - group_size)) (fun i =>
    let j := zip_b - 1 - (group_size + i) in
    c <- rd input_b j ;; w <- idx window_b j ;;
    let cr_val := c *. w in
    d <- rd input_b (group_size + i) ;; w <- idx window_b (group_size + i) ;;
    let d_val := d *. w in
    wr output i (-. cr_val -. d_val)) ;;;
  (* lines 120-125 *)
  output_right <- slice_from output group_size ;;
  for_range 0 (Nat.min (slen output_right) (Nat.min zip_a group_size)) (fun i =>
    a <- rd input_a i ;; w <- idx (md_window self) i ;;
    let a_val := a *. w in
    let j := zip_a - 1 - i in
    b <- rd input_a j ;; w <- idx (md_window self) j ;;
    let br_val := b *. w in
    wr output_right i (a_val -. br_val)) ;;;
  t_dct4 (md_dct self) output scratch).

(** mdct_via_dct4.rs:130-190. *)
Definition MdctViaDct4_imdct (self : mdct_dct4) (input output_a output_b scratch : slice) : P unit :=
  validate_buffers_mdct input output_a output_b scratch (MdctViaDct4_len self) (md_scratch self)
  (fun scratch =>
  sp <- split_at_mut scratch (MdctViaDct4_len self) ;;
  let '(dct_buffer, dct_scratch) := sp in
  copy_from_slice dct_buffer input ;;;
  t_dct4 (md_dct self) dct_buffer dct_scratch ;;;
  let group_size := MdctViaDct4_len self / 2 in
  (* lines 154-160 *)
  dct_right <- slice_from dct_buffer group_size ;;
  let zip_a := Nat.min (slen output_a) (length (md_window self)) in
  for_range 0 (Nat.min zip_a (slen dct_right)) (fun i =>
    o <- rd output_a i ;; v <- rd dct_right i ;; w <- idx (md_window self) i ;;
    wr output_a i (o +. v *. w)) ;;;
  (* lines 163-170 *)
  for_range 0 (Nat.min (zip_a - group_size) (slen dct_right)) (fun i =>
    o <- rd output_a (group_size + i) ;;
    v <- rd dct_right (slen dct_right - 1 - i) ;;
    w <- idx (md_window self) (group_size + i) ;;
    wr output_a (group_size + i) (o -. v *. w)) ;;;
  (* lines 173-179 *)
  window_b <- list_from (md_window self) (MdctViaDct4_len self) ;;
  dct_left <- slice_to dct_buffer group_size ;;
  let zip_b := Nat.min (slen output_b) (length window_b) in
  for_range 0 (Nat.min zip_b (slen dct_left)) (fun i =>
    o <- rd output_b i ;;
    v <- rd dct_left (slen dct_left - 1 - i) ;;
    w <- idx window_b i ;;
    wr output_b i (o -. v *. w)) ;;;
  (* lines 182-189 *)
  for_range 0 (Nat.min (zip_b - group_size) (slen dct_left)) (fun i =>
    o <- rd output_b (group_size + i) ;;
    v <- rd dct_left i ;;
    w <- idx window_b (group_size + i) ;;
    wr output_b (group_size + i) (o -. v *. w))).

Definition MdctViaDct4_obj (self : mdct_dct4) : mdct T :=
  mkMdct T (MdctViaDct4_len self) (md_scratch self)
    (MdctViaDct4_mdct self) (MdctViaDct4_imdct self).

(** ** Window functions *)

(** window_fn.rs:6-13. *)
Definition window_mp3 (len : nat) : list T :=
  let constant_term := f_div f_pi (f_of_nat len) in
  map (fun n => from_f64 (f_sin (f_mul constant_term (f_add (f_of_nat n) f_half)))) (seq 0 len).

(** window_fn.rs:16-24. *)
Definition window_mp3_invertible (len : nat) : list T :=
  let outer_scale := f_sqrt (f_div f_four (f_of_nat len)) in
  let constant_term := f_div f_pi (f_of_nat len) in
  map (fun n => from_f64
    (f_mul (f_sin (f_mul constant_term (f_add (f_of_nat n) f_half))) outer_scale)) (seq 0 len).

(** window_fn.rs:27-38. *)
Definition window_vorbis (len : nat) : list T :=
  let constant_term := f_div f_pi (f_of_nat len) in
  map (fun n =>
    let inner_sin := f_sin (f_mul constant_term (f_add (f_of_nat n) f_half)) in
    from_f64 (f_sin (f_mul (f_mul (f_mul f_pi f_half) inner_sin) inner_sin))) (seq 0 len).

(** window_fn.rs:41-53. *)
Definition window_vorbis_invertible (len : nat) : list T :=
  let outer_scale := f_sqrt (f_div f_four (f_of_nat len)) in
  let constant_term := f_div f_pi (f_of_nat len) in
  map (fun n =>
    let inner_sin := f_sin (f_mul constant_term (f_add (f_of_nat n) f_half)) in
    from_f64 (f_mul (f_sin (f_mul (f_mul (f_mul f_pi f_half) inner_sin) inner_sin)) outer_scale))
    (seq 0 len).

(** window_fn.rs:56-58. *)
Definition window_one (len : nat) : list T := map (fun _ => one) (seq 0 len).

(** window_fn.rs:61-67. *)
Definition window_invertible (len : nat) : list T :=
  let constant_term := f_sqrt (f_div f_two (f_of_nat len)) in
  map (fun _ => from_f64 constant_term) (seq 0 len).

End Mdct.

Arguments mdct_naive : clear implicits.
Arguments mdct_dct4 : clear implicits.
