(** The naive algorithms: src/algorithm/type{1,2and3,4,5,6and7,8}_naive.rs. *)
From Coq Require Import List Arith Bool.
From Verif Require Import Prog Num Model_Common.
Import ListNotations.

Section Naive.
Context {T F : Type} {N : Num T F}.
Open Scope num_scope.
Notation P := (prog T).

(** ** Type 1 *)

(** type1_naive.rs:26-28 and 103-105: the structs are their twiddle tables. *)
Record dct1_naive := mkDct1Naive { dct1n_tw : list T }.
Record dst1_naive := mkDst1Naive { dst1n_tw : list T }.

(** type1_naive.rs:31-44, [Dct1Naive::new]. *)
Definition Dct1Naive_new (len : nat) : result dct1_naive :=
  _ <-? rassert (negb (len =? 1)) ;;
  d <-? rsub len 1 ;;
  let constant_factor := f_div f_pi (f_of_nat d) in
  Ok (mkDct1Naive
        (map (fun i => from_f64 (f_cos (f_mul constant_factor (f_of_nat i))))
             (seq 0 (d * 2)))).

(** type1_naive.rs:77-84, [len], [get_scratch_len]. *)
Definition Dct1Naive_len (self : dct1_naive) : nat := length (dct1n_tw self) / 2 + 1.
Definition Dct1Naive_scratch (self : dct1_naive) : nat := Dct1Naive_len self.

(** type1_naive.rs:48-74. *)
Definition Dct1Naive_dct1 (self : dct1_naive) (buffer scratch : slice) : P unit :=
  let twiddles := dct1n_tw self in
  validate_buffers buffer scratch (Dct1Naive_len self) (Dct1Naive_scratch self) (fun scratch =>
  copy_from_slice scratch buffer ;;;
  s0 <- rd scratch 0 ;;
  wr scratch 0 (s0 *. half) ;;;
  l1 <- usub (Dct1Naive_len self) 1 ;;
  sl <- rd scratch l1 ;;
  wr scratch l1 (sl *. half) ;;;
  for_range 0 (slen buffer) (fun k =>
    output_cell <- get_mut_unwrap buffer k ;;
    s0 <- rd scratch 0 ;;
    assign output_cell s0 ;;;
    let twiddle_stride := k in
    let twiddle_index := twiddle_stride in
    fold_range 1 (slen scratch) twiddle_index (fun i twiddle_index =>
      twiddle <- idx twiddles twiddle_index ;;
      o <- deref output_cell ;;
      s <- rd scratch i ;;
      assign output_cell (o +. s *. twiddle) ;;;
      let twiddle_index := twiddle_index + twiddle_stride in
      if length twiddles <=? twiddle_index
      then usub twiddle_index (length twiddles)
      else Ret twiddle_index) ;;;
    Ret tt)).

Definition Dct1Naive_obj (self : dct1_naive) : xform T :=
  mkX T (Dct1Naive_len self) (Dct1Naive_scratch self) (Dct1Naive_dct1 self).

(** type1_naive.rs:109-120, [Dst1Naive::new]. *)
Definition Dst1Naive_new (len : nat) : dst1_naive :=
  let constant_factor := f_div f_pi (f_of_nat (len + 1)) in
  mkDst1Naive
    (map (fun i => from_f64 (f_sin (f_mul constant_factor (f_of_nat i))))
         (seq 0 ((len + 1) * 2))).

(** type1_naive.rs:149-156.  The table has at least two entries, so the
    subtraction does not underflow. *)
Definition Dst1Naive_len (self : dst1_naive) : nat := length (dst1n_tw self) / 2 - 1.
Definition Dst1Naive_scratch (self : dst1_naive) : nat := Dst1Naive_len self.

(** type1_naive.rs:124-146. *)
Definition Dst1Naive_dst1 (self : dst1_naive) (buffer scratch : slice) : P unit :=
  let twiddles := dst1n_tw self in
  validate_buffers buffer scratch (Dst1Naive_len self) (Dst1Naive_scratch self) (fun scratch =>
  copy_from_slice scratch buffer ;;;
  for_range 0 (slen buffer) (fun k =>
    output_cell <- get_mut_unwrap buffer k ;;
    assign output_cell zero ;;;
    let twiddle_stride := k + 1 in
    let twiddle_index := twiddle_stride in
    fold_range 0 (slen scratch) twiddle_index (fun i twiddle_index =>
      twiddle <- idx twiddles twiddle_index ;;
      o <- deref output_cell ;;
      s <- rd scratch i ;;
      assign output_cell (o +. s *. twiddle) ;;;
      let twiddle_index := twiddle_index + twiddle_stride in
      if length twiddles <=? twiddle_index
      then usub twiddle_index (length twiddles)
      else Ret twiddle_index) ;;;
    Ret tt)).

Definition Dst1Naive_obj (self : dst1_naive) : xform T :=
  mkX T (Dst1Naive_len self) (Dst1Naive_scratch self) (Dst1Naive_dst1 self).

(** ** Types 2 and 3 *)

(** type2and3_naive.rs:31-33. *)
Record t23_naive := mkT23Naive { t23n_tw : list (T * T) }.

(** type2and3_naive.rs:37-45, [Type2And3Naive::new]. *)
Definition Type2And3Naive_new (len : nat) : t23_naive :=
  mkT23Naive (map (fun i => single_twiddle i (len * 4)) (seq 0 (len * 4))).

(** type2and3_naive.rs:155-162. *)
Definition Type2And3Naive_len (self : t23_naive) : nat := length (t23n_tw self) / 4.
Definition Type2And3Naive_scratch (self : t23_naive) : nat := Type2And3Naive_len self.

(** type2and3_naive.rs:49-71. *)
Definition Type2And3Naive_dct2 (self : t23_naive) (buffer scratch : slice) : P unit :=
  let twiddles := t23n_tw self in
  validate_buffers buffer scratch (Type2And3Naive_len self) (Type2And3Naive_scratch self)
  (fun scratch =>
  copy_from_slice scratch buffer ;;;
  for_range 0 (slen buffer) (fun k =>
    output_cell <- get_mut_unwrap buffer k ;;
    assign output_cell zero ;;;
    let twiddle_stride := k * 2 in
    let twiddle_index := k in
    fold_range 0 (slen scratch) twiddle_index (fun i twiddle_index =>
      twiddle <- idx twiddles twiddle_index ;;
      o <- deref output_cell ;;
      s <- rd scratch i ;;
      assign output_cell (o +. s *. fst twiddle) ;;;
      let twiddle_index := twiddle_index + twiddle_stride in
      if length twiddles <=? twiddle_index
      then usub twiddle_index (length twiddles)
      else Ret twiddle_index) ;;;
    Ret tt)).

(** type2and3_naive.rs:74-96. *)
Definition Type2And3Naive_dst2 (self : t23_naive) (buffer scratch : slice) : P unit :=
  let twiddles := t23n_tw self in
  validate_buffers buffer scratch (Type2And3Naive_len self) (Type2And3Naive_scratch self)
  (fun scratch =>
  copy_from_slice scratch buffer ;;;
  for_range 0 (slen buffer) (fun k =>
    output_cell <- get_mut_unwrap buffer k ;;
    assign output_cell zero ;;;
    let twiddle_stride := (k + 1) * 2 in
    let twiddle_index := k + 1 in
    fold_range 0 (slen scratch) twiddle_index (fun i twiddle_index =>
      twiddle <- idx twiddles twiddle_index ;;
      o <- deref output_cell ;;
      s <- rd scratch i ;;
      assign output_cell (o -. s *. snd twiddle) ;;;
      let twiddle_index := twiddle_index + twiddle_stride in
      if length twiddles <=? twiddle_index
      then usub twiddle_index (length twiddles)
      else Ret twiddle_index) ;;;
    Ret tt)).

(** type2and3_naive.rs:99-123. *)
Definition Type2And3Naive_dct3 (self : t23_naive) (buffer scratch : slice) : P unit :=
  let twiddles := t23n_tw self in
  validate_buffers buffer scratch (Type2And3Naive_len self) (Type2And3Naive_scratch self)
  (fun scratch =>
  copy_from_slice scratch buffer ;;;
  s0 <- rd scratch 0 ;;
  let half_first := half *. s0 in
  for_range 0 (slen buffer) (fun k =>
    output_cell <- get_mut_unwrap buffer k ;;
    assign output_cell half_first ;;;
    let twiddle_stride := k * 2 + 1 in
    let twiddle_index := twiddle_stride in
    fold_range 1 (slen scratch) twiddle_index (fun i twiddle_index =>
      twiddle <- idx twiddles twiddle_index ;;
      o <- deref output_cell ;;
      s <- rd scratch i ;;
      assign output_cell (o +. s *. fst twiddle) ;;;
      let twiddle_index := twiddle_index + twiddle_stride in
      if length twiddles <=? twiddle_index
      then usub twiddle_index (length twiddles)
      else Ret twiddle_index) ;;;
    Ret tt)).

(** type2and3_naive.rs:126-151. *)
Definition Type2And3Naive_dst3 (self : t23_naive) (buffer scratch : slice) : P unit :=
  let twiddles := t23n_tw self in
  validate_buffers buffer scratch (Type2And3Naive_len self) (Type2And3Naive_scratch self)
  (fun scratch =>
  copy_from_slice scratch buffer ;;;
  l1 <- usub (slen scratch) 1 ;;
  sl <- rd scratch l1 ;;
  wr scratch l1 (sl *. half) ;;;
  for_range 0 (slen buffer) (fun k =>
    output_cell <- get_mut_unwrap buffer k ;;
    assign output_cell zero ;;;
    let twiddle_stride := k * 2 + 1 in
    let twiddle_index := twiddle_stride in
    fold_range 0 (slen scratch) twiddle_index (fun i twiddle_index =>
      twiddle <- idx twiddles twiddle_index ;;
      o <- deref output_cell ;;
      s <- rd scratch i ;;
      assign output_cell (o -. s *. snd twiddle) ;;;
      let twiddle_index := twiddle_index + twiddle_stride in
      if length twiddles <=? twiddle_index
      then usub twiddle_index (length twiddles)
      else Ret twiddle_index) ;;;
    Ret tt)).

Definition Type2And3Naive_obj (self : t23_naive) : t23 T :=
  mkT23 T (Type2And3Naive_len self) (Type2And3Naive_scratch self)
    (Type2And3Naive_dct2 self) (Type2And3Naive_dct3 self)
    (Type2And3Naive_dst2 self) (Type2And3Naive_dst3 self).

(** ** Type 4 *)

(** type4_naive.rs:25-27. *)
Record t4_naive := mkT4Naive { t4n_tw : list (T * T) }.

(** type4_naive.rs:31-39, [Type4Naive::new]. *)
Definition Type4Naive_new (len : nat) : t4_naive :=
  mkT4Naive (map (fun i => single_twiddle_halfoffset i (len * 4)) (seq 0 (len * 4))).

(** type4_naive.rs:92-102. *)
Definition Type4Naive_len (self : t4_naive) : nat := length (t4n_tw self) / 4.
Definition Type4Naive_scratch (self : t4_naive) : nat := Type4Naive_len self.

(** type4_naive.rs:43-65. *)
Definition Type4Naive_dct4 (self : t4_naive) (buffer scratch : slice) : P unit :=
  let twiddles := t4n_tw self in
  validate_buffers buffer scratch (Type4Naive_len self) (Type4Naive_scratch self) (fun scratch =>
  copy_from_slice scratch buffer ;;;
  for_range 0 (slen buffer) (fun k =>
    output_cell <- get_mut_unwrap buffer k ;;
    assign output_cell zero ;;;
    let twiddle_index := k in
    let twiddle_stride := k * 2 + 1 in
    fold_range 0 (slen scratch) twiddle_index (fun i twiddle_index =>
      twiddle <- idx twiddles twiddle_index ;;
      o <- deref output_cell ;;
      s <- rd scratch i ;;
      assign output_cell (o +. s *. fst twiddle) ;;;
      let twiddle_index := twiddle_index + twiddle_stride in
      if length twiddles <=? twiddle_index
      then usub twiddle_index (length twiddles)
      else Ret twiddle_index) ;;;
    Ret tt)).

(** type4_naive.rs:68-90. *)
Definition Type4Naive_dst4 (self : t4_naive) (buffer scratch : slice) : P unit :=
  let twiddles := t4n_tw self in
  validate_buffers buffer scratch (Type4Naive_len self) (Type4Naive_scratch self) (fun scratch =>
  copy_from_slice scratch buffer ;;;
  for_range 0 (slen buffer) (fun k =>
    output_cell <- get_mut_unwrap buffer k ;;
    assign output_cell zero ;;;
    let twiddle_index := k in
    let twiddle_stride := k * 2 + 1 in
    fold_range 0 (slen scratch) twiddle_index (fun i twiddle_index =>
      twiddle <- idx twiddles twiddle_index ;;
      o <- deref output_cell ;;
      s <- rd scratch i ;;
      assign output_cell (o -. s *. snd twiddle) ;;;
      let twiddle_index := twiddle_index + twiddle_stride in
      if length twiddles <=? twiddle_index
      then usub twiddle_index (length twiddles)
      else Ret twiddle_index) ;;;
    Ret tt)).

Definition Type4Naive_obj (self : t4_naive) : t4 T :=
  mkT4 T (Type4Naive_len self) (Type4Naive_scratch self)
    (Type4Naive_dct4 self) (Type4Naive_dst4 self).

(** ** Type 5 *)

(** type5_naive.rs:24-26 and 97-99. *)
Record dct5_naive := mkDct5Naive { dct5n_tw : list T }.
Record dst5_naive := mkDst5Naive { dst5n_tw : list T }.

(** type5_naive.rs:29-40, [Dct5Naive::new]. *)
Definition Dct5Naive_new (len : nat) : result dct5_naive :=
  let constant_factor := f_div f_pi (f_sub (f_of_nat len) f_half) in
  d <-? rsub (len * 2) 1 ;;
  Ok (mkDct5Naive
        (map (fun i => from_f64 (f_cos (f_mul constant_factor (f_of_nat i)))) (seq 0 d))).

(** type5_naive.rs:71-80. *)
Definition Dct5Naive_len (self : dct5_naive) : nat := (length (dct5n_tw self) + 1) / 2.
Definition Dct5Naive_scratch (self : dct5_naive) : nat := Dct5Naive_len self.

(** type5_naive.rs:44-69.  Line 49 folds over [scratch] before storing. *)
Definition Dct5Naive_dct5 (self : dct5_naive) (buffer scratch : slice) : P unit :=
  let twiddles := dct5n_tw self in
  validate_buffers buffer scratch (Dct5Naive_len self) (Dct5Naive_scratch self) (fun scratch =>
  copy_from_slice scratch buffer ;;;
  s0 <- rd scratch 0 ;;
  wr scratch 0 (s0 *. half) ;;;
  sum <- fold_range 0 (slen scratch) zero (fun i acc => e <- rd scratch i ;; Ret (acc +. e)) ;;
  wr buffer 0 sum ;;;
  for_range 1 (slen buffer) (fun k =>
    output_cell <- get_mut_unwrap buffer k ;;
    s0 <- rd scratch 0 ;;
    assign output_cell s0 ;;;
    let twiddle_stride := k in
    let twiddle_index := twiddle_stride in
    fold_range 1 (slen scratch) twiddle_index (fun i twiddle_index =>
      twiddle <- idx twiddles twiddle_index ;;
      o <- deref output_cell ;;
      s <- rd scratch i ;;
      assign output_cell (o +. s *. twiddle) ;;;
      let twiddle_index := twiddle_index + twiddle_stride in
      if length twiddles <=? twiddle_index
      then usub twiddle_index (length twiddles)
      else Ret twiddle_index) ;;;
    Ret tt)).

Definition Dct5Naive_obj (self : dct5_naive) : xform T :=
  mkX T (Dct5Naive_len self) (Dct5Naive_scratch self) (Dct5Naive_dct5 self).

(** type5_naive.rs:103-114, [Dst5Naive::new]. *)
Definition Dst5Naive_new (len : nat) : dst5_naive :=
  let constant_factor := f_div f_pi (f_add (f_of_nat len) f_half) in
  mkDst5Naive
    (map (fun i => from_f64 (f_sin (f_mul constant_factor (f_of_nat i))))
         (seq 0 (len * 2 + 1))).

(** type5_naive.rs:142-151.  The table is not empty: no underflow. *)
Definition Dst5Naive_len (self : dst5_naive) : nat := (length (dst5n_tw self) - 1) / 2.
Definition Dst5Naive_scratch (self : dst5_naive) : nat := Dst5Naive_len self.

(** type5_naive.rs:118-140. *)
Definition Dst5Naive_dst5 (self : dst5_naive) (buffer scratch : slice) : P unit :=
  let twiddles := dst5n_tw self in
  validate_buffers buffer scratch (Dst5Naive_len self) (Dst5Naive_scratch self) (fun scratch =>
  copy_from_slice scratch buffer ;;;
  for_range 0 (slen buffer) (fun k =>
    output_cell <- get_mut_unwrap buffer k ;;
    assign output_cell zero ;;;
    let twiddle_stride := k + 1 in
    let twiddle_index := twiddle_stride in
    fold_range 0 (slen scratch) twiddle_index (fun i twiddle_index =>
      twiddle <- idx twiddles twiddle_index ;;
      o <- deref output_cell ;;
      s <- rd scratch i ;;
      assign output_cell (o +. s *. twiddle) ;;;
      let twiddle_index := twiddle_index + twiddle_stride in
      if length twiddles <=? twiddle_index
      then usub twiddle_index (length twiddles)
      else Ret twiddle_index) ;;;
    Ret tt)).

Definition Dst5Naive_obj (self : dst5_naive) : xform T :=
  mkX T (Dst5Naive_len self) (Dst5Naive_scratch self) (Dst5Naive_dst5 self).

(** ** Types 6 and 7 *)

(** type6and7_naive.rs:23-25 and 126-128. *)
Record c67_naive := mkC67Naive { c67n_tw : list T }.
Record s67_naive := mkS67Naive { s67n_tw : list T }.

(** type6and7_naive.rs:29-40, [Dct6And7Naive::new]. *)
Definition Dct6And7Naive_new (len : nat) : result c67_naive :=
  d1 <-? rsub (len * 2) 1 ;;
  let constant_factor := f_div f_pi (f_of_nat d1) in
  d2 <-? rsub (len * 4) 2 ;;
  Ok (mkC67Naive
        (map (fun i => from_f64 (f_cos (f_mul constant_factor (f_of_nat i)))) (seq 0 d2))).

(** type6and7_naive.rs:98-108. *)
Definition Dct6And7Naive_len (self : c67_naive) : nat := (length (c67n_tw self) + 2) / 4.
Definition Dct6And7Naive_scratch (self : c67_naive) : nat := Dct6And7Naive_len self.

(** type6and7_naive.rs:44-69. *)
Definition Dct6And7Naive_dct6 (self : c67_naive) (buffer scratch : slice) : P unit :=
  let twiddles := c67n_tw self in
  validate_buffers buffer scratch (Dct6And7Naive_len self) (Dct6And7Naive_scratch self)
  (fun scratch =>
  copy_from_slice scratch buffer ;;;
  l1 <- usub (slen scratch) 1 ;;
  sl <- rd scratch l1 ;;
  wr scratch l1 (sl *. half) ;;;
  sum <- fold_range 0 (slen scratch) zero (fun i acc => e <- rd scratch i ;; Ret (acc +. e)) ;;
  wr buffer 0 sum ;;;
  for_range 1 (slen buffer) (fun k =>
    output_cell <- get_mut_unwrap buffer k ;;
    assign output_cell zero ;;;
    let twiddle_stride := k * 2 in
    let twiddle_index := k in
    fold_range 0 (slen scratch) twiddle_index (fun i twiddle_index =>
      twiddle <- idx twiddles twiddle_index ;;
      o <- deref output_cell ;;
      s <- rd scratch i ;;
      assign output_cell (o +. s *. twiddle) ;;;
      let twiddle_index := twiddle_index + twiddle_stride in
      if length twiddles <=? twiddle_index
      then usub twiddle_index (length twiddles)
      else Ret twiddle_index) ;;;
    Ret tt)).

(** type6and7_naive.rs:72-96. *)
Definition Dct6And7Naive_dct7 (self : c67_naive) (buffer scratch : slice) : P unit :=
  let twiddles := c67n_tw self in
  validate_buffers buffer scratch (Dct6And7Naive_len self) (Dct6And7Naive_scratch self)
  (fun scratch =>
  copy_from_slice scratch buffer ;;;
  s0 <- rd scratch 0 ;;
  wr scratch 0 (s0 *. half) ;;;
  for_range 0 (slen buffer) (fun k =>
    output_cell <- get_mut_unwrap buffer k ;;
    s0 <- rd scratch 0 ;;
    assign output_cell s0 ;;;
    let twiddle_stride := k * 2 + 1 in
    let twiddle_index := twiddle_stride in
    fold_range 1 (slen scratch) twiddle_index (fun i twiddle_index =>
      twiddle <- idx twiddles twiddle_index ;;
      o <- deref output_cell ;;
      s <- rd scratch i ;;
      assign output_cell (o +. s *. twiddle) ;;;
      let twiddle_index := twiddle_index + twiddle_stride in
      if length twiddles <=? twiddle_index
      then usub twiddle_index (length twiddles)
      else Ret twiddle_index) ;;;
    Ret tt)).

Definition Dct6And7Naive_obj (self : c67_naive) : c67 T :=
  mkC67 T (Dct6And7Naive_len self) (Dct6And7Naive_scratch self)
    (Dct6And7Naive_dct6 self) (Dct6And7Naive_dct7 self).

(** type6and7_naive.rs:132-143, [Dst6And7Naive::new]. *)
Definition Dst6And7Naive_new (len : nat) : s67_naive :=
  let constant_factor := f_div f_pi (f_of_nat (len * 2 + 1)) in
  mkS67Naive
    (map (fun i => from_f64 (f_sin (f_mul constant_factor (f_of_nat i))))
         (seq 0 (len * 4 + 2))).

(** type6and7_naive.rs:196-206.  The table has at least two entries. *)
Definition Dst6And7Naive_len (self : s67_naive) : nat := (length (s67n_tw self) - 2) / 4.
Definition Dst6And7Naive_scratch (self : s67_naive) : nat := Dst6And7Naive_len self.

(** type6and7_naive.rs:147-169. *)
Definition Dst6And7Naive_dst6 (self : s67_naive) (buffer scratch : slice) : P unit :=
  let twiddles := s67n_tw self in
  validate_buffers buffer scratch (Dst6And7Naive_len self) (Dst6And7Naive_scratch self)
  (fun scratch =>
  copy_from_slice scratch buffer ;;;
  for_range 0 (slen buffer) (fun k =>
    output_cell <- get_mut_unwrap buffer k ;;
    assign output_cell zero ;;;
    let twiddle_stride := (k + 1) * 2 in
    let twiddle_index := k + 1 in
    fold_range 0 (slen scratch) twiddle_index (fun i twiddle_index =>
      twiddle <- idx twiddles twiddle_index ;;
      o <- deref output_cell ;;
      s <- rd scratch i ;;
      assign output_cell (o +. s *. twiddle) ;;;
      let twiddle_index := twiddle_index + twiddle_stride in
      if length twiddles <=? twiddle_index
      then usub twiddle_index (length twiddles)
      else Ret twiddle_index) ;;;
    Ret tt)).

(** type6and7_naive.rs:172-194. *)
Definition Dst6And7Naive_dst7 (self : s67_naive) (buffer scratch : slice) : P unit :=
  let twiddles := s67n_tw self in
  validate_buffers buffer scratch (Dst6And7Naive_len self) (Dst6And7Naive_scratch self)
  (fun scratch =>
  copy_from_slice scratch buffer ;;;
  for_range 0 (slen buffer) (fun k =>
    output_cell <- get_mut_unwrap buffer k ;;
    assign output_cell zero ;;;
    let twiddle_stride := k * 2 + 1 in
    let twiddle_index := twiddle_stride in
    fold_range 0 (slen scratch) twiddle_index (fun i twiddle_index =>
      twiddle <- idx twiddles twiddle_index ;;
      o <- deref output_cell ;;
      s <- rd scratch i ;;
      assign output_cell (o +. s *. twiddle) ;;;
      let twiddle_index := twiddle_index + twiddle_stride in
      if length twiddles <=? twiddle_index
      then usub twiddle_index (length twiddles)
      else Ret twiddle_index) ;;;
    Ret tt)).

Definition Dst6And7Naive_obj (self : s67_naive) : s67 T :=
  mkS67 T (Dst6And7Naive_len self) (Dst6And7Naive_scratch self)
    (Dst6And7Naive_dst6 self) (Dst6And7Naive_dst7 self).

(** ** Type 8 *)

(** type8_naive.rs:20-22 and 87-89. *)
Record dct8_naive := mkDct8Naive { dct8n_tw : list T }.
Record dst8_naive := mkDst8Naive { dst8n_tw : list T }.

(** type8_naive.rs:25-36, [Dct8Naive::new]. *)
Definition Dct8Naive_new (len : nat) : dct8_naive :=
  let constant_factor := f_div f_pi (f_of_nat (len * 2 + 1)) in
  mkDct8Naive
    (map (fun i => from_f64 (f_cos (f_mul constant_factor (f_add (f_of_nat i) f_half))))
         (seq 0 (len * 4 + 2))).

(** type8_naive.rs:63-72.  The table has at least two entries. *)
Definition Dct8Naive_len (self : dct8_naive) : nat := (length (dct8n_tw self) - 2) / 4.
Definition Dct8Naive_scratch (self : dct8_naive) : nat := Dct8Naive_len self.

(** type8_naive.rs:39-61. *)
Definition Dct8Naive_dct8 (self : dct8_naive) (buffer scratch : slice) : P unit :=
  let twiddles := dct8n_tw self in
  validate_buffers buffer scratch (Dct8Naive_len self) (Dct8Naive_scratch self) (fun scratch =>
  copy_from_slice scratch buffer ;;;
  for_range 0 (slen buffer) (fun k =>
    output_cell <- get_mut_unwrap buffer k ;;
    assign output_cell zero ;;;
    let twiddle_index := k in
    let twiddle_stride := k * 2 + 1 in
    fold_range 0 (slen scratch) twiddle_index (fun i twiddle_index =>
      twiddle <- idx twiddles twiddle_index ;;
      o <- deref output_cell ;;
      s <- rd scratch i ;;
      assign output_cell (o +. s *. twiddle) ;;;
      let twiddle_index := twiddle_index + twiddle_stride in
      if length twiddles <=? twiddle_index
      then usub twiddle_index (length twiddles)
      else Ret twiddle_index) ;;;
    Ret tt)).

Definition Dct8Naive_obj (self : dct8_naive) : xform T :=
  mkX T (Dct8Naive_len self) (Dct8Naive_scratch self) (Dct8Naive_dct8 self).

(** type8_naive.rs:93-104, [Dst8Naive::new]. *)
Definition Dst8Naive_new (len : nat) : result dst8_naive :=
  d1 <-? rsub (len * 2) 1 ;;
  let constant_factor := f_div f_pi (f_of_nat d1) in
  d2 <-? rsub (len * 4) 2 ;;
  Ok (mkDst8Naive
        (map (fun i => from_f64 (f_sin (f_mul constant_factor (f_add (f_of_nat i) f_half))))
             (seq 0 d2))).

(** type8_naive.rs:134-143. *)
Definition Dst8Naive_len (self : dst8_naive) : nat := (length (dst8n_tw self) + 2) / 4.
Definition Dst8Naive_scratch (self : dst8_naive) : nat := Dst8Naive_len self.

(** type8_naive.rs:108-132. *)
Definition Dst8Naive_dst8 (self : dst8_naive) (buffer scratch : slice) : P unit :=
  let twiddles := dst8n_tw self in
  validate_buffers buffer scratch (Dst8Naive_len self) (Dst8Naive_scratch self) (fun scratch =>
  copy_from_slice scratch buffer ;;;
  l1 <- usub (slen scratch) 1 ;;
  sl <- rd scratch l1 ;;
  wr scratch l1 (sl *. half) ;;;
  for_range 0 (slen buffer) (fun k =>
    output_cell <- get_mut_unwrap buffer k ;;
    assign output_cell zero ;;;
    let twiddle_index := k in
    let twiddle_stride := k * 2 + 1 in
    fold_range 0 (slen scratch) twiddle_index (fun i twiddle_index =>
      twiddle <- idx twiddles twiddle_index ;;
      o <- deref output_cell ;;
      s <- rd scratch i ;;
      assign output_cell (o +. s *. twiddle) ;;;
      let twiddle_index := twiddle_index + twiddle_stride in
      if length twiddles <=? twiddle_index
      then usub twiddle_index (length twiddles)
      else Ret twiddle_index) ;;;
    Ret tt)).

Definition Dst8Naive_obj (self : dst8_naive) : xform T :=
  mkX T (Dst8Naive_len self) (Dst8Naive_scratch self) (Dst8Naive_dst8 self).

End Naive.

Arguments dct1_naive : clear implicits.
Arguments dst1_naive : clear implicits.
Arguments t23_naive : clear implicits.
Arguments t4_naive : clear implicits.
Arguments dct5_naive : clear implicits.
Arguments dst5_naive : clear implicits.
Arguments c67_naive : clear implicits.
Arguments s67_naive : clear implicits.
Arguments dct8_naive : clear implicits.
Arguments dst8_naive : clear implicits.
