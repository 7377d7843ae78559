(** The definitions of Model_Naive.v once more, with the [usize] arithmetic of
    Model_Checked.v for the build [B] and the greatest value [MAX].
    Everything else is copied; the comments cite the same lines. *)
From Coq Require Import List Arith Bool.
From Verif Require Import Prog Num Model_Common Model_Naive Model_Checked.
Import ListNotations.

Section CheckedNaive.
Context {T F : Type} {N : Num T F}.
Open Scope num_scope.
Notation P := (prog T).
Variable B : build.
Variable MAX : nat.
Notation "x + y" := (ulift (uadd B MAX) x y) (in custom usize at level 50, left associativity).
Notation "x - y" := (ulift (usub_ck B MAX) x y) (in custom usize at level 50, left associativity).
Notation "x * y" := (ulift (umul B MAX) x y) (in custom usize at level 40, left associativity).

(** type1_naive.rs:31-44, [Dct1Naive::new]. *)
Definition Dct1Naive_new_ck (len : nat) : result (dct1_naive T) :=
  _ <-? rassert (negb (len =? 1)) ;;
  d <-? r<{ len - 1 }> ;;
  let constant_factor := f_div f_pi (f_of_nat d) in
  d2 <-? r<{ (len - 1) * 2 }> ;;
  Ok (mkDct1Naive
        (map (fun i => from_f64 (f_cos (f_mul constant_factor (f_of_nat i))))
             (seq 0 d2))).

(** type1_naive.rs:77-84, [len], [get_scratch_len]. *)
Definition Dct1Naive_len_ck (self : dct1_naive T) : P nat := <{ '(length (dct1n_tw self) / 2) + 1 }>.

Definition Dct1Naive_scratch_ck (self : dct1_naive T) : P nat := Dct1Naive_len_ck self.

(** type1_naive.rs:48-74. *)
Definition Dct1Naive_dct1_ck (self : dct1_naive T) (buffer scratch : slice) : P unit :=
  let twiddles := dct1n_tw self in
  expected_len <- Dct1Naive_len_ck self ;;
  expected_scratch <- Dct1Naive_scratch_ck self ;;
  validate_buffers buffer scratch expected_len expected_scratch (fun scratch =>
  copy_from_slice scratch buffer ;;;
  s0 <- rd scratch 0 ;;
  wr scratch 0 (s0 *. half) ;;;
  n <- Dct1Naive_len_ck self ;;
  l1 <- usub_ck B MAX n 1 ;;
  sl <- rd scratch l1 ;;
  wr scratch l1 (sl *. half) ;;;
  for_range 0 (slen buffer) (fun k =>
    output_cell <- get_mut_unwrap buffer k ;;
    s0 <- rd scratch 0 ;;
    assign output_cell s0 ;;;
    let twiddle_stride := k in
    let twiddle_index := twiddle_stride in
    fold_range 1 (slen scratch) twiddle_index (fun i twiddle_index =>
      twiddle <- idx twiddles twiddle_index ;;
      o <- deref output_cell ;;
      s <- rd scratch i ;;
      assign output_cell (o +. s *. twiddle) ;;;
      twiddle_index <- <{ twiddle_index + twiddle_stride }> ;;
      if length twiddles <=? twiddle_index
      then usub_ck B MAX twiddle_index (length twiddles)
      else Ret twiddle_index) ;;;
    Ret tt)).

Definition Dct1Naive_obj_ck (self : dct1_naive T) : result (xform T) :=
  n <-? rof (Dct1Naive_len_ck self) ;;
  s <-? rof (Dct1Naive_scratch_ck self) ;;
  Ok (mkX T n s (Dct1Naive_dct1_ck self)).

(** type1_naive.rs:109-120, [Dst1Naive::new]. *)
Definition Dst1Naive_new_ck (len : nat) : result (dst1_naive T) :=
  d1 <-? r<{ len + 1 }> ;;
  let constant_factor := f_div f_pi (f_of_nat d1) in
  d2 <-? r<{ (len + 1) * 2 }> ;;
  Ok (mkDst1Naive
    (map (fun i => from_f64 (f_sin (f_mul constant_factor (f_of_nat i))))
         (seq 0 d2))).

(** type1_naive.rs:149-156.  *)
Definition Dst1Naive_len_ck (self : dst1_naive T) : P nat := <{ '(length (dst1n_tw self) / 2) - 1 }>.

Definition Dst1Naive_scratch_ck (self : dst1_naive T) : P nat := Dst1Naive_len_ck self.

(** type1_naive.rs:124-146. *)
Definition Dst1Naive_dst1_ck (self : dst1_naive T) (buffer scratch : slice) : P unit :=
  let twiddles := dst1n_tw self in
  expected_len <- Dst1Naive_len_ck self ;;
  expected_scratch <- Dst1Naive_scratch_ck self ;;
  validate_buffers buffer scratch expected_len expected_scratch (fun scratch =>
  copy_from_slice scratch buffer ;;;
  for_range 0 (slen buffer) (fun k =>
    output_cell <- get_mut_unwrap buffer k ;;
    assign output_cell zero ;;;
    twiddle_stride <- <{ k + 1 }> ;;
    let twiddle_index := twiddle_stride in
    fold_range 0 (slen scratch) twiddle_index (fun i twiddle_index =>
      twiddle <- idx twiddles twiddle_index ;;
      o <- deref output_cell ;;
      s <- rd scratch i ;;
      assign output_cell (o +. s *. twiddle) ;;;
      twiddle_index <- <{ twiddle_index + twiddle_stride }> ;;
      if length twiddles <=? twiddle_index
      then usub_ck B MAX twiddle_index (length twiddles)
      else Ret twiddle_index) ;;;
    Ret tt)).

Definition Dst1Naive_obj_ck (self : dst1_naive T) : result (xform T) :=
  n <-? rof (Dst1Naive_len_ck self) ;;
  s <-? rof (Dst1Naive_scratch_ck self) ;;
  Ok (mkX T n s (Dst1Naive_dst1_ck self)).

(** type2and3_naive.rs:37-45, [Type2And3Naive::new]. *)
Definition Type2And3Naive_new_ck (len : nat) : result (t23_naive T) :=
  d <-? r<{ len * 4 }> ;;
  tw <-? rmap_list (fun i => n <-? r<{ len * 4 }> ;; Ok (single_twiddle i n)) (seq 0 d) ;;
  Ok (mkT23Naive tw).

(** type2and3_naive.rs:155-162. *)
Definition Type2And3Naive_len_ck (self : t23_naive T) : P nat := Ret (length (t23n_tw self) / 4).

Definition Type2And3Naive_scratch_ck (self : t23_naive T) : P nat := Type2And3Naive_len_ck self.

(** type2and3_naive.rs:49-71. *)
Definition Type2And3Naive_dct2_ck (self : t23_naive T) (buffer scratch : slice) : P unit :=
  let twiddles := t23n_tw self in
  expected_len <- Type2And3Naive_len_ck self ;;
  expected_scratch <- Type2And3Naive_scratch_ck self ;;
  validate_buffers buffer scratch expected_len expected_scratch (fun scratch =>
  copy_from_slice scratch buffer ;;;
  for_range 0 (slen buffer) (fun k =>
    output_cell <- get_mut_unwrap buffer k ;;
    assign output_cell zero ;;;
    twiddle_stride <- <{ k * 2 }> ;;
    let twiddle_index := k in
    fold_range 0 (slen scratch) twiddle_index (fun i twiddle_index =>
      twiddle <- idx twiddles twiddle_index ;;
      o <- deref output_cell ;;
      s <- rd scratch i ;;
      assign output_cell (o +. s *. fst twiddle) ;;;
      twiddle_index <- <{ twiddle_index + twiddle_stride }> ;;
      if length twiddles <=? twiddle_index
      then usub_ck B MAX twiddle_index (length twiddles)
      else Ret twiddle_index) ;;;
    Ret tt)).

(** type2and3_naive.rs:74-96. *)
Definition Type2And3Naive_dst2_ck (self : t23_naive T) (buffer scratch : slice) : P unit :=
  let twiddles := t23n_tw self in
  expected_len <- Type2And3Naive_len_ck self ;;
  expected_scratch <- Type2And3Naive_scratch_ck self ;;
  validate_buffers buffer scratch expected_len expected_scratch (fun scratch =>
  copy_from_slice scratch buffer ;;;
  for_range 0 (slen buffer) (fun k =>
    output_cell <- get_mut_unwrap buffer k ;;
    assign output_cell zero ;;;
    twiddle_stride <- <{ (k + 1) * 2 }> ;;
    twiddle_index <- <{ k + 1 }> ;;
    fold_range 0 (slen scratch) twiddle_index (fun i twiddle_index =>
      twiddle <- idx twiddles twiddle_index ;;
      o <- deref output_cell ;;
      s <- rd scratch i ;;
      assign output_cell (o -. s *. snd twiddle) ;;;
      twiddle_index <- <{ twiddle_index + twiddle_stride }> ;;
      if length twiddles <=? twiddle_index
      then usub_ck B MAX twiddle_index (length twiddles)
      else Ret twiddle_index) ;;;
    Ret tt)).

(** type2and3_naive.rs:99-123. *)
Definition Type2And3Naive_dct3_ck (self : t23_naive T) (buffer scratch : slice) : P unit :=
  let twiddles := t23n_tw self in
  expected_len <- Type2And3Naive_len_ck self ;;
  expected_scratch <- Type2And3Naive_scratch_ck self ;;
  validate_buffers buffer scratch expected_len expected_scratch (fun scratch =>
  copy_from_slice scratch buffer ;;;
  s0 <- rd scratch 0 ;;
  let half_first := half *. s0 in
  for_range 0 (slen buffer) (fun k =>
    output_cell <- get_mut_unwrap buffer k ;;
    assign output_cell half_first ;;;
    twiddle_stride <- <{ k * 2 + 1 }> ;;
    let twiddle_index := twiddle_stride in
    fold_range 1 (slen scratch) twiddle_index (fun i twiddle_index =>
      twiddle <- idx twiddles twiddle_index ;;
      o <- deref output_cell ;;
      s <- rd scratch i ;;
      assign output_cell (o +. s *. fst twiddle) ;;;
      twiddle_index <- <{ twiddle_index + twiddle_stride }> ;;
      if length twiddles <=? twiddle_index
      then usub_ck B MAX twiddle_index (length twiddles)
      else Ret twiddle_index) ;;;
    Ret tt)).

(** type2and3_naive.rs:126-151. *)
Definition Type2And3Naive_dst3_ck (self : t23_naive T) (buffer scratch : slice) : P unit :=
  let twiddles := t23n_tw self in
  expected_len <- Type2And3Naive_len_ck self ;;
  expected_scratch <- Type2And3Naive_scratch_ck self ;;
  validate_buffers buffer scratch expected_len expected_scratch (fun scratch =>
  copy_from_slice scratch buffer ;;;
  l1 <- usub_ck B MAX (slen scratch) 1 ;;
  sl <- rd scratch l1 ;;
  wr scratch l1 (sl *. half) ;;;
  for_range 0 (slen buffer) (fun k =>
    output_cell <- get_mut_unwrap buffer k ;;
    assign output_cell zero ;;;
    twiddle_stride <- <{ k * 2 + 1 }> ;;
    let twiddle_index := twiddle_stride in
    fold_range 0 (slen scratch) twiddle_index (fun i twiddle_index =>
      twiddle <- idx twiddles twiddle_index ;;
      o <- deref output_cell ;;
      s <- rd scratch i ;;
      assign output_cell (o -. s *. snd twiddle) ;;;
      twiddle_index <- <{ twiddle_index + twiddle_stride }> ;;
      if length twiddles <=? twiddle_index
      then usub_ck B MAX twiddle_index (length twiddles)
      else Ret twiddle_index) ;;;
    Ret tt)).

Definition Type2And3Naive_obj_ck (self : t23_naive T) : result (t23 T) :=
  n <-? rof (Type2And3Naive_len_ck self) ;;
  s <-? rof (Type2And3Naive_scratch_ck self) ;;
  Ok (mkT23 T n s
    (Type2And3Naive_dct2_ck self) (Type2And3Naive_dct3_ck self)
    (Type2And3Naive_dst2_ck self) (Type2And3Naive_dst3_ck self)).

(** type4_naive.rs:31-39, [Type4Naive::new]. *)
Definition Type4Naive_new_ck (len : nat) : result (t4_naive T) :=
  d <-? r<{ len * 4 }> ;;
  tw <-? rmap_list (fun i => n <-? r<{ len * 4 }> ;; Ok (single_twiddle_halfoffset i n)) (seq 0 d) ;;
  Ok (mkT4Naive tw).

(** type4_naive.rs:92-102. *)
Definition Type4Naive_len_ck (self : t4_naive T) : P nat := Ret (length (t4n_tw self) / 4).

Definition Type4Naive_scratch_ck (self : t4_naive T) : P nat := Type4Naive_len_ck self.

(** type4_naive.rs:43-65. *)
Definition Type4Naive_dct4_ck (self : t4_naive T) (buffer scratch : slice) : P unit :=
  let twiddles := t4n_tw self in
  expected_len <- Type4Naive_len_ck self ;;
  expected_scratch <- Type4Naive_scratch_ck self ;;
  validate_buffers buffer scratch expected_len expected_scratch (fun scratch =>
  copy_from_slice scratch buffer ;;;
  for_range 0 (slen buffer) (fun k =>
    output_cell <- get_mut_unwrap buffer k ;;
    assign output_cell zero ;;;
    let twiddle_index := k in
    twiddle_stride <- <{ k * 2 + 1 }> ;;
    fold_range 0 (slen scratch) twiddle_index (fun i twiddle_index =>
      twiddle <- idx twiddles twiddle_index ;;
      o <- deref output_cell ;;
      s <- rd scratch i ;;
      assign output_cell (o +. s *. fst twiddle) ;;;
      twiddle_index <- <{ twiddle_index + twiddle_stride }> ;;
      if length twiddles <=? twiddle_index
      then usub_ck B MAX twiddle_index (length twiddles)
      else Ret twiddle_index) ;;;
    Ret tt)).

(** type4_naive.rs:68-90. *)
Definition Type4Naive_dst4_ck (self : t4_naive T) (buffer scratch : slice) : P unit :=
  let twiddles := t4n_tw self in
  expected_len <- Type4Naive_len_ck self ;;
  expected_scratch <- Type4Naive_scratch_ck self ;;
  validate_buffers buffer scratch expected_len expected_scratch (fun scratch =>
  copy_from_slice scratch buffer ;;;
  for_range 0 (slen buffer) (fun k =>
    output_cell <- get_mut_unwrap buffer k ;;
    assign output_cell zero ;;;
    let twiddle_index := k in
    twiddle_stride <- <{ k * 2 + 1 }> ;;
    fold_range 0 (slen scratch) twiddle_index (fun i twiddle_index =>
      twiddle <- idx twiddles twiddle_index ;;
      o <- deref output_cell ;;
      s <- rd scratch i ;;
      assign output_cell (o -. s *. snd twiddle) ;;;
      twiddle_index <- <{ twiddle_index + twiddle_stride }> ;;
      if length twiddles <=? twiddle_index
      then usub_ck B MAX twiddle_index (length twiddles)
      else Ret twiddle_index) ;;;
    Ret tt)).

Definition Type4Naive_obj_ck (self : t4_naive T) : result (t4 T) :=
  n <-? rof (Type4Naive_len_ck self) ;;
  s <-? rof (Type4Naive_scratch_ck self) ;;
  Ok (mkT4 T n s
    (Type4Naive_dct4_ck self) (Type4Naive_dst4_ck self)).

(** type5_naive.rs:29-40, [Dct5Naive::new]. *)
Definition Dct5Naive_new_ck (len : nat) : result (dct5_naive T) :=
  let constant_factor := f_div f_pi (f_sub (f_of_nat len) f_half) in
  d <-? r<{ len * 2 - 1 }> ;;
  Ok (mkDct5Naive
        (map (fun i => from_f64 (f_cos (f_mul constant_factor (f_of_nat i)))) (seq 0 d))).

(** type5_naive.rs:71-80. *)
Definition Dct5Naive_len_ck (self : dct5_naive T) : P nat := n <- <{ '(length (dct5n_tw self)) + 1 }> ;; Ret (n / 2).

Definition Dct5Naive_scratch_ck (self : dct5_naive T) : P nat := Dct5Naive_len_ck self.

(** type5_naive.rs:44-69.  Line 49 folds over [scratch] before storing. *)
Definition Dct5Naive_dct5_ck (self : dct5_naive T) (buffer scratch : slice) : P unit :=
  let twiddles := dct5n_tw self in
  expected_len <- Dct5Naive_len_ck self ;;
  expected_scratch <- Dct5Naive_scratch_ck self ;;
  validate_buffers buffer scratch expected_len expected_scratch (fun scratch =>
  copy_from_slice scratch buffer ;;;
  s0 <- rd scratch 0 ;;
  wr scratch 0 (s0 *. half) ;;;
  sum <- fold_range 0 (slen scratch) zero (fun i acc => e <- rd scratch i ;; Ret (acc +. e)) ;;
  wr buffer 0 sum ;;;
  for_range 1 (slen buffer) (fun k =>
    output_cell <- get_mut_unwrap buffer k ;;
    s0 <- rd scratch 0 ;;
    assign output_cell s0 ;;;
    let twiddle_stride := k in
    let twiddle_index := twiddle_stride in
    fold_range 1 (slen scratch) twiddle_index (fun i twiddle_index =>
      twiddle <- idx twiddles twiddle_index ;;
      o <- deref output_cell ;;
      s <- rd scratch i ;;
      assign output_cell (o +. s *. twiddle) ;;;
      twiddle_index <- <{ twiddle_index + twiddle_stride }> ;;
      if length twiddles <=? twiddle_index
      then usub_ck B MAX twiddle_index (length twiddles)
      else Ret twiddle_index) ;;;
    Ret tt)).

Definition Dct5Naive_obj_ck (self : dct5_naive T) : result (xform T) :=
  n <-? rof (Dct5Naive_len_ck self) ;;
  s <-? rof (Dct5Naive_scratch_ck self) ;;
  Ok (mkX T n s (Dct5Naive_dct5_ck self)).

(** type5_naive.rs:103-114, [Dst5Naive::new]. *)
Definition Dst5Naive_new_ck (len : nat) : result (dst5_naive T) :=
  let constant_factor := f_div f_pi (f_add (f_of_nat len) f_half) in
  d <-? r<{ len * 2 + 1 }> ;;
  Ok (mkDst5Naive
    (map (fun i => from_f64 (f_sin (f_mul constant_factor (f_of_nat i))))
         (seq 0 d))).

(** type5_naive.rs:142-151. *)
Definition Dst5Naive_len_ck (self : dst5_naive T) : P nat := n <- <{ '(length (dst5n_tw self)) - 1 }> ;; Ret (n / 2).

Definition Dst5Naive_scratch_ck (self : dst5_naive T) : P nat := Dst5Naive_len_ck self.

(** type5_naive.rs:118-140. *)
Definition Dst5Naive_dst5_ck (self : dst5_naive T) (buffer scratch : slice) : P unit :=
  let twiddles := dst5n_tw self in
  expected_len <- Dst5Naive_len_ck self ;;
  expected_scratch <- Dst5Naive_scratch_ck self ;;
  validate_buffers buffer scratch expected_len expected_scratch (fun scratch =>
  copy_from_slice scratch buffer ;;;
  for_range 0 (slen buffer) (fun k =>
    output_cell <- get_mut_unwrap buffer k ;;
    assign output_cell zero ;;;
    twiddle_stride <- <{ k + 1 }> ;;
    let twiddle_index := twiddle_stride in
    fold_range 0 (slen scratch) twiddle_index (fun i twiddle_index =>
      twiddle <- idx twiddles twiddle_index ;;
      o <- deref output_cell ;;
      s <- rd scratch i ;;
      assign output_cell (o +. s *. twiddle) ;;;
      twiddle_index <- <{ twiddle_index + twiddle_stride }> ;;
      if length twiddles <=? twiddle_index
      then usub_ck B MAX twiddle_index (length twiddles)
      else Ret twiddle_index) ;;;
    Ret tt)).

Definition Dst5Naive_obj_ck (self : dst5_naive T) : result (xform T) :=
  n <-? rof (Dst5Naive_len_ck self) ;;
  s <-? rof (Dst5Naive_scratch_ck self) ;;
  Ok (mkX T n s (Dst5Naive_dst5_ck self)).

(** type6and7_naive.rs:29-40, [Dct6And7Naive::new]. *)
Definition Dct6And7Naive_new_ck (len : nat) : result (c67_naive T) :=
  d1 <-? r<{ len * 2 - 1 }> ;;
  let constant_factor := f_div f_pi (f_of_nat d1) in
  d2 <-? r<{ len * 4 - 2 }> ;;
  Ok (mkC67Naive
        (map (fun i => from_f64 (f_cos (f_mul constant_factor (f_of_nat i)))) (seq 0 d2))).

(** type6and7_naive.rs:98-108. *)
Definition Dct6And7Naive_len_ck (self : c67_naive T) : P nat := n <- <{ '(length (c67n_tw self)) + 2 }> ;; Ret (n / 4).

Definition Dct6And7Naive_scratch_ck (self : c67_naive T) : P nat := Dct6And7Naive_len_ck self.

(** type6and7_naive.rs:44-69. *)
Definition Dct6And7Naive_dct6_ck (self : c67_naive T) (buffer scratch : slice) : P unit :=
  let twiddles := c67n_tw self in
  expected_len <- Dct6And7Naive_len_ck self ;;
  expected_scratch <- Dct6And7Naive_scratch_ck self ;;
  validate_buffers buffer scratch expected_len expected_scratch (fun scratch =>
  copy_from_slice scratch buffer ;;;
  l1 <- usub_ck B MAX (slen scratch) 1 ;;
  sl <- rd scratch l1 ;;
  wr scratch l1 (sl *. half) ;;;
  sum <- fold_range 0 (slen scratch) zero (fun i acc => e <- rd scratch i ;; Ret (acc +. e)) ;;
  wr buffer 0 sum ;;;
  for_range 1 (slen buffer) (fun k =>
    output_cell <- get_mut_unwrap buffer k ;;
    assign output_cell zero ;;;
    twiddle_stride <- <{ k * 2 }> ;;
    let twiddle_index := k in
    fold_range 0 (slen scratch) twiddle_index (fun i twiddle_index =>
      twiddle <- idx twiddles twiddle_index ;;
      o <- deref output_cell ;;
      s <- rd scratch i ;;
      assign output_cell (o +. s *. twiddle) ;;;
      twiddle_index <- <{ twiddle_index + twiddle_stride }> ;;
      if length twiddles <=? twiddle_index
      then usub_ck B MAX twiddle_index (length twiddles)
      else Ret twiddle_index) ;;;
    Ret tt)).

(** type6and7_naive.rs:72-96. *)
Definition Dct6And7Naive_dct7_ck (self : c67_naive T) (buffer scratch : slice) : P unit :=
  let twiddles := c67n_tw self in
  expected_len <- Dct6And7Naive_len_ck self ;;
  expected_scratch <- Dct6And7Naive_scratch_ck self ;;
  validate_buffers buffer scratch expected_len expected_scratch (fun scratch =>
  copy_from_slice scratch buffer ;;;
  s0 <- rd scratch 0 ;;
  wr scratch 0 (s0 *. half) ;;;
  for_range 0 (slen buffer) (fun k =>
    output_cell <- get_mut_unwrap buffer k ;;
    s0 <- rd scratch 0 ;;
    assign output_cell s0 ;;;
    twiddle_stride <- <{ k * 2 + 1 }> ;;
    let twiddle_index := twiddle_stride in
    fold_range 1 (slen scratch) twiddle_index (fun i twiddle_index =>
      twiddle <- idx twiddles twiddle_index ;;
      o <- deref output_cell ;;
      s <- rd scratch i ;;
      assign output_cell (o +. s *. twiddle) ;;;
      twiddle_index <- <{ twiddle_index + twiddle_stride }> ;;
      if length twiddles <=? twiddle_index
      then usub_ck B MAX twiddle_index (length twiddles)
      else Ret twiddle_index) ;;;
    Ret tt)).

Definition Dct6And7Naive_obj_ck (self : c67_naive T) : result (c67 T) :=
  n <-? rof (Dct6And7Naive_len_ck self) ;;
  s <-? rof (Dct6And7Naive_scratch_ck self) ;;
  Ok (mkC67 T n s
    (Dct6And7Naive_dct6_ck self) (Dct6And7Naive_dct7_ck self)).

(** type6and7_naive.rs:132-143, [Dst6And7Naive::new]. *)
Definition Dst6And7Naive_new_ck (len : nat) : result (s67_naive T) :=
  d1 <-? r<{ len * 2 + 1 }> ;;
  let constant_factor := f_div f_pi (f_of_nat d1) in
  d2 <-? r<{ len * 4 + 2 }> ;;
  Ok (mkS67Naive
    (map (fun i => from_f64 (f_sin (f_mul constant_factor (f_of_nat i))))
         (seq 0 d2))).

(** type6and7_naive.rs:196-206. *)
Definition Dst6And7Naive_len_ck (self : s67_naive T) : P nat := n <- <{ '(length (s67n_tw self)) - 2 }> ;; Ret (n / 4).

Definition Dst6And7Naive_scratch_ck (self : s67_naive T) : P nat := Dst6And7Naive_len_ck self.

(** type6and7_naive.rs:147-169. *)
Definition Dst6And7Naive_dst6_ck (self : s67_naive T) (buffer scratch : slice) : P unit :=
  let twiddles := s67n_tw self in
  expected_len <- Dst6And7Naive_len_ck self ;;
  expected_scratch <- Dst6And7Naive_scratch_ck self ;;
  validate_buffers buffer scratch expected_len expected_scratch (fun scratch =>
  copy_from_slice scratch buffer ;;;
  for_range 0 (slen buffer) (fun k =>
    output_cell <- get_mut_unwrap buffer k ;;
    assign output_cell zero ;;;
    twiddle_stride <- <{ (k + 1) * 2 }> ;;
    twiddle_index <- <{ k + 1 }> ;;
    fold_range 0 (slen scratch) twiddle_index (fun i twiddle_index =>
      twiddle <- idx twiddles twiddle_index ;;
      o <- deref output_cell ;;
      s <- rd scratch i ;;
      assign output_cell (o +. s *. twiddle) ;;;
      twiddle_index <- <{ twiddle_index + twiddle_stride }> ;;
      if length twiddles <=? twiddle_index
      then usub_ck B MAX twiddle_index (length twiddles)
      else Ret twiddle_index) ;;;
    Ret tt)).

(** type6and7_naive.rs:172-194. *)
Definition Dst6And7Naive_dst7_ck (self : s67_naive T) (buffer scratch : slice) : P unit :=
  let twiddles := s67n_tw self in
  expected_len <- Dst6And7Naive_len_ck self ;;
  expected_scratch <- Dst6And7Naive_scratch_ck self ;;
  validate_buffers buffer scratch expected_len expected_scratch (fun scratch =>
  copy_from_slice scratch buffer ;;;
  for_range 0 (slen buffer) (fun k =>
    output_cell <- get_mut_unwrap buffer k ;;
    assign output_cell zero ;;;
    twiddle_stride <- <{ k * 2 + 1 }> ;;
    let twiddle_index := twiddle_stride in
    fold_range 0 (slen scratch) twiddle_index (fun i twiddle_index =>
      twiddle <- idx twiddles twiddle_index ;;
      o <- deref output_cell ;;
      s <- rd scratch i ;;
      assign output_cell (o +. s *. twiddle) ;;;
      twiddle_index <- <{ twiddle_index + twiddle_stride }> ;;
      if length twiddles <=? twiddle_index
      then usub_ck B MAX twiddle_index (length twiddles)
      else Ret twiddle_index) ;;;
    Ret tt)).

Definition Dst6And7Naive_obj_ck (self : s67_naive T) : result (s67 T) :=
  n <-? rof (Dst6And7Naive_len_ck self) ;;
  s <-? rof (Dst6And7Naive_scratch_ck self) ;;
  Ok (mkS67 T n s
    (Dst6And7Naive_dst6_ck self) (Dst6And7Naive_dst7_ck self)).

(** type8_naive.rs:25-36, [Dct8Naive::new]. *)
Definition Dct8Naive_new_ck (len : nat) : result (dct8_naive T) :=
  d1 <-? r<{ len * 2 + 1 }> ;;
  let constant_factor := f_div f_pi (f_of_nat d1) in
  d2 <-? r<{ len * 4 + 2 }> ;;
  Ok (mkDct8Naive
    (map (fun i => from_f64 (f_cos (f_mul constant_factor (f_add (f_of_nat i) f_half))))
         (seq 0 d2))).

(** type8_naive.rs:63-72. *)
Definition Dct8Naive_len_ck (self : dct8_naive T) : P nat := n <- <{ '(length (dct8n_tw self)) - 2 }> ;; Ret (n / 4).

Definition Dct8Naive_scratch_ck (self : dct8_naive T) : P nat := Dct8Naive_len_ck self.

(** type8_naive.rs:39-61. *)
Definition Dct8Naive_dct8_ck (self : dct8_naive T) (buffer scratch : slice) : P unit :=
  let twiddles := dct8n_tw self in
  expected_len <- Dct8Naive_len_ck self ;;
  expected_scratch <- Dct8Naive_scratch_ck self ;;
  validate_buffers buffer scratch expected_len expected_scratch (fun scratch =>
  copy_from_slice scratch buffer ;;;
  for_range 0 (slen buffer) (fun k =>
    output_cell <- get_mut_unwrap buffer k ;;
    assign output_cell zero ;;;
    let twiddle_index := k in
    twiddle_stride <- <{ k * 2 + 1 }> ;;
    fold_range 0 (slen scratch) twiddle_index (fun i twiddle_index =>
      twiddle <- idx twiddles twiddle_index ;;
      o <- deref output_cell ;;
      s <- rd scratch i ;;
      assign output_cell (o +. s *. twiddle) ;;;
      twiddle_index <- <{ twiddle_index + twiddle_stride }> ;;
      if length twiddles <=? twiddle_index
      then usub_ck B MAX twiddle_index (length twiddles)
      else Ret twiddle_index) ;;;
    Ret tt)).

Definition Dct8Naive_obj_ck (self : dct8_naive T) : result (xform T) :=
  n <-? rof (Dct8Naive_len_ck self) ;;
  s <-? rof (Dct8Naive_scratch_ck self) ;;
  Ok (mkX T n s (Dct8Naive_dct8_ck self)).

(** type8_naive.rs:93-104, [Dst8Naive::new]. *)
Definition Dst8Naive_new_ck (len : nat) : result (dst8_naive T) :=
  d1 <-? r<{ len * 2 - 1 }> ;;
  let constant_factor := f_div f_pi (f_of_nat d1) in
  d2 <-? r<{ len * 4 - 2 }> ;;
  Ok (mkDst8Naive
        (map (fun i => from_f64 (f_sin (f_mul constant_factor (f_add (f_of_nat i) f_half))))
             (seq 0 d2))).

(** type8_naive.rs:134-143. *)
Definition Dst8Naive_len_ck (self : dst8_naive T) : P nat := n <- <{ '(length (dst8n_tw self)) + 2 }> ;; Ret (n / 4).

Definition Dst8Naive_scratch_ck (self : dst8_naive T) : P nat := Dst8Naive_len_ck self.

(** type8_naive.rs:108-132. *)
Definition Dst8Naive_dst8_ck (self : dst8_naive T) (buffer scratch : slice) : P unit :=
  let twiddles := dst8n_tw self in
  expected_len <- Dst8Naive_len_ck self ;;
  expected_scratch <- Dst8Naive_scratch_ck self ;;
  validate_buffers buffer scratch expected_len expected_scratch (fun scratch =>
  copy_from_slice scratch buffer ;;;
  l1 <- usub_ck B MAX (slen scratch) 1 ;;
  sl <- rd scratch l1 ;;
  wr scratch l1 (sl *. half) ;;;
  for_range 0 (slen buffer) (fun k =>
    output_cell <- get_mut_unwrap buffer k ;;
    assign output_cell zero ;;;
    let twiddle_index := k in
    twiddle_stride <- <{ k * 2 + 1 }> ;;
    fold_range 0 (slen scratch) twiddle_index (fun i twiddle_index =>
      twiddle <- idx twiddles twiddle_index ;;
      o <- deref output_cell ;;
      s <- rd scratch i ;;
      assign output_cell (o +. s *. twiddle) ;;;
      twiddle_index <- <{ twiddle_index + twiddle_stride }> ;;
      if length twiddles <=? twiddle_index
      then usub_ck B MAX twiddle_index (length twiddles)
      else Ret twiddle_index) ;;;
    Ret tt)).

Definition Dst8Naive_obj_ck (self : dst8_naive T) : result (xform T) :=
  n <-? rof (Dst8Naive_len_ck self) ;;
  s <-? rof (Dst8Naive_scratch_ck self) ;;
  Ok (mkX T n s (Dst8Naive_dst8_ck self)).

End CheckedNaive.
