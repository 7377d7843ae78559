(** The algorithms that convert to an FFT:
    src/algorithm/type{1,2and3,4,6and7}_convert_to_fft.rs. *)
From Coq Require Import List Arith Bool.
From Verif Require Import Prog Num Model_Common.
Import ListNotations.

Section Fft.
Context {T F : Type} {N : Num T F}.
Open Scope num_scope.
Notation P := (prog T).

(** ** Type 1 *)

(** type1_convert_to_fft.rs:28-34 and 128-134. *)
Record dct1_fft := mkDct1Fft {
  dct1f_fft : fft T; dct1f_len : nat; dct1f_scratch : nat; dct1f_inner : nat }.
Record dst1_fft := mkDst1Fft {
  dst1f_fft : fft T; dst1f_len : nat; dst1f_scratch : nat; dst1f_inner : nat }.

(** type1_convert_to_fft.rs:38-61, [Dct1ConvertToFft::new]. *)
Definition Dct1ConvertToFft_new (inner_fft : fft T) : result dct1_fft :=
  let inner_fft_len := fft_len inner_fft in
  _ <-? rassert (inner_fft_len mod 2 =? 0) ;;
  _ <-? rassert (dir_eqb (fft_dir inner_fft) Forward) ;;
  let len := inner_fft_len / 2 + 1 in
  Ok (mkDct1Fft inner_fft len (2 * (inner_fft_len + fft_scratch inner_fft)) inner_fft_len).

(** type1_convert_to_fft.rs:65-97. *)
Definition Dct1ConvertToFft_dct1 (self : dct1_fft) (buffer scratch : slice) : P unit :=
  validate_buffers buffer scratch (dct1f_len self) (dct1f_scratch self) (fun scratch =>
  let complex_scratch := into_complex_mut scratch in
  sp <- csplit_at_mut complex_scratch (dct1f_inner self) ;;
  let '(fft_buffer, fft_scratch) := sp in
  (* lines 71-76 *)
  head <- cslice_to fft_buffer (slen buffer) ;;
  for_range 0 (Nat.min (slen buffer) (clen head)) (fun i =>
    input_val <- rd buffer i ;;
    cwr head i (input_val, zero)) ;;;
  (* lines 77-87: the buffer reversed, without its last cell *)
  tail <- cslice_from fft_buffer (slen buffer) ;;
  for_range 0 (Nat.min (slen buffer - 1) (clen tail)) (fun i =>
    input_val <- rd buffer (slen buffer - 2 - i) ;;
    cwr tail i (input_val, zero)) ;;;
  fft_process (dct1f_fft self) fft_buffer fft_scratch ;;;
  (* lines 94-96 *)
  for_range 0 (Nat.min (clen fft_buffer) (slen buffer)) (fun i =>
    re <- crd_re fft_buffer i ;;
    wr buffer i (re *. half))).

Definition Dct1ConvertToFft_obj (self : dct1_fft) : xform T :=
  mkX T (dct1f_len self) (dct1f_scratch self) (Dct1ConvertToFft_dct1 self).

(** type1_convert_to_fft.rs:138-161, [Dst1ConvertToFft::new]. *)
Definition Dst1ConvertToFft_new (inner_fft : fft T) : result dst1_fft :=
  let inner_fft_len := fft_len inner_fft in
  _ <-? rassert (inner_fft_len mod 2 =? 0) ;;
  _ <-? rassert (dir_eqb (fft_dir inner_fft) Forward) ;;
  len <-? rsub (inner_fft_len / 2) 1 ;;
  Ok (mkDst1Fft inner_fft len (2 * (inner_fft_len + fft_scratch inner_fft)) inner_fft_len).

(** type1_convert_to_fft.rs:165-189. *)
Definition Dst1ConvertToFft_dst1 (self : dst1_fft) (buffer scratch : slice) : P unit :=
  validate_buffers buffer scratch (dst1f_len self) (dst1f_scratch self) (fun scratch =>
  let complex_scratch := into_complex_mut scratch in
  sp <- csplit_at_mut complex_scratch (dst1f_inner self) ;;
  let '(fft_buffer, fft_scratch) := sp in
  (* lines 172-174 *)
  for_range 0 (Nat.min (slen buffer) (clen fft_buffer - 1)) (fun i =>
    input_val <- rd buffer i ;;
    cwr fft_buffer (1 + i) (c_from input_val)) ;;;
  (* lines 177-179 *)
  for_range 0 (Nat.min (slen buffer) (clen fft_buffer)) (fun i =>
    input_val <- rd buffer i ;;
    cwr fft_buffer (clen fft_buffer - 1 - i) (c_from (-. input_val))) ;;;
  fft_process (dst1f_fft self) fft_buffer fft_scratch ;;;
  (* lines 186-188 *)
  for_range 0 (Nat.min (clen fft_buffer) (slen buffer)) (fun i =>
    im <- crd_im fft_buffer (clen fft_buffer - 1 - i) ;;
    wr buffer i (im *. half))).

Definition Dst1ConvertToFft_obj (self : dst1_fft) : xform T :=
  mkX T (dst1f_len self) (dst1f_scratch self) (Dst1ConvertToFft_dst1 self).

(** ** Types 2 and 3 *)

(** type2and3_convert_to_fft.rs:36-41. *)
Record t23_fft := mkT23Fft {
  t23f_fft : fft T; t23f_tw : list (T * T); t23f_scratch : nat }.

(** type2and3_convert_to_fft.rs:45-65, [Type2And3ConvertToFft::new]. *)
Definition Type2And3ConvertToFft_new (inner_fft : fft T) : result t23_fft :=
  _ <-? rassert (dir_eqb (fft_dir inner_fft) Forward) ;;
  let len := fft_len inner_fft in
  let twiddles := map (fun i => single_twiddle i (len * 4)) (seq 0 len) in
  let scratch_len := 2 * (len + fft_scratch inner_fft) in
  Ok (mkT23Fft inner_fft twiddles scratch_len).

(** type2and3_convert_to_fft.rs:227-231. *)
Definition Type2And3ConvertToFft_len (self : t23_fft) : nat := length (t23f_tw self).

(** type2and3_convert_to_fft.rs:69-102. *)
Definition Type2And3ConvertToFft_dct2 (self : t23_fft) (buffer scratch : slice) : P unit :=
  let twiddles := t23f_tw self in
  validate_buffers buffer scratch (Type2And3ConvertToFft_len self) (t23f_scratch self)
  (fun scratch =>
  let len := Type2And3ConvertToFft_len self in
  let complex_scratch := into_complex_mut scratch in
  sp <- csplit_at_mut complex_scratch len ;;
  let '(fft_buffer, fft_scratch) := sp in
  let even_end := (slen buffer + 1) / 2 in
  for_range 0 even_end (fun i =>
    v <- rd buffer (i * 2) ;;
    cwr fft_buffer i (c_from v)) ;;;
  (if 1 <? len then
     t <- usub len 1 ;;
     odd_end <- usub t (len mod 2) ;;
     for_range 0 (len / 2) (fun i =>
       j <- usub odd_end (2 * i) ;;
       v <- rd buffer j ;;
       cwr fft_buffer (even_end + i) (c_from v))
   else Ret tt) ;;;
  fft_process (t23f_fft self) fft_buffer fft_scratch ;;;
  (* lines 95-101 *)
  for_range 0 (Nat.min (Nat.min (clen fft_buffer) (length twiddles)) (slen buffer)) (fun i =>
    fft_entry <- crd fft_buffer i ;;
    correction_entry <- idx twiddles i ;;
    wr buffer i (fst (c_mul fft_entry correction_entry)))).

(** type2and3_convert_to_fft.rs:105-138. *)
Definition Type2And3ConvertToFft_dst2 (self : t23_fft) (buffer scratch : slice) : P unit :=
  let twiddles := t23f_tw self in
  validate_buffers buffer scratch (Type2And3ConvertToFft_len self) (t23f_scratch self)
  (fun scratch =>
  let len := Type2And3ConvertToFft_len self in
  let complex_scratch := into_complex_mut scratch in
  sp <- csplit_at_mut complex_scratch len ;;
  let '(fft_buffer, fft_scratch) := sp in
  let even_end := (slen buffer + 1) / 2 in
  for_range 0 even_end (fun i =>
    v <- rd buffer (i * 2) ;;
    cwr fft_buffer i (c_from v)) ;;;
  (if 1 <? len then
     t <- usub len 1 ;;
     odd_end <- usub t (len mod 2) ;;
     for_range 0 (len / 2) (fun i =>
       j <- usub odd_end (2 * i) ;;
       v <- rd buffer j ;;
       cwr fft_buffer (even_end + i) (c_from (-. v)))
   else Ret tt) ;;;
  fft_process (t23f_fft self) fft_buffer fft_scratch ;;;
  (* lines 131-137 *)
  for_range 0 (Nat.min (Nat.min (clen fft_buffer) (length twiddles)) (slen buffer)) (fun i =>
    fft_entry <- crd fft_buffer i ;;
    correction_entry <- idx twiddles i ;;
    wr buffer (slen buffer - 1 - i) (fst (c_mul fft_entry correction_entry)))).

(** type2and3_convert_to_fft.rs:141-181. *)
Definition Type2And3ConvertToFft_dct3 (self : t23_fft) (buffer scratch : slice) : P unit :=
  let twiddles := t23f_tw self in
  validate_buffers buffer scratch (Type2And3ConvertToFft_len self) (t23f_scratch self)
  (fun scratch =>
  let len := Type2And3ConvertToFft_len self in
  let complex_scratch := into_complex_mut scratch in
  sp <- csplit_at_mut complex_scratch len ;;
  let '(fft_buffer, fft_scratch) := sp in
  v0 <- rd buffer 0 ;;
  cwr fft_buffer 0 (c_from (v0 *. half)) ;;;
  (* lines 152-163 *)
  for_range 1 (Nat.min (clen fft_buffer) (length twiddles)) (fun i =>
    twiddle <- idx twiddles i ;;
    re <- rd buffer i ;;
    j <- usub (slen buffer) i ;;
    im <- rd buffer j ;;
    let c := (re, im) in
    cwr fft_buffer i (c_scale (c_mul c twiddle) half)) ;;;
  fft_process (t23f_fft self) fft_buffer fft_scratch ;;;
  let even_end := (slen buffer + 1) / 2 in
  for_range 0 even_end (fun i =>
    re <- crd_re fft_buffer i ;;
    wr buffer (i * 2) re) ;;;
  (if 1 <? len then
     t <- usub len 1 ;;
     odd_end <- usub t (len mod 2) ;;
     for_range 0 (len / 2) (fun i =>
       re <- crd_re fft_buffer (i + even_end) ;;
       j <- usub odd_end (2 * i) ;;
       wr buffer j re)
   else Ret tt)).

(** type2and3_convert_to_fft.rs:184-224. *)
Definition Type2And3ConvertToFft_dst3 (self : t23_fft) (buffer scratch : slice) : P unit :=
  let twiddles := t23f_tw self in
  validate_buffers buffer scratch (Type2And3ConvertToFft_len self) (t23f_scratch self)
  (fun scratch =>
  let len := Type2And3ConvertToFft_len self in
  let complex_scratch := into_complex_mut scratch in
  sp <- csplit_at_mut complex_scratch len ;;
  let '(fft_buffer, fft_scratch) := sp in
  l1 <- usub (slen buffer) 1 ;;
  v0 <- rd buffer l1 ;;
  cwr fft_buffer 0 (c_from (v0 *. half)) ;;;
  (* lines 195-206 *)
  for_range 1 (Nat.min (clen fft_buffer) (length twiddles)) (fun i =>
    twiddle <- idx twiddles i ;;
    j <- usub (slen buffer) i ;;
    j <- usub j 1 ;;
    re <- rd buffer j ;;
    i1 <- usub i 1 ;;
    im <- rd buffer i1 ;;
    let c := (re, im) in
    cwr fft_buffer i (c_scale (c_mul c twiddle) half)) ;;;
  fft_process (t23f_fft self) fft_buffer fft_scratch ;;;
  let even_end := (len + 1) / 2 in
  for_range 0 even_end (fun i =>
    re <- crd_re fft_buffer i ;;
    wr buffer (i * 2) re) ;;;
  (if 1 <? len then
     t <- usub len 1 ;;
     odd_end <- usub t (len mod 2) ;;
     for_range 0 (len / 2) (fun i =>
       re <- crd_re fft_buffer (i + even_end) ;;
       j <- usub odd_end (2 * i) ;;
       wr buffer j (-. re))
   else Ret tt)).

Definition Type2And3ConvertToFft_obj (self : t23_fft) : t23 T :=
  mkT23 T (Type2And3ConvertToFft_len self) (t23f_scratch self)
    (Type2And3ConvertToFft_dct2 self) (Type2And3ConvertToFft_dct3 self)
    (Type2And3ConvertToFft_dst2 self) (Type2And3ConvertToFft_dst3 self).

(** ** Type 4, odd lengths *)

(** type4_convert_to_fft.rs:33-38. *)
Record t4_fft := mkT4Fft { t4f_fft : fft T; t4f_len : nat; t4f_scratch : nat }.

(** type4_convert_to_fft.rs:42-62, [Type4ConvertToFftOdd::new]. *)
Definition Type4ConvertToFftOdd_new (inner_fft : fft T) : result t4_fft :=
  _ <-? rassert (dir_eqb (fft_dir inner_fft) Forward) ;;
  let len := fft_len inner_fft in
  _ <-? rassert (len mod 2 =? 1) ;;
  Ok (mkT4Fft inner_fft len (2 * (len + fft_scratch inner_fft))).

(** type4_convert_to_fft.rs:66-165.  The loop state is
    [(input_index, fft_index)]; [len + 1] rounds of fuel suffice for each loop. *)
Definition Type4ConvertToFftOdd_dct4 (self : t4_fft) (buffer scratch : slice) : P unit :=
  validate_buffers buffer scratch (t4f_len self) (t4f_scratch self) (fun scratch =>
  let len := t4f_len self in
  let half_len := len / 2 in
  let quarter_len := len / 4 in
  let complex_scratch := into_complex_mut scratch in
  sp <- csplit_at_mut complex_scratch len ;;
  let '(fft_buffer, fft_scratch) := sp in
  (* lines 77-87 *)
  st <- while_ (S len) (fun st => fst st <? len) (fun st =>
    let '(input_index, fft_index) := st in
    v <- rd buffer input_index ;;
    cwr fft_buffer fft_index (v, zero) ;;;
    Ret (input_index + 4, fft_index + 1)) (half_len, 0) ;;
  (* lines 90-99 *)
  input_index <- usub (fst st) len ;;
  st <- while_ (S len) (fun st => fst st <? len) (fun st =>
    let '(input_index, fft_index) := st in
    j <- usub len input_index ;; j <- usub j 1 ;;
    v <- rd buffer j ;;
    cwr fft_buffer fft_index (-. v, zero) ;;;
    Ret (input_index + 4, fft_index + 1)) (input_index, snd st) ;;
  (* lines 101-110 *)
  input_index <- usub (fst st) len ;;
  st <- while_ (S len) (fun st => fst st <? len) (fun st =>
    let '(input_index, fft_index) := st in
    v <- rd buffer input_index ;;
    cwr fft_buffer fft_index (-. v, zero) ;;;
    Ret (input_index + 4, fft_index + 1)) (input_index, snd st) ;;
  (* lines 112-121 *)
  input_index <- usub (fst st) len ;;
  st <- while_ (S len) (fun st => fst st <? len) (fun st =>
    let '(input_index, fft_index) := st in
    j <- usub len input_index ;; j <- usub j 1 ;;
    v <- rd buffer j ;;
    cwr fft_buffer fft_index (v, zero) ;;;
    Ret (input_index + 4, fft_index + 1)) (input_index, snd st) ;;
  (* lines 123-132 *)
  input_index <- usub (fst st) len ;;
  st <- while_ (S len) (fun st => snd st <? len) (fun st =>
    let '(input_index, fft_index) := st in
    v <- rd buffer input_index ;;
    cwr fft_buffer fft_index (v, zero) ;;;
    Ret (input_index + 4, fft_index + 1)) (input_index, snd st) ;;
  fft_process (t4f_fft self) fft_buffer fft_scratch ;;;
  let result_scale := sqrt_2 *. half in
  let second_half_sign := if len mod 4 =? 1 then one else -. one in
  (* lines 141-153 *)
  output_sign <- fold_range 0 quarter_len one (fun i output_sign =>
    c1 <- crd fft_buffer (4 * i + 1) ;;
    let fft_result := c_scale c1 (output_sign *. result_scale) in
    c3 <- crd fft_buffer (4 * i + 3) ;;
    let next_result := c_scale c3 (output_sign *. result_scale) in
    wr buffer (i * 2) (fst fft_result +. snd fft_result) ;;;
    wr buffer (i * 2 + 1) (-. fst next_result +. snd next_result) ;;;
    j <- usub len (i * 2) ;; j2 <- usub j 2 ;;
    wr buffer j2 ((fst next_result +. snd next_result) *. second_half_sign) ;;;
    j1 <- usub j 1 ;;
    wr buffer j1 ((fst fft_result -. snd fft_result) *. second_half_sign) ;;;
    Ret (-. output_sign)) ;;
  (* lines 156-164 *)
  (if len mod 4 =? 1 then
     re0 <- crd_re fft_buffer 0 ;;
     wr buffer half_len (re0 *. output_sign *. result_scale)
   else
     l2 <- usub len 2 ;;
     c <- crd fft_buffer l2 ;;
     let fft_result := c_scale c (output_sign *. result_scale) in
     h1 <- usub half_len 1 ;;
     wr buffer h1 (fst fft_result +. snd fft_result) ;;;
     wr buffer (half_len + 1) (-. fst fft_result +. snd fft_result) ;;;
     re0 <- crd_re fft_buffer 0 ;;
     wr buffer half_len (-. re0 *. output_sign *. result_scale))).

(** type4_convert_to_fft.rs:168-267. *)
Definition Type4ConvertToFftOdd_dst4 (self : t4_fft) (buffer scratch : slice) : P unit :=
  validate_buffers buffer scratch (t4f_len self) (t4f_scratch self) (fun scratch =>
  let len := t4f_len self in
  let half_len := len / 2 in
  let quarter_len := len / 4 in
  let complex_scratch := into_complex_mut scratch in
  sp <- csplit_at_mut complex_scratch len ;;
  let '(fft_buffer, fft_scratch) := sp in
  (* lines 179-189 *)
  st <- while_ (S len) (fun st => fst st <? len) (fun st =>
    let '(input_index, fft_index) := st in
    j <- usub len input_index ;; j <- usub j 1 ;;
    v <- rd buffer j ;;
    cwr fft_buffer fft_index (v, zero) ;;;
    Ret (input_index + 4, fft_index + 1)) (half_len, 0) ;;
  (* lines 192-201 *)
  input_index <- usub (fst st) len ;;
  st <- while_ (S len) (fun st => fst st <? len) (fun st =>
    let '(input_index, fft_index) := st in
    v <- rd buffer input_index ;;
    cwr fft_buffer fft_index (-. v, zero) ;;;
    Ret (input_index + 4, fft_index + 1)) (input_index, snd st) ;;
  (* lines 203-212 *)
  input_index <- usub (fst st) len ;;
  st <- while_ (S len) (fun st => fst st <? len) (fun st =>
    let '(input_index, fft_index) := st in
    j <- usub len input_index ;; j <- usub j 1 ;;
    v <- rd buffer j ;;
    cwr fft_buffer fft_index (-. v, zero) ;;;
    Ret (input_index + 4, fft_index + 1)) (input_index, snd st) ;;
  (* lines 214-223 *)
  input_index <- usub (fst st) len ;;
  st <- while_ (S len) (fun st => fst st <? len) (fun st =>
    let '(input_index, fft_index) := st in
    v <- rd buffer input_index ;;
    cwr fft_buffer fft_index (v, zero) ;;;
    Ret (input_index + 4, fft_index + 1)) (input_index, snd st) ;;
  (* lines 225-234 *)
  input_index <- usub (fst st) len ;;
  st <- while_ (S len) (fun st => snd st <? len) (fun st =>
    let '(input_index, fft_index) := st in
    j <- usub len input_index ;; j <- usub j 1 ;;
    v <- rd buffer j ;;
    cwr fft_buffer fft_index (v, zero) ;;;
    Ret (input_index + 4, fft_index + 1)) (input_index, snd st) ;;
  fft_process (t4f_fft self) fft_buffer fft_scratch ;;;
  let result_scale := sqrt_2 *. half in
  let second_half_sign := if len mod 4 =? 1 then one else -. one in
  (* lines 243-255 *)
  output_sign <- fold_range 0 quarter_len one (fun i output_sign =>
    c1 <- crd fft_buffer (4 * i + 1) ;;
    let fft_result := c_scale c1 (output_sign *. result_scale) in
    c3 <- crd fft_buffer (4 * i + 3) ;;
    let next_result := c_scale c3 (output_sign *. result_scale) in
    wr buffer (i * 2) (fst fft_result +. snd fft_result) ;;;
    wr buffer (i * 2 + 1) (fst next_result -. snd next_result) ;;;
    j <- usub len (i * 2) ;; j2 <- usub j 2 ;;
    wr buffer j2 (-. (fst next_result +. snd next_result) *. second_half_sign) ;;;
    j1 <- usub j 1 ;;
    wr buffer j1 ((fst fft_result -. snd fft_result) *. second_half_sign) ;;;
    Ret (-. output_sign)) ;;
  (* lines 258-266 *)
  (if len mod 4 =? 1 then
     re0 <- crd_re fft_buffer 0 ;;
     wr buffer half_len (re0 *. output_sign *. result_scale)
   else
     l2 <- usub len 2 ;;
     c <- crd fft_buffer l2 ;;
     let fft_result := c_scale c (output_sign *. result_scale) in
     h1 <- usub half_len 1 ;;
     wr buffer h1 (fst fft_result +. snd fft_result) ;;;
     wr buffer (half_len + 1) (-. fst fft_result +. snd fft_result) ;;;
     re0 <- crd_re fft_buffer 0 ;;
     wr buffer half_len (re0 *. output_sign *. result_scale))).

Definition Type4ConvertToFftOdd_obj (self : t4_fft) : t4 T :=
  mkT4 T (t4f_len self) (t4f_scratch self)
    (Type4ConvertToFftOdd_dct4 self) (Type4ConvertToFftOdd_dst4 self).

(** ** DST types 6 and 7 *)

(** type6and7_convert_to_fft.rs:30-36. *)
Record s67_fft := mkS67Fft {
  s67f_fft : fft T; s67f_len : nat; s67f_scratch : nat; s67f_inner : nat }.

(** type6and7_convert_to_fft.rs:40-59, [Dst6And7ConvertToFft::new]. *)
Definition Dst6And7ConvertToFft_new (inner_fft : fft T) : result s67_fft :=
  let inner_fft_len := fft_len inner_fft in
  _ <-? rassert (inner_fft_len mod 2 =? 1) ;;
  _ <-? rassert (dir_eqb (fft_dir inner_fft) Forward) ;;
  d <-? rsub inner_fft_len 1 ;;
  let len := d / 2 in
  Ok (mkS67Fft inner_fft len (2 * (inner_fft_len + fft_scratch inner_fft)) inner_fft_len).

(** type6and7_convert_to_fft.rs:62-89. *)
Definition Dst6And7ConvertToFft_dst6 (self : s67_fft) (buffer scratch : slice) : P unit :=
  validate_buffers buffer scratch (s67f_len self) (s67f_scratch self) (fun scratch =>
  let complex_scratch := into_complex_mut scratch in
  sp <- csplit_at_mut complex_scratch (s67f_inner self) ;;
  let '(fft_buffer, fft_scratch) := sp in
  for_range 0 (slen buffer) (fun i =>
    v <- rd buffer i ;;
    cwr_im fft_buffer (i * 2 + 1) v) ;;;
  fft_process (s67f_fft self) fft_buffer fft_scratch ;;;
  let even_count := (slen buffer + 1) / 2 in
  odd_count <- usub (slen buffer) even_count ;;
  for_range 0 odd_count (fun i =>
    let output_index := i * 2 + 1 in
    re <- crd_re fft_buffer (i + 1) ;;
    wr buffer output_index re) ;;;
  for_range 0 even_count (fun i =>
    j <- usub even_count i ;; j <- usub j 1 ;;
    let output_index := 2 * j in
    re <- crd_re fft_buffer (i + odd_count + 1) ;;
    wr buffer output_index re)).

(** type6and7_convert_to_fft.rs:92-130. *)
Definition Dst6And7ConvertToFft_dst7 (self : s67_fft) (buffer scratch : slice) : P unit :=
  validate_buffers buffer scratch (s67f_len self) (s67f_scratch self) (fun scratch =>
  let complex_scratch := into_complex_mut scratch in
  sp <- csplit_at_mut complex_scratch (s67f_inner self) ;;
  let '(fft_buffer, fft_scratch) := sp in
  let even_count := (slen buffer + 1) / 2 in
  for_range 0 even_count (fun i =>
    let input_index := i * 2 in
    let inner_index := slen buffer + 1 + i in
    v <- rd buffer input_index ;;
    cwr fft_buffer inner_index (v, zero)) ;;;
  odd_count <- usub (slen buffer) even_count ;;
  for_range 0 odd_count (fun i =>
    j <- usub odd_count i ;;
    input_index <- usub (2 * j) 1 ;;
    let inner_index := slen buffer + even_count + 1 + i in
    v <- rd buffer input_index ;;
    cwr fft_buffer inner_index (v, zero)) ;;;
  for_range 0 (slen buffer) (fun i =>
    j <- usub (clen fft_buffer) 1 ;; j <- usub j i ;;
    c <- crd fft_buffer j ;;
    cwr fft_buffer (i + 1) (c_neg c)) ;;;
  fft_process (s67f_fft self) fft_buffer fft_scratch ;;;
  for_range 0 (slen buffer) (fun i =>
    im <- crd_im fft_buffer (i * 2 + 1) ;;
    wr buffer i (im *. half))).

Definition Dst6And7ConvertToFft_obj (self : s67_fft) : s67 T :=
  mkS67 T (s67f_len self) (s67f_scratch self)
    (Dst6And7ConvertToFft_dst6 self) (Dst6And7ConvertToFft_dst7 self).

End Fft.

Arguments dct1_fft : clear implicits.
Arguments dst1_fft : clear implicits.
Arguments t23_fft : clear implicits.
Arguments t4_fft : clear implicits.
Arguments s67_fft : clear implicits.
