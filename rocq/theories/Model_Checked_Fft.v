(** The definitions of Model_Fft.v once more, with the [usize] arithmetic of
    Model_Checked.v for the build [B] and the greatest value [MAX].
    Type 1 processing uses iterators only (type1_convert_to_fft.rs:65-97, 165-189), so
    [Dct1ConvertToFft_dct1] and [Dst1ConvertToFft_dst1] serve both models; so does
    [Type2And3ConvertToFft_len], and the output loop of DST2, which is a reversed iterator.
    Everything else is copied; the comments cite the same lines. *)
From Coq Require Import List Arith Bool.
From Verif Require Import Prog Num Model_Common Model_Fft Model_Checked.
Import ListNotations.

Section CheckedFft.
Context {T F : Type} {N : Num T F}.
Open Scope num_scope.
Notation P := (prog T).
Variable B : build.
Variable MAX : nat.
Notation "x + y" := (ulift (uadd B MAX) x y) (in custom usize at level 50, left associativity).
Notation "x - y" := (ulift (usub_ck B MAX) x y) (in custom usize at level 50, left associativity).
Notation "x * y" := (ulift (umul B MAX) x y) (in custom usize at level 40, left associativity).

(** type1_convert_to_fft.rs:38-61, [Dct1ConvertToFft::new]. *)
Definition Dct1ConvertToFft_new_ck (inner_fft : fft T) : result (dct1_fft T) :=
  let inner_fft_len := fft_len inner_fft in
  _ <-? rassert (inner_fft_len mod 2 =? 0) ;;
  _ <-? rassert (dir_eqb (fft_dir inner_fft) Forward) ;;
  len <-? r<{ '(inner_fft_len / 2) + 1 }> ;;
  scratch_len <-? r<{ 2 * (inner_fft_len + '(fft_scratch inner_fft)) }> ;;
  Ok (mkDct1Fft inner_fft len scratch_len inner_fft_len).

(** type1_convert_to_fft.rs:138-161, [Dst1ConvertToFft::new]. *)
Definition Dst1ConvertToFft_new_ck (inner_fft : fft T) : result (dst1_fft T) :=
  let inner_fft_len := fft_len inner_fft in
  _ <-? rassert (inner_fft_len mod 2 =? 0) ;;
  _ <-? rassert (dir_eqb (fft_dir inner_fft) Forward) ;;
  len <-? r<{ '(inner_fft_len / 2) - 1 }> ;;
  scratch_len <-? r<{ 2 * (inner_fft_len + '(fft_scratch inner_fft)) }> ;;
  Ok (mkDst1Fft inner_fft len scratch_len inner_fft_len).

(** type2and3_convert_to_fft.rs:45-65, [Type2And3ConvertToFft::new]. *)
Definition Type2And3ConvertToFft_new_ck (inner_fft : fft T) : result (t23_fft T) :=
  _ <-? rassert (dir_eqb (fft_dir inner_fft) Forward) ;;
  let len := fft_len inner_fft in
  twiddles <-? rmap_list (fun i => d <-? r<{ len * 4 }> ;; Ok (single_twiddle i d)) (seq 0 len) ;;
  scratch_len <-? r<{ 2 * (len + '(fft_scratch inner_fft)) }> ;;
  Ok (mkT23Fft inner_fft twiddles scratch_len).

(** type2and3_convert_to_fft.rs:69-102. *)
Definition Type2And3ConvertToFft_dct2_ck (self : t23_fft T) (buffer scratch : slice) : P unit :=
  let twiddles := t23f_tw self in
  validate_buffers buffer scratch (Type2And3ConvertToFft_len self) (t23f_scratch self)
  (fun scratch =>
  let len := Type2And3ConvertToFft_len self in
  let complex_scratch := into_complex_mut scratch in
  sp <- csplit_at_mut complex_scratch len ;;
  let '(fft_buffer, fft_scratch) := sp in
  t <- <{ '(slen buffer) + 1 }> ;;
  let even_end := t / 2 in
  for_range 0 even_end (fun i =>
    ix <- <{ i * 2 }> ;;
    v <- rd buffer ix ;;
    cwr fft_buffer i (c_from v)) ;;;
  (if 1 <? len then
     t <- usub_ck B MAX len 1 ;;
     odd_end <- usub_ck B MAX t (len mod 2) ;;
     for_range 0 (len / 2) (fun i =>
       ix <- <{ 2 * i }> ;;
       j <- usub_ck B MAX odd_end ix ;;
       v <- rd buffer j ;;
       ix <- <{ even_end + i }> ;;
       cwr fft_buffer ix (c_from v))
   else Ret tt) ;;;
  fft_process (t23f_fft self) fft_buffer fft_scratch ;;;
  (* lines 95-101 *)
  for_range 0 (Nat.min (Nat.min (clen fft_buffer) (length twiddles)) (slen buffer)) (fun i =>
    fft_entry <- crd fft_buffer i ;;
    correction_entry <- idx twiddles i ;;
    wr buffer i (fst (c_mul fft_entry correction_entry)))).

(** type2and3_convert_to_fft.rs:105-138. *)
Definition Type2And3ConvertToFft_dst2_ck (self : t23_fft T) (buffer scratch : slice) : P unit :=
  let twiddles := t23f_tw self in
  validate_buffers buffer scratch (Type2And3ConvertToFft_len self) (t23f_scratch self)
  (fun scratch =>
  let len := Type2And3ConvertToFft_len self in
  let complex_scratch := into_complex_mut scratch in
  sp <- csplit_at_mut complex_scratch len ;;
  let '(fft_buffer, fft_scratch) := sp in
  t <- <{ '(slen buffer) + 1 }> ;;
  let even_end := t / 2 in
  for_range 0 even_end (fun i =>
    ix <- <{ i * 2 }> ;;
    v <- rd buffer ix ;;
    cwr fft_buffer i (c_from v)) ;;;
  (if 1 <? len then
     t <- usub_ck B MAX len 1 ;;
     odd_end <- usub_ck B MAX t (len mod 2) ;;
     for_range 0 (len / 2) (fun i =>
       ix <- <{ 2 * i }> ;;
       j <- usub_ck B MAX odd_end ix ;;
       v <- rd buffer j ;;
       ix <- <{ even_end + i }> ;;
       cwr fft_buffer ix (c_from (-. v)))
   else Ret tt) ;;;
  fft_process (t23f_fft self) fft_buffer fft_scratch ;;;
  (* lines 131-137 *)
  for_range 0 (Nat.min (Nat.min (clen fft_buffer) (length twiddles)) (slen buffer)) (fun i =>
    fft_entry <- crd fft_buffer i ;;
    correction_entry <- idx twiddles i ;;
    wr buffer (slen buffer - 1 - i) (fst (c_mul fft_entry correction_entry)))).

(** type2and3_convert_to_fft.rs:141-181. *)
Definition Type2And3ConvertToFft_dct3_ck (self : t23_fft T) (buffer scratch : slice) : P unit :=
  let twiddles := t23f_tw self in
  validate_buffers buffer scratch (Type2And3ConvertToFft_len self) (t23f_scratch self)
  (fun scratch =>
  let len := Type2And3ConvertToFft_len self in
  let complex_scratch := into_complex_mut scratch in
  sp <- csplit_at_mut complex_scratch len ;;
  let '(fft_buffer, fft_scratch) := sp in
  v0 <- rd buffer 0 ;;
  cwr fft_buffer 0 (c_from (v0 *. half)) ;;;
  (* lines 152-163 *)
  for_range 1 (Nat.min (clen fft_buffer) (length twiddles)) (fun i =>
    twiddle <- idx twiddles i ;;
    re <- rd buffer i ;;
    j <- usub_ck B MAX (slen buffer) i ;;
    im <- rd buffer j ;;
    let c := (re, im) in
    cwr fft_buffer i (c_scale (c_mul c twiddle) half)) ;;;
  fft_process (t23f_fft self) fft_buffer fft_scratch ;;;
  t <- <{ '(slen buffer) + 1 }> ;;
  let even_end := t / 2 in
  for_range 0 even_end (fun i =>
    re <- crd_re fft_buffer i ;;
    ix <- <{ i * 2 }> ;;
    wr buffer ix re) ;;;
  (if 1 <? len then
     t <- usub_ck B MAX len 1 ;;
     odd_end <- usub_ck B MAX t (len mod 2) ;;
     for_range 0 (len / 2) (fun i =>
       ix <- <{ i + even_end }> ;;
       re <- crd_re fft_buffer ix ;;
       ix <- <{ 2 * i }> ;;
       j <- usub_ck B MAX odd_end ix ;;
       wr buffer j re)
   else Ret tt)).

(** type2and3_convert_to_fft.rs:184-224. *)
Definition Type2And3ConvertToFft_dst3_ck (self : t23_fft T) (buffer scratch : slice) : P unit :=
  let twiddles := t23f_tw self in
  validate_buffers buffer scratch (Type2And3ConvertToFft_len self) (t23f_scratch self)
  (fun scratch =>
  let len := Type2And3ConvertToFft_len self in
  let complex_scratch := into_complex_mut scratch in
  sp <- csplit_at_mut complex_scratch len ;;
  let '(fft_buffer, fft_scratch) := sp in
  l1 <- usub_ck B MAX (slen buffer) 1 ;;
  v0 <- rd buffer l1 ;;
  cwr fft_buffer 0 (c_from (v0 *. half)) ;;;
  (* lines 195-206 *)
  for_range 1 (Nat.min (clen fft_buffer) (length twiddles)) (fun i =>
    twiddle <- idx twiddles i ;;
    j <- usub_ck B MAX (slen buffer) i ;;
    j <- usub_ck B MAX j 1 ;;
    re <- rd buffer j ;;
    i1 <- usub_ck B MAX i 1 ;;
    im <- rd buffer i1 ;;
    let c := (re, im) in
    cwr fft_buffer i (c_scale (c_mul c twiddle) half)) ;;;
  fft_process (t23f_fft self) fft_buffer fft_scratch ;;;
  t <- <{ len + 1 }> ;;
  let even_end := t / 2 in
  for_range 0 even_end (fun i =>
    re <- crd_re fft_buffer i ;;
    ix <- <{ i * 2 }> ;;
    wr buffer ix re) ;;;
  (if 1 <? len then
     t <- usub_ck B MAX len 1 ;;
     odd_end <- usub_ck B MAX t (len mod 2) ;;
     for_range 0 (len / 2) (fun i =>
       ix <- <{ i + even_end }> ;;
       re <- crd_re fft_buffer ix ;;
       ix <- <{ 2 * i }> ;;
       j <- usub_ck B MAX odd_end ix ;;
       wr buffer j (-. re))
   else Ret tt)).

Definition Type2And3ConvertToFft_obj_ck (self : t23_fft T) : t23 T :=
  mkT23 T (Type2And3ConvertToFft_len self) (t23f_scratch self)
    (Type2And3ConvertToFft_dct2_ck self) (Type2And3ConvertToFft_dct3_ck self)
    (Type2And3ConvertToFft_dst2_ck self) (Type2And3ConvertToFft_dst3_ck self).

(** type4_convert_to_fft.rs:42-62, [Type4ConvertToFftOdd::new]. *)
Definition Type4ConvertToFftOdd_new_ck (inner_fft : fft T) : result (t4_fft T) :=
  _ <-? rassert (dir_eqb (fft_dir inner_fft) Forward) ;;
  let len := fft_len inner_fft in
  _ <-? rassert (len mod 2 =? 1) ;;
  scratch_len <-? r<{ 2 * (len + '(fft_scratch inner_fft)) }> ;;
  Ok (mkT4Fft inner_fft len scratch_len).

(** type4_convert_to_fft.rs:66-165.  The loop state is
    [(input_index, fft_index)]; [len + 1] rounds of fuel suffice for each loop. *)
Definition Type4ConvertToFftOdd_dct4_ck (self : t4_fft T) (buffer scratch : slice) : P unit :=
  validate_buffers buffer scratch (t4f_len self) (t4f_scratch self) (fun scratch =>
  let len := t4f_len self in
  let half_len := len / 2 in
  let quarter_len := len / 4 in
  let complex_scratch := into_complex_mut scratch in
  sp <- csplit_at_mut complex_scratch len ;;
  let '(fft_buffer, fft_scratch) := sp in
  (* lines 77-87 *)
  st <- while_ (S len) (fun st => fst st <? len) (fun st =>
    let '(input_index, fft_index) := st in
    v <- rd buffer input_index ;;
    cwr fft_buffer fft_index (v, zero) ;;;
    input_index <- <{ input_index + 4 }> ;;
    fft_index <- <{ fft_index + 1 }> ;;
    Ret (input_index, fft_index)) (half_len, 0) ;;
  (* lines 90-99 *)
  input_index <- usub_ck B MAX (fst st) len ;;
  st <- while_ (S len) (fun st => fst st <? len) (fun st =>
    let '(input_index, fft_index) := st in
    j <- usub_ck B MAX len input_index ;; j <- usub_ck B MAX j 1 ;;
    v <- rd buffer j ;;
    cwr fft_buffer fft_index (-. v, zero) ;;;
    input_index <- <{ input_index + 4 }> ;;
    fft_index <- <{ fft_index + 1 }> ;;
    Ret (input_index, fft_index)) (input_index, snd st) ;;
  (* lines 101-110 *)
  input_index <- usub_ck B MAX (fst st) len ;;
  st <- while_ (S len) (fun st => fst st <? len) (fun st =>
    let '(input_index, fft_index) := st in
    v <- rd buffer input_index ;;
    cwr fft_buffer fft_index (-. v, zero) ;;;
    input_index <- <{ input_index + 4 }> ;;
    fft_index <- <{ fft_index + 1 }> ;;
    Ret (input_index, fft_index)) (input_index, snd st) ;;
  (* lines 112-121 *)
  input_index <- usub_ck B MAX (fst st) len ;;
  st <- while_ (S len) (fun st => fst st <? len) (fun st =>
    let '(input_index, fft_index) := st in
    j <- usub_ck B MAX len input_index ;; j <- usub_ck B MAX j 1 ;;
    v <- rd buffer j ;;
    cwr fft_buffer fft_index (v, zero) ;;;
    input_index <- <{ input_index + 4 }> ;;
    fft_index <- <{ fft_index + 1 }> ;;
    Ret (input_index, fft_index)) (input_index, snd st) ;;
  (* lines 123-132 *)
  input_index <- usub_ck B MAX (fst st) len ;;
  st <- while_ (S len) (fun st => snd st <? len) (fun st =>
    let '(input_index, fft_index) := st in
    v <- rd buffer input_index ;;
    cwr fft_buffer fft_index (v, zero) ;;;
    input_index <- <{ input_index + 4 }> ;;
    fft_index <- <{ fft_index + 1 }> ;;
    Ret (input_index, fft_index)) (input_index, snd st) ;;
  fft_process (t4f_fft self) fft_buffer fft_scratch ;;;
  let result_scale := sqrt_2 *. half in
  let second_half_sign := if len mod 4 =? 1 then one else -. one in
  (* lines 141-153 *)
  output_sign <- fold_range 0 quarter_len one (fun i output_sign =>
    ix <- <{ 4 * i + 1 }> ;;
    c1 <- crd fft_buffer ix ;;
    let fft_result := c_scale c1 (output_sign *. result_scale) in
    ix <- <{ 4 * i + 3 }> ;;
    c3 <- crd fft_buffer ix ;;
    let next_result := c_scale c3 (output_sign *. result_scale) in
    ix <- <{ i * 2 }> ;;
    wr buffer ix (fst fft_result +. snd fft_result) ;;;
    ix <- <{ i * 2 + 1 }> ;;
    wr buffer ix (-. fst next_result +. snd next_result) ;;;
    ix <- <{ i * 2 }> ;;
    j <- usub_ck B MAX len ix ;; j2 <- usub_ck B MAX j 2 ;;
    wr buffer j2 ((fst next_result +. snd next_result) *. second_half_sign) ;;;
    j1 <- usub_ck B MAX j 1 ;;
    wr buffer j1 ((fst fft_result -. snd fft_result) *. second_half_sign) ;;;
    Ret (-. output_sign)) ;;
  (* lines 156-164 *)
  (if len mod 4 =? 1 then
     re0 <- crd_re fft_buffer 0 ;;
     wr buffer half_len (re0 *. output_sign *. result_scale)
   else
     l2 <- usub_ck B MAX len 2 ;;
     c <- crd fft_buffer l2 ;;
     let fft_result := c_scale c (output_sign *. result_scale) in
     h1 <- usub_ck B MAX half_len 1 ;;
     wr buffer h1 (fst fft_result +. snd fft_result) ;;;
     ix <- <{ half_len + 1 }> ;;
     wr buffer ix (-. fst fft_result +. snd fft_result) ;;;
     re0 <- crd_re fft_buffer 0 ;;
     wr buffer half_len (-. re0 *. output_sign *. result_scale))).

(** type4_convert_to_fft.rs:168-267. *)
Definition Type4ConvertToFftOdd_dst4_ck (self : t4_fft T) (buffer scratch : slice) : P unit :=
  validate_buffers buffer scratch (t4f_len self) (t4f_scratch self) (fun scratch =>
  let len := t4f_len self in
  let half_len := len / 2 in
  let quarter_len := len / 4 in
  let complex_scratch := into_complex_mut scratch in
  sp <- csplit_at_mut complex_scratch len ;;
  let '(fft_buffer, fft_scratch) := sp in
  (* lines 179-189 *)
  st <- while_ (S len) (fun st => fst st <? len) (fun st =>
    let '(input_index, fft_index) := st in
    j <- usub_ck B MAX len input_index ;; j <- usub_ck B MAX j 1 ;;
    v <- rd buffer j ;;
    cwr fft_buffer fft_index (v, zero) ;;;
    input_index <- <{ input_index + 4 }> ;;
    fft_index <- <{ fft_index + 1 }> ;;
    Ret (input_index, fft_index)) (half_len, 0) ;;
  (* lines 192-201 *)
  input_index <- usub_ck B MAX (fst st) len ;;
  st <- while_ (S len) (fun st => fst st <? len) (fun st =>
    let '(input_index, fft_index) := st in
    v <- rd buffer input_index ;;
    cwr fft_buffer fft_index (-. v, zero) ;;;
    input_index <- <{ input_index + 4 }> ;;
    fft_index <- <{ fft_index + 1 }> ;;
    Ret (input_index, fft_index)) (input_index, snd st) ;;
  (* lines 203-212 *)
  input_index <- usub_ck B MAX (fst st) len ;;
  st <- while_ (S len) (fun st => fst st <? len) (fun st =>
    let '(input_index, fft_index) := st in
    j <- usub_ck B MAX len input_index ;; j <- usub_ck B MAX j 1 ;;
    v <- rd buffer j ;;
    cwr fft_buffer fft_index (-. v, zero) ;;;
    input_index <- <{ input_index + 4 }> ;;
    fft_index <- <{ fft_index + 1 }> ;;
    Ret (input_index, fft_index)) (input_index, snd st) ;;
  (* lines 214-223 *)
  input_index <- usub_ck B MAX (fst st) len ;;
  st <- while_ (S len) (fun st => fst st <? len) (fun st =>
    let '(input_index, fft_index) := st in
    v <- rd buffer input_index ;;
    cwr fft_buffer fft_index (v, zero) ;;;
    input_index <- <{ input_index + 4 }> ;;
    fft_index <- <{ fft_index + 1 }> ;;
    Ret (input_index, fft_index)) (input_index, snd st) ;;
  (* lines 225-234 *)
  input_index <- usub_ck B MAX (fst st) len ;;
  st <- while_ (S len) (fun st => snd st <? len) (fun st =>
    let '(input_index, fft_index) := st in
    j <- usub_ck B MAX len input_index ;; j <- usub_ck B MAX j 1 ;;
    v <- rd buffer j ;;
    cwr fft_buffer fft_index (v, zero) ;;;
    input_index <- <{ input_index + 4 }> ;;
    fft_index <- <{ fft_index + 1 }> ;;
    Ret (input_index, fft_index)) (input_index, snd st) ;;
  fft_process (t4f_fft self) fft_buffer fft_scratch ;;;
  let result_scale := sqrt_2 *. half in
  let second_half_sign := if len mod 4 =? 1 then one else -. one in
  (* lines 243-255 *)
  output_sign <- fold_range 0 quarter_len one (fun i output_sign =>
    ix <- <{ 4 * i + 1 }> ;;
    c1 <- crd fft_buffer ix ;;
    let fft_result := c_scale c1 (output_sign *. result_scale) in
    ix <- <{ 4 * i + 3 }> ;;
    c3 <- crd fft_buffer ix ;;
    let next_result := c_scale c3 (output_sign *. result_scale) in
    ix <- <{ i * 2 }> ;;
    wr buffer ix (fst fft_result +. snd fft_result) ;;;
    ix <- <{ i * 2 + 1 }> ;;
    wr buffer ix (fst next_result -. snd next_result) ;;;
    ix <- <{ i * 2 }> ;;
    j <- usub_ck B MAX len ix ;; j2 <- usub_ck B MAX j 2 ;;
    wr buffer j2 (-. (fst next_result +. snd next_result) *. second_half_sign) ;;;
    j1 <- usub_ck B MAX j 1 ;;
    wr buffer j1 ((fst fft_result -. snd fft_result) *. second_half_sign) ;;;
    Ret (-. output_sign)) ;;
  (* lines 258-266 *)
  (if len mod 4 =? 1 then
     re0 <- crd_re fft_buffer 0 ;;
     wr buffer half_len (re0 *. output_sign *. result_scale)
   else
     l2 <- usub_ck B MAX len 2 ;;
     c <- crd fft_buffer l2 ;;
     let fft_result := c_scale c (output_sign *. result_scale) in
     h1 <- usub_ck B MAX half_len 1 ;;
     wr buffer h1 (fst fft_result +. snd fft_result) ;;;
     ix <- <{ half_len + 1 }> ;;
     wr buffer ix (-. fst fft_result +. snd fft_result) ;;;
     re0 <- crd_re fft_buffer 0 ;;
     wr buffer half_len (re0 *. output_sign *. result_scale))).

Definition Type4ConvertToFftOdd_obj_ck (self : t4_fft T) : t4 T :=
  mkT4 T (t4f_len self) (t4f_scratch self)
    (Type4ConvertToFftOdd_dct4_ck self) (Type4ConvertToFftOdd_dst4_ck self).

(** type6and7_convert_to_fft.rs:40-59, [Dst6And7ConvertToFft::new]. *)
Definition Dst6And7ConvertToFft_new_ck (inner_fft : fft T) : result (s67_fft T) :=
  let inner_fft_len := fft_len inner_fft in
  _ <-? rassert (inner_fft_len mod 2 =? 1) ;;
  _ <-? rassert (dir_eqb (fft_dir inner_fft) Forward) ;;
  d <-? r<{ inner_fft_len - 1 }> ;;
  let len := d / 2 in
  scratch_len <-? r<{ 2 * (inner_fft_len + '(fft_scratch inner_fft)) }> ;;
  Ok (mkS67Fft inner_fft len scratch_len inner_fft_len).

(** type6and7_convert_to_fft.rs:62-89. *)
Definition Dst6And7ConvertToFft_dst6_ck (self : s67_fft T) (buffer scratch : slice) : P unit :=
  validate_buffers buffer scratch (s67f_len self) (s67f_scratch self) (fun scratch =>
  let complex_scratch := into_complex_mut scratch in
  sp <- csplit_at_mut complex_scratch (s67f_inner self) ;;
  let '(fft_buffer, fft_scratch) := sp in
  for_range 0 (slen buffer) (fun i =>
    v <- rd buffer i ;;
    ix <- <{ i * 2 + 1 }> ;;
    cwr_im fft_buffer ix v) ;;;
  fft_process (s67f_fft self) fft_buffer fft_scratch ;;;
  t <- <{ '(slen buffer) + 1 }> ;;
  let even_count := t / 2 in
  odd_count <- usub_ck B MAX (slen buffer) even_count ;;
  for_range 0 odd_count (fun i =>
    output_index <- <{ i * 2 + 1 }> ;;
    ix <- <{ i + 1 }> ;;
    re <- crd_re fft_buffer ix ;;
    wr buffer output_index re) ;;;
  for_range 0 even_count (fun i =>
    j <- usub_ck B MAX even_count i ;; j <- usub_ck B MAX j 1 ;;
    output_index <- <{ 2 * j }> ;;
    ix <- <{ i + odd_count + 1 }> ;;
    re <- crd_re fft_buffer ix ;;
    wr buffer output_index re)).

(** type6and7_convert_to_fft.rs:92-130. *)
Definition Dst6And7ConvertToFft_dst7_ck (self : s67_fft T) (buffer scratch : slice) : P unit :=
  validate_buffers buffer scratch (s67f_len self) (s67f_scratch self) (fun scratch =>
  let complex_scratch := into_complex_mut scratch in
  sp <- csplit_at_mut complex_scratch (s67f_inner self) ;;
  let '(fft_buffer, fft_scratch) := sp in
  t <- <{ '(slen buffer) + 1 }> ;;
  let even_count := t / 2 in
  for_range 0 even_count (fun i =>
    input_index <- <{ i * 2 }> ;;
    inner_index <- <{ '(slen buffer) + 1 + i }> ;;
    v <- rd buffer input_index ;;
    cwr fft_buffer inner_index (v, zero)) ;;;
  odd_count <- usub_ck B MAX (slen buffer) even_count ;;
  for_range 0 odd_count (fun i =>
    j <- usub_ck B MAX odd_count i ;;
    ix <- <{ 2 * j }> ;;
    input_index <- usub_ck B MAX ix 1 ;;
    inner_index <- <{ '(slen buffer) + even_count + 1 + i }> ;;
    v <- rd buffer input_index ;;
    cwr fft_buffer inner_index (v, zero)) ;;;
  for_range 0 (slen buffer) (fun i =>
    j <- usub_ck B MAX (clen fft_buffer) 1 ;; j <- usub_ck B MAX j i ;;
    c <- crd fft_buffer j ;;
    ix <- <{ i + 1 }> ;;
    cwr fft_buffer ix (c_neg c)) ;;;
  fft_process (s67f_fft self) fft_buffer fft_scratch ;;;
  for_range 0 (slen buffer) (fun i =>
    ix <- <{ i * 2 + 1 }> ;;
    im <- crd_im fft_buffer ix ;;
    wr buffer i (im *. half))).

Definition Dst6And7ConvertToFft_obj_ck (self : s67_fft T) : s67 T :=
  mkS67 T (s67f_len self) (s67f_scratch self)
    (Dst6And7ConvertToFft_dst6_ck self) (Dst6And7ConvertToFft_dst7_ck self).

End CheckedFft.
