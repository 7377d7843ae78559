(** The definitions of Model_SplitRadix.v once more, with the [usize] arithmetic of
    Model_Checked.v for the build [B] and the greatest value [MAX].
    Everything else is copied; the comments cite the same lines. *)
From Coq Require Import List Arith Bool.
From Verif Require Import Prog Num Model_Common Model_SplitRadix Model_Checked.
Import ListNotations.

Section CheckedSplitRadix.
Context {T F : Type} {N : Num T F}.
Open Scope num_scope.
Notation P := (prog T).
Variable B : build.
Variable MAX : nat.
Notation "x + y" := (ulift (uadd B MAX) x y) (in custom usize at level 50, left associativity).
Notation "x - y" := (ulift (usub_ck B MAX) x y) (in custom usize at level 50, left associativity).
Notation "x * y" := (ulift (umul B MAX) x y) (in custom usize at level 40, left associativity).

(** type2and3_splitradix.rs:39-64, [Type2And3SplitRadix::new]. *)
Definition Type2And3SplitRadix_new_ck (half_dct quarter_dct : t23 T) : result (t23_split T) :=
  let half_len := t23_len half_dct in
  let quarter_len := t23_len quarter_dct in
  len <-? r<{ half_len * 2 }> ;;
  _ <-? rassert (is_power_of_two len && (2 <? len)) ;;
  q2 <-? r<{ quarter_len * 2 }> ;;
  _ <-? rassert (half_len =? q2) ;;
  twiddles <-? rmap_list (fun i =>
    a <-? r<{ 2 * i + 1 }> ;; b <-? r<{ len * 4 }> ;; Ok (c_conj (single_twiddle a b))) (seq 0 (len / 4)) ;;
  Ok (mkT23Split half_dct quarter_dct twiddles).

(** type2and3_splitradix.rs:236-245. *)
Definition Type2And3SplitRadix_len_ck (self : t23_split T) : P nat := <{ '(length (sr_tw self)) * 4 }>.

Definition Type2And3SplitRadix_scratch_ck (self : t23_split T) : P nat := Type2And3SplitRadix_len_ck self.

(** type2and3_splitradix.rs:68-136. *)
Definition Type2And3SplitRadix_dct2_ck (self : t23_split T) (buffer scratch : slice) : P unit :=
  expected_len <- Type2And3SplitRadix_len_ck self ;;
  expected_scratch <- Type2And3SplitRadix_scratch_ck self ;;
  validate_buffers buffer scratch expected_len expected_scratch (fun scratch =>
  len <- Type2And3SplitRadix_len_ck self ;;
  let half_len := len / 2 in
  let quarter_len := len / 4 in
  sp <- split_at_mut scratch half_len ;;
  let '(input_dct2, input_dct4) := sp in
  sp <- split_at_mut input_dct4 quarter_len ;;
  let '(input_dct4_even, input_dct4_odd) := sp in
  for_range 0 quarter_len (fun i =>
    input_bottom <- rdu buffer i ;;
    j <- usub_ck B MAX len i ;; j <- usub_ck B MAX j 1 ;;
    input_top <- rdu buffer j ;;
    j <- usub_ck B MAX half_len i ;; j <- usub_ck B MAX j 1 ;;
    input_half_bottom <- rdu buffer j ;;
    ix <- <{ half_len + i }> ;;
    input_half_top <- rdu buffer ix ;;
    wru input_dct2 i (input_top +. input_bottom) ;;;
    j <- usub_ck B MAX half_len i ;; j <- usub_ck B MAX j 1 ;;
    wru input_dct2 j (input_half_bottom +. input_half_top) ;;;
    let lower_dct4 := input_bottom -. input_top in
    let upper_dct4 := input_half_bottom -. input_half_top in
    twiddle <- idxu (sr_tw self) i ;;
    let cos_input := lower_dct4 *. fst twiddle +. upper_dct4 *. snd twiddle in
    let sin_input := upper_dct4 *. fst twiddle -. lower_dct4 *. snd twiddle in
    wru input_dct4_even i cos_input ;;;
    j <- usub_ck B MAX quarter_len i ;; j <- usub_ck B MAX j 1 ;;
    wru input_dct4_odd j (if i mod 2 =? 0 then sin_input else -. sin_input)) ;;;
  t_dct2 (sr_half self) input_dct2 buffer ;;;
  t_dct2 (sr_quarter self) input_dct4_even buffer ;;;
  t_dct2 (sr_quarter self) input_dct4_odd buffer ;;;
  v <- rdu input_dct2 0 ;; wru buffer 0 v ;;;
  v <- rdu input_dct4_even 0 ;; wru buffer 1 v ;;;
  v <- rdu input_dct2 1 ;; wru buffer 2 v ;;;
  for_range 1 quarter_len (fun i =>
    dct4_cos_output <- rdu input_dct4_even i ;;
    q <- <{ i + quarter_len }> ;;
    dct4_sin_output <-
      (if q mod 2 =? 0
       then j <- usub_ck B MAX quarter_len i ;; v <- rdu input_dct4_odd j ;; Ret (-. v)
       else j <- usub_ck B MAX quarter_len i ;; rdu input_dct4_odd j) ;;
    ix <- <{ i * 4 }> ;;
    j <- usub_ck B MAX ix 1 ;;
    wru buffer j (dct4_cos_output +. dct4_sin_output) ;;;
    ix <- <{ i * 2 }> ;;
    v <- rdu input_dct2 ix ;;
    ix <- <{ i * 4 }> ;;
    wru buffer ix v ;;;
    ix <- <{ i * 4 + 1 }> ;;
    wru buffer ix (dct4_cos_output -. dct4_sin_output) ;;;
    ix <- <{ i * 2 + 1 }> ;;
    v <- rdu input_dct2 ix ;;
    ix <- <{ i * 4 + 2 }> ;;
    wru buffer ix v) ;;;
  v <- rdu input_dct4_odd 0 ;;
  l1 <- usub_ck B MAX len 1 ;;
  wru buffer l1 (-. v)).

(** type2and3_splitradix.rs:139-147.  The buffer is edited before the inner call
    validates its length. *)
Definition Type2And3SplitRadix_dst2_ck (self : t23_split T) (buffer scratch : slice) : P unit :=
  n <- Type2And3SplitRadix_len_ck self ;;
  for_range 0 (n / 2) (fun i =>
    ix <- <{ 2 * i + 1 }> ;;
    v <- rd buffer ix ;;
    ix <- <{ 2 * i + 1 }> ;;
    wr buffer ix (-. v)) ;;;
  Type2And3SplitRadix_dct2_ck self buffer scratch ;;;
  reverse buffer.

(** type2and3_splitradix.rs:150-222. *)
Definition Type2And3SplitRadix_dct3_ck (self : t23_split T) (buffer scratch : slice) : P unit :=
  expected_len <- Type2And3SplitRadix_len_ck self ;;
  expected_scratch <- Type2And3SplitRadix_scratch_ck self ;;
  validate_buffers buffer scratch expected_len expected_scratch (fun scratch =>
  let len := slen buffer in
  let half_len := len / 2 in
  let quarter_len := len / 4 in
  sp <- split_at_mut scratch half_len ;;
  let '(recursive_input_evens, recursive_input_odds) := sp in
  sp <- split_at_mut recursive_input_odds quarter_len ;;
  let '(recursive_input_n1, recursive_input_n3) := sp in
  v <- rd buffer 0 ;; wr recursive_input_evens 0 v ;;;
  v <- rd buffer 2 ;; wr recursive_input_evens 1 v ;;;
  v <- rd buffer 1 ;; wr recursive_input_n1 0 (v *. two) ;;;
  l1 <- usub_ck B MAX len 1 ;;
  v <- rd buffer l1 ;; wr recursive_input_n3 0 (v *. two) ;;;
  for_range 1 quarter_len (fun i =>
    k <- <{ 4 * i }> ;;
    v <- rdu buffer k ;; ix <- <{ i * 2 }> ;; wru recursive_input_evens ix v ;;;
    ix <- <{ k + 2 }> ;;
    v <- rdu buffer ix ;; ix <- <{ i * 2 + 1 }> ;; wru recursive_input_evens ix v ;;;
    k1 <- usub_ck B MAX k 1 ;;
    a <- rdu buffer k1 ;; ix <- <{ k + 1 }> ;; b <- rdu buffer ix ;;
    wru recursive_input_n1 i (a +. b) ;;;
    a <- rdu buffer k1 ;; ix <- <{ k + 1 }> ;; b <- rdu buffer ix ;;
    j <- usub_ck B MAX quarter_len i ;;
    wru recursive_input_n3 j (a -. b)) ;;;
  t_dct3 (sr_half self) recursive_input_evens buffer ;;;
  t_dct3 (sr_quarter self) recursive_input_n1 buffer ;;;
  t_dct3 (sr_quarter self) recursive_input_n3 buffer ;;;
  for_range 0 quarter_len (fun i =>
    twiddle <- idx (sr_tw self) i ;;
    cosine_value <- rd recursive_input_n1 i ;;
    sine_value <-
      (if i mod 2 =? 0 then rd recursive_input_n3 i
       else v <- rd recursive_input_n3 i ;; Ret (-. v)) ;;
    let lower_dct4 := cosine_value *. fst twiddle +. sine_value *. snd twiddle in
    let upper_dct4 := cosine_value *. snd twiddle -. sine_value *. fst twiddle in
    lower_dct3 <- rdu recursive_input_evens i ;;
    j <- usub_ck B MAX half_len i ;; j <- usub_ck B MAX j 1 ;;
    upper_dct3 <- rdu recursive_input_evens j ;;
    wru buffer i (lower_dct3 +. lower_dct4) ;;;
    j <- usub_ck B MAX len i ;; j <- usub_ck B MAX j 1 ;;
    wru buffer j (lower_dct3 -. lower_dct4) ;;;
    j <- usub_ck B MAX half_len i ;; j <- usub_ck B MAX j 1 ;;
    wru buffer j (upper_dct3 +. upper_dct4) ;;;
    ix <- <{ half_len + i }> ;;
    wru buffer ix (upper_dct3 -. upper_dct4))).

(** type2and3_splitradix.rs:225-233. *)
Definition Type2And3SplitRadix_dst3_ck (self : t23_split T) (buffer scratch : slice) : P unit :=
  reverse buffer ;;;
  Type2And3SplitRadix_dct3_ck self buffer scratch ;;;
  n <- Type2And3SplitRadix_len_ck self ;;
  for_range 0 (n / 2) (fun i =>
    ix <- <{ 2 * i + 1 }> ;;
    v <- rd buffer ix ;;
    ix <- <{ 2 * i + 1 }> ;;
    wr buffer ix (-. v)).

Definition Type2And3SplitRadix_obj_ck (self : t23_split T) : result (t23 T) :=
  n <-? rof (Type2And3SplitRadix_len_ck self) ;;
  s <-? rof (Type2And3SplitRadix_scratch_ck self) ;;
  Ok (mkT23 T n s
    (Type2And3SplitRadix_dct2_ck self) (Type2And3SplitRadix_dct3_ck self)
    (Type2And3SplitRadix_dst2_ck self) (Type2And3SplitRadix_dst3_ck self)).

(** type4_convert_to_type3.rs:37-57, [Type4ConvertToType3Even::new]. *)
Definition Type4ConvertToType3Even_new_ck (inner_dct : t23 T) : result (t4_even T) :=
  let inner_len := t23_len inner_dct in
  len <-? r<{ inner_len * 2 }> ;;
  twiddles <-? rmap_list (fun i =>
    a <-? r<{ 2 * i + 1 }> ;; b <-? r<{ len * 8 }> ;; Ok (c_conj (single_twiddle a b))) (seq 0 inner_len) ;;
  let inner_scratch := t23_scratch inner_dct in
  scratch_len <-? (if inner_scratch <=? len then Ok len else r<{ len + inner_scratch }>) ;;
  Ok (mkT4Even inner_dct twiddles scratch_len).

(** type4_convert_to_type3.rs:149-153. *)
Definition Type4ConvertToType3Even_len_ck (self : t4_even T) : P nat := <{ '(length (t4e_tw self)) * 2 }>.

(** type4_convert_to_type3.rs:60-99. *)
Definition Type4ConvertToType3Even_dct4_ck (self : t4_even T) (buffer scratch : slice) : P unit :=
  expected_len <- Type4ConvertToType3Even_len_ck self ;;
  validate_buffers buffer scratch expected_len (t4e_scratch self) (fun scratch =>
  n <- Type4ConvertToType3Even_len_ck self ;;
  sp <- split_at_mut scratch n ;;
  let '(self_scratch, extra_scratch) := sp in
  len <- Type4ConvertToType3Even_len_ck self ;;
  let inner_len := len / 2 in
  sp <- split_at_mut self_scratch inner_len ;;
  let '(output_left, output_right) := sp in
  v <- rd buffer 0 ;; wr output_left 0 (v *. two) ;;;
  for_range 1 inner_len (fun k =>
    ix <- <{ 2 * k }> ;;
    k1 <- usub_ck B MAX ix 1 ;;
    a <- rd buffer k1 ;; ix <- <{ 2 * k }> ;; b <- rd buffer ix ;;
    wr output_left k (a +. b) ;;;
    a <- rd buffer k1 ;; ix <- <{ 2 * k }> ;; b <- rd buffer ix ;;
    j <- usub_ck B MAX k 1 ;;
    wr output_right j (a -. b)) ;;;
  l1 <- usub_ck B MAX len 1 ;;
  v <- rd buffer l1 ;;
  i1 <- usub_ck B MAX inner_len 1 ;;
  wr output_right i1 (v *. two) ;;;
  let inner_scratch := if 0 <? slen extra_scratch then extra_scratch else buffer in
  t_dct3 (t4e_inner self) output_left inner_scratch ;;;
  t_dst3 (t4e_inner self) output_right inner_scratch ;;;
  for_range 0 inner_len (fun k =>
    twiddle <- idx (t4e_tw self) k ;;
    cos_value <- rd output_left k ;;
    sin_value <- rd output_right k ;;
    wr buffer k (cos_value *. fst twiddle +. sin_value *. snd twiddle) ;;;
    l1 <- usub_ck B MAX len 1 ;; j <- usub_ck B MAX l1 k ;;
    wr buffer j (cos_value *. snd twiddle -. sin_value *. fst twiddle))).

(** type4_convert_to_type3.rs:102-141. *)
Definition Type4ConvertToType3Even_dst4_ck (self : t4_even T) (buffer scratch : slice) : P unit :=
  expected_len <- Type4ConvertToType3Even_len_ck self ;;
  validate_buffers buffer scratch expected_len (t4e_scratch self) (fun scratch =>
  n <- Type4ConvertToType3Even_len_ck self ;;
  sp <- split_at_mut scratch n ;;
  let '(self_scratch, extra_scratch) := sp in
  len <- Type4ConvertToType3Even_len_ck self ;;
  let inner_len := len / 2 in
  sp <- split_at_mut self_scratch inner_len ;;
  let '(output_left, output_right) := sp in
  v <- rd buffer 0 ;; wr output_right 0 (v *. two) ;;;
  for_range 1 inner_len (fun k =>
    ix <- <{ 2 * k }> ;;
    k1 <- usub_ck B MAX ix 1 ;;
    a <- rd buffer k1 ;; ix <- <{ 2 * k }> ;; b <- rd buffer ix ;;
    j <- usub_ck B MAX k 1 ;;
    wr output_left j (a +. b) ;;;
    ix <- <{ 2 * k }> ;;
    a <- rd buffer ix ;; b <- rd buffer k1 ;;
    wr output_right k (a -. b)) ;;;
  l1 <- usub_ck B MAX len 1 ;;
  v <- rd buffer l1 ;;
  i1 <- usub_ck B MAX inner_len 1 ;;
  wr output_left i1 (v *. two) ;;;
  let inner_scratch := if 0 <? slen extra_scratch then extra_scratch else buffer in
  t_dst3 (t4e_inner self) output_left inner_scratch ;;;
  t_dct3 (t4e_inner self) output_right inner_scratch ;;;
  for_range 0 inner_len (fun k =>
    twiddle <- idx (t4e_tw self) k ;;
    cos_value <- rd output_left k ;;
    sin_value <- rd output_right k ;;
    wr buffer k (cos_value *. fst twiddle +. sin_value *. snd twiddle) ;;;
    l1 <- usub_ck B MAX len 1 ;; j <- usub_ck B MAX l1 k ;;
    wr buffer j (sin_value *. fst twiddle -. cos_value *. snd twiddle))).

Definition Type4ConvertToType3Even_obj_ck (self : t4_even T) : result (t4 T) :=
  n <-? rof (Type4ConvertToType3Even_len_ck self) ;;
  Ok (mkT4 T n (t4e_scratch self)
    (Type4ConvertToType3Even_dct4_ck self) (Type4ConvertToType3Even_dst4_ck self)).

End CheckedSplitRadix.
