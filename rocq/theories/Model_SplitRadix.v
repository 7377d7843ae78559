(** src/algorithm/type2and3_splitradix.rs and
    src/algorithm/type4_convert_to_type3.rs. *)
From Coq Require Import List Arith Bool.
From Verif Require Import Prog Num Model_Common.
Import ListNotations.

Section SplitRadix.
Context {T F : Type} {N : Num T F}.
Open Scope num_scope.
Notation P := (prog T).

(** ** Split radix *)

(** type2and3_splitradix.rs:31-35. *)
Record t23_split := mkT23Split {
  sr_half : t23 T; sr_quarter : t23 T; sr_tw : list (T * T) }.

(** type2and3_splitradix.rs:39-64, [Type2And3SplitRadix::new]. *)
Definition Type2And3SplitRadix_new (half_dct quarter_dct : t23 T) : result t23_split :=
  let half_len := t23_len half_dct in
  let quarter_len := t23_len quarter_dct in
  let len := half_len * 2 in
  _ <-? rassert (is_power_of_two len && (2 <? len)) ;;
  _ <-? rassert (half_len =? quarter_len * 2) ;;
  let twiddles :=
    map (fun i => c_conj (single_twiddle (2 * i + 1) (len * 4))) (seq 0 (len / 4)) in
  Ok (mkT23Split half_dct quarter_dct twiddles).

(** type2and3_splitradix.rs:236-245. *)
Definition Type2And3SplitRadix_len (self : t23_split) : nat := length (sr_tw self) * 4.
Definition Type2And3SplitRadix_scratch (self : t23_split) : nat :=
  Type2And3SplitRadix_len self.

(** type2and3_splitradix.rs:68-136. *)
Definition Type2And3SplitRadix_dct2 (self : t23_split) (buffer scratch : slice) : P unit :=
  validate_buffers buffer scratch (Type2And3SplitRadix_len self)
    (Type2And3SplitRadix_scratch self) (fun scratch =>
  let len := Type2And3SplitRadix_len self in
  let half_len := len / 2 in
  let quarter_len := len / 4 in
  sp <- split_at_mut scratch half_len ;;
  let '(input_dct2, input_dct4) := sp in
  sp <- split_at_mut input_dct4 quarter_len ;;
  let '(input_dct4_even, input_dct4_odd) := sp in
  for_range 0 quarter_len (fun i =>
    input_bottom <- rdu buffer i ;;
    j <- usub len i ;; j <- usub j 1 ;;
    input_top <- rdu buffer j ;;
    j <- usub half_len i ;; j <- usub j 1 ;;
    input_half_bottom <- rdu buffer j ;;
    input_half_top <- rdu buffer (half_len + i) ;;
    wru input_dct2 i (input_top +. input_bottom) ;;;
    j <- usub half_len i ;; j <- usub j 1 ;;
    wru input_dct2 j (input_half_bottom +. input_half_top) ;;;
    let lower_dct4 := input_bottom -. input_top in
    let upper_dct4 := input_half_bottom -. input_half_top in
    twiddle <- idxu (sr_tw self) i ;;
    let cos_input := lower_dct4 *. fst twiddle +. upper_dct4 *. snd twiddle in
    let sin_input := upper_dct4 *. fst twiddle -. lower_dct4 *. snd twiddle in
    wru input_dct4_even i cos_input ;;;
    j <- usub quarter_len i ;; j <- usub j 1 ;;
    wru input_dct4_odd j (if i mod 2 =? 0 then sin_input else -. sin_input)) ;;;
  t_dct2 (sr_half self) input_dct2 buffer ;;;
  t_dct2 (sr_quarter self) input_dct4_even buffer ;;;
  t_dct2 (sr_quarter self) input_dct4_odd buffer ;;;
  v <- rdu input_dct2 0 ;; wru buffer 0 v ;;;
  v <- rdu input_dct4_even 0 ;; wru buffer 1 v ;;;
  v <- rdu input_dct2 1 ;; wru buffer 2 v ;;;
  for_range 1 quarter_len (fun i =>
    dct4_cos_output <- rdu input_dct4_even i ;;
    dct4_sin_output <-
      (if (i + quarter_len) mod 2 =? 0
       then j <- usub quarter_len i ;; v <- rdu input_dct4_odd j ;; Ret (-. v)
       else j <- usub quarter_len i ;; rdu input_dct4_odd j) ;;
    j <- usub (i * 4) 1 ;;
    wru buffer j (dct4_cos_output +. dct4_sin_output) ;;;
    v <- rdu input_dct2 (i * 2) ;;
    wru buffer (i * 4) v ;;;
    wru buffer (i * 4 + 1) (dct4_cos_output -. dct4_sin_output) ;;;
    v <- rdu input_dct2 (i * 2 + 1) ;;
    wru buffer (i * 4 + 2) v) ;;;
  v <- rdu input_dct4_odd 0 ;;
  l1 <- usub len 1 ;;
  wru buffer l1 (-. v)).

(** type2and3_splitradix.rs:139-147.  The buffer is edited before the inner call
    validates its length. *)
Definition Type2And3SplitRadix_dst2 (self : t23_split) (buffer scratch : slice) : P unit :=
  for_range 0 (Type2And3SplitRadix_len self / 2) (fun i =>
    v <- rd buffer (2 * i + 1) ;;
    wr buffer (2 * i + 1) (-. v)) ;;;
  Type2And3SplitRadix_dct2 self buffer scratch ;;;
  reverse buffer.

(** type2and3_splitradix.rs:150-222. *)
Definition Type2And3SplitRadix_dct3 (self : t23_split) (buffer scratch : slice) : P unit :=
  validate_buffers buffer scratch (Type2And3SplitRadix_len self)
    (Type2And3SplitRadix_scratch self) (fun scratch =>
  let len := slen buffer in
  let half_len := len / 2 in
  let quarter_len := len / 4 in
  sp <- split_at_mut scratch half_len ;;
  let '(recursive_input_evens, recursive_input_odds) := sp in
  sp <- split_at_mut recursive_input_odds quarter_len ;;
  let '(recursive_input_n1, recursive_input_n3) := sp in
  v <- rd buffer 0 ;; wr recursive_input_evens 0 v ;;;
  v <- rd buffer 2 ;; wr recursive_input_evens 1 v ;;;
  v <- rd buffer 1 ;; wr recursive_input_n1 0 (v *. two) ;;;
  l1 <- usub len 1 ;;
  v <- rd buffer l1 ;; wr recursive_input_n3 0 (v *. two) ;;;
  for_range 1 quarter_len (fun i =>
    let k := 4 * i in
    v <- rdu buffer k ;; wru recursive_input_evens (i * 2) v ;;;
    v <- rdu buffer (k + 2) ;; wru recursive_input_evens (i * 2 + 1) v ;;;
    k1 <- usub k 1 ;;
    a <- rdu buffer k1 ;; b <- rdu buffer (k + 1) ;;
    wru recursive_input_n1 i (a +. b) ;;;
    a <- rdu buffer k1 ;; b <- rdu buffer (k + 1) ;;
    j <- usub quarter_len i ;;
    wru recursive_input_n3 j (a -. b)) ;;;
  t_dct3 (sr_half self) recursive_input_evens buffer ;;;
  t_dct3 (sr_quarter self) recursive_input_n1 buffer ;;;
  t_dct3 (sr_quarter self) recursive_input_n3 buffer ;;;
  for_range 0 quarter_len (fun i =>
    twiddle <- idx (sr_tw self) i ;;
    cosine_value <- rd recursive_input_n1 i ;;
    sine_value <-
      (if i mod 2 =? 0 then rd recursive_input_n3 i
       else v <- rd recursive_input_n3 i ;; Ret (-. v)) ;;
    let lower_dct4 := cosine_value *. fst twiddle +. sine_value *. snd twiddle in
    let upper_dct4 := cosine_value *. snd twiddle -. sine_value *. fst twiddle in
    lower_dct3 <- rdu recursive_input_evens i ;;
    j <- usub half_len i ;; j <- usub j 1 ;;
    upper_dct3 <- rdu recursive_input_evens j ;;
    wru buffer i (lower_dct3 +. lower_dct4) ;;;
    j <- usub len i ;; j <- usub j 1 ;;
    wru buffer j (lower_dct3 -. lower_dct4) ;;;
    j <- usub half_len i ;; j <- usub j 1 ;;
    wru buffer j (upper_dct3 +. upper_dct4) ;;;
    wru buffer (half_len + i) (upper_dct3 -. upper_dct4))).

(** type2and3_splitradix.rs:225-233. *)
Definition Type2And3SplitRadix_dst3 (self : t23_split) (buffer scratch : slice) : P unit :=
  reverse buffer ;;;
  Type2And3SplitRadix_dct3 self buffer scratch ;;;
  for_range 0 (Type2And3SplitRadix_len self / 2) (fun i =>
    v <- rd buffer (2 * i + 1) ;;
    wr buffer (2 * i + 1) (-. v)).

Definition Type2And3SplitRadix_obj (self : t23_split) : t23 T :=
  mkT23 T (Type2And3SplitRadix_len self) (Type2And3SplitRadix_scratch self)
    (Type2And3SplitRadix_dct2 self) (Type2And3SplitRadix_dct3 self)
    (Type2And3SplitRadix_dst2 self) (Type2And3SplitRadix_dst3 self).

(** ** Type 4 via type 3, even lengths *)

(** type4_convert_to_type3.rs:29-33. *)
Record t4_even := mkT4Even {
  t4e_inner : t23 T; t4e_tw : list (T * T); t4e_scratch : nat }.

(** type4_convert_to_type3.rs:37-57, [Type4ConvertToType3Even::new]. *)
Definition Type4ConvertToType3Even_new (inner_dct : t23 T) : t4_even :=
  let inner_len := t23_len inner_dct in
  let len := inner_len * 2 in
  let twiddles :=
    map (fun i => c_conj (single_twiddle (2 * i + 1) (len * 8))) (seq 0 inner_len) in
  let inner_scratch := t23_scratch inner_dct in
  let scratch_len := if inner_scratch <=? len then len else len + inner_scratch in
  mkT4Even inner_dct twiddles scratch_len.

(** type4_convert_to_type3.rs:149-153. *)
Definition Type4ConvertToType3Even_len (self : t4_even) : nat := length (t4e_tw self) * 2.

(** type4_convert_to_type3.rs:60-99. *)
Definition Type4ConvertToType3Even_dct4 (self : t4_even) (buffer scratch : slice) : P unit :=
  validate_buffers buffer scratch (Type4ConvertToType3Even_len self) (t4e_scratch self)
  (fun scratch =>
  sp <- split_at_mut scratch (Type4ConvertToType3Even_len self) ;;
  let '(self_scratch, extra_scratch) := sp in
  let len := Type4ConvertToType3Even_len self in
  let inner_len := len / 2 in
  sp <- split_at_mut self_scratch inner_len ;;
  let '(output_left, output_right) := sp in
  v <- rd buffer 0 ;; wr output_left 0 (v *. two) ;;;
  for_range 1 inner_len (fun k =>
    k1 <- usub (2 * k) 1 ;;
    a <- rd buffer k1 ;; b <- rd buffer (2 * k) ;;
    wr output_left k (a +. b) ;;;
    a <- rd buffer k1 ;; b <- rd buffer (2 * k) ;;
    j <- usub k 1 ;;
    wr output_right j (a -. b)) ;;;
  l1 <- usub len 1 ;;
  v <- rd buffer l1 ;;
  i1 <- usub inner_len 1 ;;
  wr output_right i1 (v *. two) ;;;
  let inner_scratch := if 0 <? slen extra_scratch then extra_scratch else buffer in
  t_dct3 (t4e_inner self) output_left inner_scratch ;;;
  t_dst3 (t4e_inner self) output_right inner_scratch ;;;
  for_range 0 inner_len (fun k =>
    twiddle <- idx (t4e_tw self) k ;;
    cos_value <- rd output_left k ;;
    sin_value <- rd output_right k ;;
    wr buffer k (cos_value *. fst twiddle +. sin_value *. snd twiddle) ;;;
    l1 <- usub len 1 ;; j <- usub l1 k ;;
    wr buffer j (cos_value *. snd twiddle -. sin_value *. fst twiddle))).

(** type4_convert_to_type3.rs:102-141. *)
Definition Type4ConvertToType3Even_dst4 (self : t4_even) (buffer scratch : slice) : P unit :=
  validate_buffers buffer scratch (Type4ConvertToType3Even_len self) (t4e_scratch self)
  (fun scratch =>
  sp <- split_at_mut scratch (Type4ConvertToType3Even_len self) ;;
  let '(self_scratch, extra_scratch) := sp in
  let len := Type4ConvertToType3Even_len self in
  let inner_len := len / 2 in
  sp <- split_at_mut self_scratch inner_len ;;
  let '(output_left, output_right) := sp in
  v <- rd buffer 0 ;; wr output_right 0 (v *. two) ;;;
  for_range 1 inner_len (fun k =>
    k1 <- usub (2 * k) 1 ;;
    a <- rd buffer k1 ;; b <- rd buffer (2 * k) ;;
    j <- usub k 1 ;;
    wr output_left j (a +. b) ;;;
    a <- rd buffer (2 * k) ;; b <- rd buffer k1 ;;
    wr output_right k (a -. b)) ;;;
  l1 <- usub len 1 ;;
  v <- rd buffer l1 ;;
  i1 <- usub inner_len 1 ;;
  wr output_left i1 (v *. two) ;;;
  let inner_scratch := if 0 <? slen extra_scratch then extra_scratch else buffer in
  t_dst3 (t4e_inner self) output_left inner_scratch ;;;
  t_dct3 (t4e_inner self) output_right inner_scratch ;;;
  for_range 0 inner_len (fun k =>
    twiddle <- idx (t4e_tw self) k ;;
    cos_value <- rd output_left k ;;
    sin_value <- rd output_right k ;;
    wr buffer k (cos_value *. fst twiddle +. sin_value *. snd twiddle) ;;;
    l1 <- usub len 1 ;; j <- usub l1 k ;;
    wr buffer j (sin_value *. fst twiddle -. cos_value *. snd twiddle))).

Definition Type4ConvertToType3Even_obj (self : t4_even) : t4 T :=
  mkT4 T (Type4ConvertToType3Even_len self) (t4e_scratch self)
    (Type4ConvertToType3Even_dct4 self) (Type4ConvertToType3Even_dst4 self).

End SplitRadix.

Arguments t23_split : clear implicits.
Arguments t4_even : clear implicits.
