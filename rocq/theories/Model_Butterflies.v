(** src/algorithm/type2and3_butterflies.rs. *)
From Coq Require Import List Arith Bool.
From Verif Require Import Prog Num Model_Common.
Import ListNotations.

Section Butterflies.
Context {T F : Type} {N : Num T F}.
Open Scope num_scope.
Notation P := (prog T).

(** ** Length 2: lines 62-164 *)

(** Lines 71-76. *)
Definition Butterfly2_inplace_dct2 (buffer : slice) : P unit :=
  a <- rdu buffer 0 ;; b <- rdu buffer 1 ;;
  let sum := a +. b in
  a <- rdu buffer 0 ;; b <- rdu buffer 1 ;;
  wru buffer 1 ((a -. b) *. frac_1_sqrt_2) ;;;
  wru buffer 0 sum.

(** Lines 77-82. *)
Definition Butterfly2_scattered_dct2 (buffer : slice) (zero_ one_ : nat) : P unit :=
  a <- rdu buffer zero_ ;; b <- rdu buffer one_ ;;
  let sum := a +. b in
  a <- rdu buffer zero_ ;; b <- rdu buffer one_ ;;
  wru buffer one_ ((a -. b) *. frac_1_sqrt_2) ;;;
  wru buffer zero_ sum.

(** Lines 84-90. *)
Definition Butterfly2_inplace_dct3 (buffer : slice) : P unit :=
  a <- rdu buffer 0 ;;
  let half_0 := a *. half in
  b <- rdu buffer 1 ;;
  let frac_1 := b *. frac_1_sqrt_2 in
  wru buffer 0 (half_0 +. frac_1) ;;;
  wru buffer 1 (half_0 -. frac_1).

(** Lines 91-97. *)
Definition Butterfly2_scattered_dct3 (buffer : slice) (zero_ one_ : nat) : P unit :=
  a <- rdu buffer zero_ ;;
  let half_0 := a *. half in
  b <- rdu buffer one_ ;;
  let frac_1 := b *. frac_1_sqrt_2 in
  wru buffer zero_ (half_0 +. frac_1) ;;;
  wru buffer one_ (half_0 -. frac_1).

(** Lines 99-104. *)
Definition Butterfly2_inplace_dst2 (buffer : slice) : P unit :=
  a <- rdu buffer 0 ;; b <- rdu buffer 1 ;;
  let sum := a -. b in
  a <- rdu buffer 0 ;; b <- rdu buffer 1 ;;
  wru buffer 0 ((a +. b) *. frac_1_sqrt_2) ;;;
  wru buffer 1 sum.

(** Lines 106-112. *)
Definition Butterfly2_inplace_dst3 (buffer : slice) : P unit :=
  a <- rdu buffer 0 ;;
  let frac_0 := a *. frac_1_sqrt_2 in
  b <- rdu buffer 1 ;;
  let half_1 := b *. half in
  wru buffer 0 (frac_0 +. half_1) ;;;
  wru buffer 1 (frac_0 -. half_1).

(** Lines 114-122. *)
Definition Butterfly2_dct2 (buffer scratch : slice) : P unit :=
  validate_buffer buffer 2 (
  a <- rd buffer 0 ;; b <- rd buffer 1 ;;
  let sum := a +. b in
  a <- rd buffer 0 ;; b <- rd buffer 1 ;;
  wr buffer 1 ((a -. b) *. frac_1_sqrt_2) ;;;
  wr buffer 0 sum).

(** Lines 123-133. *)
Definition Butterfly2_dct3 (buffer scratch : slice) : P unit :=
  validate_buffer buffer 2 (
  a <- rd buffer 0 ;;
  let half_0 := a *. half in
  b <- rd buffer 1 ;;
  let frac_1 := b *. frac_1_sqrt_2 in
  wr buffer 0 (half_0 +. frac_1) ;;;
  wr buffer 1 (half_0 -. frac_1)).

(** Lines 134-142. *)
Definition Butterfly2_dst2 (buffer scratch : slice) : P unit :=
  validate_buffer buffer 2 (
  a <- rd buffer 0 ;; b <- rd buffer 1 ;;
  let sum := (a +. b) *. frac_1_sqrt_2 in
  a <- rd buffer 0 ;; b <- rd buffer 1 ;;
  wr buffer 1 (a -. b) ;;;
  wr buffer 0 sum).

(** Lines 143-153. *)
Definition Butterfly2_dst3 (buffer scratch : slice) : P unit :=
  validate_buffer buffer 2 (
  a <- rd buffer 0 ;;
  let frac_0 := a *. frac_1_sqrt_2 in
  b <- rd buffer 1 ;;
  let half_1 := b *. half in
  wr buffer 0 (frac_0 +. half_1) ;;;
  wr buffer 1 (frac_0 -. half_1)).

(** Lines 154-164 and 66-70. *)
Definition Type2And3Butterfly2_obj : t23 T :=
  mkT23 T 2 0 Butterfly2_dct2 Butterfly2_dct3 Butterfly2_dst2 Butterfly2_dst3.

(** ** The boilerplate macro: lines 10-60 *)
Definition butterfly_obj (size : nat) (dct2 dct3 dst2 dst3 : slice -> P unit) : t23 T :=
  mkT23 T size 0
    (fun buffer _scratch => validate_buffer buffer size (dct2 buffer))
    (fun buffer _scratch => validate_buffer buffer size (dct3 buffer))
    (fun buffer _scratch => validate_buffer buffer size (dst2 buffer))
    (fun buffer _scratch => validate_buffer buffer size (dst3 buffer)).

(** ** Length 3: lines 166-218 *)

(** Lines 170-174: the struct is its twiddle. *)
Definition Butterfly3_new : T := single_twiddle_re 1 12.

(** Lines 175-184. *)
Definition Butterfly3_inplace_dct2 (twiddle : T) (buffer : slice) : P unit :=
  buffer_0 <- rdu buffer 0 ;; buffer_1 <- rdu buffer 1 ;; buffer_2 <- rdu buffer 2 ;;
  wru buffer 0 (buffer_0 +. buffer_1 +. buffer_2) ;;;
  wru buffer 1 ((buffer_0 -. buffer_2) *. twiddle) ;;;
  wru buffer 2 ((buffer_0 +. buffer_2) *. half -. buffer_1).

(** Lines 185-195. *)
Definition Butterfly3_inplace_dct3 (twiddle : T) (buffer : slice) : P unit :=
  v <- rdu buffer 0 ;;
  let buffer0_half := v *. half in
  buffer1 <- rdu buffer 1 ;; buffer2 <- rdu buffer 2 ;;
  let buffer2_half := buffer2 *. half in
  wru buffer 0 (buffer0_half +. buffer1 *. twiddle +. buffer2_half) ;;;
  wru buffer 1 (buffer0_half -. buffer2) ;;;
  wru buffer 2 (buffer0_half +. buffer1 *. (-. twiddle) +. buffer2_half).

(** Lines 196-205. *)
Definition Butterfly3_inplace_dst2 (twiddle : T) (buffer : slice) : P unit :=
  buffer_0 <- rdu buffer 0 ;; buffer_1 <- rdu buffer 1 ;; buffer_2 <- rdu buffer 2 ;;
  wru buffer 2 (buffer_0 -. buffer_1 +. buffer_2) ;;;
  wru buffer 1 ((buffer_0 -. buffer_2) *. twiddle) ;;;
  wru buffer 0 ((buffer_0 +. buffer_2) *. half +. buffer_1).

(** Lines 206-216. *)
Definition Butterfly3_inplace_dst3 (twiddle : T) (buffer : slice) : P unit :=
  v <- rdu buffer 2 ;;
  let buffer0_half := v *. half in
  buffer1 <- rdu buffer 1 ;; buffer2 <- rdu buffer 0 ;;
  let buffer2_half := buffer2 *. half in
  wru buffer 0 (buffer0_half +. buffer1 *. twiddle +. buffer2_half) ;;;
  wru buffer 1 (buffer2 -. buffer0_half) ;;;
  wru buffer 2 (buffer0_half +. buffer1 *. (-. twiddle) +. buffer2_half).

(** Line 218. *)
Definition Type2And3Butterfly3_obj (twiddle : T) : t23 T :=
  butterfly_obj 3 (Butterfly3_inplace_dct2 twiddle) (Butterfly3_inplace_dct3 twiddle)
    (Butterfly3_inplace_dst2 twiddle) (Butterfly3_inplace_dst3 twiddle).

(** ** Length 4: lines 220-294 *)

(** Lines 224-228. *)
Definition Butterfly4_new : T * T := c_conj (single_twiddle 1 16).

(** Lines 229-242. *)
Definition Butterfly4_inplace_dct2 (twiddle : T * T) (buffer : slice) : P unit :=
  a <- rdu buffer 0 ;; b <- rdu buffer 3 ;;
  let lower_dct4 := a -. b in
  a <- rdu buffer 2 ;; b <- rdu buffer 1 ;;
  let upper_dct4 := a -. b in
  a <- rdu buffer 0 ;; b <- rdu buffer 3 ;;
  wru buffer 0 (a +. b) ;;;
  a <- rdu buffer 2 ;; b <- rdu buffer 1 ;;
  wru buffer 2 (a +. b) ;;;
  Butterfly2_scattered_dct2 buffer 0 2 ;;;
  wru buffer 1 (lower_dct4 *. fst twiddle -. upper_dct4 *. snd twiddle) ;;;
  wru buffer 3 (upper_dct4 *. fst twiddle +. lower_dct4 *. snd twiddle).

(** Lines 243-260. *)
Definition Butterfly4_inplace_dct3 (twiddle : T * T) (buffer : slice) : P unit :=
  Butterfly2_scattered_dct3 buffer 0 2 ;;;
  a <- rdu buffer 1 ;; b <- rdu buffer 3 ;;
  let lower_dct4 := a *. fst twiddle +. b *. snd twiddle in
  a <- rdu buffer 1 ;; b <- rdu buffer 3 ;;
  let upper_dct4 := a *. snd twiddle -. b *. fst twiddle in
  a <- rdu buffer 2 ;; wru buffer 1 (a +. upper_dct4) ;;;
  a <- rdu buffer 0 ;; wru buffer 3 (a -. lower_dct4) ;;;
  a <- rdu buffer 0 ;; wru buffer 0 (a +. lower_dct4) ;;;
  a <- rdu buffer 2 ;; wru buffer 2 (a -. upper_dct4).

(** Lines 261-274. *)
Definition Butterfly4_inplace_dst2 (twiddle : T * T) (buffer : slice) : P unit :=
  a <- rdu buffer 0 ;; b <- rdu buffer 3 ;;
  let lower_dct4 := a +. b in
  a <- rdu buffer 2 ;; b <- rdu buffer 1 ;;
  let upper_dct4 := a +. b in
  a <- rdu buffer 0 ;; b <- rdu buffer 3 ;;
  wru buffer 3 (a -. b) ;;;
  a <- rdu buffer 2 ;; b <- rdu buffer 1 ;;
  wru buffer 1 (a -. b) ;;;
  Butterfly2_scattered_dct2 buffer 3 1 ;;;
  wru buffer 2 (lower_dct4 *. fst twiddle -. upper_dct4 *. snd twiddle) ;;;
  wru buffer 0 (upper_dct4 *. fst twiddle +. lower_dct4 *. snd twiddle).

(** Lines 275-292. *)
Definition Butterfly4_inplace_dst3 (twiddle : T * T) (buffer : slice) : P unit :=
  Butterfly2_scattered_dct3 buffer 3 1 ;;;
  a <- rdu buffer 2 ;; b <- rdu buffer 0 ;;
  let lower_dct4 := a *. fst twiddle +. b *. snd twiddle in
  a <- rdu buffer 2 ;; b <- rdu buffer 0 ;;
  let upper_dct4 := a *. snd twiddle -. b *. fst twiddle in
  a <- rdu buffer 3 ;; wru buffer 0 (a +. lower_dct4) ;;;
  a <- rdu buffer 1 ;; wru buffer 2 (a -. upper_dct4) ;;;
  a <- rdu buffer 1 ;; wru buffer 1 (-. (a +. upper_dct4)) ;;;
  a <- rdu buffer 3 ;; wru buffer 3 (lower_dct4 -. a).

(** Line 294. *)
Definition Type2And3Butterfly4_obj (twiddle : T * T) : t23 T :=
  butterfly_obj 4 (Butterfly4_inplace_dct2 twiddle) (Butterfly4_inplace_dct3 twiddle)
    (Butterfly4_inplace_dst2 twiddle) (Butterfly4_inplace_dst3 twiddle).

(** Reading element [i] of a local array.  The arrays have literal sizes and the
    indices are literals, so the access cannot fail; [d] is never used. *)
Notation "l '!' i" := (nth i l zero) (at level 9, i at level 9, format "l '!' i").
Notation "l '!c' i" := (nth i l (zero, zero)) (at level 9, i at level 9).

(** ** Length 8: lines 296-495 *)

(** Lines 296-300; [butterfly2] has no data. *)
Record bf8 := mkBf8 { b8_b4 : T * T; b8_tw : list (T * T) }.

(** Lines 302-311. *)
Definition Butterfly8_new : bf8 :=
  mkBf8 Butterfly4_new [c_conj (single_twiddle 1 32); c_conj (single_twiddle 3 32)].

(** [*buffer.get_unchecked(i) + *buffer.get_unchecked(j)] and the like. *)
Definition rd_add (buffer : slice) (i j : nat) : P T :=
  a <- rdu buffer i ;; b <- rdu buffer j ;; Ret (a +. b).
Definition rd_sub (buffer : slice) (i j : nat) : P T :=
  a <- rdu buffer i ;; b <- rdu buffer j ;; Ret (a -. b).
Definition rd_nsub (buffer : slice) (i j : nat) : P T :=
  a <- rdu buffer i ;; b <- rdu buffer j ;; Ret (-. a -. b).
Definition rd_nadd (buffer : slice) (i j : nat) : P T :=
  a <- rdu buffer i ;; b <- rdu buffer j ;; Ret (-. a +. b).

(** Lines 312-353. *)
Definition Butterfly8_inplace_dct2 (self : bf8) (buffer : slice) : P unit :=
  let tw := b8_tw self in
  e0 <- rd_add buffer 0 7 ;; e1 <- rd_add buffer 1 6 ;;
  e2 <- rd_add buffer 2 5 ;; e3 <- rd_add buffer 3 4 ;;
  dct2_buffer <- local_call zero [e0; e1; e2; e3] (Butterfly4_inplace_dct2 (b8_b4 self)) ;;
  d0 <- rd_sub buffer 0 7 ;; d1 <- rd_sub buffer 3 4 ;;
  d2 <- rd_sub buffer 1 6 ;; d3 <- rd_sub buffer 2 5 ;;
  let dct4_even_buffer := [
    d0 *. fst tw!c 0 +. d1 *. snd tw!c 0;
    d2 *. fst tw!c 1 +. d3 *. snd tw!c 1] in
  let dct4_odd_buffer := [
    d3 *. fst tw!c 1 -. d2 *. snd tw!c 1;
    d1 *. fst tw!c 0 -. d0 *. snd tw!c 0] in
  dct4_even_buffer <- local_call zero dct4_even_buffer Butterfly2_inplace_dct2 ;;
  dct4_odd_buffer <- local_call zero dct4_odd_buffer Butterfly2_inplace_dst2 ;;
  wru buffer 0 dct2_buffer!0 ;;;
  wru buffer 1 dct4_even_buffer!0 ;;;
  wru buffer 2 dct2_buffer!1 ;;;
  wru buffer 3 (dct4_even_buffer!1 -. dct4_odd_buffer!0) ;;;
  wru buffer 4 dct2_buffer!2 ;;;
  wru buffer 5 (dct4_even_buffer!1 +. dct4_odd_buffer!0) ;;;
  wru buffer 6 dct2_buffer!3 ;;;
  wru buffer 7 dct4_odd_buffer!1.

(** Lines 355-399. *)
Definition Butterfly8_inplace_dct3 (self : bf8) (buffer : slice) : P unit :=
  let tw := b8_tw self in
  e0 <- rdu buffer 0 ;; e1 <- rdu buffer 2 ;; e2 <- rdu buffer 4 ;; e3 <- rdu buffer 6 ;;
  dct3_buffer <- local_call zero [e0; e1; e2; e3] (Butterfly4_inplace_dct3 (b8_b4 self)) ;;
  v1 <- rdu buffer 1 ;; n1 <- rd_add buffer 3 5 ;;
  let recursive_buffer_n1 := [v1 *. two; n1] in
  n3 <- rd_sub buffer 3 5 ;; v7 <- rdu buffer 7 ;;
  let recursive_buffer_n3 := [n3; v7 *. two] in
  recursive_buffer_n1 <- local_call zero recursive_buffer_n1 Butterfly2_inplace_dct3 ;;
  recursive_buffer_n3 <- local_call zero recursive_buffer_n3 Butterfly2_inplace_dst3 ;;
  for_range 0 2 (fun i =>
    let twiddle := tw!c i in
    let lower_dct4 := recursive_buffer_n1!i *. fst twiddle +. recursive_buffer_n3!i *. snd twiddle in
    let upper_dct4 := recursive_buffer_n1!i *. snd twiddle -. recursive_buffer_n3!i *. fst twiddle in
    let lower_dct3 := dct3_buffer!i in
    let upper_dct3 := dct3_buffer!(3 - i) in
    wru buffer i (lower_dct3 +. lower_dct4) ;;;
    wru buffer (7 - i) (lower_dct3 -. lower_dct4) ;;;
    wru buffer (3 - i) (upper_dct3 +. upper_dct4) ;;;
    wru buffer (4 + i) (upper_dct3 -. upper_dct4)).

(** Lines 401-442. *)
Definition Butterfly8_inplace_dst2 (self : bf8) (buffer : slice) : P unit :=
  let tw := b8_tw self in
  e0 <- rd_sub buffer 0 7 ;; e1 <- rd_sub buffer 6 1 ;;
  e2 <- rd_sub buffer 2 5 ;; e3 <- rd_sub buffer 4 3 ;;
  dct2_buffer <- local_call zero [e0; e1; e2; e3] (Butterfly4_inplace_dct2 (b8_b4 self)) ;;
  d0 <- rd_add buffer 0 7 ;; d1 <- rd_nsub buffer 3 4 ;;
  d2 <- rd_nsub buffer 1 6 ;; d3 <- rd_add buffer 2 5 ;;
  let dct4_even_buffer := [
    d0 *. fst tw!c 0 +. d1 *. snd tw!c 0;
    d2 *. fst tw!c 1 +. d3 *. snd tw!c 1] in
  let dct4_odd_buffer := [
    d3 *. fst tw!c 1 -. d2 *. snd tw!c 1;
    d1 *. fst tw!c 0 -. d0 *. snd tw!c 0] in
  dct4_even_buffer <- local_call zero dct4_even_buffer Butterfly2_inplace_dct2 ;;
  dct4_odd_buffer <- local_call zero dct4_odd_buffer Butterfly2_inplace_dst2 ;;
  wru buffer 7 dct2_buffer!0 ;;;
  wru buffer 6 dct4_even_buffer!0 ;;;
  wru buffer 5 dct2_buffer!1 ;;;
  wru buffer 4 (dct4_even_buffer!1 -. dct4_odd_buffer!0) ;;;
  wru buffer 3 dct2_buffer!2 ;;;
  wru buffer 2 (dct4_even_buffer!1 +. dct4_odd_buffer!0) ;;;
  wru buffer 1 dct2_buffer!3 ;;;
  wru buffer 0 dct4_odd_buffer!1.

(** Lines 444-493. *)
Definition Butterfly8_inplace_dst3 (self : bf8) (buffer : slice) : P unit :=
  let tw := b8_tw self in
  e0 <- rdu buffer 7 ;; e1 <- rdu buffer 5 ;; e2 <- rdu buffer 3 ;; e3 <- rdu buffer 1 ;;
  dct3_buffer <- local_call zero [e0; e1; e2; e3] (Butterfly4_inplace_dct3 (b8_b4 self)) ;;
  v6 <- rdu buffer 6 ;; n1 <- rd_add buffer 4 2 ;;
  let recursive_buffer_n1 := [v6 *. two; n1] in
  n3 <- rd_sub buffer 4 2 ;; v0 <- rdu buffer 0 ;;
  let recursive_buffer_n3 := [n3; v0 *. two] in
  r1 <- local_call zero recursive_buffer_n1 Butterfly2_inplace_dct3 ;;
  r3 <- local_call zero recursive_buffer_n3 Butterfly2_inplace_dst3 ;;
  let merged_odds := [
    r1!0 *. fst tw!c 0 +. r3!0 *. snd tw!c 0;
    r1!0 *. snd tw!c 0 -. r3!0 *. fst tw!c 0;
    r1!1 *. fst tw!c 1 +. r3!1 *. snd tw!c 1;
    r1!1 *. snd tw!c 1 -. r3!1 *. fst tw!c 1] in
  wru buffer 0 (dct3_buffer!0 +. merged_odds!0) ;;;
  wru buffer 7 (merged_odds!0 -. dct3_buffer!0) ;;;
  wru buffer 3 (-. (dct3_buffer!3 +. merged_odds!1)) ;;;
  wru buffer 4 (dct3_buffer!3 -. merged_odds!1) ;;;
  wru buffer 1 (-. (dct3_buffer!1 +. merged_odds!2)) ;;;
  wru buffer 6 (dct3_buffer!1 -. merged_odds!2) ;;;
  wru buffer 2 (dct3_buffer!2 +. merged_odds!3) ;;;
  wru buffer 5 (merged_odds!3 -. dct3_buffer!2).

(** Line 495. *)
Definition Type2And3Butterfly8_obj (self : bf8) : t23 T :=
  butterfly_obj 8 (Butterfly8_inplace_dct2 self) (Butterfly8_inplace_dct3 self)
    (Butterfly8_inplace_dst2 self) (Butterfly8_inplace_dst3 self).

(** ** Length 16: lines 497-769 *)

(** Lines 497-501. *)
Record bf16 := mkBf16 { b16_b8 : bf8; b16_b4 : T * T; b16_tw : list (T * T) }.

(** Lines 503-514. *)
Definition Butterfly16_new : bf16 :=
  mkBf16 Butterfly8_new Butterfly4_new
    [c_conj (single_twiddle 1 64); c_conj (single_twiddle 3 64);
     c_conj (single_twiddle 5 64); c_conj (single_twiddle 7 64)].

(** Lines 515-576. *)
Definition Butterfly16_inplace_dct2 (self : bf16) (buffer : slice) : P unit :=
  let tw := b16_tw self in
  e0 <- rd_add buffer 0 15 ;; e1 <- rd_add buffer 1 14 ;;
  e2 <- rd_add buffer 2 13 ;; e3 <- rd_add buffer 3 12 ;;
  e4 <- rd_add buffer 4 11 ;; e5 <- rd_add buffer 5 10 ;;
  e6 <- rd_add buffer 6 9 ;; e7 <- rd_add buffer 7 8 ;;
  dct2_buffer <- local_call zero [e0; e1; e2; e3; e4; e5; e6; e7]
                   (Butterfly8_inplace_dct2 (b16_b8 self)) ;;
  d0 <- rd_sub buffer 0 15 ;; d1 <- rd_sub buffer 7 8 ;;
  d2 <- rd_sub buffer 1 14 ;; d3 <- rd_sub buffer 6 9 ;;
  d4 <- rd_sub buffer 2 13 ;; d5 <- rd_sub buffer 5 10 ;;
  d6 <- rd_sub buffer 3 12 ;; d7 <- rd_sub buffer 4 11 ;;
  let dct4_even_buffer := [
    d0 *. fst tw!c 0 +. d1 *. snd tw!c 0;
    d2 *. fst tw!c 1 +. d3 *. snd tw!c 1;
    d4 *. fst tw!c 2 +. d5 *. snd tw!c 2;
    d6 *. fst tw!c 3 +. d7 *. snd tw!c 3] in
  let dct4_odd_buffer := [
    d7 *. fst tw!c 3 -. d6 *. snd tw!c 3;
    d5 *. fst tw!c 2 -. d4 *. snd tw!c 2;
    d3 *. fst tw!c 1 -. d2 *. snd tw!c 1;
    d1 *. fst tw!c 0 -. d0 *. snd tw!c 0] in
  dct4_even_buffer <- local_call zero dct4_even_buffer (Butterfly4_inplace_dct2 (b16_b4 self)) ;;
  dct4_odd_buffer <- local_call zero dct4_odd_buffer (Butterfly4_inplace_dst2 (b16_b4 self)) ;;
  wru buffer 0 dct2_buffer!0 ;;;
  wru buffer 1 dct4_even_buffer!0 ;;;
  wru buffer 2 dct2_buffer!1 ;;;
  wru buffer 3 (dct4_even_buffer!1 -. dct4_odd_buffer!0) ;;;
  wru buffer 4 dct2_buffer!2 ;;;
  wru buffer 5 (dct4_even_buffer!1 +. dct4_odd_buffer!0) ;;;
  wru buffer 6 dct2_buffer!3 ;;;
  wru buffer 7 (dct4_even_buffer!2 +. dct4_odd_buffer!1) ;;;
  wru buffer 8 dct2_buffer!4 ;;;
  wru buffer 9 (dct4_even_buffer!2 -. dct4_odd_buffer!1) ;;;
  wru buffer 10 dct2_buffer!5 ;;;
  wru buffer 11 (dct4_even_buffer!3 -. dct4_odd_buffer!2) ;;;
  wru buffer 12 dct2_buffer!6 ;;;
  wru buffer 13 (dct4_even_buffer!3 +. dct4_odd_buffer!2) ;;;
  wru buffer 14 dct2_buffer!7 ;;;
  wru buffer 15 dct4_odd_buffer!3.

(** Lines 577-638. *)
Definition Butterfly16_inplace_dst2 (self : bf16) (buffer : slice) : P unit :=
  let tw := b16_tw self in
  e0 <- rd_sub buffer 0 15 ;; e1 <- rd_nadd buffer 1 14 ;;
  e2 <- rd_sub buffer 2 13 ;; e3 <- rd_nadd buffer 3 12 ;;
  e4 <- rd_sub buffer 4 11 ;; e5 <- rd_nadd buffer 5 10 ;;
  e6 <- rd_sub buffer 6 9 ;; e7 <- rd_nadd buffer 7 8 ;;
  dct2_buffer <- local_call zero [e0; e1; e2; e3; e4; e5; e6; e7]
                   (Butterfly8_inplace_dct2 (b16_b8 self)) ;;
  d0 <- rd_add buffer 0 15 ;; d1 <- rd_nsub buffer 7 8 ;;
  d2 <- rd_nsub buffer 1 14 ;; d3 <- rd_add buffer 6 9 ;;
  d4 <- rd_add buffer 2 13 ;; d5 <- rd_nsub buffer 5 10 ;;
  d6 <- rd_nsub buffer 3 12 ;; d7 <- rd_add buffer 4 11 ;;
  let dct4_even_buffer := [
    d0 *. fst tw!c 0 +. d1 *. snd tw!c 0;
    d2 *. fst tw!c 1 +. d3 *. snd tw!c 1;
    d4 *. fst tw!c 2 +. d5 *. snd tw!c 2;
    d6 *. fst tw!c 3 +. d7 *. snd tw!c 3] in
  let dct4_odd_buffer := [
    d7 *. fst tw!c 3 -. d6 *. snd tw!c 3;
    d5 *. fst tw!c 2 -. d4 *. snd tw!c 2;
    d3 *. fst tw!c 1 -. d2 *. snd tw!c 1;
    d1 *. fst tw!c 0 -. d0 *. snd tw!c 0] in
  dct4_even_buffer <- local_call zero dct4_even_buffer (Butterfly4_inplace_dct2 (b16_b4 self)) ;;
  dct4_odd_buffer <- local_call zero dct4_odd_buffer (Butterfly4_inplace_dst2 (b16_b4 self)) ;;
  wru buffer 15 dct2_buffer!0 ;;;
  wru buffer 14 dct4_even_buffer!0 ;;;
  wru buffer 13 dct2_buffer!1 ;;;
  wru buffer 12 (dct4_even_buffer!1 -. dct4_odd_buffer!0) ;;;
  wru buffer 11 dct2_buffer!2 ;;;
  wru buffer 10 (dct4_even_buffer!1 +. dct4_odd_buffer!0) ;;;
  wru buffer 9 dct2_buffer!3 ;;;
  wru buffer 8 (dct4_even_buffer!2 +. dct4_odd_buffer!1) ;;;
  wru buffer 7 dct2_buffer!4 ;;;
  wru buffer 6 (dct4_even_buffer!2 -. dct4_odd_buffer!1) ;;;
  wru buffer 5 dct2_buffer!5 ;;;
  wru buffer 4 (dct4_even_buffer!3 -. dct4_odd_buffer!2) ;;;
  wru buffer 3 dct2_buffer!6 ;;;
  wru buffer 2 (dct4_even_buffer!3 +. dct4_odd_buffer!2) ;;;
  wru buffer 1 dct2_buffer!7 ;;;
  wru buffer 0 dct4_odd_buffer!3.

(** Lines 639-689. *)
Definition Butterfly16_inplace_dct3 (self : bf16) (buffer : slice) : P unit :=
  let tw := b16_tw self in
  e0 <- rdu buffer 0 ;; e1 <- rdu buffer 2 ;; e2 <- rdu buffer 4 ;; e3 <- rdu buffer 6 ;;
  e4 <- rdu buffer 8 ;; e5 <- rdu buffer 10 ;; e6 <- rdu buffer 12 ;; e7 <- rdu buffer 14 ;;
  dct3_buffer <- local_call zero [e0; e1; e2; e3; e4; e5; e6; e7]
                   (Butterfly8_inplace_dct3 (b16_b8 self)) ;;
  v1 <- rdu buffer 1 ;; n11 <- rd_add buffer 3 5 ;;
  n12 <- rd_add buffer 7 9 ;; n13 <- rd_add buffer 11 13 ;;
  let recursive_buffer_n1 := [v1 *. two; n11; n12; n13] in
  n30 <- rd_sub buffer 3 5 ;; n31 <- rd_sub buffer 7 9 ;;
  n32 <- rd_sub buffer 11 13 ;; v15 <- rdu buffer 15 ;;
  let recursive_buffer_n3 := [n30; n31; n32; v15 *. two] in
  recursive_buffer_n1 <-
    local_call zero recursive_buffer_n1 (Butterfly4_inplace_dct3 (b16_b4 self)) ;;
  recursive_buffer_n3 <-
    local_call zero recursive_buffer_n3 (Butterfly4_inplace_dst3 (b16_b4 self)) ;;
  for_range 0 4 (fun i =>
    let lower_dct4 := recursive_buffer_n1!i *. fst tw!c i +. recursive_buffer_n3!i *. snd tw!c i in
    let upper_dct4 := recursive_buffer_n1!i *. snd tw!c i -. recursive_buffer_n3!i *. fst tw!c i in
    let lower_dct3 := dct3_buffer!i in
    let upper_dct3 := dct3_buffer!(7 - i) in
    wru buffer i (lower_dct3 +. lower_dct4) ;;;
    wru buffer (15 - i) (lower_dct3 -. lower_dct4) ;;;
    wru buffer (7 - i) (upper_dct3 +. upper_dct4) ;;;
    wru buffer (8 + i) (upper_dct3 -. upper_dct4)).

(** Lines 690-767. *)
Definition Butterfly16_inplace_dst3 (self : bf16) (buffer : slice) : P unit :=
  let tw := b16_tw self in
  e0 <- rdu buffer 15 ;; e1 <- rdu buffer 13 ;; e2 <- rdu buffer 11 ;; e3 <- rdu buffer 9 ;;
  e4 <- rdu buffer 7 ;; e5 <- rdu buffer 5 ;; e6 <- rdu buffer 3 ;; e7 <- rdu buffer 1 ;;
  dct3_buffer <- local_call zero [e0; e1; e2; e3; e4; e5; e6; e7]
                   (Butterfly8_inplace_dct3 (b16_b8 self)) ;;
  v14 <- rdu buffer 14 ;; n11 <- rd_add buffer 12 10 ;;
  n12 <- rd_add buffer 8 6 ;; n13 <- rd_add buffer 4 2 ;;
  let recursive_buffer_n1 := [v14 *. two; n11; n12; n13] in
  n30 <- rd_sub buffer 12 10 ;; n31 <- rd_sub buffer 8 6 ;;
  n32 <- rd_sub buffer 4 2 ;; v0 <- rdu buffer 0 ;;
  let recursive_buffer_n3 := [n30; n31; n32; v0 *. two] in
  r1 <- local_call zero recursive_buffer_n1 (Butterfly4_inplace_dct3 (b16_b4 self)) ;;
  r3 <- local_call zero recursive_buffer_n3 (Butterfly4_inplace_dst3 (b16_b4 self)) ;;
  let merged_odds := [
    r1!0 *. fst tw!c 0 +. r3!0 *. snd tw!c 0;
    r1!0 *. snd tw!c 0 -. r3!0 *. fst tw!c 0;
    r1!1 *. fst tw!c 1 +. r3!1 *. snd tw!c 1;
    r1!1 *. snd tw!c 1 -. r3!1 *. fst tw!c 1;
    r1!2 *. fst tw!c 2 +. r3!2 *. snd tw!c 2;
    r1!2 *. snd tw!c 2 -. r3!2 *. fst tw!c 2;
    r1!3 *. fst tw!c 3 +. r3!3 *. snd tw!c 3;
    r1!3 *. snd tw!c 3 -. r3!3 *. fst tw!c 3] in
  wru buffer 0 (dct3_buffer!0 +. merged_odds!0) ;;;
  wru buffer 15 (merged_odds!0 -. dct3_buffer!0) ;;;
  wru buffer 7 (-. (dct3_buffer!7 +. merged_odds!1)) ;;;
  wru buffer 8 (dct3_buffer!7 -. merged_odds!1) ;;;
  wru buffer 1 (-. (dct3_buffer!1 +. merged_odds!2)) ;;;
  wru buffer 14 (dct3_buffer!1 -. merged_odds!2) ;;;
  wru buffer 6 (dct3_buffer!6 +. merged_odds!3) ;;;
  wru buffer 9 (merged_odds!3 -. dct3_buffer!6) ;;;
  wru buffer 2 (dct3_buffer!2 +. merged_odds!4) ;;;
  wru buffer 13 (merged_odds!4 -. dct3_buffer!2) ;;;
  wru buffer 5 (-. (dct3_buffer!5 +. merged_odds!5)) ;;;
  wru buffer 10 (dct3_buffer!5 -. merged_odds!5) ;;;
  wru buffer 3 (-. (dct3_buffer!3 +. merged_odds!6)) ;;;
  wru buffer 12 (dct3_buffer!3 -. merged_odds!6) ;;;
  wru buffer 4 (dct3_buffer!4 +. merged_odds!7) ;;;
  wru buffer 11 (merged_odds!7 -. dct3_buffer!4).

(** Line 769. *)
Definition Type2And3Butterfly16_obj (self : bf16) : t23 T :=
  butterfly_obj 16 (Butterfly16_inplace_dct2 self) (Butterfly16_inplace_dct3 self)
    (Butterfly16_inplace_dst2 self) (Butterfly16_inplace_dst3 self).

End Butterflies.

Arguments bf8 : clear implicits.
Arguments bf16 : clear implicits.
