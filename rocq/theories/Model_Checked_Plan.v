(** src/plan.rs once more, with the [usize] arithmetic of Model_Checked.v for the build [B] and
    the greatest value [MAX].  The butterflies ([plan_dct2_butterfly]) compute with constants
    only and serve both models, and so does [MdctViaDct4] except for its constructor.
    [X_len] and [X_scratch] of an object are evaluated when it is constructed.
    Everything else is copied; the comments cite the same lines. *)
From Coq Require Import List Arith Bool.
From Verif Require Import Prog Num Model_Common Model_Naive Model_Fft Model_Butterflies
  Model_SplitRadix Model_Mdct Model_Plan Model_Checked Model_Checked_Naive Model_Checked_Fft
  Model_Checked_SplitRadix Model_Checked_Mdct.
Import ListNotations.

Section CheckedPlan.
Context {T F : Type} {N : Num T F}.
Variable B : build.
Variable MAX : nat.
Notation "x + y" := (ulift (uadd B MAX) x y) (in custom usize at level 50, left associativity).
Notation "x - y" := (ulift (usub_ck B MAX) x y) (in custom usize at level 50, left associativity).
Notation "x * y" := (ulift (umul B MAX) x y) (in custom usize at level 40, left associativity).
Notation "x <-! p ;; q" := (pbind p (fun x => q))
  (at level 61, p at next level, right associativity).

Notation PM := (@PM T).

(** An expression of a planner method that may panic. *)
Definition plift {A} (r : result A) : PM A := fun p => (p, r).

(** plan.rs:89-97. *)
Definition plan_new_dct1_ck (len : nat) : PM (arc (xform T)) :=
  if len <? 10 then arc_new (rbind (Dct1Naive_new_ck B MAX len) (Dct1Naive_obj_ck B MAX))
  else
    d <-! plift r<{ (len - 1) * 2 }> ;;
    fft <-! plan_fft_forward d ;;
    arc_new (rmap Dct1ConvertToFft_obj (Dct1ConvertToFft_new_ck B MAX fft)).
(** plan.rs:79-87. *)
Definition plan_dct1_ck (len : nat) : PM (arc (xform T)) :=
  cached dct1_cache set_dct1 len (plan_new_dct1_ck len).

(** plan.rs:111-123.  [rec] is [self.plan_dct2]. *)
Definition plan_new_dct2_ck (rec : nat -> PM (arc (t23 T))) (len : nat) : PM (arc (t23 T)) :=
  if existsb (Nat.eqb len) DCT2_BUTTERFLIES then plan_dct2_butterfly len
  else if is_power_of_two len && (2 <? len) then
    half_dct <-! rec (len / 2) ;;
    quarter_dct <-! rec (len / 4) ;;
    arc_new (rbind (Type2And3SplitRadix_new_ck B MAX (arc_val half_dct) (arc_val quarter_dct))
                   (Type2And3SplitRadix_obj_ck B MAX))
  else
    fft <-! plan_fft_forward len ;;
    arc_new (rmap (Type2And3ConvertToFft_obj_ck B MAX) (Type2And3ConvertToFft_new_ck B MAX fft)).

(** plan.rs:101-109, with recursion depth bounded by [fuel]. *)
Fixpoint plan_dct2_fuel_ck (fuel : nat) (len : nat) : PM (arc (t23 T)) :=
  match fuel with
  | 0 => fun p => (p, Err EFuel)
  | S f => cached dct23_cache set_dct23 len (plan_new_dct2_ck (plan_dct2_fuel_ck f) len)
  end.
Definition plan_dct2_ck (len : nat) : PM (arc (t23 T)) := plan_dct2_fuel_ck (S len) len.
(** plan.rs:138-140, 254-256, 260-262. *)
Definition plan_dct3_ck (len : nat) : PM (arc (t23 T)) := plan_dct2_ck len.
Definition plan_dst2_ck (len : nat) : PM (arc (t23 T)) := plan_dct2_ck len.
Definition plan_dst3_ck (len : nat) : PM (arc (t23 T)) := plan_dct2_ck len.

(** plan.rs:154-174. *)
Definition plan_new_dct4_ck (len : nat) : PM (arc (t4 T)) :=
  if len mod 2 =? 0 then
    if len <? 6 then arc_new (rbind (Type4Naive_new_ck B MAX len) (Type4Naive_obj_ck B MAX))
    else
      inner_dct <-! plan_dct3_ck (len / 2) ;;
      arc_new (rbind (Type4ConvertToType3Even_new_ck B MAX (arc_val inner_dct))
                     (Type4ConvertToType3Even_obj_ck B MAX))
  else
    if len <? 7 then arc_new (rbind (Type4Naive_new_ck B MAX len) (Type4Naive_obj_ck B MAX))
    else
      fft <-! plan_fft_forward len ;;
      arc_new (rmap (Type4ConvertToFftOdd_obj_ck B MAX) (Type4ConvertToFftOdd_new_ck B MAX fft)).
(** plan.rs:144-152, 266-268. *)
Definition plan_dct4_ck (len : nat) : PM (arc (t4 T)) :=
  cached dct4_cache set_dct4 len (plan_new_dct4_ck len).
Definition plan_dst4_ck (len : nat) : PM (arc (t4 T)) := plan_dct4_ck len.

(** plan.rs:178-190. *)
Definition plan_dct5_ck (len : nat) : PM (arc (xform T)) :=
  cached dct5_cache set_dct5 len (arc_new (rbind (Dct5Naive_new_ck B MAX len) (Dct5Naive_obj_ck B MAX))).

(** plan.rs:194-212. *)
Definition plan_dct6_ck (len : nat) : PM (arc (c67 T)) :=
  cached dct6_cache set_dct6 len (arc_new (rbind (Dct6And7Naive_new_ck B MAX len) (Dct6And7Naive_obj_ck B MAX))).
Definition plan_dct7_ck (len : nat) : PM (arc (c67 T)) := plan_dct6_ck len.

(** plan.rs:216-228. *)
Definition plan_dct8_ck (len : nat) : PM (arc (xform T)) :=
  cached dct8_cache set_dct8 len (arc_new (rbind (Dct8Naive_new_ck B MAX len) (Dct8Naive_obj_ck B MAX))).

(** plan.rs:242-250. *)
Definition plan_new_dst1_ck (len : nat) : PM (arc (xform T)) :=
  if len <? 25 then arc_new (rbind (Dst1Naive_new_ck B MAX len) (Dst1Naive_obj_ck B MAX))
  else
    d <-! plift r<{ (len + 1) * 2 }> ;;
    fft <-! plan_fft_forward d ;;
    arc_new (rmap Dst1ConvertToFft_obj (Dst1ConvertToFft_new_ck B MAX fft)).
(** plan.rs:232-240. *)
Definition plan_dst1_ck (len : nat) : PM (arc (xform T)) :=
  cached dst1_cache set_dst1 len (plan_new_dst1_ck len).

(** plan.rs:272-284. *)
Definition plan_dst5_ck (len : nat) : PM (arc (xform T)) :=
  cached dst5_cache set_dst5 len (arc_new (rbind (Dst5Naive_new_ck B MAX len) (Dst5Naive_obj_ck B MAX))).

(** plan.rs:298-305. *)
Definition plan_new_dst6_ck (len : nat) : PM (arc (s67 T)) :=
  if len <? 45 then arc_new (rbind (Dst6And7Naive_new_ck B MAX len) (Dst6And7Naive_obj_ck B MAX))
  else
    d <-! plift r<{ len * 2 + 1 }> ;;
    fft <-! plan_fft_forward d ;;
    arc_new (rmap (Dst6And7ConvertToFft_obj_ck B MAX) (Dst6And7ConvertToFft_new_ck B MAX fft)).
(** plan.rs:288-296, 309-311. *)
Definition plan_dst6_ck (len : nat) : PM (arc (s67 T)) :=
  cached dst6_cache set_dst6 len (plan_new_dst6_ck len).
Definition plan_dst7_ck (len : nat) : PM (arc (s67 T)) := plan_dst6_ck len.

(** plan.rs:315-327. *)
Definition plan_dst8_ck (len : nat) : PM (arc (xform T)) :=
  cached dst8_cache set_dst8 len (arc_new (rbind (Dst8Naive_new_ck B MAX len) (Dst8Naive_obj_ck B MAX))).

(** plan.rs:348-355. *)
Definition plan_new_mdct_ck (len : nat) (window_fn : nat -> list T) : PM (arc (mdct T)) :=
  inner_dct4 <-! plan_dct4_ck len ;;
  arc_new (rmap MdctViaDct4_obj (MdctViaDct4_new_ck B MAX (arc_val inner_dct4) window_fn)).
(** plan.rs:335-346. *)
Definition plan_mdct_ck (len : nat) (window_fn : nat -> list T) : PM (arc (mdct T)) :=
  cached mdct_cache set_mdct len (plan_new_mdct_ck len window_fn).

(** Any public planner call. *)
Definition exec_ck (c : pcall T) (p : planner T) : planner T :=
  match c with
  | CDct1 n => fst (plan_dct1_ck n p) | CDct2 n => fst (plan_dct2_ck n p)
  | CDct3 n => fst (plan_dct3_ck n p) | CDct4 n => fst (plan_dct4_ck n p)
  | CDct5 n => fst (plan_dct5_ck n p) | CDct6 n => fst (plan_dct6_ck n p)
  | CDct7 n => fst (plan_dct7_ck n p) | CDct8 n => fst (plan_dct8_ck n p)
  | CDst1 n => fst (plan_dst1_ck n p) | CDst2 n => fst (plan_dst2_ck n p)
  | CDst3 n => fst (plan_dst3_ck n p) | CDst4 n => fst (plan_dst4_ck n p)
  | CDst5 n => fst (plan_dst5_ck n p) | CDst6 n => fst (plan_dst6_ck n p)
  | CDst7 n => fst (plan_dst7_ck n p) | CDst8 n => fst (plan_dst8_ck n p)
  | CMdct n w => fst (plan_mdct_ck n w p)
  end.

(** The planner after a sequence of calls on a new one; calls that panicked are
    caught by the caller and the planner used again. *)
Definition after_ck (fft_planner : nat -> fft T) (cs : list (pcall T)) : planner T :=
  fold_left (fun p c => exec_ck c p) cs (planner_new fft_planner).

End CheckedPlan.
