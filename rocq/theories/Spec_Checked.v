(** Terms in which the properties about builds and word sizes are stated.  A debug build panics
    when [usize] arithmetic overflows, a release build wraps around; [MAX] is the greatest
    [usize] of the target. *)
From Coq Require Import List Arith Reals.
From Verif Require Import Prog Num Model_Common Model_Plan Model_Checked Model_Checked_Plan Spec Spec_Plan Spec_Methods.
Import ListNotations.
Open Scope nat_scope.

Section SpecChecked.
Context {T F : Type} {N : Num T F}.
Variable B : build.
Variable MAX : nat.

(** What a planner call returns in the build, as in Spec_Plan.v and Spec_Methods.v. *)
Definition returned_arc_ck (c : pcall T) (p : planner T) : option nat :=
  match c with
  | CDct1 n => id_of (snd (plan_dct1_ck B MAX n p)) | CDct2 n => id_of (snd (plan_dct2_ck B MAX n p))
  | CDct3 n => id_of (snd (plan_dct3_ck B MAX n p)) | CDct4 n => id_of (snd (plan_dct4_ck B MAX n p))
  | CDct5 n => id_of (snd (plan_dct5_ck B MAX n p)) | CDct6 n => id_of (snd (plan_dct6_ck B MAX n p))
  | CDct7 n => id_of (snd (plan_dct7_ck B MAX n p)) | CDct8 n => id_of (snd (plan_dct8_ck B MAX n p))
  | CDst1 n => id_of (snd (plan_dst1_ck B MAX n p)) | CDst2 n => id_of (snd (plan_dst2_ck B MAX n p))
  | CDst3 n => id_of (snd (plan_dst3_ck B MAX n p)) | CDst4 n => id_of (snd (plan_dst4_ck B MAX n p))
  | CDst5 n => id_of (snd (plan_dst5_ck B MAX n p)) | CDst6 n => id_of (snd (plan_dst6_ck B MAX n p))
  | CDst7 n => id_of (snd (plan_dst7_ck B MAX n p)) | CDst8 n => id_of (snd (plan_dst8_ck B MAX n p))
  | CMdct n w => id_of (snd (plan_mdct_ck B MAX n w p))
  end.
Definition returned_instance_ck (c : pcall T) (p : planner T) : result (instance (T := T)) :=
  match c with
  | CDct1 n => value_of IX (snd (plan_dct1_ck B MAX n p)) | CDct2 n => value_of I23 (snd (plan_dct2_ck B MAX n p))
  | CDct3 n => value_of I23 (snd (plan_dct3_ck B MAX n p)) | CDct4 n => value_of I4 (snd (plan_dct4_ck B MAX n p))
  | CDct5 n => value_of IX (snd (plan_dct5_ck B MAX n p)) | CDct6 n => value_of IC67 (snd (plan_dct6_ck B MAX n p))
  | CDct7 n => value_of IC67 (snd (plan_dct7_ck B MAX n p)) | CDct8 n => value_of IX (snd (plan_dct8_ck B MAX n p))
  | CDst1 n => value_of IX (snd (plan_dst1_ck B MAX n p)) | CDst2 n => value_of I23 (snd (plan_dst2_ck B MAX n p))
  | CDst3 n => value_of I23 (snd (plan_dst3_ck B MAX n p)) | CDst4 n => value_of I4 (snd (plan_dst4_ck B MAX n p))
  | CDst5 n => value_of IX (snd (plan_dst5_ck B MAX n p)) | CDst6 n => value_of IS67 (snd (plan_dst6_ck B MAX n p))
  | CDst7 n => value_of IS67 (snd (plan_dst7_ck B MAX n p)) | CDst8 n => value_of IX (snd (plan_dst8_ck B MAX n p))
  | CMdct n w => value_of IM (snd (plan_mdct_ck B MAX n w p))
  end.
Definition planned_method_ck (c : pcall T) (p : planner T) : option (meth T * nat) :=
  match c with
  | CDct1 n => use x_run x_scratch (snd (plan_dct1_ck B MAX n p)) | CDct2 n => use t_dct2 t23_scratch (snd (plan_dct2_ck B MAX n p))
  | CDct3 n => use t_dct3 t23_scratch (snd (plan_dct3_ck B MAX n p)) | CDct4 n => use t_dct4 t4_scratch (snd (plan_dct4_ck B MAX n p))
  | CDct5 n => use x_run x_scratch (snd (plan_dct5_ck B MAX n p)) | CDct6 n => use t_dct6 c67_scratch (snd (plan_dct6_ck B MAX n p))
  | CDct7 n => use t_dct7 c67_scratch (snd (plan_dct7_ck B MAX n p)) | CDct8 n => use x_run x_scratch (snd (plan_dct8_ck B MAX n p))
  | CDst1 n => use x_run x_scratch (snd (plan_dst1_ck B MAX n p)) | CDst2 n => use t_dst2 t23_scratch (snd (plan_dst2_ck B MAX n p))
  | CDst3 n => use t_dst3 t23_scratch (snd (plan_dst3_ck B MAX n p)) | CDst4 n => use t_dst4 t4_scratch (snd (plan_dst4_ck B MAX n p))
  | CDst5 n => use x_run x_scratch (snd (plan_dst5_ck B MAX n p)) | CDst6 n => use t_dst6 s67_scratch (snd (plan_dst6_ck B MAX n p))
  | CDst7 n => use t_dst7 s67_scratch (snd (plan_dst7_ck B MAX n p)) | CDst8 n => use x_run x_scratch (snd (plan_dst8_ck B MAX n p))
  | CMdct _ _ => None
  end.

(** The length is small enough for the word size: eight times the length, and the scratch of the
    FFTs involved as a number of [T], can be represented. *)
Definition fits (pf : nat -> fft T) (n : nat) : Prop :=
  8 * n + 12 <= MAX /\
  forall m, m <= 2 * n + 2 -> 2 * (m + fft_scratch (pf m)) + 2 * n + 1 <= MAX.
(** In a release build requests for length 0 are left out: there subtractions below zero wrap
    around instead of panicking. *)
Definition admissible (pf : nat -> fft T) (c : pcall T) : Prop :=
  fits pf (size c) /\ (B = Debug \/ 0 < size c).

(** [f'], a method in the build, does what [f] does in the model without word size, on any
    slices and any memory; only if [f] panics with a subtraction below zero is a release build
    left out. *)
Definition same_method (f' f : meth T) : Prop := forall m b s,
  (B = Debug \/ forall m', run (f b s) m <> Panicked EOverflow m') -> run (f' b s) m = run (f b s) m.
Definition same_method4 (f' f : slice -> slice -> slice -> slice -> prog T unit) : Prop := forall m a b c s,
  (B = Debug \/ forall m', run (f a b c s) m <> Panicked EOverflow m') -> run (f' a b c s) m = run (f a b c s) m.
(** Same length, same scratch length, same methods. *)
Definition same_instance (i' i : instance (T := T)) : Prop :=
  match i', i with
  | IX o', IX o => x_len o' = x_len o /\ x_scratch o' = x_scratch o /\ same_method (x_run o') (x_run o)
  | I23 o', I23 o => t23_len o' = t23_len o /\ t23_scratch o' = t23_scratch o /\
      same_method (t_dct2 o') (t_dct2 o) /\ same_method (t_dct3 o') (t_dct3 o) /\
      same_method (t_dst2 o') (t_dst2 o) /\ same_method (t_dst3 o') (t_dst3 o)
  | I4 o', I4 o => t4_len o' = t4_len o /\ t4_scratch o' = t4_scratch o /\
      same_method (t_dct4 o') (t_dct4 o) /\ same_method (t_dst4 o') (t_dst4 o)
  | IC67 o', IC67 o => c67_len o' = c67_len o /\ c67_scratch o' = c67_scratch o /\
      same_method (t_dct6 o') (t_dct6 o) /\ same_method (t_dct7 o') (t_dct7 o)
  | IS67 o', IS67 o => s67_len o' = s67_len o /\ s67_scratch o' = s67_scratch o /\
      same_method (t_dst6 o') (t_dst6 o) /\ same_method (t_dst7 o') (t_dst7 o)
  | IM o', IM o => m_len o' = m_len o /\ m_scratch o' = m_scratch o /\
      same_method4 (t_mdct o') (t_mdct o) /\ same_method4 (t_imdct o') (t_imdct o)
  | _, _ => False
  end.
Definition same_result (r' r : result (instance (T := T))) : Prop :=
  match r', r with
  | Ok i', Ok i => same_instance i' i
  | Err e', Err e => e' = e
  | _, _ => False
  end.
End SpecChecked.

(** What [MdctNaive] computes in a release build.  It starts at entry
    [(n/2 + k * (n + 1)) % (4 * n)] of its table of cosines; the product wraps around. *)
Open Scope R_scope.
Definition wrapped_mdct_at (MAX n : nat) (w x : list R) (k : nat) : R :=
  let start := ((n / 2 + k * (n + 1)) mod (MAX + 1))%nat in
  sum (fun i => nth i w 0 * nth i x 0 * cos (PI / (2 * INR n) * (INR (start + i * (2 * k + 1)) + / 2))) (2 * n).
