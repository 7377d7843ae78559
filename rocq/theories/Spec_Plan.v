(** Terms in which the properties of the planner are stated. *)
From Coq Require Import List Arith.
From Verif Require Import Prog Num Model_Common Model_Plan.
Import ListNotations.

Section SpecPlan.
Context {T F : Type} {N : Num T F}.

(** Which [Arc] a call returns (as compared by [Arc::ptr_eq]); [None] if it panics. *)
Definition id_of {A} (r : result (arc A)) : option nat :=
  match r with Ok a => Some (arc_id a) | Err _ => None end.
Definition returned_arc (c : pcall T) (p : planner T) : option nat :=
  match c with
  | CDct1 n => id_of (snd (plan_dct1 n p)) | CDct2 n => id_of (snd (plan_dct2 n p))
  | CDct3 n => id_of (snd (plan_dct3 n p)) | CDct4 n => id_of (snd (plan_dct4 n p))
  | CDct5 n => id_of (snd (plan_dct5 n p)) | CDct6 n => id_of (snd (plan_dct6 n p))
  | CDct7 n => id_of (snd (plan_dct7 n p)) | CDct8 n => id_of (snd (plan_dct8 n p))
  | CDst1 n => id_of (snd (plan_dst1 n p)) | CDst2 n => id_of (snd (plan_dst2 n p))
  | CDst3 n => id_of (snd (plan_dst3 n p)) | CDst4 n => id_of (snd (plan_dst4 n p))
  | CDst5 n => id_of (snd (plan_dst5 n p)) | CDst6 n => id_of (snd (plan_dst6 n p))
  | CDst7 n => id_of (snd (plan_dst7 n p)) | CDst8 n => id_of (snd (plan_dst8 n p))
  | CMdct n w => id_of (snd (plan_mdct n w p))
  end.

(** The groups of transforms whose instances are shared: DCT2, DCT3, DST2 and DST3
    are one group, DCT4 and DST4 one, DCT6 and DCT7 one, DST6 and DST7 one. *)
Inductive group := G1 | G23 | G4 | G5 | G67 | G8 | GS1 | GS5 | GS67 | GS8 | GM.
Definition request (c : pcall T) : group * nat :=
  match c with
  | CDct1 n => (G1, n) | CDct2 n | CDct3 n | CDst2 n | CDst3 n => (G23, n)
  | CDct4 n | CDst4 n => (G4, n) | CDct5 n => (G5, n) | CDct6 n | CDct7 n => (G67, n)
  | CDct8 n => (G8, n) | CDst1 n => (GS1, n) | CDst5 n => (GS5, n)
  | CDst6 n | CDst7 n => (GS67, n) | CDst8 n => (GS8, n) | CMdct n _ => (GM, n)
  end.

(** The instance a call returns. *)
Inductive instance :=
| IX (o : xform T) | I23 (o : t23 T) | I4 (o : t4 T) | IC67 (o : c67 T) | IS67 (o : s67 T) | IM (o : mdct T).
Definition value_of {A} (k : A -> instance) (r : result (arc A)) : result instance :=
  match r with Ok a => Ok (k (arc_val a)) | Err e => Err e end.
Definition returned_instance (c : pcall T) (p : planner T) : result instance :=
  match c with
  | CDct1 n => value_of IX (snd (plan_dct1 n p)) | CDct2 n => value_of I23 (snd (plan_dct2 n p))
  | CDct3 n => value_of I23 (snd (plan_dct3 n p)) | CDct4 n => value_of I4 (snd (plan_dct4 n p))
  | CDct5 n => value_of IX (snd (plan_dct5 n p)) | CDct6 n => value_of IC67 (snd (plan_dct6 n p))
  | CDct7 n => value_of IC67 (snd (plan_dct7 n p)) | CDct8 n => value_of IX (snd (plan_dct8 n p))
  | CDst1 n => value_of IX (snd (plan_dst1 n p)) | CDst2 n => value_of I23 (snd (plan_dst2 n p))
  | CDst3 n => value_of I23 (snd (plan_dst3 n p)) | CDst4 n => value_of I4 (snd (plan_dst4 n p))
  | CDst5 n => value_of IX (snd (plan_dst5 n p)) | CDst6 n => value_of IS67 (snd (plan_dst6 n p))
  | CDst7 n => value_of IS67 (snd (plan_dst7 n p)) | CDst8 n => value_of IX (snd (plan_dst8 n p))
  | CMdct n w => value_of IM (snd (plan_mdct n w p))
  end.
Definition instance_len (i : instance) : nat :=
  match i with IX o => x_len o | I23 o => t23_len o | I4 o => t4_len o | IC67 o => c67_len o
  | IS67 o => s67_len o | IM o => m_len o end.

Definition not_mdct (c : pcall T) : Prop := match c with CMdct _ _ => False | _ => True end.

(** The window the MDCT of length [n] is built with: that of the first earlier
    request for [n] whose window had the right length, else the one asked for. *)
Definition valid_window (n : nat) (c : pcall T) : bool :=
  match c with CMdct k w => (k =? n) && (length (w (n * 2)) =? n * 2) | _ => false end.
Definition window_in_force (earlier : list (pcall T)) (n : nat) (w : nat -> list T) : nat -> list T :=
  match find (valid_window n) earlier with Some (CMdct _ w') => w' | _ => w end.

(** Lengths, and windows, the planner refuses; [earlier] are the calls before. *)
Definition refuses (earlier : list (pcall T)) (c : pcall T) : Prop :=
  match c with
  | CDct1 n => n < 2
  | CDct5 n | CDct6 n | CDct7 n | CDst8 n => n = 0
  | CMdct n w => n mod 2 = 1 \/
      forall w', (w' = w \/ In (CMdct n w') earlier) -> length (w' (n * 2)) <> n * 2
  | _ => False
  end.
End SpecPlan.
