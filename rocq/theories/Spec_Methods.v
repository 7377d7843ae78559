(** The sixteen transforms, uniformly: the method a request is for, its reference
    transform, its inverse. *)
From Coq Require Import List Arith Reals.
From Verif Require Import Prog Num Model_Common Model_Plan Model_Api Spec Spec_Api.
Import ListNotations.
Open Scope nat_scope.

Section Methods.
Context {T F : Type} {N : Num T F}.

(** The [process_X_with_scratch] method, for the [X] of the request, of the instance
    it returns, and that instance's [get_scratch_len()]. *)
Definition use {A} (run : A -> meth T) (scratch : A -> nat) (r : result (arc A)) : option (meth T * nat) :=
  match r with Ok a => Some (run (arc_val a), scratch (arc_val a)) | Err _ => None end.
Definition planned_method (c : pcall T) (p : planner T) : option (meth T * nat) :=
  match c with
  | CDct1 n => use x_run x_scratch (snd (plan_dct1 n p)) | CDct2 n => use t_dct2 t23_scratch (snd (plan_dct2 n p))
  | CDct3 n => use t_dct3 t23_scratch (snd (plan_dct3 n p)) | CDct4 n => use t_dct4 t4_scratch (snd (plan_dct4 n p))
  | CDct5 n => use x_run x_scratch (snd (plan_dct5 n p)) | CDct6 n => use t_dct6 c67_scratch (snd (plan_dct6 n p))
  | CDct7 n => use t_dct7 c67_scratch (snd (plan_dct7 n p)) | CDct8 n => use x_run x_scratch (snd (plan_dct8 n p))
  | CDst1 n => use x_run x_scratch (snd (plan_dst1 n p)) | CDst2 n => use t_dst2 t23_scratch (snd (plan_dst2 n p))
  | CDst3 n => use t_dst3 t23_scratch (snd (plan_dst3 n p)) | CDst4 n => use t_dst4 t4_scratch (snd (plan_dst4 n p))
  | CDst5 n => use x_run x_scratch (snd (plan_dst5 n p)) | CDst6 n => use t_dst6 s67_scratch (snd (plan_dst6 n p))
  | CDst7 n => use t_dst7 s67_scratch (snd (plan_dst7 n p)) | CDst8 n => use x_run x_scratch (snd (plan_dst8 n p))
  | CMdct _ _ => None
  end.
Definition size (c : pcall T) : nat :=
  match c with
  | CDct1 n | CDct2 n | CDct3 n | CDct4 n | CDct5 n | CDct6 n | CDct7 n | CDct8 n
  | CDst1 n | CDst2 n | CDst3 n | CDst4 n | CDst5 n | CDst6 n | CDst7 n | CDst8 n | CMdct n _ => n
  end.
(** The lengths for which a request can be made and the instance used; the MDCT is
    not one of the sixteen. *)
Definition legal (c : pcall T) : Prop :=
  match c with
  | CDct1 n => 2 <= n
  | CDct3 n | CDst3 n | CDct5 n | CDct6 n | CDct7 n | CDst8 n => 0 < n
  | CMdct _ _ => False
  | _ => True
  end.
(** Requests whose instance overwrites all the scratch it reads. *)
Definition clean (c : pcall T) : Prop :=
  match c with CDst1 n => n < 25 | CDst6 n | CDst7 n => n < 45 | _ => True end.

(** The inverse transform of the same length: itself, or 2 and 3, or 6 and 7. *)
Definition inverse_of (c : pcall T) : pcall T :=
  match c with
  | CDct2 n => CDct3 n | CDct3 n => CDct2 n | CDst2 n => CDst3 n | CDst3 n => CDst2 n
  | CDct6 n => CDct7 n | CDct7 n => CDct6 n | CDst6 n => CDst7 n | CDst7 n => CDst6 n
  | _ => c
  end.
End Methods.

Definition reference (c : pcall R) : list R -> list R :=
  match c with
  | CDct1 _ => dct1 | CDct2 _ => dct2 | CDct3 _ => dct3 | CDct4 _ => dct4 | CDct5 _ => dct5 | CDct6 _ => dct6
  | CDct7 _ => dct7 | CDct8 _ => dct8 | CDst1 _ => dst1 | CDst2 _ => dst2 | CDst3 _ => dst3 | CDst4 _ => dst4
  | CDst5 _ => dst5 | CDst6 _ => dst6 | CDst7 _ => dst7 | CDst8 _ => dst8 | CMdct _ _ => fun x => x
  end.

Open Scope R_scope.
(** The factor by which a transform followed by its inverse multiplies the buffer. *)
Definition inverse_scale (c : pcall R) : R :=
  let n := INR (size c) in
  match c with
  | CDct1 _ => (n - 1) / 2
  | CDst1 _ => (n + 1) / 2
  | CDct5 _ | CDct6 _ | CDct7 _ | CDst8 _ => (n - / 2) / 2
  | CDct8 _ | CDst5 _ | CDst6 _ | CDst7 _ => (n + / 2) / 2
  | _ => n / 2
  end.
(** Negate the cells at odd positions. *)
Definition negate_odd (x : list R) : list R :=
  map (fun i => if Nat.even i then nth i x 0 else - nth i x 0) (seq 0 (length x)).

(** With fresh scratch for each call: [g] after [f] multiplies every buffer of
    length [n] by [c]. *)
Definition inverts (f g : meth R * nat) (n : nat) (c : R) : Prop :=
  forall x, length x = n ->
  exists y, process (fst f) (snd f) x = Returned y /\ process (fst g) (snd g) y = Returned (scale c x).
(** With one scratch, of any contents, used for both calls. *)
Definition inverts_with_scratch (f g : meth R * nat) (n : nat) (c : R) : Prop :=
  forall x s, length x = n -> (snd f <= length s)%nat -> (snd g <= length s)%nat ->
  exists y s1 s2, call (fst f) x s = Returned (y, s1) /\ call (fst g) y s1 = Returned (scale c x, s2).

(** [u x + v y] is mapped to [u] times the image of [x] plus [v] times that of [y]. *)
Definition linear (f : meth R * nat) (n : nat) : Prop :=
  forall u v x y, length x = n -> length y = n ->
  exists fx fy, process (fst f) (snd f) x = Returned fx /\ process (fst f) (snd f) y = Returned fy /\
    process (fst f) (snd f) (add_lists (scale u x) (scale v y)) = Returned (add_lists (scale u fx) (scale v fy)).

(** Some buffer gives different results with two different old scratch contents. *)
Definition depends_on_scratch (f : meth R) (n sl : nat) : Prop :=
  exists x s1 s2 y1 y2 s1' s2', length x = n /\ length s1 = sl /\ length s2 = sl /\
    call f x s1 = Returned (y1, s1') /\ call f x s2 = Returned (y2, s2') /\ y1 <> y2.
