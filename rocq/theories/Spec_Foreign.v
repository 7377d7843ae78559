(** Transforms implemented outside the crate.  [TransformType2And3] and [TransformType4] (src/lib.rs:319-322)
    are public traits, so [Type2And3SplitRadix::new], [Type4ConvertToType3Even::new] and [MdctViaDct4::new]
    also accept inner transforms that a user has written in safe Rust and that do not compute what they
    should.  The length and scratch length that such a transform reports are constants here.
    [Type2And3SplitRadix] and [Type4ConvertToType3Even] ask for them once, in the constructor, so this loses
    nothing there; [MdctViaDct4] asks for the length in every call (mdct_via_dct4.rs:192-196) but has no unsafe
    code, so a length that changes between calls is left out of the model and is sound by Rust's own checks. *)
From Coq Require Import List Arith.
From Verif Require Import Prog Num Model_Common Model_Naive Model_Fft Model_Butterflies Model_SplitRadix
  Model_Mdct Model_Plan Model_Api Spec_Memory Spec_Build.
Import ListNotations.

Section Foreign.
Context {T F : Type} {N : Num T F}.

(** Whatever it reads, the program reads and writes only cells in [A] and is never undefined.  It may
    return or panic at any point. *)
Fixpoint keeps_to (A : nat -> Prop) (p : prog T unit) : Prop :=
  match p with
  | Ret _ => True
  | Rd q k => A q /\ forall v, keeps_to A (k v)
  | Wr q v k => A q /\ keeps_to A k
  | Panic _ => True
  | UB => False
  end.

(** State of its own that foreign code may keep from call to call. *)
Variable own : nat -> Prop.
(** A method in safe Rust: it can only reach the slices it is given and its own state. *)
Definition safe_code (f : meth T) : Prop :=
  forall b s, keeps_to (fun q => cell_of b q \/ cell_of s q \/ own q) (f b s).
(** Any length, any scratch length and any safe code. *)
Definition foreign23 (o : t23 T) : Prop := safe_code (t_dct2 o) /\ safe_code (t_dct3 o) /\ safe_code (t_dst2 o) /\ safe_code (t_dst3 o).
Definition foreign4 (o : t4 T) : Prop := safe_code (t_dct4 o) /\ safe_code (t_dst4 o).

(** What can be built from the public constructors, FFTs that return anything, and foreign transforms. *)
Inductive open23 : t23 T -> Prop :=
| open23_built o : built23 any_fft any_inner o -> open23 o
| open23_foreign o : foreign23 o -> open23 o
| open23_split h q d : open23 h -> open23 q -> Type2And3SplitRadix_new h q = Ok d -> open23 (Type2And3SplitRadix_obj d).
Inductive open4 : t4 T -> Prop :=
| open4_built o : built4 any_fft any_inner o -> open4 o
| open4_foreign o : foreign4 o -> open4 o
| open4_even i : open23 i -> open4 (Type4ConvertToType3Even_obj (Type4ConvertToType3Even_new i)).
Inductive open_mdct : mdct T -> Prop :=
| openm_dct4 i w d : open4 i -> MdctViaDct4_new i w = Ok d -> open_mdct (MdctViaDct4_obj d).

(** A call of any method of such an instance. *)
Definition open_job (j : job (T:=T)) : Prop :=
  match j with
  | Transform f _ _ =>
      (exists o, open23 o /\ In f [t_dct2 o; t_dct3 o; t_dst2 o; t_dst3 o]) \/ (exists o, open4 o /\ In f [t_dct4 o; t_dst4 o])
  | Mdct o _ _ _ _ | Imdct o _ _ _ _ => open_mdct o
  end.
End Foreign.
