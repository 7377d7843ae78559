(** The instances a user can build from the public algorithm structs
    (src/algorithm/*.rs, src/mdct/*.rs), alone or on top of each other. *)
From Coq Require Import List Arith Bool.
From Verif Require Import Prog Num Model_Common Model_Naive Model_Fft Model_Butterflies Model_SplitRadix
  Model_Mdct Model_Plan Model_Api Spec_Memory.
Import ListNotations.

Section Build.
Context {T F : Type} {N : Num T F}.

(** Which FFTs may be used, and which pairs of inner transforms in a split radix. *)
Variable usable : fft T -> Prop.
Variable joined : t23 T -> t23 T -> Prop.

Inductive built23 : t23 T -> Prop :=
| built23_naive n : built23 (Type2And3Naive_obj (Type2And3Naive_new n))
| built23_2 : built23 Type2And3Butterfly2_obj
| built23_3 : built23 (Type2And3Butterfly3_obj Butterfly3_new)
| built23_4 : built23 (Type2And3Butterfly4_obj Butterfly4_new)
| built23_8 : built23 (Type2And3Butterfly8_obj Butterfly8_new)
| built23_16 : built23 (Type2And3Butterfly16_obj Butterfly16_new)
| built23_fft f d : usable f -> Type2And3ConvertToFft_new f = Ok d -> built23 (Type2And3ConvertToFft_obj d)
| built23_split h q d : built23 h -> built23 q -> joined h q -> Type2And3SplitRadix_new h q = Ok d ->
    built23 (Type2And3SplitRadix_obj d).

Inductive built4 : t4 T -> Prop :=
| built4_naive n : built4 (Type4Naive_obj (Type4Naive_new n))
| built4_fft f d : usable f -> Type4ConvertToFftOdd_new f = Ok d -> built4 (Type4ConvertToFftOdd_obj d)
| built4_even i : built23 i -> built4 (Type4ConvertToType3Even_obj (Type4ConvertToType3Even_new i)).

Inductive built_dct1 : xform T -> Prop :=
| built1_naive n d : Dct1Naive_new n = Ok d -> built_dct1 (Dct1Naive_obj d)
| built1_fft f d : usable f -> Dct1ConvertToFft_new f = Ok d -> built_dct1 (Dct1ConvertToFft_obj d).
Inductive built_dst1 : xform T -> Prop :=
| builts1_naive n : built_dst1 (Dst1Naive_obj (Dst1Naive_new n))
| builts1_fft f d : usable f -> Dst1ConvertToFft_new f = Ok d -> built_dst1 (Dst1ConvertToFft_obj d).
Inductive built_dct5 : xform T -> Prop :=
| built5_naive n d : Dct5Naive_new n = Ok d -> built_dct5 (Dct5Naive_obj d).
Inductive built_dst5 : xform T -> Prop :=
| builts5_naive n : built_dst5 (Dst5Naive_obj (Dst5Naive_new n)).
Inductive built_c67 : c67 T -> Prop :=
| built67_naive n d : Dct6And7Naive_new n = Ok d -> built_c67 (Dct6And7Naive_obj d).
Inductive built_s67 : s67 T -> Prop :=
| builts67_naive n : built_s67 (Dst6And7Naive_obj (Dst6And7Naive_new n))
| builts67_fft f d : usable f -> Dst6And7ConvertToFft_new f = Ok d -> built_s67 (Dst6And7ConvertToFft_obj d).
Inductive built_dct8 : xform T -> Prop :=
| built8_naive n : built_dct8 (Dct8Naive_obj (Dct8Naive_new n)).
Inductive built_dst8 : xform T -> Prop :=
| builts8_naive n d : Dst8Naive_new n = Ok d -> built_dst8 (Dst8Naive_obj d).

Inductive built_mdct : mdct T -> Prop :=
| builtm_naive n w d : MdctNaive_new n w = Ok d -> built_mdct (MdctNaive_obj d)
| builtm_dct4 i w d : built4 i -> MdctViaDct4_new i w = Ok d -> built_mdct (MdctViaDct4_obj d).

(** [f] is the [process_X_with_scratch] method and [sl] the [get_scratch_len()] of an
    instance for transform and length [c]. *)
Definition is_method {A} (built : A -> Prop) (len scratch : A -> nat) (run : A -> meth T)
  (n : nat) (f : meth T) (sl : nat) : Prop :=
  exists o, built o /\ len o = n /\ run o = f /\ scratch o = sl.
Definition built_method (c : pcall T) (f : meth T) (sl : nat) : Prop :=
  match c with
  | CDct1 n => is_method built_dct1 x_len x_scratch x_run n f sl
  | CDct2 n => is_method built23 t23_len t23_scratch t_dct2 n f sl
  | CDct3 n => is_method built23 t23_len t23_scratch t_dct3 n f sl
  | CDct4 n => is_method built4 t4_len t4_scratch t_dct4 n f sl
  | CDct5 n => is_method built_dct5 x_len x_scratch x_run n f sl
  | CDct6 n => is_method built_c67 c67_len c67_scratch t_dct6 n f sl
  | CDct7 n => is_method built_c67 c67_len c67_scratch t_dct7 n f sl
  | CDct8 n => is_method built_dct8 x_len x_scratch x_run n f sl
  | CDst1 n => is_method built_dst1 x_len x_scratch x_run n f sl
  | CDst2 n => is_method built23 t23_len t23_scratch t_dst2 n f sl
  | CDst3 n => is_method built23 t23_len t23_scratch t_dst3 n f sl
  | CDst4 n => is_method built4 t4_len t4_scratch t_dst4 n f sl
  | CDst5 n => is_method built_dst5 x_len x_scratch x_run n f sl
  | CDst6 n => is_method built_s67 s67_len s67_scratch t_dst6 n f sl
  | CDst7 n => is_method built_s67 s67_len s67_scratch t_dst7 n f sl
  | CDst8 n => is_method built_dst8 x_len x_scratch x_run n f sl
  | CMdct _ _ => False
  end.
End Build.

Section Jobs.
Context {T F : Type} {N : Num T F}.

(** No restriction on the FFT: it may return anything. *)
Definition any_fft (f : fft T) : Prop := True.
(** The FFTs a planner gets from its FFT planner. *)
Definition planned_fft (pf : nat -> fft T) (f : fft T) : Prop := exists n, f = pf n.
(** No restriction on the inner transforms of a split radix. *)
Definition any_inner (h q : t23 T) : Prop := True.
(** The inner transforms need no more scratch than the split radix has for them. *)
Definition roomy (h q : t23 T) : Prop :=
  t23_scratch h <= 2 * t23_len h /\ t23_scratch q <= 2 * t23_len h.

(** One call of one thread: which slices it is given. *)
Inductive job :=
| Transform (f : meth T) (buffer scratch : slice)
| Mdct (o : mdct T) (input_a input_b output scratch : slice)
| Imdct (o : mdct T) (input output_a output_b scratch : slice).
Definition program (j : job) : prog T unit :=
  match j with
  | Transform f b s => f b s
  | Mdct o a b out s => t_mdct o a b out s
  | Imdct o x a b s => t_imdct o x a b s
  end.
(** Cells borrowed mutably, and cells borrowed at all. *)
Definition may_write (j : job) (q : nat) : Prop :=
  match j with
  | Transform _ b s => cell_of b q \/ cell_of s q
  | Mdct _ _ _ out s => cell_of out q \/ cell_of s q
  | Imdct _ _ a b s => cell_of a q \/ cell_of b q \/ cell_of s q
  end.
Definition may_read (j : job) (q : nat) : Prop :=
  match j with
  | Transform _ b s => cell_of b q \/ cell_of s q
  | Mdct _ a b out s => cell_of a q \/ cell_of b q \/ cell_of out q \/ cell_of s q
  | Imdct _ x a b s => cell_of x q \/ cell_of a q \/ cell_of b q \/ cell_of s q
  end.
(** The instance is one that can be built. *)
Definition built_job (j : job) : Prop :=
  match j with
  | Transform f _ _ => exists c sl, built_method any_fft any_inner c f sl
  | Mdct o _ _ _ _ | Imdct o _ _ _ _ => built_mdct any_fft any_inner o
  end.
(** What one call borrows mutably the other does not borrow. *)
Definition separate (i j : job) : Prop :=
  forall q, (may_write i q -> ~ may_read j q) /\ (may_write j q -> ~ may_read i q).
Fixpoint all_separate (js : list job) : Prop :=
  match js with
  | [] => True
  | j :: js' => Forall (separate j) js' /\ all_separate js'
  end.
End Jobs.

Section Wrong.
Context {T F : Type} {N : Num T F}.

(** A call with a buffer of another length than [n], or with less than [sl] scratch,
    panics: with which error and which contents left in the two vectors. *)
Definition rejects_with (f : meth T) (n sl : nat) (short : perr) (left : list T -> list T) : Prop :=
  forall x s,
  (length x < n -> call f x s = Panics short (left x, s)) /\
  (n < length x -> call f x s = Panics EBufLen (left x, s)) /\
  (length x = n -> length s < sl -> call f x s = Panics EScratchLen (left x, s)).
(** The buffer error or the scratch error, and nothing has changed. *)
Definition rejects_cleanly (f : meth T) (n sl : nat) : Prop := rejects_with f n sl EBufLen (fun x => x).
(** It panics, whatever the vectors hold afterwards. *)
Definition rejects_somehow (f : meth T) (n sl : nat) : Prop :=
  forall x s, length x <> n \/ length s < sl -> exists e r, call f x s = Panics e r.

(** The cells at odd positions below [n] negated. *)
Definition negate_odd_below (n : nat) (x : list T) : list T :=
  map (fun i => if Nat.odd i && (i <? n) then neg (nth i x zero) else nth i x zero) (seq 0 (length x)).

(** Some call with too short a buffer, some call with too long a buffer, and some call
    with too little scratch panic leaving other buffer contents than they were given. *)
Definition edits_when_rejecting (f : meth T) (n sl : nat) : Prop :=
  (exists x s y, length x < n /\ (exists e, call f x s = Panics e (y, s)) /\ y <> x) /\
  (exists x s y, n < length x /\ (exists e, call f x s = Panics e (y, s)) /\ y <> x) /\
  (exists x s y, length x = n /\ length s < sl /\ (exists e, call f x s = Panics e (y, s)) /\ y <> x).

(** DST2 and DST3 of a split radix instance. *)
Definition is_split_dst2 (f : meth T) (n : nat) : Prop :=
  exists h q d, Type2And3SplitRadix_new h q = Ok d /\ n = Type2And3SplitRadix_len d /\ f = Type2And3SplitRadix_dst2 d.
Definition is_split_dst3 (f : meth T) (n : nat) : Prop :=
  exists h q d, Type2And3SplitRadix_new h q = Ok d /\ n = Type2And3SplitRadix_len d /\ f = Type2And3SplitRadix_dst3 d.

(** MDCT and IMDCT: a data slice of another length than [n], or too little scratch. *)
Definition rejects_mdct (f : slice -> slice -> slice -> slice -> prog T unit) (n sl : nat) : Prop :=
  forall a b c s,
  (length a <> n \/ length b <> n \/ length c <> n -> call4 f a b c s = Panics EMdctLen (a, b, c, s)) /\
  (length a = n -> length b = n -> length c = n -> length s < sl -> call4 f a b c s = Panics EScratchLen (a, b, c, s)).

(** On every buffer (MDCT: on all data slices) of length [n], with at least [sl] scratch
    cells, the call returns; on every buffer of length [n] it panics, whatever the scratch. *)
Definition accepts (f : meth T) (n sl : nat) : Prop :=
  forall x s, length x = n -> sl <= length s -> exists r, call f x s = Returned r.
Definition accepts_mdct (f : slice -> slice -> slice -> slice -> prog T unit) (n sl : nat) : Prop :=
  forall a b c s, length a = n -> length b = n -> length c = n -> sl <= length s -> exists r, call4 f a b c s = Returned r.
Definition never_accepts (f : meth T) (n : nat) : Prop :=
  forall x s, length x = n -> exists e r, call f x s = Panics e r.

(** The transforms none of whose implementations reads scratch it has not written. *)
Definition keeps_scratch_apart (c : pcall T) : Prop :=
  match c with CDst1 _ | CDst6 _ | CDst7 _ => False | _ => True end.
End Wrong.

(** A constructor returns an instance reporting length [n] if [ok], and panics otherwise. *)
Definition builds_iff {A} (r : result A) (ok : Prop) (len : A -> nat) (n : nat) : Prop :=
  (ok -> exists d, r = Ok d /\ len d = n) /\ (~ ok -> exists e, r = Err e).
