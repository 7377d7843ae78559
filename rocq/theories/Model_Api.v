(** The methods as a caller sees them: vectors in, vectors out. *)
From Coq Require Import List Arith Bool.
From Verif Require Import Prog Num Model_Common.
Import ListNotations.

(** What a caller observes: contents of the argument vectors after the call
    returned or panicked.  [Undefined] is undefined behaviour. *)
Inductive observed (A : Type) := Returned (a : A) | Panics (e : perr) (a : A) | Undefined.
Arguments Returned {A}.
Arguments Panics {A}.
Arguments Undefined {A}.

Section Api.
Context {T F : Type} {N : Num T F}.

(** [x.process_X_with_scratch(&mut buffer, &mut scratch)]. *)
Definition call (f : meth T) (buffer scratch : list T) : observed (list T * list T) :=
  let b := mkS 0 (length buffer) in
  let s := mkS (length buffer) (length scratch) in
  match run (f b s) (mem_of zero (buffer ++ scratch)) with
  | Done _ m => Returned (vals m b, vals m s)
  | Panicked e m => Panics e (vals m b, vals m s)
  | Undef => Undefined
  end.

(** lib.rs:38-41 and the same default methods of the other traits:
    [let mut scratch = vec![T::zero(); self.get_scratch_len()];]
    [self.process_X_with_scratch(buffer, &mut scratch)]. *)
Definition process (f : meth T) (scratch_len : nat) (buffer : list T) : observed (list T) :=
  match call f buffer (repeat zero scratch_len) with
  | Returned (b, _) => Returned b
  | Panics e (b, _) => Panics e b
  | Undefined => Undefined
  end.

(** [x.process_mdct_with_scratch(a, b, out, scratch)] and the IMDCT call, on four
    separate vectors. *)
Definition call4 (f : slice -> slice -> slice -> slice -> prog T unit)
  (a b c scratch : list T) : observed (list T * list T * list T * list T) :=
  let sa := mkS 0 (length a) in
  let sb := mkS (length a) (length b) in
  let sc := mkS (length a + length b) (length c) in
  let ss := mkS (length a + length b + length c) (length scratch) in
  match run (f sa sb sc ss) (mem_of zero (a ++ b ++ c ++ scratch)) with
  | Done _ m => Returned (vals m sa, vals m sb, vals m sc, vals m ss)
  | Panicked e m => Panics e (vals m sa, vals m sb, vals m sc, vals m ss)
  | Undef => Undefined
  end.

(** [x.process_mdct_with_scratch(&signal[pa..pa + n], &signal[pb..pb + n], out, scratch)]:
    the two inputs are shared borrows, so they may be overlapping parts of one vector. *)
Definition call_within (f : slice -> slice -> slice -> slice -> prog T unit)
  (signal : list T) (pa pb n : nat) (out scratch : list T) : observed (list T * list T * list T) :=
  let sx := mkS 0 (length signal) in
  let so := mkS (length signal) (length out) in
  let ss := mkS (length signal + length out) (length scratch) in
  match run (f (mkS pa n) (mkS pb n) so ss) (mem_of zero (signal ++ out ++ scratch)) with
  | Done _ m => Returned (vals m sx, vals m so, vals m ss)
  | Panicked e m => Panics e (vals m sx, vals m so, vals m ss)
  | Undef => Undefined
  end.

End Api.
