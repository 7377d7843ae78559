(** What it means for a method of the crate to do its job, in terms of what a
    caller observes ([Model_Api.call] and [Model_Api.process]). *)
From Coq Require Import List Reals.
From Verif Require Import Prog Num Model_Common Model_Api Spec.
Import ListNotations.
Open Scope nat_scope.

Section SpecApi.
Context {T F : Type} {N : Num T F}.

(** On every buffer of length [n], with any scratch of at least [sl] cells and any
    contents: the call returns, the buffer holds [t x], and scratch cells from
    [sl] on are as before. *)
Definition implements (f : meth T) (n sl : nat) (t : list T -> list T) : Prop :=
  forall x scratch, length x = n -> sl <= length scratch ->
  exists scratch',
    call f x scratch = Returned (t x, scratch') /\
    length scratch' = length scratch /\ skipn sl scratch' = skipn sl scratch.

(** The same when the first [sl] scratch cells are zero. *)
Definition implements_zeroed (f : meth T) (n sl : nat) (t : list T -> list T) : Prop :=
  forall x scratch, length x = n -> sl <= length scratch ->
  firstn sl scratch = repeat zero sl ->
  exists scratch',
    call f x scratch = Returned (t x, scratch') /\
    length scratch' = length scratch /\ skipn sl scratch' = skipn sl scratch.

(** Both public entry points: with the caller's scratch, and allocating. *)
Definition does (f : meth T) (n sl : nat) (t : list T -> list T) : Prop :=
  implements f n sl t /\ forall x, length x = n -> process f sl x = Returned (t x).
Definition does_zeroed (f : meth T) (n sl : nat) (t : list T -> list T) : Prop :=
  implements_zeroed f n sl t /\ forall x, length x = n -> process f sl x = Returned (t x).

(** A buffer of another length, or a scratch that is too short, panics and leaves
    both vectors as they were. *)
Definition rejects (f : meth T) (n sl : nat) : Prop :=
  forall x scratch, (length x <> n \/ length scratch < sl) ->
  exists e, call f x scratch = Panics e (x, scratch).

(** The call returns on every buffer of length [n] with at least [sl] scratch cells;
    the result depends on the buffer alone, whatever the scratch holds and however
    long it is. *)
Definition determined (f : meth T) (n sl : nat) : Prop := exists t, implements f n sl t.
(** The same, where the result may also depend on the first [sl] scratch cells. *)
Definition determined_with_scratch (f : meth T) (n sl : nat) : Prop :=
  exists t, forall x scratch, length x = n -> sl <= length scratch ->
  exists scratch',
    call f x scratch = Returned (t x (firstn sl scratch), scratch') /\
    length scratch' = length scratch /\ skipn sl scratch' = skipn sl scratch.

(** Wherever in memory the slices lie, as long as they are disjoint: the call returns,
    the buffer holds a function of its old contents, and no other cell of memory
    changes except the first [sl] of the scratch. *)
Definition determined_anywhere (f : meth T) (n sl : nat) : Prop :=
  exists t, forall (m : mem T) b s, slen b = n -> sl <= slen s ->
  (base b + slen b <= base s \/ base s + slen s <= base b) ->
  exists m', run (f b s) m = Done tt m' /\ vals m' b = t (vals m b) /\
    forall q, ~ (base b <= q < base b + slen b) -> ~ (base s <= q < base s + sl) -> m' q = m q.

(** MDCT: on slices of length [n] and a scratch of at least [sl] cells with any old
    contents the call returns; the output holds [t] of the inputs; the inputs and
    the scratch cells from [sl] on are as before. *)
Definition implements_mdct (f : slice -> slice -> slice -> slice -> prog T unit) (n sl : nat)
  (t : list T -> list T -> list T) : Prop :=
  forall a b out scratch, length a = n -> length b = n -> length out = n -> sl <= length scratch ->
  exists scratch',
    call4 f a b out scratch = Returned (a, b, t a b, scratch') /\
    length scratch' = length scratch /\ skipn sl scratch' = skipn sl scratch.
(** The same when the inputs are parts of one vector, which may overlap. *)
Definition implements_mdct_within (f : slice -> slice -> slice -> slice -> prog T unit) (n sl : nat)
  (t : list T -> list T -> list T) : Prop :=
  forall signal pa pb out scratch, pa + n <= length signal -> pb + n <= length signal ->
  length out = n -> sl <= length scratch ->
  exists scratch',
    call_within f signal pa pb n out scratch
      = Returned (signal, t (firstn n (skipn pa signal)) (firstn n (skipn pb signal)), scratch') /\
    length scratch' = length scratch /\ skipn sl scratch' = skipn sl scratch.
(** IMDCT: the new contents of the two outputs, one after the other, are [t] of the
    input and of the old contents. *)
Definition implements_imdct (f : slice -> slice -> slice -> slice -> prog T unit) (n sl : nat)
  (t : list T -> list T -> list T) : Prop :=
  forall x a b scratch, length x = n -> length a = n -> length b = n -> sl <= length scratch ->
  exists a' b' scratch',
    call4 f x a b scratch = Returned (x, a', b', scratch') /\
    a' ++ b' = t x (a ++ b) /\ length a' = n /\ length b' = n /\
    length scratch' = length scratch /\ skipn sl scratch' = skipn sl scratch.

End SpecApi.

(** An instance of a transform trait is correct for length [n], in exact
    arithmetic, when it reports that length and each of its methods, given as much
    scratch as it asks for, computes its transform. *)
Definition correct_x (o : xform R) (n : nat) (t : list R -> list R) : Prop :=
  x_len o = n /\ implements (x_run o) n (x_scratch o) t.
Definition correct_t23 (o : t23 R) (n : nat) : Prop :=
  t23_len o = n /\
  implements (t_dct2 o) n (t23_scratch o) dct2 /\ implements (t_dst2 o) n (t23_scratch o) dst2 /\
  implements (t_dct3 o) n (t23_scratch o) dct3 /\ implements (t_dst3 o) n (t23_scratch o) dst3.
Definition correct_t4 (o : t4 R) (n : nat) : Prop :=
  t4_len o = n /\
  implements (t_dct4 o) n (t4_scratch o) dct4 /\ implements (t_dst4 o) n (t4_scratch o) dst4.
Definition correct_c67 (o : c67 R) (n : nat) : Prop :=
  c67_len o = n /\
  implements (t_dct6 o) n (c67_scratch o) dct6 /\ implements (t_dct7 o) n (c67_scratch o) dct7.
Definition correct_s67 (o : s67 R) (n : nat) : Prop :=
  s67_len o = n /\
  implements (t_dst6 o) n (s67_scratch o) dst6 /\ implements (t_dst7 o) n (s67_scratch o) dst7.

Definition correct_mdct (o : mdct R) (n : nat) (w : list R) : Prop :=
  m_len o = n /\
  implements_mdct (t_mdct o) n (m_scratch o) (fun a b => mdct_of n w (a ++ b)) /\
  implements_mdct_within (t_mdct o) n (m_scratch o) (fun a b => mdct_of n w (a ++ b)) /\
  implements_imdct (t_imdct o) n (m_scratch o) (fun x old => add_lists old (imdct_of n w x)).

(** Overlap-add over the first [m + 1] blocks of a signal, as a caller of the crate writes it:
<<
    let mut out = vec![0; signal.len()];
    for j in 0..m {
      mdct.process_mdct_with_scratch(&signal[j*n..(j+1)*n], &signal[(j+1)*n..(j+2)*n], &mut y, &mut scratch);
      let (a, b) = out[j*n..(j+2)*n].split_at_mut(n);
      mdct.process_imdct_with_scratch(&y, a, b, &mut scratch);
    }
>>
    Returns [out], [y] and [scratch]. *)
Definition block (n : nat) (x : list R) (j : nat) : list R := firstn n (skipn (j * n) x).
Fixpoint overlap_add {N : Num R R} (o : mdct R) (n : nat) (signal y scratch : list R) (m : nat)
  : option (list R * list R * list R) :=
  match m with
  | 0 => Some (repeat 0%R (length signal), y, scratch)
  | S j =>
      match overlap_add o n signal y scratch j with
      | Some (out, y, scratch) =>
          match call4 (t_mdct o) (block n signal j) (block n signal (j + 1)) y scratch with
          | Returned (_, _, y, scratch) =>
              match call4 (t_imdct o) y (block n out j) (block n out (j + 1)) scratch with
              | Returned (_, a, b, scratch) =>
                  Some (firstn (j * n) out ++ a ++ b ++ skipn ((j + 2) * n) out, y, scratch)
              | _ => None
              end
          | _ => None
          end
      | None => None
      end
  end.
