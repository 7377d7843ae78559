(** The contract of an instance of a transform trait at the level of memory: what
    the algorithms that are built from an inner instance rely on. *)
From Coq Require Import Reals List Arith Lia.
From Verif Require Import Prog Num Model_Common Spec Wp.
Import ListNotations.
Open Scope nat_scope.

Section Works.
Context {T : Type}.

(** The method computes some function of the buffer contents: on a buffer of
    length [n] and a disjoint scratch of at least [sl] cells with any contents it
    returns, and touches nothing but the buffer and the first [sl] scratch cells. *)
Definition runs (p : meth T) (n sl : nat) : Prop := exists G, computes p n sl G.
(** The same, where the function may also depend on the old scratch contents. *)
Definition runs2 (p : meth T) (n sl : nat) : Prop := exists G, computes2 p n sl G.

Definition works_x (o : xform T) (n : nat) : Prop := x_len o = n /\ runs (x_run o) n (x_scratch o).
Definition works2_x (o : xform T) (n : nat) : Prop := x_len o = n /\ runs2 (x_run o) n (x_scratch o).
(** DCT3 and DST3 of length zero panic in the FFT based implementation. *)
Definition works_t23 (o : t23 T) (n : nat) : Prop :=
  t23_len o = n /\
  runs (t_dct2 o) n (t23_scratch o) /\ runs (t_dst2 o) n (t23_scratch o) /\
  (0 < n -> runs (t_dct3 o) n (t23_scratch o)) /\ (0 < n -> runs (t_dst3 o) n (t23_scratch o)).
Definition works_t4 (o : t4 T) (n : nat) : Prop :=
  t4_len o = n /\ runs (t_dct4 o) n (t4_scratch o) /\ runs (t_dst4 o) n (t4_scratch o).
Definition works_c67 (o : c67 T) (n : nat) : Prop :=
  c67_len o = n /\ runs (t_dct6 o) n (c67_scratch o) /\ runs (t_dct7 o) n (c67_scratch o).
Definition works_s67 (o : s67 T) (n : nat) : Prop :=
  s67_len o = n /\ runs (t_dst6 o) n (s67_scratch o) /\ runs (t_dst7 o) n (s67_scratch o).
Definition works2_s67 (o : s67 T) (n : nat) : Prop :=
  s67_len o = n /\ runs2 (t_dst6 o) n (s67_scratch o) /\ runs2 (t_dst7 o) n (s67_scratch o).

Lemma runs_runs2 (p : meth T) n sl : runs p n sl -> runs2 p n sl.
Proof. intros [G H]. exists (fun x _ => G x). apply computes_computes2, H. Qed.
Lemma works_works2_x o n : works_x o n -> works2_x o n.
Proof. intros [A B]. split; [exact A|apply runs_runs2, B]. Qed.
Lemma works_works2_s67 o n : works_s67 o n -> works2_s67 o n.
Proof. intros (A & B & C). repeat split; [exact A|apply runs_runs2, B|apply runs_runs2, C]. Qed.
End Works.

(** In exact arithmetic: the method computes the reference transform; and the same
    when the first [sl] scratch cells are zero. *)
Definition exact (p : meth R) (n sl : nat) (t : list R -> nat -> R) : Prop := computes p n sl t.
Definition exact2 (p : meth R) (n sl : nat) (t : list R -> nat -> R) : Prop :=
  exists G, computes2 p n sl G /\
    forall x k, length x = n -> k < n -> G x (repeat 0%R sl) k = t x k.

Lemma exact_exact2 p n sl t : exact p n sl t -> exact2 p n sl t.
Proof. intros H. exists (fun x _ => t x). split; [apply computes_computes2, H|reflexivity]. Qed.

Definition exact_x (o : xform R) (n : nat) (t : list R -> nat -> R) : Prop :=
  x_len o = n /\ exact (x_run o) n (x_scratch o) t.
Definition exact2_x (o : xform R) (n : nat) (t : list R -> nat -> R) : Prop :=
  x_len o = n /\ exact2 (x_run o) n (x_scratch o) t.
Definition exact_t23 (o : t23 R) (n : nat) : Prop :=
  t23_len o = n /\
  exact (t_dct2 o) n (t23_scratch o) dct2_at /\ exact (t_dst2 o) n (t23_scratch o) dst2_at /\
  (0 < n -> exact (t_dct3 o) n (t23_scratch o) dct3_at) /\ (0 < n -> exact (t_dst3 o) n (t23_scratch o) dst3_at).
Definition exact_t4 (o : t4 R) (n : nat) : Prop :=
  t4_len o = n /\
  exact (t_dct4 o) n (t4_scratch o) dct4_at /\ exact (t_dst4 o) n (t4_scratch o) dst4_at.
Definition exact_c67 (o : c67 R) (n : nat) : Prop :=
  c67_len o = n /\
  exact (t_dct6 o) n (c67_scratch o) dct6_at /\ exact (t_dct7 o) n (c67_scratch o) dct7_at.
Definition exact2_s67 (o : s67 R) (n : nat) : Prop :=
  s67_len o = n /\
  exact2 (t_dst6 o) n (s67_scratch o) dst6_at /\ exact2 (t_dst7 o) n (s67_scratch o) dst7_at.
