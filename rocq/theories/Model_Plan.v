(** src/plan.rs: the planner as a state machine. *)
From Coq Require Import List Arith Bool.
From Verif Require Import Prog Num Model_Common Model_Naive Model_Fft Model_Butterflies
  Model_SplitRadix Model_Mdct.
Import ListNotations.

(** [Arc<dyn X>]: which allocation it points to, and the object there. *)
Record arc (A : Type) := mkArc { arc_id : nat; arc_val : A }.
Arguments mkArc {A}.
Arguments arc_id {A}.
Arguments arc_val {A}.

(** [HashMap<usize, Arc<X>>]; the newest binding of a key counts. *)
Definition cache (A : Type) := list (nat * arc A).
Fixpoint cache_get {A} (c : cache A) (len : nat) : option (arc A) :=
  match c with
  | [] => None
  | (k, a) :: c' => if k =? len then Some a else cache_get c' len
  end.
Definition cache_insert {A} (c : cache A) (len : nat) (a : arc A) : cache A := (len, a) :: c.

Section Plan.
Context {T F : Type} {N : Num T F}.

(** plan.rs:43-58.  [p_next] numbers allocations.  [p_fft n] is what
    [fft_planner.plan_fft_forward(n)] returns; rustfft's own cache is external. *)
Record planner := mkPlanner {
  p_fft : nat -> fft T;
  p_next : nat;
  dct1_cache : cache (xform T);
  dst1_cache : cache (xform T);
  dct23_cache : cache (t23 T);
  dct4_cache : cache (t4 T);
  dct5_cache : cache (xform T);
  dst5_cache : cache (xform T);
  dct6_cache : cache (c67 T);
  dst6_cache : cache (s67 T);
  dct8_cache : cache (xform T);
  dst8_cache : cache (xform T);
  mdct_cache : cache (mdct T)
}.

(** plan.rs:60-75, [DctPlanner::new]. *)
Definition planner_new (fft_planner : nat -> fft T) : planner :=
  mkPlanner fft_planner 0 [] [] [] [] [] [] [] [] [] [] [].

(** Field updates. *)
Definition set_next n (p : planner) := mkPlanner (p_fft p) n (dct1_cache p) (dst1_cache p)
  (dct23_cache p) (dct4_cache p) (dct5_cache p) (dst5_cache p) (dct6_cache p) (dst6_cache p)
  (dct8_cache p) (dst8_cache p) (mdct_cache p).
Definition set_dct1 c (p : planner) := mkPlanner (p_fft p) (p_next p) c (dst1_cache p)
  (dct23_cache p) (dct4_cache p) (dct5_cache p) (dst5_cache p) (dct6_cache p) (dst6_cache p)
  (dct8_cache p) (dst8_cache p) (mdct_cache p).
Definition set_dst1 c (p : planner) := mkPlanner (p_fft p) (p_next p) (dct1_cache p) c
  (dct23_cache p) (dct4_cache p) (dct5_cache p) (dst5_cache p) (dct6_cache p) (dst6_cache p)
  (dct8_cache p) (dst8_cache p) (mdct_cache p).
Definition set_dct23 c (p : planner) := mkPlanner (p_fft p) (p_next p) (dct1_cache p)
  (dst1_cache p) c (dct4_cache p) (dct5_cache p) (dst5_cache p) (dct6_cache p) (dst6_cache p)
  (dct8_cache p) (dst8_cache p) (mdct_cache p).
Definition set_dct4 c (p : planner) := mkPlanner (p_fft p) (p_next p) (dct1_cache p)
  (dst1_cache p) (dct23_cache p) c (dct5_cache p) (dst5_cache p) (dct6_cache p) (dst6_cache p)
  (dct8_cache p) (dst8_cache p) (mdct_cache p).
Definition set_dct5 c (p : planner) := mkPlanner (p_fft p) (p_next p) (dct1_cache p)
  (dst1_cache p) (dct23_cache p) (dct4_cache p) c (dst5_cache p) (dct6_cache p) (dst6_cache p)
  (dct8_cache p) (dst8_cache p) (mdct_cache p).
Definition set_dst5 c (p : planner) := mkPlanner (p_fft p) (p_next p) (dct1_cache p)
  (dst1_cache p) (dct23_cache p) (dct4_cache p) (dct5_cache p) c (dct6_cache p) (dst6_cache p)
  (dct8_cache p) (dst8_cache p) (mdct_cache p).
Definition set_dct6 c (p : planner) := mkPlanner (p_fft p) (p_next p) (dct1_cache p)
  (dst1_cache p) (dct23_cache p) (dct4_cache p) (dct5_cache p) (dst5_cache p) c (dst6_cache p)
  (dct8_cache p) (dst8_cache p) (mdct_cache p).
Definition set_dst6 c (p : planner) := mkPlanner (p_fft p) (p_next p) (dct1_cache p)
  (dst1_cache p) (dct23_cache p) (dct4_cache p) (dct5_cache p) (dst5_cache p) (dct6_cache p) c
  (dct8_cache p) (dst8_cache p) (mdct_cache p).
Definition set_dct8 c (p : planner) := mkPlanner (p_fft p) (p_next p) (dct1_cache p)
  (dst1_cache p) (dct23_cache p) (dct4_cache p) (dct5_cache p) (dst5_cache p) (dct6_cache p)
  (dst6_cache p) c (dst8_cache p) (mdct_cache p).
Definition set_dst8 c (p : planner) := mkPlanner (p_fft p) (p_next p) (dct1_cache p)
  (dst1_cache p) (dct23_cache p) (dct4_cache p) (dct5_cache p) (dst5_cache p) (dct6_cache p)
  (dst6_cache p) (dct8_cache p) c (mdct_cache p).
Definition set_mdct c (p : planner) := mkPlanner (p_fft p) (p_next p) (dct1_cache p)
  (dst1_cache p) (dct23_cache p) (dct4_cache p) (dct5_cache p) (dst5_cache p) (dct6_cache p)
  (dst6_cache p) (dct8_cache p) (dst8_cache p) c.

(** A [&mut self] method of the planner: the planner left behind, also when the
    call panics, and the result. *)
Definition PM (A : Type) := planner -> planner * result A.
Definition pret {A} (a : A) : PM A := fun p => (p, Ok a).
Definition pbind {A B} (x : PM A) (f : A -> PM B) : PM B := fun p =>
  match x p with
  | (p', Ok a) => f a p'
  | (p', Err e) => (p', Err e)
  end.
Notation "x <-! p ;; q" := (pbind p (fun x => q))
  (at level 61, p at next level, right associativity).

(** [Arc::new(X::new(..))] where the constructor may panic. *)
Definition arc_new {A} (r : result A) : PM (arc A) := fun p =>
  match r with
  | Ok a => (set_next (S (p_next p)) p, Ok (mkArc (p_next p) a))
  | Err e => (p, Err e)
  end.
Definition rmap {A B} (f : A -> B) (r : result A) : result B :=
  match r with Ok a => Ok (f a) | Err e => Err e end.

(** [self.fft_planner.plan_fft_forward(len)]. *)
Definition plan_fft_forward (len : nat) : PM (fft T) := fun p => (p, Ok (p_fft p len)).

(** The body shared by all [plan_X] methods, for example plan.rs:79-87. *)
Definition cached {A} (get : planner -> cache A) (set : cache A -> planner -> planner)
  (len : nat) (plan_new : PM (arc A)) : PM (arc A) := fun p =>
  match cache_get (get p) len with
  | Some a => (p, Ok a)
  | None =>
      match plan_new p with
      | (p', Ok a) => (set (cache_insert (get p') len a) p', Ok a)
      | (p', Err e) => (p', Err e)
      end
  end.

(** plan.rs:89-97. *)
Definition plan_new_dct1 (len : nat) : PM (arc (xform T)) :=
  if len <? 10 then arc_new (rmap Dct1Naive_obj (Dct1Naive_new len))
  else
    fft <-! plan_fft_forward ((len - 1) * 2) ;;
    arc_new (rmap Dct1ConvertToFft_obj (Dct1ConvertToFft_new fft)).
(** plan.rs:79-87. *)
Definition plan_dct1 (len : nat) : PM (arc (xform T)) :=
  cached dct1_cache set_dct1 len (plan_new_dct1 len).

(** plan.rs:125-134. *)
Definition plan_dct2_butterfly (len : nat) : PM (arc (t23 T)) :=
  match len with
  | 2 => arc_new (Ok Type2And3Butterfly2_obj)
  | 3 => arc_new (Ok (Type2And3Butterfly3_obj Butterfly3_new))
  | 4 => arc_new (Ok (Type2And3Butterfly4_obj Butterfly4_new))
  | 8 => arc_new (Ok (Type2And3Butterfly8_obj Butterfly8_new))
  | 16 => arc_new (Ok (Type2And3Butterfly16_obj Butterfly16_new))
  | _ => fun p => (p, Err EAssert)
  end.

(** plan.rs:14. *)
Definition DCT2_BUTTERFLIES : list nat := [2; 3; 4; 8; 16].

(** plan.rs:111-123.  [rec] is [self.plan_dct2]. *)
Definition plan_new_dct2 (rec : nat -> PM (arc (t23 T))) (len : nat) : PM (arc (t23 T)) :=
  if existsb (Nat.eqb len) DCT2_BUTTERFLIES then plan_dct2_butterfly len
  else if is_power_of_two len && (2 <? len) then
    half_dct <-! rec (len / 2) ;;
    quarter_dct <-! rec (len / 4) ;;
    arc_new (rmap Type2And3SplitRadix_obj
               (Type2And3SplitRadix_new (arc_val half_dct) (arc_val quarter_dct)))
  else
    fft <-! plan_fft_forward len ;;
    arc_new (rmap Type2And3ConvertToFft_obj (Type2And3ConvertToFft_new fft)).

(** plan.rs:101-109, with recursion depth bounded by [fuel]. *)
Fixpoint plan_dct2_fuel (fuel : nat) (len : nat) : PM (arc (t23 T)) :=
  match fuel with
  | 0 => fun p => (p, Err EFuel)
  | S f => cached dct23_cache set_dct23 len (plan_new_dct2 (plan_dct2_fuel f) len)
  end.
Definition plan_dct2 (len : nat) : PM (arc (t23 T)) := plan_dct2_fuel (S len) len.
(** plan.rs:138-140, 254-256, 260-262. *)
Definition plan_dct3 (len : nat) : PM (arc (t23 T)) := plan_dct2 len.
Definition plan_dst2 (len : nat) : PM (arc (t23 T)) := plan_dct2 len.
Definition plan_dst3 (len : nat) : PM (arc (t23 T)) := plan_dct2 len.

(** plan.rs:154-174. *)
Definition plan_new_dct4 (len : nat) : PM (arc (t4 T)) :=
  if len mod 2 =? 0 then
    if len <? 6 then arc_new (Ok (Type4Naive_obj (Type4Naive_new len)))
    else
      inner_dct <-! plan_dct3 (len / 2) ;;
      arc_new (Ok (Type4ConvertToType3Even_obj (Type4ConvertToType3Even_new (arc_val inner_dct))))
  else
    if len <? 7 then arc_new (Ok (Type4Naive_obj (Type4Naive_new len)))
    else
      fft <-! plan_fft_forward len ;;
      arc_new (rmap Type4ConvertToFftOdd_obj (Type4ConvertToFftOdd_new fft)).
(** plan.rs:144-152, 266-268. *)
Definition plan_dct4 (len : nat) : PM (arc (t4 T)) :=
  cached dct4_cache set_dct4 len (plan_new_dct4 len).
Definition plan_dst4 (len : nat) : PM (arc (t4 T)) := plan_dct4 len.

(** plan.rs:178-190. *)
Definition plan_dct5 (len : nat) : PM (arc (xform T)) :=
  cached dct5_cache set_dct5 len (arc_new (rmap Dct5Naive_obj (Dct5Naive_new len))).

(** plan.rs:194-212. *)
Definition plan_dct6 (len : nat) : PM (arc (c67 T)) :=
  cached dct6_cache set_dct6 len (arc_new (rmap Dct6And7Naive_obj (Dct6And7Naive_new len))).
Definition plan_dct7 (len : nat) : PM (arc (c67 T)) := plan_dct6 len.

(** plan.rs:216-228. *)
Definition plan_dct8 (len : nat) : PM (arc (xform T)) :=
  cached dct8_cache set_dct8 len (arc_new (Ok (Dct8Naive_obj (Dct8Naive_new len)))).

(** plan.rs:242-250. *)
Definition plan_new_dst1 (len : nat) : PM (arc (xform T)) :=
  if len <? 25 then arc_new (Ok (Dst1Naive_obj (Dst1Naive_new len)))
  else
    fft <-! plan_fft_forward ((len + 1) * 2) ;;
    arc_new (rmap Dst1ConvertToFft_obj (Dst1ConvertToFft_new fft)).
(** plan.rs:232-240. *)
Definition plan_dst1 (len : nat) : PM (arc (xform T)) :=
  cached dst1_cache set_dst1 len (plan_new_dst1 len).

(** plan.rs:272-284. *)
Definition plan_dst5 (len : nat) : PM (arc (xform T)) :=
  cached dst5_cache set_dst5 len (arc_new (Ok (Dst5Naive_obj (Dst5Naive_new len)))).

(** plan.rs:298-305. *)
Definition plan_new_dst6 (len : nat) : PM (arc (s67 T)) :=
  if len <? 45 then arc_new (Ok (Dst6And7Naive_obj (Dst6And7Naive_new len)))
  else
    fft <-! plan_fft_forward (len * 2 + 1) ;;
    arc_new (rmap Dst6And7ConvertToFft_obj (Dst6And7ConvertToFft_new fft)).
(** plan.rs:288-296, 309-311. *)
Definition plan_dst6 (len : nat) : PM (arc (s67 T)) :=
  cached dst6_cache set_dst6 len (plan_new_dst6 len).
Definition plan_dst7 (len : nat) : PM (arc (s67 T)) := plan_dst6 len.

(** plan.rs:315-327. *)
Definition plan_dst8 (len : nat) : PM (arc (xform T)) :=
  cached dst8_cache set_dst8 len (arc_new (rmap Dst8Naive_obj (Dst8Naive_new len))).

(** plan.rs:348-355. *)
Definition plan_new_mdct (len : nat) (window_fn : nat -> list T) : PM (arc (mdct T)) :=
  inner_dct4 <-! plan_dct4 len ;;
  arc_new (rmap MdctViaDct4_obj (MdctViaDct4_new (arc_val inner_dct4) window_fn)).
(** plan.rs:335-346. *)
Definition plan_mdct (len : nat) (window_fn : nat -> list T) : PM (arc (mdct T)) :=
  cached mdct_cache set_mdct len (plan_new_mdct len window_fn).

(** Any public planner call, for statements about sequences of calls. *)
Inductive pcall :=
| CDct1 (n : nat) | CDct2 (n : nat) | CDct3 (n : nat) | CDct4 (n : nat)
| CDct5 (n : nat) | CDct6 (n : nat) | CDct7 (n : nat) | CDct8 (n : nat)
| CDst1 (n : nat) | CDst2 (n : nat) | CDst3 (n : nat) | CDst4 (n : nat)
| CDst5 (n : nat) | CDst6 (n : nat) | CDst7 (n : nat) | CDst8 (n : nat)
| CMdct (n : nat) (w : nat -> list T).

Definition exec (c : pcall) (p : planner) : planner :=
  match c with
  | CDct1 n => fst (plan_dct1 n p) | CDct2 n => fst (plan_dct2 n p)
  | CDct3 n => fst (plan_dct3 n p) | CDct4 n => fst (plan_dct4 n p)
  | CDct5 n => fst (plan_dct5 n p) | CDct6 n => fst (plan_dct6 n p)
  | CDct7 n => fst (plan_dct7 n p) | CDct8 n => fst (plan_dct8 n p)
  | CDst1 n => fst (plan_dst1 n p) | CDst2 n => fst (plan_dst2 n p)
  | CDst3 n => fst (plan_dst3 n p) | CDst4 n => fst (plan_dst4 n p)
  | CDst5 n => fst (plan_dst5 n p) | CDst6 n => fst (plan_dst6 n p)
  | CDst7 n => fst (plan_dst7 n p) | CDst8 n => fst (plan_dst8 n p)
  | CMdct n w => fst (plan_mdct n w p)
  end.

(** The planner after a sequence of calls on a new one; calls that panicked are
    caught by the caller and the planner used again. *)
Definition after (fft_planner : nat -> fft T) (cs : list pcall) : planner :=
  fold_left (fun p c => exec c p) cs (planner_new fft_planner).

End Plan.

Arguments planner : clear implicits.
Arguments pcall : clear implicits.
