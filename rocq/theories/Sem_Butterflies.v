(** What the butterflies compute, for any numeric type. *)
From Coq Require Import List Arith Lia Bool.
From Verif Require Import Prog Num Model_Common Model_Butterflies Wp Sem_Naive.
Import ListNotations.

Section SemButterflies.
Context {T F : Type} {N : Num T F}.
Open Scope num_scope.
Notation "l '!' i" := (nth i l zero) (at level 9, i at level 9, format "l '!' i").
Notation "l '!c' i" := (nth i l (zero, zero)) (at level 9, i at level 9).

(** On a slice of length [n], [f] replaces the contents [x] by [h x], touching nothing else. *)
Definition inplace (f : slice -> prog T unit) (n : nat) (h : list T -> list T) : Prop :=
  forall m b, slen b = n ->
  wp (f b) m (fun _ m' => vals m' b = h (vals m b) /\
    forall q, ~ (base b <= q < base b + n) -> m' q = m q).

Lemma upd_off (m : mem T) b i j v : upd m (b + j) v (b + i) = if i =? j then v else m (b + i).
Proof. unfold upd. destruct (Nat.eqb_spec (b + i) (b + j)), (Nat.eqb_spec i j); try reflexivity; lia. Qed.

Lemma vals_mem_of (l : list T) d : vals (mem_of d l) (mkS 0 (length l)) = l.
Proof.
  apply (list_eq_nth d); [apply vals_length|]. intros i Hi. rewrite vals_length in Hi.
  rewrite nth_vals by exact Hi. reflexivity.
Qed.

Lemma wp_local_b {B} n h l f (k : list T -> prog T B) m Q :
  inplace f n h -> length l = n -> (forall r, r = h l -> wp (k r) m Q) -> wp (bind (local_call zero l f) k) m Q.
Proof.
  intros Hf Hl H. apply wp_bind. unfold local_call.
  specialize (Hf (mem_of zero l) (mkS 0 (length l)) Hl). unfold wp in Hf.
  destruct (run (f (mkS 0 (length l))) (mem_of zero l)) as [a m'|e m'|]; try contradiction.
  destruct Hf as [E _]. rewrite vals_mem_of in E. rewrite E. apply H. reflexivity.
Qed.

(** Symbolic execution of straight-line code on literal indices: the slice holds the list [l],
    and memory outside of it is that of [m0]. *)
Fixpoint set_nth (i : nat) (v : T) (l : list T) : list T :=
  match l, i with
  | [], _ => []
  | _ :: l', 0 => v :: l'
  | a :: l', S i' => a :: set_nth i' v l'
  end.
Lemma set_nth_length i v l : length (set_nth i v l) = length l.
Proof. revert i. induction l; intros [|i]; simpl; auto. Qed.
Lemma nth_set_nth i j v l : j < length l -> nth i (set_nth j v l) zero = if i =? j then v else nth i l zero.
Proof.
  revert i j. induction l; intros [|i] [|j] H; simpl in *; try lia; auto.
  apply IHl. lia.
Qed.

Definition holds (m0 : mem T) (b : slice) (l : list T) (m : mem T) : Prop :=
  slen b = length l /\ (forall i, i < slen b -> m (base b + i) = nth i l zero) /\ (forall q, ~ (base b <= q < base b + slen b) -> m q = m0 q).

Lemma holds_start m b : holds m b (vals m b) m.
Proof.
  split; [symmetry; apply vals_length|]. split; [|auto].
  intros i Hi. rewrite nth_vals by exact Hi. reflexivity.
Qed.
Lemma holds_upd m0 b l m i v : i < slen b -> holds m0 b l m -> holds m0 b (set_nth i v l) (upd m (base b + i) v).
Proof.
  intros Hi (H1 & H2 & H3). split; [rewrite set_nth_length; exact H1|]. split.
  - intros j Hj. rewrite upd_off, nth_set_nth by lia. destruct (j =? i); [reflexivity|auto].
  - intros q Hq. rewrite upd_other by lia. auto.
Qed.
Lemma holds_end m0 b l m : holds m0 b l m -> vals m b = l.
Proof.
  intros (H1 & H2 & _). apply (list_eq_nth zero); rewrite vals_length; [exact H1|].
  intros i Hi. rewrite nth_vals by exact Hi. auto.
Qed.

Lemma h_rdu {B} m0 b l m i (f : T -> prog T B) Q : i < slen b -> holds m0 b l m ->
  wp (f (nth i l zero)) m Q -> wp (bind (rdu b i) f) m Q.
Proof. intros Hi (_ & H & _) K. apply wp_rdu_b; [exact Hi|]. rewrite H by exact Hi. exact K. Qed.
Lemma h_rd {B} m0 b l m i (f : T -> prog T B) Q : i < slen b -> holds m0 b l m ->
  wp (f (nth i l zero)) m Q -> wp (bind (rd b i) f) m Q.
Proof. intros Hi (_ & H & _) K. apply wp_rd_b; [exact Hi|]. rewrite H by exact Hi. exact K. Qed.
Lemma h_wru {B} m0 b l m i v (f : unit -> prog T B) Q : i < slen b -> holds m0 b l m ->
  (forall m', holds m0 b (set_nth i v l) m' -> wp (f tt) m' Q) -> wp (bind (wru b i v) f) m Q.
Proof. intros Hi H K. apply wp_wru_b; [exact Hi|]. apply K. apply holds_upd; auto. Qed.
Lemma h_wr {B} m0 b l m i v (f : unit -> prog T B) Q : i < slen b -> holds m0 b l m ->
  (forall m', holds m0 b (set_nth i v l) m' -> wp (f tt) m' Q) -> wp (bind (wr b i v) f) m Q.
Proof. intros Hi H K. apply wp_wr_b; [exact Hi|]. apply K. apply holds_upd; auto. Qed.
Lemma h_wru_e m0 b l m i v (Q : unit -> mem T -> Prop) : i < slen b -> holds m0 b l m ->
  (forall m', holds m0 b (set_nth i v l) m' -> Q tt m') -> wp (wru b i v) m Q.
Proof. intros Hi H K. apply wp_wru; [exact Hi|]. apply K. apply holds_upd; auto. Qed.
Lemma h_wr_e m0 b l m i v (Q : unit -> mem T -> Prop) : i < slen b -> holds m0 b l m ->
  (forall m', holds m0 b (set_nth i v l) m' -> Q tt m') -> wp (wr b i v) m Q.
Proof. intros Hi H K. apply wp_wr; [exact Hi|]. apply K. apply holds_upd; auto. Qed.
Lemma h_ret m0 b l m (Q : unit -> mem T -> Prop) : holds m0 b l m -> Q tt m -> wp (Ret tt) m Q.
Proof. auto. Qed.

Ltac side Hn := rewrite Hn; lia.
Ltac bf_step :=
  lazymatch goal with
  | Hn : slen ?b = _, HH : holds ?m0 ?b ?l ?m |- wp ?p ?m ?Q =>
    lazymatch p with
    | bind (bind _ _) _ => apply wp_assoc
    | bind (rdu _ _) _ => eapply h_rdu; [side Hn|exact HH|]; cbn [nth]
    | bind (rd _ _) _ => eapply h_rd; [side Hn|exact HH|]; cbn [nth]
    | bind (wru _ _ _) _ => eapply h_wru; [side Hn|exact HH|]; clear m HH; intros m HH; cbn [set_nth] in HH
    | bind (wr _ _ _) _ => eapply h_wr; [side Hn|exact HH|]; clear m HH; intros m HH; cbn [set_nth] in HH
    | wru _ _ _ => eapply h_wru_e; [side Hn|exact HH|]; clear m HH; intros m HH; cbn [set_nth] in HH
    | wr _ _ _ => eapply h_wr_e; [side Hn|exact HH|]; clear m HH; intros m HH; cbn [set_nth] in HH
    | bind (Ret _) _ => apply wp_ret_b
    | Ret _ => apply wp_ret
    end
  end; cbv beta zeta.
Lemma inplace_intro f n h :
  (forall m0 b m l, slen b = n -> length l = n -> holds m0 b l m ->
     wp (f b) m (fun _ m' => holds m0 b (h l) m')) -> inplace f n h.
Proof.
  intros H m b Hb. eapply wp_conseq.
  - apply H; [exact Hb|rewrite vals_length; exact Hb|apply holds_start].
  - intros [] m' HH. split; [eapply holds_end; exact HH|]. destruct HH as (_ & _ & K). rewrite <- Hb. exact K.
Qed.
Ltac bf_start :=
  apply inplace_intro; intros m0 b m x Hn Lx HH;
  repeat (destruct x as [|? x]; try discriminate Lx); clear Lx.
Ltac bf_end :=
  lazymatch goal with
  | HH : holds ?m0 ?b ?l ?m |- holds ?m0 ?b ?l' ?m => replace l' with l; [exact HH|]
  end; subst; reflexivity.

(** *** Length 2 *)
Definition b2_dct2 (x : list T) : list T := [x!0 +. x!1; (x!0 -. x!1) *. frac_1_sqrt_2].
Definition b2_dct3 (x : list T) : list T :=
  [x!0 *. half +. x!1 *. frac_1_sqrt_2; x!0 *. half -. x!1 *. frac_1_sqrt_2].
Definition b2_dst2 (x : list T) : list T := [(x!0 +. x!1) *. frac_1_sqrt_2; x!0 -. x!1].
Definition b2_dst3 (x : list T) : list T :=
  [x!0 *. frac_1_sqrt_2 +. x!1 *. half; x!0 *. frac_1_sqrt_2 -. x!1 *. half].


Lemma Butterfly2_inplace_dct2_ok : inplace Butterfly2_inplace_dct2 2 b2_dct2.
Proof. bf_start; unfold Butterfly2_inplace_dct2. cbv zeta; repeat bf_step. bf_end. Qed.
Lemma Butterfly2_inplace_dct3_ok : inplace Butterfly2_inplace_dct3 2 b2_dct3.
Proof. bf_start; unfold Butterfly2_inplace_dct3. cbv zeta; repeat bf_step. bf_end. Qed.
Lemma Butterfly2_inplace_dst2_ok : inplace Butterfly2_inplace_dst2 2 b2_dst2.
Proof. bf_start; unfold Butterfly2_inplace_dst2. cbv zeta; repeat bf_step. bf_end. Qed.
Lemma Butterfly2_inplace_dst3_ok : inplace Butterfly2_inplace_dst3 2 b2_dst3.
Proof. bf_start; unfold Butterfly2_inplace_dst3. cbv zeta; repeat bf_step. bf_end. Qed.

(** *** Length 3 *)
Definition b3_dct2 (t : T) (x : list T) : list T :=
  [x!0 +. x!1 +. x!2; (x!0 -. x!2) *. t; (x!0 +. x!2) *. half -. x!1].
Definition b3_dct3 (t : T) (x : list T) : list T :=
  [x!0 *. half +. x!1 *. t +. x!2 *. half; x!0 *. half -. x!2; x!0 *. half +. x!1 *. (-. t) +. x!2 *. half].
Definition b3_dst2 (t : T) (x : list T) : list T :=
  [(x!0 +. x!2) *. half +. x!1; (x!0 -. x!2) *. t; x!0 -. x!1 +. x!2].
Definition b3_dst3 (t : T) (x : list T) : list T :=
  [x!2 *. half +. x!1 *. t +. x!0 *. half; x!0 -. x!2 *. half; x!2 *. half +. x!1 *. (-. t) +. x!0 *. half].

Lemma Butterfly3_inplace_dct2_ok t : inplace (Butterfly3_inplace_dct2 t) 3 (b3_dct2 t).
Proof. bf_start; unfold Butterfly3_inplace_dct2. cbv zeta; repeat bf_step. bf_end. Qed.
Lemma Butterfly3_inplace_dct3_ok t : inplace (Butterfly3_inplace_dct3 t) 3 (b3_dct3 t).
Proof. bf_start; unfold Butterfly3_inplace_dct3. cbv zeta; repeat bf_step. bf_end. Qed.
Lemma Butterfly3_inplace_dst2_ok t : inplace (Butterfly3_inplace_dst2 t) 3 (b3_dst2 t).
Proof. bf_start; unfold Butterfly3_inplace_dst2. cbv zeta; repeat bf_step. bf_end. Qed.
Lemma Butterfly3_inplace_dst3_ok t : inplace (Butterfly3_inplace_dst3 t) 3 (b3_dst3 t).
Proof. bf_start; unfold Butterfly3_inplace_dst3. cbv zeta; repeat bf_step. bf_end. Qed.

(** *** Length 4 *)
Definition b4_dct2 (t : T * T) (x : list T) : list T :=
  let l := x!0 -. x!3 in let u := x!2 -. x!1 in
  [(x!0 +. x!3) +. (x!2 +. x!1); l *. fst t -. u *. snd t;
   ((x!0 +. x!3) -. (x!2 +. x!1)) *. frac_1_sqrt_2; u *. fst t +. l *. snd t].
Definition b4_dct3 (t : T * T) (x : list T) : list T :=
  let l := x!1 *. fst t +. x!3 *. snd t in let u := x!1 *. snd t -. x!3 *. fst t in
  let a := x!0 *. half +. x!2 *. frac_1_sqrt_2 in let b := x!0 *. half -. x!2 *. frac_1_sqrt_2 in
  [a +. l; b +. u; b -. u; a -. l].
Definition b4_dst2 (t : T * T) (x : list T) : list T :=
  let l := x!0 +. x!3 in let u := x!2 +. x!1 in
  [u *. fst t +. l *. snd t; ((x!0 -. x!3) -. (x!2 -. x!1)) *. frac_1_sqrt_2;
   l *. fst t -. u *. snd t; (x!0 -. x!3) +. (x!2 -. x!1)].
Definition b4_dst3 (t : T * T) (x : list T) : list T :=
  let l := x!2 *. fst t +. x!0 *. snd t in let u := x!2 *. snd t -. x!0 *. fst t in
  let a := x!3 *. half +. x!1 *. frac_1_sqrt_2 in let b := x!3 *. half -. x!1 *. frac_1_sqrt_2 in
  [a +. l; -. (b +. u); b -. u; l -. a].

Lemma Butterfly4_inplace_dct2_ok t : inplace (Butterfly4_inplace_dct2 t) 4 (b4_dct2 t).
Proof. bf_start; unfold Butterfly4_inplace_dct2; unfold Butterfly2_scattered_dct2. cbv zeta; repeat bf_step. bf_end. Qed.
Lemma Butterfly4_inplace_dct3_ok t : inplace (Butterfly4_inplace_dct3 t) 4 (b4_dct3 t).
Proof. bf_start; unfold Butterfly4_inplace_dct3; unfold Butterfly2_scattered_dct3. cbv zeta; repeat bf_step. bf_end. Qed.
Lemma Butterfly4_inplace_dst2_ok t : inplace (Butterfly4_inplace_dst2 t) 4 (b4_dst2 t).
Proof. bf_start; unfold Butterfly4_inplace_dst2; unfold Butterfly2_scattered_dct2. cbv zeta; repeat bf_step. bf_end. Qed.
Lemma Butterfly4_inplace_dst3_ok t : inplace (Butterfly4_inplace_dst3 t) 4 (b4_dst3 t).
Proof. bf_start; unfold Butterfly4_inplace_dst3; unfold Butterfly2_scattered_dct3. cbv zeta; repeat bf_step. bf_end. Qed.

(** *** Length 8 *)
Definition b8_dct2 (self : bf8 T) (x : list T) : list T :=
  let tw := b8_tw self in
  let y := b4_dct2 (b8_b4 self) [x!0 +. x!7; x!1 +. x!6; x!2 +. x!5; x!3 +. x!4] in
  let c := b2_dct2
    [(x!0 -. x!7) *. fst tw!c 0 +. (x!3 -. x!4) *. snd tw!c 0;
     (x!1 -. x!6) *. fst tw!c 1 +. (x!2 -. x!5) *. snd tw!c 1] in
  let s := b2_dst2
    [(x!2 -. x!5) *. fst tw!c 1 -. (x!1 -. x!6) *. snd tw!c 1;
     (x!3 -. x!4) *. fst tw!c 0 -. (x!0 -. x!7) *. snd tw!c 0] in
  [y!0; c!0; y!1; c!1 -. s!0; y!2; c!1 +. s!0; y!3; s!1].
Definition b8_dct3 (self : bf8 T) (x : list T) : list T :=
  let tw := b8_tw self in
  let e := b4_dct3 (b8_b4 self) [x!0; x!2; x!4; x!6] in
  let u := b2_dct3 [x!1 *. two; x!3 +. x!5] in
  let v := b2_dst3 [x!3 -. x!5; x!7 *. two] in
  let low i := u!i *. fst tw!c i +. v!i *. snd tw!c i in
  let upp i := u!i *. snd tw!c i -. v!i *. fst tw!c i in
  [e!0 +. low 0; e!1 +. low 1; e!2 +. upp 1; e!3 +. upp 0;
   e!3 -. upp 0; e!2 -. upp 1; e!1 -. low 1; e!0 -. low 0].
Definition b8_dst2 (self : bf8 T) (x : list T) : list T :=
  let tw := b8_tw self in
  let y := b4_dct2 (b8_b4 self) [x!0 -. x!7; x!6 -. x!1; x!2 -. x!5; x!4 -. x!3] in
  let c := b2_dct2
    [(x!0 +. x!7) *. fst tw!c 0 +. (-. x!3 -. x!4) *. snd tw!c 0;
     (-. x!1 -. x!6) *. fst tw!c 1 +. (x!2 +. x!5) *. snd tw!c 1] in
  let s := b2_dst2
    [(x!2 +. x!5) *. fst tw!c 1 -. (-. x!1 -. x!6) *. snd tw!c 1;
     (-. x!3 -. x!4) *. fst tw!c 0 -. (x!0 +. x!7) *. snd tw!c 0] in
  [s!1; y!3; c!1 +. s!0; y!2; c!1 -. s!0; y!1; c!0; y!0].
Definition b8_dst3 (self : bf8 T) (x : list T) : list T :=
  let tw := b8_tw self in
  let e := b4_dct3 (b8_b4 self) [x!7; x!5; x!3; x!1] in
  let u := b2_dct3 [x!6 *. two; x!4 +. x!2] in
  let v := b2_dst3 [x!4 -. x!2; x!0 *. two] in
  let low i := u!i *. fst tw!c i +. v!i *. snd tw!c i in
  let upp i := u!i *. snd tw!c i -. v!i *. fst tw!c i in
  [e!0 +. low 0; -. (e!1 +. low 1); e!2 +. upp 1; -. (e!3 +. upp 0);
   e!3 -. upp 0; upp 1 -. e!2; e!1 -. low 1; low 0 -. e!0].

Ltac bf_local H := eapply wp_local_b; [apply H|reflexivity|]; let r := fresh "r" in let E := fresh "E" in intros r E.
Ltac bf_go8 :=
  cbv zeta; repeat (first [bf_step | bf_local Butterfly2_inplace_dct2_ok | bf_local Butterfly2_inplace_dct3_ok
    | bf_local Butterfly2_inplace_dst2_ok | bf_local Butterfly2_inplace_dst3_ok
    | bf_local Butterfly4_inplace_dct2_ok | bf_local Butterfly4_inplace_dct3_ok
    | bf_local Butterfly4_inplace_dst2_ok | bf_local Butterfly4_inplace_dst3_ok]).

Lemma Butterfly8_inplace_dct2_ok self : inplace (Butterfly8_inplace_dct2 self) 8 (b8_dct2 self).
Proof. bf_start; unfold Butterfly8_inplace_dct2. unfold rd_add, rd_sub. bf_go8. bf_end. Qed.
Lemma Butterfly8_inplace_dct3_ok self : inplace (Butterfly8_inplace_dct3 self) 8 (b8_dct3 self).
Proof.
  bf_start; unfold Butterfly8_inplace_dct3. unfold rd_add, rd_sub. unfold for_range. cbn [for_n Nat.sub].
  bf_go8. bf_end.
Qed.
Lemma Butterfly8_inplace_dst2_ok self : inplace (Butterfly8_inplace_dst2 self) 8 (b8_dst2 self).
Proof. bf_start; unfold Butterfly8_inplace_dst2. unfold rd_add, rd_sub, rd_nsub. bf_go8. bf_end. Qed.
Lemma Butterfly8_inplace_dst3_ok self : inplace (Butterfly8_inplace_dst3 self) 8 (b8_dst3 self).
Proof. bf_start; unfold Butterfly8_inplace_dst3. unfold rd_add, rd_sub. bf_go8. bf_end. Qed.

(** *** Length 16 *)
Definition b16_dct2 (self : bf16 T) (x : list T) : list T :=
  let tw := b16_tw self in
  let y := b8_dct2 (b16_b8 self)
    [x!0 +. x!15; x!1 +. x!14; x!2 +. x!13; x!3 +. x!12; x!4 +. x!11; x!5 +. x!10; x!6 +. x!9; x!7 +. x!8] in
  let d i := x!i -. x!(15 - i) in
  let c := b4_dct2 (b16_b4 self)
    [d 0 *. fst tw!c 0 +. d 7 *. snd tw!c 0; d 1 *. fst tw!c 1 +. d 6 *. snd tw!c 1;
     d 2 *. fst tw!c 2 +. d 5 *. snd tw!c 2; d 3 *. fst tw!c 3 +. d 4 *. snd tw!c 3] in
  let s := b4_dst2 (b16_b4 self)
    [d 4 *. fst tw!c 3 -. d 3 *. snd tw!c 3; d 5 *. fst tw!c 2 -. d 2 *. snd tw!c 2;
     d 6 *. fst tw!c 1 -. d 1 *. snd tw!c 1; d 7 *. fst tw!c 0 -. d 0 *. snd tw!c 0] in
  [y!0; c!0; y!1; c!1 -. s!0; y!2; c!1 +. s!0; y!3; c!2 +. s!1;
   y!4; c!2 -. s!1; y!5; c!3 -. s!2; y!6; c!3 +. s!2; y!7; s!3].
Definition b16_dst2 (self : bf16 T) (x : list T) : list T :=
  let tw := b16_tw self in
  let y := b8_dct2 (b16_b8 self)
    [x!0 -. x!15; -. x!1 +. x!14; x!2 -. x!13; -. x!3 +. x!12; x!4 -. x!11; -. x!5 +. x!10; x!6 -. x!9; -. x!7 +. x!8] in
  let d i := if Nat.even i then x!i +. x!(15 - i) else -. x!i -. x!(15 - i) in
  let c := b4_dct2 (b16_b4 self)
    [d 0 *. fst tw!c 0 +. d 7 *. snd tw!c 0; d 1 *. fst tw!c 1 +. d 6 *. snd tw!c 1;
     d 2 *. fst tw!c 2 +. d 5 *. snd tw!c 2; d 3 *. fst tw!c 3 +. d 4 *. snd tw!c 3] in
  let s := b4_dst2 (b16_b4 self)
    [d 4 *. fst tw!c 3 -. d 3 *. snd tw!c 3; d 5 *. fst tw!c 2 -. d 2 *. snd tw!c 2;
     d 6 *. fst tw!c 1 -. d 1 *. snd tw!c 1; d 7 *. fst tw!c 0 -. d 0 *. snd tw!c 0] in
  [s!3; y!7; c!3 +. s!2; y!6; c!3 -. s!2; y!5; c!2 -. s!1; y!4;
   c!2 +. s!1; y!3; c!1 +. s!0; y!2; c!1 -. s!0; y!1; c!0; y!0].
Definition b16_dct3 (self : bf16 T) (x : list T) : list T :=
  let tw := b16_tw self in
  let e := b8_dct3 (b16_b8 self) [x!0; x!2; x!4; x!6; x!8; x!10; x!12; x!14] in
  let u := b4_dct3 (b16_b4 self) [x!1 *. two; x!3 +. x!5; x!7 +. x!9; x!11 +. x!13] in
  let v := b4_dst3 (b16_b4 self) [x!3 -. x!5; x!7 -. x!9; x!11 -. x!13; x!15 *. two] in
  let low i := u!i *. fst tw!c i +. v!i *. snd tw!c i in
  let upp i := u!i *. snd tw!c i -. v!i *. fst tw!c i in
  [e!0 +. low 0; e!1 +. low 1; e!2 +. low 2; e!3 +. low 3;
   e!4 +. upp 3; e!5 +. upp 2; e!6 +. upp 1; e!7 +. upp 0;
   e!7 -. upp 0; e!6 -. upp 1; e!5 -. upp 2; e!4 -. upp 3;
   e!3 -. low 3; e!2 -. low 2; e!1 -. low 1; e!0 -. low 0].
Definition b16_dst3 (self : bf16 T) (x : list T) : list T :=
  let tw := b16_tw self in
  let e := b8_dct3 (b16_b8 self) [x!15; x!13; x!11; x!9; x!7; x!5; x!3; x!1] in
  let u := b4_dct3 (b16_b4 self) [x!14 *. two; x!12 +. x!10; x!8 +. x!6; x!4 +. x!2] in
  let v := b4_dst3 (b16_b4 self) [x!12 -. x!10; x!8 -. x!6; x!4 -. x!2; x!0 *. two] in
  let low i := u!i *. fst tw!c i +. v!i *. snd tw!c i in
  let upp i := u!i *. snd tw!c i -. v!i *. fst tw!c i in
  [e!0 +. low 0; -. (e!1 +. low 1); e!2 +. low 2; -. (e!3 +. low 3);
   e!4 +. upp 3; -. (e!5 +. upp 2); e!6 +. upp 1; -. (e!7 +. upp 0);
   e!7 -. upp 0; upp 1 -. e!6; e!5 -. upp 2; upp 3 -. e!4;
   e!3 -. low 3; low 2 -. e!2; e!1 -. low 1; low 0 -. e!0].

Ltac bf_go16 :=
  cbv zeta; repeat (first [bf_step | bf_local Butterfly8_inplace_dct2_ok | bf_local Butterfly8_inplace_dct3_ok
    | bf_local Butterfly4_inplace_dct2_ok | bf_local Butterfly4_inplace_dct3_ok
    | bf_local Butterfly4_inplace_dst2_ok | bf_local Butterfly4_inplace_dst3_ok]).

Lemma Butterfly16_inplace_dct2_ok self : inplace (Butterfly16_inplace_dct2 self) 16 (b16_dct2 self).
Proof. bf_start; unfold Butterfly16_inplace_dct2. unfold rd_add, rd_sub. bf_go16. bf_end. Qed.
Lemma Butterfly16_inplace_dct3_ok self : inplace (Butterfly16_inplace_dct3 self) 16 (b16_dct3 self).
Proof.
  bf_start; unfold Butterfly16_inplace_dct3. unfold rd_add, rd_sub. unfold for_range. cbn [for_n Nat.sub].
  bf_go16. bf_end.
Qed.
Lemma Butterfly16_inplace_dst2_ok self : inplace (Butterfly16_inplace_dst2 self) 16 (b16_dst2 self).
Proof. bf_start; unfold Butterfly16_inplace_dst2. unfold rd_add, rd_sub, rd_nsub, rd_nadd. bf_go16. bf_end. Qed.
Lemma Butterfly16_inplace_dst3_ok self : inplace (Butterfly16_inplace_dst3 self) 16 (b16_dst3 self).
Proof. bf_start; unfold Butterfly16_inplace_dst3. unfold rd_add, rd_sub. bf_go16. bf_end. Qed.

(** The trait methods. *)
Lemma inplace_computes f n h (g : meth T) :
  (forall b s, g b s = validate_buffer b n (f b)) -> inplace f n h ->
  computes g n 0 (fun x i => at_ (h x) i).
Proof.
  intros Hg H m b s Hb _ _. rewrite Hg. unfold validate_buffer. rewrite Hb, Nat.eqb_refl. cbn [negb].
  eapply wp_conseq; [apply H; exact Hb|]. intros [] m' [E K]. split.
  - intros i Hi. rewrite <- E. unfold at_. rewrite nth_vals by lia. reflexivity.
  - intros q Hq _. apply K. exact Hq.
Qed.
Lemma Butterfly2_dct2_ok : computes Butterfly2_dct2 2 0 (fun x i => at_ (b2_dct2 x) i).
Proof.
  apply inplace_computes with (f := fun b =>
    a <- rd b 0 ;; c <- rd b 1 ;;
    let sum := a +. c in
    a <- rd b 0 ;; c <- rd b 1 ;;
    wr b 1 ((a -. c) *. frac_1_sqrt_2) ;;; wr b 0 sum); [reflexivity|].
  bf_start. cbv zeta; repeat bf_step. bf_end.
Qed.
Lemma Butterfly2_dct3_ok : computes Butterfly2_dct3 2 0 (fun x i => at_ (b2_dct3 x) i).
Proof.
  apply inplace_computes with (f := fun b =>
    a <- rd b 0 ;; let half_0 := a *. half in
    c <- rd b 1 ;; let frac_1 := c *. frac_1_sqrt_2 in
    wr b 0 (half_0 +. frac_1) ;;; wr b 1 (half_0 -. frac_1)); [reflexivity|].
  bf_start. cbv zeta; repeat bf_step. bf_end.
Qed.
Lemma Butterfly2_dst2_ok : computes Butterfly2_dst2 2 0 (fun x i => at_ (b2_dst2 x) i).
Proof.
  apply inplace_computes with (f := fun b =>
    a <- rd b 0 ;; c <- rd b 1 ;;
    let sum := (a +. c) *. frac_1_sqrt_2 in
    a <- rd b 0 ;; c <- rd b 1 ;;
    wr b 1 (a -. c) ;;; wr b 0 sum); [reflexivity|].
  bf_start. cbv zeta; repeat bf_step. bf_end.
Qed.
Lemma Butterfly2_dst3_ok : computes Butterfly2_dst3 2 0 (fun x i => at_ (b2_dst3 x) i).
Proof.
  apply inplace_computes with (f := fun b =>
    a <- rd b 0 ;; let frac_0 := a *. frac_1_sqrt_2 in
    c <- rd b 1 ;; let half_1 := c *. half in
    wr b 0 (frac_0 +. half_1) ;;; wr b 1 (frac_0 -. half_1)); [reflexivity|].
  bf_start. cbv zeta; repeat bf_step. bf_end.
Qed.

End SemButterflies.
