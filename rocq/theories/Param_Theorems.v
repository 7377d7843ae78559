(** Relations between sample types: what the claims need. *)
From Coq Require Import List Arith Lia Bool.
From Verif Require Import Prog Num Model_Common Model_Naive Model_Fft Model_Butterflies Model_SplitRadix
  Model_Mdct Model_Plan Model_Api Spec_Fft Spec_Plan Spec_Methods Spec_Param Wp Planner Canon Plan_Theorems Param Param_Plan.
Import ListNotations.
Open Scope nat_scope.

(** Without an FFT, the FFT planner does not matter. *)
Section NoFft.
Context {T F : Type} {N : Num T F}.
Variables pf pf' : nat -> fft T.
Lemma canon23_no_fft k : canon23 pf (2 ^ S k) = canon23 pf' (2 ^ S k).
Proof.
  remember (2 ^ S k) as n eqn:E. revert k E. induction n as [n IH] using lt_wf_ind. intros k E. rewrite !canon23_eq. unfold canon23_step.
  destruct (existsb _ _) eqn:B; [reflexivity|].
  assert (P : is_power_of_two n = true) by (apply is_pow2_iff; exists (S k); exact E).
  destruct (2 <? n) eqn:L; cycle 1.
  { apply Nat.ltb_ge in L. destruct k as [|k]; [subst n; discriminate|]. rewrite E in L. cbn [Nat.pow] in L. pose proof (Nat.pow_nonzero 2 k). lia. }
  rewrite P. cbn [andb]. apply Nat.ltb_lt in L.
  destruct k as [|k]; [rewrite E in L; cbn in L; lia|]. destruct k as [|k]; [subst n; discriminate|].
  assert (E2 : n / 2 = 2 ^ S (S k)) by (rewrite E; rewrite (Nat.pow_succ_r' 2 (S (S k))), Nat.mul_comm; apply Nat.div_mul; lia).
  assert (E4 : n / 4 = 2 ^ S k) by (rewrite E; rewrite (Nat.pow_succ_r' 2 (S (S k))), (Nat.pow_succ_r' 2 (S k)); replace (2 * (2 * 2 ^ S k)) with (2 ^ S k * 4) by lia; apply Nat.div_mul; lia).
  rewrite (IH (n / 2)) with (k := S k), (IH (n / 4)) with (k := k); [reflexivity| | | |]; try assumption; apply Nat.div_lt; lia.
Qed.
Lemma canon4_no_fft k : canon4 pf (2 ^ k) = canon4 pf' (2 ^ k).
Proof.
  destruct k as [|[|[|k]]]; [reflexivity|reflexivity|reflexivity|]. unfold canon4.
  assert (E : 2 ^ S (S (S k)) / 2 = 2 ^ S (S k)) by (rewrite (Nat.pow_succ_r' 2 (S (S k))), Nat.mul_comm; apply Nat.div_mul; lia).
  rewrite E, (canon23_no_fft (S k)).
  replace (2 ^ S (S (S k)) mod 2) with 0; [reflexivity|].
  rewrite (Nat.pow_succ_r' 2 (S (S k))), Nat.mul_comm. symmetry. apply Nat.mod_mul. lia.
Qed.
Lemma canon_of_no_fft c : no_fft c -> canon_of pf c = canon_of pf' c.
Proof.
  destruct c; cbn [no_fft canon_of]; intros H; try reflexivity; try (destruct H as [k ->]; rewrite canon23_no_fft || rewrite canon4_no_fft; reflexivity).
  - unfold canon_dct1. apply Nat.ltb_lt in H. rewrite H. reflexivity.
  - unfold canon_dst1. apply Nat.ltb_lt in H. rewrite H. reflexivity.
  - unfold canon_s67. apply Nat.ltb_lt in H. rewrite H. reflexivity.
  - unfold canon_s67. apply Nat.ltb_lt in H. rewrite H. reflexivity.
  - destruct H as [k ->]. unfold canon_mdct. rewrite canon4_no_fft. reflexivity.
Qed.
End NoFft.
Definition idle_fft {T} (n : nat) : fft T := mkFft T n Forward 0 (fun x s => (x, s)).

Section Main.
Context {T T' F F' : Type} {N : Num T F} {N' : Num T' F'}.
Variables (D C : T -> T' -> Prop) (V : F -> F' -> Prop).
Hypothesis K : compatible D C V.
Variables (pf : nat -> fft T) (pf' : nat -> fft T').
Hypothesis (Hf : fft_fits pf) (Hf' : fft_fits pf').

Lemma idle_alike n : fft_alike D (idle_fft n) (idle_fft n).
Proof. split; [reflexivity|]. split; [reflexivity|]. split; [reflexivity|]. intros b b' s s' Hb Hs. split; assumption. Qed.
Lemma returned_rel' c c' cs cs' : no_fft c \/ (forall n, fft_alike D (pf n) (pf' n)) -> call_alike C c c' -> Forall2 (call_alike C) cs cs' ->
  rres (reli D) (returned_instance c (after pf cs)) (returned_instance c' (after pf' cs')).
Proof.
  intros [Hn|Hpf] Hc Hcs; [|apply (returned_rel D C V K pf pf' Hpf); assumption].
  assert (Hn' : no_fft c') by (destruct c, c'; cbn [call_alike no_fft] in * ; try contradiction; try match type of Hc with _ /\ _ => destruct Hc as [Hc _] end; subst; auto).
  assert (Dc : not_mdct c \/ exists n w, c = CMdct n w) by (destruct c; cbn; eauto).
  destruct Dc as [Hm|(n & w & ->)].
  - rewrite !returned_canon by eauto using (call_not_mdct C).
    rewrite (canon_of_no_fft pf idle_fft c Hn), (canon_of_no_fft pf' idle_fft c' Hn'). apply (canon_of_rel D C V K _ _ idle_alike), Hc.
  - destruct c' as [| | | | | | | | | | | | | | | |n' w']; cbn [call_alike] in Hc; try contradiction. destruct Hc as [<- Hw].
    rewrite (mdct_first_window pf Hf), (mdct_first_window pf' Hf').
    rewrite (canon_of_no_fft pf idle_fft), (canon_of_no_fft pf' idle_fft) by assumption.
    apply (canon_of_rel D C V K _ _ idle_alike). split; [reflexivity|]. apply in_force_alike; assumption.
Qed.
Lemma returned_rel_plain c c' cs cs' : not_mdct c -> no_fft c \/ (forall n, fft_alike D (pf n) (pf' n)) -> call_alike C c c' ->
  rres (reli D) (returned_instance c (after pf cs)) (returned_instance c' (after pf' cs')).
Proof.
  intros Hm H Hc. rewrite !returned_canon by eauto using (call_not_mdct C).
  destruct H as [Hn|Hpf]; [|apply (canon_of_rel D C V K _ _ Hpf), Hc].
  assert (Hn' : no_fft c') by (destruct c, c'; cbn [call_alike no_fft] in * ; try contradiction; try match type of Hc with _ /\ _ => destruct Hc as [Hc _] end; subst; auto).
  rewrite (canon_of_no_fft pf idle_fft c Hn), (canon_of_no_fft pf' idle_fft c' Hn'). apply (canon_of_rel D C V K _ _ idle_alike), Hc.
Qed.
Lemma sims_alike f g : sims D f g -> meth_alike D f g.
Proof. intros H b s. eapply psim_runs, H. Qed.
Lemma sims4_alike f g : sims4 D f g -> meth4_alike D f g.
Proof. intros H x y z s. eapply psim_runs, H. Qed.

Lemma planned_alike c c' cs cs' : no_fft c \/ (forall n, fft_alike D (pf n) (pf' n)) -> call_alike C c c' ->
  match planned_method c (after pf cs), planned_method c' (after pf' cs') with
  | Some (f, sl), Some (g, sl') => sl = sl' /\ meth_alike D f g
  | None, None => True
  | _, _ => False
  end.
Proof.
  intros H Hc. assert (R : not_mdct c -> rres (reli D) (returned_instance c (after pf cs)) (returned_instance c' (after pf' cs'))) by (intros Hm; apply returned_rel_plain; assumption).
  destruct c as [n|n|n|n|n|n|n|n|n|n|n|n|n|n|n|n|n w], c' as [n'|n'|n'|n'|n'|n'|n'|n'|n'|n'|n'|n'|n'|n'|n'|n'|n' w']; cbn [call_alike] in Hc; try contradiction;
    cbn [planned_method]; try exact I; subst n'; specialize (R I); cbn [returned_instance] in R; rewrite !value_of_rmap in R;
    match goal with |- match use _ _ ?x with _ => _ end => destruct x as [a|] end; cbn [use]; match goal with |- context [use _ _ ?x] => destruct x as [a'|] end; cbn [use rmap rres reli] in * ;
    try contradiction; try exact I.
  all: destruct R as (L & S & R); split; [exact S|]; apply sims_alike;
    first [exact R|exact (proj1 R)|exact (proj2 R)|exact (proj1 (proj2 R))|exact (proj1 (proj2 (proj2 R)))|exact (proj2 (proj2 (proj2 R)))].
Qed.
Lemma planned_mdct_alike n w w' cs cs' : no_fft (CMdct n w) \/ (forall n, fft_alike D (pf n) (pf' n)) -> (forall m, Forall2 C (w m) (w' m)) -> Forall2 (call_alike C) cs cs' ->
  match snd (plan_mdct n w (after pf cs)), snd (plan_mdct n w' (after pf' cs')) with
  | Ok a, Ok b => m_scratch (arc_val a) = m_scratch (arc_val b) /\ meth4_alike D (t_mdct (arc_val a)) (t_mdct (arc_val b)) /\
    meth4_alike D (t_imdct (arc_val a)) (t_imdct (arc_val b))
  | Err e, Err e' => e = e'
  | _, _ => False
  end.
Proof.
  intros H Hw Hcs. pose proof (returned_rel' (CMdct n w) (CMdct n w') cs cs' H (conj eq_refl Hw) Hcs) as R. cbn [returned_instance] in R. rewrite !value_of_rmap in R.
  destruct (snd (plan_mdct n w (after pf cs))) as [a|], (snd (plan_mdct n w' (after pf' cs'))) as [a'|]; cbn [rmap rres reli] in R; try exact R; try contradiction.
  destruct R as (L & S & R1 & R2). split; [exact S|]. split; apply sims4_alike; assumption.
Qed.
Lemma naive_mdct_alike n w w' : (forall m, Forall2 C (w m) (w' m)) ->
  match MdctNaive_new n w, MdctNaive_new n w' with
  | Ok d, Ok d' => m_scratch (MdctNaive_obj d) = m_scratch (MdctNaive_obj d') /\ meth4_alike D (t_mdct (MdctNaive_obj d)) (t_mdct (MdctNaive_obj d')) /\
    meth4_alike D (t_imdct (MdctNaive_obj d)) (t_imdct (MdctNaive_obj d'))
  | Err e, Err e' => e = e'
  | _, _ => False
  end.
Proof.
  intros Hw. pose proof (MdctNaive_new_rel D C V K n w w' Hw) as R. destruct (MdctNaive_new n w) as [d|], (MdctNaive_new n w') as [d'|]; cbn [rmap rres] in R; try exact R; try contradiction.
  destruct R as (L & S & R1 & R2). split; [exact S|]. split; apply sims4_alike; assumption.
Qed.
Lemma naive23_alike n : let o := Type2And3Naive_obj (N := N) (Type2And3Naive_new n) in let o' := Type2And3Naive_obj (N := N') (Type2And3Naive_new n) in
  t23_scratch o = t23_scratch o' /\ meth_alike D (t_dct2 o) (t_dct2 o') /\ meth_alike D (t_dct3 o) (t_dct3 o') /\
  meth_alike D (t_dst2 o) (t_dst2 o') /\ meth_alike D (t_dst3 o) (t_dst3 o').
Proof.
  cbv zeta. destruct (T23Naive_new_rel D C V K n) as (L & S & A & B & A' & B'). split; [exact S|]. repeat split; apply sims_alike; assumption.
Qed.

(** Calls on vectors. *)
Lemma call_vectors f g b b' s s' : meth_alike D f g -> Forall2 D b b' -> Forall2 D s s' ->
  observed_alike (fun x y => Forall2 D (fst x) (fst y) /\ Forall2 D (snd x) (snd y)) (call f b s) (call g b' s').
Proof.
  intros H Hb Hs. unfold call. rewrite (Forall2_len _ _ _ Hb), (Forall2_len _ _ _ Hs).
  set (sb := mkS 0 (length b')). set (ss := mkS (length b') (length s')).
  pose proof (H sb ss _ _ (mem_of_alike D zero zero _ _ (k_zero _ _ _ K) (Forall2_app Hb Hs))) as R.
  destruct (run (f sb ss) _), (run (g sb ss) _); cbn [observed_alike fst snd]; try contradiction; try exact I.
  - split; apply vals_alike, R.
  - split; [apply R|]. split; apply vals_alike, R.
Qed.
Lemma process_vectors f g sl b b' : meth_alike D f g -> Forall2 D b b' -> observed_alike (Forall2 D) (process f sl b) (process g sl b').
Proof.
  intros H Hb. unfold process.
  assert (Hs : Forall2 D (repeat zero sl) (repeat zero sl)) by (induction sl; cbn; constructor; [apply (k_zero _ _ _ K)|assumption]).
  pose proof (call_vectors f g b b' _ _ H Hb Hs) as R.
  destruct (call f b _) as [[]|? []|], (call g b' _) as [[]|? []|]; cbn [observed_alike fst snd] in * ; try contradiction; auto; [apply R|split; apply R].
Qed.
Lemma call4_vectors f g x x' y y' z z' s s' : meth4_alike D f g -> Forall2 D x x' -> Forall2 D y y' -> Forall2 D z z' -> Forall2 D s s' ->
  observed_alike (fun u v => let '(a, b, c, d) := u in let '(a', b', c', d') := v in Forall2 D a a' /\ Forall2 D b b' /\ Forall2 D c c' /\ Forall2 D d d')
    (call4 f x y z s) (call4 g x' y' z' s').
Proof.
  intros H Hx Hy Hz Hs. unfold call4. rewrite (Forall2_len _ _ _ Hx), (Forall2_len _ _ _ Hy), (Forall2_len _ _ _ Hz), (Forall2_len _ _ _ Hs).
  set (sx := mkS 0 _). set (sy := mkS _ (length y')). set (sz := mkS _ (length z')). set (ss := mkS _ (length s')).
  pose proof (H sx sy sz ss _ _ (mem_of_alike D zero zero _ _ (k_zero _ _ _ K) (Forall2_app Hx (Forall2_app Hy (Forall2_app Hz Hs))))) as R.
  destruct (run (f sx sy sz ss) _), (run (g sx sy sz ss) _); cbn [observed_alike]; try contradiction; try exact I.
  - repeat split; apply vals_alike, R.
  - split; [apply R|]. repeat split; apply vals_alike, R.
Qed.
End Main.

(** Maps. *)
Section Map.
Context {T F : Type} {N : Num T F}.
Variable g : T -> T.
Hypothesis Hg : commutes g.
Lemma commutes_compatible : compatible (fun x y => y = g x) eq (@eq F).
Proof.
  destruct Hg. constructor; intros; subst; auto; congruence.
Qed.
Lemma map_rel l l' : Forall2 (fun x y => y = g x) l l' <-> l' = map g l.
Proof.
  split.
  - induction 1; cbn; congruence.
  - intros ->. induction l; cbn; constructor; auto.
Qed.
Lemma pair_rel l l' : Forall2 (both (fun x y => y = g x)) l l' <-> l' = map (pairwise g) l.
Proof.
  split.
  - induction 1 as [|x y l l' [A B] _ ->]; cbn; [reflexivity|]. f_equal. destruct x, y. cbn in * . subst. reflexivity.
  - intros ->. induction l; cbn; constructor; auto. split; reflexivity.
Qed.
Lemma fft_commutes_alike f : fft_commutes g f -> fft_alike (fun x y => y = g x) f f.
Proof.
  intros H. split; [reflexivity|]. split; [reflexivity|]. split; [reflexivity|]. intros b b' s s' Hb Hs.
  apply pair_rel in Hb, Hs. subst. rewrite H. cbn [fst snd]. split; apply pair_rel; reflexivity.
Qed.
Lemma call_self c : call_alike eq c (c : pcall T).
Proof. destruct c; cbn; auto. split; [reflexivity|]. intros m. induction (w m); constructor; auto. Qed.
Lemma calls_self cs : Forall2 (call_alike eq) cs (cs : list (pcall T)).
Proof. induction cs; constructor; auto using call_self. Qed.
Section Planned.
Variables (pf : nat -> fft T) (cs : list (pcall T)).
Hypothesis Hf : fft_fits pf.
Lemma planned_commutes c f sl : no_fft c \/ (forall n, fft_commutes g (pf n)) -> planned_method c (after pf cs) = Some (f, sl) ->
  forall b s, call f (map g b) (map g s) = mapped g (call f b s).
Proof.
  intros H E b s.
  assert (H' : no_fft c \/ (forall n, fft_alike (fun x y => y = g x) (pf n) (pf n))) by (destruct H as [H|H]; [left; exact H|right; intros n; apply fft_commutes_alike, H]).
  pose proof (planned_alike _ _ _ commutes_compatible pf pf c c cs cs H' (call_self c)) as R. rewrite E in R. destruct R as [_ R].
  pose proof (call_vectors _ _ _ commutes_compatible f f b (map g b) s (map g s) R (proj2 (map_rel _ _) eq_refl) (proj2 (map_rel _ _) eq_refl)) as O.
  destruct (call f b s) as [[x y]|e [x y]|], (call f (map g b) (map g s)) as [[x' y']|e' [x' y']|]; cbn [observed_alike mapped fst snd] in * ; try contradiction; try reflexivity.
  - destruct O as [A B]. apply map_rel in A, B. subst. reflexivity.
  - destruct O as [-> [A B]]. apply map_rel in A, B. subst. reflexivity.
Qed.
Lemma planned_mdct_commutes n w a : no_fft (CMdct n w) \/ (forall n, fft_commutes g (pf n)) -> snd (plan_mdct n w (after pf cs)) = Ok a ->
  forall h, h = t_mdct (arc_val a) \/ h = t_imdct (arc_val a) ->
  forall x y z s, call4 h (map g x) (map g y) (map g z) (map g s) = mapped4 g (call4 h x y z s).
Proof.
  intros H E h Hh x y z s.
  assert (H' : no_fft (CMdct n w) \/ (forall n, fft_alike (fun x y => y = g x) (pf n) (pf n))) by (destruct H as [H|H]; [left; exact H|right; intros k; apply fft_commutes_alike, H]).
  pose proof (planned_mdct_alike _ _ _ commutes_compatible pf pf Hf Hf n w w cs cs H' (proj2 (call_self (CMdct n w))) (calls_self cs)) as R. rewrite E in R. destruct R as (_ & R1 & R2).
  assert (R : meth4_alike (fun x y => y = g x) h h) by (destruct Hh as [->| ->]; assumption).
  pose proof (call4_vectors _ _ _ commutes_compatible h h x (map g x) y (map g y) z (map g z) s (map g s) R (proj2 (map_rel _ _) eq_refl) (proj2 (map_rel _ _) eq_refl)
    (proj2 (map_rel _ _) eq_refl) (proj2 (map_rel _ _) eq_refl)) as O.
  destruct (call4 h x y z s) as [[[[a1 a2] a3] a4]|e [[[a1 a2] a3] a4]|], (call4 h (map g x) _ _ _) as [[[[b1 b2] b3] b4]|e' [[[b1 b2] b3] b4]|]; cbn [observed_alike mapped4] in * ; try contradiction; try reflexivity.
  - destruct O as (A1 & A2 & A3 & A4). apply map_rel in A1, A2, A3, A4. subst. reflexivity.
  - destruct O as (-> & A1 & A2 & A3 & A4). apply map_rel in A1, A2, A3, A4. subst. reflexivity.
Qed.
End Planned.
End Map.

(** Lanes. *)
Section Lanes.
Context {T F : Type} {N : Num T F}.
Variable i : nat.
Lemma lanes_compatible : compatible (N := N) (N' := Lanes N) (on_lane i) (on_lane i) eq.
Proof. unfold on_lane, lane. constructor; intros; cbn; subst; reflexivity. Qed.
Lemma lanes_rel (l : list T) l' : Forall2 (on_lane i) l l' <-> l = map (lane i) l'.
Proof.
  split.
  - induction 1; cbn; congruence.
  - intros ->. induction l'; cbn; constructor; auto. reflexivity.
Qed.
Lemma planned_lanes (pf : nat -> fft T) (pfv : nat -> fft (nat -> T)) cs csv c cv g sl :
  no_fft c \/ (forall n, fft_alike (on_lane i) (pf n) (pfv n)) -> call_alike (on_lane i) c cv ->
  planned_method (N := Lanes N) cv (after (N := Lanes N) pfv csv) = Some (g, sl) ->
  exists f, planned_method c (after pf cs) = Some (f, sl) /\
  forall b s, call f (map (lane i) b) (map (lane i) s) = lane_of i (call (N := Lanes N) g b s).
Proof.
  intros Hf Hc E. pose proof (planned_alike _ _ _ lanes_compatible pf pfv c cv cs csv Hf Hc) as R. rewrite E in R.
  destruct (planned_method c (after pf cs)) as [[f sl']|]; [|contradiction]. destruct R as [-> R]. exists f. split; [reflexivity|]. intros b s.
  pose proof (call_vectors _ _ _ lanes_compatible f g (map (lane i) b) b (map (lane i) s) s R (proj2 (lanes_rel _ _) eq_refl) (proj2 (lanes_rel _ _) eq_refl)) as O.
  destruct (call f (map (lane i) b) (map (lane i) s)) as [[x y]|e [x y]|], (call g b s) as [[x' y']|e' [x' y']|]; cbn [observed_alike lane_of fst snd] in * ; try contradiction; try reflexivity.
  - destruct O as [A B]. apply lanes_rel in A, B. subst. reflexivity.
  - destruct O as [-> [A B]]. apply lanes_rel in A, B. subst. reflexivity.
Qed.
End Lanes.
