(** Sequences of planner calls, and calls on what they return, in either build. *)
From Coq Require Import List Arith Bool Lia Reals.
From Verif Require Import Prog Num Model_Common Model_Naive Model_Fft Model_Butterflies
  Model_SplitRadix Model_Mdct Model_Plan Model_Api Model_Checked Model_Checked_Plan Spec Spec_Api Spec_Fft Spec_Plan Spec_Methods
  Spec_Checked Api Api_Mdct Planner Canon Plan_Theorems Methods Mdct_Theorems Construct
  Checked_Eq Checked_Plan.
Import ListNotations.
Open Scope nat_scope.

Section CheckedTheorems.
Context {T F : Type} {N : Num T F}.
Variable B : build.
Variable MAX : nat.
Variable pf : nat -> fft T.
Hypothesis Hpf : fft_fits pf.

Lemma meth_same (f' f : meth T) : meth_follows B f' f -> same_method B f' f.
Proof. intros H m b s. apply follows_run, H. Qed.
Lemma meth4_same (f' f : slice -> slice -> slice -> slice -> prog T unit) : meth4_follows B f' f -> same_method4 B f' f.
Proof. intros H m a b c s. apply follows_run, H. Qed.

Definition sims (c : pcall T) (p' p : planner T) : Prop :=
  (prel B pf (exec_ck B MAX c p') (exec c p) /\ returned_arc_ck B MAX c p' = returned_arc c p /\
   same_result B (returned_instance_ck B MAX c p') (returned_instance c p))
  \/ (B = Release /\ returned_instance c p = Err EOverflow).
Lemma sims_of {A} (R : A -> A -> Prop) (k : A -> instance (T := T)) M' M p' p :
  (forall x' x, R x' x -> same_instance B (k x') (k x)) ->
  pmf B pf (arel R) M' M -> prel B pf p' p ->
  (prel B pf (fst (M' p')) (fst (M p)) /\ id_of (snd (M' p')) = id_of (snd (M p)) /\
   same_result B (value_of k (snd (M' p'))) (value_of k (snd (M p))))
  \/ (B = Release /\ value_of k (snd (M p)) = Err EOverflow).
Proof.
  intros HR H Hp. destruct (H p' p Hp) as [[H1 H2]|[H1 H2]].
  - left. split; [exact H1|]. destruct (snd (M' p')) as [a'|e'], (snd (M p)) as [a|e]; cbn; try contradiction.
    + destruct H2 as [H2 H3]. split; [now f_equal | now apply HR].
    + now split.
  - right. split; [exact H1|]. now rewrite H2.
Qed.

Lemma step_sims c p' p : fits MAX pf (size c) -> prel B pf p' p -> sims c p' p.
Proof.
  intros Hn Hp. change (fits MAX pf (size c)) with (room MAX pf (size c)) in Hn.
  destruct c as [n|n|n|n|n|n|n|n|n|n|n|n|n|n|n|n|n w]; cbn [size] in Hn; unfold sims;
    cbn [exec_ck exec returned_arc_ck returned_arc returned_instance_ck returned_instance];
    unfold plan_dct3_ck, plan_dst2_ck, plan_dst3_ck, plan_dct7_ck, plan_dst4_ck, plan_dst7_ck,
      plan_dct3, plan_dst2, plan_dst3, plan_dct7, plan_dst4, plan_dst7.
  all: first
    [ eapply (sims_of _ IX); [|first [apply dct1_follows|apply dct5_follows|apply dct8_follows|apply dst1_follows|apply dst5_follows|apply dst8_follows]; eassumption|exact Hp];
      intros x' x (A1 & A2 & A3); split; [exact A1|split; [exact A2|now apply meth_same]]
    | eapply (sims_of _ I23); [|apply dct2_follows; eassumption|exact Hp];
      intros x' x ((A1 & A2 & A3 & A4 & A5 & A6) & _); repeat split; try assumption; now apply meth_same
    | eapply (sims_of _ I4); [|apply dct4_follows; eassumption|exact Hp];
      intros x' x ((A1 & A2 & A3 & A4) & _); repeat split; try assumption; now apply meth_same
    | eapply (sims_of _ IC67); [|apply dct6_follows; eassumption|exact Hp];
      intros x' x (A1 & A2 & A3 & A4); repeat split; try assumption; now apply meth_same
    | eapply (sims_of _ IS67); [|apply dst6_follows; eassumption|exact Hp];
      intros x' x (A1 & A2 & A3 & A4); repeat split; try assumption; now apply meth_same
    | eapply (sims_of _ IM); [|apply mdct_plan_follows; eassumption|exact Hp];
      intros x' x (A1 & A2 & A3 & A4); repeat split; try assumption; now apply meth4_same ].
Qed.

Lemma canon_overflow (c : pcall T) : canon_of pf c = Err EOverflow -> size c = 0.
Proof.
  destruct c as [n|n|n|n|n|n|n|n|n|n|n|n|n|n|n|n|n w]; cbn [canon_of size].
  all: try (destruct (canon23_len pf Hpf n) as (o & -> & _); discriminate).
  all: try (destruct (canon4_len pf Hpf n) as (o & -> & _); discriminate).
  all: try discriminate.
  - destruct (Nat.ltb_spec n 10).
    + unfold canon_dct1. destruct (Nat.ltb_spec n 10); [|lia].
      unfold Dct1Naive_new, rassert, rsub. destruct (negb _); [|intros E; discriminate E]. cbn [rbind].
      destruct (Nat.leb_spec 1 n); [discriminate|lia].
    + intros E. assert (X : exists e, canon_dct1 pf n = Err e).
      { destruct (canon_dct1 pf n); [discriminate | eauto]. }
      apply canon_dct1_err in X; [lia | exact Hpf].
  - intros E. apply (canon_dct5_err (T := T)). destruct (canon_dct5 n); [discriminate | eauto].
  - intros E. apply (canon_c67_err (T := T)). destruct (canon_c67 n); [discriminate | eauto].
  - intros E. apply (canon_c67_err (T := T)). destruct (canon_c67 n); [discriminate | eauto].
  - intros E. exfalso. apply (canon_dst1_err pf Hpf n). destruct (canon_dst1 pf n); [discriminate | eauto].
  - intros E. exfalso. apply (canon_s67_err pf Hpf n). destruct (canon_s67 pf n); [discriminate | eauto].
  - intros E. exfalso. apply (canon_s67_err pf Hpf n). destruct (canon_s67 pf n); [discriminate | eauto].
  - intros E. apply (canon_dst8_err (T := T)). destruct (canon_dst8 n); [discriminate | eauto].
  - unfold canon_mdct. destruct (canon4_len pf Hpf n) as (o & -> & _). cbn [rbind]. unfold MdctViaDct4_new, rassert.
    destruct (_ =? 0); [|discriminate]. cbn [rbind]. destruct (_ =? _); discriminate.
Qed.
Lemma returned_overflow (c : pcall T) cs : returned_instance c (after pf cs) = Err EOverflow -> size c = 0.
Proof.
  assert (D : not_mdct c \/ exists n w, c = CMdct n w) by (destruct c; cbn; eauto).
  destruct D as [D|(n & w & ->)].
  - rewrite returned_canon by exact D. apply canon_overflow.
  - rewrite mdct_first_window by exact Hpf. apply (canon_overflow (CMdct n (window_in_force cs n w))).
Qed.

Lemma prel_new : prel B pf (planner_new pf) (planner_new pf).
Proof. repeat split; constructor. Qed.
Lemma after_snoc_ck cs c : after_ck B MAX pf (cs ++ [c]) = exec_ck B MAX c (after_ck B MAX pf cs).
Proof. unfold after_ck. now rewrite fold_left_app. Qed.
Lemma after_snoc cs (c : pcall T) : after pf (cs ++ [c]) = exec c (after pf cs).
Proof. unfold after. now rewrite fold_left_app. Qed.
Lemma after_prel cs : Forall (admissible B MAX pf) cs -> prel B pf (after_ck B MAX pf cs) (after pf cs).
Proof.
  induction cs as [|c cs IH] using rev_ind; intros H; [apply prel_new|].
  apply Forall_app in H as [H1 H2]. inversion H2 as [|? ? [Hc Hc'] _]; subst.
  rewrite after_snoc_ck, after_snoc.
  destruct (step_sims c _ _ Hc (IH H1)) as [(A & _)|[E1 E2]]; [exact A|].
  apply returned_overflow in E2. destruct Hc' as [->|Hc']; [discriminate | lia].
Qed.

Lemma planned_same_build cs c : Forall (admissible B MAX pf) cs -> admissible B MAX pf c ->
  returned_arc_ck B MAX c (after_ck B MAX pf cs) = returned_arc c (after pf cs) /\
  same_result B (returned_instance_ck B MAX c (after_ck B MAX pf cs)) (returned_instance c (after pf cs)).
Proof.
  intros Hcs [Hc Hc']. destruct (step_sims c _ _ Hc (after_prel cs Hcs)) as [(_ & A)|[E1 E2]]; [exact A|].
  apply returned_overflow in E2. destruct Hc' as [->|Hc']; [discriminate | lia].
Qed.

(** Calls. *)
Lemma same_call f' f x s r : same_method B f' f -> call f x s = Returned r -> call f' x s = call f x s.
Proof.
  intros H E. unfold call in * . cbv zeta in * . rewrite H; [reflexivity|]. right. intros m' Em. rewrite Em in E. discriminate.
Qed.
Lemma same_call_panic f' f x s e r : same_method B f' f -> call f x s = Panics e r -> e <> EOverflow -> call f' x s = call f x s.
Proof.
  intros H E He. unfold call in * . cbv zeta in * . rewrite H; [reflexivity|]. right. intros m' Em. rewrite Em in E. congruence.
Qed.
Lemma same_call4 f' f a b c s r : same_method4 B f' f -> call4 f a b c s = Returned r -> call4 f' a b c s = call4 f a b c s.
Proof.
  intros H E. unfold call4 in * . cbv zeta in * . rewrite H; [reflexivity|]. right. intros m' Em. rewrite Em in E. discriminate.
Qed.
Lemma same_call_within f' f x pa pb n o s r : same_method4 B f' f -> call_within f x pa pb n o s = Returned r ->
  call_within f' x pa pb n o s = call_within f x pa pb n o s.
Proof.
  intros H E. unfold call_within in * . cbv zeta in * . rewrite H; [reflexivity|]. right. intros m' Em. rewrite Em in E. discriminate.
Qed.

(** The method of a request, from the instance. *)
Lemma method_same c p' p f sl : same_result B (returned_instance_ck B MAX c p') (returned_instance c p) ->
  planned_method c p = Some (f, sl) -> exists f', planned_method_ck B MAX c p' = Some (f', sl) /\ same_method B f' f.
Proof.
  destruct c; cbn [returned_instance_ck returned_instance planned_method planned_method_ck]; try discriminate;
  match goal with |- same_result _ (value_of _ ?r') (value_of _ ?r) -> _ => destruct r', r end; cbn [value_of same_result use];
  try contradiction; try discriminate; intros H E; inversion E; subst; clear E; cbn [same_instance] in H;
  eexists; split; try (f_equal; f_equal); apply H.
Qed.

Lemma planned_calls cs c : fft_all_clean pf -> Forall (admissible B MAX pf) cs -> admissible B MAX pf c -> legal c ->
  exists f f' sl, planned_method c (after pf cs) = Some (f, sl) /\ planned_method_ck B MAX c (after_ck B MAX pf cs) = Some (f', sl) /\
  forall x s, length x = size c -> sl <= length s -> exists r, call f x s = Returned r /\ call f' x s = Returned r.
Proof.
  intros Hcl Hcs Hc Hl. destruct (planned_returns pf Hpf Hcl c cs Hl) as (f & sl & E & H).
  destruct (method_same c _ _ f sl (proj2 (planned_same_build cs c Hcs Hc)) E) as (f' & E' & Hs).
  exists f, f', sl. split; [exact E|]. split; [exact E'|]. intros x s Hx Hsl. destruct (H x s Hx Hsl) as (y & s' & R).
  exists (y, s'). split; [exact R|]. now rewrite (same_call f' f x s _ Hs R).
Qed.
End CheckedTheorems.

Section Exact.
Variable B : build.
Variable MAX : nat.
Variable pf : nat -> fft R.
Hypothesis Hpf : fft_fits pf.
Hypothesis Hex : fft_all_exact pf.

Lemma same_implements f' f n sl t : same_method B f' f -> implements f n sl t -> implements f' n sl t.
Proof.
  intros H K x s Hx Hs. destruct (K x s Hx Hs) as (s' & E & R). exists s'. split; [|exact R].
  now rewrite (same_call B f' f x s _ H E).
Qed.
Lemma same_implements_zeroed f' f n sl t : same_method B f' f -> implements_zeroed f n sl t -> implements_zeroed f' n sl t.
Proof.
  intros H K x s Hx Hs Hz. destruct (K x s Hx Hs Hz) as (s' & E & R). exists s'. split; [|exact R].
  now rewrite (same_call B f' f x _ _ H E).
Qed.
Lemma same_process f' f sl x r : same_method B f' f -> process f sl x = Returned r -> process f' sl x = Returned r.
Proof.
  intros H E. unfold process in * . destruct (call f x (repeat zero sl)) as [v|? []|] eqn:C; try discriminate.
  now rewrite (same_call B f' f x _ _ H C), C.
Qed.

Lemma planned_exact cs c : Forall (admissible B MAX pf) cs -> admissible B MAX pf c -> legal c ->
  exists f sl, planned_method_ck B MAX c (after_ck B MAX pf cs) = Some (f, sl) /\
  does_zeroed f (size c) sl (reference c) /\ (clean c -> does f (size c) sl (reference c)).
Proof.
  intros Hcs Hc Hl. destruct (planned_all pf Hpf Hex c cs Hl) as (f & sl & E & [Z1 Z2] & D).
  destruct (method_same B MAX c _ _ f sl (proj2 (planned_same_build B MAX pf Hpf cs c Hcs Hc)) E) as (f' & E' & Hs).
  exists f', sl. split; [exact E'|]. split.
  - split; [now apply (same_implements_zeroed f' f)|]. intros x Hx. apply (same_process f' f); [exact Hs|]. apply Z2, Hx.
  - intros C. destruct (D C) as [D1 D2]. split; [now apply (same_implements f' f)|]. intros x Hx. apply (same_process f' f); [exact Hs|]. apply D2, Hx.
Qed.

Lemma planned_mdct_exact cs n w : Forall (admissible B MAX pf) cs -> admissible B MAX pf (CMdct n w) ->
  n mod 2 = 0 -> length (window_in_force cs n w (n * 2)) = n * 2 ->
  exists a, snd (plan_mdct_ck B MAX n w (after_ck B MAX pf cs)) = Ok a /\ correct_mdct (arc_val a) n (window_in_force cs n w (n * 2)).
Proof.
  intros Hcs Hc Hev Hw. destruct (planned_mdct_in_force pf Hpf Hex cs n w Hev Hw) as (a & E & L & K1 & K2 & K3).
  pose proof (proj2 (planned_same_build B MAX pf Hpf cs _ Hcs Hc)) as S. cbn [returned_instance_ck returned_instance] in S.
  rewrite E in S. destruct (snd (plan_mdct_ck B MAX n w (after_ck B MAX pf cs))) as [a'|e]; [|contradiction].
  cbn [value_of same_result same_instance] in S. destruct S as (S1 & S2 & S3 & S4).
  exists a'. split; [reflexivity|]. unfold correct_mdct. rewrite S1, S2. split; [exact L|]. split; [|split].
  - intros x y o s H1 H2 H3 H4. destruct (K1 x y o s H1 H2 H3 H4) as (s' & C & R). exists s'. split; [|exact R].
    now rewrite (same_call4 B _ _ _ _ _ _ _ S3 C).
  - intros x pa pb o s H1 H2 H3 H4. destruct (K2 x pa pb o s H1 H2 H3 H4) as (s' & C & R). exists s'. split; [|exact R].
    now rewrite (same_call_within B _ _ _ _ _ _ _ _ _ S3 C).
  - intros x a1 b1 s H1 H2 H3 H4. destruct (K3 x a1 b1 s H1 H2 H3 H4) as (a2 & b2 & s' & C & R). exists a2, b2, s'. split; [|exact R].
    now rewrite (same_call4 B _ _ _ _ _ _ _ S4 C).
Qed.
End Exact.
