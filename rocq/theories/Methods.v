(** The sixteen transforms, uniformly. *)
From Coq Require Import List Arith Lia Bool Reals Lra ZArith ZifyNat.
From Verif Require Import Prog Num Model_Common Model_Plan Model_Api Spec Spec_Api Spec_Fft Spec_Plan Spec_Methods
  Wp Api Contracts Objects Planner Planner_Ids Canon Plan_Theorems Trig Ref Ref_Inverse.
Import ListNotations.
Open Scope nat_scope.
Ltac Zify.zify_post_hook ::= Z.div_mod_to_equations.

Section Any.
Context {T F : Type} {N : Num T F}.
Variable pf : nat -> fft T.
Hypothesis Hpf : fft_fits pf.
Hypothesis Hcl : fft_all_clean pf.

Lemma use_ex {A} (m : PM (arc A)) (r : result A) cs run sc (P : A -> Prop) (Q : meth T -> nat -> Prop) :
  plans pf (fun _ _ => True) m (eq r) -> (exists o, r = Ok o /\ P o) -> (forall o, P o -> Q (run o) (sc o)) ->
  exists f sl, use run sc (snd (m (after pf cs))) = Some (f, sl) /\ Q f sl.
Proof.
  intros H E HQ. destruct (planned_ex pf m r cs P H E) as (a & -> & Pa). cbn [use]. eauto.
Qed.

Lemma runs_anywhere (p : meth T) n sl : runs p n sl -> determined_anywhere p n sl.
Proof.
  intros [G H]. exists (fun x => map (G x) (seq 0 n)). intros m b s Hb Hs Hd.
  specialize (H m b s Hb Hs ltac:(unfold disj; lia)). unfold wp in H.
  destruct (run (p b s) m) as [[] m'| |]; [|contradiction|contradiction]. destruct H as [A B].
  exists m'. split; [reflexivity|]. split; [|rewrite Hb; exact B].
  rewrite <- Hb. apply vals_map; [reflexivity|]. intros i Hi. apply A. lia.
Qed.
Definition good (c : pcall T) f sl :=
  determined_with_scratch f (size c) sl /\ (clean c -> determined f (size c) sl /\ determined_anywhere f (size c) sl).
Lemma good_runs2 (c : pcall T) f sl : runs2 f (size c) sl -> (clean c -> runs f (size c) sl) -> good c f sl.
Proof. intros H K. split; [apply runs2_determined, H|]. intros C. specialize (K C). split; [apply runs_determined, K|apply runs_anywhere, K]. Qed.
Lemma good_runs (c : pcall T) f sl : runs f (size c) sl -> good c f sl.
Proof. intros H. apply good_runs2; [apply runs_runs2, H|auto]. Qed.

Lemma s67_parts n cs : exists a, snd (plan_dst6 n (after pf cs)) = Ok a /\ works2_s67 (arc_val a) n /\
  (n < 45 -> runs (t_dst6 (arc_val a)) n (s67_scratch (arc_val a)) /\ runs (t_dst7 (arc_val a)) n (s67_scratch (arc_val a))).
Proof.
  apply (planned_ex pf _ _ cs (fun o => works2_s67 o n /\ (n < 45 -> runs (t_dst6 o) n (s67_scratch o) /\ runs (t_dst7 o) n (s67_scratch o)))
    (plan_dst6_ok pf _ n)).
  destruct (canon_s67_works pf Hpf Hcl n) as (o & E & H). exists o. split; [exact E|]. split; [exact H|]. intros Hn.
  unfold canon_s67 in E. destruct (Nat.ltb_spec n 45); [|lia]. apply Ok_inj in E. subst o. apply Dst6And7Naive_works.
Qed.

Lemma planned_good c cs : legal c ->
  exists f sl, planned_method c (after pf cs) = Some (f, sl) /\ good c f sl.
Proof.
  intros Hl. destruct c as [n|n|n|n|n|n|n|n|n|n|n|n|n|n|n|n|n w]; cbn [legal planned_method] in * ; try contradiction;
    unfold plan_dct3, plan_dst2, plan_dst3, plan_dst4, plan_dct7, plan_dst7.
  - eapply use_ex; [apply plan_dct1_ok|apply canon_dct1_works; assumption|]. intros o [L K]. apply good_runs, K.
  - eapply use_ex; [apply plan_dct2_ok|apply canon23_works; assumption|]. intros o (L & K2 & S2 & K3 & S3). apply good_runs, K2.
  - eapply use_ex; [apply plan_dct2_ok|apply canon23_works; assumption|]. intros o (L & K2 & S2 & K3 & S3). apply good_runs, K3, Hl.
  - eapply use_ex; [apply plan_dct4_ok|apply canon4_works; assumption|]. intros o (L & K & S). apply good_runs, K.
  - eapply use_ex; [apply plan_dct5_ok|apply canon_dct5_works; assumption|]. intros o [L K]. apply good_runs, K.
  - eapply use_ex; [apply plan_dct6_ok|apply canon_c67_works; assumption|]. intros o (L & K & S). apply good_runs, K.
  - eapply use_ex; [apply plan_dct6_ok|apply canon_c67_works; assumption|]. intros o (L & K & S). apply good_runs, S.
  - eapply use_ex; [apply plan_dct8_ok|apply canon_dct8_works|]. intros o [L K]. apply good_runs, K.
  - eapply (use_ex _ _ cs _ _ (fun o => works2_x o n /\ (n < 25 -> works_x o n))); [apply plan_dst1_ok| |].
    + destruct (canon_dst1_works pf Hpf Hcl n) as (o & E & H). exists o. split; [exact E|]. split; [exact H|]. intros Hn.
      unfold canon_dst1 in E. destruct (Nat.ltb_spec n 25); [|lia]. apply Ok_inj in E. subst o. apply Dst1Naive_works.
    + intros o [[_ H] H25]. apply good_runs2; [exact H|]. intros C. apply H25, C.
  - eapply use_ex; [apply plan_dct2_ok|apply canon23_works; assumption|]. intros o (L & K2 & S2 & K3 & S3). apply good_runs, S2.
  - eapply use_ex; [apply plan_dct2_ok|apply canon23_works; assumption|]. intros o (L & K2 & S2 & K3 & S3). apply good_runs, S3, Hl.
  - eapply use_ex; [apply plan_dct4_ok|apply canon4_works; assumption|]. intros o (L & K & S). apply good_runs, S.
  - eapply use_ex; [apply plan_dst5_ok|apply canon_dst5_works|]. intros o [L K]. apply good_runs, K.
  - destruct (s67_parts n cs) as (a & -> & (_ & K & _) & H45). cbn [use]. do 2 eexists. split; [reflexivity|].
    apply good_runs2; [exact K|]. intros C. apply H45, C.
  - destruct (s67_parts n cs) as (a & -> & (_ & _ & K) & H45). cbn [use]. do 2 eexists. split; [reflexivity|].
    apply good_runs2; [exact K|]. intros C. apply H45, C.
  - eapply use_ex; [apply plan_dst8_ok|apply canon_dst8_works; assumption|]. intros o [L K]. apply good_runs, K.
Qed.

(** Any scratch at least as long as required: same result as with the required part alone. *)
Lemma planned_cut c cs : legal c -> exists f sl, planned_method c (after pf cs) = Some (f, sl) /\
  forall x s, length x = size c -> sl <= length s ->
  exists y s1 s2, call f x s = Returned (y, s1) /\ call f x (firstn sl s) = Returned (y, s2) /\
    length s1 = length s /\ skipn sl s1 = skipn sl s.
Proof.
  intros Hl. destruct (planned_good c cs Hl) as (f & sl & E & D & _). exists f, sl. split; [exact E|].
  intros x s Lx Ls. destruct D as [t H]. destruct (H x s Lx Ls) as (s1 & A & L1 & E1).
  destruct (H x (firstn sl s) Lx) as (s2 & B & _); [rewrite firstn_length; lia|].
  rewrite firstn_firstn, Nat.min_id in B. exists (t x (firstn sl s)), s1, s2. auto.
Qed.
Lemma planned_same c cs : legal c -> clean c -> exists f sl, planned_method c (after pf cs) = Some (f, sl) /\
  forall x s1 s2, length x = size c -> sl <= length s1 -> sl <= length s2 ->
  exists y s1' s2', call f x s1 = Returned (y, s1') /\ call f x s2 = Returned (y, s2').
Proof.
  intros Hl Hc. destruct (planned_good c cs Hl) as (f & sl & E & _ & D). destruct (D Hc) as [[t H] _]. exists f, sl. split; [exact E|].
  intros x s1 s2 Lx L1 L2. destruct (H x s1 Lx L1) as (s1' & A & _). destruct (H x s2 Lx L2) as (s2' & B & _). eauto.
Qed.
Lemma planned_anywhere c cs : legal c -> clean c -> exists f sl, planned_method c (after pf cs) = Some (f, sl) /\ determined_anywhere f (size c) sl.
Proof.
  intros Hl Hc. destruct (planned_good c cs Hl) as (f & sl & E & _ & D). exists f, sl. split; [exact E|apply (D Hc)].
Qed.
Lemma planned_returns c cs : legal c -> exists f sl, planned_method c (after pf cs) = Some (f, sl) /\
  forall x s, length x = size c -> sl <= length s -> exists y s', call f x s = Returned (y, s').
Proof.
  intros Hl. destruct (planned_good c cs Hl) as (f & sl & E & [t H] & _). exists f, sl. split; [exact E|].
  intros x s Lx Ls. destruct (H x s Lx Ls) as (s1 & A & _). eauto.
Qed.
End Any.

Section Exact.
Variable pf : nat -> fft R.
Hypothesis Hpf : fft_fits pf.
Hypothesis Hex : fft_all_exact pf.

Lemma planned_all c cs : legal c -> exists f sl, planned_method c (after pf cs) = Some (f, sl) /\
  does_zeroed f (size c) sl (reference c) /\ (clean c -> does f (size c) sl (reference c)).
Proof.
  intros Hl. destruct c as [n|n|n|n|n|n|n|n|n|n|n|n|n|n|n|n|n w]; cbn [legal planned_method clean size reference] in * ; try contradiction;
    unfold plan_dct3, plan_dst2, plan_dst3, plan_dst4, plan_dct7, plan_dst7.
  - destruct (planned_dct1 pf Hpf Hex cs n Hl) as (a & -> & _ & K). cbn [use]. do 2 eexists. split; [reflexivity|]. split; [apply does_does_zeroed, K|auto].
  - destruct (planned_23 pf Hpf Hex cs n) as (a & -> & _ & K & _). cbn [use]. do 2 eexists. split; [reflexivity|]. split; [apply does_does_zeroed, K|auto].
  - destruct (planned_23 pf Hpf Hex cs n) as (a & -> & _ & _ & _ & K & _). specialize (K Hl). cbn [use]. do 2 eexists. split; [reflexivity|]. split; [apply does_does_zeroed, K|auto].
  - destruct (planned_4 pf Hpf Hex cs n) as (a & -> & _ & K & _). cbn [use]. do 2 eexists. split; [reflexivity|]. split; [apply does_does_zeroed, K|auto].
  - destruct (planned_dct5 pf cs n Hl) as (a & -> & _ & K). cbn [use]. do 2 eexists. split; [reflexivity|]. split; [apply does_does_zeroed, K|auto].
  - destruct (planned_c67 pf cs n Hl) as (a & -> & _ & K & _). cbn [use]. do 2 eexists. split; [reflexivity|]. split; [apply does_does_zeroed, K|auto].
  - destruct (planned_c67 pf cs n Hl) as (a & -> & _ & _ & K). cbn [use]. do 2 eexists. split; [reflexivity|]. split; [apply does_does_zeroed, K|auto].
  - destruct (planned_dct8 pf cs n) as (a & -> & _ & K). cbn [use]. do 2 eexists. split; [reflexivity|]. split; [apply does_does_zeroed, K|auto].
  - destruct (planned_dst1 pf Hpf Hex cs n) as (a & -> & _ & K & K'). cbn [use]. do 2 eexists. split; [reflexivity|]. split; [exact K|exact K'].
  - destruct (planned_23 pf Hpf Hex cs n) as (a & -> & _ & _ & K & _). cbn [use]. do 2 eexists. split; [reflexivity|]. split; [apply does_does_zeroed, K|auto].
  - destruct (planned_23 pf Hpf Hex cs n) as (a & -> & _ & _ & _ & _ & K). specialize (K Hl). cbn [use]. do 2 eexists. split; [reflexivity|]. split; [apply does_does_zeroed, K|auto].
  - destruct (planned_4 pf Hpf Hex cs n) as (a & -> & _ & _ & K). cbn [use]. do 2 eexists. split; [reflexivity|]. split; [apply does_does_zeroed, K|auto].
  - destruct (planned_dst5 pf cs n) as (a & -> & _ & K). cbn [use]. do 2 eexists. split; [reflexivity|]. split; [apply does_does_zeroed, K|auto].
  - destruct (planned_s67 pf Hpf Hex cs n) as (a & -> & _ & K & _ & K'). cbn [use]. do 2 eexists. split; [reflexivity|]. split; [exact K|intros C; apply (K' C)].
  - destruct (planned_s67 pf Hpf Hex cs n) as (a & -> & _ & _ & K & K'). cbn [use]. do 2 eexists. split; [reflexivity|]. split; [exact K|intros C; apply (K' C)].
  - destruct (planned_dst8 pf cs n Hl) as (a & -> & _ & K). cbn [use]. do 2 eexists. split; [reflexivity|]. split; [apply does_does_zeroed, K|auto].
Qed.

Lemma reference_length c x : length (reference c x) = length x.
Proof.
  destruct c; cbn [reference]; [..|reflexivity]; unfold dct1, dct2, dct3, dct4, dct5, dct6, dct7, dct8, dst1, dst2, dst3, dst4, dst5, dst6, dst7, dst8, transform;
  rewrite map_length; apply seq_length.
Qed.
Lemma inverse_size (c : pcall R) : size (inverse_of c) = size c.
Proof. destruct c; reflexivity. Qed.
Lemma reference_inverse c x : legal c -> length x = size c -> reference (inverse_of c) (reference c x) = scale (inverse_scale c) x.
Proof.
  intros Hl Hx. destruct c as [n|n|n|n|n|n|n|n|n|n|n|n|n|n|n|n|n w]; cbn [legal reference inverse_of inverse_scale size] in * ; try contradiction.
  - apply dct1_dct1; [exact Hx|lia].
  - apply dct3_dct2, Hx.
  - apply dct2_dct3, Hx.
  - apply dct4_dct4, Hx.
  - apply dct5_dct5, Hx.
  - apply dct7_dct6, Hx.
  - apply dct6_dct7, Hx.
  - apply dct8_dct8, Hx.
  - apply dst1_dst1, Hx.
  - apply dst3_dst2, Hx.
  - apply dst2_dst3, Hx.
  - apply dst4_dst4, Hx.
  - apply dst5_dst5, Hx.
  - apply dst7_dst6, Hx.
  - apply dst6_dst7, Hx.
  - apply dst8_dst8, Hx.
Qed.
Lemma reference_linear c u v x y : legal c -> length x = size c -> length y = size c ->
  reference c (add_lists (scale u x) (scale v y)) = add_lists (scale u (reference c x)) (scale v (reference c y)).
Proof.
  intros Hl Hx Hy. destruct c as [n|n|n|n|n|n|n|n|n|n|n|n|n|n|n|n|n w]; cbn [legal reference size] in * ; try contradiction.
  - eapply (kern_linear dct1_at n); [apply kern_dct1; lia|exact Hx|exact Hy].
  - eapply (kern_linear dct2_at n); [apply kern_dct2|exact Hx|exact Hy].
  - eapply (kern_linear dct3_at n); [apply kern_dct3|exact Hx|exact Hy].
  - eapply (kern_linear dct4_at n); [apply kern_dct4|exact Hx|exact Hy].
  - eapply (kern_linear dct5_at n); [apply kern_dct5|exact Hx|exact Hy].
  - eapply (kern_linear dct6_at n); [apply kern_dct6|exact Hx|exact Hy].
  - eapply (kern_linear dct7_at n); [apply kern_dct7|exact Hx|exact Hy].
  - eapply (kern_linear dct8_at n); [apply kern_dct8|exact Hx|exact Hy].
  - eapply (kern_linear dst1_at n); [apply kern_dst1|exact Hx|exact Hy].
  - eapply (kern_linear dst2_at n); [apply kern_dst2|exact Hx|exact Hy].
  - eapply (kern_linear dst3_at n); [apply kern_dst3|exact Hx|exact Hy].
  - eapply (kern_linear dst4_at n); [apply kern_dst4|exact Hx|exact Hy].
  - eapply (kern_linear dst5_at n); [apply kern_dst5|exact Hx|exact Hy].
  - eapply (kern_linear dst6_at n); [apply kern_dst6|exact Hx|exact Hy].
  - eapply (kern_linear dst7_at n); [apply kern_dst7|exact Hx|exact Hy].
  - eapply (kern_linear dst8_at n); [apply kern_dst8|exact Hx|exact Hy].
Qed.

Lemma clean_inverse (c : pcall R) : clean c -> clean (inverse_of c).
Proof. destruct c; auto. Qed.
Lemma planned_inverts c cs cs' : legal c -> legal (inverse_of c) ->
  exists f g, planned_method c (after pf cs) = Some f /\ planned_method (inverse_of c) (after pf cs') = Some g /\
    inverts f g (size c) (inverse_scale c) /\
    (clean c -> inverts_with_scratch f g (size c) (inverse_scale c)).
Proof.
  intros Hc Hi. destruct (planned_all c cs Hc) as (f & sf & Ef & [_ Pf] & Cf).
  destruct (planned_all (inverse_of c) cs' Hi) as (g & sg & Eg & [_ Pg] & Cg). rewrite inverse_size in Pg, Cg.
  exists (f, sf), (g, sg). split; [exact Ef|]. split; [exact Eg|]. split.
  - intros x Hx. exists (reference c x). cbn [fst snd]. split; [apply Pf, Hx|].
    rewrite Pg by (rewrite reference_length; exact Hx). f_equal. apply reference_inverse; assumption.
  - intros C x s Hx Hf Hg. cbn [fst snd] in * . destruct (Cf C) as [If _]. destruct (Cg (clean_inverse c C)) as [Ig _].
    destruct (If x s Hx Hf) as (s1 & A & L1 & _).
    destruct (Ig (reference c x) s1) as (s2 & B & _); [rewrite reference_length; exact Hx|lia|].
    exists (reference c x), s1, s2. split; [exact A|]. rewrite B. do 2 f_equal. apply reference_inverse; assumption.
Qed.
Lemma planned_linear c cs : legal c -> exists f, planned_method c (after pf cs) = Some f /\ linear f (size c).
Proof.
  intros Hc. destruct (planned_all c cs Hc) as (f & sf & Ef & [_ Pf] & _). exists (f, sf). split; [exact Ef|].
  intros u v x y Hx Hy. cbn [fst snd]. exists (reference c x), (reference c y). split; [apply Pf, Hx|]. split; [apply Pf, Hy|].
  rewrite Pf.
  - f_equal. apply reference_linear; assumption.
  - unfold add_lists, scale. rewrite map_length, seq_length, map_length. exact Hx.
Qed.

Lemma alt_even i : alt i = if Nat.even i then 1%R else (-1)%R.
Proof.
  induction i as [|i IH]; [reflexivity|]. rewrite alt_S, IH, Nat.even_succ, <- Nat.negb_even.
  destruct (Nat.even i); cbn [negb]; lra.
Qed.
Lemma alt_list_negate x : alt_list x = negate_odd x.
Proof.
  unfold alt_list, negate_odd. apply map_ext. intros i. rewrite alt_even. destruct (Nat.even i); lra.
Qed.
Lemma dst2_by_dct2 x : dst2 x = rev (dct2 (negate_odd x)).
Proof.
  rewrite <- alt_list_negate. unfold dst2, dct2, transform. rewrite alt_list_length.
  apply (nth_ext _ _ 0%R 0%R); [rewrite rev_length, !map_length; reflexivity|]. rewrite map_length, seq_length. intros k Hk.
  rewrite nth_map_seq by exact Hk. rewrite rev_nth by (rewrite map_length, seq_length; exact Hk). rewrite map_length, seq_length.
  rewrite nth_map_seq by lia. rewrite dst2_dct2_at by exact Hk. f_equal. lia.
Qed.
Lemma dst3_by_dct3 x : dst3 x = negate_odd (dct3 (rev x)).
Proof.
  rewrite <- alt_list_negate. unfold dst3, dct3, transform, alt_list. rewrite rev_length, map_length, seq_length.
  apply map_ext_in. intros k Hk. apply in_seq in Hk. rewrite nth_map_seq by lia. apply dst3_dct3_at. lia.
Qed.
Lemma planned_dst_by_dct n cs : exists a, snd (plan_dct2 n (after pf cs)) = Ok a /\
  (forall x, length x = n -> exists z, process (t_dct2 (arc_val a)) (t23_scratch (arc_val a)) (negate_odd x) = Returned z /\
     process (t_dst2 (arc_val a)) (t23_scratch (arc_val a)) x = Returned (rev z)) /\
  (forall x, 0 < n -> length x = n -> exists z, process (t_dct3 (arc_val a)) (t23_scratch (arc_val a)) (rev x) = Returned z /\
     process (t_dst3 (arc_val a)) (t23_scratch (arc_val a)) x = Returned (negate_odd z)).
Proof.
  destruct (planned_23 pf Hpf Hex cs n) as (a & A & _ & [_ C2] & [_ S2] & C3 & S3). exists a. split; [exact A|]. split.
  - intros x Hx. exists (dct2 (negate_odd x)). split.
    + apply C2. unfold negate_odd. rewrite map_length, seq_length. exact Hx.
    + rewrite S2 by exact Hx. f_equal. apply dst2_by_dct2.
  - intros x Hn Hx. exists (dct3 (rev x)). split.
    + apply (proj2 (C3 Hn)). rewrite rev_length. exact Hx.
    + rewrite (proj2 (S3 Hn)) by exact Hx. f_equal. apply dst3_by_dct3.
Qed.
End Exact.
