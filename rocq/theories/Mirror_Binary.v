(** Mirror images in IEEE 754 arithmetic: what claim C69 needs. *)
From Coq Require Import Reals List Bool Lia Lra ZArith Floats.SpecFloat.
From Verif Require Import Prog Num Model_Common Model_Plan Model_Api Spec Spec_Api Spec_Fft Spec_Plan Spec_Methods Spec_Param Spec_Levels Spec_Float Spec_Ieee Spec_Ieee754 Spec_Binary Spec_Symmetry Spec_Mirror
  Wp Contracts Api Param Param_Theorems Levels Levels_Plan Round_Binary Float Sf Binary_Float Symmetry Symmetry_Silence Mirror Mirror_Split.
Import ListNotations.
Open Scope nat_scope.

Section Laws.
Variables prec emax : Z.
Lemma opposite_refl x : opposite false x x.
Proof. destruct x as [s|s| |s m e]; cbn; auto; destruct s; auto. Qed.
Lemma opposite_trans b c x y z : opposite b x y -> opposite c y z -> opposite (xorb b c) x z.
Proof.
  destruct x as [s|s| |s m e], y as [t|t| |t n f]; cbn [opposite]; try contradiction; intros H; destruct z as [u|u| |u o g]; cbn [opposite]; try contradiction; auto.
  - intros ->. subst. destruct b, c, s; reflexivity.
  - destruct H as (-> & -> & ->). intros (-> & -> & ->). repeat split. destruct b, c, s; reflexivity.
Qed.
Lemma opposite_sym b x y : opposite b x y -> opposite b y x.
Proof.
  destruct x as [s|s| |s m e], y as [t|t| |t n f]; cbn [opposite]; auto.
  - intros ->. destruct b, s; reflexivity.
  - intros (-> & -> & ->). repeat split. destruct b, s; reflexivity.
Qed.
Lemma opposite_opp x : opposite true x (SFopp x).
Proof. destruct x as [s|s| |s m e]; cbn [opposite SFopp]; auto; destruct s; auto. Qed.
Lemma add_comm_sf x y : opposite false (SFadd prec emax x y) (SFadd prec emax y x).
Proof.
  destruct x as [s|s| |s m e], y as [t|t| |t n f]; cbn [SFadd]; try apply opposite_refl.
  - destruct (Bool.eqb s t), (Bool.eqb t s); exact I.
  - destruct s, t; cbn; auto.
  - rewrite (Z.min_comm f e), (Z.add_comm (cond_Zopp t _)). apply opposite_refl.
Qed.
Lemma sub_neg_sf x y : opposite false (SFsub prec emax x y) (SFadd prec emax x (SFopp y)).
Proof.
  destruct x as [s|s| |s m e], y as [t|t| |t n f]; cbn [SFsub SFadd SFopp]; try apply opposite_refl.
  all: try (destruct s, t; cbn; auto; fail).
  replace (cond_Zopp (negb t) (Zpos (fst (shl_align n f (Z.min e f))))) with (- cond_Zopp t (Zpos (fst (shl_align n f (Z.min e f)))))%Z by (destruct t; cbn; lia).
  rewrite Z.add_opp_r. apply opposite_refl.
Qed.
Lemma binary_laws co si : sign_laws (N := Binary prec emax co si) opposite.
Proof.
  constructor; cbn [add sub mul neg Binary].
  - exact opposite_refl. - exact opposite_trans. - exact opposite_sym. - intros b x y. apply opp_opposite. - exact opposite_opp.
  - intros. apply add_opposite; assumption. - intros. apply sub_opposite; assumption. - intros. apply mul_opposite; [assumption|reflexivity].
  - exact add_comm_sf. - exact sub_neg_sf.
Qed.
End Laws.

(** ** Lists *)
Lemma opposites_nth b d x x' : opposite b d d -> opposites b x x' -> forall i, opposite b (nth i x d) (nth i x' d).
Proof. intros Hd H. induction H; intros [|i]; cbn [nth]; auto. Qed.
Lemma nth_opposites b d x x' : length x = length x' -> (forall i, i < length x -> opposite b (nth i x d) (nth i x' d)) -> opposites b x x'.
Proof.
  revert x'. induction x as [|a l IH]; intros [|a' l'] E H; try discriminate; constructor; [apply (H 0); cbn; lia|].
  apply IH; [injection E; auto|]. intros i Hi. apply (H (S i)). cbn. lia.
Qed.
Lemma flipped_length b x x' : flipped b x x' -> length x = length x'.
Proof. revert b x'. induction x as [|a l IH]; intros b [|a' l']; cbn; try contradiction; auto. intros [_ H]. f_equal. eapply IH, H. Qed.
Lemma odd_S b i : xorb (negb b) (Nat.odd i) = xorb b (Nat.odd (S i)).
Proof. rewrite Nat.odd_succ, <- Nat.negb_odd. destruct b, (Nat.odd i); reflexivity. Qed.
Lemma flipped_nth b d x x' : flipped b x x' -> forall i, i < length x -> opposite (xorb b (Nat.odd i)) (nth i x d) (nth i x' d).
Proof.
  revert b x'. induction x as [|a l IH]; intros b [|a' l'] H i Hi; cbn in H; try contradiction; [cbn in Hi; lia|]. destruct H as [H0 H]. destruct i as [|i].
  - cbn [nth Nat.odd]. change (Nat.odd 0) with false. rewrite xorb_false_r. exact H0.
  - cbn [nth]. rewrite <- odd_S. apply IH; [exact H|cbn in Hi; lia].
Qed.
Lemma nth_flipped b d x x' : length x = length x' -> (forall i, i < length x -> opposite (xorb b (Nat.odd i)) (nth i x d) (nth i x' d)) -> flipped b x x'.
Proof.
  revert b x'. induction x as [|a l IH]; intros b [|a' l'] E H; try discriminate; [exact I|]. split.
  - pose proof (H 0 ltac:(cbn; lia)) as H0. change (Nat.odd 0) with false in H0. rewrite xorb_false_r in H0. exact H0.
  - apply IH; [injection E; auto|]. intros i Hi. rewrite odd_S. apply (H (S i)). cbn. lia.
Qed.

Section Planned.
Variables (prec emax : Z) (co si : spec_float -> spec_float).
Local Instance NM : Num spec_float spec_float := Binary prec emax co si.
Variables (pf : nat -> fft spec_float) (cs : list (pcall spec_float)) (k : nat).
Lemma mirror_has c : power_call k c -> exists f sl g, planned_method (N := NM) c (after (N := NM) pf cs) = Some (f, sl) /\
  chosen (M2 opposite) (M2s opposite) (M3 opposite) (M3s opposite) any any c k g /\
  forall x s, length x = 2 ^ k -> sl <= length s -> exists t, call (N := NM) f x s = Returned (map (g x) (seq 0 (length x)), t).
Proof.
  intros Hc. destruct (planned_has (N := NM) _ _ _ _ _ _ (mirror_closed opposite (binary_laws prec emax co si)) pf cs k c Hc) as (f & sl & E & g & C & R).
  exists f, sl, g. split; [exact E|]. split; [exact R|]. intros x s Lx Ls. destruct (computes_implements (N := NM) f (2 ^ k) sl g C x s Lx Ls) as (t & Et & _). exists t. exact Et.
Qed.
Lemma in_power n (c : pcall spec_float) : 1 <= k -> n = 2 ^ k -> In c [CDct2 n; CDct3 n; CDst2 n; CDst3 n] -> power_call k c.
Proof. intros H -> I. left. split; assumption. Qed.
Lemma map_nth_z (g : nat -> spec_float) n z : z < n -> nth z (map g (seq 0 n)) zero = g z.
Proof. apply nth_map. Qed.
Lemma mirrored_call c : 1 <= k -> c = CDct2 (2 ^ k) \/ c = CDst2 (2 ^ k) ->
  exists f sl, planned_method (N := NM) c (after (N := NM) pf cs) = Some (f, sl) /\
  forall b x x' s s', length x = 2 ^ k -> opposites b (rev x) x' -> sl <= length s -> sl <= length s' ->
  exists y y' t t', call (N := NM) f x s = Returned (y, t) /\ call (N := NM) f x' s' = Returned (y', t') /\ flipped b y y'.
Proof.
  intros Hk Hc. destruct (mirror_has c) as (f & sl & g & E & R & P); [apply (in_power (2 ^ k)); [exact Hk|reflexivity|destruct Hc as [-> | ->]; cbn [In]; auto]|].
  assert (M : mirr (N := NM) opposite (2 ^ k) g) by (destruct Hc as [-> | ->]; [apply R|exact R]).
  exists f, sl. split; [exact E|]. intros b x x' s s' Lx Hx Ls Ls'. assert (Lx' : length x' = 2 ^ k) by (rewrite <- (Forall2_len _ _ _ Hx), rev_length; exact Lx).
  destruct (P x s Lx Ls) as [t Et], (P x' s' Lx' Ls') as [t' Et']. eexists; eexists; eexists; eexists. split; [exact Et|]. split; [exact Et'|].
  apply (nth_flipped b (S754_zero false)); rewrite !map_length, !seq_length; [congruence|]. intros j Hj. rewrite Lx in Hj. rewrite Lx, Lx'.
  rewrite !(map_nth_z (g _)) by exact Hj. apply (M b x x' Lx Lx'); [|exact Hj].
  intros i Hi. pose proof (opposites_nth b (S754_zero false) _ _ I Hx (2 ^ k - 1 - i)) as O. rewrite rev_nth in O by lia. rewrite Lx in O. replace (2 ^ k - S (2 ^ k - 1 - i)) with i in O by lia. exact O.
Qed.
Lemma flipped_call c : 1 <= k -> c = CDct3 (2 ^ k) \/ c = CDst3 (2 ^ k) ->
  exists f sl, planned_method (N := NM) c (after (N := NM) pf cs) = Some (f, sl) /\
  forall b x x' s s', length x = 2 ^ k -> flipped b x x' -> sl <= length s -> sl <= length s' ->
  exists y y' t t', call (N := NM) f x s = Returned (y, t) /\ call (N := NM) f x' s' = Returned (y', t') /\ opposites b (rev y) y'.
Proof.
  intros Hk Hc. destruct (mirror_has c) as (f & sl & g & E & R & P); [apply (in_power (2 ^ k)); [exact Hk|reflexivity|destruct Hc as [-> | ->]; cbn [In]; auto]|].
  assert (M : alter (N := NM) opposite (2 ^ k) g) by (destruct Hc as [-> | ->]; [apply R|exact R]).
  exists f, sl. split; [exact E|]. intros b x x' s s' Lx Hx Ls Ls'. assert (Lx' : length x' = 2 ^ k) by (rewrite <- (flipped_length _ _ _ Hx); exact Lx).
  destruct (P x s Lx Ls) as [t Et], (P x' s' Lx' Ls') as [t' Et']. eexists; eexists; eexists; eexists. split; [exact Et|]. split; [exact Et'|].
  apply (nth_opposites b (S754_zero false)); rewrite rev_length, !map_length, !seq_length; [congruence|]. intros j Hj. rewrite Lx in Hj.
  rewrite rev_nth by (rewrite map_length, seq_length, Lx; exact Hj). rewrite map_length, seq_length, Lx, Lx'.
  rewrite !(map_nth_z (g _)) by lia.
  pose proof (M b x x' Lx Lx' (fun i Hi => flipped_nth b (S754_zero false) x x' Hx i ltac:(lia)) (2 ^ k - S j) ltac:(lia)) as O.
  replace (2 ^ k - 1 - (2 ^ k - S j)) with j in O by lia. exact O.
Qed.
Lemma doubled_added c : forall j, doubled (N := NM) j c = added prec emax j c.
Proof. intros j. revert c. induction j as [|j IH]; intros c; [reflexivity|]. apply IH. Qed.
Lemma constant_call : 1 <= k ->
  exists f sl, planned_method (N := NM) (CDct2 (2 ^ k)) (after (N := NM) pf cs) = Some (f, sl) /\
  forall c x s, length x = 2 ^ k -> Forall (opposite false c) x -> sl <= length s ->
  exists y0 y t, call (N := NM) f x s = Returned (y0 :: y, t) /\ opposite false (added prec emax k c) y0 /\ Forall zero_or_nan y.
Proof.
  intros Hk. destruct (mirror_has (CDct2 (2 ^ k))) as (f & sl & g & E & (_ & _ & R) & P); [apply (in_power (2 ^ k)); [exact Hk|reflexivity|cbn [In]; auto]|].
  exists f, sl. split; [exact E|]. intros c x s Lx Hx Ls. destruct (P x s Lx Ls) as [t Et].
  destruct (R x c Lx) as [R0 R1].
  { intros i Hi. rewrite <- Lx in Hi. rewrite Forall_forall in Hx. apply Hx, nth_In, Hi. }
  rewrite Lx in Et. pose proof (pow_pos k) as Pk. destruct (2 ^ k) as [|m] eqn:Em; [lia|]. cbn [seq map] in Et. eexists; eexists; eexists. split; [exact Et|].
  split; [rewrite <- doubled_added; exact R0|]. apply Forall_forall. intros z Hz. apply in_map_iff in Hz. destruct Hz as (j & <- & Hj). apply in_seq in Hj. apply opposite_true, R1. lia.
Qed.
Lemma palindrome_call c : 1 <= k -> c = CDct2 (2 ^ k) \/ c = CDst2 (2 ^ k) ->
  exists f sl, planned_method (N := NM) c (after (N := NM) pf cs) = Some (f, sl) /\
  forall b x s, length x = 2 ^ k -> opposites b (rev x) x -> sl <= length s ->
  exists y t, call (N := NM) f x s = Returned (y, t) /\ forall j, j < 2 ^ k -> Nat.odd j = negb b -> zero_or_nan (nth j y S754_nan).
Proof.
  intros Hk Hc. destruct (mirrored_call c Hk Hc) as (f & sl & E & P). exists f, sl. split; [exact E|]. intros b x s Lx Hx Ls.
  destruct (P b x x s s Lx Hx Ls Ls) as (y & y' & t & t' & A & A' & Q). unfold NM in * . rewrite A in A'. injection A' as <- <-. exists y, t. split; [exact A|].
  intros j Hj O. apply opposite_true. destruct (lt_dec j (length y)) as [H|H]; [|rewrite nth_overflow by lia; exact I].
  pose proof (flipped_nth b S754_nan y y Q j H) as F. rewrite O in F. replace (xorb b (negb b)) with true in F by (destruct b; reflexivity). exact F.
Qed.
End Planned.
