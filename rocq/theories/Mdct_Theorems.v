(** Planned MDCT instances. *)
From Coq Require Import List Arith Lia Bool Reals Lra ZArith ZifyNat.
From Verif Require Import Prog Num Model_Common Model_Mdct Model_Plan Model_Api Spec Spec_Api Spec_Fft Spec_Plan
  Wp Api Contracts Objects Planner Planner_Ids Canon Plan_Theorems Sem_Mdct Api_Mdct Tdac.
Import ListNotations.
Open Scope nat_scope.
Ltac Zify.zify_post_hook ::= Z.div_mod_to_equations.

Section Any.
Context {T F : Type} {N : Num T F}.
Variable pf : nat -> fft T.
Hypothesis Hpf : fft_fits pf.

Lemma planned_mdct_canon cs n w : n mod 2 = 0 -> length (window_in_force cs n w (n * 2)) = n * 2 ->
  exists i d a, canon4 pf n = Ok i /\ MdctViaDct4_new i (window_in_force cs n w) = Ok d /\
    snd (plan_mdct n w (after pf cs)) = Ok a /\ arc_val a = MdctViaDct4_obj d.
Proof.
  intros Hev Hw. pose proof (mdct_first_window pf Hpf n w cs) as E. cbn [returned_instance canon_of] in E.
  rewrite value_of_rmap in E. destruct (canon_mdct_err pf Hpf n (window_in_force cs n w)) as [K _].
  unfold canon_mdct in E, K. destruct (canon4_len pf Hpf n) as (i & Ei & Li). rewrite Ei in E, K. cbn [rbind] in E, K.
  destruct (MdctViaDct4_new i (window_in_force cs n w)) as [d|e] eqn:Ed.
  2: { destruct K as [K|K]; [cbn [rmap]; eauto|lia|lia]. }
  cbn [rmap] in E. destruct (snd (plan_mdct n w (after pf cs))) as [a|e]; [|discriminate]. cbn [rmap] in E.
  apply Ok_inj in E. injection E as E. exists i, d, a. auto.
Qed.
Lemma planned_mdct_works cs n w a : fft_all_clean pf -> snd (plan_mdct n w (after pf cs)) = Ok a -> works_mdct (arc_val a) n.
Proof.
  intros Hcl E. pose proof (mdct_first_window pf Hpf n w cs) as H. cbn [returned_instance canon_of] in H. rewrite E in H. cbn [value_of] in H.
  unfold canon_mdct in H. destruct (canon4_works pf Hpf Hcl n) as (i & Ei & Wi). rewrite Ei in H. cbn [rbind] in H.
  destruct (MdctViaDct4_new i (window_in_force cs n w)) as [d|e] eqn:Ed; [|discriminate]. cbn [rmap] in H. apply Ok_inj in H. injection H as ->.
  apply (MdctViaDct4_works n i _ d Wi Ed).
Qed.
Lemma planned_mdct_determined cs n w a : fft_all_clean pf -> snd (plan_mdct n w (after pf cs)) = Ok a ->
  (exists t, implements_mdct (t_mdct (arc_val a)) n (m_scratch (arc_val a)) t) /\
  (exists t, implements_imdct (t_imdct (arc_val a)) n (m_scratch (arc_val a)) t).
Proof.
  intros Hcl E. destruct (planned_mdct_works cs n w a Hcl E) as (_ & [G H] & [K I]). split; eexists; [apply mdct_call, H|apply imdct_call, I].
Qed.
Lemma window_in_force_fresh (cs : list (pcall T)) n w : (forall v, ~ In (CMdct n v) cs) -> window_in_force cs n w = w.
Proof.
  intros H. unfold window_in_force. destruct (find (valid_window n) cs) as [c|] eqn:E; [|reflexivity]. exfalso.
  apply find_some in E. destruct E as [Hin Hv]. apply valid_window_inv in Hv. destruct Hv as (v & -> & _). exact (H v Hin).
Qed.
Lemma window_in_force_valid (cs : list (pcall T)) n w : length (w (n * 2)) = n * 2 -> length (window_in_force cs n w (n * 2)) = n * 2.
Proof. intros H. apply (proj2 (window_in_force_in cs n w) w (or_introl eq_refl) H). Qed.
End Any.

Section Exact.
Variable pf : nat -> fft R.
Hypothesis Hpf : fft_fits pf.
Hypothesis Hex : fft_all_exact pf.

Lemma planned_mdct_in_force cs n w : n mod 2 = 0 -> length (window_in_force cs n w (n * 2)) = n * 2 ->
  exists a, snd (plan_mdct n w (after pf cs)) = Ok a /\ correct_mdct (arc_val a) n (window_in_force cs n w (n * 2)).
Proof.
  intros Hev Hw. destruct (planned_mdct_canon pf Hpf cs n w Hev Hw) as (i & d & a & Ei & Ed & Ea & Ev).
  exists a. split; [exact Ea|]. rewrite Ev. destruct (canon4_exact pf Hpf Hex n) as (i' & Ei' & Hi).
  rewrite Ei in Ei'. apply Ok_inj in Ei'. subst i'. apply (MdctViaDct4_correct n i _ d Hi Ed).
Qed.
Lemma planned_mdct_fresh cs n w : n mod 2 = 0 -> length (w (n * 2)) = n * 2 -> (forall v, ~ In (CMdct n v) cs) ->
  exists a, snd (plan_mdct n w (after pf cs)) = Ok a /\ correct_mdct (arc_val a) n (w (n * 2)).
Proof.
  intros Hev Hw Hf. pose proof (planned_mdct_in_force cs n w Hev) as K. rewrite window_in_force_fresh in K by exact Hf. apply K, Hw.
Qed.
End Exact.

(** The window the planner uses is not always the one it is given. *)
Definition zero_window (len : nat) : list R := repeat 0%R len.
Lemma mdct_zero_window n x k : mdct_at n (zero_window (n * 2)) x k = 0%R.
Proof. unfold mdct_at. apply Trig.sum_zero'. intros i Hi. unfold zero_window. rewrite nth_repeat. ring. Qed.
Lemma mdct_one_impulse : mdct_at 2 (window_one (2 * 2)) [1; 0; 0; 0]%R 0 <> 0%R.
Proof.
  unfold mdct_at, window_one. cbn [Nat.mul Nat.add seq map sum nth]. rewrite !Rmult_0_r, !Rmult_0_l, !Rplus_0_r. cbn [INR].
  change (@one R R NumR) with 1%R. replace (PI / (1 + 1) * (0 + / 2 + (1 + 1) / 2) * (0 + / 2))%R with (3 * PI / 8)%R by field.
  pose proof PI_RGT_0. assert (0 < cos (3 * PI / 8))%R by (apply cos_gt_0; lra). lra.
Qed.
Lemma wrong_window : exists (pf : nat -> fft R) cs n w a x y,
  fft_fits pf /\ fft_all_exact pf /\ n mod 2 = 0 /\ length (w (n * 2)) = n * 2 /\ length x = n /\ length y = n /\
  snd (plan_mdct n w (after pf cs)) = Ok a /\
  exists out s', call4 (t_mdct (arc_val a)) x y (repeat 0%R n) (repeat 0%R (m_scratch (arc_val a))) = Returned (x, y, out, s') /\
    out <> mdct_of n (w (n * 2)) (x ++ y).
Proof.
  destruct reference_fft_fits as [F E].
  destruct (planned_mdct_in_force reference_fft F E [CMdct 2 (window_one (T:=R))] 2 zero_window eq_refl eq_refl) as (a & Ha & _ & K & _).
  exists reference_fft, [CMdct 2 (window_one (T:=R))], 2, zero_window, a, [1; 0]%R, [0; 0]%R.
  do 6 (split; [first [assumption|reflexivity]|]). split; [exact Ha|].
  destruct (K [1; 0]%R [0; 0]%R (repeat 0%R 2) (repeat 0%R (m_scratch (arc_val a))) eq_refl eq_refl eq_refl) as (s' & Es & _).
  { rewrite repeat_length. lia. }
  eexists. exists s'. split; [exact Es|]. intros C. apply (f_equal (fun l => nth 0 l 0%R)) in C. unfold mdct_of in C.
  cbn [seq map nth app] in C. rewrite mdct_zero_window in C. exact (mdct_one_impulse C).
Qed.

Lemma windows_lengths {T F} {N : Num T F} len :
  length (window_mp3 (T:=T) len) = len /\ length (window_mp3_invertible (T:=T) len) = len /\
  length (window_vorbis (T:=T) len) = len /\ length (window_vorbis_invertible (T:=T) len) = len /\
  length (window_one (T:=T) len) = len /\ length (window_invertible (T:=T) len) = len.
Proof.
  assert (L : forall f : nat -> T, length (map f (seq 0 len)) = len) by (intros f; rewrite map_length; apply seq_length).
  split; [apply L|]. split; [apply L|]. split; [apply L|]. split; [apply L|]. split; apply L.
Qed.

Section Overlap.
Variable pf : nat -> fft R.
Hypothesis Hpf : fft_fits pf.
Hypothesis Hex : fft_all_exact pf.
Lemma planned_overlap_gen cs n w c signal m y :
  n mod 2 = 0 -> 0 < n -> symmetric (w (n * 2)) -> princen_bradley c n (w (n * 2)) -> (forall v, ~ In (CMdct n v) cs) ->
  length signal = (m + 1) * n -> length y = n ->
  exists a, snd (plan_mdct n w (after pf cs)) = Ok a /\
  forall scratch, m_scratch (arc_val a) <= length scratch ->
  exists out y' scratch', overlap_add (arc_val a) n signal y scratch m = Some (out, y', scratch') /\
    length out = length signal /\
    forall i, n <= i < m * n -> nth i out 0%R = (c * INR n / 2 * nth i signal 0)%R.
Proof.
  intros Hev Hn Hs Hp Hf Lx Ly.
  destruct (planned_mdct_fresh pf Hpf Hex cs n w Hev) as (a & A & K); [destruct Hp as [L _]; lia|exact Hf|].
  exists a. split; [exact A|]. intros s Ls. apply (overlap_reconstructs _ n (w (n * 2))); assumption.
Qed.
End Overlap.
Lemma planned_overlap pf cs n w c signal m y : fft_fits pf -> fft_all_exact pf ->
  n mod 2 = 0 -> 0 < n -> symmetric (w (n * 2)) -> princen_bradley c n (w (n * 2)) -> (forall v, ~ In (CMdct n v) cs) ->
  length signal = (m + 1) * n -> length y = n ->
  exists a, snd (plan_mdct n w (after pf cs)) = Ok a /\
  forall scratch, m_scratch (arc_val a) <= length scratch ->
  exists out y' scratch', overlap_add (arc_val a) n signal y scratch m = Some (out, y', scratch') /\
    length out = length signal /\
    forall i, n <= i < m * n -> nth i out 0%R = (c * INR n / 2 * nth i signal 0)%R.
Proof. intros F E. apply planned_overlap_gen; assumption. Qed.

Lemma planned_invertible pf cs n w signal m y : fft_fits pf -> fft_all_exact pf ->
  n mod 2 = 0 -> 0 < n -> In w [window_mp3_invertible; window_vorbis_invertible; window_invertible] ->
  (forall v, ~ In (CMdct n v) cs) -> length signal = (m + 1) * n -> length y = n ->
  exists a, snd (plan_mdct n w (after pf cs)) = Ok a /\
  forall scratch, m_scratch (arc_val a) <= length scratch ->
  exists out y' scratch', overlap_add (arc_val a) n signal y scratch m = Some (out, y', scratch') /\
    length out = length signal /\ forall i, n <= i < m * n -> nth i out 0%R = nth i signal 0%R.
Proof.
  intros F E Hev Hn Hw Hf Lx Ly.
  assert (HW : symmetric (w (n * 2)) /\ princen_bradley (2 / INR n) n (w (n * 2))).
  { replace (n * 2) with (2 * n) by lia. destruct Hw as [<-|[<-|[<-|[]]]]; [apply mp3_inv_window|apply vorbis_inv_window|apply inv_window]; exact Hn. }
  destruct HW as [Hs Hp].
  destruct (planned_overlap pf cs n w _ signal m y F E Hev Hn Hs Hp Hf Lx Ly) as (a & A & K).
  exists a. split; [exact A|]. intros s Ls. destruct (K s Ls) as (out & y' & s' & O & L & V).
  exists out, y', s'. split; [exact O|]. split; [exact L|]. intros i Hi. rewrite V by exact Hi.
  assert (INR n <> 0)%R by (apply not_0_INR; lia). field. assumption.
Qed.
