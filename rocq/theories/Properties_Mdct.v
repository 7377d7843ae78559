(** The MDCT in exact arithmetic: C17-C21, C34, C47, and the MDCT part of C44. *)
From Coq Require Import List Reals Lia.
From Verif Require Import Prog Num Model_Common Model_Mdct Model_Plan Model_Api Spec Spec_Api Spec_Fft Spec_Plan
  Api_Mdct Tdac Mdct_Theorems.
Import ListNotations.
Open Scope nat_scope.

(** C17: the first request for length [n], after any calls for other things. *)
Theorem planned_mdct_exact : forall pf cs n w, fft_fits pf -> fft_all_exact pf ->
  n mod 2 = 0 -> length (w (n * 2)) = n * 2 -> (forall v, ~ In (CMdct n v) cs) ->
  exists a, snd (plan_mdct n w (after pf cs)) = Ok a /\ m_len (arc_val a) = n /\
    implements_mdct (t_mdct (arc_val a)) n (m_scratch (arc_val a)) (fun a b => mdct_of n (w (n * 2)) (a ++ b)).
Proof.
  intros pf cs n w F E Hn Hw Hf. destruct (planned_mdct_fresh pf F E cs n w Hn Hw Hf) as (a & A & L & K & _).
  exact (ex_intro _ a (conj A (conj L K))).
Qed.
Print Assumptions planned_mdct_exact.
Example planned_mdct_exact_case : exists a s',
  snd (plan_mdct 12 (window_mp3 (T:=R)) (after reference_fft [CDct4 12; CDct1 1; CMdct 10 (window_one (T:=R))])) = Ok a /\
  call4 (t_mdct (arc_val a)) (repeat 1%R 12) (repeat 2%R 12) (repeat 7%R 12) (repeat 7%R (m_scratch (arc_val a)))
  = Returned (repeat 1%R 12, repeat 2%R 12, mdct_of 12 (window_mp3 24) (repeat 1%R 12 ++ repeat 2%R 12), s').
Proof.
  destruct reference_fft_fits as [F E].
  destruct (planned_mdct_exact reference_fft [CDct4 12; CDct1 1; CMdct 10 (window_one (T:=R))] 12 window_mp3 F E eq_refl eq_refl) as (a & A & _ & P).
  { intros v [H|[H|[H|[]]]]; discriminate. }
  destruct (P (repeat 1%R 12) (repeat 2%R 12) (repeat 7%R 12) (repeat 7%R (m_scratch (arc_val a)))) as (s' & K & _);
    try apply repeat_length; [rewrite repeat_length; lia|].
  exists a, s'. split; [exact A|exact K].
Qed.

(** C18 *)
Theorem planned_imdct_exact : forall pf cs n w, fft_fits pf -> fft_all_exact pf ->
  n mod 2 = 0 -> length (w (n * 2)) = n * 2 -> (forall v, ~ In (CMdct n v) cs) ->
  exists a, snd (plan_mdct n w (after pf cs)) = Ok a /\ m_len (arc_val a) = n /\
    implements_imdct (t_imdct (arc_val a)) n (m_scratch (arc_val a))
      (fun x old => add_lists old (imdct_of n (w (n * 2)) x)).
Proof.
  intros pf cs n w F E Hn Hw Hf. destruct (planned_mdct_fresh pf F E cs n w Hn Hw Hf) as (a & A & L & _ & _ & K).
  exact (ex_intro _ a (conj A (conj L K))).
Qed.
Print Assumptions planned_imdct_exact.
Example planned_imdct_exact_case : exists a l r s',
  snd (plan_mdct 12 (window_mp3 (T:=R)) (after reference_fft [CDct4 12; CDct1 1])) = Ok a /\
  call4 (t_imdct (arc_val a)) (repeat 1%R 12) (repeat 2%R 12) (repeat 3%R 12) (repeat 7%R (m_scratch (arc_val a)))
  = Returned (repeat 1%R 12, l, r, s') /\
  l ++ r = add_lists (repeat 2%R 12 ++ repeat 3%R 12) (imdct_of 12 (window_mp3 24) (repeat 1%R 12)).
Proof.
  destruct reference_fft_fits as [F E].
  destruct (planned_imdct_exact reference_fft [CDct4 12; CDct1 1] 12 window_mp3 F E eq_refl eq_refl) as (a & A & _ & P).
  { intros v [H|[H|[]]]; discriminate. }
  destruct (P (repeat 1%R 12) (repeat 2%R 12) (repeat 3%R 12) (repeat 7%R (m_scratch (arc_val a)))) as (l & r & s' & K & V & _);
    try apply repeat_length; [rewrite repeat_length; lia|].
  exists a, l, r, s'. split; [exact A|]. split; [exact K|exact V].
Qed.

(** C47: the inputs of the MDCT are shared borrows and may overlap. *)
Theorem planned_mdct_overlapping_inputs : forall pf cs n w, fft_fits pf -> fft_all_exact pf ->
  n mod 2 = 0 -> length (w (n * 2)) = n * 2 -> (forall v, ~ In (CMdct n v) cs) ->
  exists a, snd (plan_mdct n w (after pf cs)) = Ok a /\
    implements_mdct_within (t_mdct (arc_val a)) n (m_scratch (arc_val a)) (fun a b => mdct_of n (w (n * 2)) (a ++ b)).
Proof.
  intros pf cs n w F E Hn Hw Hf. destruct (planned_mdct_fresh pf F E cs n w Hn Hw Hf) as (a & A & _ & _ & K & _).
  exact (ex_intro _ a (conj A K)).
Qed.
Print Assumptions planned_mdct_overlapping_inputs.
Example planned_mdct_overlapping_inputs_case : exists a s',
  snd (plan_mdct 2 (window_one (T:=R)) (planner_new reference_fft)) = Ok a /\
  call_within (t_mdct (arc_val a)) [1; 2; 3]%R 0 1 2 [9; 9]%R (repeat 7%R (m_scratch (arc_val a)))
  = Returned ([1; 2; 3]%R, mdct_of 2 [1; 1; 1; 1]%R [1; 2; 2; 3]%R, s').
Proof.
  destruct reference_fft_fits as [F E].
  destruct (planned_mdct_overlapping_inputs reference_fft [] 2 window_one F E eq_refl eq_refl) as (a & A & P).
  { intros v []. }
  destruct (P [1; 2; 3]%R 0 1 [9; 9]%R (repeat 7%R (m_scratch (arc_val a)))) as (s' & K & _);
    [cbn [length]; lia|cbn [length]; lia|reflexivity|rewrite repeat_length; lia|].
  exists a, s'. split; [exact A|exact K].
Qed.

(** C44, [MdctNaive]. *)
Theorem naive_mdct_meets_definition : forall n wf d, MdctNaive_new n wf = Ok d ->
  correct_mdct (MdctNaive_obj d) n (wf (n * 2)).
Proof. exact MdctNaive_correct. Qed.
Print Assumptions naive_mdct_meets_definition.
Example naive_mdct_case : exists d s', MdctNaive_new 2 (window_one (T:=R)) = Ok d /\
  call4 (t_mdct (MdctNaive_obj d)) [1; 2]%R [3; 4]%R [9; 9]%R [] = Returned ([1; 2]%R, [3; 4]%R, mdct_of 2 [1; 1; 1; 1]%R [1; 2; 3; 4]%R, s').
Proof.
  eexists. destruct (naive_mdct_meets_definition 2 window_one _ eq_refl) as (_ & P & _).
  destruct (P [1; 2]%R [3; 4]%R [9; 9]%R [] eq_refl eq_refl eq_refl (le_n 0)) as (s' & K & _).
  exists s'. split; [reflexivity|exact K].
Qed.

(** C34: the window is that of the first valid request for the length; so it is the
    one asked for unless an earlier request for the length used another one. *)
Theorem planned_mdct_window : forall pf cs n w, fft_fits pf -> fft_all_exact pf ->
  n mod 2 = 0 -> length (window_in_force cs n w (n * 2)) = n * 2 ->
  exists a, snd (plan_mdct n w (after pf cs)) = Ok a /\ correct_mdct (arc_val a) n (window_in_force cs n w (n * 2)).
Proof. intros pf cs n w F E. exact (planned_mdct_in_force pf F E cs n w). Qed.
Print Assumptions planned_mdct_window.
Example planned_mdct_window_case :
  exists a, snd (plan_mdct 2 (fun _ => []) (after reference_fft [CMdct 2 (fun _ => []); CMdct 2 window_one; CMdct 2 window_mp3])) = Ok a /\
    correct_mdct (arc_val a) 2 [1; 1; 1; 1]%R.
Proof.
  destruct reference_fft_fits as [F E].
  exact (planned_mdct_window reference_fft [CMdct 2 (fun _ => []); CMdct 2 window_one; CMdct 2 window_mp3] 2 (fun _ => []) F E eq_refl eq_refl).
Qed.

(** C34 as it is written fails: after [plan_mdct(2, one)], [plan_mdct(2, f)] with another
    valid window [f] gives an instance that does not apply [f]. *)
Theorem planned_mdct_window_refuted : exists (pf : nat -> fft R) cs n w a x y,
  fft_fits pf /\ fft_all_exact pf /\ n mod 2 = 0 /\ length (w (n * 2)) = n * 2 /\ length x = n /\ length y = n /\
  snd (plan_mdct n w (after pf cs)) = Ok a /\
  exists out s', call4 (t_mdct (arc_val a)) x y (repeat 0%R n) (repeat 0%R (m_scratch (arc_val a))) = Returned (x, y, out, s') /\
    out <> mdct_of n (w (n * 2)) (x ++ y).
Proof. exact wrong_window. Qed.
Print Assumptions planned_mdct_window_refuted.

(** C19, for any correct MDCT instance, and for the planned one. *)
Theorem overlap_add_reconstructs : forall o n w c signal m y scratch,
  correct_mdct o n w -> symmetric w -> princen_bradley c n w -> 0 < n ->
  length signal = (m + 1) * n -> length y = n -> m_scratch o <= length scratch ->
  exists out y' scratch', overlap_add o n signal y scratch m = Some (out, y', scratch') /\
    length out = length signal /\
    forall i, n <= i < m * n -> nth i out 0%R = (c * INR n / 2 * nth i signal 0)%R.
Proof. exact overlap_reconstructs. Qed.
Print Assumptions overlap_add_reconstructs.
Theorem planned_overlap_add_reconstructs : forall pf cs n w c signal m y, fft_fits pf -> fft_all_exact pf ->
  n mod 2 = 0 -> 0 < n -> symmetric (w (n * 2)) -> princen_bradley c n (w (n * 2)) -> (forall v, ~ In (CMdct n v) cs) ->
  length signal = (m + 1) * n -> length y = n ->
  exists a, snd (plan_mdct n w (after pf cs)) = Ok a /\
  forall scratch, m_scratch (arc_val a) <= length scratch ->
  exists out y' scratch', overlap_add (arc_val a) n signal y scratch m = Some (out, y', scratch') /\
    length out = length signal /\
    forall i, n <= i < m * n -> nth i out 0%R = (c * INR n / 2 * nth i signal 0)%R.
Proof. exact planned_overlap. Qed.
Print Assumptions planned_overlap_add_reconstructs.
Example overlap_add_case : exists a, snd (plan_mdct 2 window_one (planner_new reference_fft)) = Ok a /\
  exists out y' s', overlap_add (arc_val a) 2 [1; 2; 3; 4; 5; 6]%R [9; 9]%R (repeat 7%R (m_scratch (arc_val a))) 2 = Some (out, y', s') /\
    nth 2 out 0%R = (2 * INR 2 / 2 * 3)%R /\ nth 3 out 0%R = (2 * INR 2 / 2 * 4)%R.
Proof.
  destruct reference_fft_fits as [F E].
  destruct (one_window 2 ltac:(lia)) as [S P].
  destruct (planned_overlap_add_reconstructs reference_fft [] 2 window_one 2 [1; 2; 3; 4; 5; 6]%R 2 [9; 9]%R F E eq_refl ltac:(lia) S P
     ltac:(intros v []) eq_refl eq_refl) as (a & A & K).
  exists a. split; [exact A|]. destruct (K (repeat 7%R (m_scratch (arc_val a)))) as (out & y' & s' & O & _ & V).
  { rewrite repeat_length. apply le_n. }
  exists out, y', s'. split; [exact O|]. split; apply V; lia.
Qed.

(** C20 *)
Theorem window_mp3_princen_bradley : forall n, 0 < n ->
  symmetric (window_mp3 (2 * n)) /\ princen_bradley 1 n (window_mp3 (2 * n)).
Proof. exact mp3_window. Qed.
Print Assumptions window_mp3_princen_bradley.
Theorem window_vorbis_princen_bradley : forall n, 0 < n ->
  symmetric (window_vorbis (2 * n)) /\ princen_bradley 1 n (window_vorbis (2 * n)).
Proof. exact vorbis_window. Qed.
Print Assumptions window_vorbis_princen_bradley.
Theorem window_one_princen_bradley : forall n, 0 < n ->
  symmetric (window_one (2 * n)) /\ princen_bradley 2 n (window_one (2 * n)).
Proof. exact one_window. Qed.
Print Assumptions window_one_princen_bradley.
Theorem window_mp3_invertible_scale : forall n, 0 < n ->
  window_mp3_invertible (2 * n) = scale (sqrt (2 / INR n)) (window_mp3 (T:=R) (2 * n)).
Proof. exact mp3_inv_scale. Qed.
Print Assumptions window_mp3_invertible_scale.
Theorem window_vorbis_invertible_scale : forall n, 0 < n ->
  window_vorbis_invertible (2 * n) = scale (sqrt (2 / INR n)) (window_vorbis (T:=R) (2 * n)).
Proof. exact vorbis_inv_scale. Qed.
Print Assumptions window_vorbis_invertible_scale.
Theorem window_invertible_scale : forall n, 0 < n ->
  window_invertible (2 * n) = scale (sqrt (1 / INR n)) (window_one (T:=R) (2 * n)).
Proof. exact inv_scale. Qed.
Print Assumptions window_invertible_scale.
(** For every numeric type and every length, odd ones too. *)
Theorem window_lengths : forall {T F} {N : Num T F} len,
  length (window_mp3 (T:=T) len) = len /\ length (window_mp3_invertible (T:=T) len) = len /\
  length (window_vorbis (T:=T) len) = len /\ length (window_vorbis_invertible (T:=T) len) = len /\
  length (window_one (T:=T) len) = len /\ length (window_invertible (T:=T) len) = len.
Proof. exact @windows_lengths. Qed.
Print Assumptions window_lengths.
Example window_case : nth 1 (window_mp3 (T:=R) 4) 0%R = nth 2 (window_mp3 (T:=R) 4) 0%R /\ length (window_vorbis (T:=R) 4) = 4.
Proof. split; [exact (proj1 (window_mp3_princen_bradley 2 ltac:(lia)) 1 ltac:(cbn; lia))|reflexivity]. Qed.

(** C21 *)
Theorem planned_invertible_windows : forall pf cs n w signal m y, fft_fits pf -> fft_all_exact pf ->
  n mod 2 = 0 -> 0 < n -> In w [window_mp3_invertible; window_vorbis_invertible; window_invertible] ->
  (forall v, ~ In (CMdct n v) cs) -> length signal = (m + 1) * n -> length y = n ->
  exists a, snd (plan_mdct n w (after pf cs)) = Ok a /\
  forall scratch, m_scratch (arc_val a) <= length scratch ->
  exists out y' scratch', overlap_add (arc_val a) n signal y scratch m = Some (out, y', scratch') /\
    length out = length signal /\ forall i, n <= i < m * n -> nth i out 0%R = nth i signal 0%R.
Proof. exact planned_invertible. Qed.
Print Assumptions planned_invertible_windows.
Example planned_invertible_windows_case : exists a, snd (plan_mdct 2 window_vorbis_invertible (planner_new reference_fft)) = Ok a /\
  exists out y' s', overlap_add (arc_val a) 2 [1; 2; 3; 4; 5; 6]%R [9; 9]%R (repeat 7%R (m_scratch (arc_val a))) 2 = Some (out, y', s') /\
    nth 2 out 0%R = 3%R /\ nth 3 out 0%R = 4%R.
Proof.
  destruct reference_fft_fits as [F E].
  destruct (planned_invertible_windows reference_fft [] 2 window_vorbis_invertible [1; 2; 3; 4; 5; 6]%R 2 [9; 9]%R F E eq_refl ltac:(lia)
     ltac:(right; left; reflexivity) ltac:(intros v []) eq_refl eq_refl) as (a & A & K).
  exists a. split; [exact A|]. destruct (K (repeat 7%R (m_scratch (arc_val a)))) as (out & y' & s' & O & _ & V).
  { rewrite repeat_length. apply le_n. }
  exists out, y', s'. split; [exact O|]. split; apply V; lia.
Qed.
