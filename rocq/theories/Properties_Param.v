(** Relations between sample types: C56, C57. *)
From Coq Require Import Reals List Lia Lra ZArith.
From Verif Require Import Prog Num Model_Common Model_Naive Model_Mdct Model_Plan Model_Api Spec Spec_Api Spec_Fft Spec_Plan Spec_Methods
  Spec_Round Spec_Ieee Spec_Param Spec_Interval Param Param_Plan Param_Theorems Round_Ieee Interval.
Import ListNotations.
Open Scope nat_scope.

(** C56: whatever relation the two arithmetics respect, the planned transforms respect.  Both panic or neither does, they ask for the same scratch, and
    calls on related vectors end alike with related vectors. *)
Theorem planned_methods_respect_relations : forall {T T' F F'} {N : Num T F} {N' : Num T' F'} (D C : T -> T' -> Prop) (V : F -> F' -> Prop), compatible D C V ->
  forall (pf : nat -> fft T) (pf' : nat -> fft T') cs cs' c c', call_alike C c c' -> no_fft c \/ (forall n, fft_alike D (pf n) (pf' n)) ->
  match planned_method c (after pf cs), planned_method c' (after pf' cs') with
  | Some (f, sl), Some (g, sl') => sl = sl' /\ meth_alike D f g /\
    (forall b b' s s', Forall2 D b b' -> Forall2 D s s' ->
      observed_alike (fun x y => Forall2 D (fst x) (fst y) /\ Forall2 D (snd x) (snd y)) (call f b s) (call g b' s')) /\
    (forall b b', Forall2 D b b' -> observed_alike (Forall2 D) (process f sl b) (process g sl b'))
  | None, None => True
  | _, _ => False
  end.
Proof.
  intros T T' F F' N N' D C V K pf pf' cs cs' c c' Hc Hf. pose proof (planned_alike D C V K pf pf' c c' cs cs' Hf Hc) as R.
  destruct (planned_method c (after pf cs)) as [[f sl]|], (planned_method c' (after pf' cs')) as [[g sl']|]; try exact R.
  destruct R as [S R]. exact (conj S (conj R (conj (fun b b' s s' => call_vectors D C V K f g b b' s s' R) (fun b b' => process_vectors D C V K f g sl b b' R)))).
Qed.
Print Assumptions planned_methods_respect_relations.
(** The relation can be one that is not a function: real numbers and intervals around them. *)
Example planned_methods_respect_relations_case : compatible (N := NumR) (N' := Interval (fun x => x - 1) (fun x => x + 1))%R inside inside inside /\
  call_alike inside (CDst4 32) (CDst4 32) /\ no_fft (CDst4 32 : pcall R) /\ inside 1 (Some (0, 3))%R /\ inside 2 (Some (0, 3))%R.
Proof.
  split; [apply interval_compatible; intros; lra|]. split; [reflexivity|]. split; [exists 5; reflexivity|]. cbn [inside]. lra.
Qed.

(** C56, MDCT and inverse MDCT. *)
Theorem planned_mdct_respects_relations : forall {T T' F F'} {N : Num T F} {N' : Num T' F'} (D C : T -> T' -> Prop) (V : F -> F' -> Prop), compatible D C V ->
  forall (pf : nat -> fft T) (pf' : nat -> fft T'), fft_fits pf -> fft_fits pf' -> forall n w w' cs cs',
  no_fft (CMdct n w) \/ (forall n, fft_alike D (pf n) (pf' n)) -> (forall m, Forall2 C (w m) (w' m)) -> Forall2 (call_alike C) cs cs' ->
  match snd (plan_mdct n w (after pf cs)), snd (plan_mdct n w' (after pf' cs')) with
  | Ok a, Ok b => m_scratch (arc_val a) = m_scratch (arc_val b) /\ meth4_alike D (t_mdct (arc_val a)) (t_mdct (arc_val b)) /\
    meth4_alike D (t_imdct (arc_val a)) (t_imdct (arc_val b))
  | Err e, Err e' => e = e'
  | _, _ => False
  end.
Proof. exact @planned_mdct_alike. Qed.
Print Assumptions planned_mdct_respects_relations.
Theorem naive_mdct_respects_relations : forall {T T' F F'} {N : Num T F} {N' : Num T' F'} (D C : T -> T' -> Prop) (V : F -> F' -> Prop), compatible D C V ->
  forall n w w', (forall m, Forall2 C (w m) (w' m)) ->
  match MdctNaive_new n w, MdctNaive_new n w' with
  | Ok d, Ok d' => m_scratch (MdctNaive_obj d) = m_scratch (MdctNaive_obj d') /\ meth4_alike D (t_mdct (MdctNaive_obj d)) (t_mdct (MdctNaive_obj d')) /\
    meth4_alike D (t_imdct (MdctNaive_obj d)) (t_imdct (MdctNaive_obj d'))
  | Err e, Err e' => e = e'
  | _, _ => False
  end.
Proof. exact @naive_mdct_alike. Qed.
Print Assumptions naive_mdct_respects_relations.
(** The windows of the crate are related to themselves. *)
Theorem windows_respect_relations : forall {T T' F F'} {N : Num T F} {N' : Num T' F'} (D C : T -> T' -> Prop) (V : F -> F' -> Prop), compatible D C V ->
  forall n, Forall2 C (window_mp3 n) (window_mp3 n) /\ Forall2 C (window_mp3_invertible n) (window_mp3_invertible n) /\
  Forall2 C (window_vorbis n) (window_vorbis n) /\ Forall2 C (window_vorbis_invertible n) (window_vorbis_invertible n) /\
  Forall2 C (window_one n) (window_one n) /\ Forall2 C (window_invertible n) (window_invertible n).
Proof. exact @windows_alike. Qed.
Print Assumptions windows_respect_relations.

(** C56, maps the arithmetic commutes with: applying the map before the call or after it is the same. *)
Theorem planned_methods_commute : forall {T F} {N : Num T F} (g : T -> T), commutes g -> forall (pf : nat -> fft T) cs c f sl,
  no_fft c \/ (forall n, fft_commutes g (pf n)) -> planned_method c (after pf cs) = Some (f, sl) ->
  forall b s, call f (map g b) (map g s) = mapped g (call f b s).
Proof. exact @planned_commutes. Qed.
Print Assumptions planned_methods_commute.
Theorem planned_mdcts_commute : forall {T F} {N : Num T F} (g : T -> T), commutes g -> forall (pf : nat -> fft T) cs, fft_fits pf -> forall n w a,
  no_fft (CMdct n w) \/ (forall n, fft_commutes g (pf n)) -> snd (plan_mdct n w (after pf cs)) = Ok a ->
  forall h, h = t_mdct (arc_val a) \/ h = t_imdct (arc_val a) ->
  forall x y z s, call4 h (map g x) (map g y) (map g z) (map g s) = mapped4 g (call4 h x y z s).
Proof. exact @planned_mdct_commutes. Qed.
Print Assumptions planned_mdcts_commute.

(** C56, floating point: scaling by a power of two, and negation, commute with every rounding. *)
Theorem ieee_scaling_is_exact : forall p p' c, signed_power c -> commutes (N := Ieee p p') (Rmult c).
Proof. exact ieee_commutes. Qed.
Print Assumptions ieee_scaling_is_exact.
(** Such an arithmetic also obeys the standard model, so the bounds of C48 to C50 and C55 hold of it. *)
Theorem ieee_arithmetic_rounds : forall p p', (1 <= p)%Z -> (1 <= p')%Z -> rounding (powerRZ 2 (- p)) (powerRZ 2 (- p')) (Ieee p p').
Proof. exact ieee_rounding. Qed.
Print Assumptions ieee_arithmetic_rounds.
Example ieee_scaling_case : forall f sl, planned_method (N := Ieee 24 53) (CDst3 (2 ^ 10)) (after (N := Ieee 24 53) reference_fft [CDct2 7]) = Some (f, sl) ->
  forall b s, call (N := Ieee 24 53) f (map (Rmult (- powerRZ 2 (-7))) b) (map (Rmult (- powerRZ 2 (-7))) s) = mapped (Rmult (- powerRZ 2 (-7))) (call (N := Ieee 24 53) f b s).
Proof.
  intros f sl E. apply (planned_methods_commute (N := Ieee 24 53) _ (ieee_scaling_is_exact 24 53 _ (ex_intro _ (-7)%Z (or_intror eq_refl))) reference_fft [CDct2 7] (CDst3 (2 ^ 10)) f sl); [|exact E].
  left. exists 9. reflexivity.
Qed.
(** The map can be a different one from the identity: with exact arithmetic any factor, and with the DFT as the FFT. *)
Example exact_scaling_case : forall c, commutes (N := NumR) (Rmult c).
Proof. exact exact_commutes. Qed.

(** C56, SIMD: a lane of the result is the result of the lane. *)
Theorem planned_methods_work_lane_by_lane : forall {T F} {N : Num T F} i (pf : nat -> fft T) (pfv : nat -> fft (nat -> T)) cs csv c cv g sl,
  no_fft c \/ (forall n, fft_alike (on_lane i) (pf n) (pfv n)) -> call_alike (on_lane i) c cv ->
  planned_method (N := Lanes N) cv (after (N := Lanes N) pfv csv) = Some (g, sl) ->
  exists f, planned_method c (after pf cs) = Some (f, sl) /\
  forall b s, call f (map (lane i) b) (map (lane i) s) = lane_of i (call (N := Lanes N) g b s).
Proof. exact @planned_lanes. Qed.
Print Assumptions planned_methods_work_lane_by_lane.

(** C57: an arithmetic related to the real numbers computes results related to the reference transform. *)
Theorem planned_results_related_to_reference : forall {T' F'} {N' : Num T' F'} (D C : R -> T' -> Prop) (V : R -> F' -> Prop), compatible (N := NumR) (N' := N') D C V ->
  forall (pf' : nat -> fft T') c c' cs', legal c -> call_alike C c c' -> no_fft c \/ (forall n, fft_alike D (reference_fft n) (pf' n)) ->
  exists g sl, planned_method c' (after pf' cs') = Some (g, sl) /\
  forall x x', length x = size c -> Forall2 D x x' -> exists y', process g sl x' = Returned y' /\ Forall2 D (reference c x) y'.
Proof. exact @planned_related. Qed.
Print Assumptions planned_results_related_to_reference.
Theorem planned_mdct_results_related_to_reference : forall {T' F'} {N' : Num T' F'} (D C : R -> T' -> Prop) (V : R -> F' -> Prop), compatible (N := NumR) (N' := N') D C V ->
  forall (pf' : nat -> fft T'), fft_fits pf' -> forall n (w : nat -> list R) w' cs cs', n mod 2 = 0 -> length (w (n * 2)) = n * 2 -> (forall m, Forall2 C (w m) (w' m)) ->
  (forall v, ~ In (CMdct n v) cs) -> Forall2 (call_alike C) cs cs' -> no_fft (CMdct n w) \/ (forall n, fft_alike D (reference_fft n) (pf' n)) ->
  exists a, snd (plan_mdct n w' (after pf' cs')) = Ok a /\
  (forall x x' y y' o o' s s', length x = n -> length y = n -> length o = n -> m_scratch (arc_val a) <= length s ->
    Forall2 D x x' -> Forall2 D y y' -> Forall2 D o o' -> Forall2 D s s' ->
    exists p q r t, call4 (t_mdct (arc_val a)) x' y' o' s' = Returned (p, q, r, t) /\ Forall2 D (mdct_of n (w (n * 2)) (x ++ y)) r) /\
  (forall x x' y y' o o' s s', length x = n -> length y = n -> length o = n -> m_scratch (arc_val a) <= length s ->
    Forall2 D x x' -> Forall2 D y y' -> Forall2 D o o' -> Forall2 D s s' ->
    exists p q r t, call4 (t_imdct (arc_val a)) x' y' o' s' = Returned (p, q, r, t) /\ Forall2 D (add_lists (y ++ o) (imdct_of n (w (n * 2)) x)) (q ++ r)).
Proof. exact @planned_mdct_related. Qed.
Print Assumptions planned_mdct_results_related_to_reference.

(** C57, interval arithmetic with outward rounding: the computed intervals contain the exact results. *)
Theorem interval_arithmetic_encloses : forall dn up : R -> R, (forall x, (dn x <= x)%R) -> (forall x, (x <= up x)%R) ->
  compatible (N := NumR) (N' := Interval dn up) inside inside inside.
Proof. exact interval_compatible. Qed.
Print Assumptions interval_arithmetic_encloses.
Theorem planned_intervals_enclose : forall dn up : R -> R, (forall x, (dn x <= x)%R) -> (forall x, (x <= up x)%R) ->
  forall (pf' : nat -> fft interval) (c : pcall R) c' cs', legal c -> call_alike inside c c' -> no_fft c \/ (forall n, fft_alike inside (reference_fft n) (pf' n)) ->
  exists g sl, planned_method (N := Interval dn up) c' (after (N := Interval dn up) pf' cs') = Some (g, sl) /\
  forall x x', length x = size c -> Forall2 inside x x' -> exists y', process (N := Interval dn up) g sl x' = Returned y' /\ Forall2 inside (reference c x) y'.
Proof. intros dn up Hd Hu. exact (planned_related inside inside inside (interval_compatible dn up Hd Hu)). Qed.
Print Assumptions planned_intervals_enclose.
(** A DCT4 of length 64 with end points rounded outwards to multiples of 1/1024, on the unit cube. *)
Example planned_intervals_enclose_case : let dn := fun x => (IZR (Int_part (1024 * x)) / 1024)%R in let up := fun x => (IZR (up (1024 * x)) / 1024)%R in
  exists g sl, planned_method (N := Interval dn up) (CDct4 64) (after (N := Interval dn up) idle_fft [CDct2 7]) = Some (g, sl) /\
  exists y', process (N := Interval dn up) g sl (repeat (Some (0, 1)%R) 64) = Returned y' /\
  forall x, length x = 64 -> Forall (fun v => (0 <= v <= 1)%R) x -> Forall2 inside (dct4 x) y'.
Proof.
  intros dn up'.
  assert (Hd : forall x, (dn x <= x)%R) by (intros x; unfold dn; destruct (base_Int_part (1024 * x)); lra).
  assert (Hu : forall x, (x <= up' x)%R) by (intros x; unfold up'; destruct (archimed (1024 * x)); lra).
  destruct (planned_intervals_enclose dn up' Hd Hu idle_fft (CDct4 64) (CDct4 64) [CDct2 7] I eq_refl (or_introl (ex_intro _ 6 eq_refl))) as (g & sl & E & P).
  exists g, sl. split; [exact E|].
  assert (H : forall x, length x = 64 -> Forall (fun v => (0 <= v <= 1)%R) x -> Forall2 inside x (repeat (Some (0, 1)%R) 64)).
  { intros x <- Hx. induction Hx; cbn [length repeat]; constructor; auto. }
  destruct (P (repeat 0%R 64) (repeat (Some (0, 1)%R) 64) (repeat_length _ _)) as (y' & A & _).
  { apply H; [apply repeat_length|]. apply Forall_forall. intros v Hv. apply repeat_spec in Hv. subst. lra. }
  exists y'. split; [exact A|]. intros x Lx Hx. destruct (P x _ Lx (H x Lx Hx)) as (y2 & A2 & B). rewrite A in A2. injection A2 as ->. exact B.
Qed.
