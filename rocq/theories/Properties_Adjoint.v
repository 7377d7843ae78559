(** C64: transposes and energies of the planned transforms. *)
From Coq Require Import List Reals Lia Lra.
From Verif Require Import Prog Num Model_Common Model_Mdct Model_Plan Model_Api Spec Spec_Api Spec_Fft Spec_Plan Spec_Methods Spec_Adjoint
  Api_Mdct Tdac Mdct_Theorems Properties_Mdct Adjoint.
Import ListNotations.
Open Scope nat_scope.

(** C64: with one half at the ends that the definitions halve, a planned transform
    is the transpose of the planned transform that inverts it. *)
Theorem planned_adjoint : forall pf cs cs' c, fft_fits pf -> fft_all_exact pf -> legal c -> legal (inverse_of c) ->
  exists f g, planned_method c (after pf cs) = Some f /\ planned_method (inverse_of c) (after pf cs') = Some g /\
  forall x y, length x = size c -> length y = size c -> exists fx gy,
    process (fst f) (snd f) x = Returned fx /\ process (fst g) (snd g) y = Returned gy /\
    inner (end_weight (inverse_of c)) fx y = inner (end_weight c) x gy.
Proof. intros pf cs cs' c F E. exact (planned_adjoint_of pf F E cs cs' c). Qed.
Print Assumptions planned_adjoint.
Example planned_adjoint_case : exists f g fx gy,
  planned_method (CDct6 3) (planner_new reference_fft) = Some f /\ planned_method (CDct7 3) (after reference_fft [CDst4 6]) = Some g /\
  process (fst f) (snd f) [1; 2; 3]%R = Returned fx /\ process (fst g) (snd g) [2; 5; 7]%R = Returned gy /\
  inner (fun i => match i with 0 => / 2 | _ => 1 end)%R fx [2; 5; 7]%R = (nth 0 gy 0 + 2 * nth 1 gy 0 + 3 / 2 * nth 2 gy 0)%R.
Proof.
  destruct reference_fft_fits as [F E].
  destruct (planned_adjoint reference_fft [] [CDst4 6] (CDct6 3) F E) as (f & g & A & B & H); [cbn; lia|cbn; lia|].
  destruct (H [1; 2; 3]%R [2; 5; 7]%R eq_refl eq_refl) as (fx & gy & C & D & K). exists f, g, fx, gy.
  split; [exact A|]. split; [exact B|]. split; [exact C|]. split; [exact D|].
  transitivity (inner (end_weight (inverse_of (CDct6 3))) fx [2; 5; 7]%R); [|rewrite K; unfold inner, end_weight, half_when; cbn; lra].
  unfold inner. apply Trig.sum_ext. intros [|i] _; reflexivity.
Qed.

(** C64: a planned transform multiplies the energy by the factor of its round trip. *)
Theorem planned_energy : forall pf cs c, fft_fits pf -> fft_all_exact pf -> legal c ->
  exists f, planned_method c (after pf cs) = Some f /\
  forall x, length x = size c -> exists fx, process (fst f) (snd f) x = Returned fx /\
    inner (end_weight (inverse_of c)) fx fx = (inverse_scale c * inner (end_weight c) x x)%R.
Proof. intros pf cs c F E. exact (planned_energy_of pf F E cs c). Qed.
Print Assumptions planned_energy.
Example planned_energy_case : exists f fx, planned_method (CDct3 3) (after reference_fft [CDct2 3; CDst8 1]) = Some f /\
  process (fst f) (snd f) [2; 1; -1]%R = Returned fx /\ inner plain fx fx = 6%R.
Proof.
  destruct reference_fft_fits as [F E].
  destruct (planned_energy reference_fft [CDct2 3; CDst8 1] (CDct3 3) F E) as (f & A & H); [cbn; lia|].
  destruct (H [2; 1; -1]%R eq_refl) as (fx & C & K). exists f, fx. split; [exact A|]. split; [exact C|].
  change (inner plain fx fx) with (inner (end_weight (inverse_of (CDct3 3))) fx fx). rewrite K.
  unfold inner, end_weight, half_when, inverse_scale. cbn. lra.
Qed.

(** C64: the IMDCT on zeroed outputs is the transpose of the MDCT. *)
Theorem planned_mdct_adjoint : forall pf cs n w, fft_fits pf -> fft_all_exact pf ->
  n mod 2 = 0 -> length (w (n * 2)) = n * 2 -> (forall v, ~ In (CMdct n v) cs) ->
  exists o, snd (plan_mdct n w (after pf cs)) = Ok o /\ forall a b y out s, length a = n -> length b = n -> length y = n -> length out = n ->
    m_scratch (arc_val o) <= length s -> exists X s1 A B s2,
    call4 (t_mdct (arc_val o)) a b out s = Returned (a, b, X, s1) /\
    call4 (t_imdct (arc_val o)) y (repeat 0%R n) (repeat 0%R n) s = Returned (y, A, B, s2) /\
    inner plain X y = inner plain (a ++ b) (A ++ B).
Proof. intros pf cs n w F E. exact (planned_mdct_adjoint_of pf F E cs n w). Qed.
Print Assumptions planned_mdct_adjoint.
Example planned_mdct_adjoint_case : exists o X s1 A B s2,
  snd (plan_mdct 2 (window_vorbis (T:=R)) (after reference_fft [CDct4 2])) = Ok o /\
  let s := repeat 9%R (m_scratch (arc_val o)) in
  call4 (t_mdct (arc_val o)) [1; 2]%R [3; 4]%R [0; 0]%R s = Returned ([1; 2]%R, [3; 4]%R, X, s1) /\
  call4 (t_imdct (arc_val o)) [5; 6]%R [0; 0]%R [0; 0]%R s = Returned ([5; 6]%R, A, B, s2) /\
  inner plain X [5; 6]%R = inner plain [1; 2; 3; 4]%R (A ++ B).
Proof.
  destruct reference_fft_fits as [F E].
  destruct (planned_mdct_adjoint reference_fft [CDct4 2] 2 window_vorbis F E eq_refl eq_refl) as (o & O & P).
  { intros v [H|[]]; discriminate. }
  destruct (P [1; 2]%R [3; 4]%R [5; 6]%R [0; 0]%R (repeat 9%R (m_scratch (arc_val o))) eq_refl eq_refl eq_refl eq_refl)
    as (X & s1 & A & B & s2 & H1 & H2 & K); [rewrite repeat_length; lia|].
  exists o, X, s1, A, B, s2. exact (conj O (conj H1 (conj H2 K))).
Qed.

(** C64: with a window that reconstructs, the MDCTs of the overlapping pairs of blocks
    of a signal have together c n / 2 times the energy of the signal. *)
Theorem planned_mdct_energy : forall pf cs n w c, fft_fits pf -> fft_all_exact pf ->
  n mod 2 = 0 -> 0 < n -> symmetric (w (n * 2)) -> princen_bradley c n (w (n * 2)) -> (forall v, ~ In (CMdct n v) cs) ->
  exists o, snd (plan_mdct n w (after pf cs)) = Ok o /\ forall m x, length x = (m + 1) * n ->
    (forall i, i < n \/ m * n <= i -> nth i x 0%R = 0%R) -> exists X : nat -> list R,
    (forall j out s, j < m -> length out = n -> m_scratch (arc_val o) <= length s -> exists s',
      call4 (t_mdct (arc_val o)) (block n x j) (block n x (j + 1)) out s = Returned (block n x j, block n x (j + 1), X j, s')) /\
    sum (fun j => inner plain (X j) (X j)) m = (c * INR n / 2 * inner plain x x)%R.
Proof. intros pf cs n w c F E. exact (planned_lapped_energy pf F E cs n w c). Qed.
Print Assumptions planned_mdct_energy.
Example planned_mdct_energy_case : exists o X s1 Y s2,
  snd (plan_mdct 2 (window_mp3 (T:=R)) (after reference_fft [CDct4 2])) = Ok o /\
  let s := repeat 9%R (m_scratch (arc_val o)) in
  call4 (t_mdct (arc_val o)) [0; 0]%R [3; 4]%R [0; 0]%R s = Returned ([0; 0]%R, [3; 4]%R, X, s1) /\
  call4 (t_mdct (arc_val o)) [3; 4]%R [0; 0]%R [0; 0]%R s = Returned ([3; 4]%R, [0; 0]%R, Y, s2) /\
  (inner plain X X + inner plain Y Y = 25)%R.
Proof.
  destruct reference_fft_fits as [F E]. destruct (window_mp3_princen_bradley 2 ltac:(lia)) as [W1 W2].
  destruct (planned_mdct_energy reference_fft [CDct4 2] 2 window_mp3 1 F E eq_refl ltac:(lia) W1 W2) as (o & O & P).
  { intros v [H|[]]; discriminate. }
  destruct (P 2 [0; 0; 3; 4; 0; 0]%R eq_refl) as (X & Q & K).
  { intros i Hi. do 6 (destruct i as [|i]; [cbn; lia || reflexivity|]). destruct i; reflexivity. }
  destruct (Q 0 [0; 0]%R (repeat 9%R (m_scratch (arc_val o))) ltac:(lia) eq_refl ltac:(rewrite repeat_length; lia)) as (s1 & E1).
  destruct (Q 1 [0; 0]%R (repeat 9%R (m_scratch (arc_val o))) ltac:(lia) eq_refl ltac:(rewrite repeat_length; lia)) as (s2 & E2).
  exists o, (X 0), s1, (X 1), s2. split; [exact O|]. split; [exact E1|]. split; [exact E2|].
  cbn [sum] in K. rewrite Rplus_0_l in K. rewrite K. unfold inner, plain. cbn. lra.
Qed.
