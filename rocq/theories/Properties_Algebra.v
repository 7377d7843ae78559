(** Algebra of the planned transforms, in exact arithmetic: C22, C40, C45. *)
From Coq Require Import List Reals Lra Lia.
From Verif Require Import Prog Num Model_Common Model_Plan Model_Api Spec Spec_Api Spec_Fft Spec_Plan Spec_Methods Methods.
Import ListNotations.
Open Scope nat_scope.

(** The sixteen theorems of [Properties_Plan] as one; used below. *)
Theorem planned_transforms_exact : forall pf cs c, fft_fits pf -> fft_all_exact pf -> legal c ->
  exists f sl, planned_method c (after pf cs) = Some (f, sl) /\
    does_zeroed f (size c) sl (reference c) /\ (clean c -> does f (size c) sl (reference c)).
Proof. intros pf cs c F E. exact (planned_all pf F E c cs). Qed.
Print Assumptions planned_transforms_exact.

(** C22 *)
Theorem planned_inverse_pairs : forall pf cs cs' c, fft_fits pf -> fft_all_exact pf ->
  legal c -> legal (inverse_of c) ->
  exists f g, planned_method c (after pf cs) = Some f /\ planned_method (inverse_of c) (after pf cs') = Some g /\
    inverts f g (size c) (inverse_scale c) /\ (clean c -> inverts_with_scratch f g (size c) (inverse_scale c)).
Proof. intros pf cs cs' c F E. exact (planned_inverts pf F E c cs cs'). Qed.
Print Assumptions planned_inverse_pairs.
Example planned_inverse_pairs_case : exists f g y,
  planned_method (CDst6 2) (planner_new reference_fft) = Some f /\ planned_method (CDst7 2) (after reference_fft [CDct1 3]) = Some g /\
  process (fst f) (snd f) [1; 2]%R = Returned y /\ process (fst g) (snd g) y = Returned [(5 / 4)%R; (5 / 2)%R].
Proof.
  destruct reference_fft_fits as [F E].
  destruct (planned_inverse_pairs reference_fft [] [CDct1 3] (CDst6 2) F E I I) as (f & g & A & B & H & _).
  destruct (H [1; 2]%R eq_refl) as (y & C & D). exists f, g, y. split; [exact A|]. split; [exact B|]. split; [exact C|].
  rewrite D. unfold scale, inverse_scale. cbn [map size INR]. f_equal. f_equal; [lra|]. f_equal. lra.
Qed.

(** C40 *)
Theorem planned_transforms_linear : forall pf cs c, fft_fits pf -> fft_all_exact pf -> legal c ->
  exists f, planned_method c (after pf cs) = Some f /\ linear f (size c).
Proof. intros pf cs c F E. exact (planned_linear pf F E c cs). Qed.
Print Assumptions planned_transforms_linear.
Example planned_transforms_linear_case : exists f fx fy,
  planned_method (CDct2 2) (planner_new reference_fft) = Some f /\
  process (fst f) (snd f) [1; 2]%R = Returned fx /\ process (fst f) (snd f) [3; 4]%R = Returned fy /\
  process (fst f) (snd f) (add_lists (scale 5 [1; 2]) (scale 6 [3; 4]))%R = Returned (add_lists (scale 5 fx) (scale 6 fy)).
Proof.
  destruct reference_fft_fits as [F E].
  destruct (planned_transforms_linear reference_fft [] (CDct2 2) F E I) as (f & A & H).
  destruct (H 5%R 6%R [1; 2]%R [3; 4]%R eq_refl eq_refl) as (fx & fy & B & C & D). exists f, fx, fy. auto.
Qed.

(** C45 *)
Theorem planned_dst_from_dct : forall pf cs n, fft_fits pf -> fft_all_exact pf ->
  exists a, snd (plan_dct2 n (after pf cs)) = Ok a /\
  (forall x, length x = n -> exists z, process (t_dct2 (arc_val a)) (t23_scratch (arc_val a)) (negate_odd x) = Returned z /\
     process (t_dst2 (arc_val a)) (t23_scratch (arc_val a)) x = Returned (rev z)) /\
  (forall x, 0 < n -> length x = n -> exists z, process (t_dct3 (arc_val a)) (t23_scratch (arc_val a)) (rev x) = Returned z /\
     process (t_dst3 (arc_val a)) (t23_scratch (arc_val a)) x = Returned (negate_odd z)).
Proof. intros pf cs n F E. exact (planned_dst_by_dct pf F E n cs). Qed.
Print Assumptions planned_dst_from_dct.
Example planned_dst_from_dct_case : exists a z, snd (plan_dct2 3 (planner_new reference_fft)) = Ok a /\
  process (t_dct2 (arc_val a)) (t23_scratch (arc_val a)) [1; -2; 3]%R = Returned z /\
  process (t_dst2 (arc_val a)) (t23_scratch (arc_val a)) [1; 2; 3]%R = Returned (rev z).
Proof.
  destruct reference_fft_fits as [F E].
  destruct (planned_dst_from_dct reference_fft [] 3 F E) as (a & A & H & _).
  destruct (H [1; 2; 3]%R eq_refl) as (z & B & C). exists a, z. split; [exact A|]. split; [exact B|exact C].
Qed.
