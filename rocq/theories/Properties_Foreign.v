(** Instances on top of transforms implemented outside the crate (C62). *)
From Coq Require Import List Arith Lia.
From Verif Require Import Prog Num Model_Common Model_Naive Model_Fft Model_Butterflies Model_SplitRadix
  Model_Mdct Model_Plan Model_Api Spec_Memory Spec_Build Spec_Foreign Foreign.
Import ListNotations.
Open Scope num_scope.

(** C62: on top of inner transforms that report any length and scratch length and run any safe code, with
    state of their own or not, a call with slices of any lengths is not undefined behaviour, whatever the
    memory holds, and writes only to its slices and to the state of the inner transforms. *)
Theorem foreign_inner_is_sound : forall {T F} {N : Num T F} own (j : job (T:=T)), open_job own j ->
  safe_within (program j) (fun q => may_write j q \/ own q).
Proof. intros T F N. exact open_job_safe. Qed.
Print Assumptions foreign_inner_is_sound.
(** What it does depends only on the slices and that state. *)
Theorem foreign_inner_sees_only : forall {T F} {N : Num T F} own (j : job (T:=T)), open_job own j ->
  sees_only (program j) (fun q => may_read j q \/ own q) (fun q => may_write j q \/ own q).
Proof. intros T F N. exact open_job_sees. Qed.
Print Assumptions foreign_inner_sees_only.
(** If the inner transforms keep no state, calls on separate slices can run at the same time as in C37. *)
Theorem foreign_inner_concurrent : forall {T F} {N : Num T F} (js : list (job (T:=T))) m ps m',
  Forall (open_job (fun _ => False)) js -> all_separate js -> interleaved (map program js) m ps m' ->
  ~ In UB ps /\
  ((exists es, ended ps es) \/ exists c, advances (ps, m') c) /\
  (forall es, ended ps es -> exists m1, one_by_one (map program js) m = Some (es, m1) /\ forall q, m' q = m1 q).
Proof. intros T F N. exact open_interleaved. Qed.
Print Assumptions foreign_inner_concurrent.

(** An inner transform that claims length 4 and a scratch of 100 cells, counts its calls in a cell of its own,
    spoils the buffer and then indexes out of bounds, which panics. *)
Definition rogue_call {T F} {N : Num T F} (b s : slice) : prog T unit :=
  Rd 1000 (fun c => Wr 1000 (c +. one) (for_range 0 (slen b) (fun i => wr b i c) ;;; rd s (slen b * slen s) ;;; Ret tt)).
Definition rogue {T F} {N : Num T F} : t23 T := mkT23 T 4 100 rogue_call rogue_call rogue_call rogue_call.
Lemma rogue_code {T F} {N : Num T F} : safe_code (fun q => q = 1000) (rogue_call (T:=T)).
Proof.
  intros b s. cbn [rogue_call keeps_to]. split; [auto|]. intros c. split; [auto|].
  assert (K : forall n a, a + n <= slen b -> forall k, keeps_to (T:=T) (fun q => cell_of b q \/ cell_of s q \/ q = 1000) k ->
    keeps_to (fun q => cell_of b q \/ cell_of s q \/ q = 1000) (bind (for_n a n (fun i => wr b i c)) (fun _ => k))).
  { induction n as [|n IH]; intros a Ha k Hk; [exact Hk|]. cbn [for_n]. unfold wr at 1. destruct (Nat.ltb_spec a (slen b)); [|lia]. cbn.
    split; [unfold cell_of; lia|]. apply IH; [lia|exact Hk]. }
  unfold for_range. apply K; [lia|]. unfold rd. destruct (Nat.ltb_spec (slen b * slen s) (slen s)) as [L|L]; cbn; [|exact I].
  split; [|intros _; exact I]. right. left. unfold cell_of. nia.
Qed.
Lemma rogue_open {T F} {N : Num T F} : open23 (T:=T) (fun q => q = 1000) rogue.
Proof. apply open23_foreign. exact (conj rogue_code (conj rogue_code (conj rogue_code rogue_code))). Qed.
Example foreign_inner_is_sound_case {T F} {N : Num T F} : exists d, Type2And3SplitRadix_new (T:=T) rogue Type2And3Butterfly2_obj = Ok d /\
  safe_within (Type2And3SplitRadix_dct2 d (mkS 0 8) (mkS 8 8)) (fun q => 0 <= q < 16 \/ q = 1000) /\
  forall m, exists e m', run (Type2And3SplitRadix_dct2 d (mkS 0 8) (mkS 8 8)) m = Panicked e m' /\ m' 1000 = add (m 1000) one.
Proof.
  eexists. split; [reflexivity|]. split.
  - intros m. match goal with |- context [Type2And3SplitRadix_dct2 ?d] => set (sd := d) end.
    assert (O : open_job (fun q => q = 1000) (Transform (Type2And3SplitRadix_dct2 sd) (mkS 0 8) (mkS 8 8))).
    { left. exists (Type2And3SplitRadix_obj sd). split; [|left; reflexivity].
      exact (open23_split _ rogue Type2And3Butterfly2_obj sd rogue_open (open23_built _ _ (built23_2 _ _)) eq_refl). }
    pose proof (foreign_inner_is_sound _ _ O m) as H. cbn [program] in H.
    destruct (run _ m); [| |exact H]; intros q Hq; apply H; cbn [may_write]; unfold cell_of; cbn [base slen]; lia.
  - intros m. eexists. eexists. split; [reflexivity|reflexivity].
Qed.
(** Two calls on separate slices of an instance over an inner transform that does nothing but claim length 4. *)
Definition idle {T} : t23 T := mkT23 T 4 0 (fun _ _ => Ret tt) (fun _ _ => Ret tt) (fun _ _ => Ret tt) (fun _ _ => Ret tt).
Example foreign_inner_concurrent_case {T F} {N : Num T F} : exists d, Type2And3SplitRadix_new (T:=T) idle Type2And3Butterfly2_obj = Ok d /\
  let js := [Transform (Type2And3SplitRadix_dct2 d) (mkS 0 8) (mkS 8 8); Transform (Type2And3SplitRadix_dst3 d) (mkS 16 8) (mkS 24 8)] in
  Forall (open_job (fun _ => False)) js /\ all_separate js.
Proof.
  eexists. split; [reflexivity|]. match goal with |- context [Type2And3SplitRadix_dct2 ?d] => set (sd := d) end.
  assert (O : open23 (fun _ => False) (Type2And3SplitRadix_obj sd)).
  { apply (open23_split _ idle Type2And3Butterfly2_obj sd); [|exact (open23_built _ _ (built23_2 _ _))|reflexivity].
    apply open23_foreign. repeat split. }
  split.
  - constructor; [|constructor; [|constructor]]; left; exists (Type2And3SplitRadix_obj sd); (split; [exact O|]); cbn; tauto.
  - repeat split; repeat constructor; revert q; cbn [may_read may_write]; unfold cell_of; cbn [base slen]; lia.
Qed.
