(** Every instance that can be built touches only the slices it is given. *)
From Coq Require Import List Arith Lia Bool ZArith ZifyNat Reals.
From Verif Require Import Prog Num Model_Common Model_Naive Model_Fft Model_Butterflies Model_SplitRadix
  Model_Mdct Model_Plan Spec_Memory Spec_Build Wp Confine Confine_Meth Interleave Objects.
Import ListNotations.
Open Scope nat_scope.

Section Build.
Context {T F : Type} {N : Num T F}.
Variable usable : fft T -> Prop.
Variable joined : t23 T -> t23 T -> Prop.

Lemma built23_conf o : built23 usable joined o -> conf_t23 o.
Proof.
  induction 1 as [n| | | | | |f d Hf E|h q d Hh IHh Hq IHq Hj E].
  - repeat split; [apply Dct2Naive_conf|apply Dct3Naive_conf|apply Dst2Naive_conf|apply Dst3Naive_conf].
  - apply conf_b2.
  - apply conf_b3.
  - apply conf_b4.
  - apply conf_b8.
  - apply conf_b16.
  - repeat split; [apply Dct2Fft_conf|apply Dct3Fft_conf|apply Dst2Fft_conf|apply Dst3Fft_conf].
  - destruct IHh as (A2 & A3 & _), IHq as (B2 & B3 & _). apply Type2And3SplitRadix_new_inv in E. destruct E as (Hp & _ & ->).
    assert (C2 : conf_meth (Type2And3SplitRadix_dct2 (mkT23Split h q (map (fun i => c_conj (single_twiddle (2 * i + 1) (16 * t23_len q))) (seq 0 (t23_len q)))))).
    { apply Dct2Split_conf; [exact A2|exact B2|]. cbn [sr_tw]. rewrite map_length, seq_length. exact Hp. }
    assert (C3 : conf_meth (Type2And3SplitRadix_dct3 (mkT23Split h q (map (fun i => c_conj (single_twiddle (2 * i + 1) (16 * t23_len q))) (seq 0 (t23_len q)))))).
    { apply Dct3Split_conf; [exact A3|exact B3]. }
    split; [exact C2|]. split; [exact C3|]. split; [apply Dst2Split_conf, C2|apply Dst3Split_conf, C3].
Qed.
Lemma built4_conf o : built4 usable joined o -> conf_t4 o.
Proof.
  destruct 1 as [n|f d Hf E|i Hi].
  - split; [apply Dct4Naive_conf|apply Dst4Naive_conf].
  - split; [apply Dct4Fft_conf|apply Dst4Fft_conf].
  - destruct (built23_conf i Hi) as (_ & A & _ & B). split; [apply Dct4Even_conf|apply Dst4Even_conf]; assumption.
Qed.
Lemma built_conf c f sl : built_method usable joined c f sl -> conf_meth f.
Proof.
  destruct c as [n|n|n|n|n|n|n|n|n|n|n|n|n|n|n|n|n w]; cbn [built_method]; try contradiction; intros (o & Ho & _ & <- & _).
  - destruct Ho; [apply Dct1Naive_conf|apply Dct1Fft_conf].
  - apply (built23_conf o Ho).
  - apply (built23_conf o Ho).
  - apply (built4_conf o Ho).
  - destruct Ho. apply Dct5Naive_conf.
  - destruct Ho. apply Dct6Naive_conf.
  - destruct Ho. apply Dct7Naive_conf.
  - destruct Ho. apply Dct8Naive_conf.
  - destruct Ho; [apply Dst1Naive_conf|apply Dst1Fft_conf].
  - apply (built23_conf o Ho).
  - apply (built23_conf o Ho).
  - apply (built4_conf o Ho).
  - destruct Ho. apply Dst5Naive_conf.
  - destruct Ho; [apply Dst6Naive_conf|apply Dst6Fft_conf].
  - destruct Ho; [apply Dst7Naive_conf|apply Dst7Fft_conf].
  - destruct Ho. apply Dst8Naive_conf.
Qed.
Lemma built_mdct_conf o : built_mdct usable joined o -> conf_mdct (t_mdct o) /\ conf_imdct (t_imdct o).
Proof.
  destruct 1 as [n w d E|i w d Hi E].
  - split; [apply MdctNaive_conf|apply ImdctNaive_conf].
  - assert (md_dct d = i) as <-.
    { revert E. unfold MdctViaDct4_new, rassert. destruct (_ =? 0); [|discriminate]. cbn [rbind].
      destruct (length _ =? _); [|discriminate]. cbn [rbind]. intros E. apply Ok_inj in E. subst d. reflexivity. }
    destruct (built4_conf _ Hi) as [A _]. split; [apply MdctDct4_conf|apply ImdctDct4_conf]; exact A.
Qed.
End Build.

Section Mono.
Context {T F : Type} {N : Num T F}.
Variables u u' : fft T -> Prop.
Variables j j' : t23 T -> t23 T -> Prop.
Hypothesis Hu : forall f, u f -> u' f.
Hypothesis Hj : forall h q, j h q -> j' h q.
Lemma built23_mono o : built23 u j o -> built23 u' j' o.
Proof.
  induction 1 as [n| | | | | |f d Hf E|h q d Hh IHh Hq IHq J E]; [constructor..|econstructor; [apply Hu|]; eassumption|].
  econstructor; [exact IHh|exact IHq|apply Hj, J|exact E].
Qed.
Lemma built4_mono o : built4 u j o -> built4 u' j' o.
Proof. destruct 1; [constructor|econstructor; [apply Hu|]; eassumption|constructor; apply built23_mono; assumption]. Qed.
Lemma built_dct1_mono o : built_dct1 u o -> built_dct1 u' o.
Proof. destruct 1; [econstructor; eassumption|econstructor; [apply Hu|]; eassumption]. Qed.
Lemma built_dst1_mono o : built_dst1 u o -> built_dst1 u' o.
Proof. destruct 1; [constructor|econstructor; [apply Hu|]; eassumption]. Qed.
Lemma built_s67_mono o : built_s67 u o -> built_s67 u' o.
Proof. destruct 1; [constructor|econstructor; [apply Hu|]; eassumption]. Qed.
Lemma is_method_mono {A} (B B' : A -> Prop) len sc run n f sl : (forall o, B o -> B' o) ->
  is_method (T:=T) B len sc run n f sl -> is_method B' len sc run n f sl.
Proof. intros H (o & Ho & K). exists o. auto. Qed.
Lemma built_method_mono c f sl : built_method u j c f sl -> built_method u' j' c f sl.
Proof.
  destruct c; cbn [built_method]; try (intros H; exact H); apply is_method_mono; intros o;
    first [apply built_dct1_mono|apply built23_mono|apply built4_mono|apply built_dst1_mono|apply built_s67_mono].
Qed.
Lemma built_mdct_mono o : built_mdct u j o -> built_mdct u' j' o.
Proof. destruct 1; econstructor; try eassumption. apply built4_mono. assumption. Qed.
End Mono.

Section Jobs.
Context {T F : Type} {N : Num T F}.

Lemma job_conf j : built_job (T:=T) j -> conf (may_read j) (may_write j) (program j) any.
Proof.
  destruct j as [f b s|o a b out s|o x a b s]; cbn [built_job program may_read may_write].
  - intros (c & sl & H). apply (built_conf _ _ _ _ _ H); intros i Hi; cbn [may_read may_write]; unfold cell_of; lia.
  - intros H. apply (built_mdct_conf _ _ _ H); intros i Hi; cbn [may_read may_write]; unfold cell_of; lia.
  - intros H. apply (built_mdct_conf _ _ _ H); intros i Hi; cbn [may_read may_write]; unfold cell_of; lia.
Qed.
Definition region_of (j : job (T:=T)) : region := mkRegion (may_read j) (may_write j).
Lemma may_write_read (j : job (T:=T)) q : may_write j q -> may_read j q.
Proof. destruct j; cbn; tauto. Qed.
Lemma separate_apart (i j : job (T:=T)) : separate i j -> apart (region_of i) (region_of j).
Proof.
  intros H q. destruct (H q) as [A B]. cbn [rr rw region_of]. split; intros W; [specialize (A W)|specialize (B W)];
    (split; [assumption|intros W'; apply may_write_read in W'; contradiction]).
Qed.
Lemma all_separate_apart (js : list (job (T:=T))) : all_separate js -> all_apart (map region_of js).
Proof.
  induction js as [|j js IH]; [auto|]. cbn [all_separate map all_apart]. intros [A B]. split; [|apply IH, B].
  apply Forall_map. eapply Forall_impl; [|exact A]. intros k. apply separate_apart.
Qed.
Lemma jobs_confined js : Forall (built_job (T:=T)) js -> Forall2 confined (map region_of js) (map program js).
Proof. induction 1; cbn [map]; constructor; [apply job_conf|]; assumption. Qed.

Lemma job_safe j : built_job (T:=T) j -> safe_within (program j) (may_write j).
Proof. intros H. apply (conf_safe_within (may_read j)). apply job_conf, H. Qed.

Lemma job_sees j : built_job (T:=T) j -> sees_only (program j) (may_read j) (may_write j).
Proof.
  intros H m1 m2 E. pose proof (conf_alike _ _ _ _ (job_conf j H) m1 m2 E) as K. unfold alike in K.
  destruct (run (program j) m1) as [a x|e x|], (run (program j) m2) as [a' y|e' y|]; try contradiction; destruct K as [K1 K].
  - intros q Hq. apply K, E, may_write_read, Hq.
  - split; [exact K1|]. intros q Hq. apply K, E, may_write_read, Hq.
Qed.

Lemma jobs_interleaved js (m : mem T) ps m' : Forall built_job js -> all_separate js ->
  interleaved (map program js) m ps m' ->
  ~ In UB ps /\
  ((exists es, ended ps es) \/ exists c, advances (ps, m') c) /\
  (forall es, ended ps es -> exists m1, one_by_one (map program js) m = Some (es, m1) /\ forall q, m' q = m1 q).
Proof.
  intros B A I. destruct (interleaved_same _ _ _ _ _ (all_separate_apart js A) I (jobs_confined js B)) as [E C]. split; [|split].
  - intros H. destruct (Forall2_in_r _ _ _ _ C H) as (r & _ & []).
  - destruct (progress _ _ m' C) as [H|(b & p & a & p' & m2 & -> & S)]; [left; exact H|].
    right. exists (b ++ p' :: a, m2). exists b, p, a, p'. auto.
  - intros es He. rewrite (ended_result ps es m' He) in E. destruct (one_by_one (map program js) m) as [[es' m1]|]; [|contradiction].
    destruct E as [-> E]. exists m1. split; [reflexivity|]. intros q. symmetry. apply E.
Qed.

Lemma jobs_run_alone j (m : mem T) : built_job j ->
  exists e m', one_by_one [program j] m = Some ([e], m') /\ forall q, ~ may_write j q -> m' q = m q.
Proof.
  intros H. pose proof (job_safe j H m) as K. rewrite one_cons. destruct (run (program j) m) as [a m1|e m1|]; [| |contradiction].
  - exists Finished, m1. auto.
  - exists (Failed e), m1. auto.
Qed.
End Jobs.
