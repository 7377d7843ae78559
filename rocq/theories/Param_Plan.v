(** What the planner hands out respects relations between two sample types. *)
From Coq Require Import List Arith Lia Bool.
From Verif Require Import Prog Num Model_Common Model_Naive Model_Fft Model_Butterflies Model_SplitRadix
  Model_Mdct Model_Plan Model_Api Spec_Fft Spec_Plan Spec_Methods Spec_Param Wp Planner Canon Plan_Theorems Param.
Import ListNotations.
Open Scope nat_scope.

Section Build.
Context {T T' F F' : Type} {N : Num T F} {N' : Num T' F'}.
Variables (D C : T -> T' -> Prop) (V : F -> F' -> Prop).
Hypothesis K : compatible D C V.
Notation Sims := (sims D).
Notation Rel23 := (rel23 D).
Notation Rel4 := (rel4 D).
Notation Relx := (relx D).

Ltac tab := apply Forall2_map_seq; intros; cbv zeta; first [apply (k_single D C V K) | apply (k_single_ho D C V K) | apply (k_conj D C V K), (k_single D C V K) | repeat (apply K)].
Ltac len1 := intros H; unfold relx, relc, rels; cbn; unfold Dct1Naive_scratch, Dst1Naive_scratch, Dct5Naive_scratch, Dst5Naive_scratch, Dct8Naive_scratch, Dst8Naive_scratch,
  Dct6And7Naive_scratch, Dst6And7Naive_scratch, Dct1Naive_len, Dst1Naive_len, Dct5Naive_len, Dst5Naive_len, Dct8Naive_len, Dst8Naive_len, Dct6And7Naive_len, Dst6And7Naive_len,
  Type2And3Naive_scratch, Type2And3Naive_len, Type4Naive_scratch, Type4Naive_len; rewrite (Forall2_len _ _ _ H); split; [reflexivity|]; split; [reflexivity|].
Lemma Dct1Naive_rel d d' : Forall2 C (dct1n_tw d) (dct1n_tw d') -> Relx (Dct1Naive_obj d) (Dct1Naive_obj d').
Proof. len1. apply (Dct1Naive_dct1_sims D C V K), H. Qed.
Lemma Dst1Naive_rel d d' : Forall2 C (dst1n_tw d) (dst1n_tw d') -> Relx (Dst1Naive_obj d) (Dst1Naive_obj d').
Proof. len1. apply (Dst1Naive_dst1_sims D C V K), H. Qed.
Lemma Dct5Naive_rel d d' : Forall2 C (dct5n_tw d) (dct5n_tw d') -> Relx (Dct5Naive_obj d) (Dct5Naive_obj d').
Proof. len1. apply (Dct5Naive_dct5_sims D C V K), H. Qed.
Lemma Dst5Naive_rel d d' : Forall2 C (dst5n_tw d) (dst5n_tw d') -> Relx (Dst5Naive_obj d) (Dst5Naive_obj d').
Proof. len1. apply (Dst5Naive_dst5_sims D C V K), H. Qed.
Lemma Dct8Naive_rel d d' : Forall2 C (dct8n_tw d) (dct8n_tw d') -> Relx (Dct8Naive_obj d) (Dct8Naive_obj d').
Proof. len1. apply (Dct8Naive_dct8_sims D C V K), H. Qed.
Lemma Dst8Naive_rel d d' : Forall2 C (dst8n_tw d) (dst8n_tw d') -> Relx (Dst8Naive_obj d) (Dst8Naive_obj d').
Proof. len1. apply (Dst8Naive_dst8_sims D C V K), H. Qed.
Lemma Dct67Naive_rel d d' : Forall2 C (c67n_tw d) (c67n_tw d') -> relc D (Dct6And7Naive_obj d) (Dct6And7Naive_obj d').
Proof. len1. split; [apply (Dct6And7Naive_dct6_sims D C V K), H|apply (Dct6And7Naive_dct7_sims D C V K), H]. Qed.
Lemma Dst67Naive_rel d d' : Forall2 C (s67n_tw d) (s67n_tw d') -> rels D (Dst6And7Naive_obj d) (Dst6And7Naive_obj d').
Proof. len1. split; [apply (Dst6And7Naive_dst6_sims D C V K), H|apply (Dst6And7Naive_dst7_sims D C V K), H]. Qed.
Lemma T23Naive_rel d d' : Forall2 (both C) (t23n_tw d) (t23n_tw d') -> Rel23 (Type2And3Naive_obj d) (Type2And3Naive_obj d').
Proof.
  unfold rel23. len1. repeat split; [apply (Type2And3Naive_dct2_sims D C V K), H|apply (Type2And3Naive_dct3_sims D C V K), H
    |apply (Type2And3Naive_dst2_sims D C V K), H|apply (Type2And3Naive_dst3_sims D C V K), H].
Qed.
Lemma T4Naive_rel d d' : Forall2 (both C) (t4n_tw d) (t4n_tw d') -> Rel4 (Type4Naive_obj d) (Type4Naive_obj d').
Proof. unfold rel4. len1. split; [apply (Type4Naive_dct4_sims D C V K), H|apply (Type4Naive_dst4_sims D C V K), H]. Qed.

Lemma rassert_rel b : rres anyr (rassert b) (rassert b). Proof. unfold rassert. destruct b; cbn; unfold anyr; auto. Qed.
Lemma rsub_rel a b : rres eq (rsub a b) (rsub a b). Proof. unfold rsub. destruct (_ <=? _); reflexivity. Qed.
Ltac rb := repeat first [eapply rres_bind; [first [apply rassert_rel|apply rsub_rel]|intros; subst]].
Lemma Dct1Naive_new_rel n : rres Relx (rmap Dct1Naive_obj (Dct1Naive_new n)) (rmap Dct1Naive_obj (Dct1Naive_new n)).
Proof. eapply rres_map; [|apply Dct1Naive_rel]. unfold Dct1Naive_new. rb. cbn [rres dct1n_tw]. tab. Qed.
Lemma Dct5Naive_new_rel n : rres Relx (rmap Dct5Naive_obj (Dct5Naive_new n)) (rmap Dct5Naive_obj (Dct5Naive_new n)).
Proof. eapply rres_map; [|apply Dct5Naive_rel]. unfold Dct5Naive_new. rb. cbn [rres dct5n_tw]. tab. Qed.
Lemma Dst8Naive_new_rel n : rres Relx (rmap Dst8Naive_obj (Dst8Naive_new n)) (rmap Dst8Naive_obj (Dst8Naive_new n)).
Proof. eapply rres_map; [|apply Dst8Naive_rel]. unfold Dst8Naive_new. rb. cbn [rres dst8n_tw]. tab. Qed.
Lemma Dct67Naive_new_rel n : rres (relc D) (rmap Dct6And7Naive_obj (Dct6And7Naive_new n)) (rmap Dct6And7Naive_obj (Dct6And7Naive_new n)).
Proof. eapply rres_map; [|apply Dct67Naive_rel]. unfold Dct6And7Naive_new. rb. cbn [rres c67n_tw]. tab. Qed.
Lemma Dst1Naive_new_rel n : Relx (Dst1Naive_obj (Dst1Naive_new n)) (Dst1Naive_obj (Dst1Naive_new n)).
Proof. apply Dst1Naive_rel. cbn [Dst1Naive_new dst1n_tw]. tab. Qed.
Lemma Dst5Naive_new_rel n : Relx (Dst5Naive_obj (Dst5Naive_new n)) (Dst5Naive_obj (Dst5Naive_new n)).
Proof. apply Dst5Naive_rel. cbn [Dst5Naive_new dst5n_tw]. tab. Qed.
Lemma Dct8Naive_new_rel n : Relx (Dct8Naive_obj (Dct8Naive_new n)) (Dct8Naive_obj (Dct8Naive_new n)).
Proof. apply Dct8Naive_rel. cbn [Dct8Naive_new dct8n_tw]. tab. Qed.
Lemma Dst67Naive_new_rel n : rels D (Dst6And7Naive_obj (Dst6And7Naive_new n)) (Dst6And7Naive_obj (Dst6And7Naive_new n)).
Proof. apply Dst67Naive_rel. cbn [Dst6And7Naive_new s67n_tw]. tab. Qed.
Lemma T23Naive_new_rel n : Rel23 (Type2And3Naive_obj (Type2And3Naive_new n)) (Type2And3Naive_obj (Type2And3Naive_new n)).
Proof. apply T23Naive_rel. cbn [Type2And3Naive_new t23n_tw]. tab. Qed.
Lemma T4Naive_new_rel n : Rel4 (Type4Naive_obj (Type4Naive_new n)) (Type4Naive_obj (Type4Naive_new n)).
Proof. apply T4Naive_rel. cbn [Type4Naive_new t4n_tw]. tab. Qed.

Section Fft.
Variables (f : fft T) (g : fft T').
Hypothesis H : fft_alike D f g.
Ltac fl := destruct H as (L & Ed & Es & _); rewrite <- L, <- Ed, <- Es.
Lemma Dct1Fft_new_rel : rres Relx (rmap Dct1ConvertToFft_obj (Dct1ConvertToFft_new f)) (rmap Dct1ConvertToFft_obj (Dct1ConvertToFft_new g)).
Proof.
  eapply (rres_map (fun d d' => Relx (Dct1ConvertToFft_obj d) (Dct1ConvertToFft_obj d'))); [|auto]. unfold Dct1ConvertToFft_new. fl. rb.
  cbn [rres]. split; [reflexivity|]. split; [reflexivity|]. apply (Dct1Fft_sims D C V K), H.
Qed.
Lemma Dst1Fft_new_rel : rres Relx (rmap Dst1ConvertToFft_obj (Dst1ConvertToFft_new f)) (rmap Dst1ConvertToFft_obj (Dst1ConvertToFft_new g)).
Proof.
  eapply (rres_map (fun d d' => Relx (Dst1ConvertToFft_obj d) (Dst1ConvertToFft_obj d'))); [|auto]. unfold Dst1ConvertToFft_new. fl. rb.
  cbn [rres]. split; [reflexivity|]. split; [reflexivity|]. apply (Dst1Fft_sims D C V K), H.
Qed.
Lemma S67Fft_new_rel : rres (rels D) (rmap Dst6And7ConvertToFft_obj (Dst6And7ConvertToFft_new f)) (rmap Dst6And7ConvertToFft_obj (Dst6And7ConvertToFft_new g)).
Proof.
  eapply (rres_map (fun d d' => rels D (Dst6And7ConvertToFft_obj d) (Dst6And7ConvertToFft_obj d'))); [|auto]. unfold Dst6And7ConvertToFft_new. fl. rb.
  cbn [rres]. split; [reflexivity|]. split; [reflexivity|]. split; [apply (Dst6Fft_sims D C V K), H|apply (Dst7Fft_sims D C V K), H].
Qed.
Lemma T4Fft_new_rel : rres Rel4 (rmap Type4ConvertToFftOdd_obj (Type4ConvertToFftOdd_new f)) (rmap Type4ConvertToFftOdd_obj (Type4ConvertToFftOdd_new g)).
Proof.
  eapply (rres_map (fun d d' => Rel4 (Type4ConvertToFftOdd_obj d) (Type4ConvertToFftOdd_obj d'))); [|auto]. unfold Type4ConvertToFftOdd_new. fl. rb.
  cbn [rres]. split; [reflexivity|]. split; [reflexivity|]. split; [apply (Dct4Fft_sims D C V K), H|apply (Dst4Fft_sims D C V K), H].
Qed.
Lemma T23Fft_new_rel : rres Rel23 (rmap Type2And3ConvertToFft_obj (Type2And3ConvertToFft_new f)) (rmap Type2And3ConvertToFft_obj (Type2And3ConvertToFft_new g)).
Proof.
  eapply (rres_map (fun d d' => Rel23 (Type2And3ConvertToFft_obj d) (Type2And3ConvertToFft_obj d'))); [|auto]. unfold Type2And3ConvertToFft_new. fl. rb.
  cbn [rres]. set (t := map _ _). set (t' := map _ _).
  assert (Ht : Forall2 (both C) t t') by (subst t t'; tab).
  split; [apply (Forall2_len _ _ _ Ht)|]. split; [reflexivity|].
  split; [apply (Dct2Fft_sims D C V K); assumption|]. split; [apply (Dct3Fft_sims D C V K); assumption|].
  split; [apply (Dst2Fft_sims D C V K)|apply (Dst3Fft_sims D C V K)]; assumption.
Qed.
End Fft.

Lemma Split_new_rel h h' q q' : Rel23 h h' -> Rel23 q q' ->
  rres Rel23 (rmap Type2And3SplitRadix_obj (Type2And3SplitRadix_new h q)) (rmap Type2And3SplitRadix_obj (Type2And3SplitRadix_new h' q')).
Proof.
  intros (Lh & Sh & H2 & H3 & _) (Lq & Sq & Q2 & Q3 & _).
  eapply (rres_map (fun d d' => Rel23 (Type2And3SplitRadix_obj d) (Type2And3SplitRadix_obj d'))); [|auto]. unfold Type2And3SplitRadix_new. rewrite <- Lh, <- Lq. rb.
  cbn [rres]. set (t := map _ _). set (t' := map _ _).
  assert (Ht : Forall2 (both C) t t') by (subst t t'; tab).
  pose proof (Dct2Split_sims D C V K h h' q q' t t' H2 Q2 Ht) as A. pose proof (Dct3Split_sims D C V K h h' q q' t t' H3 Q3 Ht) as B.
  assert (L : length t * 4 = length t' * 4) by exact (f_equal (fun k => k * 4) (Forall2_len _ _ _ Ht)).
  split; [exact L|]. split; [exact L|].
  split; [exact A|]. split; [exact B|]. split; [apply (Dst2Split_sims D C V K); assumption|apply (Dst3Split_sims D C V K); assumption].
Qed.
Lemma Even_new_rel i i' : Rel23 i i' -> Rel4 (Type4ConvertToType3Even_obj (Type4ConvertToType3Even_new i)) (Type4ConvertToType3Even_obj (Type4ConvertToType3Even_new i')).
Proof.
  intros (L & S & _ & H3 & _ & H4). unfold Type4ConvertToType3Even_new. rewrite <- L, <- S. set (t := map _ _). set (t' := map _ _).
  assert (Ht : Forall2 (both C) t t') by (subst t t'; tab).
  split; [exact (f_equal (fun k => k * 2) (Forall2_len _ _ _ Ht))|]. split; [reflexivity|].
  split; [apply (Dct4Even_sims D C V K)|apply (Dst4Even_sims D C V K)]; assumption.
Qed.
Lemma MdctVia_new_rel i i' w w' : Rel4 i i' -> (forall m, Forall2 C (w m) (w' m)) ->
  rres (relm D) (rmap MdctViaDct4_obj (MdctViaDct4_new i w)) (rmap MdctViaDct4_obj (MdctViaDct4_new i' w')).
Proof.
  intros (L & S & H4 & _) Hw.
  eapply (rres_map (fun d d' => relm D (MdctViaDct4_obj d) (MdctViaDct4_obj d'))); [|auto]. unfold MdctViaDct4_new. rewrite <- L, <- S.
  rewrite (Forall2_len _ _ _ (Hw _)). rb. cbn [rres]. split; [exact L|]. split; [reflexivity|].
  split; [apply (MdctDct4_sims D C V K)|apply (ImdctDct4_sims D C V K)]; auto.
Qed.
Lemma MdctNaive_new_rel n w w' : (forall m, Forall2 C (w m) (w' m)) ->
  rres (relm D) (rmap MdctNaive_obj (MdctNaive_new n w)) (rmap MdctNaive_obj (MdctNaive_new n w')).
Proof.
  intros Hw. eapply (rres_map (fun d d' => relm D (MdctNaive_obj d) (MdctNaive_obj d'))); [|auto]. unfold MdctNaive_new. cbv zeta.
  rewrite (Forall2_len _ _ _ (Hw _)). rb. cbn [rres]. set (t := map _ _). set (t' := map _ _).
  assert (Ht : Forall2 C t t') by (subst t t'; tab).
  split; [exact (f_equal (fun k => k / 4) (Forall2_len _ _ _ Ht))|]. split; [reflexivity|].
  split; [apply (MdctNaive_sims D C V K)|apply (ImdctNaive_sims D C V K)]; auto.
Qed.
Lemma windows_alike n : Forall2 C (window_mp3 n) (window_mp3 n) /\ Forall2 C (window_mp3_invertible n) (window_mp3_invertible n) /\
  Forall2 C (window_vorbis n) (window_vorbis n) /\ Forall2 C (window_vorbis_invertible n) (window_vorbis_invertible n) /\
  Forall2 C (window_one n) (window_one n) /\ Forall2 C (window_invertible n) (window_invertible n).
Proof.
  unfold window_mp3, window_mp3_invertible, window_vorbis, window_vorbis_invertible, window_one, window_invertible. repeat split; tab.
Qed.

(** The planner. *)
Variables (pf : nat -> fft T) (pf' : nat -> fft T').
Hypothesis Hpf : forall n, fft_alike D (pf n) (pf' n).
Lemma canon23_rel n : rres Rel23 (canon23 pf n) (canon23 pf' n).
Proof.
  induction n as [n IH] using lt_wf_ind. rewrite !canon23_eq. unfold canon23_step. destruct (existsb _ _).
  - unfold canon_bf. do 17 (destruct n as [|n]; [try reflexivity; cbn [rres]; first [apply (rel23_b2 D C V K)|apply (rel23_b3 D C V K)|apply (rel23_b4 D C V K)|apply (rel23_b8 D C V K)|apply (rel23_b16 D C V K)]|]). reflexivity.
  - destruct (is_power_of_two n && (2 <? n)) eqn:E.
    + apply andb_prop in E. destruct E as [_ E]. apply Nat.ltb_lt in E.
      eapply rres_bind; [apply IH, Nat.div_lt; lia|]. intros h h' Hh. eapply rres_bind; [apply IH, Nat.div_lt; lia|]. intros q q' Hq. apply Split_new_rel; assumption.
    + apply T23Fft_new_rel, Hpf.
Qed.
Lemma canon4_rel n : rres Rel4 (canon4 pf n) (canon4 pf' n).
Proof.
  unfold canon4. destruct (_ =? 0); destruct (_ <? _); try (cbn [rres]; apply T4Naive_new_rel).
  - eapply rres_bind; [apply canon23_rel|]. intros i i' Hi. cbn [rres]. apply Even_new_rel, Hi.
  - apply T4Fft_new_rel, Hpf.
Qed.
Definition reli (i : instance (T:=T)) (j : instance (T:=T')) : Prop :=
  match i, j with
  | IX o, IX o' => Relx o o' | I23 o, I23 o' => Rel23 o o' | I4 o, I4 o' => Rel4 o o'
  | IC67 o, IC67 o' => relc D o o' | IS67 o, IS67 o' => rels D o o' | IM o, IM o' => relm D o o' | _, _ => False
  end.
Lemma canon_of_rel c c' : call_alike C c c' -> rres reli (canon_of pf c) (canon_of pf' c').
Proof.
  assert (A1 : forall n, rres Relx (canon_dct1 pf n) (canon_dct1 pf' n)).
  { intros n. unfold canon_dct1. destruct (_ <? _); [apply Dct1Naive_new_rel|apply Dct1Fft_new_rel, Hpf]. }
  assert (B1 : forall n, rres Relx (canon_dst1 pf n) (canon_dst1 pf' n)).
  { intros n. unfold canon_dst1. destruct (_ <? _); [apply Dst1Naive_new_rel|apply Dst1Fft_new_rel, Hpf]. }
  assert (B6 : forall n, rres (rels D) (canon_s67 pf n) (canon_s67 pf' n)).
  { intros n. unfold canon_s67. destruct (_ <? _); [apply Dst67Naive_new_rel|apply S67Fft_new_rel, Hpf]. }
  destruct c, c'; cbn [call_alike]; try contradiction; try intros <-; cbn [canon_of];
    try (eapply rres_map; [first [apply A1|apply B1|apply B6|apply canon23_rel|apply canon4_rel|apply Dct5Naive_new_rel|apply Dct67Naive_new_rel
      |apply Dst8Naive_new_rel|cbn [rres canon_dct8 canon_dst5]; apply Dct8Naive_new_rel|cbn [rres canon_dct8 canon_dst5]; apply Dst5Naive_new_rel]|auto; fail]).
  intros [<- Hw]. eapply rres_map; [|intros a b H; exact H]. unfold canon_mdct. eapply rres_bind; [apply canon4_rel|]. intros i i' Hi. apply MdctVia_new_rel; assumption.
Qed.
Lemma call_not_mdct c c' : call_alike C c c' -> not_mdct c -> not_mdct c'.
Proof. destruct c, c'; cbn; auto; contradiction. Qed.
Lemma valid_alike n c c' : call_alike C c c' -> valid_window n c = valid_window n c'.
Proof.
  destruct c, c'; cbn [call_alike valid_window]; try contradiction; try reflexivity. intros [<- H]. rewrite (Forall2_len _ _ _ (H _)). reflexivity.
Qed.
Lemma in_force_alike cs cs' n w w' : Forall2 (call_alike C) cs cs' -> (forall m, Forall2 C (w m) (w' m)) ->
  forall m, Forall2 C (window_in_force cs n w m) (window_in_force cs' n w' m).
Proof.
  intros H Hw m. unfold window_in_force. induction H as [|c c' cs cs' Hc H IH]; [apply Hw|]. cbn [find]. rewrite (valid_alike n c c' Hc).
  destruct (valid_window n c'); [|exact IH]. destruct c, c'; cbn in Hc; try contradiction; try apply Hw. apply Hc.
Qed.
Lemma returned_rel c c' cs cs' : fft_fits pf -> call_alike C c c' -> Forall2 (call_alike C) cs cs' ->
  rres reli (returned_instance c (after pf cs)) (returned_instance c' (after pf' cs')).
Proof.
  intros Hf Hc Hcs.
  assert (Hf' : fft_fits pf').
  { intros n. destruct (Hf n) as [A B], (Hpf n) as (L & E & _). split; congruence. }
  assert (Dc : not_mdct c \/ exists n w, c = CMdct n w) by (destruct c; cbn; eauto).
  destruct Dc as [Hn|(n & w & ->)].
  - rewrite !returned_canon by eauto using call_not_mdct. apply canon_of_rel, Hc.
  - destruct c'; cbn [call_alike] in Hc; try contradiction. destruct Hc as [<- Hw]. rewrite (mdct_first_window pf Hf), (mdct_first_window pf' Hf').
    apply canon_of_rel. split; [reflexivity|]. apply in_force_alike; assumption.
Qed.
End Build.
