(** Entrywise rounding errors of what the planner builds. *)
From Coq Require Import Reals ZArith List Arith Lia Lra Psatz Bool ZifyNat.
From Verif Require Import Prog Num Model_Common Model_Naive Model_Fft Model_Butterflies Model_SplitRadix Model_Plan Model_Api
  Spec Spec_Api Spec_Fft Spec_Plan Spec_Methods Spec_Round Spec_Entry Wp Api Contracts Trig Ref Naive_Objects Objects Planner Canon Plan_Theorems
  Sem_Naive Sem_Fft Sem_Fft2 Sem_Split2 Sem_Butterflies Round_Ops Round_Entry Round_Naive Round_Fft Round_Type4 Round_Theorems Round_Binary.
Import ListNotations.
Open Scope R_scope.
Ltac Zify.zify_post_hook ::= Z.div_mod_to_equations.

Lemma total_ge0 x : 0 <= total x.
Proof. apply Energy.sum_ge0. intros. apply Rabs_pos. Qed.
Lemma entry_acc_mono t n e e' g : e <= e' -> entry_acc t n e g -> entry_acc t n e' g.
Proof. intros H A x k Hx Hk. eapply Rle_trans; [exact (A x k Hx Hk)|]. apply Rmult_le_compat_r; [apply total_ge0|exact H]. Qed.
Lemma approx_e_mono f n sl t e e' : e <= e' -> approx_e f n sl t e -> approx_e f n sl t e'.
Proof. intros H (g & C & A). exists g. split; [exact C|exact (entry_acc_mono t n e e' g H A)]. Qed.
(** The same with initially zero scratch. *)
Definition approx_e2 (f : meth R) (n sl : nat) (t : list R -> nat -> R) (e : R) : Prop :=
  exists G, computes2 f n sl G /\ entry_acc t n e (fun x => G x (repeat 0 sl)).
Lemma approx_e_e2 f n sl t e : approx_e f n sl t e -> approx_e2 f n sl t e.
Proof. intros (g & C & A). exists (fun x _ => g x). split; [apply computes_computes2, C|exact A]. Qed.
Lemma approx_e2_mono f n sl t e e' : e <= e' -> approx_e2 f n sl t e -> approx_e2 f n sl t e'.
Proof. intros H (g & C & A). exists g. split; [exact C|]. exact (entry_acc_mono t n e e' _ H A). Qed.
Lemma entry_within t n e g x : length x = n -> entry_acc t n e g -> entries_within (e * total x) (map (g x) (seq 0 (length x))) (transform t x).
Proof.
  intros Hx A. unfold transform. split; [rewrite !map_length; reflexivity|]. rewrite map_length, seq_length, Hx. intros k Hk.
  rewrite (Ref.nth_map_seq (g x)), (Ref.nth_map_seq (t x)) by exact Hk. apply A; assumption.
Qed.
Section Calls.
Context {N : Num R R}.
Lemma approx_e_call f n sl t e : approx_e f n sl t e -> entry_error f n sl (transform t) e.
Proof.
  intros (g & C & A) x s Hx Hs. destruct (computes_implements f n sl g C x s Hx Hs) as (s' & E & _). eexists. exists s'. split; [exact E|].
  apply (entry_within t n e g x Hx A).
Qed.
Lemma approx_e2_call f n sl t e : approx_e2 f n sl t e -> entry_error_zeroed f n sl (transform t) e.
Proof.
  intros (G & C & A) x s Hx Hs Hz. destruct (computes2_call f n sl G x s C Hx Hs) as (s' & E & _). rewrite Hz in E.
  eexists. exists s'. split; [exact E|]. exact (entry_within t n e (fun y => G y (repeat 0 sl)) x Hx A).
Qed.
End Calls.
Lemma nth_repeat0 n i : nth i (repeat 0 n) 0 = 0.
Proof. revert i. induction n; intros [|i]; cbn; auto. Qed.

Section Plan.
Variables (u v : R) (N : Num R R).
Hypothesis HN : rounding u v N.
Hypothesis Hv4 : 4 * v < 1.
Let Hu : 0 <= u := r_u _ _ _ HN.
Let Ht : 0 <= tau u v := tau_ge0 u v N HN Hv4.
Variables (pf : nat -> fft R) (phi : R).
Hypothesis Hpf : fft_fits pf.
Hypothesis Hcl : fft_all_clean pf.
Hypothesis Hphi : 0 <= phi.

Lemma pow_ge1 i : 1 <= (1 + u) ^ i. Proof. apply pow_R1_Rle. lra. Qed.
Lemma pow_mono i j : (i <= j)%nat -> (1 + u) ^ i <= (1 + u) ^ j. Proof. apply Rle_pow. lra. Qed.
Lemma pt_ge1 : 1 <= (1 + phi) * (1 + tau u v). Proof. nra. Qed.
Lemma pt_ge : 1 + phi <= (1 + phi) * (1 + tau u v) /\ 1 + tau u v <= (1 + phi) * (1 + tau u v). Proof. split; nra. Qed.
Definition K (j : nat) : R := (1 + u) ^ j * ((1 + phi) * (1 + tau u v)) - 1.
Lemma K_ge0 j : 0 <= K j. Proof. unfold K. pose proof (pow_ge1 j). pose proof pt_ge1. set (a := (1 + u) ^ j) in * . set (b := (1 + phi) * (1 + tau u v)) in * . nra. Qed.
Lemma K_mono i j : (i <= j)%nat -> K i <= K j.
Proof. intros H. unfold K. pose proof (pow_mono i j H). pose proof pt_ge1. set (a := (1 + phi) * (1 + tau u v)) in * . nra. Qed.
Lemma dot_K n j : (n + 2 <= j)%nat -> dot_error u v n <= K j.
Proof.
  intros H. unfold dot_error, K. pose proof (pow_mono _ _ H). pose proof (pow_ge1 (n + 2)). destruct pt_ge as [_ P].
  assert ((1 + u) ^ (n + 2) * (1 + tau u v) <= (1 + u) ^ j * ((1 + phi) * (1 + tau u v))); [|lra]. apply Rmult_le_compat; lra.
Qed.
Lemma phi_K j : (1 <= j)%nat -> (1 + u) * (1 + phi) - 1 <= K j.
Proof.
  intros H. unfold K. pose proof (pow_mono 1 j H) as P. rewrite pow_1 in P. destruct pt_ge as [Q _].
  assert ((1 + u) * (1 + phi) <= (1 + u) ^ j * ((1 + phi) * (1 + tau u v))); [|lra]. apply Rmult_le_compat; lra.
Qed.
Lemma phi_K' j : phi <= K j.
Proof. unfold K. pose proof (pow_ge1 j). destruct pt_ge as [Q _]. set (b := (1 + phi) * (1 + tau u v)) in * . nra. Qed.

(** ** Types 2 and 3 *)
Definition entry_t23 (o : t23 R) (n : nat) (e : R) : Prop :=
  t23_len o = n /\ approx_e (t_dct2 o) n (t23_scratch o) dct2_at e /\ approx_e (t_dst2 o) n (t23_scratch o) dst2_at e /\
  ((0 < n)%nat -> approx_e (t_dct3 o) n (t23_scratch o) dct3_at e) /\ ((0 < n)%nat -> approx_e (t_dst3 o) n (t23_scratch o) dst3_at e).
Definition e23 : R := 2 * K 3.

Lemma Butterfly3_entry : entry_t23 (Type2And3Butterfly3_obj (@Butterfly3_new _ _ N)) 3 e23.
Proof.
  assert (B : b3_const u v <= e23).
  { unfold b3_const, e23. pose proof (dot_K 1 3 (le_n 3)) as D. unfold dot_error in D. change (1 + 2)%nat with 3%nat in D. pose proof (K_ge0 3). lra. }
  unfold entry_t23, Type2And3Butterfly3_obj, butterfly_obj. cbn [t23_len t23_scratch t_dct2 t_dct3 t_dst2 t_dst3].
  split; [reflexivity|]. repeat split; intros; apply (approx_e_mono _ _ _ _ _ _ B); eexists;
    (split; [eapply inplace_computes; [intros b s; reflexivity|]|]).
  - apply Butterfly3_inplace_dct2_ok. - apply (b3_dct2_acc u v N HN Hv4).
  - apply Butterfly3_inplace_dst2_ok. - apply (b3_dst2_acc u v N HN Hv4).
  - apply Butterfly3_inplace_dct3_ok. - apply (b3_dct3_acc u v N HN Hv4).
  - apply Butterfly3_inplace_dst3_ok. - apply (b3_dst3_acc u v N HN Hv4).
Qed.
Lemma t23_fft_entry (f : fft R) d : Type2And3ConvertToFft_new f = Ok d -> fft_clean f -> fft_error phi f -> entry_t23 (Type2And3ConvertToFft_obj d) (fft_len f) e23.
Proof.
  intros E Hc Hf. apply Type2And3ConvertToFft_new_inv in E. subst d.
  assert (B2 : fft_const u v phi 2 <= e23) by (unfold fft_const, e23; pose proof (K_mono 2 3 ltac:(lia)) as M; unfold K at 1 in M; lra).
  assert (B3 : fft_const u v phi 3 <= e23) by (unfold fft_const, e23, K; lra).
  unfold entry_t23, Type2And3ConvertToFft_obj, Type2And3ConvertToFft_len. cbn [t23_len t23_scratch t_dct2 t_dct3 t_dst2 t_dst3 t23f_tw t23f_scratch].
  rewrite map_length, seq_length.
  split; [reflexivity|].
  repeat split; intros; [apply (approx_e_mono _ _ _ _ _ _ B2)|apply (approx_e_mono _ _ _ _ _ _ B2)|apply (approx_e_mono _ _ _ _ _ _ B3)|apply (approx_e_mono _ _ _ _ _ _ B3)]; eexists.
  - split; [apply sem_dct2_fft_ok; [rewrite map_length, seq_length; reflexivity|assumption]|apply (dct2_fft_acc u v N HN Hv4 phi f Hf); reflexivity].
  - split; [apply sem_dst2_fft_ok; [rewrite map_length, seq_length; reflexivity|assumption]|apply (dst2_fft_acc u v N HN Hv4 phi f Hf); reflexivity].
  - split; [apply sem_dct3_fft_ok; try assumption; rewrite map_length, seq_length; reflexivity|apply (dct3_fft_acc u v N HN Hv4 phi f Hf); reflexivity].
  - split; [apply sem_dst3_fft_ok; try assumption; rewrite map_length, seq_length; reflexivity|apply (dst3_fft_acc u v N HN Hv4 phi f Hf); reflexivity].
Qed.
Lemma canon23_entry n : (forall k, (1 <= k)%nat -> n <> (2 ^ k)%nat) -> fft_error phi (pf n) ->
  exists o, canon23 pf n = Ok o /\ entry_t23 o n e23.
Proof.
  intros Hn Hf. rewrite canon23_eq. unfold canon23_step.
  destruct (existsb (Nat.eqb n) DCT2_BUTTERFLIES) eqn:Eb.
  - unfold DCT2_BUTTERFLIES in Eb. cbn [existsb] in Eb. rewrite !orb_true_iff, !Nat.eqb_eq in Eb.
    assert (n = 3)%nat as ->.
    { pose proof (Hn 1 ltac:(lia))%nat. pose proof (Hn 2 ltac:(lia))%nat. pose proof (Hn 3 ltac:(lia))%nat. pose proof (Hn 4 ltac:(lia))%nat.
      cbn in * . destruct Eb as [->|[->|[->|[->|[->|]]]]]; congruence. }
    eexists. split; [reflexivity|exact Butterfly3_entry].
  - destruct (is_power_of_two n && (2 <? n)) eqn:E.
    + apply andb_prop in E. destruct E as [Ep El]. apply is_pow2_iff in Ep. destruct Ep as [k ->]. exfalso.
      destruct k; [cbn in El; discriminate|]. apply (Hn (S k)); [lia|reflexivity].
    + destruct (t23_fft_new_ok pf Hpf n) as [d Ed]. rewrite Ed. cbn [rmap]. eexists. split; [reflexivity|].
      pose proof (t23_fft_entry (pf n) d Ed (Hcl n) Hf) as G. rewrite (pf_len pf Hpf) in G. exact G.
Qed.

(** ** Type 4 *)
Definition entry_t4 (o : t4 R) (n : nat) (e : R) : Prop :=
  t4_len o = n /\ approx_e (t_dct4 o) n (t4_scratch o) dct4_at e /\ approx_e (t_dst4 o) n (t4_scratch o) dst4_at e.
Definition e4 : R := 2 * ((1 + u) ^ 9 * ((1 + phi) ^ 2 * (1 + tau u v) ^ 3) - 1).
Lemma K_e4 j : (j <= 9)%nat -> 2 * K j <= e4.
Proof.
  intros H. unfold e4. pose proof (K_mono j 9 H) as M. unfold K at 2 in M.
  assert (P : (1 + phi) * (1 + tau u v) <= (1 + phi) ^ 2 * (1 + tau u v) ^ 3).
  { replace ((1 + phi) ^ 2 * (1 + tau u v) ^ 3) with ((1 + phi) * (1 + tau u v) * ((1 + phi) * (1 + tau u v) ^ 2)) by ring.
    assert (1 <= (1 + phi) * (1 + tau u v) ^ 2) by (assert (1 <= (1 + tau u v) ^ 2) by (apply pow_R1_Rle; lra); nra).
    pose proof pt_ge1. set (a := (1 + phi) * (1 + tau u v)) in * . nra. }
  pose proof (pow_ge1 9). assert ((1 + u) ^ 9 * ((1 + phi) * (1 + tau u v)) <= (1 + u) ^ 9 * ((1 + phi) ^ 2 * (1 + tau u v) ^ 3)); [|lra].
  apply Rmult_le_compat_l; lra.
Qed.
Lemma t4e_const_e4 : t4e_const u v e23 <= e4.
Proof.
  unfold t4e_const, e4, e23. pose proof (K_ge0 3) as P. set (a := 1 + K 3).
  assert (Ea : (1 + u) ^ 3 * ((1 + phi) * (1 + tau u v)) = a) by (unfold a, K; ring).
  replace ((1 + u) ^ 9 * ((1 + phi) ^ 2 * (1 + tau u v) ^ 3)) with ((1 + u) ^ 3 * (a * a * (1 + tau u v))) by (rewrite <- Ea; ring).
  assert (1 + 2 * K 3 <= a * a) by (unfold a; nra).
  assert ((1 + u) ^ 3 * ((1 + 2 * K 3) * (1 + tau u v)) <= (1 + u) ^ 3 * (a * a * (1 + tau u v))); [|lra].
  apply Rmult_le_compat_l; [pose proof (pow_ge1 3); lra|]. apply Rmult_le_compat_r; lra.
Qed.
Lemma t4_naive_entry n : (n <= 5)%nat -> entry_t4 (Type4Naive_obj (@Type4Naive_new _ _ _ n)) n e4.
Proof.
  intros Hn. assert (B : dot_error u v n <= e4).
  { pose proof (dot_K n 9 ltac:(lia)). pose proof (K_e4 9 (le_n 9)). pose proof (K_ge0 9). lra. }
  unfold entry_t4, Type4Naive_obj. cbn [t4_len t4_scratch t_dct4 t_dst4]. unfold Type4Naive_scratch. rewrite Type4Naive_len_new.
  split; [reflexivity|]. split; apply (approx_e_mono _ _ _ _ _ _ B); [apply (dct4_naive_acc u v N HN Hv4)|apply (dst4_naive_acc u v N HN Hv4)].
Qed.
Lemma t4e_entry (i : t23 R) n : (0 < n)%nat -> entry_t23 i n e23 ->
  entry_t4 (Type4ConvertToType3Even_obj (@Type4ConvertToType3Even_new _ _ N i)) (2 * n) e4.
Proof.
  intros Hn (L & _ & _ & HC & HS). destruct (HC Hn) as (C & C3 & C3'). destruct (HS Hn) as (S3' & D3 & D3').
  rewrite (t4e_new_eq i n L). unfold entry_t4, Type4ConvertToType3Even_obj, Type4ConvertToType3Even_len.
  cbn [t4_len t4_scratch t_dct4 t_dst4 t4e_tw t4e_scratch].
  set (tw := map _ _). assert (Lt : @length (R * R) tw = n) by (etransitivity; [apply map_length|apply seq_length]).
  split; [etransitivity; [exact (f_equal (fun l => (l * 2)%nat) Lt)|lia]|].
  set (sl := if (t23_scratch i <=? 2 * n)%nat then (2 * n)%nat else (2 * n + t23_scratch i)%nat).
  assert (Hr : t4e_room (T:=R) tw (t23_scratch i) sl).
  { unfold t4e_room. rewrite Lt. unfold sl. destruct (Nat.leb_spec (t23_scratch i) (2 * n)); lia. }
  clearbody sl. assert (He : 0 <= e23) by (unfold e23; pose proof (K_ge0 3); lra).
  split; apply (approx_e_mono _ _ _ _ _ _ t4e_const_e4); eexists;
    (split; [|first [exact (t4e_dct4_entry u v N HN Hv4 n e23 Hn He C S3' C3' D3')|exact (t4e_dst4_entry u v N HN Hv4 n e23 Hn He C S3' C3' D3')]]).
  - pose proof (sem_t4e_dct4_ok C S3' tw i sl (t23_scratch i)) as M. rewrite Lt in M. apply M; assumption.
  - pose proof (sem_t4e_dst4_ok C S3' tw i sl (t23_scratch i)) as M. rewrite Lt in M. apply M; assumption.
Qed.
Lemma t4_fft_entry (f : fft R) d : Type4ConvertToFftOdd_new f = Ok d -> fft_clean f -> fft_error phi f -> entry_t4 (Type4ConvertToFftOdd_obj d) (fft_len f) e4.
Proof.
  intros E Hc Hf. apply Type4ConvertToFftOdd_new_inv in E. destruct E as [Ho ->]. pose proof (K_e4 6 ltac:(lia)) as B.
  split; [reflexivity|]. split; apply (approx_e_mono _ _ _ _ _ _ B); eexists.
  - split; [apply sem_dct4_fft_ok; assumption|apply (dct4_fft_acc u v N HN Hv4 phi f Hf); [reflexivity|exact Ho]].
  - split; [apply sem_dst4_fft_ok; assumption|apply (dst4_fft_acc u v N HN Hv4 phi f Hf); [reflexivity|exact Ho]].
Qed.
Lemma canon4_entry n : (forall k, (3 <= k)%nat -> n <> (2 ^ k)%nat) -> (forall m, (m <= n)%nat -> fft_error phi (pf m)) ->
  exists o, canon4 pf n = Ok o /\ entry_t4 o n e4.
Proof.
  intros Hn Hf. unfold canon4. destruct (Nat.eqb_spec (n mod 2) 0) as [Ev|Od].
  - destruct (Nat.ltb_spec n 6); [eexists; split; [reflexivity|apply t4_naive_entry; lia]|].
    destruct (canon23_entry (n / 2)) as (i & Ei & Qi).
    { intros k Hk E. destruct k as [|[|k]]; [lia|change (2 ^ 1)%nat with 2%nat in E; lia|]. apply (Hn (S (S (S k)))); [lia|]. rewrite (Nat.pow_succ_r' 2 (S (S k))), <- E. lia. }
    { apply Hf. lia. }
    rewrite Ei. cbn [rbind]. eexists. split; [reflexivity|].
    pose proof (t4e_entry i (n / 2) ltac:(lia) Qi) as G. replace (2 * (n / 2))%nat with n in G by lia. exact G.
  - destruct (Nat.ltb_spec n 7); [eexists; split; [reflexivity|apply t4_naive_entry; lia]|].
    destruct (t4_fft_new_ok pf Hpf n) as [d Ed]; [lia|]. rewrite Ed. cbn [rmap]. eexists. split; [reflexivity|].
    pose proof (t4_fft_entry (pf n) d Ed (Hcl n) (Hf n (le_n n))) as G. rewrite (pf_len pf Hpf) in G. exact G.
Qed.

(** ** The others *)
Lemma canon_dct1_entry n : (2 <= n)%nat -> (forall m, (m <= 2 * n)%nat -> fft_error phi (pf m)) ->
  exists o, canon_dct1 pf n = Ok o /\ approx_e (x_run o) n (x_scratch o) dct1_at (K 11).
Proof.
  intros Hn Hf. unfold canon_dct1. destruct (Nat.ltb_spec n 10).
  - destruct (Dct1Naive_new_some (T:=R) n Hn) as [d Ed]. rewrite Ed. eexists. split; [reflexivity|].
    unfold Dct1Naive_obj. cbn [x_run x_scratch]. unfold Dct1Naive_scratch. rewrite (Dct1Naive_len_new n d Ed).
    apply (approx_e_mono _ _ _ _ _ _ (dot_K n 11 ltac:(lia))), (dct1_naive_acc u v N HN Hv4 n d Hn Ed).
  - destruct (dct1_fft_new_ok pf Hpf ((n - 1) * 2)) as [d Ed]; [lia|]. rewrite Ed. eexists. split; [reflexivity|].
    set (f := pf ((n - 1) * 2)) in * . assert (Lf : fft_len f = ((n - 1) * 2)%nat) by apply (pf_len pf Hpf).
    pose proof (sem_dct1_fft_ok f d Ed (Hcl _) ltac:(lia)) as C.
    apply (approx_e_mono _ _ _ _ _ _ (phi_K 11 ltac:(lia))). exists (sem_dct1_fft f n).
    split; [|apply (dct1_fft_acc u v N HN phi f (Hf ((n - 1) * 2)%nat ltac:(lia))); lia].
    replace (fft_len f / 2 + 1)%nat with n in C by lia. revert C. revert Ed.
    unfold Dct1ConvertToFft_new, rassert. destruct (_ =? 0)%nat; [|discriminate]. cbn [rbind].
    destruct (dir_eqb _ _); [|discriminate]. cbn [rbind]. intros Ed. apply Ok_inj in Ed. subst d. intros C. exact C.
Qed.
Lemma canon_dst1_entry n : (forall m, (m <= 2 * n + 2)%nat -> fft_error phi (pf m)) ->
  exists o, canon_dst1 pf n = Ok o /\ approx_e2 (x_run o) n (x_scratch o) dst1_at (K 26) /\
  ((n < 25)%nat -> approx_e (x_run o) n (x_scratch o) dst1_at (K 26)).
Proof.
  intros Hf. unfold canon_dst1. destruct (Nat.ltb_spec n 25).
  - eexists. split; [reflexivity|]. unfold Dst1Naive_obj. cbn [x_run x_scratch]. unfold Dst1Naive_scratch. rewrite Dst1Naive_len_new.
    assert (A : approx_e (Dst1Naive_dst1 (Dst1Naive_new n)) n n dst1_at (K 26)).
    { apply (approx_e_mono _ _ _ _ _ _ (dot_K n 26 ltac:(lia))), (dst1_naive_acc u v N HN Hv4 n). }
    split; [apply approx_e_e2, A|intros _; exact A].
  - destruct (dst1_fft_new_ok pf Hpf ((n + 1) * 2)) as [d Ed]; [lia|lia|]. rewrite Ed. eexists. split; [reflexivity|].
    split; [|lia]. apply (approx_e2_mono _ _ _ _ _ _ (phi_K 26 ltac:(lia))).
    set (f := pf ((n + 1) * 2)) in * . assert (Lf : fft_len f = ((n + 1) * 2)%nat) by apply (pf_len pf Hpf).
    pose proof (sem_dst1_fft_ok f d Ed (Hcl _)) as C. exists (sem_dst1_fft f n).
    split; [|apply (dst1_fft_acc u v N HN phi f (Hf ((n + 1) * 2)%nat ltac:(lia))); [lia|apply nth_repeat0]].
    replace (fft_len f / 2 - 1)%nat with n in C by lia. revert C. revert Ed.
    unfold Dst1ConvertToFft_new, rassert, rsub. destruct (_ =? 0)%nat; [|discriminate]. cbn [rbind].
    destruct (dir_eqb _ _); [|discriminate]. cbn [rbind]. destruct (1 <=? _)%nat; [|discriminate]. cbn [rbind].
    intros Ed. apply Ok_inj in Ed. subst d. intros C. exact C.
Qed.
Lemma canon_s67_entry n : (forall m, (m <= 2 * n + 2)%nat -> fft_error phi (pf m)) ->
  exists o, canon_s67 pf n = Ok o /\
  approx_e2 (t_dst6 o) n (s67_scratch o) dst6_at (K 46) /\ approx_e2 (t_dst7 o) n (s67_scratch o) dst7_at (K 46) /\
  ((n < 45)%nat -> approx_e (t_dst6 o) n (s67_scratch o) dst6_at (K 46) /\ approx_e (t_dst7 o) n (s67_scratch o) dst7_at (K 46)).
Proof.
  intros Hf. unfold canon_s67. destruct (Nat.ltb_spec n 45).
  - eexists. split; [reflexivity|]. unfold Dst6And7Naive_obj. cbn [t_dst6 t_dst7 s67_scratch]. unfold Dst6And7Naive_scratch. rewrite Dst6And7Naive_len_new.
    assert (A : approx_e (Dst6And7Naive_dst6 (Dst6And7Naive_new n)) n n dst6_at (K 46)).
    { apply (approx_e_mono _ _ _ _ _ _ (dot_K n 46 ltac:(lia))), (dst6_naive_acc u v N HN Hv4 n). }
    assert (B : approx_e (Dst6And7Naive_dst7 (Dst6And7Naive_new n)) n n dst7_at (K 46)).
    { apply (approx_e_mono _ _ _ _ _ _ (dot_K n 46 ltac:(lia))), (dst7_naive_acc u v N HN Hv4 n). }
    split; [apply approx_e_e2, A|]. split; [apply approx_e_e2, B|]. intros _; split; assumption.
  - destruct (s67_fft_new_ok pf Hpf (n * 2 + 1)) as [d Ed]; [lia|]. rewrite Ed. eexists. split; [reflexivity|].
    set (f := pf (n * 2 + 1)) in * . assert (Lf : fft_len f = (2 * n + 1)%nat) by (etransitivity; [apply (pf_len pf Hpf)|lia]).
    apply Dst6And7ConvertToFft_new_inv in Ed. destruct Ed as [Ho ->]. replace ((fft_len f - 1) / 2)%nat with n by lia.
    split; [|split; [|lia]].
    + apply (approx_e2_mono _ _ _ _ _ _ (phi_K' 46)). eexists.
      split; [apply sem_dst6_fft_ok; [exact Lf|apply Hcl]|apply (dst6_fft_acc u v N HN phi f (Hf (n * 2 + 1)%nat ltac:(lia))); [exact Lf|apply nth_repeat0]].
    + apply (approx_e2_mono _ _ _ _ _ _ (phi_K 46 ltac:(lia))). eexists.
      split; [apply sem_dst7_fft_ok; [exact Lf|apply Hcl]|apply (dst7_fft_acc u v N HN phi f (Hf (n * 2 + 1)%nat ltac:(lia))); [exact Lf|apply nth_repeat0]].
Qed.

(** ** Callers *)
Lemma both f n sl t e (P : Prop) : approx_e f n sl t e -> (P -> entry_error f n sl (transform t) e) /\ entry_error_zeroed f n sl (transform t) e.
Proof. intros A. split; [intros _; apply approx_e_call, A|apply approx_e2_call, approx_e_e2, A]. Qed.
Lemma planned_entry cs c : legal c -> ~ halving c -> (forall m, (m <= 2 * size c + 2)%nat -> fft_error phi (pf m)) ->
  exists f sl, planned_method c (after pf cs) = Some (f, sl) /\
  (clean c -> entry_error f (size c) sl (reference c) (entry_bound u v phi c)) /\
  entry_error_zeroed f (size c) sl (reference c) (entry_bound u v phi c).
Proof.
  intros Hl Hh Hf.
  destruct c as [n|n|n|n|n|n|n|n|n|n|n|n|n|n|n|n|n w]; cbn [legal halving size clean] in Hl, Hh, Hf |- *; try contradiction;
    unfold planned_method, plan_dct3, plan_dst2, plan_dst3, plan_dst4, plan_dct7, plan_dst7.
  - destruct (planned_ex pf _ _ cs _ (plan_dct1_ok pf _ n) (canon_dct1_entry n Hl ltac:(intros; apply Hf; lia))) as (a & Ea & A).
    rewrite Ea. eexists. eexists. split; [reflexivity|]. exact (both _ _ _ _ _ _ A).
  - destruct (planned_ex pf _ _ cs _ (plan_dct2_ok pf _ n) (canon23_entry n ltac:(intros k Hk E; apply Hh; eauto) ltac:(apply Hf; lia))) as (a & Ea & _ & A & _).
    rewrite Ea. eexists. eexists. split; [reflexivity|]. exact (both _ _ _ _ _ _ A).
  - destruct (planned_ex pf _ _ cs _ (plan_dct2_ok pf _ n) (canon23_entry n ltac:(intros k Hk E; apply Hh; eauto) ltac:(apply Hf; lia))) as (a & Ea & _ & _ & _ & A & _).
    rewrite Ea. eexists. eexists. split; [reflexivity|]. exact (both _ _ _ _ _ _ (A Hl)).
  - destruct (planned_ex pf _ _ cs _ (plan_dct4_ok pf _ n) (canon4_entry n ltac:(intros k Hk E; apply Hh; eauto) ltac:(intros; apply Hf; lia))) as (a & Ea & _ & A & _).
    rewrite Ea. eexists. eexists. split; [reflexivity|]. exact (both _ _ _ _ _ _ A).
  - destruct (Dct5Naive_new_some (T:=R) n Hl) as [d Ed].
    destruct (planned_ex pf _ _ cs (fun o => o = Dct5Naive_obj d) (plan_dct5_ok pf _ n)) as (a & Ea & A); [unfold canon_dct5; rewrite Ed; eexists; split; reflexivity|].
    rewrite Ea. eexists. eexists. split; [reflexivity|]. rewrite A. unfold Dct5Naive_obj. cbn [x_run x_scratch]. unfold Dct5Naive_scratch. rewrite (Dct5Naive_len_new n d Ed).
    exact (both _ _ _ _ _ _ (dct5_naive_acc u v N HN Hv4 n d Hl Ed)).
  - destruct (Dct6And7Naive_new_some (T:=R) n Hl) as [d Ed].
    destruct (planned_ex pf _ _ cs (fun o => o = Dct6And7Naive_obj d) (plan_dct6_ok pf _ n)) as (a & Ea & A); [unfold canon_c67; rewrite Ed; eexists; split; reflexivity|].
    rewrite Ea. eexists. eexists. split; [reflexivity|]. rewrite A. unfold Dct6And7Naive_obj. cbn [t_dct6 c67_scratch]. unfold Dct6And7Naive_scratch. rewrite (Dct6And7Naive_len_new n d Ed).
    exact (both _ _ _ _ _ _ (dct6_naive_acc u v N HN Hv4 n d Hl Ed)).
  - destruct (Dct6And7Naive_new_some (T:=R) n Hl) as [d Ed].
    destruct (planned_ex pf _ _ cs (fun o => o = Dct6And7Naive_obj d) (plan_dct6_ok pf _ n)) as (a & Ea & A); [unfold canon_c67; rewrite Ed; eexists; split; reflexivity|].
    rewrite Ea. eexists. eexists. split; [reflexivity|]. rewrite A. unfold Dct6And7Naive_obj. cbn [t_dct7 c67_scratch]. unfold Dct6And7Naive_scratch. rewrite (Dct6And7Naive_len_new n d Ed).
    exact (both _ _ _ _ _ _ (dct7_naive_acc u v N HN Hv4 n d Hl Ed)).
  - destruct (planned_ex pf _ _ cs (fun o => o = Dct8Naive_obj (Dct8Naive_new n)) (plan_dct8_ok pf _ n)) as (a & Ea & A); [eexists; split; reflexivity|].
    rewrite Ea. eexists. eexists. split; [reflexivity|]. rewrite A. unfold Dct8Naive_obj. cbn [x_run x_scratch]. unfold Dct8Naive_scratch. rewrite Dct8Naive_len_new.
    exact (both _ _ _ _ _ _ (dct8_naive_acc u v N HN Hv4 n)).
  - destruct (planned_ex pf _ _ cs _ (plan_dst1_ok pf _ n) (canon_dst1_entry n Hf)) as (a & Ea & A & B).
    rewrite Ea. eexists. eexists. split; [reflexivity|]. split; [intros Hc; apply approx_e_call, (B Hc)|apply approx_e2_call, A].
  - destruct (planned_ex pf _ _ cs _ (plan_dct2_ok pf _ n) (canon23_entry n ltac:(intros k Hk E; apply Hh; eauto) ltac:(apply Hf; lia))) as (a & Ea & _ & _ & A & _).
    rewrite Ea. eexists. eexists. split; [reflexivity|]. exact (both _ _ _ _ _ _ A).
  - destruct (planned_ex pf _ _ cs _ (plan_dct2_ok pf _ n) (canon23_entry n ltac:(intros k Hk E; apply Hh; eauto) ltac:(apply Hf; lia))) as (a & Ea & _ & _ & _ & _ & A).
    rewrite Ea. eexists. eexists. split; [reflexivity|]. exact (both _ _ _ _ _ _ (A Hl)).
  - destruct (planned_ex pf _ _ cs _ (plan_dct4_ok pf _ n) (canon4_entry n ltac:(intros k Hk E; apply Hh; eauto) ltac:(intros; apply Hf; lia))) as (a & Ea & _ & _ & A).
    rewrite Ea. eexists. eexists. split; [reflexivity|]. exact (both _ _ _ _ _ _ A).
  - destruct (planned_ex pf _ _ cs (fun o => o = Dst5Naive_obj (Dst5Naive_new n)) (plan_dst5_ok pf _ n)) as (a & Ea & A); [eexists; split; reflexivity|].
    rewrite Ea. eexists. eexists. split; [reflexivity|]. rewrite A. unfold Dst5Naive_obj. cbn [x_run x_scratch]. unfold Dst5Naive_scratch. rewrite Dst5Naive_len_new.
    exact (both _ _ _ _ _ _ (dst5_naive_acc u v N HN Hv4 n)).
  - destruct (planned_ex pf _ _ cs _ (plan_dst6_ok pf _ n) (canon_s67_entry n Hf)) as (a & Ea & A & _ & B).
    rewrite Ea. eexists. eexists. split; [reflexivity|]. split; [intros Hc; apply approx_e_call, (proj1 (B Hc))|apply approx_e2_call, A].
  - destruct (planned_ex pf _ _ cs _ (plan_dst6_ok pf _ n) (canon_s67_entry n Hf)) as (a & Ea & _ & A & B).
    rewrite Ea. eexists. eexists. split; [reflexivity|]. split; [intros Hc; apply approx_e_call, (proj2 (B Hc))|apply approx_e2_call, A].
  - destruct (Dst8Naive_new_some (T:=R) n Hl) as [d Ed].
    destruct (planned_ex pf _ _ cs (fun o => o = Dst8Naive_obj d) (plan_dst8_ok pf _ n)) as (a & Ea & A); [unfold canon_dst8; rewrite Ed; eexists; split; reflexivity|].
    rewrite Ea. eexists. eexists. split; [reflexivity|]. rewrite A. unfold Dst8Naive_obj. cbn [x_run x_scratch]. unfold Dst8Naive_scratch. rewrite (Dst8Naive_len_new n d Ed).
    exact (both _ _ _ _ _ _ (dst8_naive_acc u v N HN Hv4 n d Hl Ed)).
Qed.
End Plan.

(** ** Closed forms *)
Lemma entry_error_mono (N : Num R R) f n sl t e e' : e <= e' -> entry_error f n sl t e -> entry_error f n sl t e'.
Proof.
  intros He H x s Hx Hs. destruct (H x s Hx Hs) as (y & s' & E & L & D). exists y, s'. split; [exact E|]. split; [exact L|].
  intros k Hk. eapply Rle_trans; [exact (D k Hk)|]. apply Rmult_le_compat_r; [apply total_ge0|exact He].
Qed.
Lemma entry_error_zeroed_mono (N : Num R R) f n sl t e e' : e <= e' -> entry_error_zeroed f n sl t e -> entry_error_zeroed f n sl t e'.
Proof.
  intros He H x s Hx Hs Hz. destruct (H x s Hx Hs Hz) as (y & s' & E & L & D). exists y, s'. split; [exact E|]. split; [exact L|].
  intros k Hk. eapply Rle_trans; [exact (D k Hk)|]. apply Rmult_le_compat_r; [apply total_ge0|exact He].
Qed.
Lemma closed_pow u j p : 0 <= u -> 0 <= p -> INR j * u < 1 -> (1 + u) ^ j * (1 + p) - 1 <= closed (INR j) p u.
Proof.
  intros Hu Hp Hj. pose proof (bernoulli_inv u j Hu Hj) as B. unfold closed.
  assert (I : 0 < / (1 - INR j * u)) by (apply Rinv_0_lt_compat; lra).
  replace ((INR j * u + p) / (1 - INR j * u)) with (/ (1 - INR j * u) * (1 + p) - 1) by (field; lra).
  apply Rplus_le_compat_r, Rmult_le_compat_r; [lra|exact B].
Qed.
Lemma closed_entry_bound u v phi w c : 0 <= u -> 0 <= phi -> 0 <= tau u v -> 1 + tau u v <= (1 + u) ^ w ->
  (INR (size c) + 46 + 3 * INR w) * u < 1 -> legal c -> entry_bound u v phi c <= closed_bound (INR w) u phi c.
Proof.
  intros Hu Hp Ht Hw Hs Hl. pose proof (pos_INR (size c)) as Pn. pose proof (pos_INR w) as Pw.
  assert (G : forall a i j, (INR i + INR w) * u < 1 -> a = INR i -> (j = i)%nat -> (1 + u) ^ j * ((1 + phi) * (1 + tau u v)) - 1 <= closed (a + INR w) phi u).
  { intros a i j Hi -> ->. rewrite <- plus_INR in Hi |- * . eapply Rle_trans; [|apply closed_pow; assumption].
    rewrite pow_add. assert (0 < (1 + u) ^ i) by (apply pow_lt; lra).
    replace ((1 + u) ^ i * ((1 + phi) * (1 + tau u v))) with ((1 + u) ^ i * (1 + phi) * (1 + tau u v)) by ring.
    replace ((1 + u) ^ i * (1 + u) ^ w * (1 + phi)) with ((1 + u) ^ i * (1 + phi) * (1 + u) ^ w) by ring.
    apply Rplus_le_compat_r, Rmult_le_compat_l; [|exact Hw]. apply Rmult_le_pos; lra. }
  assert (D : forall n, (INR n + 2 + INR w) * u < 1 -> dot_error u v n <= closed (INR n + 2 + INR w) 0 u).
  { intros n Hn. unfold dot_error. replace (INR n + 2 + INR w) with (INR (n + 2 + w)) in Hn |- * by (rewrite !plus_INR; simpl; ring).
    eapply Rle_trans; [|apply closed_pow; [exact Hu|lra|exact Hn]]. rewrite (pow_add _ (n + 2) w), Rplus_0_r, Rmult_1_r.
    apply Rplus_le_compat_r, Rmult_le_compat_l; [apply pow_le; lra|exact Hw]. }
  assert (L : forall a, a <= INR (size c) + 46 + 3 * INR w -> a * u < 1) by (intros a Ha; nra).
  assert (F : 2 * ((1 + u) ^ 9 * ((1 + phi) ^ 2 * (1 + tau u v) ^ 3) - 1) <= 2 * closed (9 + 3 * INR w) (phi * (2 + phi)) u).
  { apply Rmult_le_compat_l; [lra|]. replace (9 + 3 * INR w) with (INR (9 + 3 * w)) by (rewrite plus_INR, mult_INR; simpl; ring).
    eapply Rle_trans; [|apply closed_pow; [exact Hu|nra|apply L; rewrite plus_INR, mult_INR; simpl; lra]].
    replace (1 + phi * (2 + phi)) with ((1 + phi) ^ 2) by ring. rewrite (pow_add _ 9), (Nat.mul_comm 3 w), pow_mult.
    assert (0 < (1 + u) ^ 9) by (apply pow_lt; lra). assert (0 < (1 + phi) ^ 2) by (apply pow_lt; lra).
    assert ((1 + tau u v) ^ 3 <= ((1 + u) ^ w) ^ 3) by (apply pow_incr; lra).
    replace ((1 + u) ^ 9 * ((1 + u) ^ w) ^ 3 * (1 + phi) ^ 2) with ((1 + u) ^ 9 * ((1 + phi) ^ 2 * ((1 + u) ^ w) ^ 3)) by ring.
    apply Rplus_le_compat_r. repeat (apply Rmult_le_compat_l; [lra|]). assumption. }
  assert (E2 : 2 * ((1 + u) ^ 3 * ((1 + phi) * (1 + tau u v)) - 1) <= 2 * closed (3 + INR w) phi u).
  { apply Rmult_le_compat_l; [lra|]. apply (G 3 3%nat); [apply L; simpl; lra|simpl; lra|reflexivity]. }
  destruct c as [n|n|n|n|n|n|n|n|n|n|n|n|n|n|n|n|n wd]; cbn [entry_bound closed_bound size] in *; try exact E2; try exact F; try (apply D, L; lra); try contradiction.
  - apply (G 11 11%nat); [apply L; simpl; lra|simpl; lra|reflexivity].
  - apply (G 26 26%nat); [apply L; simpl; lra|simpl; lra|reflexivity].
  - apply (G 46 46%nat); [apply L; simpl; lra|simpl; lra|reflexivity].
  - apply (G 46 46%nat); [apply L; simpl; lra|simpl; lra|reflexivity].
Qed.
(** Table entries. *)
Lemma rho_any_le v : 0 <= v <= / 1024 -> 0 <= rho_any v <= 102 / 10 * v.
Proof.
  intros Hv. unfold rho_any. assert (I : 0 < / (1 - 4 * v)) by (apply Rinv_0_lt_compat; lra). assert (E : (1 - 4 * v) * / (1 - 4 * v) = 1) by (apply Rinv_r; lra).
  assert (P1 : 1 <= (1 + v) ^ 6) by (apply pow_R1_Rle; lra).
  assert (Q : (1 + v) ^ 3 <= 1 + 301 / 100 * v) by (assert (v * v <= v / 1024) by nra; assert (v * v * v <= v * v / 1024) by nra; nra).
  assert (Q1 : 1 <= (1 + v) ^ 3) by (apply pow_R1_Rle; lra).
  assert (P : (1 + v) ^ 6 <= (1 + 301 / 100 * v) * (1 + 301 / 100 * v)) by (replace ((1 + v) ^ 6) with ((1 + v) ^ 3 * (1 + v) ^ 3) by ring; apply Rmult_le_compat; lra).
  assert (P' : (1 + v) ^ 6 <= (1 + 102 / 10 * v) * (1 - 4 * v)) by nra.
  split; [nra|]. assert ((1 + v) ^ 6 * / (1 - 4 * v) <= 1 + 102 / 10 * v); [|lra].
  apply Rmult_le_reg_r with (1 - 4 * v); [lra|]. rewrite Rmult_assoc, Rinv_l, Rmult_1_r by lra. exact P'.
Qed.
Lemma tau_le u v w : 0 <= u <= / 1024 -> 0 <= v <= u -> (1 + v) * (1 + 83 * v) <= 1 + w * u -> (1 + u) * (1 + w * u) <= 1 + (w + 2) * u ->
  1 + tau u v <= 1 + (w + 2) * u.
Proof.
  intros Hu Hv H1 H2. pose proof (rho_any_le v ltac:(lra)) as Rv. unfold tau. pose proof PI_4 as P4. pose proof PI_RGT_0 as P0.
  assert (B : 1 + v + 2 * PI * rho_any v <= 1 + 83 * v).
  { assert (2 * PI * rho_any v <= 8 * rho_any v) by (apply Rmult_le_compat_r; lra). lra. }
  assert (B0 : 0 <= 2 * PI * rho_any v) by (apply Rmult_le_pos; lra).
  assert ((1 + u) * (1 + v) * (1 + v + 2 * PI * rho_any v) <= (1 + u) * (1 + v) * (1 + 83 * v)) by (apply Rmult_le_compat_l; [nra|exact B]).
  assert ((1 + u) * (1 + v) * (1 + 83 * v) <= (1 + u) * (1 + w * u)) by (rewrite Rmult_assoc; apply Rmult_le_compat_l; lra). lra.
Qed.
Lemma tau_wide u v : 0 <= u <= / 1024 -> 0 <= v <= u * u -> 1 + tau u v <= (1 + u) ^ 3.
Proof.
  intros Hu Hv. assert (v <= u / 1024) by nra. eapply Rle_trans; [apply (tau_le u v 1); [lra|nra|nra|nra]|]. 
  assert (0 <= u * u) by nra. assert (0 <= u * u * u) by (apply Rmult_le_pos; lra). nra.
Qed.
Lemma pow_lower u j : 0 <= u -> 1 + INR j * u <= (1 + u) ^ j.
Proof. intros Hu. induction j as [|j IH]; [simpl; lra|]. rewrite S_INR. cbn [pow]. pose proof (pos_INR j). assert (0 <= INR j * u) by nra. nra. Qed.
Lemma tau_same u v : 0 <= u <= / 1024 -> 0 <= v <= u -> 1 + tau u v <= (1 + u) ^ 90.
Proof.
  intros Hu Hv. eapply Rle_trans; [apply (tau_le u v (88)); [lra|lra|nra|nra]|].
  eapply Rle_trans; [|apply pow_lower; lra]. simpl INR. lra.
Qed.
Section Closed.
Variables (u v : R) (N : Num R R).
Hypothesis HN : rounding u v N.
Hypothesis Hv4 : 4 * v < 1.
Lemma planned_entry_closed w : 1 + tau u v <= (1 + u) ^ w -> forall (pf : nat -> fft R) phi, fft_fits pf -> fft_all_clean pf ->
  forall cs c, legal c -> ~ halving c -> (forall m, (m <= 2 * size c + 2)%nat -> fft_error phi (pf m)) ->
  (INR (size c) + 46 + 3 * INR w) * u < 1 ->
  exists f sl, planned_method c (after pf cs) = Some (f, sl) /\
  (clean c -> entry_error f (size c) sl (reference c) (closed_bound (INR w) u phi c)) /\
  entry_error_zeroed f (size c) sl (reference c) (closed_bound (INR w) u phi c).
Proof.
  intros Hw pf phi Hpf Hcl cs c Hl Hh Hf Hs. assert (Hp : 0 <= phi) by apply (Hf 0%nat ltac:(lia)).
  destruct (planned_entry u v N HN Hv4 pf phi Hpf Hcl Hp cs c Hl Hh Hf) as (f & sl & E & A & B).
  pose proof (closed_entry_bound u v phi w c (r_u _ _ _ HN) Hp (tau_ge0 u v N HN Hv4) Hw Hs Hl) as C.
  exists f, sl. split; [exact E|]. split; [intros Hc; exact (entry_error_mono N f _ sl _ _ _ C (A Hc))|exact (entry_error_zeroed_mono N f _ sl _ _ _ C B)].
Qed.
End Closed.

(** ** The naive structs *)
Section Naive.
Variables (u v : R) (N : Num R R).
Hypothesis HN : rounding u v N.
Hypothesis Hv4 : 4 * v < 1.
Lemma naive_entry n : let e := dot_error u v n in
  (forall d, Dct1Naive_new n = Ok d -> entry_error (Dct1Naive_dct1 d) n n dct1 e) /\
  entry_error (Type2And3Naive_dct2 (Type2And3Naive_new n)) n n dct2 e /\
  ((1 <= n)%nat -> entry_error (Type2And3Naive_dct3 (Type2And3Naive_new n)) n n dct3 e) /\
  entry_error (Type4Naive_dct4 (Type4Naive_new n)) n n dct4 e /\
  (forall d, Dct5Naive_new n = Ok d -> entry_error (Dct5Naive_dct5 d) n n dct5 e) /\
  (forall d, Dct6And7Naive_new n = Ok d -> entry_error (Dct6And7Naive_dct6 d) n n dct6 e /\ entry_error (Dct6And7Naive_dct7 d) n n dct7 e) /\
  entry_error (Dct8Naive_dct8 (Dct8Naive_new n)) n n dct8 e /\
  entry_error (Dst1Naive_dst1 (Dst1Naive_new n)) n n dst1 e /\
  entry_error (Type2And3Naive_dst2 (Type2And3Naive_new n)) n n dst2 e /\
  ((1 <= n)%nat -> entry_error (Type2And3Naive_dst3 (Type2And3Naive_new n)) n n dst3 e) /\
  entry_error (Type4Naive_dst4 (Type4Naive_new n)) n n dst4 e /\
  entry_error (Dst5Naive_dst5 (Dst5Naive_new n)) n n dst5 e /\
  entry_error (Dst6And7Naive_dst6 (Dst6And7Naive_new n)) n n dst6 e /\
  entry_error (Dst6And7Naive_dst7 (Dst6And7Naive_new n)) n n dst7 e /\
  (forall d, Dst8Naive_new n = Ok d -> entry_error (Dst8Naive_dst8 d) n n dst8 e).
Proof.
  intros e. unfold e.
  assert (P1 : forall d, Dct1Naive_new (T:=R) n = Ok d -> (2 <= n)%nat).
  { intros d. unfold Dct1Naive_new, rassert, rsub. destruct (Nat.eqb_spec n 1); [discriminate|]. cbn [negb rbind]. destruct (Nat.leb_spec 1 n); [lia|discriminate]. }
  assert (P5 : forall d, Dct5Naive_new (T:=R) n = Ok d -> (1 <= n)%nat) by (intros d; unfold Dct5Naive_new, rsub; destruct (Nat.leb_spec 1 (n * 2)); [lia|discriminate]).
  assert (P67 : forall d, Dct6And7Naive_new (T:=R) n = Ok d -> (1 <= n)%nat) by (intros d; unfold Dct6And7Naive_new, rsub; destruct (Nat.leb_spec 1 (n * 2)); [lia|discriminate]).
  assert (P8 : forall d, Dst8Naive_new (T:=R) n = Ok d -> (1 <= n)%nat) by (intros d; unfold Dst8Naive_new, rsub; destruct (Nat.leb_spec 1 (n * 2)); [lia|discriminate]).
  split; [intros d E; apply approx_e_call, (dct1_naive_acc u v N HN Hv4 n d (P1 d E) E)|].
  split; [apply approx_e_call, (dct2_naive_acc u v N HN Hv4 n)|].
  split; [intros Hn; apply approx_e_call, (dct3_naive_acc u v N HN Hv4 n Hn)|].
  split; [apply approx_e_call, (dct4_naive_acc u v N HN Hv4 n)|].
  split; [intros d E; apply approx_e_call, (dct5_naive_acc u v N HN Hv4 n d (P5 d E) E)|].
  split; [intros d E; split; apply approx_e_call; [apply (dct6_naive_acc u v N HN Hv4 n d (P67 d E) E)|apply (dct7_naive_acc u v N HN Hv4 n d (P67 d E) E)]|].
  split; [apply approx_e_call, (dct8_naive_acc u v N HN Hv4 n)|].
  split; [apply approx_e_call, (dst1_naive_acc u v N HN Hv4 n)|].
  split; [apply approx_e_call, (dst2_naive_acc u v N HN Hv4 n)|].
  split; [intros Hn; apply approx_e_call, (dst3_naive_acc u v N HN Hv4 n Hn)|].
  split; [apply approx_e_call, (dst4_naive_acc u v N HN Hv4 n)|].
  split; [apply approx_e_call, (dst5_naive_acc u v N HN Hv4 n)|].
  split; [apply approx_e_call, (dst6_naive_acc u v N HN Hv4 n)|].
  split; [apply approx_e_call, (dst7_naive_acc u v N HN Hv4 n)|].
  intros d E; apply approx_e_call, (dst8_naive_acc u v N HN Hv4 n d (P8 d E) E).
Qed.
End Naive.

(** ** Callers' forms *)
Lemma planned_entry_all u v (N : Num R R) : rounding u v N -> 4 * v < 1 -> forall (pf : nat -> fft R) phi, fft_fits pf -> fft_all_clean pf ->
  forall cs c, legal c -> ~ halving c -> (forall m, (m <= 2 * size c + 2)%nat -> fft_error phi (pf m)) ->
  exists f sl, planned_method c (after pf cs) = Some (f, sl) /\
  (clean c -> entry_error f (size c) sl (reference c) (entry_bound u v phi c)) /\
  entry_error_zeroed f (size c) sl (reference c) (entry_bound u v phi c).
Proof.
  intros HN Hv pf phi Hpf Hcl cs c Hl Hh Hf. assert (Hp : 0 <= phi) by apply (Hf 0%nat ltac:(lia)).
  apply (planned_entry u v N HN Hv pf phi Hpf Hcl Hp cs c Hl Hh Hf).
Qed.
Lemma planned_entry_wide u v (N : Num R R) : rounding u v N -> v <= u * u -> u <= / 1024 -> forall (pf : nat -> fft R) phi, fft_fits pf -> fft_all_clean pf ->
  forall cs c, legal c -> ~ halving c -> (forall m, (m <= 2 * size c + 2)%nat -> fft_error phi (pf m)) -> (INR (size c) + 55) * u < 1 ->
  exists f sl, planned_method c (after pf cs) = Some (f, sl) /\
  (clean c -> entry_error f (size c) sl (reference c) (closed_bound 3 u phi c)) /\
  entry_error_zeroed f (size c) sl (reference c) (closed_bound 3 u phi c).
Proof.
  intros HN Hv Hu pf phi Hpf Hcl cs c Hl Hh Hf Hs. pose proof (r_u _ _ _ HN) as U. pose proof (r_v _ _ _ HN) as V. assert (v <= u / 1024) by nra.
  replace 3 with (INR 3) by (simpl; ring).
  refine (planned_entry_closed u v N HN _ 3 (tau_wide u v _ _) pf phi Hpf Hcl cs c Hl Hh Hf _); [lra|lra|lra|].
  replace (INR (size c) + 46 + 3 * INR 3) with (INR (size c) + 55) by (simpl; ring). exact Hs.
Qed.
Lemma planned_entry_same u v (N : Num R R) : rounding u v N -> v <= u -> u <= / 1024 -> forall (pf : nat -> fft R) phi, fft_fits pf -> fft_all_clean pf ->
  forall cs c, legal c -> ~ halving c -> (forall m, (m <= 2 * size c + 2)%nat -> fft_error phi (pf m)) -> (INR (size c) + 316) * u < 1 ->
  exists f sl, planned_method c (after pf cs) = Some (f, sl) /\
  (clean c -> entry_error f (size c) sl (reference c) (closed_bound 90 u phi c)) /\
  entry_error_zeroed f (size c) sl (reference c) (closed_bound 90 u phi c).
Proof.
  intros HN Hv Hu pf phi Hpf Hcl cs c Hl Hh Hf Hs. pose proof (r_u _ _ _ HN) as U. pose proof (r_v _ _ _ HN) as V.
  assert (E : INR 90 = 90) by (simpl; ring). rewrite <- E.
  refine (planned_entry_closed u v N HN _ 90 (tau_same u v _ _) pf phi Hpf Hcl cs c Hl Hh Hf _); [lra|lra|lra|]. rewrite E.
  replace (INR (size c) + 46 + 3 * 90) with (INR (size c) + 316) by ring. exact Hs.
Qed.

(** ** An FFT with rounding *)
Lemma rounded_fft_ok p : fft_fits (rounded_fft p) /\ fft_all_clean (rounded_fft p) /\ forall m, fft_error (powerRZ 2 (- p)) (rounded_fft p m).
Proof.
  split; [intros n; split; reflexivity|]. split; [intros n xs ss ss' _ _ _; reflexivity|]. intros m.
  assert (P : 0 <= powerRZ 2 (- p)) by apply Rlt_le, powerRZ_lt, Rlt_0_2. split; [exact P|].
  intros xs ss k Hx _ Hk. cbn [rounded_fft fft_len fft_run fst] in * .
  assert (Lk : (k < length (dft xs))%nat) by (unfold dft; rewrite map_length, seq_length; lia).
  assert (Z : (rnd p (fst (0, 0)), rnd p (snd (0, 0))) = (0, 0)) by (cbn [fst snd]; unfold rnd; destruct (Req_EM_T 0 0); congruence).
  assert (E : nth k (map (fun z => (rnd p (fst z), rnd p (snd z))) (dft xs)) (0, 0) = (rnd p (fst (nth k (dft xs) (0, 0))), rnd p (snd (nth k (dft xs) (0, 0))))).
  { rewrite <- Z at 1. rewrite (map_nth (fun z => (rnd p (fst z), rnd p (snd z)))). reflexivity. }
  cbv zeta. rewrite E. cbn [fst snd].
  assert (Ex : xs = map (fun i => nth i xs (0, 0)) (seq 0 m)).
  { apply nth_ext with (0, 0) (0, 0); [rewrite map_length, seq_length; exact Hx|]. intros i Hi. rewrite (Ref.nth_map_seq (fun i => nth i xs (0, 0))) by lia. reflexivity. }
  assert (B : Rabs (fst (nth k (dft xs) (0, 0))) <= ctotal xs /\ Rabs (snd (nth k (dft xs) (0, 0))) <= ctotal xs).
  { rewrite Ex at 1 3. rewrite dft_nth by exact Hk. cbn [fst snd]. unfold ctotal. rewrite Hx. split; [apply Dre_le|apply Dim_le]. }
  destruct B as [B1 B2]. pose proof (Round_Binary.rnd_rel p (fst (nth k (dft xs) (0, 0)))) as R1. pose proof (Round_Binary.rnd_rel p (snd (nth k (dft xs) (0, 0)))) as R2.
  unfold rel in R1, R2. split; (eapply Rle_trans; [eassumption|]); apply Rmult_le_compat_l; assumption.
Qed.
