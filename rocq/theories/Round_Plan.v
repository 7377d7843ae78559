(** Rounding errors of the instances the planner builds for powers of two. *)
From Coq Require Import Reals ZArith List Arith Lia Lra Psatz Bool.
From Verif Require Import Prog Num Model_Common Model_Naive Model_Fft Model_Butterflies Model_SplitRadix Model_Plan Spec Spec_Fft Spec_Round Wp Contracts Trig Ref
  Sem_Naive Sem_Split Sem_Split2 Sem_Butterflies Objects Planner Canon Cost Energy Round_Ops Round_Stage Round_Stage3 Round_Sem Round_Butterflies Round_Butterflies2.
Import ListNotations.
Open Scope R_scope.

Section Plan.
Variables (u v : R) (N : Num R R).
Hypothesis HN : rounding u v N.
Notation z0 := (@zero _ _ N).
Notation G k := (growth u v k).

(** ** The tables of the butterflies *)
Lemma tw_ok_one (t : R * R) : t = c_conj (single_twiddle 1 16) -> tw_ok u v 1 [t].
Proof.
  intros ->. split; [reflexivity|]. intros i Hi. assert (i = 0)%nat as -> by lia. exact (q_twiddle_err u v N HN 1 0 Hi).
Qed.
Lemma tw4 : tw_ok u v 1 [@Butterfly4_new _ _ N]. Proof. apply tw_ok_one. reflexivity. Qed.
Lemma tw8 : tw_ok u v 2 (b8_tw (@Butterfly8_new _ _ N)). Proof. exact (tw_ok_new u v N HN 2). Qed.
Lemma tw16 : tw_ok u v 4 (b16_tw (@Butterfly16_new _ _ N)). Proof. exact (tw_ok_new u v N HN 4). Qed.

(** ** Methods *)
Definition approx (near : nat -> R -> (nat -> R) -> list R -> Prop) (f : meth R) (n sl : nat) (r : R) : Prop :=
  exists g, computes f n sl g /\ acc near n r g.
Definition approx_t23 (o : t23 R) (n : nat) (r : R) : Prop :=
  t23_len o = n /\ approx near2 (t_dct2 o) n (t23_scratch o) r /\ approx nears2 (t_dst2 o) n (t23_scratch o) r /\
  approx near3 (t_dct3 o) n (t23_scratch o) r /\ approx nears3 (t_dst3 o) n (t23_scratch o) r.

Lemma Butterfly2_approx : approx_t23 (@Type2And3Butterfly2_obj _ _ N) 2 (G 0).
Proof.
  split; [reflexivity|].
  repeat split; eexists; (split; [first [apply Butterfly2_dct2_ok|apply Butterfly2_dst2_ok|apply Butterfly2_dct3_ok|apply Butterfly2_dst3_ok]|]).
  - apply (b2_dct2_acc u v N HN). - apply (b2_dst2_acc u v N HN). - apply (b2_dct3_acc u v N HN). - apply (b2_dst3_acc u v N HN).
Qed.
Lemma butterfly_approx n r c2 c3 s2 s3 h2 h3 g2 g3 :
  inplace c2 n h2 -> inplace c3 n h3 -> inplace s2 n g2 -> inplace s3 n g3 ->
  acc near2 n r (fun x k => nth k (h2 x) z0) -> acc near3 n r (fun x k => nth k (h3 x) z0) ->
  acc nears2 n r (fun x k => nth k (g2 x) z0) -> acc nears3 n r (fun x k => nth k (g3 x) z0) ->
  approx_t23 (butterfly_obj n c2 c3 s2 s3) n r.
Proof.
  intros I1 I2 I3 I4 A1 A2 A3 A4. split; [reflexivity|].
  repeat split; eexists; (split; [eapply inplace_computes; [intros b s; reflexivity|eassumption]|assumption]).
Qed.
Lemma Butterfly4_approx : approx_t23 (Type2And3Butterfly4_obj (@Butterfly4_new _ _ N)) 4 (G 1).
Proof.
  eapply butterfly_approx; [apply Butterfly4_inplace_dct2_ok|apply Butterfly4_inplace_dct3_ok|apply Butterfly4_inplace_dst2_ok|apply Butterfly4_inplace_dst3_ok
    |apply (b4_dct2_acc u v N HN _ tw4)|apply (b4_dct3_acc u v N HN _ tw4)|apply (b4_dst2_acc u v N HN _ tw4)|apply (b4_dst3_acc u v N HN _ tw4)].
Qed.
Lemma Butterfly8_approx : approx_t23 (Type2And3Butterfly8_obj (@Butterfly8_new _ _ N)) 8 (G 2).
Proof.
  eapply butterfly_approx; [apply Butterfly8_inplace_dct2_ok|apply Butterfly8_inplace_dct3_ok|apply Butterfly8_inplace_dst2_ok|apply Butterfly8_inplace_dst3_ok
    |apply (b8_dct2_acc u v N HN _ _ _ tw4 tw8)|apply (b8_dct3_acc u v N HN _ _ _ tw4 tw8)
    |apply (b8_dst2_acc u v N HN _ _ _ tw4 tw8)|apply (b8_dst3_acc u v N HN _ _ _ tw4 tw8)].
Qed.
Lemma Butterfly16_approx : approx_t23 (Type2And3Butterfly16_obj (@Butterfly16_new _ _ N)) 16 (G 3).
Proof.
  pose proof (b8_dct2_acc u v N HN _ _ _ tw4 tw8) as A2. pose proof (b8_dct3_acc u v N HN _ _ _ tw4 tw8) as A3.
  eapply butterfly_approx; [apply Butterfly16_inplace_dct2_ok|apply Butterfly16_inplace_dct3_ok|apply Butterfly16_inplace_dst2_ok|apply Butterfly16_inplace_dst3_ok|..].
  - apply (b16_dct2_acc u v N HN _ _ _ _ _ _ tw4 tw16 A2). - apply (b16_dct3_acc u v N HN _ _ _ _ _ _ tw4 tw16 A3).
  - apply (b16_dst2_acc u v N HN _ _ _ _ _ _ tw4 tw16 A2). - apply (b16_dst3_acc u v N HN _ _ _ _ _ _ tw4 tw16 A3).
Qed.

Lemma approx_mono_t23 o n i j : (i <= j)%nat -> approx_t23 o n (G i) -> approx_t23 o n (G j).
Proof.
  intros H (L & (a & A & A') & (b & B & B') & (c & C & C') & (d & D & D')). split; [exact L|].
  split; [exists a; split; [exact A|exact (acc_mono2 u v N HN n i j a H A')]|].
  split; [exists b; split; [exact B|exact (acc_monos2 u v N HN n i j b H B')]|].
  split; [exists c; split; [exact C|exact (acc_mono3 u v N HN n i j c H C')]|].
  exists d; split; [exact D|exact (acc_monos3 u v N HN n i j d H D')].
Qed.

Lemma Type2And3SplitRadix_approx (h q : t23 R) d n k : Type2And3SplitRadix_new h q = Ok d ->
  approx_t23 h (2 * n) (G k) -> approx_t23 q n (G k) -> (t23_scratch h <= 4 * n)%nat -> (t23_scratch q <= 4 * n)%nat ->
  approx_t23 (Type2And3SplitRadix_obj d) (4 * n) (G (S k)) /\ t23_scratch (Type2And3SplitRadix_obj d) = (4 * n)%nat.
Proof.
  intros E (Lh & (H2 & A2 & A2') & _ & (H3 & A3 & A3') & _) (Lq & (Q2 & B2 & B2') & _ & (Q3 & B3 & B3') & _) Sh Sq.
  apply Type2And3SplitRadix_new_inv in E. rewrite Lq in E. destruct E as (Hq & _ & ->).
  set (tw := map _ _). pose proof (tw_ok_new u v N HN n : tw_ok u v n tw) as HT. pose proof (proj1 HT) as Lt.
  set (self := mkT23Split h q tw).
  assert (L : Type2And3SplitRadix_len self = (4 * n)%nat) by (unfold Type2And3SplitRadix_len, self; cbn [sr_tw]; rewrite Lt; lia).
  pose proof (growth_ge1 u v N HN k) as Gk.
  assert (C2 : computes (Type2And3SplitRadix_dct2 self) (4 * n) (4 * n) (sem_sr_dct2 H2 Q2 tw)).
  { pose proof (sem_sr_dct2_ok H2 Q2 tw h q (t23_scratch h) (t23_scratch q)) as K. rewrite Lt in K. apply K; assumption. }
  assert (C3 : computes (Type2And3SplitRadix_dct3 self) (4 * n) (4 * n) (sem_sr_dct3 H3 Q3 tw)).
  { pose proof (sem_sr_dct3_ok H3 Q3 tw h q (t23_scratch h) (t23_scratch q)) as K. rewrite Lt in K. apply K; assumption. }
  assert (D2 : acc near2 (4 * n) (G (S k)) (sem_sr_dct2 H2 Q2 tw)) by (rewrite growth_S; apply (sr_dct2_acc u v N HN); assumption).
  assert (D3 : acc near3 (4 * n) (G (S k)) (sem_sr_dct3 H3 Q3 tw)) by (rewrite growth_S; apply (sr_dct3_acc u v N HN); assumption).
  unfold approx_t23, Type2And3SplitRadix_obj, Type2And3SplitRadix_scratch.
  cbn [t23_len t23_scratch t_dct2 t_dct3 t_dst2 t_dst3]. rewrite L.
  split; [|reflexivity]. split; [reflexivity|]. split; [exists (sem_sr_dct2 H2 Q2 tw); split; assumption|]. split.
  { exists (sem_sr_dst2 (4 * n) (sem_sr_dct2 H2 Q2 tw)). split; [|apply (sr_dst2_acc u v N HN), D2].
    pose proof (sem_sr_dst2_ok self (4 * n) (sem_sr_dct2 H2 Q2 tw)) as K. cbv zeta in K. rewrite L in K. apply K, C2. }
  split; [exists (sem_sr_dct3 H3 Q3 tw); split; assumption|].
  exists (sem_sr_dst3 (4 * n) (sem_sr_dct3 H3 Q3 tw)). split; [|apply (sr_dst3_acc u v N HN), D3].
  pose proof (sem_sr_dst3_ok self (4 * n) (sem_sr_dct3 H3 Q3 tw)) as K. cbv zeta in K. rewrite L in K. apply K, C3.
Qed.

Variable pf : nat -> fft R.
Hypothesis Hpf : fft_fits pf.

Lemma canon23_approx k : (1 <= k)%nat -> exists o, canon23 pf (2 ^ k) = Ok o /\ approx_t23 o (2 ^ k) (G (k - 1)) /\ (t23_scratch o <= 2 ^ k)%nat.
Proof.
  induction k as [k IH] using lt_wf_ind. intros Hk. destruct (le_lt_dec 5 k) as [H5|H5].
  - destruct (canon23_split_of pf Hpf k H5) as (h & q & d & Eh & Eq & Ed & E). exists (Type2And3SplitRadix_obj d). split; [exact E|].
    destruct (IH (k - 1)%nat ltac:(lia) ltac:(lia)) as (h' & Eh' & Ah & Sh). rewrite Eh in Eh'. apply Ok_inj in Eh'. subst h'.
    destruct (IH (k - 2)%nat ltac:(lia) ltac:(lia)) as (q' & Eq' & Aq & Sq). rewrite Eq in Eq'. apply Ok_inj in Eq'. subst q'.
    assert (P : (2 ^ k = 4 * 2 ^ (k - 2))%nat) by (replace k with (2 + (k - 2))%nat at 1 by lia; rewrite Nat.pow_add_r; reflexivity).
    assert (P1 : (2 ^ (k - 1) = 2 * 2 ^ (k - 2))%nat) by (replace (k - 1)%nat with (1 + (k - 2))%nat by lia; rewrite Nat.pow_add_r; reflexivity).
    rewrite P1 in Ah, Sh. rewrite P. set (n := (2 ^ (k - 2))%nat) in * .
    replace (k - 1)%nat with (S (k - 1 - 1)) by lia.
    destruct (Type2And3SplitRadix_approx h q d n (k - 1 - 1) Ed Ah) as [A S]; [|lia|lia|split; [exact A|lia]].
    apply (approx_mono_t23 q n (k - 2 - 1) (k - 1 - 1)); [lia|exact Aq].
  - rewrite canon23_eq. destruct k as [|[|[|[|[|k]]]]]; try lia; eexists; (split; [reflexivity|]); (split; [|apply Nat.le_0_l]).
    + exact Butterfly2_approx. + exact Butterfly4_approx. + exact Butterfly8_approx. + exact Butterfly16_approx.
Qed.

Definition approx_t4 (o : t4 R) (n : nat) (r : R) : Prop :=
  t4_len o = n /\ approx near4 (t_dct4 o) n (t4_scratch o) r /\ approx nears4 (t_dst4 o) n (t4_scratch o) r.
Lemma Type4ConvertToType3Even_approx (i : t23 R) n k : (0 < n)%nat -> approx_t23 i n (G k) ->
  approx_t4 (Type4ConvertToType3Even_obj (@Type4ConvertToType3Even_new _ _ N i)) (2 * n) (G (S k)).
Proof.
  intros Hn (L & _ & _ & (C & C3 & C3') & (S3' & D3 & D3')).
  rewrite (t4e_new_eq i n L). unfold approx_t4, Type4ConvertToType3Even_obj, Type4ConvertToType3Even_len.
  cbn [t4_len t4_scratch t_dct4 t_dst4 t4e_tw t4e_scratch].
  set (tw := map _ _). pose proof (tw_ok_new u v N HN n : tw_ok u v n tw) as HT. pose proof (proj1 HT) as Lt.
  split; [rewrite Lt; lia|].
  set (sl := if (t23_scratch i <=? 2 * n)%nat then (2 * n)%nat else (2 * n + t23_scratch i)%nat).
  assert (Hr : t4e_room (T:=R) tw (t23_scratch i) sl).
  { unfold t4e_room. rewrite Lt. unfold sl. destruct (Nat.leb_spec (t23_scratch i) (2 * n)); lia. }
  clearbody sl. pose proof (growth_ge1 u v N HN k) as Gk. rewrite growth_S.
  split; eexists; split; [| apply (t4e_dct4_acc u v N HN n (G k) C S3' tw); assumption| |apply (t4e_dst4_acc u v N HN n (G k) C S3' tw); assumption].
  - pose proof (sem_t4e_dct4_ok C S3' tw i sl (t23_scratch i)) as K. rewrite Lt in K. apply K; assumption.
  - pose proof (sem_t4e_dst4_ok C S3' tw i sl (t23_scratch i)) as K. rewrite Lt in K. apply K; assumption.
Qed.
Lemma canon4_approx k : (3 <= k)%nat -> exists o, canon4 pf (2 ^ k) = Ok o /\ approx_t4 o (2 ^ k) (G (k - 1)).
Proof.
  intros Hk. destruct (canon23_approx (k - 1)) as (i & E & A & _); [lia|].
  assert (P1 : (2 ^ k = 2 * 2 ^ (k - 1))%nat) by (replace k with (1 + (k - 1))%nat at 1 by lia; rewrite Nat.pow_add_r; reflexivity).
  assert (P8 : (2 ^ 3 <= 2 ^ k)%nat) by (apply Nat.pow_le_mono_r; lia). change (2 ^ 3)%nat with 8%nat in P8.
  unfold canon4. rewrite P1 in P8 |- * . set (n := (2 ^ (k - 1))%nat) in * .
  replace ((2 * n) mod 2)%nat with 0%nat by (symmetry; rewrite Nat.mul_comm; apply Nat.mod_mul; lia). cbn [Nat.eqb].
  destruct (Nat.ltb_spec (2 * n) 6); [lia|]. replace (2 * n / 2)%nat with n by (symmetry; rewrite Nat.mul_comm; apply Nat.div_mul; lia).
  rewrite E. cbn [rbind]. eexists. split; [reflexivity|]. replace (k - 1)%nat with (S (k - 1 - 1)) by lia.
  apply Type4ConvertToType3Even_approx; [lia|exact A].
Qed.
End Plan.
