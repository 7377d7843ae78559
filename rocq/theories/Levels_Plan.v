(** What holds of the functions computed by the butterflies and is kept by the recursive algorithms holds of the functions
    computed by the planned transforms of power-of-two length. *)
From Coq Require Import List Arith Lia Bool ZArith ZifyNat.
From Verif Require Import Prog Num Model_Common Model_Naive Model_Fft Model_Butterflies Model_SplitRadix Model_Plan Model_Api Spec_Api Spec_Fft Spec_Plan Spec_Methods
  Spec_Param Spec_Levels Wp Contracts Sem_Naive Sem_Split Sem_Split2 Sem_Butterflies Objects Api Planner Canon Plan_Theorems Cost Param_Theorems Levels.
Import ListNotations.
Open Scope nat_scope.

Section Plan.
Context {T F : Type} {N : Num T F}.
Definition fn : Type := list T -> nat -> T.
(** [D2 k g]: for the functions of length 2^k. *)
Variables D2 S2 D3 S3 D4 S4 : nat -> fn -> Prop.
Definition table (q : nat) : list (T * T) := map (fun i => c_conj (single_twiddle (2 * i + 1) (16 * q))) (seq 0 q).
Record closed : Prop := mkClosed {
  d_2 : D2 1 (fun x k => at_ (b2_dct2 x) k) /\ S2 1 (fun x k => at_ (b2_dst2 x) k) /\ D3 1 (fun x k => at_ (b2_dct3 x) k) /\ S3 1 (fun x k => at_ (b2_dst3 x) k);
  d_4 : D2 2 (fun x k => at_ (b4_dct2 Butterfly4_new x) k) /\ S2 2 (fun x k => at_ (b4_dst2 Butterfly4_new x) k) /\
        D3 2 (fun x k => at_ (b4_dct3 Butterfly4_new x) k) /\ S3 2 (fun x k => at_ (b4_dst3 Butterfly4_new x) k);
  d_8 : D2 3 (fun x k => at_ (b8_dct2 Butterfly8_new x) k) /\ S2 3 (fun x k => at_ (b8_dst2 Butterfly8_new x) k) /\
        D3 3 (fun x k => at_ (b8_dct3 Butterfly8_new x) k) /\ S3 3 (fun x k => at_ (b8_dst3 Butterfly8_new x) k);
  d_16 : D2 4 (fun x k => at_ (b16_dct2 Butterfly16_new x) k) /\ S2 4 (fun x k => at_ (b16_dst2 Butterfly16_new x) k) /\
        D3 4 (fun x k => at_ (b16_dct3 Butterfly16_new x) k) /\ S3 4 (fun x k => at_ (b16_dst3 Butterfly16_new x) k);
  d_split2 : forall k h q, 3 <= k -> D2 (k - 1) h -> D2 (k - 2) q -> D2 k (sem_sr_dct2 h q (table (2 ^ (k - 2))));
  d_split3 : forall k h q, 3 <= k -> D3 (k - 1) h -> D3 (k - 2) q -> D3 k (sem_sr_dct3 h q (table (2 ^ (k - 2))));
  d_dst2 : forall k g, 1 <= k -> D2 k g -> S2 k (sem_sr_dst2 (2 ^ k) g);
  d_dst3 : forall k g, 1 <= k -> D3 k g -> S3 k (sem_sr_dst3 (2 ^ k) g);
  d_dct4 : forall k c s, 3 <= k -> D3 (k - 1) c -> S3 (k - 1) s -> D4 k (sem_t4e_dct4 c s (table (2 ^ (k - 1))));
  d_dst4 : forall k c s, 3 <= k -> D3 (k - 1) c -> S3 (k - 1) s -> S4 k (sem_t4e_dst4 c s (table (2 ^ (k - 1))))
}.
Hypothesis K : closed.

Definition has (P : nat -> fn -> Prop) (k : nat) (f : meth T) (sl : nat) : Prop := exists g, computes f (2 ^ k) sl g /\ P k g.
Definition has23 (o : t23 T) (k : nat) : Prop :=
  t23_len o = 2 ^ k /\ has D2 k (t_dct2 o) (t23_scratch o) /\ has S2 k (t_dst2 o) (t23_scratch o) /\
  has D3 k (t_dct3 o) (t23_scratch o) /\ has S3 k (t_dst3 o) (t23_scratch o).

Lemma Butterfly2_has : has23 Type2And3Butterfly2_obj 1.
Proof.
  destruct (d_2 K) as (A & B & C & D). split; [reflexivity|].
  repeat split; eexists; (split; [first [apply Butterfly2_dct2_ok|apply Butterfly2_dst2_ok|apply Butterfly2_dct3_ok|apply Butterfly2_dst3_ok]|]); assumption.
Qed.
Lemma butterfly_has k n c2 c3 s2 s3 h2 h3 g2 g3 : n = 2 ^ k ->
  inplace c2 n h2 -> inplace c3 n h3 -> inplace s2 n g2 -> inplace s3 n g3 ->
  D2 k (fun x i => at_ (h2 x) i) /\ S2 k (fun x i => at_ (g2 x) i) /\ D3 k (fun x i => at_ (h3 x) i) /\ S3 k (fun x i => at_ (g3 x) i) ->
  has23 (butterfly_obj n c2 c3 s2 s3) k.
Proof.
  intros E I1 I2 I3 I4 (A1 & A2 & A3 & A4). split; [exact E|]. unfold has. rewrite <- E.
  repeat split; eexists; (split; [eapply inplace_computes; [intros b s; reflexivity|eassumption]|assumption]).
Qed.
Lemma Butterfly4_has : has23 (Type2And3Butterfly4_obj Butterfly4_new) 2.
Proof.
  eapply butterfly_has; [reflexivity|apply Butterfly4_inplace_dct2_ok|apply Butterfly4_inplace_dct3_ok|apply Butterfly4_inplace_dst2_ok|apply Butterfly4_inplace_dst3_ok|apply (d_4 K)].
Qed.
Lemma Butterfly8_has : has23 (Type2And3Butterfly8_obj Butterfly8_new) 3.
Proof.
  eapply butterfly_has; [reflexivity|apply Butterfly8_inplace_dct2_ok|apply Butterfly8_inplace_dct3_ok|apply Butterfly8_inplace_dst2_ok|apply Butterfly8_inplace_dst3_ok|apply (d_8 K)].
Qed.
Lemma Butterfly16_has : has23 (Type2And3Butterfly16_obj Butterfly16_new) 4.
Proof.
  eapply butterfly_has; [reflexivity|apply Butterfly16_inplace_dct2_ok|apply Butterfly16_inplace_dct3_ok|apply Butterfly16_inplace_dst2_ok|apply Butterfly16_inplace_dst3_ok|apply (d_16 K)].
Qed.

Lemma pow_4 k : 2 <= k -> 2 ^ k = 4 * 2 ^ (k - 2).
Proof. intros H. replace k with (2 + (k - 2)) at 1 by lia. rewrite Nat.pow_add_r. reflexivity. Qed.
Lemma pow_2 k : 1 <= k -> 2 ^ k = 2 * 2 ^ (k - 1).
Proof. intros H. replace k with (1 + (k - 1)) at 1 by lia. rewrite Nat.pow_add_r. reflexivity. Qed.
Lemma pow_pos k : 0 < 2 ^ k.
Proof. pose proof (Nat.pow_nonzero 2 k). lia. Qed.
Lemma table_length q : length (table q) = q.
Proof. unfold table. rewrite map_length. apply seq_length. Qed.

Lemma Type2And3SplitRadix_has (h q : t23 T) d k : 3 <= k -> Type2And3SplitRadix_new h q = Ok d ->
  has23 h (k - 1) -> has23 q (k - 2) -> t23_scratch h <= 2 ^ k -> t23_scratch q <= 2 ^ k ->
  has23 (Type2And3SplitRadix_obj d) k /\ t23_scratch (Type2And3SplitRadix_obj d) = 2 ^ k.
Proof.
  intros Hk E (Lh & (g2 & A2 & A2') & _ & (g3 & A3 & A3') & _) (Lq & (q2 & B2 & B2') & _ & (q3 & B3 & B3') & _) Sh Sq.
  apply Type2And3SplitRadix_new_inv in E. rewrite Lq in E. destruct E as (Hq & _ & ->).
  pose proof (d_split2 K k g2 q2 Hk A2' B2') as R2. pose proof (d_split3 K k g3 q3 Hk A3' B3') as R3.
  pose proof (pow_4 k ltac:(lia)) as P4. pose proof (pow_2 (k - 1) ltac:(lia)) as P2. replace (k - 1 - 1) with (k - 2) in P2 by lia.
  set (n := 2 ^ (k - 2)) in * . fold (table n). set (tw := table n) in * . pose proof (table_length n : length tw = n) as Lt.
  set (self := mkT23Split h q tw).
  assert (Ls : Type2And3SplitRadix_len self = 2 ^ k) by (unfold Type2And3SplitRadix_len, self; cbn [sr_tw]; rewrite Lt; lia).
  assert (C2 : computes (Type2And3SplitRadix_dct2 self) (2 ^ k) (2 ^ k) (sem_sr_dct2 g2 q2 tw)).
  { pose proof (sem_sr_dct2_ok g2 q2 tw h q (t23_scratch h) (t23_scratch q)) as Q. rewrite Lt, <- P4, <- P2 in Q. apply Q; assumption. }
  assert (C3 : computes (Type2And3SplitRadix_dct3 self) (2 ^ k) (2 ^ k) (sem_sr_dct3 g3 q3 tw)).
  { pose proof (sem_sr_dct3_ok g3 q3 tw h q (t23_scratch h) (t23_scratch q)) as Q. rewrite Lt, <- P4, <- P2 in Q. apply Q; assumption. }
  unfold has23, has, Type2And3SplitRadix_obj, Type2And3SplitRadix_scratch.
  cbn [t23_len t23_scratch t_dct2 t_dct3 t_dst2 t_dst3]. rewrite Ls.
  split; [|reflexivity]. split; [reflexivity|]. split; [eexists; split; eassumption|]. split.
  { exists (sem_sr_dst2 (2 ^ k) (sem_sr_dct2 g2 q2 tw)). split; [|apply (d_dst2 K); [lia|exact R2]].
    pose proof (sem_sr_dst2_ok self (2 ^ k) (sem_sr_dct2 g2 q2 tw)) as Q. cbv zeta in Q. rewrite Ls in Q. apply Q, C2. }
  split; [eexists; split; eassumption|].
  exists (sem_sr_dst3 (2 ^ k) (sem_sr_dct3 g3 q3 tw)). split; [|apply (d_dst3 K); [lia|exact R3]].
  pose proof (sem_sr_dst3_ok self (2 ^ k) (sem_sr_dct3 g3 q3 tw)) as Q. cbv zeta in Q. rewrite Ls in Q. apply Q, C3.
Qed.

Variable pf : nat -> fft T.
Hypothesis Hpf : fft_fits pf.
Lemma canon23_has k : 1 <= k -> exists o, canon23 pf (2 ^ k) = Ok o /\ has23 o k /\ t23_scratch o <= 2 ^ k.
Proof.
  induction k as [k IH] using lt_wf_ind. intros Hk. destruct (le_lt_dec 5 k) as [H5|H5].
  - destruct (canon23_split_of pf Hpf k H5) as (h & q & d & Eh & Eq & Ed & E). exists (Type2And3SplitRadix_obj d). split; [exact E|].
    destruct (IH (k - 1) ltac:(lia) ltac:(lia)) as (h' & Eh' & Ah & Sh). rewrite Eh in Eh'. apply Ok_inj in Eh'. subst h'.
    destruct (IH (k - 2) ltac:(lia) ltac:(lia)) as (q' & Eq' & Aq & Sq). rewrite Eq in Eq'. apply Ok_inj in Eq'. subst q'.
    pose proof (pow_4 k ltac:(lia)). pose proof (pow_2 k ltac:(lia)).
    destruct (Type2And3SplitRadix_has h q d k ltac:(lia) Ed Ah Aq) as [A S]; [lia|lia|split; [exact A|lia]].
  - rewrite canon23_eq. destruct k as [|[|[|[|[|k]]]]]; try lia; eexists; (split; [reflexivity|]); (split; [|apply Nat.le_0_l]).
    + exact Butterfly2_has. + exact Butterfly4_has. + exact Butterfly8_has. + exact Butterfly16_has.
Qed.

Definition has4 (o : t4 T) (k : nat) : Prop := t4_len o = 2 ^ k /\ has D4 k (t_dct4 o) (t4_scratch o) /\ has S4 k (t_dst4 o) (t4_scratch o).
Lemma Type4ConvertToType3Even_has (i : t23 T) k : 3 <= k -> has23 i (k - 1) -> has4 (Type4ConvertToType3Even_obj (Type4ConvertToType3Even_new i)) k.
Proof.
  intros Hk (Li & _ & _ & (C & C3 & C3') & (S3' & D3' & D3'')).
  pose proof (d_dct4 K k C S3' Hk C3' D3'') as R. pose proof (d_dst4 K k C S3' Hk C3' D3'') as R'.
  pose proof (pow_2 k ltac:(lia)) as P2. pose proof (pow_pos (k - 1)) as Hn.
  set (n := 2 ^ (k - 1)) in * . rewrite (t4e_new_eq i n Li). unfold has4, has, Type4ConvertToType3Even_obj, Type4ConvertToType3Even_len.
  cbn [t4_len t4_scratch t_dct4 t_dst4 t4e_tw t4e_scratch]. fold (table n). set (tw := table n) in * . pose proof (table_length n : length tw = n) as Lt.
  rewrite P2. split; [rewrite Lt; lia|].
  set (sl := if t23_scratch i <=? 2 * n then 2 * n else 2 * n + t23_scratch i).
  assert (Hr : t4e_room (T:=T) tw (t23_scratch i) sl).
  { unfold t4e_room. rewrite Lt. unfold sl. destruct (Nat.leb_spec (t23_scratch i) (2 * n)); lia. }
  clearbody sl. split; eexists; (split; [|eassumption]).
  - pose proof (sem_t4e_dct4_ok C S3' tw i sl (t23_scratch i)) as Q. rewrite Lt in Q. apply Q; assumption.
  - pose proof (sem_t4e_dst4_ok C S3' tw i sl (t23_scratch i)) as Q. rewrite Lt in Q. apply Q; assumption.
Qed.
Lemma canon4_has k : 3 <= k -> exists o, canon4 pf (2 ^ k) = Ok o /\ has4 o k.
Proof.
  intros Hk. destruct (canon23_has (k - 1)) as (i & E & A & _); [lia|].
  pose proof (pow_2 k ltac:(lia)) as P1.
  assert (P8 : 2 ^ 3 <= 2 ^ k) by (apply Nat.pow_le_mono_r; lia). change (2 ^ 3) with 8 in P8.
  pose proof (Type4ConvertToType3Even_has i k Hk A) as H4.
  unfold canon4. rewrite P1 in P8 |- * . set (n := 2 ^ (k - 1)) in * .
  replace ((2 * n) mod 2) with 0 by (symmetry; rewrite Nat.mul_comm; apply Nat.mod_mul; lia). cbn [Nat.eqb].
  destruct (Nat.ltb_spec (2 * n) 6); [lia|]. replace (2 * n / 2) with n by (symmetry; rewrite Nat.mul_comm; apply Nat.div_mul; lia).
  rewrite E. cbn [rbind]. eexists. split; [reflexivity|exact H4].
Qed.
End Plan.

(** ** Planned *)
Lemma power_no_fft {T} k (c : pcall T) : power_call k c -> no_fft c.
Proof.
  intros [[Hk H]|[Hk H]]; cbn [In] in H.
  - destruct H as [<-|[<-|[<-|[<-|[]]]]]; cbn [no_fft]; exists (k - 1); f_equal; lia.
  - destruct H as [<-|[<-|[]]]; cbn [no_fft]; exists k; reflexivity.
Qed.
Lemma power_size {T} k (c : pcall T) : power_call k c -> size c = 2 ^ k.
Proof. intros [[_ H]|[_ H]]; cbn [In] in H; repeat destruct H as [<-|H]; reflexivity || contradiction. Qed.
Section Planned.
Context {T F : Type} {N : Num T F}.
Lemma idle_fits : fft_fits (idle_fft (T := T)).
Proof. intros n. split; reflexivity. Qed.
Definition chosen {A : Type} (D2 S2 D3 S3 D4 S4 : A) (c : pcall T) : A :=
  match c with CDct2 _ => D2 | CDst2 _ => S2 | CDct3 _ => D3 | CDst3 _ => S3 | CDct4 _ => D4 | _ => S4 end.
Lemma planned_has D2 S2 D3 S3 D4 S4 (K : closed D2 S2 D3 S3 D4 S4) pf cs k c : power_call k c ->
  exists f sl, planned_method c (after pf cs) = Some (f, sl) /\ has (chosen D2 S2 D3 S3 D4 S4 c) k f sl.
Proof.
  intros [[Hk Hc]|[Hk Hc]].
  - destruct (canon23_has _ _ _ _ _ _ K idle_fft idle_fits k Hk) as (o & E & (_ & A2 & B2 & A3 & B3) & _).
    replace k with (S (k - 1)) in E by lia. rewrite (canon23_no_fft idle_fft pf) in E. replace (S (k - 1)) with k in E by lia.
    destruct (planned_ex pf _ _ cs (fun o' => o' = o) (plan_dct2_ok pf _ (2 ^ k)) (ex_intro _ _ (conj E eq_refl))) as (a & Ea & Va).
    cbn [In] in Hc. destruct Hc as [<-|[<-|[<-|[<-|[]]]]]; cbn [planned_method chosen]; unfold plan_dct3, plan_dst2, plan_dst3; rewrite Ea; cbn [use];
      eexists; eexists; (split; [reflexivity|]); rewrite Va; assumption.
  - destruct (canon4_has _ _ _ _ _ _ K idle_fft idle_fits k Hk) as (o & E & _ & A4 & B4). rewrite (canon4_no_fft idle_fft pf) in E.
    destruct (planned_ex pf _ _ cs (fun o' => o' = o) (plan_dct4_ok pf _ (2 ^ k)) (ex_intro _ _ (conj E eq_refl))) as (a & Ea & Va).
    cbn [In] in Hc. destruct Hc as [<-|[<-|[]]]; cbn [planned_method chosen]; unfold plan_dst4; rewrite Ea; cbn [use];
      eexists; eexists; (split; [reflexivity|]); rewrite Va; assumption.
Qed.
(** The function is the same in both. *)
Definition both_of (P Q : nat -> @fn T -> Prop) : nat -> fn -> Prop := fun k g => P k g /\ Q k g.
Lemma closed_both D2 S2 D3 S3 D4 S4 E2 R2 E3 R3 E4 R4 : closed (N := N) D2 S2 D3 S3 D4 S4 -> closed E2 R2 E3 R3 E4 R4 ->
  closed (both_of D2 E2) (both_of S2 R2) (both_of D3 E3) (both_of S3 R3) (both_of D4 E4) (both_of S4 R4).
Proof.
  intros K K'. constructor.
  - destruct (d_2 _ _ _ _ _ _ K), (d_2 _ _ _ _ _ _ K'). unfold both_of. tauto.
  - destruct (d_4 _ _ _ _ _ _ K), (d_4 _ _ _ _ _ _ K'). unfold both_of. tauto.
  - destruct (d_8 _ _ _ _ _ _ K), (d_8 _ _ _ _ _ _ K'). unfold both_of. tauto.
  - destruct (d_16 _ _ _ _ _ _ K), (d_16 _ _ _ _ _ _ K'). unfold both_of. tauto.
  - intros k h q Hk [] []. split; [apply (d_split2 _ _ _ _ _ _ K)|apply (d_split2 _ _ _ _ _ _ K')]; assumption.
  - intros k h q Hk [] []. split; [apply (d_split3 _ _ _ _ _ _ K)|apply (d_split3 _ _ _ _ _ _ K')]; assumption.
  - intros k g Hk []. split; [apply (d_dst2 _ _ _ _ _ _ K)|apply (d_dst2 _ _ _ _ _ _ K')]; assumption.
  - intros k g Hk []. split; [apply (d_dst3 _ _ _ _ _ _ K)|apply (d_dst3 _ _ _ _ _ _ K')]; assumption.
  - intros k h q Hk [] []. split; [apply (d_dct4 _ _ _ _ _ _ K)|apply (d_dct4 _ _ _ _ _ _ K')]; assumption.
  - intros k h q Hk [] []. split; [apply (d_dst4 _ _ _ _ _ _ K)|apply (d_dst4 _ _ _ _ _ _ K')]; assumption.
Qed.
End Planned.

(** ** Depth *)
Section Depth.
Context {T F : Type} {N : Num T F}.
Variables (M : nat) (lev : nat -> nat -> T -> Prop) (ent : T -> Prop).
Hypothesis L : leveled M lev ent.
Definition up2 k (g : fn) : Prop := 2 ^ (k - 1) <= M -> rises lev (2 ^ k) ((3 * k - 1) / 2) ((k + 1) / 2) g.
Definition up3 k (g : fn) : Prop := 2 ^ (k - 1) <= M -> rises3 lev 0 (2 ^ k) ((3 * k - 1) / 2) ((k + 1) / 2 + 1) g.
Definition ups3 k (g : fn) : Prop := 2 ^ (k - 1) <= M -> rises3 lev (2 ^ k - 1) (2 ^ k) ((3 * k - 1) / 2) ((k + 1) / 2 + 1) g.
Definition up4 k (g : fn) : Prop := 2 ^ (k - 1) <= M -> rises lev (2 ^ k) (3 * k / 2) (k / 2 + 2) g.
Lemma map_ent n (g : nat -> T * T) : (forall i, i < n -> ent (fst (g i)) /\ ent (snd (g i))) ->
  forall i, i < n -> ent (fst (nth i (map g (seq 0 n)) cc0)) /\ ent (snd (nth i (map g (seq 0 n)) cc0)).
Proof. intros H i Hi. rewrite (nth_indep _ _ (g 0)) by (rewrite map_length, seq_length; exact Hi). rewrite map_nth, seq_nth by exact Hi. apply H, Hi. Qed.
Lemma table_ent q i : q <= M -> i < q -> ent (fst (nth i (table q) cc0)) /\ ent (snd (nth i (table q) cc0)).
Proof. intros Hq. apply map_ent. intros t. apply (l_table _ _ _ L q), Hq. Qed.
Lemma half_fits k : 1 <= k -> 2 ^ (k - 1) <= M -> 2 ^ (k - 2) <= M.
Proof. intros _. apply Nat.le_trans, Nat.pow_le_mono_r; lia. Qed.
Lemma quarter_fits k : 1 <= k -> 2 ^ (k - 1) <= M -> 2 ^ (k - 3) <= M.
Proof. intros _. apply Nat.le_trans, Nat.pow_le_mono_r; lia. Qed.
Ltac Zify.zify_post_hook ::= Z.to_euclidean_division_equations.
Lemma depth_adds k : 3 <= k -> Nat.max ((3 * (k - 1) - 1) / 2 + 1) ((3 * (k - 2) - 1) / 2 + 3) = (3 * k - 1) / 2. Proof. lia. Qed.
Lemma depth_muls2 k : 3 <= k -> Nat.max ((k - 1 + 1) / 2) ((k - 2 + 1) / 2 + 1) = (k + 1) / 2. Proof. lia. Qed.
Lemma depth_muls3 k : 3 <= k -> Nat.max ((k - 1 + 1) / 2 + 1) ((k - 2 + 1) / 2 + 1 + 1) = (k + 1) / 2 + 1. Proof. lia. Qed.
Lemma depth_adds4 k : 3 <= k -> (3 * (k - 1) - 1) / 2 + 2 = 3 * k / 2. Proof. lia. Qed.
Lemma depth_muls4 k : 3 <= k -> (k - 1 + 1) / 2 + 1 + 1 = k / 2 + 2. Proof. lia. Qed.
Ltac Zify.zify_post_hook ::= idtac.
Lemma depth_closed : closed up2 up2 up3 ups3 up4 up4.
Proof.
  constructor.
  - repeat split; intros _; [apply (b2_dct2_rises M lev ent L)|apply (b2_dst2_rises M lev ent L)|apply (b2_dct3_rises M lev ent L)|apply (b2_dst3_rises M lev ent L)].
  - repeat split; intros _; [apply (b4_dct2_rises M lev ent L)|apply (b4_dst2_rises M lev ent L)|apply (b4_dct3_rises M lev ent L)|apply (b4_dst3_rises M lev ent L)].
  - repeat split; intros _; [apply (b8_dct2_rises M lev ent L)|apply (b8_dst2_rises M lev ent L)|apply (b8_dct3_rises M lev ent L)|apply (b8_dst3_rises M lev ent L)].
  - repeat split; intros _; [apply (b16_dct2_rises M lev ent L)|apply (b16_dst2_rises M lev ent L)|apply (b16_dct3_rises M lev ent L)|apply (b16_dst3_rises M lev ent L)].
  - intros k h q Hk A B HM. pose proof (half_fits k ltac:(lia) HM) as HQ. pose proof (quarter_fits k ltac:(lia) HM) as HR. unfold up2. rewrite <- (depth_adds k Hk), <- (depth_muls2 k Hk), (pow_4 k) by lia. unfold up2 in A, B.
    replace (k - 1 - 1) with (k - 2) in A by lia. replace (k - 2 - 1) with (k - 3) in B by lia. specialize (A HQ). specialize (B HR).
    rewrite (pow_2 (k - 1)) in A by lia. replace (k - 1 - 1) with (k - 2) in A by lia.
    apply (split_dct2_rises M lev ent L _ _ (fun i => table_ent _ i HQ) (table_length _) (pow_pos _)); assumption.
  - intros k h q Hk A B HM. pose proof (half_fits k ltac:(lia) HM) as HQ. pose proof (quarter_fits k ltac:(lia) HM) as HR. unfold up3. rewrite <- (depth_adds k Hk), <- (depth_muls3 k Hk), (pow_4 k) by lia. unfold up3 in A, B.
    replace (k - 1 - 1) with (k - 2) in A by lia. replace (k - 2 - 1) with (k - 3) in B by lia. specialize (A HQ). specialize (B HR).
    rewrite (pow_2 (k - 1)) in A by lia. replace (k - 1 - 1) with (k - 2) in A by lia.
    apply (split_dct3_rises M lev ent L _ _ (fun i => table_ent _ i HQ) (table_length _) (pow_pos _)); assumption.
  - intros k g _ A HM. apply (dst2_rises M lev ent L), A, HM.
  - intros k g _ A HM. apply (dst3_rises M lev ent L); [apply pow_pos|apply A, HM].
  - intros k c s Hk A B HQ. pose proof (half_fits k ltac:(lia) HQ) as HR. unfold up3, ups3 in A, B. replace (k - 1 - 1) with (k - 2) in A, B by lia. specialize (A HR). specialize (B HR). unfold up4. rewrite <- (depth_adds4 k Hk), <- (depth_muls4 k Hk), (pow_2 k) by lia.
    apply (even_dct4_rises M lev ent L _ _ (fun i => table_ent _ i HQ) (table_length _) (pow_pos _)); assumption.
  - intros k c s Hk A B HQ. pose proof (half_fits k ltac:(lia) HQ) as HR. unfold up3, ups3 in A, B. replace (k - 1 - 1) with (k - 2) in A, B by lia. specialize (A HR). specialize (B HR). unfold up4. rewrite <- (depth_adds4 k Hk), <- (depth_muls4 k Hk), (pow_2 k) by lia.
    apply (even_dst4_rises M lev ent L _ _ (fun i => table_ent _ i HQ) (table_length _) (pow_pos _)); assumption.
Qed.
(** For any of the six. *)
Definition deep (c : pcall T) k (g : fn) : Prop := rises lev (2 ^ k) (adds_deep c k) (muls_deep c k) g.
Lemma chosen_deep k c g : 2 ^ (k - 1) <= M -> power_call k c -> chosen up2 up2 up3 ups3 up4 up4 c k g -> deep c k g.
Proof.
  pose proof (pow_pos k) as Pk. intros HM [[_ H]|[_ H]]; cbn [In] in H; repeat (destruct H as [<-|H]; [cbn [chosen]; intros A; specialize (A HM); unfold deep; cbn [adds_deep muls_deep];
    first [exact A|apply (rises3_rises M lev ent L 0); [exact A|lia]|apply (rises3_rises M lev ent L (2 ^ k - 1)); [exact A|lia]]|]); contradiction.
Qed.
End Depth.
