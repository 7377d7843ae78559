(** Every struct of the crate but the naive ones as an instance of its trait: it
    runs, for any numeric type, and in exact arithmetic it computes the reference
    transform. *)
From Coq Require Import List Arith Lia Bool Reals ZArith ZifyNat.
From Verif Require Import Prog Num Model_Common Model_Naive Model_Fft Model_Butterflies Model_SplitRadix
  Spec Spec_Fft Wp Contracts Sem_Naive Exact_Naive Naive_Objects Sem_Fft Sem_Fft2 Exact_Fft Sem_Split Sem_Split2 Exact_Split
  Sem_Butterflies Exact_Butterflies.
Import ListNotations.
Open Scope nat_scope.
Ltac Zify.zify_post_hook ::= Z.div_mod_to_equations.

Section Works.
Context {T F : Type} {N : Num T F}.

Ltac flds := cbn [x_len x_scratch x_run t23_len t23_scratch t_dct2 t_dct3 t_dst2 t_dst3
  t4_len t4_scratch t_dct4 t_dst4 c67_len c67_scratch t_dct6 t_dct7 s67_len s67_scratch t_dst6 t_dst7].

(** *** Naive *)
Lemma Type2And3Naive_works n : works_t23 (Type2And3Naive_obj (Type2And3Naive_new (T:=T) n)) n.
Proof.
  unfold works_t23, Type2And3Naive_obj. flds. unfold Type2And3Naive_scratch. rewrite Type2And3Naive_len_new.
  repeat split; intros; eexists; [apply sem_dct2_naive_ok|apply sem_dst2_naive_ok|apply sem_dct3_naive_ok|apply sem_dst3_naive_ok];
    try assumption; rewrite map_length, seq_length; reflexivity.
Qed.
Lemma Type4Naive_works n : works_t4 (Type4Naive_obj (Type4Naive_new (T:=T) n)) n.
Proof.
  unfold works_t4, Type4Naive_obj. flds. unfold Type4Naive_scratch. rewrite Type4Naive_len_new.
  repeat split; eexists; [apply sem_dct4_naive_ok|apply sem_dst4_naive_ok]; rewrite map_length, seq_length; reflexivity.
Qed.
Lemma Dst6And7Naive_works n : works_s67 (Dst6And7Naive_obj (Dst6And7Naive_new (T:=T) n)) n.
Proof.
  unfold works_s67, Dst6And7Naive_obj. flds. unfold Dst6And7Naive_scratch. rewrite Dst6And7Naive_len_new.
  repeat split; eexists; [apply sem_dst6_naive_ok|apply sem_dst7_naive_ok]; rewrite map_length, seq_length; reflexivity.
Qed.
Lemma Dst1Naive_works n : works_x (Dst1Naive_obj (Dst1Naive_new (T:=T) n)) n.
Proof.
  unfold works_x, Dst1Naive_obj. flds. unfold Dst1Naive_scratch. rewrite Dst1Naive_len_new.
  split; [reflexivity|]. eexists. apply sem_dst1_naive_ok. rewrite map_length, seq_length; reflexivity.
Qed.
Lemma Dst5Naive_works n : works_x (Dst5Naive_obj (Dst5Naive_new (T:=T) n)) n.
Proof.
  unfold works_x, Dst5Naive_obj. flds. unfold Dst5Naive_scratch. rewrite Dst5Naive_len_new.
  split; [reflexivity|]. eexists. apply sem_dst5_naive_ok. rewrite map_length, seq_length; reflexivity.
Qed.
Lemma Dct8Naive_works n : works_x (Dct8Naive_obj (Dct8Naive_new (T:=T) n)) n.
Proof.
  unfold works_x, Dct8Naive_obj. flds. unfold Dct8Naive_scratch. rewrite Dct8Naive_len_new.
  split; [reflexivity|]. eexists. apply sem_dct8_naive_ok. rewrite map_length, seq_length; reflexivity.
Qed.
Lemma Dct1Naive_works n d : Dct1Naive_new (T:=T) n = Ok d -> works_x (Dct1Naive_obj d) n.
Proof.
  intros E. pose proof (Dct1Naive_len_new n d E) as L.
  unfold works_x, Dct1Naive_obj. flds. unfold Dct1Naive_scratch. rewrite L. split; [reflexivity|]. clear L. revert E.
  unfold Dct1Naive_new, rassert, rsub. destruct (Nat.eqb_spec n 1); [discriminate|].
  cbn [negb rbind]. destruct (Nat.leb_spec 1 n); [|discriminate]. cbn [rbind]. intros E. apply Ok_inj in E. subst d.
  eexists. apply sem_dct1_naive_ok; [lia|]. rewrite map_length, seq_length; reflexivity.
Qed.
Lemma Dct5Naive_works n d : Dct5Naive_new (T:=T) n = Ok d -> works_x (Dct5Naive_obj d) n.
Proof.
  intros E. pose proof (Dct5Naive_len_new n d E) as L.
  unfold works_x, Dct5Naive_obj. flds. unfold Dct5Naive_scratch. rewrite L. split; [reflexivity|]. clear L. revert E.
  unfold Dct5Naive_new, rsub. destruct (Nat.leb_spec 1 (n * 2)); [|discriminate]. cbn [rbind]. intros E. apply Ok_inj in E. subst d.
  eexists. apply sem_dct5_naive_ok; [lia|]. rewrite map_length, seq_length; reflexivity.
Qed.
Lemma Dst8Naive_works n d : Dst8Naive_new (T:=T) n = Ok d -> works_x (Dst8Naive_obj d) n.
Proof.
  intros E. pose proof (Dst8Naive_len_new n d E) as L.
  unfold works_x, Dst8Naive_obj. flds. unfold Dst8Naive_scratch. rewrite L. split; [reflexivity|]. clear L. revert E.
  unfold Dst8Naive_new, rsub. destruct (Nat.leb_spec 1 (n * 2)); [|discriminate]. cbn [rbind].
  destruct (Nat.leb_spec 2 (n * 4)); [|discriminate]. cbn [rbind]. intros E. apply Ok_inj in E. subst d.
  eexists. apply sem_dst8_naive_ok; [lia|]. rewrite map_length, seq_length; reflexivity.
Qed.
Lemma Dct6And7Naive_works n d : Dct6And7Naive_new (T:=T) n = Ok d -> works_c67 (Dct6And7Naive_obj d) n.
Proof.
  intros E. pose proof (Dct6And7Naive_len_new n d E) as L.
  unfold works_c67, Dct6And7Naive_obj. flds. unfold Dct6And7Naive_scratch. rewrite L. split; [reflexivity|]. clear L. revert E.
  unfold Dct6And7Naive_new, rsub. destruct (Nat.leb_spec 1 (n * 2)); [|discriminate]. cbn [rbind].
  destruct (Nat.leb_spec 2 (n * 4)); [|discriminate]. cbn [rbind]. intros E. apply Ok_inj in E. subst d.
  split; eexists; [apply sem_dct6_naive_ok|apply sem_dct7_naive_ok]; try lia; rewrite map_length, seq_length; reflexivity.
Qed.

(** *** Butterflies *)
Lemma Butterfly2_works : works_t23 (Type2And3Butterfly2_obj (T:=T)) 2.
Proof.
  unfold works_t23, Type2And3Butterfly2_obj. flds.
  repeat split; intros; eexists; [apply Butterfly2_dct2_ok|apply Butterfly2_dst2_ok|apply Butterfly2_dct3_ok|apply Butterfly2_dst3_ok].
Qed.
Lemma butterfly_works n c2 c3 s2 s3 h2 h3 g2 g3 :
  inplace c2 n h2 -> inplace c3 n h3 -> inplace s2 n g2 -> inplace s3 n g3 ->
  works_t23 (butterfly_obj (T:=T) n c2 c3 s2 s3) n.
Proof.
  intros. unfold works_t23, butterfly_obj. flds.
  repeat split; intros; eexists; (eapply inplace_computes; [intros b s; reflexivity|eassumption]).
Qed.
Lemma Butterfly3_works t : works_t23 (Type2And3Butterfly3_obj (T:=T) t) 3.
Proof.
  eapply butterfly_works; [apply Butterfly3_inplace_dct2_ok|apply Butterfly3_inplace_dct3_ok
    |apply Butterfly3_inplace_dst2_ok|apply Butterfly3_inplace_dst3_ok].
Qed.
Lemma Butterfly4_works t : works_t23 (Type2And3Butterfly4_obj (T:=T) t) 4.
Proof.
  eapply butterfly_works; [apply Butterfly4_inplace_dct2_ok|apply Butterfly4_inplace_dct3_ok
    |apply Butterfly4_inplace_dst2_ok|apply Butterfly4_inplace_dst3_ok].
Qed.
Lemma Butterfly8_works t : works_t23 (Type2And3Butterfly8_obj (T:=T) t) 8.
Proof.
  eapply butterfly_works; [apply Butterfly8_inplace_dct2_ok|apply Butterfly8_inplace_dct3_ok
    |apply Butterfly8_inplace_dst2_ok|apply Butterfly8_inplace_dst3_ok].
Qed.
Lemma Butterfly16_works t : works_t23 (Type2And3Butterfly16_obj (T:=T) t) 16.
Proof.
  eapply butterfly_works; [apply Butterfly16_inplace_dct2_ok|apply Butterfly16_inplace_dct3_ok
    |apply Butterfly16_inplace_dst2_ok|apply Butterfly16_inplace_dst3_ok].
Qed.

(** *** FFT *)
Lemma Dct1ConvertToFft_works (f : fft T) d : Dct1ConvertToFft_new f = Ok d -> fft_clean f -> 0 < fft_len f ->
  works_x (Dct1ConvertToFft_obj d) (fft_len f / 2 + 1).
Proof.
  intros E Hc Hl. pose proof (sem_dct1_fft_ok f d E Hc Hl) as H. revert E.
  unfold Dct1ConvertToFft_new, rassert. destruct (_ =? 0); [|discriminate]. cbn [rbind].
  destruct (dir_eqb _ _); [|discriminate]. cbn [rbind]. intros E. apply Ok_inj in E. subst d.
  split; [reflexivity|]. eexists. exact H.
Qed.
Lemma Dst1ConvertToFft_works (f : fft T) d : Dst1ConvertToFft_new f = Ok d -> fft_clean f ->
  works2_x (Dst1ConvertToFft_obj d) (fft_len f / 2 - 1).
Proof.
  intros E Hc. pose proof (sem_dst1_fft_ok f d E Hc) as H. revert E.
  unfold Dst1ConvertToFft_new, rassert, rsub. destruct (_ =? 0); [|discriminate]. cbn [rbind].
  destruct (dir_eqb _ _); [|discriminate]. cbn [rbind]. destruct (1 <=? _); [|discriminate]. cbn [rbind].
  intros E. apply Ok_inj in E. subst d.
  split; [reflexivity|]. eexists. exact H.
Qed.
Lemma Type2And3ConvertToFft_works (f : fft T) d : Type2And3ConvertToFft_new f = Ok d -> fft_clean f ->
  works_t23 (Type2And3ConvertToFft_obj d) (fft_len f).
Proof.
  intros E Hc. apply Type2And3ConvertToFft_new_inv in E. subst d.
  unfold works_t23, Type2And3ConvertToFft_obj, Type2And3ConvertToFft_len. flds. cbn [t23f_tw t23f_scratch].
  rewrite map_length, seq_length.
  repeat split; intros; eexists; [apply sem_dct2_fft_ok|apply sem_dst2_fft_ok|apply sem_dct3_fft_ok|apply sem_dst3_fft_ok];
    try assumption; rewrite map_length, seq_length; reflexivity.
Qed.
Lemma Type4ConvertToFftOdd_new_inv (f : fft T) d : Type4ConvertToFftOdd_new f = Ok d ->
  fft_len f mod 2 = 1 /\ d = mkT4Fft f (fft_len f) (2 * (fft_len f + fft_scratch f)).
Proof.
  unfold Type4ConvertToFftOdd_new, rassert. destruct (dir_eqb _ _); [|discriminate]. cbn [rbind].
  destruct (Nat.eqb_spec (fft_len f mod 2) 1) as [Ho|]; [|discriminate]. cbn [rbind].
  intros E. apply Ok_inj in E. split; [exact Ho|]. symmetry. exact E.
Qed.
Lemma Type4ConvertToFftOdd_works (f : fft T) d : Type4ConvertToFftOdd_new f = Ok d -> fft_clean f ->
  works_t4 (Type4ConvertToFftOdd_obj d) (fft_len f).
Proof.
  intros E Hc. apply Type4ConvertToFftOdd_new_inv in E. destruct E as [Ho ->].
  repeat split; eexists; [apply sem_dct4_fft_ok|apply sem_dst4_fft_ok]; assumption.
Qed.
Lemma Dst6And7ConvertToFft_works (f : fft T) d : Dst6And7ConvertToFft_new f = Ok d -> fft_clean f ->
  works2_s67 (Dst6And7ConvertToFft_obj d) ((fft_len f - 1) / 2).
Proof.
  intros E Hc. apply Dst6And7ConvertToFft_new_inv in E. destruct E as [Ho ->].
  repeat split; eexists; [apply sem_dst6_fft_ok|apply sem_dst7_fft_ok]; try assumption; lia.
Qed.

(** *** Split radix and type 4 via type 3 *)
Lemma is_power_of_two_pos n : is_power_of_two n = true -> 0 < n.
Proof. destruct n; [discriminate|lia]. Qed.
Lemma Type2And3SplitRadix_new_inv (h q : t23 T) d : Type2And3SplitRadix_new h q = Ok d ->
  0 < t23_len q /\ t23_len h = 2 * t23_len q /\
  d = mkT23Split h q (map (fun i => c_conj (single_twiddle (2 * i + 1) (16 * t23_len q))) (seq 0 (t23_len q))).
Proof.
  unfold Type2And3SplitRadix_new, rassert. destruct (_ && _) eqn:E1; [|discriminate]. cbn [rbind].
  destruct (Nat.eqb_spec (t23_len h) (t23_len q * 2)) as [E2|]; [|discriminate]. cbn [rbind].
  apply andb_prop in E1. destruct E1 as [_ E1]. apply Nat.ltb_lt in E1. intros E. apply Ok_inj in E.
  split; [lia|]. split; [lia|]. rewrite <- E, E2.
  replace (t23_len q * 2 * 2 * 4) with (16 * t23_len q) by lia. replace (t23_len q * 2 * 2 / 4) with (t23_len q) by lia. reflexivity.
Qed.

Lemma Type2And3SplitRadix_works (h q : t23 T) d nh nq : Type2And3SplitRadix_new h q = Ok d ->
  works_t23 h nh -> works_t23 q nq -> t23_scratch h <= 4 * nq -> t23_scratch q <= 4 * nq ->
  works_t23 (Type2And3SplitRadix_obj d) (4 * nq).
Proof.
  intros E (Lh & [H2 A2] & _ & A3 & _) (Lq & [Q2 B2] & _ & B3 & _) Sh Sq.
  apply Type2And3SplitRadix_new_inv in E. rewrite Lh, Lq in E. destruct E as (Hq & -> & ->).
  destruct A3 as [H3 A3]; [lia|]. destruct B3 as [Q3 B3]; [lia|].
  set (tw := map _ _). assert (Lt : @length (T * T) tw = nq) by (etransitivity; [apply map_length|apply seq_length]).
  set (self := mkT23Split h q tw).
  assert (L : Type2And3SplitRadix_len self = 4 * nq) by (unfold Type2And3SplitRadix_len, self; cbn [sr_tw]; etransitivity; [exact (f_equal (fun l => l * 4) Lt)|lia]).
  assert (C2 : runs (Type2And3SplitRadix_dct2 self) (4 * nq) (4 * nq)).
  { eexists. pose proof (sem_sr_dct2_ok H2 Q2 tw h q (t23_scratch h) (t23_scratch q)) as K.
    rewrite Lt in K. apply K; assumption. }
  assert (C3 : runs (Type2And3SplitRadix_dct3 self) (4 * nq) (4 * nq)).
  { eexists. pose proof (sem_sr_dct3_ok H3 Q3 tw h q (t23_scratch h) (t23_scratch q)) as K.
    rewrite Lt in K. apply K; assumption. }
  unfold works_t23, Type2And3SplitRadix_obj, Type2And3SplitRadix_scratch. flds. rewrite L.
  split; [reflexivity|]. split; [exact C2|]. split.
  { destruct C2 as [G C2]. eexists. pose proof (sem_sr_dst2_ok self (4 * nq) G) as K. cbv zeta in K. rewrite L in K. apply K, C2. }
  split; intros _; [exact C3|].
  destruct C3 as [G C3]. eexists. pose proof (sem_sr_dst3_ok self (4 * nq) G) as K. cbv zeta in K. rewrite L in K. apply K, C3.
Qed.

Lemma t4e_new_eq (inner : t23 T) n : t23_len inner = n ->
  Type4ConvertToType3Even_new inner =
  mkT4Even inner (map (fun i => c_conj (single_twiddle (2 * i + 1) (16 * n))) (seq 0 n))
    (if t23_scratch inner <=? 2 * n then 2 * n else 2 * n + t23_scratch inner).
Proof.
  intros E. unfold Type4ConvertToType3Even_new. rewrite E.
  replace (n * 2 * 8) with (16 * n) by lia. replace (n * 2) with (2 * n) by lia. reflexivity.
Qed.
Lemma Type4ConvertToType3Even_works (inner : t23 T) n : works_t23 inner n -> 0 < n ->
  works_t4 (Type4ConvertToType3Even_obj (Type4ConvertToType3Even_new inner)) (2 * n).
Proof.
  intros (L & _ & _ & C3 & S3) Hn. destruct (C3 Hn) as [C C3']. destruct (S3 Hn) as [S S3'].
  rewrite (t4e_new_eq inner n L). unfold works_t4, Type4ConvertToType3Even_obj, Type4ConvertToType3Even_len. flds. cbn [t4e_tw t4e_scratch].
  set (tw := map _ _). assert (Lt : @length (T * T) tw = n) by (etransitivity; [apply map_length|apply seq_length]).
  split; [etransitivity; [exact (f_equal (fun l => l * 2) Lt)|lia]|].
  set (sl := if t23_scratch inner <=? 2 * n then 2 * n else 2 * n + t23_scratch inner). assert (Hr : t4e_room (T:=T) tw (t23_scratch inner) sl).
  { unfold t4e_room. rewrite Lt. unfold sl. destruct (Nat.leb_spec (t23_scratch inner) (2 * n)); lia. }
  clearbody sl.
  split; eexists.
  - pose proof (sem_t4e_dct4_ok C S tw inner sl (t23_scratch inner)) as K. rewrite Lt in K. apply K; assumption.
  - pose proof (sem_t4e_dst4_ok C S tw inner sl (t23_scratch inner)) as K. rewrite Lt in K. apply K; assumption.
Qed.
End Works.

Section Exact.
Ltac flds := cbn [x_len x_scratch x_run t23_len t23_scratch t_dct2 t_dct3 t_dst2 t_dst3
  t4_len t4_scratch t_dct4 t_dst4 c67_len c67_scratch t_dct6 t_dct7 s67_len s67_scratch t_dst6 t_dst7].

Lemma Type2And3Naive_exact n : exact_t23 (Type2And3Naive_obj (Type2And3Naive_new n)) n.
Proof.
  unfold exact_t23, Type2And3Naive_obj. flds. unfold Type2And3Naive_scratch. rewrite Type2And3Naive_len_new.
  split; [reflexivity|]. split; [apply dct2_naive_computes|]. split; [apply dst2_naive_computes|].
  split; intros; [apply dct3_naive_computes|apply dst3_naive_computes]; assumption.
Qed.
Lemma Type4Naive_exact n : exact_t4 (Type4Naive_obj (Type4Naive_new n)) n.
Proof.
  unfold exact_t4, Type4Naive_obj. flds. unfold Type4Naive_scratch. rewrite Type4Naive_len_new.
  split; [reflexivity|]. split; [apply dct4_naive_computes|apply dst4_naive_computes].
Qed.
Lemma Dst6And7Naive_exact n : exact2_s67 (Dst6And7Naive_obj (Dst6And7Naive_new n)) n.
Proof.
  unfold exact2_s67, Dst6And7Naive_obj. flds. unfold Dst6And7Naive_scratch. rewrite Dst6And7Naive_len_new.
  split; [reflexivity|]. split; apply exact_exact2; [apply dst6_naive_computes|apply dst7_naive_computes].
Qed.
Lemma Dst1Naive_exact n : exact2_x (Dst1Naive_obj (Dst1Naive_new n)) n dst1_at.
Proof.
  unfold exact2_x, Dst1Naive_obj. flds. unfold Dst1Naive_scratch. rewrite Dst1Naive_len_new.
  split; [reflexivity|]. apply exact_exact2, dst1_naive_computes.
Qed.
Lemma Dst5Naive_exact n : exact_x (Dst5Naive_obj (Dst5Naive_new n)) n dst5_at.
Proof.
  unfold exact_x, Dst5Naive_obj. flds. unfold Dst5Naive_scratch. rewrite Dst5Naive_len_new.
  split; [reflexivity|]. apply dst5_naive_computes.
Qed.
Lemma Dct8Naive_exact n : exact_x (Dct8Naive_obj (Dct8Naive_new n)) n dct8_at.
Proof.
  unfold exact_x, Dct8Naive_obj. flds. unfold Dct8Naive_scratch. rewrite Dct8Naive_len_new.
  split; [reflexivity|]. apply dct8_naive_computes.
Qed.
Lemma new_pos5 n (d : dct5_naive R) : Dct5Naive_new n = Ok d -> 1 <= n.
Proof. unfold Dct5Naive_new, rsub. destruct (Nat.leb_spec 1 (n * 2)); [lia|discriminate]. Qed.
Lemma new_pos8 n (d : dst8_naive R) : Dst8Naive_new n = Ok d -> 1 <= n.
Proof. unfold Dst8Naive_new, rsub. destruct (Nat.leb_spec 1 (n * 2)); [lia|discriminate]. Qed.
Lemma new_pos67 n (d : c67_naive R) : Dct6And7Naive_new n = Ok d -> 1 <= n.
Proof. unfold Dct6And7Naive_new, rsub. destruct (Nat.leb_spec 1 (n * 2)); [lia|discriminate]. Qed.
Lemma new_pos1 n (d : dct1_naive R) : Dct1Naive_new n = Ok d -> 2 <= n.
Proof.
  unfold Dct1Naive_new, rassert, rsub. destruct (Nat.eqb_spec n 1); [discriminate|].
  cbn [negb rbind]. destruct (Nat.leb_spec 1 n); [lia|discriminate].
Qed.
Lemma Dct1Naive_exact n d : Dct1Naive_new n = Ok d -> exact_x (Dct1Naive_obj d) n dct1_at.
Proof.
  intros E. pose proof (new_pos1 n d E). unfold exact_x, Dct1Naive_obj. flds. unfold Dct1Naive_scratch.
  rewrite (Dct1Naive_len_new n d E). split; [reflexivity|]. apply dct1_naive_computes; assumption.
Qed.
Lemma Dct5Naive_exact n d : Dct5Naive_new n = Ok d -> exact_x (Dct5Naive_obj d) n dct5_at.
Proof.
  intros E. pose proof (new_pos5 n d E). unfold exact_x, Dct5Naive_obj. flds. unfold Dct5Naive_scratch.
  rewrite (Dct5Naive_len_new n d E). split; [reflexivity|]. apply dct5_naive_computes; assumption.
Qed.
Lemma Dst8Naive_exact n d : Dst8Naive_new n = Ok d -> exact_x (Dst8Naive_obj d) n dst8_at.
Proof.
  intros E. pose proof (new_pos8 n d E). unfold exact_x, Dst8Naive_obj. flds. unfold Dst8Naive_scratch.
  rewrite (Dst8Naive_len_new n d E). split; [reflexivity|]. apply dst8_naive_computes; assumption.
Qed.
Lemma Dct6And7Naive_exact n d : Dct6And7Naive_new n = Ok d -> exact_c67 (Dct6And7Naive_obj d) n.
Proof.
  intros E. pose proof (new_pos67 n d E). unfold exact_c67, Dct6And7Naive_obj. flds. unfold Dct6And7Naive_scratch.
  rewrite (Dct6And7Naive_len_new n d E). split; [reflexivity|].
  split; [apply dct6_naive_computes|apply dct7_naive_computes]; assumption.
Qed.

Lemma Butterfly2_exact : exact_t23 Type2And3Butterfly2_obj 2.
Proof.
  unfold exact_t23, Type2And3Butterfly2_obj. flds.
  split; [reflexivity|]. split; [|split; [|split; intros _]].
  - eapply computes_ext; [apply Butterfly2_dct2_ok|]. apply is_list_agrees, b2_dct2_exact.
  - eapply computes_ext; [apply Butterfly2_dst2_ok|]. apply is_list_agrees, b2_dst2_exact.
  - eapply computes_ext; [apply Butterfly2_dct3_ok|]. apply is_list_agrees, b2_dct3_exact.
  - eapply computes_ext; [apply Butterfly2_dst3_ok|]. apply is_list_agrees, b2_dst3_exact.
Qed.
Lemma butterfly_exact n c2 c3 s2 s3 h2 h3 g2 g3 :
  inplace c2 n h2 -> inplace c3 n h3 -> inplace s2 n g2 -> inplace s3 n g3 ->
  is_list n h2 dct2_at -> is_list n h3 dct3_at -> is_list n g2 dst2_at -> is_list n g3 dst3_at ->
  exact_t23 (butterfly_obj n c2 c3 s2 s3) n.
Proof.
  intros I1 I2 I3 I4 L1 L2 L3 L4. unfold exact_t23, butterfly_obj. flds.
  split; [reflexivity|]. split; [|split; [|split; intros _]];
    (eapply computes_ext; [eapply inplace_computes; [intros b s; reflexivity|]; eassumption|apply is_list_agrees; assumption]).
Qed.
Lemma Butterfly3_exact : exact_t23 (Type2And3Butterfly3_obj Butterfly3_new) 3.
Proof.
  eapply butterfly_exact; [apply Butterfly3_inplace_dct2_ok|apply Butterfly3_inplace_dct3_ok
    |apply Butterfly3_inplace_dst2_ok|apply Butterfly3_inplace_dst3_ok
    |apply b3_dct2_exact|apply b3_dct3_exact|apply b3_dst2_exact|apply b3_dst3_exact].
Qed.
Lemma Butterfly4_exact : exact_t23 (Type2And3Butterfly4_obj Butterfly4_new) 4.
Proof.
  eapply butterfly_exact; [apply Butterfly4_inplace_dct2_ok|apply Butterfly4_inplace_dct3_ok
    |apply Butterfly4_inplace_dst2_ok|apply Butterfly4_inplace_dst3_ok
    |apply b4_dct2_exact|apply b4_dct3_exact|apply b4_dst2_exact|apply b4_dst3_exact].
Qed.
Lemma Butterfly8_exact : exact_t23 (Type2And3Butterfly8_obj Butterfly8_new) 8.
Proof.
  eapply butterfly_exact; [apply Butterfly8_inplace_dct2_ok|apply Butterfly8_inplace_dct3_ok
    |apply Butterfly8_inplace_dst2_ok|apply Butterfly8_inplace_dst3_ok
    |apply b8_dct2_exact|apply b8_dct3_exact|apply b8_dst2_exact|apply b8_dst3_exact].
Qed.
Lemma Butterfly16_exact : exact_t23 (Type2And3Butterfly16_obj Butterfly16_new) 16.
Proof.
  eapply butterfly_exact; [apply Butterfly16_inplace_dct2_ok|apply Butterfly16_inplace_dct3_ok
    |apply Butterfly16_inplace_dst2_ok|apply Butterfly16_inplace_dst3_ok
    |apply b16_dct2_exact|apply b16_dct3_exact|apply b16_dst2_exact|apply b16_dst3_exact].
Qed.

Lemma at_repeat0 n i : at_ (repeat 0%R n) i = 0%R.
Proof. unfold at_. change (zero (T:=R)) with 0%R. revert i. induction n; intros [|i]; cbn; auto. Qed.

Lemma Dct1ConvertToFft_exact (f : fft R) d : Dct1ConvertToFft_new f = Ok d -> fft_exact f -> 0 < fft_len f ->
  exact_x (Dct1ConvertToFft_obj d) (fft_len f / 2 + 1) dct1_at.
Proof.
  intros E He Hl. pose proof (sem_dct1_fft_ok f d E (fft_exact_clean f He) Hl) as H. revert E.
  unfold Dct1ConvertToFft_new, rassert. destruct (Nat.eqb_spec (fft_len f mod 2) 0); [|discriminate]. cbn [rbind].
  destruct (dir_eqb _ _); [|discriminate]. cbn [rbind]. intros E. apply Ok_inj in E. subst d.
  split; [reflexivity|]. eapply computes_ext; [exact H|].
  intros x k Hx Hk. rewrite <- Hx in Hk |- * . apply dct1_fft_exact; [exact He|lia|lia|exact Hk].
Qed.
Lemma Dst1ConvertToFft_exact (f : fft R) d : Dst1ConvertToFft_new f = Ok d -> fft_exact f ->
  exact2_x (Dst1ConvertToFft_obj d) (fft_len f / 2 - 1) dst1_at.
Proof.
  intros E He. pose proof (sem_dst1_fft_ok f d E (fft_exact_clean f He)) as H. revert E.
  unfold Dst1ConvertToFft_new, rassert, rsub. destruct (Nat.eqb_spec (fft_len f mod 2) 0); [|discriminate]. cbn [rbind].
  destruct (dir_eqb _ _); [|discriminate]. cbn [rbind]. destruct (Nat.leb_spec 1 (fft_len f / 2)); [|discriminate]. cbn [rbind].
  intros E. apply Ok_inj in E. subst d.
  split; [reflexivity|]. eexists. split; [exact H|].
  intros x k Hx Hk. rewrite <- Hx in Hk |- * . apply dst1_fft_exact; [exact He|lia|apply at_repeat0|exact Hk].
Qed.
Lemma Type2And3ConvertToFft_exact (f : fft R) d : Type2And3ConvertToFft_new f = Ok d -> fft_exact f ->
  exact_t23 (Type2And3ConvertToFft_obj d) (fft_len f).
Proof.
  intros E He. apply Type2And3ConvertToFft_new_inv in E. subst d. pose proof (fft_exact_clean f He) as Hc.
  unfold exact_t23, Type2And3ConvertToFft_obj, Type2And3ConvertToFft_len. flds. cbn [t23f_tw t23f_scratch].
  change (map _ _) with (t23_tw (fft_len f)).
  assert (L : length (t23_tw (fft_len f)) = fft_len f) by (unfold t23_tw; rewrite map_length, seq_length; reflexivity).
  split; [exact L|]. split; [|split; [|split; intros Hp]].
  - eapply computes_ext; [apply sem_dct2_fft_ok; assumption|]. intros x k Hx Hk. rewrite <- Hx in * . apply dct2_fft_exact; auto.
  - eapply computes_ext; [apply sem_dst2_fft_ok; assumption|]. intros x k Hx Hk. rewrite <- Hx in * . apply dst2_fft_exact; auto.
  - eapply computes_ext; [apply sem_dct3_fft_ok; assumption|]. intros x k Hx Hk. rewrite <- Hx in * . apply dct3_fft_exact; auto.
  - eapply computes_ext; [apply sem_dst3_fft_ok; assumption|]. intros x k Hx Hk. rewrite <- Hx in * . apply dst3_fft_exact; auto.
Qed.
Lemma Type4ConvertToFftOdd_exact (f : fft R) d : Type4ConvertToFftOdd_new f = Ok d -> fft_exact f ->
  exact_t4 (Type4ConvertToFftOdd_obj d) (fft_len f).
Proof.
  intros E He. apply Type4ConvertToFftOdd_new_inv in E. destruct E as [Ho ->]. pose proof (fft_exact_clean f He) as Hc.
  split; [reflexivity|]. split.
  - eapply computes_ext; [apply sem_dct4_fft_ok; assumption|]. intros x k Hx Hk. apply t4_exact; rewrite ?Hx; auto.
  - eapply computes_ext; [apply sem_dst4_fft_ok; assumption|]. intros x k Hx Hk. apply t4_exact_dst; rewrite ?Hx; auto.
Qed.
Lemma Dst6And7ConvertToFft_exact (f : fft R) d : Dst6And7ConvertToFft_new f = Ok d -> fft_exact f ->
  exact2_s67 (Dst6And7ConvertToFft_obj d) ((fft_len f - 1) / 2).
Proof.
  intros E He. apply Dst6And7ConvertToFft_new_inv in E. destruct E as [Ho ->]. pose proof (fft_exact_clean f He) as Hc.
  split; [reflexivity|]. split; eexists.
  - split; [apply sem_dst6_fft_ok; [lia|exact Hc]|]. intros x k Hx Hk. apply dst6_fft_exact; [exact He|lia|apply at_repeat0|lia].
  - split; [apply sem_dst7_fft_ok; [lia|exact Hc]|]. intros x k Hx Hk. apply dst7_fft_exact; [exact He|lia|apply at_repeat0|lia].
Qed.

Lemma exact_agrees n t : agrees n t t. Proof. intros x k _ _. reflexivity. Qed.
Lemma Type2And3SplitRadix_exact (h q : t23 R) d nh nq : Type2And3SplitRadix_new h q = Ok d ->
  exact_t23 h nh -> exact_t23 q nq -> t23_scratch h <= 4 * nq -> t23_scratch q <= 4 * nq ->
  exact_t23 (Type2And3SplitRadix_obj d) (4 * nq).
Proof.
  intros E (Lh & A2 & _ & A3 & _) (Lq & B2 & _ & B3 & _) Sh Sq.
  apply Type2And3SplitRadix_new_inv in E. rewrite Lh, Lq in E. destruct E as (Hq & -> & ->).
  specialize (A3 ltac:(lia)). specialize (B3 ltac:(lia)).
  change (map _ _) with (q_tw nq). pose proof (q_tw_length nq) as Lt.
  set (self := mkT23Split h q (q_tw nq)).
  assert (L : Type2And3SplitRadix_len self = 4 * nq) by (unfold Type2And3SplitRadix_len, self; cbn [sr_tw]; etransitivity; [exact (f_equal (fun l => l * 4) Lt)|lia]).
  assert (C2 : computes (Type2And3SplitRadix_dct2 self) (4 * nq) (4 * nq) dct2_at).
  { eapply computes_ext; [|apply sr_dct2_exact; [exact Hq|apply exact_agrees|apply exact_agrees]].
    pose proof (sem_sr_dct2_ok dct2_at dct2_at (q_tw nq) h q (t23_scratch h) (t23_scratch q)) as K.
    rewrite Lt in K. apply K; assumption. }
  assert (C3 : computes (Type2And3SplitRadix_dct3 self) (4 * nq) (4 * nq) dct3_at).
  { eapply computes_ext; [|apply sr_dct3_exact; [exact Hq|apply exact_agrees|apply exact_agrees]].
    pose proof (sem_sr_dct3_ok dct3_at dct3_at (q_tw nq) h q (t23_scratch h) (t23_scratch q)) as K.
    rewrite Lt in K. apply K; assumption. }
  unfold exact_t23, Type2And3SplitRadix_obj, Type2And3SplitRadix_scratch. flds. rewrite L.
  split; [reflexivity|]. split; [exact C2|]. split.
  { eapply computes_ext; [|apply sr_dst2_exact, exact_agrees].
    pose proof (sem_sr_dst2_ok self (4 * nq) dct2_at) as K. cbv zeta in K. rewrite L in K. apply K, C2. }
  split; intros _; [exact C3|].
  eapply computes_ext; [|apply sr_dst3_exact, exact_agrees].
  pose proof (sem_sr_dst3_ok self (4 * nq) dct3_at) as K. cbv zeta in K. rewrite L in K. apply K, C3.
Qed.

Lemma Type4ConvertToType3Even_exact (inner : t23 R) n : exact_t23 inner n -> 0 < n ->
  exact_t4 (Type4ConvertToType3Even_obj (Type4ConvertToType3Even_new inner)) (2 * n).
Proof.
  intros (L & _ & _ & C3 & S3) Hn. specialize (C3 Hn). specialize (S3 Hn).
  rewrite (t4e_new_eq inner n L). unfold exact_t4, Type4ConvertToType3Even_obj, Type4ConvertToType3Even_len. flds. cbn [t4e_tw t4e_scratch].
  change (map _ _) with (q_tw n). pose proof (q_tw_length n) as Lt.
  split; [lia|]. split.
  - eapply computes_ext; [|apply t4e_dct4_exact; [exact Hn|apply exact_agrees|apply exact_agrees]].
    pose proof (sem_t4e_dct4_ok dct3_at dst3_at (q_tw n) inner) as K. rewrite Lt in K. eapply K; try eassumption.
    unfold t4e_room; rewrite Lt; destruct (Nat.leb_spec (t23_scratch inner) (2 * n)); lia.
  - eapply computes_ext; [|apply t4e_dst4_exact; [exact Hn|apply exact_agrees|apply exact_agrees]].
    pose proof (sem_t4e_dst4_ok dct3_at dst3_at (q_tw n) inner) as K. rewrite Lt in K. eapply K; try eassumption.
    unfold t4e_room; rewrite Lt; destruct (Nat.leb_spec (t23_scratch inner) (2 * n)); lia.
Qed.
End Exact.
