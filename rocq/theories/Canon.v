(** What the planner builds: it works for any numeric type, and is exact over the reals. *)
From Coq Require Import List Arith Lia Bool Reals ZArith ZifyNat.
From Verif Require Import Prog Num Model_Common Model_Naive Model_Fft Model_Butterflies Model_SplitRadix
  Model_Mdct Model_Plan Spec Spec_Fft Wp Contracts Naive_Objects Sem_Fft Exact_Fft Objects Planner.
Import ListNotations.
Open Scope nat_scope.
Ltac Zify.zify_post_hook ::= Z.div_mod_to_equations.

Lemma is_pow2_iff n : is_power_of_two n = true <-> exists k, n = 2 ^ k.
Proof.
  unfold is_power_of_two. rewrite andb_true_iff, Nat.ltb_lt, Nat.eqb_eq. split.
  - intros [_ H]. exists (Nat.log2 n). symmetry. exact H.
  - intros [k ->]. rewrite Nat.log2_pow2 by lia. split; [|reflexivity].
    pose proof (Nat.pow_nonzero 2 k). lia.
Qed.
Lemma big_pow2 n : is_power_of_two n = true -> 2 < n -> existsb (Nat.eqb n) DCT2_BUTTERFLIES = false ->
  exists q, n = 4 * q /\ 8 <= q /\ is_power_of_two q = true /\ is_power_of_two (2 * q) = true.
Proof.
  intros H Hn Hb. apply is_pow2_iff in H. destruct H as [k ->].
  do 5 (destruct k as [|k]; [cbn in Hn, Hb; try lia; discriminate|]).
  exists (2 ^ (S (S (S k)))). pose proof (Nat.pow_nonzero 2 k).
  assert (2 ^ S (S (S k)) = 8 * 2 ^ k) by (rewrite !Nat.pow_succ_r'; lia).
  split; [rewrite !Nat.pow_succ_r'; lia|]. split; [lia|].
  split; apply is_pow2_iff; [exists (S (S (S k))); reflexivity|exists (S (S (S (S k)))); rewrite (Nat.pow_succ_r' 2 (S (S (S k)))); lia].
Qed.

Section Canon.
Context {T F : Type} {N : Num T F}.
Variable pf : nat -> fft T.
Hypothesis Hpf : fft_fits pf.

Lemma pf_len n : fft_len (pf n) = n. Proof. apply Hpf. Qed.
Lemma pf_dir n : dir_eqb (fft_dir (pf n)) Forward = true.
Proof. destruct (Hpf n) as [_ ->]. reflexivity. Qed.

Lemma t23_fft_new_ok n : exists d, Type2And3ConvertToFft_new (pf n) = Ok d.
Proof. unfold Type2And3ConvertToFft_new, rassert. rewrite pf_dir. eexists. reflexivity. Qed.
Lemma dct1_fft_new_ok n : n mod 2 = 0 -> exists d, Dct1ConvertToFft_new (pf n) = Ok d.
Proof.
  intros H. unfold Dct1ConvertToFft_new, rassert. rewrite pf_dir, pf_len, H. eexists. reflexivity.
Qed.
Lemma dst1_fft_new_ok n : n mod 2 = 0 -> 2 <= n -> exists d, Dst1ConvertToFft_new (pf n) = Ok d.
Proof.
  intros H H2. unfold Dst1ConvertToFft_new, rassert, rsub. rewrite pf_dir, pf_len, H. cbn [Nat.eqb rbind].
  destruct (Nat.leb_spec 1 (n / 2)); [|lia]. eexists. reflexivity.
Qed.
Lemma t4_fft_new_ok n : n mod 2 = 1 -> exists d, Type4ConvertToFftOdd_new (pf n) = Ok d.
Proof.
  intros H. unfold Type4ConvertToFftOdd_new, rassert. rewrite pf_dir, pf_len, H. eexists. reflexivity.
Qed.
Lemma s67_fft_new_ok n : n mod 2 = 1 -> exists d, Dst6And7ConvertToFft_new (pf n) = Ok d.
Proof.
  intros H. unfold Dst6And7ConvertToFft_new, rassert, rsub. rewrite pf_dir, pf_len, H. cbn [Nat.eqb rbind].
  destruct (Nat.leb_spec 1 n); [|lia]. eexists. reflexivity.
Qed.

(** *** Types 2 and 3 *)
Section C23.
Variable Q : t23 T -> nat -> Prop.
Hypothesis Q_len : forall o n, Q o n -> t23_len o = n.
Hypothesis Q2 : Q Type2And3Butterfly2_obj 2.
Hypothesis Q3 : Q (Type2And3Butterfly3_obj Butterfly3_new) 3.
Hypothesis Q4 : Q (Type2And3Butterfly4_obj Butterfly4_new) 4.
Hypothesis Q8 : Q (Type2And3Butterfly8_obj Butterfly8_new) 8.
Hypothesis Q16 : Q (Type2And3Butterfly16_obj Butterfly16_new) 16.
Hypothesis Qfft : forall n d, Type2And3ConvertToFft_new (pf n) = Ok d -> Q (Type2And3ConvertToFft_obj d) n.
Hypothesis Qsr : forall h q d n, Type2And3SplitRadix_new h q = Ok d -> Q h (2 * n) -> Q q n ->
  t23_scratch h <= 4 * n -> t23_scratch q <= 4 * n -> Q (Type2And3SplitRadix_obj d) (4 * n).

Lemma canon23_ind n : exists o, canon23 pf n = Ok o /\ Q o n /\
  (is_power_of_two n = true -> 1 < n -> t23_scratch o <= n).
Proof.
  induction n as [n IH] using lt_wf_ind. rewrite canon23_eq. unfold canon23_step.
  destruct (existsb (Nat.eqb n) DCT2_BUTTERFLIES) eqn:Eb.
  - unfold DCT2_BUTTERFLIES in Eb. cbn [existsb] in Eb. rewrite !orb_true_iff, !Nat.eqb_eq in Eb.
    destruct Eb as [->|[->|[->|[->|[->|]]]]]; [..|discriminate]; cbn [canon_bf]; eexists;
      (split; [reflexivity|]; split; [assumption|]); intros; cbn; lia.
  - destruct (is_power_of_two n && (2 <? n)) eqn:E.
    + apply andb_prop in E. destruct E as [Ep El]. apply Nat.ltb_lt in El.
      destruct (big_pow2 n Ep El Eb) as (q & -> & Hq & P1 & P2).
      replace (4 * q / 2) with (2 * q) by lia. replace (4 * q / 4) with q by lia.
      destruct (IH (2 * q)) as (h & -> & Qh & Sh); [lia|].
      destruct (IH q) as (r & -> & Qr & Sr); [lia|]. cbn [rbind].
      assert (exists d, Type2And3SplitRadix_new h r = Ok d) as [d Ed].
      { unfold Type2And3SplitRadix_new, rassert. rewrite (Q_len _ _ Qh), (Q_len _ _ Qr).
        replace (2 * q * 2) with (4 * q) by lia. rewrite Ep. replace (2 <? 4 * q) with true by (symmetry; apply Nat.ltb_lt; lia).
        cbn [andb rbind]. replace (q * 2) with (2 * q) by lia. rewrite Nat.eqb_refl. eexists. reflexivity. }
      rewrite Ed. cbn [rmap]. eexists. split; [reflexivity|]. split.
      * apply (Qsr h r d q Ed Qh Qr); [specialize (Sh P2); lia|specialize (Sr P1); lia].
      * intros _ _. cbn [Type2And3SplitRadix_obj t23_scratch]. unfold Type2And3SplitRadix_scratch, Type2And3SplitRadix_len.
        apply Type2And3SplitRadix_new_inv in Ed. destruct Ed as (_ & _ & ->). cbn [sr_tw].
        rewrite map_length, seq_length, (Q_len _ _ Qr). lia.
    + destruct (t23_fft_new_ok n) as [d Ed]. rewrite Ed. cbn [rmap]. eexists. split; [reflexivity|].
      split; [apply Qfft, Ed|]. intros Hp Hn. rewrite Hp in E. cbn [andb] in E. apply Nat.ltb_ge in E.
      assert (n = 2) by lia. subst n. discriminate.
Qed.
End C23.

(** *** Type 4 *)
Lemma canon4_ind (Q : t23 T -> nat -> Prop) (Q' : t4 T -> nat -> Prop) n :
  (forall k, exists o, canon23 pf k = Ok o /\ Q o k) ->
  (forall k, Q' (Type4Naive_obj (Type4Naive_new k)) k) ->
  (forall i k, Q i k -> 0 < k -> Q' (Type4ConvertToType3Even_obj (Type4ConvertToType3Even_new i)) (2 * k)) ->
  (forall k d, Type4ConvertToFftOdd_new (pf k) = Ok d -> Q' (Type4ConvertToFftOdd_obj d) k) ->
  exists o, canon4 pf n = Ok o /\ Q' o n.
Proof.
  intros H23 Hn He Ho. unfold canon4. destruct (Nat.eqb_spec (n mod 2) 0) as [Ev|Od].
  - destruct (Nat.ltb_spec n 6); [eexists; split; [reflexivity|apply Hn]|].
    destruct (H23 (n / 2)) as (i & -> & Qi). cbn [rbind]. eexists. split; [reflexivity|].
    pose proof (He i (n / 2) Qi ltac:(lia)) as K. replace (2 * (n / 2)) with n in K by lia. exact K.
  - destruct (Nat.ltb_spec n 7); [eexists; split; [reflexivity|apply Hn]|].
    destruct (t4_fft_new_ok n) as [d Ed]; [lia|]. rewrite Ed. cbn [rmap]. eexists. split; [reflexivity|]. apply Ho, Ed.
Qed.

Lemma Dct1Naive_new_some n : 2 <= n -> exists d, Dct1Naive_new (T:=T) n = Ok d.
Proof.
  intros H. unfold Dct1Naive_new, rassert, rsub. destruct (Nat.eqb_spec n 1); [lia|]. cbn [negb rbind].
  destruct (Nat.leb_spec 1 n); [|lia]. cbn [rbind]. eexists. reflexivity.
Qed.
Lemma Dct5Naive_new_some n : 1 <= n -> exists d, Dct5Naive_new (T:=T) n = Ok d.
Proof. intros H. unfold Dct5Naive_new, rsub. destruct (Nat.leb_spec 1 (n * 2)); [|lia]. eexists. reflexivity. Qed.
Lemma Dct6And7Naive_new_some n : 1 <= n -> exists d, Dct6And7Naive_new (T:=T) n = Ok d.
Proof.
  intros H. unfold Dct6And7Naive_new, rsub. destruct (Nat.leb_spec 1 (n * 2)); [|lia].
  destruct (Nat.leb_spec 2 (n * 4)); [|lia]. eexists. reflexivity.
Qed.
Lemma Dst8Naive_new_some n : 1 <= n -> exists d, Dst8Naive_new (T:=T) n = Ok d.
Proof.
  intros H. unfold Dst8Naive_new, rsub. destruct (Nat.leb_spec 1 (n * 2)); [|lia].
  destruct (Nat.leb_spec 2 (n * 4)); [|lia]. eexists. reflexivity.
Qed.

(** *** Any numeric type *)
Section Works.
Hypothesis Hcl : fft_all_clean pf.

Lemma canon23_works n : exists o, canon23 pf n = Ok o /\ works_t23 o n.
Proof.
  destruct (canon23_ind works_t23) with (n := n) as (o & A & B & _).
  - intros o k H. apply H.
  - apply Butterfly2_works. - apply Butterfly3_works. - apply Butterfly4_works. - apply Butterfly8_works. - apply Butterfly16_works.
  - intros k d E. pose proof (Type2And3ConvertToFft_works (pf k) d E (Hcl k)) as K. rewrite pf_len in K. exact K.
  - intros h q d k. apply Type2And3SplitRadix_works.
  - exists o. split; assumption.
Qed.
Lemma canon4_works n : exists o, canon4 pf n = Ok o /\ works_t4 o n.
Proof.
  apply canon4_ind with (Q := works_t23).
  - apply canon23_works. - apply Type4Naive_works. - apply Type4ConvertToType3Even_works.
  - intros k d E. pose proof (Type4ConvertToFftOdd_works (pf k) d E (Hcl k)) as K. rewrite pf_len in K. exact K.
Qed.
Lemma canon_dct1_works n : 2 <= n -> exists o, canon_dct1 pf n = Ok o /\ works_x o n.
Proof.
  intros Hn. unfold canon_dct1. destruct (Nat.ltb_spec n 10).
  - destruct (Dct1Naive_new_some n Hn) as [d Ed]. rewrite Ed. eexists. split; [reflexivity|]. apply Dct1Naive_works, Ed.
  - destruct (dct1_fft_new_ok ((n - 1) * 2)) as [d Ed]; [lia|]. rewrite Ed. eexists. split; [reflexivity|].
    pose proof (Dct1ConvertToFft_works _ d Ed (Hcl _)) as K. rewrite pf_len in K.
    replace ((n - 1) * 2 / 2 + 1) with n in K by lia. apply K. lia.
Qed.
Lemma canon_dst1_works n : exists o, canon_dst1 pf n = Ok o /\ works2_x o n.
Proof.
  unfold canon_dst1. destruct (Nat.ltb_spec n 25).
  - eexists. split; [reflexivity|]. apply works_works2_x, Dst1Naive_works.
  - destruct (dst1_fft_new_ok ((n + 1) * 2)) as [d Ed]; [lia|lia|]. rewrite Ed. eexists. split; [reflexivity|].
    pose proof (Dst1ConvertToFft_works _ d Ed (Hcl _)) as K. rewrite pf_len in K.
    replace ((n + 1) * 2 / 2 - 1) with n in K by lia. exact K.
Qed.
Lemma canon_s67_works n : exists o, canon_s67 pf n = Ok o /\ works2_s67 o n.
Proof.
  unfold canon_s67. destruct (Nat.ltb_spec n 45).
  - eexists. split; [reflexivity|]. apply works_works2_s67, Dst6And7Naive_works.
  - destruct (s67_fft_new_ok (n * 2 + 1)) as [d Ed]; [lia|]. rewrite Ed. eexists. split; [reflexivity|].
    pose proof (Dst6And7ConvertToFft_works _ d Ed (Hcl _)) as K. rewrite pf_len in K.
    replace ((n * 2 + 1 - 1) / 2) with n in K by lia. exact K.
Qed.
Lemma canon_dct5_works n : 1 <= n -> exists o, canon_dct5 (T:=T) n = Ok o /\ works_x o n.
Proof.
  intros Hn. unfold canon_dct5. destruct (Dct5Naive_new_some n Hn) as [d Ed]. rewrite Ed. eexists. split; [reflexivity|].
  apply Dct5Naive_works, Ed.
Qed.
Lemma canon_dst8_works n : 1 <= n -> exists o, canon_dst8 (T:=T) n = Ok o /\ works_x o n.
Proof.
  intros Hn. unfold canon_dst8. destruct (Dst8Naive_new_some n Hn) as [d Ed]. rewrite Ed. eexists. split; [reflexivity|].
  apply Dst8Naive_works, Ed.
Qed.
Lemma canon_c67_works n : 1 <= n -> exists o, canon_c67 (T:=T) n = Ok o /\ works_c67 o n.
Proof.
  intros Hn. unfold canon_c67. destruct (Dct6And7Naive_new_some n Hn) as [d Ed]. rewrite Ed. eexists. split; [reflexivity|].
  apply Dct6And7Naive_works, Ed.
Qed.
Lemma canon_dct8_works n : exists o, canon_dct8 (T:=T) n = Ok o /\ works_x o n.
Proof. eexists. split; [reflexivity|]. apply Dct8Naive_works. Qed.
Lemma canon_dst5_works n : exists o, canon_dst5 (T:=T) n = Ok o /\ works_x o n.
Proof. eexists. split; [reflexivity|]. apply Dst5Naive_works. Qed.
End Works.
End Canon.

(** *** The reals *)
Section Exact.
Variable pf : nat -> fft R.
Hypothesis Hpf : fft_fits pf.
Hypothesis Hex : fft_all_exact pf.

Lemma exact_all_clean : fft_all_clean pf.
Proof. intros n. apply fft_exact_clean, Hex. Qed.

Lemma canon23_exact n : exists o, canon23 pf n = Ok o /\ exact_t23 o n.
Proof.
  destruct (canon23_ind pf Hpf exact_t23) with (n := n) as (o & A & B & _).
  - intros o k H. apply H.
  - apply Butterfly2_exact. - apply Butterfly3_exact. - apply Butterfly4_exact. - apply Butterfly8_exact. - apply Butterfly16_exact.
  - intros k d E. pose proof (Type2And3ConvertToFft_exact (pf k) d E (Hex k)) as K. rewrite (pf_len pf Hpf) in K. exact K.
  - intros h q d k. apply Type2And3SplitRadix_exact.
  - exists o. split; assumption.
Qed.
Lemma canon4_exact n : exists o, canon4 pf n = Ok o /\ exact_t4 o n.
Proof.
  apply (canon4_ind pf Hpf exact_t23).
  - apply canon23_exact. - apply Type4Naive_exact. - apply Type4ConvertToType3Even_exact.
  - intros k d E. pose proof (Type4ConvertToFftOdd_exact (pf k) d E (Hex k)) as K. rewrite (pf_len pf Hpf) in K. exact K.
Qed.
Lemma canon_dct1_exact n : 2 <= n -> exists o, canon_dct1 pf n = Ok o /\ exact_x o n dct1_at.
Proof.
  intros Hn. unfold canon_dct1. destruct (Nat.ltb_spec n 10).
  - destruct (Dct1Naive_new_some (T:=R) n Hn) as [d Ed]. rewrite Ed. eexists. split; [reflexivity|]. apply Dct1Naive_exact, Ed.
  - destruct (dct1_fft_new_ok pf Hpf ((n - 1) * 2)) as [d Ed]; [lia|]. rewrite Ed. eexists. split; [reflexivity|].
    pose proof (Dct1ConvertToFft_exact _ d Ed (Hex _)) as K. rewrite (pf_len pf Hpf) in K.
    replace ((n - 1) * 2 / 2 + 1) with n in K by lia. apply K. lia.
Qed.
Lemma canon_dst1_exact n : exists o, canon_dst1 pf n = Ok o /\ exact2_x o n dst1_at.
Proof.
  unfold canon_dst1. destruct (Nat.ltb_spec n 25).
  - eexists. split; [reflexivity|]. apply Dst1Naive_exact.
  - destruct (dst1_fft_new_ok pf Hpf ((n + 1) * 2)) as [d Ed]; [lia|lia|]. rewrite Ed. eexists. split; [reflexivity|].
    pose proof (Dst1ConvertToFft_exact _ d Ed (Hex _)) as K. rewrite (pf_len pf Hpf) in K.
    replace ((n + 1) * 2 / 2 - 1) with n in K by lia. exact K.
Qed.
Lemma canon_s67_exact n : exists o, canon_s67 pf n = Ok o /\ exact2_s67 o n.
Proof.
  unfold canon_s67. destruct (Nat.ltb_spec n 45).
  - eexists. split; [reflexivity|]. apply Dst6And7Naive_exact.
  - destruct (s67_fft_new_ok pf Hpf (n * 2 + 1)) as [d Ed]; [lia|]. rewrite Ed. eexists. split; [reflexivity|].
    pose proof (Dst6And7ConvertToFft_exact _ d Ed (Hex _)) as K. rewrite (pf_len pf Hpf) in K.
    replace ((n * 2 + 1 - 1) / 2) with n in K by lia. exact K.
Qed.
Lemma canon_dct5_exact n : 1 <= n -> exists o, canon_dct5 n = Ok o /\ exact_x o n dct5_at.
Proof.
  intros Hn. unfold canon_dct5. destruct (Dct5Naive_new_some (T:=R) n Hn) as [d Ed]. rewrite Ed. eexists. split; [reflexivity|].
  apply Dct5Naive_exact, Ed.
Qed.
Lemma canon_dst8_exact n : 1 <= n -> exists o, canon_dst8 n = Ok o /\ exact_x o n dst8_at.
Proof.
  intros Hn. unfold canon_dst8. destruct (Dst8Naive_new_some (T:=R) n Hn) as [d Ed]. rewrite Ed. eexists. split; [reflexivity|].
  apply Dst8Naive_exact, Ed.
Qed.
Lemma canon_c67_exact n : 1 <= n -> exists o, canon_c67 n = Ok o /\ exact_c67 o n.
Proof.
  intros Hn. unfold canon_c67. destruct (Dct6And7Naive_new_some (T:=R) n Hn) as [d Ed]. rewrite Ed. eexists. split; [reflexivity|].
  apply Dct6And7Naive_exact, Ed.
Qed.
Lemma canon_dct8_exact n : exists o, canon_dct8 n = Ok o /\ exact_x o n dct8_at.
Proof. eexists. split; [reflexivity|]. apply Dct8Naive_exact. Qed.
Lemma canon_dst5_exact n : exists o, canon_dst5 n = Ok o /\ exact_x o n dst5_at.
Proof. eexists. split; [reflexivity|]. apply Dst5Naive_exact. Qed.
End Exact.
