(** What the public constructors accept, and the length they report. *)
From Coq Require Import List Arith Lia Bool ZArith ZifyNat.
From Verif Require Import Prog Num Model_Common Model_Naive Model_Fft Model_SplitRadix Model_Mdct Spec_Build Wp Canon.
Import ListNotations.
Open Scope nat_scope.
Ltac Zify.zify_post_hook ::= Z.div_mod_to_equations.

Lemma even_mod n : (n mod 2 =? 0) = true <-> Nat.Even n.
Proof. rewrite Nat.eqb_eq. split; [intros H; exists (n / 2); lia|intros [k ->]; lia]. Qed.
Lemma odd_mod n : (n mod 2 =? 1) = true <-> Nat.Odd n.
Proof. rewrite Nat.eqb_eq. split; [intros H; exists (n / 2); lia|intros [k ->]; lia]. Qed.
Lemma dir_forward d : dir_eqb d Forward = true <-> d = Forward.
Proof. destruct d; cbn; split; congruence. Qed.
(** A constructor that checks [b] and goes on. *)
Lemma builds_assert {A} (b : bool) (r : result A) (ok ok' : Prop) len n : (b = true <-> ok') -> (ok -> ok') ->
  (ok' -> builds_iff r ok len n) -> builds_iff (_ <-? rassert b ;; r) ok len n.
Proof.
  intros E I H. destruct b; cbn [rassert rbind]; [apply H, E; reflexivity|]. split.
  - intros K. apply I, E in K. discriminate.
  - intros _. eauto.
Qed.
Lemma builds_ok {A} (d : A) (ok : Prop) len n : ok -> len d = n -> builds_iff (Ok d) ok len n.
Proof. intros K E. split; [eauto|contradiction]. Qed.

Section Any.
Context {T F : Type} {N : Num T F}.
Implicit Types f : fft T.

Lemma Dct1ConvertToFft_builds f : builds_iff (Dct1ConvertToFft_new f) (fft_dir f = Forward /\ Nat.Even (fft_len f)) (@dct1f_len T) (fft_len f / 2 + 1).
Proof.
  eapply builds_assert; [apply even_mod|tauto|intros E]. eapply builds_assert; [apply dir_forward|tauto|intros D].
  apply builds_ok; auto.
Qed.
Lemma Dst1ConvertToFft_builds f : builds_iff (Dst1ConvertToFft_new f) (fft_dir f = Forward /\ Nat.Even (fft_len f) /\ fft_len f <> 0)
  (@dst1f_len T) (fft_len f / 2 - 1).
Proof.
  eapply builds_assert; [apply even_mod|tauto|intros E]. eapply builds_assert; [apply dir_forward|tauto|intros D].
  unfold rsub. destruct E as [k E]. destruct (Nat.leb_spec 1 (fft_len f / 2)) as [H|H]; cbn [rbind].
  - apply builds_ok; [|reflexivity]. split; [exact D|]. split; [exists k; exact E|]. lia.
  - split; [|eauto]. intros (_ & _ & Z). lia.
Qed.
Lemma Type2And3ConvertToFft_builds f : builds_iff (Type2And3ConvertToFft_new f) (fft_dir f = Forward) Type2And3ConvertToFft_len (fft_len f).
Proof.
  eapply builds_assert; [apply dir_forward|tauto|intros D]. apply builds_ok; [exact D|].
  unfold Type2And3ConvertToFft_len. cbn [t23f_tw]. rewrite map_length, seq_length. reflexivity.
Qed.
Lemma Type4ConvertToFftOdd_builds f : builds_iff (Type4ConvertToFftOdd_new f) (fft_dir f = Forward /\ Nat.Odd (fft_len f)) (@t4f_len T) (fft_len f).
Proof.
  eapply builds_assert; [apply dir_forward|tauto|intros D]. eapply builds_assert; [apply odd_mod|tauto|intros O]. apply builds_ok; auto.
Qed.
Lemma Dst6And7ConvertToFft_builds f : builds_iff (Dst6And7ConvertToFft_new f) (fft_dir f = Forward /\ Nat.Odd (fft_len f)) (@s67f_len T) ((fft_len f - 1) / 2).
Proof.
  eapply builds_assert; [apply odd_mod|tauto|intros O]. eapply builds_assert; [apply dir_forward|tauto|intros D].
  unfold rsub. destruct O as [k E]. destruct (Nat.leb_spec 1 (fft_len f)) as [H|H]; [|lia]. cbn [rbind].
  apply builds_ok; [|reflexivity]. split; [exact D|]. exists k. exact E.
Qed.
Lemma Type2And3SplitRadix_builds (h q : t23 T) : builds_iff (Type2And3SplitRadix_new h q)
  ((exists k, 2 <= k /\ 2 * t23_len h = 2 ^ k) /\ t23_len h = 2 * t23_len q) Type2And3SplitRadix_len (4 * t23_len q).
Proof.
  unfold Type2And3SplitRadix_new. cbv zeta. eapply builds_assert; [|intros [H _]; exact H|].
  { rewrite andb_true_iff, is_pow2_iff, Nat.ltb_lt. split.
    - intros [[k E] L]. exists k. split; [|lia]. destruct k as [|[|k]]; cbn in E; lia.
    - intros (k & K & E). split; [exists k; lia|]. replace k with (2 + (k - 2)) in E by lia. rewrite Nat.pow_add_r in E.
      pose proof (Nat.pow_nonzero 2 (k - 2)). cbn [Nat.pow] in E. lia. }
  intros P. eapply builds_assert; [apply Nat.eqb_eq|lia|intros E]. apply builds_ok; [split; [exact P|lia]|].
  unfold Type2And3SplitRadix_len. cbn [sr_tw]. rewrite map_length, seq_length. lia.
Qed.
Lemma MdctNaive_builds n (w : nat -> list T) : builds_iff (MdctNaive_new n w) (Nat.Even n /\ length (w (2 * n)) = 2 * n) MdctNaive_len n.
Proof.
  unfold MdctNaive_new. rewrite (Nat.mul_comm 2 n).
  eapply builds_assert; [apply even_mod|tauto|intros E]. cbv zeta. eapply builds_assert; [apply Nat.eqb_eq|tauto|intros L].
  apply builds_ok; [auto|]. unfold MdctNaive_len. cbn [mn_tw]. rewrite map_length, seq_length. apply Nat.div_mul. lia.
Qed.
Lemma MdctViaDct4_builds (i : t4 T) (w : nat -> list T) :
  builds_iff (MdctViaDct4_new i w) (Nat.Even (t4_len i) /\ length (w (2 * t4_len i)) = 2 * t4_len i) MdctViaDct4_len (t4_len i).
Proof.
  unfold MdctViaDct4_new. rewrite (Nat.mul_comm 2).
  eapply builds_assert; [apply even_mod|tauto|intros E]. cbv zeta. eapply builds_assert; [apply Nat.eqb_eq|tauto|intros L].
  apply builds_ok; auto.
Qed.

Lemma Dct1Naive_builds n : builds_iff (Dct1Naive_new (T:=T) n) (2 <= n) Dct1Naive_len n.
Proof.
  unfold Dct1Naive_new. eapply builds_assert; [rewrite negb_true_iff; apply Nat.eqb_neq|lia|intros E]. unfold rsub.
  destruct (Nat.leb_spec 1 n); cbn [rbind]; [|split; [lia|eauto]]. apply builds_ok; [lia|]. unfold Dct1Naive_len. cbn [dct1n_tw].
  rewrite map_length, seq_length. lia.
Qed.
Lemma Dct5Naive_builds n : builds_iff (Dct5Naive_new (T:=T) n) (1 <= n) Dct5Naive_len n.
Proof.
  unfold Dct5Naive_new, rsub. destruct (Nat.leb_spec 1 (n * 2)); cbn [rbind]; [|split; [lia|eauto]]. apply builds_ok; [lia|].
  unfold Dct5Naive_len. cbn [dct5n_tw]. rewrite map_length, seq_length. lia.
Qed.
Lemma Dct6And7Naive_builds n : builds_iff (Dct6And7Naive_new (T:=T) n) (1 <= n) Dct6And7Naive_len n.
Proof.
  unfold Dct6And7Naive_new, rsub. destruct (Nat.leb_spec 1 (n * 2)); cbn [rbind]; [|split; [lia|eauto]].
  destruct (Nat.leb_spec 2 (n * 4)); cbn [rbind]; [|split; [lia|eauto]]. apply builds_ok; [lia|].
  unfold Dct6And7Naive_len. cbn [c67n_tw]. rewrite map_length, seq_length. lia.
Qed.
Lemma Dst8Naive_builds n : builds_iff (Dst8Naive_new (T:=T) n) (1 <= n) Dst8Naive_len n.
Proof.
  unfold Dst8Naive_new, rsub. destruct (Nat.leb_spec 1 (n * 2)); cbn [rbind]; [|split; [lia|eauto]].
  destruct (Nat.leb_spec 2 (n * 4)); cbn [rbind]; [|split; [lia|eauto]]. apply builds_ok; [lia|].
  unfold Dst8Naive_len. cbn [dst8n_tw]. rewrite map_length, seq_length. lia.
Qed.
Lemma other_lengths n :
  Dst1Naive_len (Dst1Naive_new (T:=T) n) = n /\ Type2And3Naive_len (Type2And3Naive_new (T:=T) n) = n /\
  Type4Naive_len (Type4Naive_new (T:=T) n) = n /\ Dst5Naive_len (Dst5Naive_new (T:=T) n) = n /\
  Dst6And7Naive_len (Dst6And7Naive_new (T:=T) n) = n /\ Dct8Naive_len (Dct8Naive_new (T:=T) n) = n.
Proof.
  unfold Dst1Naive_len, Type2And3Naive_len, Type4Naive_len, Dst5Naive_len, Dst6And7Naive_len, Dct8Naive_len,
    Dst1Naive_new, Type2And3Naive_new, Type4Naive_new, Dst5Naive_new, Dst6And7Naive_new, Dct8Naive_new;
    cbn [dst1n_tw t23n_tw t4n_tw dst5n_tw s67n_tw dct8n_tw]; rewrite ?map_length, ?seq_length. repeat split; lia.
Qed.
End Any.
