(** From runs on memory to what a caller observes. *)
From Coq Require Import List Arith Lia Bool.
From Verif Require Import Prog Num Model_Common Model_Api Spec_Api Wp.
Import ListNotations.
Open Scope nat_scope.

Section Api.
Context {T F : Type} {N : Num T F}.

Lemma nth_ext_map (l : list T) d : l = map (fun i => nth i l d) (seq 0 (length l)).
Proof.
  apply nth_ext with (d := d) (d' := d).
  - rewrite map_length, seq_length. reflexivity.
  - intros i Hi. rewrite nth_map_seq by exact Hi. reflexivity.
Qed.

Lemma vals_mem_of d (a b c : list T) :
  vals (mem_of d (a ++ b ++ c)) (mkS (length a) (length b)) = b.
Proof.
  etransitivity; [|symmetry; apply (nth_ext_map b d)]. unfold vals, mem_of. cbn [base slen]. apply map_seq_ext. intros i Hi.
  rewrite app_nth2 by lia. replace (length a + i - length a) with i by lia. rewrite app_nth1 by lia. reflexivity.
Qed.

Lemma vals_mem_of_1 d (a b : list T) : vals (mem_of d (a ++ b)) (mkS 0 (length a)) = a.
Proof. exact (vals_mem_of d [] a b). Qed.
Lemma vals_mem_of_2 d (a b : list T) : vals (mem_of d (a ++ b)) (mkS (length a) (length b)) = b.
Proof. rewrite <- (app_nil_r b) at 1. apply vals_mem_of. Qed.
Lemma vals_prefix m b0 k l : k <= l -> vals m (mkS b0 k) = firstn k (vals (T:=T) m (mkS b0 l)).
Proof.
  intros H. unfold vals. cbn [base slen]. replace l with (k + (l - k)) by lia.
  rewrite seq_app, map_app, firstn_app, map_length, seq_length, Nat.sub_diag, firstn_O, app_nil_r.
  rewrite firstn_all2; [reflexivity|]. rewrite map_length, seq_length. lia.
Qed.

Lemma skipn_vals m b0 k l : k <= l ->
  skipn k (vals (T:=T) m (mkS b0 l)) = vals m (mkS (b0 + k) (l - k)).
Proof.
  intros H. unfold vals. cbn [base slen]. replace l with (k + (l - k)) at 1 by lia.
  rewrite seq_app, map_app, skipn_app, map_length, seq_length, Nat.sub_diag.
  rewrite skipn_all2 by (rewrite map_length, seq_length; lia). cbn [app skipn].
  apply nth_ext with (d := m b0) (d' := m b0).
  - rewrite !map_length, !seq_length. reflexivity.
  - intros i Hi. rewrite map_length, seq_length in Hi.
    rewrite (nth_indep _ _ (m (b0 + 0))) by (rewrite map_length, seq_length; lia).
    rewrite (map_nth (fun j => m (b0 + j))). rewrite seq_nth by lia.
    rewrite nth_map_seq by lia. f_equal. lia.
Qed.

Lemma computes2_call p n sl G x scratch :
  computes2 p n sl G -> length x = n -> sl <= length scratch ->
  exists scratch',
    call p x scratch = Returned (map (G x (firstn sl scratch)) (seq 0 (length x)), scratch') /\
    length scratch' = length scratch /\ skipn sl scratch' = skipn sl scratch.
Proof.
  intros Hc Hx Hs. specialize (Hc (mem_of zero (x ++ scratch)) (mkS 0 (length x)) (mkS (length x) (length scratch))).
  specialize (Hc Hx Hs ltac:(unfold disj; cbn; lia)). unfold wp in Hc. unfold call.
  destruct (run _ _) as [[] m'| |]; [|contradiction|contradiction]. destruct Hc as [A B].
  cbn [base slen] in A, B. rewrite (vals_prefix _ _ sl (length scratch)) in A by exact Hs.
  rewrite vals_mem_of_1, vals_mem_of_2 in A.
  exists (vals m' (mkS (length x) (length scratch))). split; [|split].
  - do 2 f_equal. apply vals_map; [reflexivity|]. cbn [base]. intros i Hi. apply A. lia.
  - apply vals_length.
  - rewrite skipn_vals by exact Hs.
    transitivity (skipn sl (vals (mem_of zero (x ++ scratch)) (mkS (length x) (length scratch))));
      [|rewrite vals_mem_of_2; reflexivity].
    rewrite skipn_vals by exact Hs. apply vals_ext. cbn [base slen]. intros i Hi. apply B; lia.
Qed.

Lemma computes2_zeroed p n sl G t :
  computes2 p n sl G ->
  (forall x, length x = n -> map (G x (repeat zero sl)) (seq 0 (length x)) = t x) ->
  implements_zeroed p n sl t.
Proof.
  intros Hc Ht x scratch Hx Hs Hz. destruct (computes2_call p n sl G x scratch Hc Hx Hs) as (s' & A & B).
  exists s'. rewrite A, Hz, Ht by exact Hx. auto.
Qed.

Lemma computes_implements p n sl G :
  computes p n sl G -> implements p n sl (fun x => map (G x) (seq 0 (length x))).
Proof.
  intros Hc x scratch Hx Hs.
  exact (computes2_call p n sl _ x scratch (computes_computes2 _ _ _ _ Hc) Hx Hs).
Qed.

Lemma implements_ext p n sl t t' : implements p n sl t ->
  (forall x, length x = n -> t x = t' x) -> implements p n sl t'.
Proof. intros H E x s Hx Hs. rewrite <- E by exact Hx. apply H; assumption. Qed.

Lemma implements_implements_zeroed p n sl t : implements p n sl t -> implements_zeroed p n sl t.
Proof. intros H x s Hx Hs _. apply H; assumption. Qed.

Lemma implements_zeroed_process p n sl t : implements_zeroed p n sl t ->
  forall x, length x = n -> process p sl x = Returned (t x).
Proof.
  intros H x Hx. unfold process.
  destruct (H x (repeat zero sl) Hx) as (s' & -> & _); [rewrite repeat_length; lia| |reflexivity].
  rewrite firstn_all2; [reflexivity|]. rewrite repeat_length; lia.
Qed.

Lemma implements_process p n sl t : implements p n sl t ->
  forall x, length x = n -> process p sl x = Returned (t x).
Proof. intros H. apply implements_zeroed_process, implements_implements_zeroed, H. Qed.

Lemma rejects_of p n sl :
  rejects_len p n -> rejects_scratch p n sl -> rejects p n sl.
Proof.
  intros Hl Hs x scratch H. unfold call.
  destruct (Nat.eq_dec (length x) n) as [E|E].
  - exists EScratchLen. rewrite Hs; [|exact E|cbn; lia]. rewrite vals_mem_of_1, vals_mem_of_2. reflexivity.
  - exists EBufLen. rewrite Hl by exact E. rewrite vals_mem_of_1, vals_mem_of_2. reflexivity.
Qed.

End Api.
