(** Split radix and type 4 via type 3 over the real numbers: they compute the
    reference transforms when their inner instances do. *)
From Coq Require Import Reals ZArith List Arith Lia Lra Bool ZifyNat.
From Verif Require Import Prog Num Model_Common Model_SplitRadix Spec Trig Ref Ref_Split Wp Sem_Naive
  Sem_Split Sem_Split2 Exact_Fft.
Import ListNotations.
Open Scope R_scope.
Ltac Zify.zify_post_hook ::= Z.div_mod_to_equations.

Ltac to_R :=
  change (add (T:=R)) with Rplus in * ; change (sub (T:=R)) with Rminus in * ;
  change (mul (T:=R)) with Rmult in * ; change (neg (T:=R)) with Ropp in * ;
  change (two (T:=R) (F:=R)) with 2 in * ; change (zero (T:=R)) with 0 in * ;
  change (half (T:=R) (F:=R)) with (/ 2) in * .

Ltac nth_ms := match goal with |- context [nth ?i (map ?f (seq 0 ?n)) ?d] => rewrite (nth_map_seq f n i d) by lia end.

(** The twiddle table [conj (single_twiddle (2i+1) (16q))]. *)
Definition q_tw (q : nat) : list (R * R) :=
  map (fun i => c_conj (single_twiddle (2 * i + 1) (16 * q))) (seq 0 q).

Lemma conj_twiddle q i : (0 < q)%nat ->
  c_conj (single_twiddle (T:=R) (F:=R) (2 * i + 1) (16 * q)) =
  (cz (8 * zn q) (2 * zn i + 1), sz (8 * zn q) (2 * zn i + 1)).
Proof.
  intros Hq. replace (16 * q)%nat with ((4 * q) * 4)%nat by lia. rewrite single_twiddle_cz by lia.
  unfold c_conj. cbn [fst snd]. to_R. rewrite Ropp_involutive.
  replace (2 * zn (4 * q))%Z with (8 * zn q)%Z by lia. replace (zn (2 * i + 1)) with (2 * zn i + 1)%Z by lia.
  reflexivity.
Qed.
Lemma q_tw_length q : length (q_tw q) = q.
Proof. unfold q_tw. rewrite map_length, seq_length. reflexivity. Qed.
Lemma nth_q_tw q i : (i < q)%nat ->
  nth i (q_tw q) (cc0 (T:=R)) = (cz (8 * zn q) (2 * zn i + 1), sz (8 * zn q) (2 * zn i + 1)).
Proof.
  intros Hi. unfold q_tw. etransitivity; [apply nth_map_seq; exact Hi|].
  apply conj_twiddle. lia.
Qed.

(** [G] agrees with the reference [t] on lists of length [n]. *)
Definition agrees (n : nat) (G t : list R -> nat -> R) : Prop :=
  forall x k, length x = n -> (k < n)%nat -> G x k = t x k.


Lemma map_seq_len {A} (f : nat -> A) n : length (map f (seq 0 n)) = n.
Proof. rewrite map_length, seq_length. reflexivity. Qed.

Section SR.
Variable q : nat.
Hypothesis Hq : (0 < q)%nat.

Lemma sr_dct2_exact (H2 Q2 : list R -> nat -> R) : agrees (2 * q) H2 dct2_at -> agrees q Q2 dct2_at ->
  agrees (4 * q) (sem_sr_dct2 H2 Q2 (q_tw q)) dct2_at.
Proof.
  intros Ah Aq x k Hx Hk. unfold sem_sr_dct2. cbv zeta. rewrite q_tw_length.
  set (y := map (sr_in2 (q_tw q) x) (seq 0 (2 * q))).
  set (c := map (sr_cos (q_tw q) x) (seq 0 q)).
  set (z := map (sr_odd (q_tw q) x) (seq 0 q)).
  set (s := map (sr_sin (q_tw q) x) (seq 0 q)).
  assert (Ly : length y = (2 * q)%nat) by apply map_seq_len.
  assert (Lc : length c = q) by apply map_seq_len.
  assert (Lz : length z = q) by apply map_seq_len.
  assert (Ls : length s = q) by apply map_seq_len.
  destruct (dct2_quarters q x Hq Hx y c s Ly Lc Ls) as (D0 & D1 & D2 & D3 & D4).
  { intros i Hi. unfold y. nth_ms. unfold sr_in2. rewrite q_tw_length. unfold at_. to_R.
    replace (4 * q - i - 1)%nat with (4 * q - 1 - i)%nat by lia. destruct (i <? q)%nat; ring. }
  { intros i Hi. unfold c. nth_ms. unfold sr_cos, sr_lower, sr_upper. rewrite q_tw_length, nth_q_tw by lia.
    unfold at_. cbn [fst snd]. to_R.
    replace (4 * q - i - 1)%nat with (4 * q - 1 - i)%nat by lia.
    replace (2 * q - i - 1)%nat with (2 * q - 1 - i)%nat by lia. ring. }
  { intros i Hi. unfold s. nth_ms. unfold sr_sin, sr_lower, sr_upper. rewrite q_tw_length, nth_q_tw by lia.
    unfold at_. cbn [fst snd]. to_R.
    replace (4 * q - i - 1)%nat with (4 * q - 1 - i)%nat by lia.
    replace (2 * q - i - 1)%nat with (2 * q - 1 - i)%nat by lia. ring. }
  assert (Z : forall m, (m < q)%nat -> dct2_at z (q - 1 - m) = alt (q - 1) * alt m * dst2_at s m).
  { intros m Hm. rewrite <- Ls at 1 2. apply dct2_of_signed; [lia|lia|].
    rewrite Ls. intros j Hj. unfold z, s. nth_ms. nth_ms. unfold sr_odd. cbv zeta. rewrite q_tw_length.
    replace (q - j - 1)%nat with (q - 1 - j)%nat by lia.
    unfold alt. destruct ((q - 1 - j) mod 2 =? 0)%nat; to_R; ring. }
  assert (SO : forall i, (0 < i < q)%nat -> sr_sinout (q_tw q) (Q2 z) i = - dst2_at s (i - 1)).
  { intros i Hi. unfold sr_sinout. rewrite q_tw_length, !Aq by lia.
    replace (q - i)%nat with (q - 1 - (i - 1))%nat by lia. rewrite Z by lia.
    assert (E : alt (q - 1) * alt (i - 1) = if ((i + q) mod 2 =? 0)%nat then 1 else -1).
    { rewrite <- alt_add. unfold alt.
      replace ((q - 1 + (i - 1)) mod 2)%nat with ((i + q) mod 2)%nat by lia. reflexivity. }
    rewrite E. destruct ((i + q) mod 2 =? 0)%nat; to_R; ring. }
  destruct (Nat.eqb_spec (k mod 2) 0) as [e|e].
  { rewrite Ah by lia. rewrite <- D0. f_equal. lia. }
  destruct (Nat.eqb_spec (k mod 4) 1) as [e1|e1].
  - destruct (Nat.eqb_spec k 1) as [->|].
    + rewrite Aq by lia. symmetry. exact D1.
    + rewrite SO, Aq by lia. to_R.
      replace (dct2_at x k) with (dct2_at x (4 * (k / 4 - 1 + 1) + 1)) by (f_equal; lia).
      rewrite D2. replace (k / 4 - 1 + 1)%nat with (k / 4)%nat by lia. ring.
  - destruct (Nat.eqb_spec k (4 * q - 1)) as [->|].
    + rewrite D4, Aq by lia. specialize (Z (q - 1)%nat ltac:(lia)). rewrite Nat.sub_diag, alt_sq in Z.
      rewrite Z. to_R. ring.
    + rewrite SO, Aq by lia. to_R.
      replace (dct2_at x k) with (dct2_at x (4 * (k / 4) + 3)) by (f_equal; lia).
      rewrite D3. replace (k / 4 + 1 - 1)%nat with (k / 4)%nat by lia. ring.
Qed.

Lemma sr_dct3_exact (H3 Q3 : list R -> nat -> R) : agrees (2 * q) H3 dct3_at -> agrees q Q3 dct3_at ->
  agrees (4 * q) (sem_sr_dct3 H3 Q3 (q_tw q)) dct3_at.
Proof.
  intros Ah Aq x k Hx Hk. unfold sem_sr_dct3. cbv zeta. rewrite q_tw_length.
  set (e := map (fun i => at_ x (2 * i)) (seq 0 (2 * q))).
  set (u := map (sr_n1 x) (seq 0 q)).
  set (z := map (sr_n3 (q_tw q) x) (seq 0 q)).
  assert (Le : length e = (2 * q)%nat) by apply map_seq_len.
  assert (Lu : length u = q) by apply map_seq_len.
  assert (Lz : length z = q) by apply map_seq_len.
  assert (Lv : length (rev z) = q) by (rewrite rev_length; exact Lz).
  assert (Dq : forall i, (i < q)%nat ->
    let low := dct3_at u i * cz (8 * zn q) (2 * zn i + 1) + dst3_at (rev z) i * sz (8 * zn q) (2 * zn i + 1) in
    let upp := dct3_at u i * sz (8 * zn q) (2 * zn i + 1) - dst3_at (rev z) i * cz (8 * zn q) (2 * zn i + 1) in
    dct3_at x i = dct3_at e i + low /\
    dct3_at x (4 * q - 1 - i) = dct3_at e i - low /\
    dct3_at x (2 * q - 1 - i) = dct3_at e (2 * q - 1 - i) + upp /\
    dct3_at x (2 * q + i) = dct3_at e (2 * q - 1 - i) - upp).
  { intros i Hi. apply dct3_quarters; try assumption.
    - intros j Hj. unfold e. nth_ms. reflexivity.
    - intros j Hj. unfold u. nth_ms. unfold sr_n1, at_. to_R.
      destruct (Nat.eqb_spec j 0); ring.
    - intros j Hj. rewrite rev_nth by lia. rewrite Lz. unfold z. nth_ms. unfold sr_n3, at_.
      rewrite q_tw_length. to_R.
      destruct (Nat.eqb_spec (q - S j) 0), (Nat.eqb_spec j (q - 1)); try lia.
      + replace (4 * q - 1)%nat with (4 * j + 3)%nat by lia. ring.
      + f_equal; f_equal; lia. }
  assert (SS : forall i, (i < q)%nat -> sr_sine (Q3 z) i = dst3_at (rev z) i).
  { intros i Hi. unfold sr_sine. rewrite Aq by lia. rewrite dst3_dct3_at by lia. rewrite rev_involutive.
    unfold alt. destruct (i mod 2 =? 0)%nat; to_R; ring. }
  assert (LL : forall i, (i < q)%nat -> sr_low (q_tw q) (Q3 u) (Q3 z) i =
    dct3_at u i * cz (8 * zn q) (2 * zn i + 1) + dst3_at (rev z) i * sz (8 * zn q) (2 * zn i + 1)).
  { intros i Hi. unfold sr_low. rewrite SS, nth_q_tw, Aq by lia. reflexivity. }
  assert (UU : forall i, (i < q)%nat -> sr_upp (q_tw q) (Q3 u) (Q3 z) i =
    dct3_at u i * sz (8 * zn q) (2 * zn i + 1) - dst3_at (rev z) i * cz (8 * zn q) (2 * zn i + 1)).
  { intros i Hi. unfold sr_upp. rewrite SS, nth_q_tw, Aq by lia. reflexivity. }
  destruct (Nat.ltb_spec k q); [|destruct (Nat.ltb_spec k (2 * q)); [|destruct (Nat.ltb_spec k (3 * q))]].
  - rewrite LL, Ah by lia. destruct (Dq k) as (-> & _); [lia|]. reflexivity.
  - rewrite UU, Ah by lia. destruct (Dq (2 * q - k - 1)%nat) as (_ & _ & E & _); [lia|].
    replace (2 * q - 1 - (2 * q - k - 1))%nat with k in E by lia. rewrite E. reflexivity.
  - rewrite UU, Ah by lia. destruct (Dq (k - 2 * q)%nat) as (_ & _ & _ & E); [lia|].
    replace (2 * q + (k - 2 * q))%nat with k in E by lia. rewrite E.
    replace (2 * q - 1 - (k - 2 * q))%nat with (4 * q - k - 1)%nat by lia. reflexivity.
  - rewrite LL, Ah by lia. destruct (Dq (4 * q - k - 1)%nat) as (_ & E & _ & _); [lia|].
    replace (4 * q - 1 - (4 * q - k - 1))%nat with k in E by lia. rewrite E. reflexivity.
Qed.
End SR.

Lemma neg_odd_alt x : map (neg_odd (T:=R) x) (seq 0 (length x)) = alt_list x.
Proof.
  unfold alt_list. apply Wp.map_seq_ext. intros i _. unfold neg_odd, alt, at_. to_R.
  destruct (i mod 2 =? 0)%nat; ring.
Qed.
Lemma map_rev_list (x : list R) : map (fun i => at_ x (length x - 1 - i)) (seq 0 (length x)) = rev x.
Proof.
  apply nth_ext with (d := 0) (d' := 0).
  - rewrite map_seq_len, rev_length. reflexivity.
  - intros i Hi. rewrite map_seq_len in Hi. nth_ms. rewrite rev_nth by exact Hi.
    unfold at_. to_R. f_equal. lia.
Qed.

Lemma sr_dst2_exact n G : agrees n G dct2_at -> agrees n (sem_sr_dst2 n G) dst2_at.
Proof.
  intros A x k Hx Hk. unfold sem_sr_dst2. subst n. rewrite neg_odd_alt, A by (rewrite ?alt_list_length; lia).
  symmetry. apply dst2_dct2_at. exact Hk.
Qed.
Lemma sr_dst3_exact n G : agrees n G dct3_at -> agrees n (sem_sr_dst3 n G) dst3_at.
Proof.
  intros A x k Hx Hk. unfold sem_sr_dst3. cbv zeta. subst n. rewrite map_rev_list, A by (rewrite ?rev_length; lia).
  rewrite dst3_dct3_at by exact Hk. unfold alt. destruct (k mod 2 =? 0)%nat; to_R; ring.
Qed.

Section T4.
Variable q : nat.
Hypothesis Hq : (0 < q)%nat.
Variables (C3 S3 : list R -> nat -> R).

Lemma t4e_dct4_exact : agrees q C3 dct3_at -> agrees q S3 dst3_at ->
  agrees (2 * q) (sem_t4e_dct4 C3 S3 (q_tw q)) dct4_at.
Proof.
  intros Ac As x k Hx Hk. unfold sem_t4e_dct4. cbv zeta. rewrite q_tw_length.
  set (u := map (t4e_l x) (seq 0 q)). set (v := map (t4e_r (q_tw q) x) (seq 0 q)).
  assert (Lu : length u = q) by apply map_seq_len.
  assert (Lv : length v = q) by apply map_seq_len.
  assert (Dq : forall i, (dct4_at x i = dct3_at u i * cz (8 * zn q) (2 * zn i + 1) + dst3_at v i * sz (8 * zn q) (2 * zn i + 1)) /\
    ((i < 2 * q)%nat -> dct4_at x (2 * q - 1 - i) =
     dct3_at u i * sz (8 * zn q) (2 * zn i + 1) - dst3_at v i * cz (8 * zn q) (2 * zn i + 1))).
  { intros i. apply dct4_even_dct3; try assumption.
    - intros j Hj. unfold u. nth_ms. unfold t4e_l, at_. to_R. destruct (j =? 0)%nat; ring.
    - intros j Hj. unfold v. nth_ms. unfold t4e_r, at_. rewrite q_tw_length. to_R.
      destruct (Nat.eqb_spec j (q - 1)); [|reflexivity].
      replace (2 * q - 1)%nat with (2 * j + 1)%nat by lia. ring. }
  destruct (Nat.ltb_spec k q).
  - rewrite nth_q_tw, Ac, As by lia. destruct (Dq k) as [-> _]. reflexivity.
  - rewrite nth_q_tw, Ac, As by lia. destruct (Dq (2 * q - 1 - k)%nat) as [_ E]. specialize (E ltac:(lia)).
    replace (2 * q - 1 - (2 * q - 1 - k))%nat with k in E by lia. rewrite E. reflexivity.
Qed.
Lemma t4e_dst4_exact : agrees q C3 dct3_at -> agrees q S3 dst3_at ->
  agrees (2 * q) (sem_t4e_dst4 C3 S3 (q_tw q)) dst4_at.
Proof.
  intros Ac As x k Hx Hk. unfold sem_t4e_dst4. cbv zeta. rewrite q_tw_length.
  set (l := map (t4e_l' (q_tw q) x) (seq 0 q)). set (r := map (t4e_r' x) (seq 0 q)).
  assert (Lu : length l = q) by apply map_seq_len.
  assert (Lv : length r = q) by apply map_seq_len.
  assert (Dq : forall i, (dst4_at x i = dst3_at l i * cz (8 * zn q) (2 * zn i + 1) + dct3_at r i * sz (8 * zn q) (2 * zn i + 1)) /\
    ((i < 2 * q)%nat -> dst4_at x (2 * q - 1 - i) =
     dct3_at r i * cz (8 * zn q) (2 * zn i + 1) - dst3_at l i * sz (8 * zn q) (2 * zn i + 1))).
  { intros i. apply dst4_even_dct3; try assumption.
    - intros j Hj. unfold r. nth_ms. unfold t4e_r', at_. to_R. destruct (j =? 0)%nat; ring.
    - intros j Hj. unfold l. nth_ms. unfold t4e_l', at_. rewrite q_tw_length. to_R.
      destruct (Nat.eqb_spec j (q - 1)); [|reflexivity].
      replace (2 * q - 1)%nat with (2 * j + 1)%nat by lia. ring. }
  destruct (Nat.ltb_spec k q).
  - rewrite nth_q_tw, Ac, As by lia. destruct (Dq k) as [-> _]. reflexivity.
  - rewrite nth_q_tw, Ac, As by lia. destruct (Dq (2 * q - 1 - k)%nat) as [_ E]. specialize (E ltac:(lia)).
    replace (2 * q - 1 - (2 * q - 1 - k))%nat with k in E by lia. rewrite E. reflexivity.
Qed.
End T4.
