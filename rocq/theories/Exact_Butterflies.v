(** The butterflies over the real numbers compute the reference transforms. *)
From Coq Require Import Reals ZArith List Arith Lia Lra Bool ZifyNat.
From Verif Require Import Prog Num Model_Common Model_Butterflies Spec Trig Ref Ref_Split Wp Sem_Naive
  Sem_Butterflies Exact_Fft Exact_Split.
Import ListNotations.
Open Scope R_scope.

(** [h] computes the reference [t] on lists of length [n]. *)
Definition is_list (n : nat) (h : list R -> list R) (t : list R -> nat -> R) : Prop :=
  forall x, length x = n -> h x = map (t x) (seq 0 n).

Lemma is_list_at n h t x k : is_list n h t -> length x = n -> (k < n)%nat -> nth k (h x) 0 = t x k.
Proof. intros H Hx Hk. rewrite H by exact Hx. nth_ms. reflexivity. Qed.
Lemma is_list_agrees n h t : is_list n h t -> agrees n (fun x i => at_ (h x) i) t.
Proof. intros H x k Hx Hk. apply is_list_at with (n := n); assumption. Qed.

Ltac split_list x Lx := repeat (destruct x as [|? x]; try discriminate Lx).

(** DST2 and DST3 from DCT2 and DCT3. *)
Lemma is_list_dst2 n h g : is_list n h dct2_at ->
  (forall x, length x = n -> g x = rev (h (alt_list x))) -> is_list n g dst2_at.
Proof.
  intros H Hg x Hx. rewrite Hg, H by (rewrite ?alt_list_length; exact Hx).
  apply nth_ext with (d := 0) (d' := 0).
  - rewrite rev_length, !map_seq_len. reflexivity.
  - intros k Hk. rewrite rev_length, map_seq_len in Hk.
    rewrite rev_nth by (rewrite map_seq_len; exact Hk). rewrite map_seq_len. nth_ms. nth_ms.
    rewrite dst2_dct2_at by lia. f_equal. lia.
Qed.
Lemma is_list_dst3 n h g : is_list n h dct3_at ->
  (forall x, length x = n -> g x = alt_list (h (rev x))) -> is_list n g dst3_at.
Proof.
  intros H Hg x Hx. rewrite Hg, H by (rewrite ?rev_length; exact Hx).
  unfold alt_list. rewrite map_seq_len. apply map_ext_in. intros k Hk. apply in_seq in Hk.
  nth_ms. rewrite dst3_dct3_at by lia. reflexivity.
Qed.

Tactic Notation "leq" tactic(t) := repeat match goal with |- _ :: _ = _ :: _ => apply f_equal2; [solve [t]|] end; reflexivity.
Ltac norm_angles :=
  repeat match goal with
  | |- context [cz ?d ?j] =>
      let d' := eval vm_compute in d in let j' := eval vm_compute in j in
      progress change (cz d j) with (cz d' j')
  | |- context [sz ?d ?j] =>
      let d' := eval vm_compute in d in let j' := eval vm_compute in j in
      progress change (sz d j) with (sz d' j')
  end.

Lemma cz_val d j (a : R) : PI * IZR j / IZR d = a -> cz d j = cos a.
Proof. unfold cz. intros ->. reflexivity. Qed.

(** Length 2. *)
Lemma cz_4_1 : cz 4 1 = / sqrt 2.
Proof. rewrite (cz_val 4 1 (PI / 4)) by lra. rewrite cos_PI4. lra. Qed.
Lemma cz_4_3 : cz 4 3 = - / sqrt 2.
Proof. rewrite <- cz_4_1. rewrite <- (cz_refl 4) by lia. reflexivity. Qed.
Ltac small_sums := cbn [length seq map sum nth half_when Nat.eqb orb Nat.sub].
Lemma b2_dct2_exact : is_list 2 b2_dct2 dct2_at.
Proof.
  intros x Lx. split_list x Lx. unfold b2_dct2. cbn [seq map nth].
  rewrite !dct2_cz by (cbn; lia). small_sums. norm_angles. rewrite !cz_4_1, cz_4_3, !cz_0 by lia.
  change (frac_1_sqrt_2 (T:=R)) with (/ sqrt 2). to_R. leq lra.
Qed.
Lemma b2_dct3_exact : is_list 2 b2_dct3 dct3_at.
Proof.
  intros x Lx. split_list x Lx. unfold b2_dct3. cbn [seq map nth].
  rewrite !dct3_cz by (cbn; lia). small_sums. norm_angles. rewrite !cz_4_1, cz_4_3, !cz_0 by lia.
  change (frac_1_sqrt_2 (T:=R)) with (/ sqrt 2). to_R. leq lra.
Qed.
Ltac alt_norm := unfold alt_list; cbn [length seq map nth rev app]; unfold alt;
  repeat match goal with |- context [(?a mod 2 =? 0)%nat] =>
    let v := eval vm_compute in (a mod 2 =? 0)%nat in change (a mod 2 =? 0)%nat with v end; cbv iota.
Lemma b2_dst2_exact : is_list 2 b2_dst2 dst2_at.
Proof.
  apply (is_list_dst2 _ _ _ b2_dct2_exact). intros x Lx. split_list x Lx.
  unfold b2_dct2, b2_dst2. alt_norm. to_R. leq ring.
Qed.
Lemma b2_dst3_exact : is_list 2 b2_dst3 dst3_at.
Proof.
  apply (is_list_dst3 _ _ _ b2_dct3_exact). intros x Lx. split_list x Lx.
  unfold b2_dct3, b2_dst3. alt_norm. to_R. leq ring.
Qed.

(** Length 3. *)
Lemma cz_6_2 : cz 6 2 = / 2.
Proof. rewrite (cz_val 6 2 (PI / 3)) by lra. rewrite cos_PI3. lra. Qed.
Lemma cz_6_3 : cz 6 3 = 0.
Proof. rewrite (cz_val 6 3 (PI / 2)) by lra. apply cos_PI2. Qed.
Lemma cz_6_5 : cz 6 5 = - cz 6 1.
Proof. rewrite <- (cz_refl 6) by lia. reflexivity. Qed.
Lemma cz_6_6 : cz 6 6 = -1.
Proof. rewrite (cz_val 6 6 PI) by lra. apply cos_PI. Qed.
Lemma cz_6_10 : cz 6 10 = / 2.
Proof. rewrite <- cz_6_2. transitivity (cz 6 (-2)); [apply cz_eq with (m := 1%Z); lia | apply (cz_opp 6 ltac:(lia) 2)]. Qed.
Lemma b3_tw : Butterfly3_new (T:=R) (F:=R) = cz 6 1.
Proof.
  unfold Butterfly3_new, single_twiddle_re. cbn.
  rewrite (cz_val 6 1 (PI / 6)) by lra. rewrite <- cos_neg. f_equal. lra.
Qed.
Lemma b3_dct2_exact : is_list 3 (b3_dct2 (Butterfly3_new (T:=R) (F:=R))) dct2_at.
Proof.
  intros x Lx. split_list x Lx. unfold b3_dct2. rewrite b3_tw. cbn [seq map nth].
  rewrite !dct2_cz by (cbn; lia). small_sums. norm_angles. rewrite !cz_6_3, cz_6_5, cz_6_2, cz_6_6, cz_6_10, !cz_0 by lia.
  to_R. leq lra.
Qed.
Lemma b3_dct3_exact : is_list 3 (b3_dct3 (Butterfly3_new (T:=R) (F:=R))) dct3_at.
Proof.
  intros x Lx. split_list x Lx. unfold b3_dct3. rewrite b3_tw. cbn [seq map nth].
  rewrite !dct3_cz by (cbn; lia). small_sums. norm_angles. rewrite !cz_6_3, cz_6_5, cz_6_2, cz_6_6, cz_6_10, !cz_0 by lia.
  to_R. leq lra.
Qed.
Lemma b3_dst2_exact : is_list 3 (b3_dst2 (Butterfly3_new (T:=R) (F:=R))) dst2_at.
Proof.
  apply (is_list_dst2 _ _ _ b3_dct2_exact). intros x Lx. split_list x Lx.
  unfold b3_dct2, b3_dst2. alt_norm. to_R. leq ring.
Qed.
Lemma b3_dst3_exact : is_list 3 (b3_dst3 (Butterfly3_new (T:=R) (F:=R))) dst3_at.
Proof.
  apply (is_list_dst3 _ _ _ b3_dct3_exact). intros x Lx. split_list x Lx.
  unfold b3_dct3, b3_dst3. alt_norm. to_R. leq field.
Qed.

(** Lengths 4, 8, 16: one split radix step. *)

Ltac lit_cases H :=
  match type of H with (?i < _)%nat =>
    repeat (destruct i as [|i]; [|try (exfalso; lia)]) end.
Ltac dct_prem := let i := fresh "i" in let H := fresh "H" in
  intros i H; lit_cases H; cbn [nth Nat.eqb Nat.sub Nat.mul Nat.add]; norm_angles; cbn [nth]; to_R; ring.

Ltac use_list y H := repeat (rewrite <- (is_list_at _ _ _ y _ H) by (cbn; lia)).

Lemma b4_tw : Butterfly4_new (T:=R) (F:=R) = (cz 8 1, sz 8 1).
Proof. exact (conj_twiddle 1 0 ltac:(lia)). Qed.
Lemma dct2_at_1 a : dct2_at [a] 0 = a.
Proof. rewrite dct2_cz by (cbn; lia). small_sums. norm_angles. rewrite cz_0 by lia. lra. Qed.
Lemma dst2_at_1 a : dst2_at [a] 0 = a.
Proof.
  rewrite dst2_cz by (cbn; lia). small_sums. norm_angles.
  replace (sz 2 1) with 1; [lra|]. unfold sz. replace (PI * 1 / 2) with (PI / 2) by lra. symmetry. apply sin_PI2.
Qed.
Lemma dct3_at_1 a : dct3_at [a] 0 = a / 2.
Proof. rewrite dct3_cz by (cbn; lia). small_sums. norm_angles. rewrite cz_0 by lia. lra. Qed.
Lemma dst3_at_1 a : dst3_at [a] 0 = a / 2.
Proof.
  rewrite dst3_cz by (cbn; lia). small_sums. norm_angles.
  replace (sz 2 1) with 1; [lra|]. unfold sz. replace (PI * 1 / 2) with (PI / 2) by lra. symmetry. apply sin_PI2.
Qed.

Lemma b4_dct2_exact : is_list 4 (b4_dct2 (Butterfly4_new (T:=R) (F:=R))) dct2_at.
Proof.
  intros x Lx. split_list x Lx. rewrite b4_tw.
  destruct (dct2_quarters 1 [r; r0; r1; r2] ltac:(lia) eq_refl [r + r2; r0 + r1]
    [(r - r2) * cz 8 1 + (r0 - r1) * sz 8 1] [(r0 - r1) * cz 8 1 - (r - r2) * sz 8 1]
    eq_refl eq_refl eq_refl) as (D0 & D1 & _ & _ & D4); [dct_prem|dct_prem|dct_prem|].
  cbn [seq map]. rewrite (D0 0%nat : dct2_at _ 0 = _), (D0 1%nat : dct2_at _ 2 = _), D1.
  rewrite (D4 : dct2_at _ 3 = - dst2_at _ 0).
  use_list [r + r2; r0 + r1] b2_dct2_exact.
  rewrite dct2_at_1, dst2_at_1. unfold b2_dct2, b4_dct2. cbn [nth fst snd]. to_R.
  leq ring.
Qed.
Lemma b4_dct3_exact : is_list 4 (b4_dct3 (Butterfly4_new (T:=R) (F:=R))) dct3_at.
Proof.
  intros x Lx. split_list x Lx. rewrite b4_tw.
  destruct (dct3_quarters 1 [r; r0; r1; r2] ltac:(lia) eq_refl [r; r1] [2 * r0] [2 * r2] 0
    eq_refl eq_refl eq_refl ltac:(lia)) as (D0 & D1 & D2 & D3); [dct_prem|dct_prem|dct_prem|].
  cbn [seq map]. rewrite (D0 : dct3_at _ 0 = _), (D1 : dct3_at _ 3 = _), (D2 : dct3_at _ 1 = _), (D3 : dct3_at _ 2 = _).
  use_list [r; r1] b2_dct3_exact.
  rewrite dct3_at_1, dst3_at_1. norm_angles. unfold b2_dct3, b4_dct3. cbn [nth fst snd Nat.sub Nat.mul Nat.add]. to_R.
  leq field.
Qed.
Lemma b4_dst2_exact : is_list 4 (b4_dst2 (Butterfly4_new (T:=R) (F:=R))) dst2_at.
Proof.
  apply (is_list_dst2 _ _ _ b4_dct2_exact). intros x Lx. split_list x Lx.
  unfold b4_dct2, b4_dst2. alt_norm. to_R. leq ring.
Qed.
Lemma b4_dst3_exact : is_list 4 (b4_dst3 (Butterfly4_new (T:=R) (F:=R))) dst3_at.
Proof.
  apply (is_list_dst3 _ _ _ b4_dct3_exact). intros x Lx. split_list x Lx.
  unfold b4_dct3, b4_dst3. alt_norm. to_R. leq ring.
Qed.

Lemma b8_tw_0 : c_conj (single_twiddle (T:=R) (F:=R) 1 32) = (cz 16 1, sz 16 1).
Proof. exact (conj_twiddle 2 0 ltac:(lia)). Qed.
Lemma b8_tw_1 : c_conj (single_twiddle (T:=R) (F:=R) 3 32) = (cz 16 3, sz 16 3).
Proof. exact (conj_twiddle 2 1 ltac:(lia)). Qed.

Lemma b8_dct2_exact : is_list 8 (b8_dct2 (Butterfly8_new (T:=R) (F:=R))) dct2_at.
Proof.
  intros x Lx. split_list x Lx. unfold b8_dct2, Butterfly8_new. cbn [b8_tw b8_b4]. cbv zeta.
  rewrite b8_tw_0, b8_tw_1. cbn [nth fst snd]. to_R.
  match goal with |- context [b4_dct2 _ ?l] => set (y := l) end.
  match goal with |- context [b2_dct2 ?l] => set (c := l) end.
  match goal with |- context [b2_dst2 ?l] => set (rs := l) end.
  destruct (dct2_quarters 2 [r; r0; r1; r2; r3; r4; r5; r6] ltac:(lia) eq_refl y c (rev rs)
    eq_refl eq_refl eq_refl) as (D0 & D1 & D2 & D3 & D4);
    [unfold y; dct_prem|unfold c; dct_prem|unfold rs; cbn [rev app]; dct_prem|].
  assert (S : forall k, (k < 2)%nat -> dst2_at (rev rs) k = alt k * dst2_at rs k) by (intros k Hk; apply dst2_rev; exact Hk).
  cbn [seq map].
  rewrite (D0 0%nat : dct2_at _ 0 = _), (D0 1%nat : dct2_at _ 2 = _), (D0 2%nat : dct2_at _ 4 = _), (D0 3%nat : dct2_at _ 6 = _).
  rewrite D1, (D2 0%nat : dct2_at _ 5 = dct2_at c 1 + _), (D3 0%nat : dct2_at _ 3 = dct2_at c 1 - _),
    (D4 : dct2_at _ 7 = - dst2_at (rev rs) 1).
  rewrite !S by lia. use_list y b4_dct2_exact. use_list c b2_dct2_exact. use_list rs b2_dst2_exact.
  alt_norm. leq ring.
Qed.
Lemma b8_dct3_exact : is_list 8 (b8_dct3 (Butterfly8_new (T:=R) (F:=R))) dct3_at.
Proof.
  intros x Lx. split_list x Lx. unfold b8_dct3, Butterfly8_new. cbn [b8_tw b8_b4]. cbv zeta.
  rewrite b8_tw_0, b8_tw_1. cbn [nth fst snd]. to_R.
  match goal with |- context [b4_dct3 _ ?l] => set (e := l) end.
  match goal with |- context [b2_dct3 ?l] => set (u := l) end.
  match goal with |- context [b2_dst3 ?l] => set (v := l) end.
  assert (D : forall k, (k < 2)%nat -> _) by
    (intros k Hk; refine (dct3_quarters 2 [r; r0; r1; r2; r3; r4; r5; r6] ltac:(lia) eq_refl e u v k
      eq_refl eq_refl eq_refl Hk _ _ _);
     [unfold e; dct_prem|unfold u; dct_prem|unfold v; dct_prem]).
  cbn [seq map].
  destruct (D 0%nat ltac:(lia)) as (A0 & A1 & A2 & A3). destruct (D 1%nat ltac:(lia)) as (B0 & B1 & B2 & B3).
  rewrite (A0 : dct3_at _ 0 = _), (A1 : dct3_at _ 7 = _), (A2 : dct3_at _ 3 = _), (A3 : dct3_at _ 4 = _).
  rewrite (B0 : dct3_at _ 1 = _), (B1 : dct3_at _ 6 = _), (B2 : dct3_at _ 2 = _), (B3 : dct3_at _ 5 = _).
  cbn [Nat.sub Nat.mul Nat.add].
  use_list e b4_dct3_exact. use_list u b2_dct3_exact. use_list v b2_dst3_exact. norm_angles.
  leq ring.
Qed.

(** The same inner call on both sides. *)
Ltac same1 h := match goal with |- context [h ?t ?l1] => match goal with |- context [h t ?l2] =>
   lazymatch l1 with l2 => fail | _ => replace l2 with l1 by leq ring end end end.
Ltac same0 h := match goal with |- context [h ?l1] => match goal with |- context [h ?l2] =>
   lazymatch l1 with l2 => fail | _ => replace l2 with l1 by leq ring end end end.

Lemma b8_dst2_exact : is_list 8 (b8_dst2 (Butterfly8_new (T:=R) (F:=R))) dst2_at.
Proof.
  apply (is_list_dst2 _ _ _ b8_dct2_exact). intros x Lx. split_list x Lx.
  unfold b8_dst2, b8_dct2. alt_norm. to_R.
  same1 (b4_dct2 (T:=R) (F:=R)). same0 (b2_dct2 (T:=R) (F:=R)). same0 (b2_dst2 (T:=R) (F:=R)). reflexivity.
Qed.
Lemma b8_dst3_exact : is_list 8 (b8_dst3 (Butterfly8_new (T:=R) (F:=R))) dst3_at.
Proof.
  apply (is_list_dst3 _ _ _ b8_dct3_exact). intros x Lx. split_list x Lx.
  unfold b8_dst3, b8_dct3. alt_norm. to_R. leq ring.
Qed.

Lemma b16_tw_0 : c_conj (single_twiddle (T:=R) (F:=R) 1 64) = (cz 32 1, sz 32 1).
Proof. exact (conj_twiddle 4 0 ltac:(lia)). Qed.
Lemma b16_tw_1 : c_conj (single_twiddle (T:=R) (F:=R) 3 64) = (cz 32 3, sz 32 3).
Proof. exact (conj_twiddle 4 1 ltac:(lia)). Qed.
Lemma b16_tw_2 : c_conj (single_twiddle (T:=R) (F:=R) 5 64) = (cz 32 5, sz 32 5).
Proof. exact (conj_twiddle 4 2 ltac:(lia)). Qed.
Lemma b16_tw_3 : c_conj (single_twiddle (T:=R) (F:=R) 7 64) = (cz 32 7, sz 32 7).
Proof. exact (conj_twiddle 4 3 ltac:(lia)). Qed.

Lemma b16_dct2_exact : is_list 16 (b16_dct2 (Butterfly16_new (T:=R) (F:=R))) dct2_at.
Proof.
  intros x Lx. split_list x Lx. unfold b16_dct2, Butterfly16_new. cbn [b16_tw b16_b8 b16_b4]. cbv zeta.
  rewrite b16_tw_0, b16_tw_1, b16_tw_2, b16_tw_3. cbn [nth fst snd Nat.sub]. to_R.
  match goal with |- context [b8_dct2 _ ?l] => set (y := l) end.
  match goal with |- context [b4_dct2 _ ?l] => set (c := l) end.
  match goal with |- context [b4_dst2 _ ?l] => set (rs := l) end.
  match goal with |- context [dct2_at ?x] => 
    destruct (dct2_quarters 4 x ltac:(lia) eq_refl y c (rev rs) eq_refl eq_refl eq_refl) as (D0 & D1 & D2 & D3 & D4) end;
    [unfold y; dct_prem|unfold c; dct_prem|unfold rs; cbn [rev app]; dct_prem|].
  assert (S : forall k, (k < 4)%nat -> dst2_at (rev rs) k = alt k * dst2_at rs k) by (intros k Hk; apply dst2_rev; exact Hk).
  cbn [seq map].
  rewrite (D0 0%nat : dct2_at _ 0 = _), (D0 1%nat : dct2_at _ 2 = _), (D0 2%nat : dct2_at _ 4 = _), (D0 3%nat : dct2_at _ 6 = _),
    (D0 4%nat : dct2_at _ 8 = _), (D0 5%nat : dct2_at _ 10 = _), (D0 6%nat : dct2_at _ 12 = _), (D0 7%nat : dct2_at _ 14 = _).
  rewrite D1, (D2 0%nat : dct2_at _ 5 = dct2_at c 1 + _), (D3 0%nat : dct2_at _ 3 = dct2_at c 1 - _),
    (D2 1%nat : dct2_at _ 9 = dct2_at c 2 + _), (D3 1%nat : dct2_at _ 7 = dct2_at c 2 - _),
    (D2 2%nat : dct2_at _ 13 = dct2_at c 3 + _), (D3 2%nat : dct2_at _ 11 = dct2_at c 3 - _),
    (D4 : dct2_at _ 15 = - dst2_at (rev rs) 3).
  rewrite !S by lia. use_list y b8_dct2_exact. use_list c b4_dct2_exact. use_list rs b4_dst2_exact.
  alt_norm. leq ring.
Qed.
Lemma b16_dct3_exact : is_list 16 (b16_dct3 (Butterfly16_new (T:=R) (F:=R))) dct3_at.
Proof.
  intros x Lx. split_list x Lx. unfold b16_dct3, Butterfly16_new. cbn [b16_tw b16_b8 b16_b4]. cbv zeta.
  rewrite b16_tw_0, b16_tw_1, b16_tw_2, b16_tw_3. cbn [nth fst snd]. to_R.
  match goal with |- context [b8_dct3 _ ?l] => set (e := l) end.
  match goal with |- context [b4_dct3 _ ?l] => set (u := l) end.
  match goal with |- context [b4_dst3 _ ?l] => set (v := l) end.
  match goal with |- context [dct3_at ?x] => 
  assert (D : forall k, (k < 4)%nat -> _) by
    (intros k Hk; refine (dct3_quarters 4 x ltac:(lia) eq_refl e u v k
      eq_refl eq_refl eq_refl Hk _ _ _);
     [unfold e; dct_prem|unfold u; dct_prem|unfold v; dct_prem]) end.
  cbn [seq map].
  destruct (D 0%nat ltac:(lia)) as (A0 & A1 & A2 & A3). destruct (D 1%nat ltac:(lia)) as (B0 & B1 & B2 & B3).
  destruct (D 2%nat ltac:(lia)) as (C0 & C1 & C2 & C3). destruct (D 3%nat ltac:(lia)) as (E0 & E1 & E2 & E3).
  rewrite (A0 : dct3_at _ 0 = _), (A1 : dct3_at _ 15 = _), (A2 : dct3_at _ 7 = _), (A3 : dct3_at _ 8 = _).
  rewrite (B0 : dct3_at _ 1 = _), (B1 : dct3_at _ 14 = _), (B2 : dct3_at _ 6 = _), (B3 : dct3_at _ 9 = _).
  rewrite (C0 : dct3_at _ 2 = _), (C1 : dct3_at _ 13 = _), (C2 : dct3_at _ 5 = _), (C3 : dct3_at _ 10 = _).
  rewrite (E0 : dct3_at _ 3 = _), (E1 : dct3_at _ 12 = _), (E2 : dct3_at _ 4 = _), (E3 : dct3_at _ 11 = _).
  cbn [Nat.sub Nat.mul Nat.add].
  use_list e b8_dct3_exact. use_list u b4_dct3_exact. use_list v b4_dst3_exact. norm_angles.
  leq ring.
Qed.
Lemma b16_dst2_exact : is_list 16 (b16_dst2 (Butterfly16_new (T:=R) (F:=R))) dst2_at.
Proof.
  apply (is_list_dst2 _ _ _ b16_dct2_exact). intros x Lx. split_list x Lx.
  unfold b16_dst2, b16_dct2. alt_norm. cbn [Nat.even Nat.sub nth]. to_R.
  same1 (b8_dct2 (T:=R) (F:=R)). same1 (b4_dct2 (T:=R) (F:=R)). same1 (b4_dst2 (T:=R) (F:=R)). reflexivity.
Qed.
Lemma b16_dst3_exact : is_list 16 (b16_dst3 (Butterfly16_new (T:=R) (F:=R))) dst3_at.
Proof.
  apply (is_list_dst3 _ _ _ b16_dct3_exact). intros x Lx. split_list x Lx.
  unfold b16_dst3, b16_dct3. alt_norm. to_R. leq ring.
Qed.
