(** What the FFT based algorithms compute, for any numeric type and any FFT
    whose result does not depend on the old contents of its scratch. *)
From Coq Require Import List Arith Lia Bool ZArith ZifyNat.
From Verif Require Import Prog Num Model_Common Model_Fft Spec_Fft Wp Sem_Naive.
Import ListNotations.
Ltac Zify.zify_post_hook ::= Z.div_mod_to_equations.

Section SemFft.
Context {T F : Type} {N : Num T F}.
Open Scope num_scope.

(** The FFT of [xs]. *)
Definition fft_out (f : fft T) (xs : list (T * T)) : list (T * T) :=
  fst (fft_run f xs (repeat (zero, zero) (fft_scratch f))).
Definition c0 : T * T := (zero, zero).

Lemma wp_fft_out f b s xs m (Q : unit -> mem T -> Prop) :
  fft_clean f -> clen b = fft_len f -> clen s = fft_scratch f ->
  (clen b = 0 \/ clen s = 0 \/ cbase b + 2 * clen b <= cbase s \/ cbase s + 2 * clen s <= cbase b) ->
  (forall i, i < clen b -> m (cbase b + 2 * i) = fst (xs i) /\ m (cbase b + 2 * i + 1) = snd (xs i)) ->
  (forall m',
     let r := fft_out f (map xs (seq 0 (fft_len f))) in
     (forall i, i < clen b -> m' (cbase b + 2 * i) = fst (nth i r c0) /\
                              m' (cbase b + 2 * i + 1) = snd (nth i r c0)) ->
     (forall q, ~ (cbase b <= q < cbase b + 2 * clen b) ->
                ~ (cbase s <= q < cbase s + 2 * clen s) -> m' q = m q) -> Q tt m') ->
  wp (fft_process f b s) m Q.
Proof.
  intros Hc Hb Hs Hd Hx HQ. apply wp_fft_process; [exact Hb|lia|exact Hd|].
  cbv zeta. rewrite (cvals_map m b xs (clen b) eq_refl) by exact Hx.
  rewrite (Hc _ _ (repeat (zero, zero) (fft_scratch f))).
  - rewrite <- Hb in HQ. exact HQ.
  - rewrite map_length, seq_length. exact Hb.
  - rewrite cvals_length. exact Hs.
  - apply repeat_length.
Qed.

Ltac dj H := unfold disj in H |- *; cbn [slen base clen cbase] in H |- *; try lia.

Lemma fft_scratch_split L fs (s : slice) sl :
  sl = 2 * (L + fs) -> into_complex_mut (mkS (base s) sl) = mkC (base s) (L + fs).
Proof.
  intros ->. unfold into_complex_mut. cbn [base slen]. f_equal. rewrite Nat.mul_comm. apply Nat.div_mul. lia.
Qed.

(** ** DCT1 *)
Definition pre_dct1_fft (n : nat) (x : list T) (j : nat) : T * T :=
  if j <? n then (at_ x j, zero) else (at_ x (2 * (n - 1) - j), zero).
Definition sem_dct1_fft (f : fft T) (n : nat) (x : list T) (k : nat) : T :=
  fst (nth k (fft_out f (map (pre_dct1_fft n x) (seq 0 (fft_len f)))) c0) *. half.

Lemma sem_dct1_fft_ok f d :
  Dct1ConvertToFft_new f = Ok d -> fft_clean f -> 0 < fft_len f ->
  computes (Dct1ConvertToFft_dct1 d) (fft_len f / 2 + 1) (2 * (fft_len f + fft_scratch f))
    (sem_dct1_fft f (fft_len f / 2 + 1)).
Proof.
  unfold Dct1ConvertToFft_new, rassert. intros Hnew Hc Hpos.
  destruct (Nat.eqb_spec (fft_len f mod 2) 0) as [Hev|]; [|discriminate]. cbn [rbind] in Hnew.
  destruct (dir_eqb (fft_dir f) Forward); [|discriminate]. apply Ok_inj in Hnew; subst d.
  set (L := fft_len f) in * . set (n := L / 2 + 1) in * .
  assert (HL : L = 2 * (n - 1)).
  { unfold n. pose proof (Nat.div_mod L 2 ltac:(lia)). lia. }
  assert (Hn : 2 <= n) by lia.
  intros m b s Hb Hs Hd. unfold Dct1ConvertToFft_dct1. cbn [dct1f_len dct1f_scratch dct1f_inner dct1f_fft].
  apply validate_buffers_ok; [exact Hb|exact Hs|]. cbv beta zeta.
  rewrite (fft_scratch_split L (fft_scratch f)) by lia. wpi c0. cbn [cbase clen]. replace (L + fft_scratch f - L) with (fft_scratch f) by lia.
  wpi c0. cbn [cbase clen].
  replace (Nat.min (slen b) (slen b)) with n by lia.
  apply wp_bind, (wp_for_cwr (base s) (fun i => i) (fun i => (m (base b + i), zero))).
  - auto.
  - intros i m' Hi Hm K HK. wpi c0. wpi c0. cbn [cbase fst snd]. rewrite Hm by (intros; dj Hd). exact HK.
  - intros m1 A1 A2. wpi c0. cbn [cbase clen].
    replace (Nat.min (slen b - 1) (L - slen b)) with (n - 2) by lia.
    apply wp_bind, (wp_for_cwr (base s) (fun i => n + i) (fun i => (m (base b + (n - 2 - i)), zero))).
    + intros; lia.
    + intros i m' Hi Hm K HK. wpi c0. wpi c0. cbn [cbase fst snd].
      rewrite Hm by (intros; dj Hd). rewrite A2 by (intros; dj Hd).
      replace (base s + 2 * slen b + 2 * i) with (base s + 2 * (n + i)) by lia.
      rewrite Hb. exact HK.
    + intros m2 B1 B2.
      apply wp_bind, (wp_fft_out f _ _ (pre_dct1_fft n (vals m b))); cbn [cbase clen];
        [exact Hc|reflexivity|reflexivity|lia| |].
      * intros j Hj. unfold pre_dct1_fft, at_. destruct (Nat.ltb_spec j n).
        -- rewrite nth_vals by lia. rewrite !B2 by (intros; lia). apply A1. lia.
        -- rewrite nth_vals by lia. replace j with (n + (j - n)) by lia.
           replace (2 * (n - 1) - (n + (j - n))) with (n - 2 - (j - n)) by lia. apply B1. lia.
      * cbv zeta. intros m3 C1 C2. replace (Nat.min L (slen b)) with n by lia.
        apply (wp_for_wr (base b) (fun i => i) (fun i => sem_dct1_fft f n (vals m b) i)).
        -- auto.
        -- intros i m' Hi Hm K HK. wpi c0. wpi c0. cbn [cbase].
           rewrite Hm by (intros; dj Hd). rewrite (proj1 (C1 i ltac:(lia))). exact HK.
        -- intros m4 D1 D2. split; [intros; apply D1; lia|].
           intros q Hq1 Hq2. rewrite D2 by (intros; lia). rewrite C2 by lia.
           rewrite B2 by (intros; lia). apply A2. intros; lia.
Qed.

(** ** DST1 *)
Definition pre_dst1_fft (n : nat) (x z : list T) (j : nat) : T * T :=
  if j =? 0 then (at_ z 0, at_ z 1)
  else if j <? n + 1 then c_from (at_ x (j - 1))
  else if j =? n + 1 then (at_ z (2 * (n + 1)), at_ z (2 * (n + 1) + 1))
  else c_from (-. at_ x (2 * n + 1 - j)).
Definition sem_dst1_fft (f : fft T) (n : nat) (x z : list T) (k : nat) : T :=
  snd (nth (2 * n + 1 - k) (fft_out f (map (pre_dst1_fft n x z) (seq 0 (fft_len f)))) c0) *. half.

Lemma sem_dst1_fft_ok f d :
  Dst1ConvertToFft_new f = Ok d -> fft_clean f ->
  computes2 (Dst1ConvertToFft_dst1 d) (fft_len f / 2 - 1) (2 * (fft_len f + fft_scratch f))
    (sem_dst1_fft f (fft_len f / 2 - 1)).
Proof.
  unfold Dst1ConvertToFft_new, rassert, rsub. intros Hnew Hc.
  destruct (Nat.eqb_spec (fft_len f mod 2) 0) as [Hev|]; [|discriminate]. cbn [rbind] in Hnew.
  destruct (dir_eqb (fft_dir f) Forward); [|discriminate]. cbn [rbind] in Hnew.
  destruct (Nat.leb_spec 1 (fft_len f / 2)) as [Hpos|]; [|discriminate]. apply Ok_inj in Hnew; subst d.
  set (L := fft_len f) in * . set (n := L / 2 - 1) in * .
  assert (HL : L = 2 * (n + 1)) by (unfold n; lia).
  intros m b s Hb Hs Hd. unfold Dst1ConvertToFft_dst1. cbn [dst1f_len dst1f_scratch dst1f_inner dst1f_fft].
  apply validate_buffers_ok; [exact Hb|exact Hs|]. cbv beta zeta.
  rewrite (fft_scratch_split L (fft_scratch f)) by lia. wpi c0. cbn [cbase clen].
  replace (L + fft_scratch f - L) with (fft_scratch f) by lia.

  replace (Nat.min (slen b) (L - 1)) with n by lia.
  apply wp_bind, (wp_for_cwr (base s) (fun i => 1 + i) (fun i => c_from (m (base b + i)))).
  - intros; lia.
  - intros i m' Hi Hm K HK. wpi c0. wpi c0. cbn [cbase]. rewrite Hm by (intros; dj Hd). exact HK.
  - intros m1 A1 A2. replace (Nat.min (slen b) L) with n by lia.
    apply wp_bind, (wp_for_cwr (base s) (fun i => L - 1 - i) (fun i => c_from (-. m (base b + i)))).
    + intros; lia.
    + intros i m' Hi Hm K HK. wpi c0. wpi c0. cbn [cbase].
      rewrite Hm by (intros; dj Hd). rewrite A2 by (intros; dj Hd). exact HK.
    + intros m2 B1 B2.
      apply wp_bind, (wp_fft_out f _ _ (pre_dst1_fft n (vals m b) (vals m (mkS (base s) (2 * (L + fft_scratch f))))));
        cbn [cbase clen]; [exact Hc|reflexivity|reflexivity|lia| |].
      * intros j Hj. unfold pre_dst1_fft, at_.
        destruct (Nat.eqb_spec j 0); [|destruct (Nat.ltb_spec j (n + 1)); [|destruct (Nat.eqb_spec j (n + 1))]].
        -- subst j. cbn [fst snd]. rewrite !nth_vals by (cbn [slen]; lia). cbn [base].
           rewrite !B2 by (intros; lia). rewrite !A2 by (intros; lia). split; f_equal; lia.
        -- rewrite nth_vals by lia. rewrite !B2 by (intros; lia).
           pose proof (A1 (j - 1) ltac:(lia)) as E. replace (1 + (j - 1)) with j in E by lia. exact E.
        -- subst j. cbn [fst snd]. rewrite !nth_vals by (cbn [slen]; lia). cbn [base].
           rewrite !B2 by (intros; lia). rewrite !A2 by (intros; lia). split; f_equal; lia.
        -- rewrite nth_vals by lia. pose proof (B1 (2 * n + 1 - j) ltac:(lia)) as E.
           replace (L - 1 - (2 * n + 1 - j)) with j in E by lia. exact E.
      * cbv zeta. intros m3 C1 C2. replace (Nat.min L (slen b)) with n by lia.
        apply (wp_for_wr (base b) (fun i => i) (sem_dst1_fft f n (vals m b) (vals m (mkS (base s) (2 * (L + fft_scratch f)))))).
        -- auto.
        -- intros i m' Hi Hm K HK. wpi c0. wpi c0. cbn [cbase].
           rewrite Hm by (intros; dj Hd). rewrite (proj2 (C1 (L - 1 - i) ltac:(lia))).
           unfold sem_dst1_fft in HK. fold L in HK. replace (2 * n + 1 - i) with (L - 1 - i) in HK by lia. exact HK.
        -- intros m4 D1 D2. split; [intros; apply D1; lia|].
           intros q Hq1 Hq2. rewrite D2 by (intros; lia). rewrite C2 by lia.
           rewrite B2 by (intros; lia). apply A2. intros; lia.
Qed.

(** ** Types 2 and 3 *)

(** Position of the input that goes to FFT cell [j], and back: even positions
    ascending, then odd positions descending. *)
Definition even_end (n : nat) : nat := (n + 1) / 2.
Definition odd_end (n : nat) : nat := n - 1 - n mod 2.
Definition fold_pos (n j : nat) : nat :=
  if j <? even_end n then j * 2 else odd_end n - 2 * (j - even_end n).
Definition unfold_pos (n k : nat) : nat :=
  if k mod 2 =? 0 then k / 2 else (odd_end n - k) / 2 + even_end n.
Definition is_odd (k : nat) : bool := k mod 2 =? 1.

Definition pre_dct2_fft (x : list T) (j : nat) : T * T := c_from (at_ x (fold_pos (length x) j)).
Definition sem_dct2_fft (f : fft T) (tw : list (T * T)) (x : list T) (k : nat) : T :=
  fst (c_mul (nth k (fft_out f (map (pre_dct2_fft x) (seq 0 (fft_len f)))) c0) (nth k tw c0)).

Definition pre_dst2_fft (x : list T) (j : nat) : T * T :=
  let p := fold_pos (length x) j in
  c_from (if is_odd p then -. at_ x p else at_ x p).
Definition sem_dst2_fft (f : fft T) (tw : list (T * T)) (x : list T) (k : nat) : T :=
  let k' := length x - 1 - k in
  fst (c_mul (nth k' (fft_out f (map (pre_dst2_fft x) (seq 0 (fft_len f)))) c0) (nth k' tw c0)).

Definition pre_dct3_fft (tw : list (T * T)) (x : list T) (j : nat) : T * T :=
  if j =? 0 then c_from (at_ x 0 *. half)
  else c_scale (c_mul (at_ x j, at_ x (length x - j)) (nth j tw c0)) half.
Definition sem_dct3_fft (f : fft T) (tw : list (T * T)) (x : list T) (k : nat) : T :=
  fst (nth (unfold_pos (length x) k) (fft_out f (map (pre_dct3_fft tw x) (seq 0 (fft_len f)))) c0).

Definition pre_dst3_fft (tw : list (T * T)) (x : list T) (j : nat) : T * T :=
  if j =? 0 then c_from (at_ x (length x - 1) *. half)
  else c_scale (c_mul (at_ x (length x - j - 1), at_ x (j - 1)) (nth j tw c0)) half.
Definition sem_dst3_fft (f : fft T) (tw : list (T * T)) (x : list T) (k : nat) : T :=
  let v := fst (nth (unfold_pos (length x) k) (fft_out f (map (pre_dst3_fft tw x) (seq 0 (fft_len f)))) c0) in
  if is_odd k then -. v else v.

Lemma Type2And3ConvertToFft_new_inv f d :
  Type2And3ConvertToFft_new f = Ok d ->
  d = mkT23Fft f (map (fun i => single_twiddle i (fft_len f * 4)) (seq 0 (fft_len f)))
        (2 * (fft_len f + fft_scratch f)).
Proof.
  unfold Type2And3ConvertToFft_new, rassert.
  destruct (dir_eqb (fft_dir f) Forward); [|discriminate]. intros E. apply Ok_inj in E. auto.
Qed.

Lemma sem_dct2_fft_ok f tw :
  length tw = fft_len f -> fft_clean f ->
  computes (Type2And3ConvertToFft_dct2 (mkT23Fft f tw (2 * (fft_len f + fft_scratch f))))
    (fft_len f) (2 * (fft_len f + fft_scratch f)) (sem_dct2_fft f tw).
Proof.
  intros Htw Hc. set (L := fft_len f) in * .
  intros m b s Hb Hs Hd. unfold Type2And3ConvertToFft_dct2, Type2And3ConvertToFft_len. cbn [t23f_tw t23f_scratch t23f_fft]; rewrite Htw.
  apply validate_buffers_ok; [exact Hb|exact Hs|]. cbv beta zeta.
  rewrite (fft_scratch_split L (fft_scratch f)) by lia. wpi c0. cbn [cbase clen].
  replace (L + fft_scratch f - L) with (fft_scratch f) by lia.

  rewrite Hb.
  apply wp_bind, (wp_for_cwr (base s) (fun i => i) (fun i => c_from (m (base b + i * 2)))).
  - auto.
  - intros i m' Hi Hm K HK. wpi c0. wpi c0. cbn [cbase]. rewrite Hm by (intros; dj Hd). exact HK.
  - intros m1 A1 A2. apply wp_bind.
    match goal with |- wp ?p _ ?Q => assert (Hodd : forall m2,
       (forall j, j < L / 2 -> m2 (base s + 2 * (even_end L + j)) = fst (c_from ( m (base b + (odd_end L - 2 * j))))
            /\ m2 (base s + 2 * (even_end L + j) + 1) = snd (c_from ( m (base b + (odd_end L - 2 * j))))) ->
       (forall q, (forall i, 0 <= i < L / 2 -> q <> base s + 2 * (even_end L + i) /\ q <> base s + 2 * (even_end L + i) + 1)
            -> m2 q = m1 q) -> Q tt m2) end.
    + intros m2 B1 B2. cbv beta.
      apply wp_bind, (wp_fft_out f _ _ (pre_dct2_fft (vals m b))); cbn [cbase clen];
        [exact Hc|reflexivity|reflexivity|lia| |].
      * intros j Hj. unfold pre_dct2_fft, is_odd, fold_pos, even_end, odd_end, at_ in * . rewrite vals_length, Hb.
        destruct (Nat.ltb_spec j ((L + 1) / 2)).
        -- rewrite !B2 by (intros; lia). rewrite nth_vals by lia. apply A1. lia.
        -- rewrite nth_vals by lia.
           pose proof (B1 (j - (L + 1) / 2) ltac:(lia)) as E.
           replace ((L + 1) / 2 + (j - (L + 1) / 2)) with j in E by lia. exact E.
      * cbv zeta. intros m3 C1 C2. replace (Nat.min (Nat.min L L) L) with L by lia.
        apply (wp_for_wr (base b) (fun i => i) (fun i => sem_dct2_fft f tw (vals m b) (i))).
        -- intros; lia.
        -- intros i m' Hi Hm K HK. wpi c0. wpi c0. wpi c0. cbn [cbase].
           rewrite !Hm by (intros; dj Hd). rewrite (proj1 (C1 i ltac:(lia))), (proj2 (C1 i ltac:(lia))).
           rewrite <- surjective_pairing. unfold sem_dct2_fft in HK. fold L in HK.
           exact HK.
        -- intros m4 D1 D2. split.
           ++ intros k Hk. apply D1. lia.
           ++ intros q Hq1 Hq2. rewrite D2 by (intros; lia). rewrite C2 by lia.
              unfold even_end in B2. rewrite B2 by (intros; lia). apply A2. intros; lia.
    + destruct (Nat.ltb_spec 1 L).
      * wpi c0. wpi c0.
        apply (wp_for_cwr (base s) (fun i => even_end L + i) (fun i => c_from ( m (base b + (odd_end L - 2 * i))))).
        -- intros; lia.
        -- intros i m' Hi Hm K HK. wpi c0. wpi c0. wpi c0. cbn [cbase].
           rewrite Hm by (unfold even_end; intros; dj Hd). rewrite A2 by (intros; dj Hd). exact HK.
        -- intros m2 B1 B2. apply Hodd; [intros; apply B1; lia|exact B2].
      * wpi c0. apply Hodd; [intros; lia|auto].
Qed.

Lemma sem_dst2_fft_ok f tw :
  length tw = fft_len f -> fft_clean f ->
  computes (Type2And3ConvertToFft_dst2 (mkT23Fft f tw (2 * (fft_len f + fft_scratch f))))
    (fft_len f) (2 * (fft_len f + fft_scratch f)) (sem_dst2_fft f tw).
Proof.
  intros Htw Hc. set (L := fft_len f) in * .
  intros m b s Hb Hs Hd. unfold Type2And3ConvertToFft_dst2, Type2And3ConvertToFft_len. cbn [t23f_tw t23f_scratch t23f_fft]; rewrite Htw.
  apply validate_buffers_ok; [exact Hb|exact Hs|]. cbv beta zeta.
  rewrite (fft_scratch_split L (fft_scratch f)) by lia. wpi c0. cbn [cbase clen].
  replace (L + fft_scratch f - L) with (fft_scratch f) by lia.

  rewrite Hb.
  apply wp_bind, (wp_for_cwr (base s) (fun i => i) (fun i => c_from (m (base b + i * 2)))).
  - auto.
  - intros i m' Hi Hm K HK. wpi c0. wpi c0. cbn [cbase]. rewrite Hm by (intros; dj Hd). exact HK.
  - intros m1 A1 A2. apply wp_bind.
    match goal with |- wp ?p _ ?Q => assert (Hodd : forall m2,
       (forall j, j < L / 2 -> m2 (base s + 2 * (even_end L + j)) = fst (c_from (-. m (base b + (odd_end L - 2 * j))))
            /\ m2 (base s + 2 * (even_end L + j) + 1) = snd (c_from (-. m (base b + (odd_end L - 2 * j))))) ->
       (forall q, (forall i, 0 <= i < L / 2 -> q <> base s + 2 * (even_end L + i) /\ q <> base s + 2 * (even_end L + i) + 1)
            -> m2 q = m1 q) -> Q tt m2) end.
    + intros m2 B1 B2. cbv beta.
      apply wp_bind, (wp_fft_out f _ _ (pre_dst2_fft (vals m b))); cbn [cbase clen];
        [exact Hc|reflexivity|reflexivity|lia| |].
      * intros j Hj. unfold pre_dst2_fft, is_odd, fold_pos, even_end, odd_end, at_ in * . rewrite vals_length, Hb.
        destruct (Nat.ltb_spec j ((L + 1) / 2)).
        -- rewrite !B2 by (intros; lia). rewrite nth_vals by lia. replace (j * 2 mod 2) with 0 by lia. cbn [Nat.eqb]. apply A1. lia.
        -- rewrite nth_vals by lia. replace ((L - 1 - L mod 2 - 2 * (j - (L + 1) / 2)) mod 2) with 1 by lia. cbn [Nat.eqb].
           pose proof (B1 (j - (L + 1) / 2) ltac:(lia)) as E.
           replace ((L + 1) / 2 + (j - (L + 1) / 2)) with j in E by lia. exact E.
      * cbv zeta. intros m3 C1 C2. replace (Nat.min (Nat.min L L) L) with L by lia.
        apply (wp_for_wr (base b) (fun i => L - 1 - i) (fun i => sem_dst2_fft f tw (vals m b) (L - 1 - i))).
        -- intros; lia.
        -- intros i m' Hi Hm K HK. wpi c0. wpi c0. wpi c0. cbn [cbase].
           rewrite !Hm by (intros; dj Hd). rewrite (proj1 (C1 i ltac:(lia))), (proj2 (C1 i ltac:(lia))).
           rewrite <- surjective_pairing. unfold sem_dst2_fft in HK. fold L in HK. rewrite vals_length, Hb in HK. replace (L - 1 - (L - 1 - i)) with i in HK by lia.
           exact HK.
        -- intros m4 D1 D2. split.
           ++ intros k Hk. replace k with (L - 1 - (L - 1 - k)) by lia. apply D1. lia.
           ++ intros q Hq1 Hq2. rewrite D2 by (intros; lia). rewrite C2 by lia.
              unfold even_end in B2. rewrite B2 by (intros; lia). apply A2. intros; lia.
    + destruct (Nat.ltb_spec 1 L).
      * wpi c0. wpi c0.
        apply (wp_for_cwr (base s) (fun i => even_end L + i) (fun i => c_from (-. m (base b + (odd_end L - 2 * i))))).
        -- intros; lia.
        -- intros i m' Hi Hm K HK. wpi c0. wpi c0. wpi c0. cbn [cbase].
           rewrite Hm by (unfold even_end; intros; dj Hd). rewrite A2 by (intros; dj Hd). exact HK.
        -- intros m2 B1 B2. apply Hodd; [intros; apply B1; lia|exact B2].
      * wpi c0. apply Hodd; [intros; lia|auto].
Qed.

Lemma sem_dct3_fft_ok f tw :
  0 < fft_len f -> length tw = fft_len f -> fft_clean f ->
  computes (Type2And3ConvertToFft_dct3 (mkT23Fft f tw (2 * (fft_len f + fft_scratch f))))
    (fft_len f) (2 * (fft_len f + fft_scratch f)) (sem_dct3_fft f tw).
Proof.
  intros Hpos Htw Hc. set (L := fft_len f) in * .
  intros m b s Hb Hs Hd. unfold Type2And3ConvertToFft_dct3, Type2And3ConvertToFft_len. cbn [t23f_tw t23f_scratch t23f_fft]; rewrite Htw.
  apply validate_buffers_ok; [exact Hb|exact Hs|]. cbv beta zeta.
  rewrite (fft_scratch_split L (fft_scratch f)) by lia. wpi c0. cbn [cbase clen].
  replace (L + fft_scratch f - L) with (fft_scratch f) by lia.

  rewrite Hb. wpi c0. wpi c0. cbn [cbase].
  set (m0 := upd (upd m _ _) _ _).
  assert (Hm0 : forall q, q <> base s -> q <> base s + 1 -> m0 q = m q).
  { intros q H1 H2. unfold m0. rewrite !upd_other by lia. reflexivity. }
  replace (Nat.min L L) with L by lia.
  apply wp_bind, (wp_for_cwr (base s) (fun i => i) (fun i => c_scale (c_mul (m (base b + i), m (base b + (L - i))) (nth i tw c0)) half)).
  - auto.
  - intros i m' Hi Hm K HK. do 5 wpi c0. cbn [cbase].
    rewrite !Hm by (intros; dj Hd). rewrite !Hm0 by dj Hd. exact HK.
  - intros m1 A1 A2.
    apply wp_bind, (wp_fft_out f _ _ (pre_dct3_fft tw (vals m b))); cbn [cbase clen];
        [exact Hc|reflexivity|reflexivity|lia| |].
    + intros j Hj. unfold pre_dct3_fft, at_. rewrite vals_length, Hb.
      destruct (Nat.eqb_spec j 0).
      * subst j. rewrite !A2 by (intros; lia). rewrite nth_vals by lia. unfold m0, c_from. cbn [fst snd].
        rewrite Nat.mul_0_r, !Nat.add_0_r. split.
        -- rewrite upd_other by lia. rewrite upd_same. repeat f_equal; lia.
        -- rewrite upd_same. reflexivity.
      * rewrite !nth_vals by lia. apply A1. lia.
    + cbv zeta. set (Z := fft_out f _). intros m2 B1 B2. fold (even_end L).
      apply wp_bind, (wp_for_wr (base b) (fun i => i * 2) (fun i => fst (nth i Z c0))).
      * intros; lia.
      * unfold even_end. intros i m' Hi Hm K HK. wpi c0. wpi c0. cbn [cbase].
        rewrite Hm by (intros; dj Hd). rewrite (proj1 (B1 i ltac:(lia))). exact HK.
      * intros m3 C1 C2.
        match goal with |- wp ?p _ ?Q => assert (Hodd : forall m4,
           (forall j, j < L / 2 -> m4 (base b + (odd_end L - 2 * j)) =  fst (nth (j + even_end L) Z c0)) ->
           (forall q, (forall i, 0 <= i < L / 2 -> q <> base b + (odd_end L - 2 * i)) -> m4 q = m3 q) -> Q tt m4) end.
        -- intros m4 D1 D2. unfold even_end, odd_end in * . split.
           ++ intros k Hk. unfold sem_dct3_fft, unfold_pos, is_odd, even_end, odd_end. rewrite vals_length, Hb. fold L. fold Z.
              destruct (Nat.eqb_spec (k mod 2) 0) as [Hk2|Hk2].
              ** rewrite D2 by (intros; lia). replace k with (k / 2 * 2) at 1 by lia. apply C1. lia.
              ** replace k with (L - 1 - L mod 2 - 2 * ((L - 1 - L mod 2 - k) / 2)) at 1 by lia. apply D1. lia.
           ++ intros q Hq1 Hq2. rewrite D2 by (intros; lia). rewrite C2 by (intros; lia).
              rewrite B2 by lia. rewrite A2 by (intros; lia). apply Hm0; lia.
        -- destruct (Nat.ltb_spec 1 L).
           ++ wpi c0. wpi c0.
              apply (wp_for_wr (base b) (fun i => odd_end L - 2 * i) (fun i =>  fst (nth (i + even_end L) Z c0))).
              ** unfold odd_end. intros; lia.
              ** unfold even_end, odd_end. intros i m' Hi Hm K HK. wpi c0. wpi c0. wpi c0. cbn [cbase].
                 rewrite Hm by (intros; dj Hd). rewrite C2 by (unfold even_end; intros; dj Hd).
                 rewrite (proj1 (B1 (i + (L + 1) / 2) ltac:(lia))). exact HK.
              ** intros m4 D1 D2. apply Hodd; [intros; apply D1; lia|exact D2].
           ++ wpi c0. apply Hodd; [intros; lia|auto].
Qed.

Lemma sem_dst3_fft_ok f tw :
  0 < fft_len f -> length tw = fft_len f -> fft_clean f ->
  computes (Type2And3ConvertToFft_dst3 (mkT23Fft f tw (2 * (fft_len f + fft_scratch f))))
    (fft_len f) (2 * (fft_len f + fft_scratch f)) (sem_dst3_fft f tw).
Proof.
  intros Hpos Htw Hc. set (L := fft_len f) in * .
  intros m b s Hb Hs Hd. unfold Type2And3ConvertToFft_dst3, Type2And3ConvertToFft_len. cbn [t23f_tw t23f_scratch t23f_fft]; rewrite Htw.
  apply validate_buffers_ok; [exact Hb|exact Hs|]. cbv beta zeta.
  rewrite (fft_scratch_split L (fft_scratch f)) by lia. wpi c0. cbn [cbase clen].
  replace (L + fft_scratch f - L) with (fft_scratch f) by lia.

  rewrite Hb. wpi c0. wpi c0. wpi c0. cbn [cbase].
  set (m0 := upd (upd m _ _) _ _).
  assert (Hm0 : forall q, q <> base s -> q <> base s + 1 -> m0 q = m q).
  { intros q H1 H2. unfold m0. rewrite !upd_other by lia. reflexivity. }
  replace (Nat.min L L) with L by lia.
  apply wp_bind, (wp_for_cwr (base s) (fun i => i) (fun i => c_scale (c_mul (m (base b + (L - i - 1)), m (base b + (i - 1))) (nth i tw c0)) half)).
  - auto.
  - intros i m' Hi Hm K HK. do 7 wpi c0. cbn [cbase].
    rewrite !Hm by (intros; dj Hd). rewrite !Hm0 by dj Hd. exact HK.
  - intros m1 A1 A2.
    apply wp_bind, (wp_fft_out f _ _ (pre_dst3_fft tw (vals m b))); cbn [cbase clen];
        [exact Hc|reflexivity|reflexivity|lia| |].
    + intros j Hj. unfold pre_dst3_fft, at_. rewrite vals_length, Hb.
      destruct (Nat.eqb_spec j 0).
      * subst j. rewrite !A2 by (intros; lia). rewrite nth_vals by lia. unfold m0, c_from. cbn [fst snd].
        rewrite Nat.mul_0_r, !Nat.add_0_r. split.
        -- rewrite upd_other by lia. rewrite upd_same. repeat f_equal; lia.
        -- rewrite upd_same. reflexivity.
      * rewrite !nth_vals by lia. apply A1. lia.
    + cbv zeta. set (Z := fft_out f _). intros m2 B1 B2. fold (even_end L).
      apply wp_bind, (wp_for_wr (base b) (fun i => i * 2) (fun i => fst (nth i Z c0))).
      * intros; lia.
      * unfold even_end. intros i m' Hi Hm K HK. wpi c0. wpi c0. cbn [cbase].
        rewrite Hm by (intros; dj Hd). rewrite (proj1 (B1 i ltac:(lia))). exact HK.
      * intros m3 C1 C2.
        match goal with |- wp ?p _ ?Q => assert (Hodd : forall m4,
           (forall j, j < L / 2 -> m4 (base b + (odd_end L - 2 * j)) = -. fst (nth (j + even_end L) Z c0)) ->
           (forall q, (forall i, 0 <= i < L / 2 -> q <> base b + (odd_end L - 2 * i)) -> m4 q = m3 q) -> Q tt m4) end.
        -- intros m4 D1 D2. unfold even_end, odd_end in * . split.
           ++ intros k Hk. unfold sem_dst3_fft, unfold_pos, is_odd, even_end, odd_end. rewrite vals_length, Hb. fold L. fold Z.
              cbv zeta. destruct (Nat.eqb_spec (k mod 2) 0) as [Hk2|Hk2].
              ** replace (k mod 2 =? 1) with false by (symmetry; apply Nat.eqb_neq; lia). rewrite D2 by (intros; lia). replace k with (k / 2 * 2) at 1 by lia. apply C1. lia.
              ** replace (k mod 2 =? 1) with true by (symmetry; apply Nat.eqb_eq; lia). replace k with (L - 1 - L mod 2 - 2 * ((L - 1 - L mod 2 - k) / 2)) at 1 by lia. apply D1. lia.
           ++ intros q Hq1 Hq2. rewrite D2 by (intros; lia). rewrite C2 by (intros; lia).
              rewrite B2 by lia. rewrite A2 by (intros; lia). apply Hm0; lia.
        -- destruct (Nat.ltb_spec 1 L).
           ++ wpi c0. wpi c0.
              apply (wp_for_wr (base b) (fun i => odd_end L - 2 * i) (fun i => -. fst (nth (i + even_end L) Z c0))).
              ** unfold odd_end. intros; lia.
              ** unfold even_end, odd_end. intros i m' Hi Hm K HK. wpi c0. wpi c0. wpi c0. cbn [cbase].
                 rewrite Hm by (intros; dj Hd). rewrite C2 by (unfold even_end; intros; dj Hd).
                 rewrite (proj1 (B1 (i + (L + 1) / 2) ltac:(lia))). exact HK.
              ** intros m4 D1 D2. apply Hodd; [intros; apply D1; lia|exact D2].
           ++ wpi c0. apply Hodd; [intros; lia|auto].
Qed.

End SemFft.
