(** What the FFT based DST6, DST7 and odd-length type 4 algorithms compute. *)
From Coq Require Import List Arith Lia Bool ZArith ZifyNat.
From Verif Require Import Prog Num Model_Common Model_Fft Spec_Fft Wp Sem_Naive Sem_Fft.
Import ListNotations.
Ltac Zify.zify_post_hook ::= Z.div_mod_to_equations.

Section SemFft2.
Context {T F : Type} {N : Num T F}.
Open Scope num_scope.

Ltac dj H := unfold disj in H |- *; cbn [slen base clen cbase] in H |- *; try lia.

(** ** DST6 and DST7 *)
Definition pre_dst6_fft (x z : list T) (j : nat) : T * T :=
  (at_ z (2 * j), if is_odd j then at_ x (j / 2) else at_ z (2 * j + 1)).
Definition post_dst6_pos (n k : nat) : nat :=
  if is_odd k then k / 2 + 1 else n - k / 2.
Definition sem_dst6_fft (f : fft T) (x z : list T) (k : nat) : T :=
  fst (nth (post_dst6_pos (length x) k) (fft_out f (map (pre_dst6_fft x z) (seq 0 (fft_len f)))) c0).

(** Inputs in the upper half of the DST7 FFT buffer. *)
Definition up_dst7_fft (n : nat) (x : list T) (j : nat) : T * T :=
  let i := j - (n + 1) in
  if i <? (n + 1) / 2 then (at_ x (i * 2), zero)
  else (at_ x (2 * (n - (n + 1) / 2 - (i - (n + 1) / 2)) - 1), zero).
Definition pre_dst7_fft (x z : list T) (j : nat) : T * T :=
  let n := length x in
  if j =? 0 then (at_ z 0, at_ z 1)
  else if j <? n + 1 then c_neg (up_dst7_fft n x (2 * n + 1 - j))
  else up_dst7_fft n x j.
Definition sem_dst7_fft (f : fft T) (x z : list T) (k : nat) : T :=
  snd (nth (k * 2 + 1) (fft_out f (map (pre_dst7_fft x z) (seq 0 (fft_len f)))) c0) *. half.

Lemma Dst6And7ConvertToFft_new_inv (f : fft T) d :
  Dst6And7ConvertToFft_new f = Ok d ->
  fft_len f mod 2 = 1 /\
  d = mkS67Fft f ((fft_len f - 1) / 2) (2 * (fft_len f + fft_scratch f)) (fft_len f).
Proof.
  unfold Dst6And7ConvertToFft_new, rassert, rsub.
  destruct (Nat.eqb_spec (fft_len f mod 2) 1) as [Ho|]; [|discriminate]. cbn [rbind].
  destruct (dir_eqb (fft_dir f) Forward); [|discriminate]. cbn [rbind].
  destruct (Nat.leb_spec 1 (fft_len f)); [|discriminate].
  intros E. apply Ok_inj in E. auto.
Qed.

Lemma sem_dst6_fft_ok (f : fft T) n :
  fft_len f = 2 * n + 1 -> fft_clean f ->
  computes2 (Dst6And7ConvertToFft_dst6 (mkS67Fft f n (2 * (fft_len f + fft_scratch f)) (fft_len f)))
    n (2 * (fft_len f + fft_scratch f)) (sem_dst6_fft f).
Proof.
  intros HL Hc. set (L := fft_len f) in * .
  intros m b s Hb Hs Hd. unfold Dst6And7ConvertToFft_dst6. cbn [s67f_len s67f_scratch s67f_inner s67f_fft].
  apply validate_buffers_ok; [exact Hb|exact Hs|]. cbv beta zeta.
  rewrite (fft_scratch_split L (fft_scratch f)) by lia. wpi c0. cbn [cbase clen].
  replace (L + fft_scratch f - L) with (fft_scratch f) by lia.

  set (z := vals m (mkS (base s) (2 * (L + fft_scratch f)))).
  rewrite Hb.
  apply wp_bind, (wp_for_wr (base s) (fun i => 2 * (i * 2 + 1) + 1) (fun i => m (base b + i))).
  - intros; lia.
  - intros i m' Hi Hm K HK. wpi c0. wpi c0. cbn [cbase]. rewrite Hm by (intros; dj Hd).
    replace (base s + 2 * (i * 2 + 1) + 1) with (base s + (2 * (i * 2 + 1) + 1)) by lia. exact HK.
  - intros m1 A1 A2.
    apply wp_bind, (wp_fft_out f _ _ (pre_dst6_fft (vals m b) z)); cbn [cbase clen];
        [exact Hc|reflexivity|reflexivity|lia| |].
    + intros j Hj. unfold pre_dst6_fft, is_odd, at_, z. cbn [fst snd].
      rewrite !(nth_vals m (mkS (base s) _)) by (cbn [slen]; lia). cbn [base].
      split; [rewrite A2 by (intros; lia); reflexivity|].
      destruct (Nat.eqb_spec (j mod 2) 1).
      * rewrite nth_vals by lia.
        replace (base s + 2 * j + 1) with (base s + (2 * (j / 2 * 2 + 1) + 1)) by lia. apply A1. lia.
      * rewrite A2 by (intros; lia). f_equal. lia.
    + cbv zeta. set (Z := fft_out f _). intros m2 B1 B2. wpi c0.
      apply wp_bind, (wp_for_wr (base b) (fun i => i * 2 + 1) (fun i => fst (nth (i + 1) Z c0))).
      * intros; lia.
      * intros i m' Hi Hm K HK. wpi c0. wpi c0. cbn [cbase].
        rewrite Hm by (intros; dj Hd). rewrite (proj1 (B1 (i + 1) ltac:(lia))). exact HK.
      * intros m3 C1 C2.
        apply (wp_for_wr (base b) (fun i => 2 * ((n + 1) / 2 - i - 1))
                 (fun i => fst (nth (i + (n - (n + 1) / 2) + 1) Z c0))).
        -- intros; lia.
        -- intros i m' Hi Hm K HK. wpi c0. wpi c0. wpi c0. wpi c0. cbn [cbase].
           rewrite Hm by (intros; dj Hd). rewrite C2 by (intros; dj Hd).
           rewrite (proj1 (B1 (i + (n - (n + 1) / 2) + 1) ltac:(lia))). exact HK.
        -- intros m4 D1 D2. split.
           ++ intros k Hk. unfold sem_dst6_fft, post_dst6_pos, is_odd. fold z. rewrite vals_length, Hb. fold L. fold Z.
              destruct (Nat.eqb_spec (k mod 2) 1).
              ** rewrite D2 by (intros; lia). replace k with (k / 2 * 2 + 1) at 1 by lia. apply C1. lia.
              ** pose proof (D1 ((n + 1) / 2 - 1 - k / 2) ltac:(lia)) as E.
                 replace (2 * ((n + 1) / 2 - ((n + 1) / 2 - 1 - k / 2) - 1)) with k in E by lia.
                 rewrite E. f_equal. f_equal. lia.
           ++ intros q Hq1 Hq2. rewrite D2 by (intros; lia). rewrite C2 by (intros; lia).
              rewrite B2 by lia. apply A2. intros; lia.
Qed.

Lemma sem_dst7_fft_ok (f : fft T) n :
  fft_len f = 2 * n + 1 -> fft_clean f ->
  computes2 (Dst6And7ConvertToFft_dst7 (mkS67Fft f n (2 * (fft_len f + fft_scratch f)) (fft_len f)))
    n (2 * (fft_len f + fft_scratch f)) (sem_dst7_fft f).
Proof.
  intros HL Hc. set (L := fft_len f) in * .
  intros m b s Hb Hs Hd. unfold Dst6And7ConvertToFft_dst7. cbn [s67f_len s67f_scratch s67f_inner s67f_fft].
  apply validate_buffers_ok; [exact Hb|exact Hs|]. cbv beta zeta.
  rewrite (fft_scratch_split L (fft_scratch f)) by lia. wpi c0. cbn [cbase clen].
  replace (L + fft_scratch f - L) with (fft_scratch f) by lia.

  set (z := vals m (mkS (base s) (2 * (L + fft_scratch f)))).
  rewrite Hb.
  apply wp_bind, (wp_for_cwr (base s) (fun i => n + 1 + i) (fun i => (m (base b + i * 2), zero))).
  - intros; lia.
  - intros i m' Hi Hm K HK. wpi c0. wpi c0. cbn [cbase]. rewrite Hm by (intros; dj Hd). exact HK.
  - intros m1 A1 A2. wpi c0. set (ev := (n + 1) / 2) in * .
    assert (Hev : 2 * ev = n \/ 2 * ev = n + 1) by (unfold ev; lia).
    apply wp_bind, (wp_for_cwr (base s) (fun i => n + ev + 1 + i)
      (fun i => (m (base b + (2 * (n - ev - i) - 1)), zero))).
    + intros; lia.
    + intros i m' Hi Hm K HK. wpi c0. wpi c0. wpi c0. wpi c0. cbn [cbase].
      rewrite Hm by (intros; dj Hd). rewrite A2 by (intros; dj Hd). exact HK.
    + intros m2 B1 B2.
      assert (Hup : forall j, n + 1 <= j < L ->
        m2 (base s + 2 * j) = fst (up_dst7_fft n (vals m b) j) /\
        m2 (base s + 2 * j + 1) = snd (up_dst7_fft n (vals m b) j)).
      { intros j Hj. unfold up_dst7_fft, at_. fold ev. destruct (Nat.ltb_spec (j - (n + 1)) ev).
        - rewrite nth_vals by lia. rewrite !B2 by (intros; lia).
          pose proof (A1 (j - (n + 1)) ltac:(lia)) as E. replace (n + 1 + (j - (n + 1))) with j in E by lia. exact E.
        - rewrite nth_vals by lia.
          pose proof (B1 (j - (n + 1) - ev) ltac:(lia)) as E.
          replace (n + ev + 1 + (j - (n + 1) - ev)) with j in E by lia. exact E. }
      apply wp_bind, (wp_for_cwr (base s) (fun i => i + 1) (fun i => c_neg (up_dst7_fft n (vals m b) (L - 1 - i)))).
      * intros; lia.
      * intros i m' Hi Hm K HK. wpi c0. wpi c0. wpi c0. wpi c0. cbn [cbase].
        rewrite !Hm by (intros; lia). rewrite (proj1 (Hup (L - 1 - i) ltac:(lia))), (proj2 (Hup (L - 1 - i) ltac:(lia))).
        rewrite <- surjective_pairing. exact HK.
      * intros m3 C1 C2.
        apply wp_bind, (wp_fft_out f _ _ (pre_dst7_fft (vals m b) z)); cbn [cbase clen];
          [exact Hc|reflexivity|reflexivity|lia| |].
        -- intros j Hj. unfold pre_dst7_fft. rewrite vals_length, Hb.
           destruct (Nat.eqb_spec j 0); [|destruct (Nat.ltb_spec j (n + 1))].
           ++ subst j. rewrite !C2 by (intros; lia). rewrite !B2 by (intros; lia). rewrite !A2 by (intros; lia).
              unfold at_, z. rewrite !nth_vals by (cbn [slen]; lia). cbn [fst snd base]. split; f_equal; lia.
           ++ pose proof (C1 (j - 1) ltac:(lia)) as E. replace (j - 1 + 1) with j in E by lia.
              replace (L - 1 - (j - 1)) with (2 * n + 1 - j) in E by lia. exact E.
           ++ rewrite !C2 by (intros; lia). apply Hup. lia.
        -- cbv zeta. set (Z := fft_out f _). intros m4 D1 D2.
           apply (wp_for_wr (base b) (fun i => i) (fun i => snd (nth (i * 2 + 1) Z c0) *. half)).
           ++ auto.
           ++ intros i m' Hi Hm K HK. wpi c0. wpi c0. cbn [cbase].
              rewrite Hm by (intros; dj Hd). rewrite (proj2 (D1 (i * 2 + 1) ltac:(lia))). exact HK.
           ++ intros m5 E1 E2. split; [intros; apply E1; lia|].
              intros q Hq1 Hq2. rewrite E2 by (intros; lia). rewrite D2 by lia. rewrite C2 by (intros; lia).
              rewrite B2 by (intros; lia). apply A2. intros; lia.
Qed.

(** ** Type 4, odd lengths *)

(** FFT input [t]: the signal extended past its end, sampled at [len/2 + 4 t]. *)
Definition ext4 (flip : bool) (x : list T) (p : nat) : T :=
  let len := length x in
  let q := p / len in let r := p mod len in
  let fwd := at_ x r in let bwd := at_ x (len - 1 - r) in
  let a := if flip then bwd else fwd in
  let b := if flip then fwd else bwd in
  if q =? 0 then a else if q =? 1 then -. b else if q =? 2 then -. a else if q =? 3 then b else a.
Definition pre_t4_fft (flip : bool) (x : list T) (t : nat) : T * T :=
  (ext4 flip x (length x / 2 + 4 * t), zero).

Fixpoint sgn (i : nat) : T := match i with 0 => one | S j => -. sgn j end.
Definition t4_scaled (Z : list (T * T)) (j i : nat) : T * T :=
  c_scale (nth j Z c0) (sgn i *. (sqrt_2 *. half)).
Definition t4_ssign (n : nat) : T := if n mod 4 =? 1 then one else -. one.

(** Output [k]; the two transforms differ in some signs. *)
Definition post_t4 (dst : bool) (n : nat) (Z : list (T * T)) (k : nat) : T :=
  let q := n / 4 in
  if k <? 2 * q then
    let i := k / 2 in
    if k mod 2 =? 0 then let c := t4_scaled Z (4 * i + 1) i in fst c +. snd c
    else let c := t4_scaled Z (4 * i + 3) i in
         if dst then fst c -. snd c else -. fst c +. snd c
  else if n - 1 - k <? 2 * q then
    let i := (n - 1 - k) / 2 in
    if (n - 1 - k) mod 2 =? 0 then let c := t4_scaled Z (4 * i + 1) i in (fst c -. snd c) *. t4_ssign n
    else let c := t4_scaled Z (4 * i + 3) i in
         if dst then -. (fst c +. snd c) *. t4_ssign n else (fst c +. snd c) *. t4_ssign n
  else if n mod 4 =? 1 then fst (nth 0 Z c0) *. sgn q *. (sqrt_2 *. half)
  else let c := t4_scaled Z (n - 2) q in
       if k =? n / 2 - 1 then fst c +. snd c
       else if k =? n / 2 + 1 then -. fst c +. snd c
       else if dst then fst (nth 0 Z c0) *. sgn q *. (sqrt_2 *. half)
       else -. fst (nth 0 Z c0) *. sgn q *. (sqrt_2 *. half).

Definition sem_t4_fft (dst : bool) (f : fft T) (x : list T) (k : nat) : T :=
  post_t4 dst (length x) (fft_out f (map (pre_t4_fft dst x) (seq 0 (fft_len f)))) k.

(** One of the five filling loops: loop [q] is at signal position [q*len + r]. *)
Definition t4_inv (len b0 : nat) (q : nat) (v : nat -> T) (m0 : mem T) (st : nat * nat) (m : mem T) : Prop :=
  len / 2 + 4 * snd st = q * len + fst st /\ snd st <= len /\
  (forall j, j < snd st -> m (b0 + 2 * j) = v j /\ m (b0 + 2 * j + 1) = zero) /\
  (forall p, ~ (b0 <= p < b0 + 2 * len) -> m p = m0 p).

Lemma wp_t4_fill len b0 q v m0 (cond : nat * nat -> bool) (body : nat * nat -> prog T (nat * nat)) st m
  (Q : nat * nat -> mem T -> Prop) :
  (forall st' m', t4_inv len b0 q v m0 st' m' -> cond st' = true ->
     snd st' < len /\
     forall K : nat * nat -> mem T -> Prop,
       K (fst st' + 4, snd st' + 1) (upd (upd m' (b0 + 2 * snd st') (v (snd st'))) (b0 + 2 * snd st' + 1) zero) ->
       wp (body st') m' K) ->
  t4_inv len b0 q v m0 st m ->
  (forall st' m', t4_inv len b0 q v m0 st' m' -> cond st' = false -> Q st' m') ->
  wp (while_ (S len) cond body st) m Q.
Proof.
  intros Hb HI HQ.
  apply (wp_while (t4_inv len b0 q v m0) (fun st => len - snd st)); [exact HI|lia| |exact HQ].
  intros [r t] m' HI' Hc. destruct (Hb _ _ HI' Hc) as [Ht Hwp]. apply Hwp. clear Hwp Hb HQ.
  destruct HI' as (E1 & E2 & E3 & E4). unfold t4_inv. cbn [fst snd] in * . split; [|lia].
  split; [lia|]. split; [lia|]. split.
  - intros j Hj. destruct (Nat.eq_dec j t) as [->|Hne].
    + rewrite upd_same. rewrite upd_other by lia. rewrite upd_same. auto.
    + rewrite !upd_other by lia. apply E3. lia.
  - intros p Hp. rewrite !upd_other by lia. apply E4. exact Hp.
Qed.

Lemma div_mod_seg q r len : r < len -> (q * len + r) / len = q /\ (q * len + r) mod len = r.
Proof.
  intros H. split.
  - symmetry. apply (Nat.div_unique _ _ q r); [exact H|lia].
  - symmetry. apply (Nat.mod_unique _ _ q r); [exact H|lia].
Qed.

Lemma wp_t4_next len b0 q v m0 st m :
  t4_inv len b0 q v m0 st m -> len <= fst st -> t4_inv len b0 (S q) v m0 (fst st - len, snd st) m.
Proof.
  intros (E1 & E2 & E3 & E4) H. unfold t4_inv. cbn [fst snd]. repeat split; auto; try lia; apply E3; auto.
Qed.

Lemma post_t4_a dst n Z i : i < n / 4 ->
  post_t4 dst n Z (i * 2) = fst (t4_scaled Z (4 * i + 1) i) +. snd (t4_scaled Z (4 * i + 1) i).
Proof.
  intros Hi. unfold post_t4. rewrite (proj2 (Nat.ltb_lt _ _)) by lia.
  replace (i * 2 mod 2) with 0 by lia. replace (i * 2 / 2) with i by lia. reflexivity.
Qed.
Lemma post_t4_b dst n Z i : i < n / 4 ->
  post_t4 dst n Z (i * 2 + 1) =
  let c := t4_scaled Z (4 * i + 3) i in if dst then fst c -. snd c else -. fst c +. snd c.
Proof.
  intros Hi. unfold post_t4. rewrite (proj2 (Nat.ltb_lt _ _)) by lia.
  replace ((i * 2 + 1) mod 2) with 1 by lia. replace ((i * 2 + 1) / 2) with i by lia. reflexivity.
Qed.
Lemma post_t4_c dst n Z i : n mod 2 = 1 -> i < n / 4 ->
  post_t4 dst n Z (n - i * 2 - 2) =
  let c := t4_scaled Z (4 * i + 3) i in
  if dst then -. (fst c +. snd c) *. t4_ssign n else (fst c +. snd c) *. t4_ssign n.
Proof.
  intros Hn Hi. unfold post_t4. rewrite (proj2 (Nat.ltb_ge _ _)) by lia.
  rewrite (proj2 (Nat.ltb_lt _ _)) by lia.
  replace ((n - 1 - (n - i * 2 - 2)) mod 2) with 1 by lia.
  replace ((n - 1 - (n - i * 2 - 2)) / 2) with i by lia. reflexivity.
Qed.
Lemma post_t4_d dst n Z i : n mod 2 = 1 -> i < n / 4 ->
  post_t4 dst n Z (n - i * 2 - 1) =
  let c := t4_scaled Z (4 * i + 1) i in (fst c -. snd c) *. t4_ssign n.
Proof.
  intros Hn Hi. unfold post_t4. rewrite (proj2 (Nat.ltb_ge _ _)) by lia.
  rewrite (proj2 (Nat.ltb_lt _ _)) by lia.
  replace ((n - 1 - (n - i * 2 - 1)) mod 2) with 0 by lia.
  replace ((n - 1 - (n - i * 2 - 1)) / 2) with i by lia. reflexivity.
Qed.
Lemma post_t4_mid1 dst n Z : n mod 4 = 1 ->
  post_t4 dst n Z (n / 2) = fst (nth 0 Z c0) *. sgn (n / 4) *. (sqrt_2 *. half).
Proof.
  intros Hn. unfold post_t4. rewrite !(proj2 (Nat.ltb_ge _ _)) by lia. rewrite Hn. reflexivity.
Qed.
Lemma post_t4_mid3 dst n Z k : n mod 4 = 3 -> n / 2 - 1 <= k <= n / 2 + 1 ->
  post_t4 dst n Z k =
  let c := t4_scaled Z (n - 2) (n / 4) in
  if k =? n / 2 - 1 then fst c +. snd c
  else if k =? n / 2 + 1 then -. fst c +. snd c
  else if dst then fst (nth 0 Z c0) *. sgn (n / 4) *. (sqrt_2 *. half)
  else -. fst (nth 0 Z c0) *. sgn (n / 4) *. (sqrt_2 *. half).
Proof.
  intros Hn Hk. unfold post_t4. rewrite !(proj2 (Nat.ltb_ge _ _)) by lia. rewrite Hn. reflexivity.
Qed.

Lemma sem_dct4_fft_ok (f : fft T) :
  fft_len f mod 2 = 1 -> fft_clean f ->
  computes (Type4ConvertToFftOdd_dct4 (mkT4Fft f (fft_len f) (2 * (fft_len f + fft_scratch f))))
    (fft_len f) (2 * (fft_len f + fft_scratch f)) (sem_t4_fft false f).
Proof.
  intros Hodd Hc. set (L := fft_len f) in * .
  intros m b s Hb Hs Hd. unfold Type4ConvertToFftOdd_dct4. cbn [t4f_len t4f_scratch t4f_fft].
  apply validate_buffers_ok; [exact Hb|exact Hs|]. cbv beta zeta.
  rewrite (fft_scratch_split L (fft_scratch f)) by lia. wpi c0. cbn [cbase clen].
  replace (L + fft_scratch f - L) with (fft_scratch f) by lia.

  set (v := fun t => ext4 false (vals m b) (L / 2 + 4 * t)).
  apply wp_bind, (wp_t4_fill L (base s) 0 v m).
  { intros [r t] m' HI Hc'. cbn [fst snd] in Hc' |- * . destruct HI as (E1 & E2 & E3 & E4). cbn [fst snd] in * .
    apply Nat.ltb_lt in Hc'. assert (Hr : r < L) by lia. assert (Ht : t < L) by lia. split; [exact Ht|].
    intros K HK. do 2 wpi c0. wpi c0. cbn [cbase fst snd].
    rewrite E4 by dj Hd.
    assert (Ev : v t = m (base b + r)).
    { unfold v, ext4. rewrite vals_length, Hb. replace (L / 2 + 4 * t) with (0 * L + r) by lia.
      destruct (div_mod_seg 0 r L Hr) as [-> ->]. cbn [Nat.eqb]. unfold at_. rewrite nth_vals by lia.
      first [reflexivity | replace (L - r - 1) with (L - 1 - r) by lia; reflexivity]. }
    rewrite Ev in HK. exact HK. }
  { unfold t4_inv. cbn [fst snd]. split; [lia|]. split; [lia|]. split; [intros; lia|auto]. }
  intros st0 m1 HI0 Hx0. apply Nat.ltb_ge in Hx0. wpi c0.
  apply wp_bind, (wp_t4_fill L (base s) 1 v m).
  { intros [r t] m' HI Hc'. cbn [fst snd] in Hc' |- * . destruct HI as (E1 & E2 & E3 & E4). cbn [fst snd] in * .
    apply Nat.ltb_lt in Hc'. assert (Hr : r < L) by lia. assert (Ht : t < L) by lia. split; [exact Ht|].
    intros K HK. do 4 wpi c0. wpi c0. cbn [cbase fst snd].
    rewrite E4 by dj Hd.
    assert (Ev : v t = -. m (base b + (L - r - 1))).
    { unfold v, ext4. rewrite vals_length, Hb. replace (L / 2 + 4 * t) with (1 * L + r) by lia.
      destruct (div_mod_seg 1 r L Hr) as [-> ->]. cbn [Nat.eqb]. unfold at_. rewrite nth_vals by lia.
      first [reflexivity | replace (L - r - 1) with (L - 1 - r) by lia; reflexivity]. }
    rewrite Ev in HK. exact HK. }
  { exact (wp_t4_next _ _ _ _ _ _ _ HI0 Hx0). }
  intros st1 m2 HI1 Hx1. apply Nat.ltb_ge in Hx1. wpi c0.
  apply wp_bind, (wp_t4_fill L (base s) 2 v m).
  { intros [r t] m' HI Hc'. cbn [fst snd] in Hc' |- * . destruct HI as (E1 & E2 & E3 & E4). cbn [fst snd] in * .
    apply Nat.ltb_lt in Hc'. assert (Hr : r < L) by lia. assert (Ht : t < L) by lia. split; [exact Ht|].
    intros K HK. do 2 wpi c0. wpi c0. cbn [cbase fst snd].
    rewrite E4 by dj Hd.
    assert (Ev : v t = -. m (base b + r)).
    { unfold v, ext4. rewrite vals_length, Hb. replace (L / 2 + 4 * t) with (2 * L + r) by lia.
      destruct (div_mod_seg 2 r L Hr) as [-> ->]. cbn [Nat.eqb]. unfold at_. rewrite nth_vals by lia.
      first [reflexivity | replace (L - r - 1) with (L - 1 - r) by lia; reflexivity]. }
    rewrite Ev in HK. exact HK. }
  { exact (wp_t4_next _ _ _ _ _ _ _ HI1 Hx1). }
  intros st2 m3 HI2 Hx2. apply Nat.ltb_ge in Hx2. wpi c0.
  apply wp_bind, (wp_t4_fill L (base s) 3 v m).
  { intros [r t] m' HI Hc'. cbn [fst snd] in Hc' |- * . destruct HI as (E1 & E2 & E3 & E4). cbn [fst snd] in * .
    apply Nat.ltb_lt in Hc'. assert (Hr : r < L) by lia. assert (Ht : t < L) by lia. split; [exact Ht|].
    intros K HK. do 4 wpi c0. wpi c0. cbn [cbase fst snd].
    rewrite E4 by dj Hd.
    assert (Ev : v t = m (base b + (L - r - 1))).
    { unfold v, ext4. rewrite vals_length, Hb. replace (L / 2 + 4 * t) with (3 * L + r) by lia.
      destruct (div_mod_seg 3 r L Hr) as [-> ->]. cbn [Nat.eqb]. unfold at_. rewrite nth_vals by lia.
      first [reflexivity | replace (L - r - 1) with (L - 1 - r) by lia; reflexivity]. }
    rewrite Ev in HK. exact HK. }
  { exact (wp_t4_next _ _ _ _ _ _ _ HI2 Hx2). }
  intros st3 m4 HI3 Hx3. apply Nat.ltb_ge in Hx3. wpi c0.
  apply wp_bind, (wp_t4_fill L (base s) 4 v m).
  { intros [r t] m' HI Hc'. cbn [fst snd] in Hc' |- * . destruct HI as (E1 & E2 & E3 & E4). cbn [fst snd] in * .
    apply Nat.ltb_lt in Hc'. assert (Hr : r < L) by lia. assert (Ht : t < L) by lia. split; [exact Ht|].
    intros K HK. do 2 wpi c0. wpi c0. cbn [cbase fst snd].
    rewrite E4 by dj Hd.
    assert (Ev : v t = m (base b + r)).
    { unfold v, ext4. rewrite vals_length, Hb. replace (L / 2 + 4 * t) with (4 * L + r) by lia.
      destruct (div_mod_seg 4 r L Hr) as [-> ->]. cbn [Nat.eqb]. unfold at_. rewrite nth_vals by lia.
      first [reflexivity | replace (L - r - 1) with (L - 1 - r) by lia; reflexivity]. }
    rewrite Ev in HK. exact HK. }
  { exact (wp_t4_next _ _ _ _ _ _ _ HI3 Hx3). }
  intros st4 m5 HI4 Hx4. apply Nat.ltb_ge in Hx4.

  destruct HI4 as (_ & E2 & E3 & E4). replace (snd st4) with L in E3 by lia.
  apply wp_bind, (wp_fft_out f _ _ (pre_t4_fft false (vals m b))); cbn [cbase clen];
    [exact Hc|reflexivity|reflexivity|lia| |].
  { intros j Hj. unfold pre_t4_fft. rewrite vals_length, Hb. cbn [fst snd]. apply E3. exact Hj. }
  cbv zeta. set (Z := fft_out f _). intros m6 F1 F2.
  fold (t4_ssign L).
  apply wp_bind. change one with (sgn 0).
  apply (wp_fold_par sgn
    (fun i q => q = base b + i * 2 \/ q = base b + (i * 2 + 1) \/ q = base b + (L - i * 2 - 2) \/ q = base b + (L - i * 2 - 1))
    (fun i q => post_t4 false L Z (q - base b))).
  - lia.
  - intros; lia.
  - intros i m' Hi Hm.
    do 10 wpi c0. cbn [cbase]. split; [reflexivity|].
    rewrite !Hm by (intros; dj Hd).
    rewrite (proj1 (F1 (4 * i + 1) ltac:(lia))), (proj2 (F1 (4 * i + 1) ltac:(lia))).
    rewrite (proj1 (F1 (4 * i + 3) ltac:(lia))), (proj2 (F1 (4 * i + 3) ltac:(lia))).
    rewrite <- !surjective_pairing. fold (t4_scaled Z (4 * i + 1) i). fold (t4_scaled Z (4 * i + 3) i).
    split.
    + assert (Hsub : forall y, base b + y - base b = y) by (intros; lia).
      intros q [-> | [-> | [-> | ->]]]; rewrite Hsub.
      * rewrite post_t4_a by lia. rewrite !upd_other by lia. apply upd_same.
      * rewrite post_t4_b by lia. rewrite !upd_other by lia. apply upd_same.
      * rewrite post_t4_c by lia. rewrite upd_other by lia. apply upd_same.
      * rewrite post_t4_d by lia. apply upd_same.
    + intros q Hq. rewrite !upd_other by lia. reflexivity.
  - intros m7 G1 G2.
    assert (Hdone : forall m8, (forall k, 2 * (L / 4) <= k < L - 2 * (L / 4) -> m8 (base b + k) = post_t4 false L Z k) ->
      (forall q, ~ (base b + 2 * (L / 4) <= q < base b + (L - 2 * (L / 4))) -> m8 q = m7 q) ->
      (forall i, i < L -> m8 (base b + i) = sem_t4_fft false f (vals m b) i) /\
      (forall q, ~ (base b <= q < base b + L) -> ~ (base s <= q < base s + 2 * (L + fft_scratch f)) -> m8 q = m q)).
    { intros m8 H1 H2. split.
      - intros k Hk. unfold sem_t4_fft. rewrite vals_length, Hb. fold L. fold Z.
        destruct (lt_dec k (2 * (L / 4))) as [Hl|Hl]; [|destruct (lt_dec k (L - 2 * (L / 4))) as [Hl2|Hl2]].
        + rewrite H2 by lia. rewrite (G1 (k / 2)) by lia. f_equal. lia.
        + apply H1. lia.
        + rewrite H2 by lia. rewrite (G1 ((L - 1 - k) / 2)) by lia. f_equal. lia.
      - intros q Hq1 Hq2. rewrite H2 by lia. rewrite G2 by (intros; lia). rewrite F2 by lia. apply E4. lia. }
    destruct (Nat.eqb_spec (L mod 4) 1) as [H4|H4].
    + wpi c0. wpi c0. cbn [cbase]. apply Hdone.
      * intros k Hk. replace k with (L / 2) by lia. rewrite upd_same, post_t4_mid1 by exact H4.
        rewrite G2 by (intros; dj Hd). rewrite (proj1 (F1 0 ltac:(lia))). reflexivity.
      * intros q Hq. apply upd_other. lia.
    + do 7 wpi c0. cbn [cbase]. apply Hdone.
      * assert (R0 : m7 (base s + 2 * 0) = fst (nth 0 Z c0)).
        { rewrite G2 by (intros; dj Hd). apply F1. lia. }
        assert (R1 : m7 (base s + 2 * (L - 2)) = fst (nth (L - 2) Z c0)).
        { rewrite G2 by (intros; dj Hd). apply F1. lia. }
        assert (R2 : m7 (base s + 2 * (L - 2) + 1) = snd (nth (L - 2) Z c0)).
        { rewrite G2 by (intros; dj Hd). apply F1. lia. }
        rewrite !(upd_other _ _ _ (base s + 2 * 0)) by dj Hd. rewrite R0, R1, R2.
        rewrite <- !surjective_pairing. fold (t4_scaled Z (L - 2) (L / 4)).
        intros k Hk. rewrite post_t4_mid3 by lia. cbv zeta.
        destruct (Nat.eqb_spec k (L / 2 - 1)); [|destruct (Nat.eqb_spec k (L / 2 + 1))].
        -- subst k. rewrite !upd_other by lia. rewrite upd_same. reflexivity.
        -- subst k. rewrite upd_other by lia. rewrite upd_same. reflexivity.
        -- replace k with (L / 2) by lia. rewrite upd_same. reflexivity.
      * intros q Hq. rewrite !upd_other by lia. reflexivity.
Qed.

Lemma sem_dst4_fft_ok (f : fft T) :
  fft_len f mod 2 = 1 -> fft_clean f ->
  computes (Type4ConvertToFftOdd_dst4 (mkT4Fft f (fft_len f) (2 * (fft_len f + fft_scratch f))))
    (fft_len f) (2 * (fft_len f + fft_scratch f)) (sem_t4_fft true f).
Proof.
  intros Hodd Hc. set (L := fft_len f) in * .
  intros m b s Hb Hs Hd. unfold Type4ConvertToFftOdd_dst4. cbn [t4f_len t4f_scratch t4f_fft].
  apply validate_buffers_ok; [exact Hb|exact Hs|]. cbv beta zeta.
  rewrite (fft_scratch_split L (fft_scratch f)) by lia. wpi c0. cbn [cbase clen].
  replace (L + fft_scratch f - L) with (fft_scratch f) by lia.

  set (v := fun t => ext4 true (vals m b) (L / 2 + 4 * t)).
  apply wp_bind, (wp_t4_fill L (base s) 0 v m).
  { intros [r t] m' HI Hc'. cbn [fst snd] in Hc' |- * . destruct HI as (E1 & E2 & E3 & E4). cbn [fst snd] in * .
    apply Nat.ltb_lt in Hc'. assert (Hr : r < L) by lia. assert (Ht : t < L) by lia. split; [exact Ht|].
    intros K HK. do 4 wpi c0. wpi c0. cbn [cbase fst snd].
    rewrite E4 by dj Hd.
    assert (Ev : v t = m (base b + (L - r - 1))).
    { unfold v, ext4. rewrite vals_length, Hb. replace (L / 2 + 4 * t) with (0 * L + r) by lia.
      destruct (div_mod_seg 0 r L Hr) as [-> ->]. cbn [Nat.eqb]. unfold at_. rewrite nth_vals by lia.
      first [reflexivity | replace (L - r - 1) with (L - 1 - r) by lia; reflexivity]. }
    rewrite Ev in HK. exact HK. }
  { unfold t4_inv. cbn [fst snd]. split; [lia|]. split; [lia|]. split; [intros; lia|auto]. }
  intros st0 m1 HI0 Hx0. apply Nat.ltb_ge in Hx0. wpi c0.
  apply wp_bind, (wp_t4_fill L (base s) 1 v m).
  { intros [r t] m' HI Hc'. cbn [fst snd] in Hc' |- * . destruct HI as (E1 & E2 & E3 & E4). cbn [fst snd] in * .
    apply Nat.ltb_lt in Hc'. assert (Hr : r < L) by lia. assert (Ht : t < L) by lia. split; [exact Ht|].
    intros K HK. do 2 wpi c0. wpi c0. cbn [cbase fst snd].
    rewrite E4 by dj Hd.
    assert (Ev : v t = -. m (base b + r)).
    { unfold v, ext4. rewrite vals_length, Hb. replace (L / 2 + 4 * t) with (1 * L + r) by lia.
      destruct (div_mod_seg 1 r L Hr) as [-> ->]. cbn [Nat.eqb]. unfold at_. rewrite nth_vals by lia.
      first [reflexivity | replace (L - r - 1) with (L - 1 - r) by lia; reflexivity]. }
    rewrite Ev in HK. exact HK. }
  { exact (wp_t4_next _ _ _ _ _ _ _ HI0 Hx0). }
  intros st1 m2 HI1 Hx1. apply Nat.ltb_ge in Hx1. wpi c0.
  apply wp_bind, (wp_t4_fill L (base s) 2 v m).
  { intros [r t] m' HI Hc'. cbn [fst snd] in Hc' |- * . destruct HI as (E1 & E2 & E3 & E4). cbn [fst snd] in * .
    apply Nat.ltb_lt in Hc'. assert (Hr : r < L) by lia. assert (Ht : t < L) by lia. split; [exact Ht|].
    intros K HK. do 4 wpi c0. wpi c0. cbn [cbase fst snd].
    rewrite E4 by dj Hd.
    assert (Ev : v t = -. m (base b + (L - r - 1))).
    { unfold v, ext4. rewrite vals_length, Hb. replace (L / 2 + 4 * t) with (2 * L + r) by lia.
      destruct (div_mod_seg 2 r L Hr) as [-> ->]. cbn [Nat.eqb]. unfold at_. rewrite nth_vals by lia.
      first [reflexivity | replace (L - r - 1) with (L - 1 - r) by lia; reflexivity]. }
    rewrite Ev in HK. exact HK. }
  { exact (wp_t4_next _ _ _ _ _ _ _ HI1 Hx1). }
  intros st2 m3 HI2 Hx2. apply Nat.ltb_ge in Hx2. wpi c0.
  apply wp_bind, (wp_t4_fill L (base s) 3 v m).
  { intros [r t] m' HI Hc'. cbn [fst snd] in Hc' |- * . destruct HI as (E1 & E2 & E3 & E4). cbn [fst snd] in * .
    apply Nat.ltb_lt in Hc'. assert (Hr : r < L) by lia. assert (Ht : t < L) by lia. split; [exact Ht|].
    intros K HK. do 2 wpi c0. wpi c0. cbn [cbase fst snd].
    rewrite E4 by dj Hd.
    assert (Ev : v t = m (base b + r)).
    { unfold v, ext4. rewrite vals_length, Hb. replace (L / 2 + 4 * t) with (3 * L + r) by lia.
      destruct (div_mod_seg 3 r L Hr) as [-> ->]. cbn [Nat.eqb]. unfold at_. rewrite nth_vals by lia.
      first [reflexivity | replace (L - r - 1) with (L - 1 - r) by lia; reflexivity]. }
    rewrite Ev in HK. exact HK. }
  { exact (wp_t4_next _ _ _ _ _ _ _ HI2 Hx2). }
  intros st3 m4 HI3 Hx3. apply Nat.ltb_ge in Hx3. wpi c0.
  apply wp_bind, (wp_t4_fill L (base s) 4 v m).
  { intros [r t] m' HI Hc'. cbn [fst snd] in Hc' |- * . destruct HI as (E1 & E2 & E3 & E4). cbn [fst snd] in * .
    apply Nat.ltb_lt in Hc'. assert (Hr : r < L) by lia. assert (Ht : t < L) by lia. split; [exact Ht|].
    intros K HK. do 4 wpi c0. wpi c0. cbn [cbase fst snd].
    rewrite E4 by dj Hd.
    assert (Ev : v t = m (base b + (L - r - 1))).
    { unfold v, ext4. rewrite vals_length, Hb. replace (L / 2 + 4 * t) with (4 * L + r) by lia.
      destruct (div_mod_seg 4 r L Hr) as [-> ->]. cbn [Nat.eqb]. unfold at_. rewrite nth_vals by lia.
      first [reflexivity | replace (L - r - 1) with (L - 1 - r) by lia; reflexivity]. }
    rewrite Ev in HK. exact HK. }
  { exact (wp_t4_next _ _ _ _ _ _ _ HI3 Hx3). }
  intros st4 m5 HI4 Hx4. apply Nat.ltb_ge in Hx4.

  destruct HI4 as (_ & E2 & E3 & E4). replace (snd st4) with L in E3 by lia.
  apply wp_bind, (wp_fft_out f _ _ (pre_t4_fft true (vals m b))); cbn [cbase clen];
    [exact Hc|reflexivity|reflexivity|lia| |].
  { intros j Hj. unfold pre_t4_fft. rewrite vals_length, Hb. cbn [fst snd]. apply E3. exact Hj. }
  cbv zeta. set (Z := fft_out f _). intros m6 F1 F2.
  fold (t4_ssign L).
  apply wp_bind. change one with (sgn 0).
  apply (wp_fold_par sgn
    (fun i q => q = base b + i * 2 \/ q = base b + (i * 2 + 1) \/ q = base b + (L - i * 2 - 2) \/ q = base b + (L - i * 2 - 1))
    (fun i q => post_t4 true L Z (q - base b))).
  - lia.
  - intros; lia.
  - intros i m' Hi Hm.
    do 10 wpi c0. cbn [cbase]. split; [reflexivity|].
    rewrite !Hm by (intros; dj Hd).
    rewrite (proj1 (F1 (4 * i + 1) ltac:(lia))), (proj2 (F1 (4 * i + 1) ltac:(lia))).
    rewrite (proj1 (F1 (4 * i + 3) ltac:(lia))), (proj2 (F1 (4 * i + 3) ltac:(lia))).
    rewrite <- !surjective_pairing. fold (t4_scaled Z (4 * i + 1) i). fold (t4_scaled Z (4 * i + 3) i).
    split.
    + assert (Hsub : forall y, base b + y - base b = y) by (intros; lia).
      intros q [-> | [-> | [-> | ->]]]; rewrite Hsub.
      * rewrite post_t4_a by lia. rewrite !upd_other by lia. apply upd_same.
      * rewrite post_t4_b by lia. rewrite !upd_other by lia. apply upd_same.
      * rewrite post_t4_c by lia. rewrite upd_other by lia. apply upd_same.
      * rewrite post_t4_d by lia. apply upd_same.
    + intros q Hq. rewrite !upd_other by lia. reflexivity.
  - intros m7 G1 G2.
    assert (Hdone : forall m8, (forall k, 2 * (L / 4) <= k < L - 2 * (L / 4) -> m8 (base b + k) = post_t4 true L Z k) ->
      (forall q, ~ (base b + 2 * (L / 4) <= q < base b + (L - 2 * (L / 4))) -> m8 q = m7 q) ->
      (forall i, i < L -> m8 (base b + i) = sem_t4_fft true f (vals m b) i) /\
      (forall q, ~ (base b <= q < base b + L) -> ~ (base s <= q < base s + 2 * (L + fft_scratch f)) -> m8 q = m q)).
    { intros m8 H1 H2. split.
      - intros k Hk. unfold sem_t4_fft. rewrite vals_length, Hb. fold L. fold Z.
        destruct (lt_dec k (2 * (L / 4))) as [Hl|Hl]; [|destruct (lt_dec k (L - 2 * (L / 4))) as [Hl2|Hl2]].
        + rewrite H2 by lia. rewrite (G1 (k / 2)) by lia. f_equal. lia.
        + apply H1. lia.
        + rewrite H2 by lia. rewrite (G1 ((L - 1 - k) / 2)) by lia. f_equal. lia.
      - intros q Hq1 Hq2. rewrite H2 by lia. rewrite G2 by (intros; lia). rewrite F2 by lia. apply E4. lia. }
    destruct (Nat.eqb_spec (L mod 4) 1) as [H4|H4].
    + wpi c0. wpi c0. cbn [cbase]. apply Hdone.
      * intros k Hk. replace k with (L / 2) by lia. rewrite upd_same, post_t4_mid1 by exact H4.
        rewrite G2 by (intros; dj Hd). rewrite (proj1 (F1 0 ltac:(lia))). reflexivity.
      * intros q Hq. apply upd_other. lia.
    + do 7 wpi c0. cbn [cbase]. apply Hdone.
      * assert (R0 : m7 (base s + 2 * 0) = fst (nth 0 Z c0)).
        { rewrite G2 by (intros; dj Hd). apply F1. lia. }
        assert (R1 : m7 (base s + 2 * (L - 2)) = fst (nth (L - 2) Z c0)).
        { rewrite G2 by (intros; dj Hd). apply F1. lia. }
        assert (R2 : m7 (base s + 2 * (L - 2) + 1) = snd (nth (L - 2) Z c0)).
        { rewrite G2 by (intros; dj Hd). apply F1. lia. }
        rewrite !(upd_other _ _ _ (base s + 2 * 0)) by dj Hd. rewrite R0, R1, R2.
        rewrite <- !surjective_pairing. fold (t4_scaled Z (L - 2) (L / 4)).
        intros k Hk. rewrite post_t4_mid3 by lia. cbv zeta.
        destruct (Nat.eqb_spec k (L / 2 - 1)); [|destruct (Nat.eqb_spec k (L / 2 + 1))].
        -- subst k. rewrite !upd_other by lia. rewrite upd_same. reflexivity.
        -- subst k. rewrite upd_other by lia. rewrite upd_same. reflexivity.
        -- replace k with (L / 2) by lia. rewrite upd_same. reflexivity.
      * intros q Hq. rewrite !upd_other by lia. reflexivity.
Qed.

End SemFft2.
