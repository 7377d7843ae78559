(** Split radix: DCT3, DST2 and DST3; type 4 of even length through type 3. *)
From Coq Require Import List Arith Lia Bool ZArith ZifyNat.
From Verif Require Import Prog Num Model_Common Model_SplitRadix Wp Sem_Naive Sem_Split.
Import ListNotations.
Ltac Zify.zify_post_hook ::= Z.div_mod_to_equations.

Section SemSplit2.
Context {T F : Type} {N : Num T F}.
Open Scope num_scope.

Section SR3.
Variables (H3 Q3 : list T -> nat -> T).
Variable tw : list (T * T).
Let q := length tw.

Definition sr_n1 (x : list T) (i : nat) : T :=
  if i =? 0 then at_ x 1 *. two else at_ x (4 * i - 1) +. at_ x (4 * i + 1).
Definition sr_n3 (x : list T) (j : nat) : T :=
  if j =? 0 then at_ x (4 * q - 1) *. two
  else at_ x (4 * (q - j) - 1) -. at_ x (4 * (q - j) + 1).
Definition sr_sine (S : nat -> T) i : T := if i mod 2 =? 0 then S i else -. S i.
Definition sr_low (C S : nat -> T) i : T :=
  C i *. fst (nth i tw cc0) +. sr_sine S i *. snd (nth i tw cc0).
Definition sr_upp (C S : nat -> T) i : T :=
  C i *. snd (nth i tw cc0) -. sr_sine S i *. fst (nth i tw cc0).

Definition sem_sr_dct3 (x : list T) (k : nat) : T :=
  let A := H3 (map (fun i => at_ x (2 * i)) (seq 0 (2 * q))) in
  let C := Q3 (map (sr_n1 x) (seq 0 q)) in
  let S := Q3 (map (sr_n3 x) (seq 0 q)) in
  if k <? q then A k +. sr_low C S k
  else if k <? 2 * q then A k +. sr_upp C S (2 * q - k - 1)
  else if k <? 3 * q then A (4 * q - k - 1) -. sr_upp C S (k - 2 * q)
  else A (4 * q - k - 1) -. sr_low C S (4 * q - k - 1).

Lemma sem_sr_dct3_ok (half quarter : t23 T) slh slq :
  0 < q -> slh <= 4 * q -> slq <= 4 * q ->
  computes (t_dct3 half) (2 * q) slh H3 -> computes (t_dct3 quarter) q slq Q3 ->
  computes (Type2And3SplitRadix_dct3 (mkT23Split half quarter tw)) (4 * q) (4 * q) sem_sr_dct3.
Proof.
  intros Hq Hslh Hslq Ch Cq m b s Hb Hs Hd.
  unfold Type2And3SplitRadix_dct3, Type2And3SplitRadix_scratch, Type2And3SplitRadix_len. cbn [sr_tw sr_half sr_quarter].
  fold q. replace (q * 4) with (4 * q) by lia.
  apply validate_buffers_ok; [exact Hb|exact Hs|]. cbv zeta. rewrite Hb.
  replace (4 * q / 2) with (2 * q) by lia. replace (4 * q / 4) with q by lia.
  wpi cc0. cbn [base slen]. wpi cc0. cbn [base slen].
  replace (4 * q - 2 * q - q) with q by lia.
  destruct b as [bb bl], s as [sb sl]. cbn [base slen] in Hb, Hs |- * . subst bl.
  unfold disj in Hd; cbn [base slen] in Hd.
  set (x := vals m (mkS bb (4 * q))).
  assert (Hx : forall i, i < 4 * q -> m (bb + i) = at_ x i).
  { intros i Hi. unfold at_, x. rewrite nth_vals by exact Hi. reflexivity. }
  do 9 (wpi cc0; cbn [base slen]).
  rewrite !(upd_other _ _ _ (bb + _)) by lia. rewrite !Hx by lia.
  set (m0 := upd _ _ _).
  assert (M0 : forall p, bb <= p < bb + 4 * q -> m0 p = m p).
  { intros p Hp. unfold m0. rewrite !upd_other by lia. reflexivity. }
  apply wp_bind, (wp_for_par
    (fun i p => p = sb + i * 2 \/ p = sb + (i * 2 + 1) \/ p = sb + 2 * q + i \/ p = sb + 2 * q + q + (q - i))
    (fun i p => if p =? sb + i * 2 then at_ x (4 * i) else if p =? sb + (i * 2 + 1) then at_ x (4 * i + 2)
                else if p =? sb + 2 * q + i then at_ x (4 * i - 1) +. at_ x (4 * i + 1)
                else at_ x (4 * i - 1) -. at_ x (4 * i + 1))).
  { intros. lia. }
  { intros i m' Hi Hm.
    assert (Hm' : forall j, j < 4 * q -> m' (bb + j) = at_ x j).
    { intros j Hj. rewrite Hm by (intros; lia). rewrite M0 by lia. apply Hx. exact Hj. }
    repeat (wpi cc0; cbn [base slen]).
    rewrite !(upd_other _ _ _ (bb + _)) by lia. rewrite !Hm' by lia.
    split.
    - intros p Hp. adr_cases p; reflexivity.
    - intros p Hp. rewrite !upd_other by lia. reflexivity. }
  intros m1 W1 K1.
  assert (A1 : forall i, i < 2 * q -> m1 (sb + i) = at_ x (2 * i)).
  { intros i Hi. destruct (lt_dec i 2).
    - rewrite K1 by (intros; lia). unfold m0. rewrite !upd_other by lia.
      destruct (Nat.eq_dec i 0) as [->|].
      + rewrite upd_other by lia. rewrite upd_same. reflexivity.
      + replace i with 1 by lia. rewrite upd_same. reflexivity.
    - rewrite (W1 (i / 2)) by lia.
      destruct (Nat.eqb_spec (sb + i) (sb + i / 2 * 2)); [f_equal; lia|].
      destruct (Nat.eqb_spec (sb + i) (sb + (i / 2 * 2 + 1))); [f_equal; lia|lia]. }
  assert (A2 : forall i, i < q -> m1 (sb + 2 * q + i) = sr_n1 x i).
  { intros i Hi. unfold sr_n1. destruct (Nat.eqb_spec i 0) as [->|].
    - rewrite K1 by (intros; lia). unfold m0. rewrite upd_other by lia. rewrite upd_same. reflexivity.
    - rewrite (W1 i) by lia.
      destruct (Nat.eqb_spec (sb + 2 * q + i) (sb + i * 2)); [lia|].
      destruct (Nat.eqb_spec (sb + 2 * q + i) (sb + (i * 2 + 1))); [lia|].
      rewrite Nat.eqb_refl. reflexivity. }
  assert (A3 : forall i, i < q -> m1 (sb + 2 * q + q + i) = sr_n3 x i).
  { intros i Hi. unfold sr_n3. destruct (Nat.eqb_spec i 0) as [->|].
    - rewrite K1 by (intros; lia). unfold m0. rewrite upd_same. reflexivity.
    - rewrite (W1 (q - i)) by lia.
      destruct (Nat.eqb_spec (sb + 2 * q + q + i) (sb + (q - i) * 2)); [lia|].
      destruct (Nat.eqb_spec (sb + 2 * q + q + i) (sb + ((q - i) * 2 + 1))); [lia|].
      destruct (Nat.eqb_spec (sb + 2 * q + q + i) (sb + 2 * q + (q - i))); [lia|]. reflexivity. }
  clear W1.
  apply wp_bind, (wp_inner _ _ _ _ (fun i => at_ x (2 * i)) _ _ _ _ Ch); cbn [base slen];
    [reflexivity|lia|unfold disj; cbn [base slen]; lia|exact A1|].
  intros m2 B1 K2.
  apply wp_bind, (wp_inner _ _ _ _ (sr_n1 x) _ _ _ _ Cq); cbn [base slen];
    [reflexivity|lia|unfold disj; cbn [base slen]; lia|intros i Hi; rewrite K2 by lia; apply A2, Hi|].
  intros m3 B2 K3.
  apply wp_bind, (wp_inner _ _ _ _ (sr_n3 x) _ _ _ _ Cq); cbn [base slen];
    [reflexivity|lia|unfold disj; cbn [base slen]; lia|intros i Hi; rewrite K3, K2 by lia; apply A3, Hi|].
  intros m4 B3 K4.
  remember (H3 (map (fun i => at_ x (2 * i)) (seq 0 (2 * q)))) as A eqn:EA.
  remember (Q3 (map (sr_n1 x) (seq 0 q))) as C eqn:EC. remember (Q3 (map (sr_n3 x) (seq 0 q))) as S_ eqn:ES.
  assert (C1 : forall i, i < 2 * q -> m4 (sb + i) = A i).
  { intros i Hi. rewrite K4, K3 by lia. apply B1, Hi. }
  assert (C2 : forall i, i < q -> m4 (sb + 2 * q + i) = C i).
  { intros i Hi. rewrite K4 by lia. apply B2, Hi. }
  assert (C3 : forall i, i < q -> m4 (sb + 2 * q + q + i) = S_ i) by exact B3.
  assert (CK : forall p, ~ (bb <= p < bb + 4 * q) -> ~ (sb <= p < sb + 4 * q) -> m4 p = m p).
  { intros p H1 H_2. rewrite K4, K3, K2, K1 by lia. unfold m0. rewrite !upd_other by lia. reflexivity. }
  clear A1 A2 A3 B1 B2 B3 K1 K2 K3 K4 Ch Cq M0. clear m0.
  apply (wp_for_par
    (fun i p => p = bb + i \/ p = bb + (4 * q - i - 1) \/ p = bb + (2 * q - i - 1) \/ p = bb + (2 * q + i))
    (fun i p => if p =? bb + i then A i +. sr_low C S_ i
                else if p =? bb + (4 * q - i - 1) then A i -. sr_low C S_ i
                else if p =? bb + (2 * q - i - 1) then A (2 * q - i - 1) +. sr_upp C S_ i
                else A (2 * q - i - 1) -. sr_upp C S_ i)).
  { intros. lia. }
  { intros i m' Hi Hm.
    assert (S : forall p, sb <= p < sb + 4 * q -> m' p = m4 p).
    { intros p Hp. apply Hm. intros; lia. }
    wpi cc0. wpi cc0; cbn [base slen]. rewrite S, C2 by lia.
    apply wp_bind, (wp_conseq _ m' (fun v m'' => v = sr_sine S_ i /\ m'' = m')).
    { unfold sr_sine. destruct (i mod 2 =? 0).
      - wpi cc0; cbn [base slen]. rewrite S, C3 by lia. auto.
      - do 2 (wpi cc0; cbn [base slen]). rewrite S, C3 by lia. auto. }
    intros v m'' [-> ->].
    repeat (wpi cc0; cbn [base slen]).
    rewrite !S by lia. rewrite !C1 by lia.
    split.
    - intros p Hp. adr_cases p; reflexivity.
    - intros p Hp. rewrite !upd_other by lia. reflexivity. }
  intros m6 W6 K6.
  split.
  - intros k Hk. unfold sem_sr_dct3. cbv zeta. fold x. rewrite <- EA, <- EC, <- ES.
    destruct (Nat.ltb_spec k q); [|destruct (Nat.ltb_spec k (2 * q)); [|destruct (Nat.ltb_spec k (3 * q))]].
    + rewrite (W6 k) by lia. rewrite Nat.eqb_refl. reflexivity.
    + rewrite (W6 (2 * q - k - 1)) by lia.
      destruct (Nat.eqb_spec (bb + k) (bb + (2 * q - k - 1))); [lia|].
      destruct (Nat.eqb_spec (bb + k) (bb + (4 * q - (2 * q - k - 1) - 1))); [lia|].
      destruct (Nat.eqb_spec (bb + k) (bb + (2 * q - (2 * q - k - 1) - 1))); [|lia].
      do 2 f_equal. lia.
    + rewrite (W6 (k - 2 * q)) by lia.
      destruct (Nat.eqb_spec (bb + k) (bb + (k - 2 * q))); [lia|].
      destruct (Nat.eqb_spec (bb + k) (bb + (4 * q - (k - 2 * q) - 1))); [lia|].
      destruct (Nat.eqb_spec (bb + k) (bb + (2 * q - (k - 2 * q) - 1))); [lia|].
      do 2 f_equal. lia.
    + rewrite (W6 (4 * q - k - 1)) by lia.
      destruct (Nat.eqb_spec (bb + k) (bb + (4 * q - k - 1))); [lia|].
      destruct (Nat.eqb_spec (bb + k) (bb + (4 * q - (4 * q - k - 1) - 1))); [reflexivity|lia].
  - intros p H1 H_2. rewrite K6 by (intros; lia). apply CK; assumption.
Qed.
End SR3.

(** ** DST2 and DST3 by sign changes and a reversal *)
Definition neg_odd (x : list T) (i : nat) : T := if i mod 2 =? 0 then at_ x i else -. at_ x i.

Lemma wp_neg_odd bb n m (Q : unit -> mem T -> Prop) :
  n mod 2 = 0 ->
  (forall m', (forall i, i < n -> m' (bb + i) = if i mod 2 =? 0 then m (bb + i) else -. m (bb + i)) ->
     (forall p, ~ (bb <= p < bb + n) -> m' p = m p) -> Q tt m') ->
  wp (for_range 0 (n / 2) (fun i => v <- rd (mkS bb n) (2 * i + 1) ;; wr (mkS bb n) (2 * i + 1) (-. v))) m Q.
Proof.
  intros Hn HQ.
  apply (wp_for_wr bb (fun i => 2 * i + 1) (fun i => -. m (bb + (2 * i + 1)))).
  - intros. lia.
  - intros i m' Hi Hm K HK. wpi zero. wpi zero. cbn [base]. rewrite Hm by (intros; lia). exact HK.
  - intros m' W K. apply HQ.
    + intros i Hi. destruct (Nat.eqb_spec (i mod 2) 0).
      * apply K. intros. lia.
      * replace i with (2 * (i / 2) + 1) by lia. rewrite W by lia. reflexivity.
    + intros p Hp. apply K. intros. lia.
Qed.

Definition sem_sr_dst2 (n : nat) (G : list T -> nat -> T) (x : list T) (k : nat) : T :=
  G (map (neg_odd x) (seq 0 n)) (n - 1 - k).
Definition sem_sr_dst3 (n : nat) (G : list T -> nat -> T) (x : list T) (k : nat) : T :=
  let y := map (fun i => at_ x (n - 1 - i)) (seq 0 n) in
  if k mod 2 =? 0 then G y k else -. G y k.

Lemma sem_sr_dst2_ok (self : t23_split T) sl G :
  let n := Type2And3SplitRadix_len self in
  computes (Type2And3SplitRadix_dct2 self) n sl G ->
  computes (Type2And3SplitRadix_dst2 self) n sl (sem_sr_dst2 n G).
Proof.
  intros n Hc m [bb bl] [sb sl'] Hb Hs Hd. cbn [base slen] in * . subst bl.
  assert (Hn : n mod 2 = 0) by (unfold n, Type2And3SplitRadix_len; lia).
  unfold Type2And3SplitRadix_dst2. fold n.
  apply wp_bind, wp_neg_odd; [exact Hn|]. intros m1 A1 K1.
  apply wp_bind. eapply (wp_inner _ n sl G (neg_odd (vals m (mkS bb n)))); [exact Hc|reflexivity|exact Hs|exact Hd| |].
  { cbn [base]. intros i Hi. rewrite A1 by exact Hi. unfold neg_odd, at_. rewrite nth_vals by exact Hi. reflexivity. }
  cbn [base slen]. intros m2 A2 K2. apply wp_reverse. cbn [base slen]. intros m3 A3 K3. split.
  - intros i Hi. rewrite A3 by exact Hi. rewrite A2 by lia. reflexivity.
  - intros p H1 H2. rewrite K3, K2, K1 by assumption. reflexivity.
Qed.

Lemma sem_sr_dst3_ok (self : t23_split T) sl G :
  let n := Type2And3SplitRadix_len self in
  computes (Type2And3SplitRadix_dct3 self) n sl G ->
  computes (Type2And3SplitRadix_dst3 self) n sl (sem_sr_dst3 n G).
Proof.
  intros n Hc m [bb bl] [sb sl'] Hb Hs Hd. cbn [base slen] in * . subst bl.
  assert (Hn : n mod 2 = 0) by (unfold n, Type2And3SplitRadix_len; lia).
  unfold Type2And3SplitRadix_dst3. fold n.
  apply wp_bind, wp_reverse. cbn [base slen]. intros m1 A1 K1.
  apply wp_bind.
  eapply (wp_inner _ n sl G (fun i => at_ (vals m (mkS bb n)) (n - 1 - i))); [exact Hc|reflexivity|exact Hs|exact Hd| |].
  { cbn [base]. intros i Hi. rewrite A1 by exact Hi. unfold at_. rewrite nth_vals by (cbn [slen]; lia). reflexivity. }
  cbn [base slen]. intros m2 A2 K2. apply wp_neg_odd; [exact Hn|]. intros m3 A3 K3. split.
  - intros i Hi. rewrite A3 by exact Hi. unfold sem_sr_dst3. cbv zeta. rewrite A2 by exact Hi. reflexivity.
  - intros p H1 H2. rewrite K3, K2, K1 by assumption. reflexivity.
Qed.

(** ** Type 4 of even length *)
Section T4E.
Variables (C3 S3 : list T -> nat -> T).          (* inner DCT3 and DST3 *)
Variable tw : list (T * T).
Let q := length tw.

Definition t4e_l (x : list T) (k : nat) : T :=
  if k =? 0 then at_ x 0 *. two else at_ x (2 * k - 1) +. at_ x (2 * k).
Definition t4e_r (x : list T) (j : nat) : T :=
  if j =? q - 1 then at_ x (2 * q - 1) *. two else at_ x (2 * j + 1) -. at_ x (2 * j + 2).
Definition t4e_l' (x : list T) (j : nat) : T :=
  if j =? q - 1 then at_ x (2 * q - 1) *. two else at_ x (2 * j + 1) +. at_ x (2 * j + 2).
Definition t4e_r' (x : list T) (k : nat) : T :=
  if k =? 0 then at_ x 0 *. two else at_ x (2 * k) -. at_ x (2 * k - 1).

Definition sem_t4e_dct4 (x : list T) (k : nat) : T :=
  let L := C3 (map (t4e_l x) (seq 0 q)) in
  let R := S3 (map (t4e_r x) (seq 0 q)) in
  if k <? q then L k *. fst (nth k tw cc0) +. R k *. snd (nth k tw cc0)
  else let i := 2 * q - 1 - k in L i *. snd (nth i tw cc0) -. R i *. fst (nth i tw cc0).
Definition sem_t4e_dst4 (x : list T) (k : nat) : T :=
  let L := S3 (map (t4e_l' x) (seq 0 q)) in
  let R := C3 (map (t4e_r' x) (seq 0 q)) in
  if k <? q then L k *. fst (nth k tw cc0) +. R k *. snd (nth k tw cc0)
  else let i := 2 * q - 1 - k in R i *. fst (nth i tw cc0) -. L i *. snd (nth i tw cc0).

(** What is needed of the scratch size: room for the inner instance in the rest
    of the scratch, or in the buffer when there is no rest. *)
Definition t4e_room (isl sl : nat) : Prop :=
  2 * q <= sl /\ (sl = 2 * q /\ isl <= 2 * q \/ 2 * q < sl /\ isl <= sl - 2 * q).

Lemma sem_t4e_dct4_ok (inner : t23 T) sl isl :
  0 < q -> t4e_room isl sl ->
  computes (t_dct3 inner) q isl C3 -> computes (t_dst3 inner) q isl S3 ->
  computes (Type4ConvertToType3Even_dct4 (mkT4Even inner tw sl)) (2 * q) sl sem_t4e_dct4.
Proof.
  intros Hq [Hsl Hroom] Cc Cs m [bb bl] [sb sl'] Hb Hs Hd. cbn [base slen] in * . subst bl.
  unfold Type4ConvertToType3Even_dct4, Type4ConvertToType3Even_len. cbn [t4e_tw t4e_inner t4e_scratch].
  fold q. replace (q * 2) with (2 * q) by lia.
  apply validate_buffers_ok; [reflexivity|exact Hs|]. cbn [base slen].
  wpi cc0. cbv zeta. cbn [base slen]. replace (2 * q / 2) with q by lia. wpi cc0. cbn [base slen].
  replace (2 * q - q) with q by lia.
  unfold disj in Hd; cbn [base slen] in Hd.
  set (x := vals m (mkS bb (2 * q))).
  assert (Hx : forall i, i < 2 * q -> m (bb + i) = at_ x i).
  { intros i Hi. unfold at_, x. rewrite nth_vals by exact Hi. reflexivity. }
  do 2 (wpi cc0; cbn [base slen]). rewrite (Hx 0) by lia.
  set (m0 := upd _ _ _).
  apply wp_bind, (wp_for_par
    (fun i p => p = sb + i \/ p = sb + q + (i - 1))
    (fun i p => if p =? sb + i then at_ x (2 * i - 1) +. at_ x (2 * i) else at_ x (2 * i - 1) -. at_ x (2 * i))).
  { intros. lia. }
  { intros i m' Hi Hm.
    assert (Hm' : forall j, j < 2 * q -> m' (bb + j) = at_ x j).
    { intros j Hj. rewrite Hm by (intros; lia). unfold m0. rewrite upd_other by lia. apply Hx. exact Hj. }
    repeat (wpi cc0; cbn [base slen]).
    rewrite !(upd_other _ _ _ (bb + _)) by lia. rewrite !Hm' by lia.
    split.
    - intros p Hp. adr_cases p; reflexivity.
    - intros p Hp. rewrite !upd_other by lia. reflexivity. }
  intros m1 W1 K1.
  do 4 (wpi cc0; cbn [base slen]).
  rewrite (K1 (bb + _)) by (intros; lia). unfold m0 at 1. rewrite (upd_other _ _ _ (bb + _)) by lia. rewrite Hx by lia.
  set (m2 := upd _ _ _).
  assert (A1 : forall i, i < q -> m2 (sb + i) = t4e_l x i).
  { intros i Hi. unfold m2. rewrite upd_other by lia. unfold t4e_l. destruct (Nat.eqb_spec i 0) as [->|].
    - rewrite K1 by (intros; lia). unfold m0. apply upd_same.
    - rewrite (W1 i) by lia. rewrite Nat.eqb_refl. reflexivity. }
  assert (A2 : forall i, i < q -> m2 (sb + q + i) = t4e_r x i).
  { intros i Hi. unfold m2, t4e_r. destruct (Nat.eqb_spec i (q - 1)) as [->|].
    - apply upd_same.
    - rewrite upd_other by lia. rewrite (W1 (i + 1)) by lia.
      destruct (Nat.eqb_spec (sb + q + i) (sb + (i + 1))); [lia|]. do 2 f_equal; lia. }
  assert (CK2 : forall p, ~ (bb <= p < bb + 2 * q) -> ~ (sb <= p < sb + sl) -> m2 p = m p).
  { intros p H1 H_2. unfold m2. rewrite upd_other by lia. rewrite K1 by (intros; lia). unfold m0. apply upd_other. lia. }
  clear W1 K1. clearbody m2. clear m0 m1.
  set (isc := if 0 <? sl - 2 * q then _ else _).
  assert (Hisc : isl <= slen isc /\ slen isc <= sl /\
     (base isc = bb /\ slen isc = 2 * q \/ base isc = sb + 2 * q /\ slen isc = sl - 2 * q)).
  { unfold isc. destruct (Nat.ltb_spec 0 (sl - 2 * q)); cbn [slen base]; lia. }
  destruct isc as [ib il]; cbn [base slen] in Hisc. destruct Hisc as (I1 & I2 & I3).
  apply wp_bind, (wp_inner _ _ _ _ (t4e_l x) _ _ _ _ Cc); cbn [base slen];
    [reflexivity|lia|unfold disj; cbn [base slen]; lia|exact A1|].
  intros m3 B1 K3.
  apply wp_bind, (wp_inner _ _ _ _ (t4e_r x) _ _ _ _ Cs); cbn [base slen];
    [reflexivity|lia|unfold disj; cbn [base slen]; lia|intros i Hi; rewrite K3 by lia; apply A2, Hi|].
  intros m4 B2 K4.
  remember (C3 (map (t4e_l x) (seq 0 q))) as L eqn:EL. remember (S3 (map (t4e_r x) (seq 0 q))) as R eqn:ER.
  assert (D1 : forall i, i < q -> m4 (sb + i) = L i).
  { intros i Hi. rewrite K4 by lia. apply B1, Hi. }
  assert (CK4 : forall p, ~ (bb <= p < bb + 2 * q) -> ~ (sb <= p < sb + sl) -> m4 p = m p).
  { intros p H1 H_2. rewrite K4, K3 by lia. apply CK2; assumption. }
  clear A1 A2 B1 K3 K4 CK2 Cc Cs.
  apply (wp_for_par
    (fun i p => p = bb + i \/ p = bb + (2 * q - 1 - i))
    (fun i p => if p =? bb + i then L i *. fst (nth i tw cc0) +. R i *. snd (nth i tw cc0)
                else L i *. snd (nth i tw cc0) -. R i *. fst (nth i tw cc0))).
  { intros. lia. }
  { intros i m' Hi Hm.
    repeat (wpi cc0; cbn [base slen]).
    rewrite !(Hm (sb + _)) by (intros; lia). rewrite !(Hm (sb + q + _)) by (intros; lia). rewrite D1, B2 by lia.
    split.
    - intros p Hp. adr_cases p; reflexivity.
    - intros p Hp. rewrite !upd_other by lia. reflexivity. }
  intros m6 W6 K6.
  split.
  - intros k Hk. unfold sem_t4e_dct4. cbv zeta. fold x. rewrite <- EL, <- ER.
    destruct (Nat.ltb_spec k q).
    + rewrite (W6 k) by lia. rewrite Nat.eqb_refl. reflexivity.
    + rewrite (W6 (2 * q - 1 - k)) by lia.
      destruct (Nat.eqb_spec (bb + k) (bb + (2 * q - 1 - k))); [lia|]. reflexivity.
  - intros p H1 H_2. rewrite K6 by (intros; lia). apply CK4; assumption.
Qed.

Lemma sem_t4e_dst4_ok (inner : t23 T) sl isl :
  0 < q -> t4e_room isl sl ->
  computes (t_dct3 inner) q isl C3 -> computes (t_dst3 inner) q isl S3 ->
  computes (Type4ConvertToType3Even_dst4 (mkT4Even inner tw sl)) (2 * q) sl sem_t4e_dst4.
Proof.
  intros Hq [Hsl Hroom] Cc Cs m [bb bl] [sb sl'] Hb Hs Hd. cbn [base slen] in * . subst bl.
  unfold Type4ConvertToType3Even_dst4, Type4ConvertToType3Even_len. cbn [t4e_tw t4e_inner t4e_scratch].
  fold q. replace (q * 2) with (2 * q) by lia.
  apply validate_buffers_ok; [reflexivity|exact Hs|]. cbn [base slen].
  wpi cc0. cbv zeta. cbn [base slen]. replace (2 * q / 2) with q by lia. wpi cc0. cbn [base slen].
  replace (2 * q - q) with q by lia.
  unfold disj in Hd; cbn [base slen] in Hd.
  set (x := vals m (mkS bb (2 * q))).
  assert (Hx : forall i, i < 2 * q -> m (bb + i) = at_ x i).
  { intros i Hi. unfold at_, x. rewrite nth_vals by exact Hi. reflexivity. }
  do 2 (wpi cc0; cbn [base slen]). rewrite (Hx 0) by lia.
  set (m0 := upd _ _ _).
  apply wp_bind, (wp_for_par
    (fun i p => p = sb + (i - 1) \/ p = sb + q + i)
    (fun i p => if p =? sb + (i - 1) then at_ x (2 * i - 1) +. at_ x (2 * i) else at_ x (2 * i) -. at_ x (2 * i - 1))).
  { intros. lia. }
  { intros i m' Hi Hm.
    assert (Hm' : forall j, j < 2 * q -> m' (bb + j) = at_ x j).
    { intros j Hj. rewrite Hm by (intros; lia). unfold m0. rewrite upd_other by lia. apply Hx. exact Hj. }
    repeat (wpi cc0; cbn [base slen]).
    rewrite !(upd_other _ _ _ (bb + _)) by lia. rewrite !Hm' by lia.
    split.
    - intros p Hp. adr_cases p; reflexivity.
    - intros p Hp. rewrite !upd_other by lia. reflexivity. }
  intros m1 W1 K1.
  do 4 (wpi cc0; cbn [base slen]).
  rewrite (K1 (bb + _)) by (intros; lia). unfold m0 at 1. rewrite (upd_other _ _ _ (bb + _)) by lia. rewrite Hx by lia.
  set (m2 := upd _ _ _).
  assert (A1 : forall i, i < q -> m2 (sb + i) = t4e_l' x i).
  { intros i Hi. unfold m2, t4e_l'. destruct (Nat.eqb_spec i (q - 1)) as [->|].
    - apply upd_same.
    - rewrite upd_other by lia. rewrite (W1 (i + 1)) by lia.
      replace (i + 1 - 1) with i by lia. rewrite Nat.eqb_refl. do 2 f_equal; lia. }
  assert (A2 : forall i, i < q -> m2 (sb + q + i) = t4e_r' x i).
  { intros i Hi. unfold m2. rewrite upd_other by lia. unfold t4e_r'. destruct (Nat.eqb_spec i 0) as [->|].
    - rewrite K1 by (intros; lia). unfold m0. apply upd_same.
    - rewrite (W1 i) by lia. destruct (Nat.eqb_spec (sb + q + i) (sb + (i - 1))); [lia|reflexivity]. }
  assert (CK2 : forall p, ~ (bb <= p < bb + 2 * q) -> ~ (sb <= p < sb + sl) -> m2 p = m p).
  { intros p H1 H_2. unfold m2. rewrite upd_other by lia. rewrite K1 by (intros; lia). unfold m0. apply upd_other. lia. }
  clear W1 K1. clearbody m2. clear m0 m1.
  set (isc := if 0 <? sl - 2 * q then _ else _).
  assert (Hisc : isl <= slen isc /\ slen isc <= sl /\
     (base isc = bb /\ slen isc = 2 * q \/ base isc = sb + 2 * q /\ slen isc = sl - 2 * q)).
  { unfold isc. destruct (Nat.ltb_spec 0 (sl - 2 * q)); cbn [slen base]; lia. }
  destruct isc as [ib il]; cbn [base slen] in Hisc. destruct Hisc as (I1 & I2 & I3).
  apply wp_bind, (wp_inner _ _ _ _ (t4e_l' x) _ _ _ _ Cs); cbn [base slen];
    [reflexivity|lia|unfold disj; cbn [base slen]; lia|exact A1|].
  intros m3 B1 K3.
  apply wp_bind, (wp_inner _ _ _ _ (t4e_r' x) _ _ _ _ Cc); cbn [base slen];
    [reflexivity|lia|unfold disj; cbn [base slen]; lia|intros i Hi; rewrite K3 by lia; apply A2, Hi|].
  intros m4 B2 K4.
  remember (S3 (map (t4e_l' x) (seq 0 q))) as L eqn:EL. remember (C3 (map (t4e_r' x) (seq 0 q))) as R eqn:ER.
  assert (D1 : forall i, i < q -> m4 (sb + i) = L i).
  { intros i Hi. rewrite K4 by lia. apply B1, Hi. }
  assert (CK4 : forall p, ~ (bb <= p < bb + 2 * q) -> ~ (sb <= p < sb + sl) -> m4 p = m p).
  { intros p H1 H_2. rewrite K4, K3 by lia. apply CK2; assumption. }
  clear A1 A2 B1 K3 K4 CK2 Cc Cs.
  apply (wp_for_par
    (fun i p => p = bb + i \/ p = bb + (2 * q - 1 - i))
    (fun i p => if p =? bb + i then L i *. fst (nth i tw cc0) +. R i *. snd (nth i tw cc0)
                else R i *. fst (nth i tw cc0) -. L i *. snd (nth i tw cc0))).
  { intros. lia. }
  { intros i m' Hi Hm.
    repeat (wpi cc0; cbn [base slen]).
    rewrite !(Hm (sb + _)) by (intros; lia). rewrite !(Hm (sb + q + _)) by (intros; lia). rewrite D1, B2 by lia.
    split.
    - intros p Hp. adr_cases p; reflexivity.
    - intros p Hp. rewrite !upd_other by lia. reflexivity. }
  intros m6 W6 K6.
  split.
  - intros k Hk. unfold sem_t4e_dst4. cbv zeta. fold x. rewrite <- EL, <- ER.
    destruct (Nat.ltb_spec k q).
    + rewrite (W6 k) by lia. rewrite Nat.eqb_refl. reflexivity.
    + rewrite (W6 (2 * q - 1 - k)) by lia.
      destruct (Nat.eqb_spec (bb + k) (bb + (2 * q - 1 - k))); [lia|]. reflexivity.
  - intros p H1 H_2. rewrite K6 by (intros; lia). apply CK4; assumption.
Qed.
End T4E.

End SemSplit2.
