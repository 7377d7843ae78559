(** What the split radix algorithm and the type 4 via type 3 algorithm compute,
    for any numeric type, in terms of what their inner instances compute. *)
From Coq Require Import List Arith Lia Bool ZArith ZifyNat.
From Verif Require Import Prog Num Model_Common Model_SplitRadix Wp Sem_Naive.
Import ListNotations.
Ltac Zify.zify_post_hook ::= Z.div_mod_to_equations.

(** Decide which of the addresses written is [p]. *)
Ltac adr_cases p :=
  unfold upd;
  repeat match goal with
  | |- context [Nat.eqb p ?b] => destruct (Nat.eqb_spec p b); try lia
  end.

Section SemSplit.
Context {T F : Type} {N : Num T F}.
Open Scope num_scope.

(** Calling an inner instance on a slice whose contents are known. *)
Lemma wp_inner (p : meth T) n sl G g b s m (Q : unit -> mem T -> Prop) :
  computes p n sl G -> slen b = n -> sl <= slen s -> disj b s ->
  (forall i, i < n -> m (base b + i) = g i) ->
  (forall m', (forall i, i < n -> m' (base b + i) = G (map g (seq 0 n)) i) ->
     (forall q, ~ (base b <= q < base b + n) -> ~ (base s <= q < base s + sl) -> m' q = m q) ->
     Q tt m') ->
  wp (p b s) m Q.
Proof.
  intros Hc Hb Hs Hd Hg HQ. eapply wp_conseq; [apply Hc; assumption|].
  intros [] m' [A B]. apply HQ.
  - intros i Hi. rewrite A by exact Hi. f_equal. apply vals_map; assumption.
  - intros q H1 H2. apply B; assumption.
Qed.

Definition cc0 : T * T := (zero, zero).
Definition even_b (i : nat) : bool := i mod 2 =? 0.

(** ** Split radix *)
Section SR.
Variables (H2 Q2 : list T -> nat -> T).   (* inner DCT2, half and quarter *)
Variable tw : list (T * T).
Let q := length tw.

Definition sr_lower (x : list T) i := at_ x i -. at_ x (4 * q - i - 1).
Definition sr_upper (x : list T) i := at_ x (2 * q - i - 1) -. at_ x (2 * q + i).
Definition sr_in2 (x : list T) (i : nat) : T :=
  if i <? q then at_ x (4 * q - i - 1) +. at_ x i
  else at_ x i +. at_ x (4 * q - i - 1).
Definition sr_cos (x : list T) i : T :=
  sr_lower x i *. fst (nth i tw cc0) +. sr_upper x i *. snd (nth i tw cc0).
Definition sr_sin (x : list T) i : T :=
  sr_upper x i *. fst (nth i tw cc0) -. sr_lower x i *. snd (nth i tw cc0).
Definition sr_odd (x : list T) (j : nat) : T :=
  let i := q - j - 1 in if i mod 2 =? 0 then sr_sin x i else -. sr_sin x i.
Definition sr_sinout (O : nat -> T) i : T :=
  if (i + q) mod 2 =? 0 then -. O (q - i) else O (q - i).

Definition sem_sr_dct2 (x : list T) (k : nat) : T :=
  let D := H2 (map (sr_in2 x) (seq 0 (2 * q))) in
  let E := Q2 (map (sr_cos x) (seq 0 q)) in
  let O := Q2 (map (sr_odd x) (seq 0 q)) in
  if k mod 2 =? 0 then D (k / 2)
  else if k mod 4 =? 1
       then if k =? 1 then E 0 else E (k / 4) -. sr_sinout O (k / 4)
       else if k =? 4 * q - 1 then -. O 0 else E (k / 4 + 1) +. sr_sinout O (k / 4 + 1).

Lemma sem_sr_dct2_ok (half quarter : t23 T) slh slq :
  0 < q -> slh <= 4 * q -> slq <= 4 * q ->
  computes (t_dct2 half) (2 * q) slh H2 -> computes (t_dct2 quarter) q slq Q2 ->
  computes (Type2And3SplitRadix_dct2 (mkT23Split half quarter tw)) (4 * q) (4 * q) sem_sr_dct2.
Proof.
  intros Hq Hslh Hslq Ch Cq m b s Hb Hs Hd.
  unfold Type2And3SplitRadix_dct2, Type2And3SplitRadix_scratch, Type2And3SplitRadix_len. cbn [sr_tw sr_half sr_quarter].
  fold q. replace (q * 4) with (4 * q) by lia.
  apply validate_buffers_ok; [exact Hb|exact Hs|]. cbv zeta.
  replace (4 * q / 2) with (2 * q) by lia. replace (4 * q / 4) with q by lia.
  wpi cc0. cbn [base slen]. wpi cc0. cbn [base slen].
  replace (4 * q - 2 * q - q) with q by lia.
  destruct b as [bb bl], s as [sb sl]. cbn [base slen] in Hb, Hs |- * . subst bl.
  unfold disj in Hd; cbn [base slen] in Hd.
  set (x := vals m (mkS bb (4 * q))).
  assert (Hx : forall i, i < 4 * q -> m (bb + i) = at_ x i).
  { intros i Hi. unfold at_, x. rewrite nth_vals by exact Hi. reflexivity. }
  apply wp_bind.
  apply (wp_for_par
    (fun i p => p = sb + i \/ p = sb + (2 * q - i - 1) \/ p = sb + 2 * q + i \/ p = sb + 2 * q + q + (q - i - 1))
    (fun i p => if p =? sb + i then sr_in2 x i else if p =? sb + (2 * q - i - 1) then sr_in2 x (2 * q - i - 1)
                else if p =? sb + 2 * q + i then sr_cos x i else sr_odd x (q - i - 1))).
  { intros. lia. }
  { intros i m' Hi Hm.
    assert (Hm' : forall j, j < 4 * q -> m' (bb + j) = at_ x j).
    { intros j Hj. rewrite Hm by (intros; lia). apply Hx. exact Hj. }
    repeat (wpi cc0; cbn [base slen]; fold q).
    rewrite !Hm' by lia.
    split.
    - intros p Hp. adr_cases p; subst.
      + unfold sr_odd. cbv zeta. replace (q - (q - i - 1) - 1) with i by lia.
        unfold sr_sin, sr_upper, sr_lower. reflexivity.
      + reflexivity.
      + unfold sr_in2. rewrite (proj2 (Nat.ltb_ge _ _)) by lia. do 2 f_equal. lia.
      + unfold sr_in2. rewrite (proj2 (Nat.ltb_lt _ _)) by lia. reflexivity.
    - intros p Hp. rewrite !upd_other by lia. reflexivity. }
  intros m1 W1 K1.
  assert (A1 : forall i, i < 2 * q -> m1 (sb + i) = sr_in2 x i).
  { intros i Hi. destruct (lt_dec i q).
    - rewrite (W1 i) by lia. rewrite Nat.eqb_refl. reflexivity.
    - rewrite (W1 (2 * q - i - 1)) by lia.
      destruct (Nat.eqb_spec (sb + i) (sb + (2 * q - i - 1))); [lia|].
      replace (2 * q - (2 * q - i - 1) - 1) with i by lia. rewrite Nat.eqb_refl. reflexivity. }
  assert (A2 : forall i, i < q -> m1 (sb + 2 * q + i) = sr_cos x i).
  { intros i Hi. rewrite (W1 i) by lia.
    destruct (Nat.eqb_spec (sb + 2 * q + i) (sb + i)); [lia|].
    destruct (Nat.eqb_spec (sb + 2 * q + i) (sb + (2 * q - i - 1))); [lia|].
    rewrite Nat.eqb_refl. reflexivity. }
  assert (A3 : forall i, i < q -> m1 (sb + 2 * q + q + i) = sr_odd x i).
  { intros i Hi. rewrite (W1 (q - i - 1)) by lia.
    destruct (Nat.eqb_spec (sb + 2 * q + q + i) (sb + (q - i - 1))); [lia|].
    destruct (Nat.eqb_spec (sb + 2 * q + q + i) (sb + (2 * q - (q - i - 1) - 1))); [lia|].
    destruct (Nat.eqb_spec (sb + 2 * q + q + i) (sb + 2 * q + (q - i - 1))); [lia|].
    f_equal. lia. }
  clear W1.
  apply wp_bind, (wp_inner _ _ _ _ (sr_in2 x) _ _ _ _ Ch); cbn [base slen];
    [reflexivity|lia|unfold disj; cbn [base slen]; lia|exact A1|].
  intros m2 B1 K2.
  apply wp_bind, (wp_inner _ _ _ _ (sr_cos x) _ _ _ _ Cq); cbn [base slen];
    [reflexivity|lia|unfold disj; cbn [base slen]; lia|intros i Hi; rewrite K2 by lia; apply A2, Hi|].
  intros m3 B2 K3.
  apply wp_bind, (wp_inner _ _ _ _ (sr_odd x) _ _ _ _ Cq); cbn [base slen];
    [reflexivity|lia|unfold disj; cbn [base slen]; lia|intros i Hi; rewrite K3, K2 by lia; apply A3, Hi|].
  intros m4 B3 K4.
  remember (H2 (map (sr_in2 x) (seq 0 (2 * q)))) as D eqn:ED.
  remember (Q2 (map (sr_cos x) (seq 0 q))) as E eqn:EE. remember (Q2 (map (sr_odd x) (seq 0 q))) as O eqn:EO.
  assert (C1 : forall i, i < 2 * q -> m4 (sb + i) = D i).
  { intros i Hi. rewrite K4, K3 by lia. apply B1, Hi. }
  assert (C2 : forall i, i < q -> m4 (sb + 2 * q + i) = E i).
  { intros i Hi. rewrite K4 by lia. apply B2, Hi. }
  assert (C3 : forall i, i < q -> m4 (sb + 2 * q + q + i) = O i) by exact B3.
  assert (CK : forall p, ~ (bb <= p < bb + 4 * q) -> ~ (sb <= p < sb + 4 * q) -> m4 p = m p).
  { intros p H1 H_2. rewrite K4, K3, K2, K1 by lia. reflexivity. }
  clear A1 A2 A3 B1 B2 B3 K1 K2 K3 K4 Ch Cq.
  do 6 (wpi cc0; cbn [base slen]).
  rewrite !(upd_other _ _ _ (sb + 1)), !(upd_other _ _ _ (sb + 2 * q + 0)), (C1 0), (C1 1), (C2 0) by lia.
  set (m5 := upd _ _ _).
  assert (M5 : forall p, ~ (p = bb + 0 \/ p = bb + 1 \/ p = bb + 2) -> m5 p = m4 p).
  { intros p Hp. unfold m5. rewrite !upd_other by lia. reflexivity. }
  apply wp_bind, (wp_for_par
    (fun i p => p = bb + (i * 4 - 1) \/ p = bb + i * 4 \/ p = bb + (i * 4 + 1) \/ p = bb + (i * 4 + 2))
    (fun i p => if p =? bb + (i * 4 - 1) then E i +. sr_sinout O i
                else if p =? bb + i * 4 then D (i * 2)
                else if p =? bb + (i * 4 + 1) then E i -. sr_sinout O i else D (i * 2 + 1))).
  { intros. lia. }
  { intros i m' Hi Hm.
    assert (S : forall p, sb <= p < sb + 4 * q -> m' p = m4 p).
    { intros p Hp. rewrite Hm by (intros; lia). apply M5. lia. }
    wpi cc0; cbn [base slen]. rewrite S, C2 by lia.
    apply wp_bind, (wp_conseq _ m' (fun v m'' => v = sr_sinout O i /\ m'' = m')).
    { unfold sr_sinout. destruct ((i + q) mod 2 =? 0).
      - do 3 (wpi cc0; cbn [base slen]). rewrite S, C3 by lia. auto.
      - wpi cc0. wpi cc0. cbn [base slen]. rewrite S, C3 by lia. auto. }
    intros v m'' [-> ->].
    repeat (wpi cc0; cbn [base slen]).
    rewrite !(upd_other _ _ _ (sb + i * 2)), !(upd_other _ _ _ (sb + (i * 2 + 1))) by lia.
    rewrite !S by lia. rewrite !C1 by lia.
    split.
    - intros p Hp. adr_cases p; reflexivity.
    - intros p Hp. rewrite !upd_other by lia. reflexivity. }
  intros m6 W6 K6.
  do 2 (wpi cc0; cbn [base slen]). wpi cc0; cbn [base slen].
  rewrite (K6 (sb + 2 * q + q + 0)), (M5 (sb + 2 * q + q + 0)), (C3 0) by lia.
  split.
  - intros k Hk. unfold sem_sr_dct2. cbv zeta.
    fold x. rewrite <- ED, <- EE, <- EO.
    destruct (Nat.eqb_spec (k mod 2) 0) as [e|e].
    + rewrite upd_other by lia.
      destruct (Nat.eq_dec k 0) as [->|]; [|destruct (Nat.eq_dec k 2) as [->|]].
      * rewrite K6 by lia. unfold m5. rewrite !upd_other by lia. rewrite upd_same. reflexivity.
      * rewrite K6 by lia. unfold m5. rewrite upd_same. reflexivity.
      * rewrite (W6 (k / 4)) by lia.
        destruct (Nat.eqb_spec (bb + k) (bb + (k / 4 * 4 - 1))); [lia|].
        destruct (Nat.eqb_spec (bb + k) (bb + k / 4 * 4)); [f_equal; lia|].
        destruct (Nat.eqb_spec (bb + k) (bb + (k / 4 * 4 + 1))); [lia|f_equal; lia].
    + destruct (Nat.eqb_spec (k mod 4) 1) as [e1|e1].
      * rewrite upd_other by lia.
        destruct (Nat.eqb_spec k 1) as [->|].
        -- rewrite K6 by lia. unfold m5. rewrite upd_other by lia. rewrite upd_same. reflexivity.
        -- rewrite (W6 (k / 4)) by lia.
           destruct (Nat.eqb_spec (bb + k) (bb + (k / 4 * 4 - 1))); [lia|].
           destruct (Nat.eqb_spec (bb + k) (bb + k / 4 * 4)); [lia|].
           destruct (Nat.eqb_spec (bb + k) (bb + (k / 4 * 4 + 1))); [reflexivity|lia].
      * destruct (Nat.eqb_spec k (4 * q - 1)) as [->|].
        -- rewrite upd_same. reflexivity.
        -- rewrite upd_other by lia. rewrite (W6 (k / 4 + 1)) by lia.
           destruct (Nat.eqb_spec (bb + k) (bb + ((k / 4 + 1) * 4 - 1))); [reflexivity|lia].
  - intros p H1 H_2. rewrite upd_other by lia. rewrite K6 by lia. rewrite M5 by lia. apply CK; assumption.
Qed.

End SR.
End SemSplit.
