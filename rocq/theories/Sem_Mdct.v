(** What the MDCT implementations compute, for any numeric type. *)
From Coq Require Import List Arith Lia Bool ZArith ZifyNat.
From Verif Require Import Prog Num Model_Common Model_Mdct Wp Sem_Naive.
Import ListNotations.
Ltac Zify.zify_post_hook ::= Z.div_mod_to_equations.

(** The MDCT method: [out] becomes [G a b]; only [out] and [sl] scratch cells change.
    The two input slices may overlap each other. *)
Definition computes_mdct {T} (p : slice -> slice -> slice -> slice -> prog T unit) (n sl : nat)
  (G : list T -> list T -> nat -> T) : Prop :=
  forall m a b o s, slen a = n -> slen b = n -> slen o = n -> sl <= slen s ->
  disj o a -> disj o b -> disj o s -> disj s a -> disj s b ->
  wp (p a b o s) m (fun _ m' =>
    (forall i, i < n -> m' (base o + i) = G (vals m a) (vals m b) i) /\
    (forall q, ~ (base o <= q < base o + n) -> ~ (base s <= q < base s + sl) -> m' q = m q)).
(** The IMDCT method: cell [i] of the two outputs together, holding [v], becomes [G inp i v]. *)
Definition computes_imdct {T} (p : slice -> slice -> slice -> slice -> prog T unit) (n sl : nat)
  (G : list T -> nat -> T -> T) : Prop :=
  forall m x a b s, slen x = n -> slen a = n -> slen b = n -> sl <= slen s ->
  disj a x -> disj b x -> disj s x -> disj a b -> disj a s -> disj b s ->
  wp (p x a b s) m (fun _ m' =>
    (forall i, i < n -> m' (base a + i) = G (vals m x) i (m (base a + i))) /\
    (forall i, i < n -> m' (base b + i) = G (vals m x) (n + i) (m (base b + i))) /\
    (forall q, ~ (base a <= q < base a + n) -> ~ (base b <= q < base b + n) ->
               ~ (base s <= q < base s + sl) -> m' q = m q)).

Section Naive.
Context {T F : Type} {N : Num T F}.
Open Scope num_scope.

Definition op_win (o sv : T) (x : T * T) : T := o +. sv *. fst x *. snd x.

Lemma advance_ok (tw : list T) start stride i ti m (Q : nat -> mem T -> Prop) :
  ti = (start + i * stride) mod length tw -> 0 < length tw -> stride <= length tw ->
  Q ((start + S i * stride) mod length tw) m -> wp (mn_advance tw ti stride) m Q.
Proof.
  intros Hti Hl Hs HQ. assert (Hlt : ti < length tw) by (subst ti; apply Nat.mod_upper_bound; lia).
  assert (E : (if length tw <=? ti + stride then ti + stride - length tw else ti + stride)
              = (start + S i * stride) mod length tw).
  { cbn [Nat.mul]. replace (start + (stride + i * stride)) with ((start + i * stride) + stride) by lia.
    rewrite <- (Nat.add_mod_idemp_l (start + i * stride)) by lia. rewrite <- Hti.
    destruct (Nat.leb_spec (length tw) (ti + stride)).
    - replace (ti + stride) with ((ti + stride - length tw) + 1 * length tw) at 2 by lia.
      rewrite Nat.mod_add by lia. rewrite Nat.mod_small by lia. reflexivity.
    - rewrite Nat.mod_small by lia. reflexivity. }
  unfold mn_advance. rewrite <- E in HQ. destruct (Nat.leb_spec (length tw) (ti + stride)).
  - apply wp_usub; [lia|exact HQ].
  - apply wp_ret, HQ.
Qed.

(** mdct_naive.rs:95-108 and 110-119. *)
Lemma wp_mn_loop (tw w : list T) (pos : nat -> nat) cell s start stride m (Q : nat -> mem T -> Prop) :
  start < length tw -> stride <= length tw -> ~ (base s <= cell < base s + slen s) ->
  (forall i, i < slen s -> pos i < length w) ->
  (forall m', m' cell = accum op_win (fun i => m (base s + i))
       (fun i => (nth (pos i) w zero, tw_at tw zero start stride 0 i)) (m cell) 0 (slen s) ->
     (forall q, q <> cell -> m' q = m q) -> Q ((start + slen s * stride) mod length tw) m') ->
  wp (fold_range 0 (slen s) start (fun i ti =>
      bind (idx tw ti) (fun t =>
      bind (deref (mkS cell 1)) (fun o =>
      bind (rd s i) (fun a =>
      bind (idx w (pos i)) (fun v =>
      bind (assign (mkS cell 1) (o +. a *. v *. t)) (fun _ =>
      mn_advance tw ti stride))))))) m Q.
Proof.
  intros Hst Hstr Hc Hp HQ. unfold fold_range.
  apply (wp_fold_inv (fun i ti m' => ti = (start + i * stride) mod length tw /\
    m' cell = accum op_win (fun i => m (base s + i))
       (fun i => (nth (pos i) w zero, tw_at tw zero start stride 0 i)) (m cell) 0 i /\
    (forall q, q <> cell -> m' q = m q))).
  - split; [|split; auto]. cbn [Nat.mul]. rewrite Nat.add_0_r, Nat.mod_small by exact Hst. reflexivity.
  - intros i ti m' Hi (Hti & Hm & Hf).
    assert (Hlt : ti < length tw) by (subst ti; apply Nat.mod_upper_bound; lia).
    apply (wp_idx_b _ zero); [exact Hlt|]. apply wp_deref_b. apply wp_rd_b; [lia|].
    apply (wp_idx_b _ zero); [apply Hp; lia|]. apply wp_assign_b.
    apply (advance_ok tw start stride i); [exact Hti|lia|exact Hstr|]. split; [reflexivity|]. split.
    + rewrite upd_same, Hm, (Hf (base s + i)) by lia. cbn [accum Nat.add]. unfold op_win at 2. cbn [fst snd].
      unfold tw_at. rewrite Nat.sub_0_r, <- Hti. reflexivity.
    + intros q Hq. rewrite upd_other by exact Hq. apply Hf, Hq.
  - intros ti m' (-> & Hm & Hf). rewrite Nat.sub_0_r in * . cbn [Nat.add] in * . apply HQ; assumption.
Qed.

(** mdct_naive.rs:146-156 and 172-182: nothing is written. *)
Lemma wp_mn_sum (tw : list T) s l start stride m (Q : T * nat -> mem T -> Prop) :
  slen s = l -> (0 < l -> start < length tw) -> stride <= length tw ->
  (forall ti, Q (accum op_add (fun i => m (base s + i)) (tw_at tw zero start stride 0) zero 0 (l), ti) m) ->
  wp (fold_range 0 (l) (zero, start) (fun i st =>
      let '(v, ti) := st in
      bind (idx tw ti) (fun t =>
      bind (rd s i) (fun x =>
      let v := v +. x *. t in
      bind (mn_advance tw ti stride) (fun ti => Ret (v, ti)))))) m Q.
Proof.
  intros Hl Hst Hstr HQ. unfold fold_range.
  apply (wp_fold_inv (fun i st m' => m' = m /\ (0 < l -> snd st = (start + i * stride) mod length tw) /\
    fst st = accum op_add (fun i => m (base s + i)) (tw_at tw zero start stride 0) zero 0 i)).
  - split; [reflexivity|]. split; [|reflexivity]. intros H. cbn [snd Nat.mul].
    rewrite Nat.add_0_r, Nat.mod_small by (apply Hst, H). reflexivity.
  - intros i [v ti] m' Hi (-> & Hti & Hv). cbn [fst snd] in Hti, Hv. specialize (Hti ltac:(lia)).
    specialize (Hst ltac:(lia)).
    assert (Hlt : ti < length tw) by (subst ti; apply Nat.mod_upper_bound; lia).
    apply (wp_idx_b _ zero); [exact Hlt|]. apply wp_rd_b; [lia|]. cbv zeta. apply wp_bind.
    apply (advance_ok tw start stride i); [exact Hti|lia|exact Hstr|]. apply wp_ret. cbn [fst snd].
    split; [reflexivity|]. split; [reflexivity|]. cbn [accum Nat.add]. rewrite <- Hv. unfold op_add, tw_at.
    rewrite Nat.sub_0_r, <- Hti. reflexivity.
  - intros [v ti] m' (-> & _ & Hv). rewrite Nat.sub_0_r in Hv. cbn [fst Nat.add] in Hv. subst v. apply HQ.
Qed.

Variables (n : nat) (w : list T) (self : mdct_naive T).
Hypothesis Hev : n mod 2 = 0.
Hypothesis Hw : length w = 2 * n.
Let tw := map (fun i => from_f64 (f_cos (f_mul (f_div (f_mul f_half f_pi) (f_of_nat n)) (f_add (f_of_nat i) f_half))))
          (seq 0 (n * 4)).
Hypothesis Hself : self = mkMdctNaive tw w.

Definition sem_mdct_naive (tw w : list T) (n : nat) (a b : list T) (k : nat) : T :=
  let start := (n / 2 + k * (n + 1)) mod length tw in
  let stride := k * 2 + 1 in
  accum op_win (at_ b) (fun i => (nth (i + n) w zero, tw_at tw zero ((start + n * stride) mod length tw) stride 0 i))
    (accum op_win (at_ a) (fun i => (nth i w zero, tw_at tw zero start stride 0 i)) zero 0 n) 0 n.

Lemma tw_len : length tw = n * 4. Proof. unfold tw. rewrite map_length. apply seq_length. Qed.
Lemma naive_len : MdctNaive_len self = n.
Proof. rewrite Hself. unfold MdctNaive_len. cbn [mn_tw]. rewrite tw_len. apply Nat.div_mul. lia. Qed.

Lemma mdct_naive_ok : computes_mdct (MdctNaive_mdct self) n 0 (sem_mdct_naive tw w n).
Proof.
  intros m a b o s Ha Hb Ho Hs Da Db _ _ _. pose proof tw_len as Lt. unfold MdctNaive_mdct. rewrite naive_len. rewrite Hself. cbn [mn_tw mn_window].
  apply validate_buffers_mdct_ok; [exact Ha|exact Hb|exact Ho|unfold MdctNaive_scratch; lia|]. cbv beta zeta. rewrite Ho.
  eapply (wp_for_cells (base o) (sem_mdct_naive tw w n (vals m a) (vals m b))).
  - intros k m' Hk Hm. apply wp_get_mut_b; [lia|]. apply wp_assign_b.
    apply wp_bind. unfold umod. rewrite Lt. destruct (Nat.eqb_spec (n * 4) 0); [lia|]. apply wp_ret.
    apply wp_bind. apply (wp_mn_loop tw w (fun i => i)); [rewrite Lt; apply Nat.mod_upper_bound; lia|lia|unfold disj in Da; lia|intros; lia|].
    intros m1 A1 A2. apply wp_bind. rewrite Ha. rewrite Lt.
    apply (wp_mn_loop tw w (fun i => i + n)); [rewrite Lt; apply Nat.mod_upper_bound; lia|lia|unfold disj in Db; lia|intros; lia|].
    intros m2 B1 B2. apply wp_ret. split.
    + rewrite B1, A1, upd_same. unfold sem_mdct_naive. rewrite Lt, Ha, Hb.
      rewrite (accum_ext op_win (fun i => m1 (base b + i)) (at_ (vals m b)) _
         (fun i => (nth (i + n) w zero, tw_at tw zero (((n / 2 + k * (n + 1)) mod (n * 4) + n * (k * 2 + 1)) mod (n * 4)) (k * 2 + 1) 0 i)));
        [f_equal; apply accum_ext|..]; try reflexivity; intros i Hi; unfold at_; rewrite nth_vals by lia.
      * rewrite upd_other by (unfold disj in Da; lia). apply Hm. unfold disj in Da. lia.
      * rewrite A2 by (unfold disj in Db; lia). rewrite upd_other by (unfold disj in Db; lia). apply Hm. unfold disj in Db. lia.
    + intros q Hq. rewrite B2, A2 by exact Hq. apply upd_other, Hq.
  - intros m' A B. split; [intros i Hi; apply A; lia|]. intros q Hq _. apply B. lia.
Qed.

Definition sem_imdct_naive (tw w : list T) (n : nat) (x : list T) (i : nat) (v : T) : T :=
  if i <? n
  then v +. accum op_add (at_ x) (tw_at tw zero (n / 2 + i) (n + i * 2 + 1) 0) zero 0 n *. nth i w zero
  else
    let k := i - n in
    let tk := if k <? n / 2 then k else n - k - 1 in
    v +. accum op_add (at_ x) (tw_at tw zero (n * 4 - n * 2 + n / 2 - tk - 1) (n - 1 - tk * 2) 0) zero 0 n
      *. nth (k + n) w zero.

Lemma imdct_naive_ok : computes_imdct (MdctNaive_imdct self) n 0 (sem_imdct_naive tw w n).
Proof.
  intros m x a b s Hx Ha Hb Hs Da Db _ Dab _ _. pose proof tw_len as Lt. unfold MdctNaive_imdct. rewrite naive_len. rewrite Hself. cbn [mn_tw mn_window].
  apply validate_buffers_mdct_ok; [exact Hx|exact Ha|exact Hb|unfold MdctNaive_scratch; lia|]. cbv beta zeta. rewrite Hx.
  apply wp_bind. eapply (wp_for_cells (base a) (fun i => sem_imdct_naive tw w n (vals m x) i (m (base a + i)))).
  - intros k m' Hk Hm. apply wp_bind. apply wp_mn_sum; [exact Hx|lia|lia|]. intros ti.
    apply wp_rd_b; [lia|]. apply (wp_idx_b _ zero); [lia|]. apply wp_wr; [lia|]. cbn [fst]. split.
    + rewrite upd_same. unfold sem_imdct_naive. destruct (Nat.ltb_spec k n); [|lia]. rewrite (Hm (base a + k)) by lia.
      do 2 f_equal. apply accum_ext; [|reflexivity]. intros i Hi. unfold at_. rewrite nth_vals by lia. apply Hm. unfold disj in Da. lia.
    + intros q Hq. apply upd_other, Hq.
  - intros m1 A1 A2.
    eapply (wp_for_cells (base b) (fun i => sem_imdct_naive tw w n (vals m x) (n + i) (m (base b + i)))).
    + intros k m' Hk Hm. set (tk := if k <? n / 2 then k else n - k - 1).
      assert (Htk : tk * 2 + 2 <= n) by (unfold tk; destruct (Nat.ltb_spec k (n / 2)); lia).
      apply wp_bind. apply (wp_conseq _ _ (fun v mm => v = tk /\ mm = m')).
      { unfold tk. destruct (Nat.ltb_spec k (n / 2)); [apply wp_ret; auto|]. apply wp_usub_b; [lia|]. apply wp_usub; [lia|]. auto. }
      intros v mm [-> ->]. rewrite Lt.
      apply wp_usub_b; [lia|]. apply wp_usub_b; [lia|]. apply wp_usub_b; [lia|]. apply wp_usub_b; [lia|]. apply wp_usub_b; [lia|].
      apply wp_bind. apply wp_mn_sum; [exact Hx|lia|lia|]. intros ti.
      apply wp_rd_b; [lia|]. apply (wp_idx_b _ zero); [lia|]. apply wp_wr; [lia|]. cbn [fst]. split.
      * rewrite upd_same. unfold sem_imdct_naive. destruct (Nat.ltb_spec (n + k) n); [lia|].
        replace (n + k - n) with k by lia. cbv zeta. fold tk. rewrite (Hm (base b + k)) by lia.
        rewrite (A2 (base b + k)) by (unfold disj in Dab; lia).
        do 2 f_equal. apply accum_ext; [|reflexivity]. intros i Hi. unfold at_. rewrite nth_vals by lia.
        rewrite Hm by (unfold disj in Db; lia). apply A2. unfold disj in Da. lia.
      * intros q Hq. apply upd_other, Hq.
    + intros m2 B1 B2. split; [|split].
      * intros i Hi. rewrite B2 by (unfold disj in Dab; lia). apply A1. lia.
      * intros i Hi. apply B1. lia.
      * intros q Hqa Hqb _. rewrite B2 by lia. apply A2. lia.
Qed.
End Naive.

Section Via.
Context {T F : Type} {N : Num T F}.
Open Scope num_scope.
Variables (inner : t4 T) (w : list T) (n sl : nat) (D : list T -> nat -> T).
Hypothesis Hlen : t4_len inner = n.
Hypothesis Hsl : t4_scratch inner = sl.
Hypothesis HD : computes (t_dct4 inner) n sl D.
Hypothesis Hev : n mod 2 = 0.
Hypothesis Hw : length w = n * 2.
Let self := mkMdctDct4 inner w (n + sl).

(** The folded input of the DCT4. *)
Definition fold_at (w : list T) (n : nat) (a b : list T) (j : nat) : T :=
  let g := n / 2 in
  if j <? g then -. (at_ b (g - 1 - j) *. nth (n + (g - 1 - j)) w zero) -. at_ b (g + j) *. nth (n + (g + j)) w zero
  else at_ a (j - g) *. nth (j - g) w zero -. at_ a (n - 1 - (j - g)) *. nth (n - 1 - (j - g)) w zero.
Definition sem_mdct_dct4 (w : list T) (n : nat) (D : list T -> nat -> T) (a b : list T) (k : nat) : T :=
  D (map (fold_at w n a b) (seq 0 n)) k.

Lemma nth_skipn_w i : i < n -> nth i (skipn n w) zero = nth (n + i) w zero.
Proof.
  intros H. rewrite <- (firstn_skipn n w) at 2. rewrite app_nth2; rewrite firstn_length; [|lia].
  f_equal. lia.
Qed.

Lemma half_even : n = 2 * (n / 2). Proof. lia. Qed.
(** From here on lia need not look inside divisions, and uses one disjointness fact at a time. *)
Ltac Zify.zify_post_hook ::= idtac.
Ltac dj := cbn [slen base]; first [ lia
  | match goal with H : disj _ _ |- _ => solve [unfold disj in H; cbn [slen base] in H; lia] end
  | unfold disj; match goal with H : disj _ _ |- _ => solve [unfold disj in H; cbn [slen base] in *; lia] end ].

Lemma mdct_dct4_ok : computes_mdct (MdctViaDct4_mdct self) n (n + sl) (sem_mdct_dct4 w n D).
Proof.
  intros m a b o s Ha Hb Ho Hs Da Db Dos Dsa Dsb. unfold MdctViaDct4_mdct, MdctViaDct4_len, self. cbn [md_dct md_window md_scratch].
  rewrite Hlen. apply validate_buffers_mdct_ok; [exact Ha|exact Hb|exact Ho|exact Hs|]. cbv beta zeta.
  set (g := n / 2) in * . assert (Hg : n = 2 * g) by apply half_even.
  assert (Lw : length (skipn n w) = n) by (rewrite skipn_length; lia).
  apply wp_list_from_b; [lia|]. rewrite Ha, Hb, Lw, Hw.
  replace (Nat.min n (n * 2)) with n by lia. replace (Nat.min n n) with n by lia. rewrite Ho.
  replace (Nat.min n (n - g)) with g by lia.
  apply wp_bind, (wp_for_cells (base o) (fold_at w n (vals m a) (vals m b))).
  - intros i m' Hi Hm. wpi (@zero T F N). wpi (@zero T F N). cbv zeta. wpi (@zero T F N). wpi (@zero T F N). apply wp_wr; [lia|]. split.
    + rewrite upd_same. unfold fold_at. fold g. destruct (Nat.ltb_spec i g); [|lia]. unfold at_. rewrite !nth_vals by lia.
      rewrite !nth_skipn_w by lia. rewrite !Hm by dj. replace (n - 1 - (g + i)) with (g - 1 - i) by lia. reflexivity.
    + intros q Hq. apply upd_other, Hq.
  - intros m1 A1 A2. wpi (@zero T F N). rewrite Ho. cbn [slen base]. replace (Nat.min (n - g) (Nat.min n g)) with g by lia.
    apply wp_bind, (wp_for_cells (base o + g) (fun i => fold_at w n (vals m a) (vals m b) (g + i))).
    + intros i m' Hi Hm. wpi (@zero T F N). wpi (@zero T F N). cbv zeta. wpi (@zero T F N). wpi (@zero T F N). apply wp_wr; [cbn [slen]; lia|]. cbn [base]. split.
      * rewrite upd_same. unfold fold_at. fold g. destruct (Nat.ltb_spec (g + i) g); [lia|]. unfold at_. replace (g + i - g) with i by lia.
        rewrite !nth_vals by lia. rewrite !Hm by dj. rewrite !A2 by dj. reflexivity.
      * intros q Hq. apply upd_other, Hq.
    + intros m2 B1 B2. eapply wp_conseq; [apply (HD m2 o (mkS (base s) (n + sl)) Ho)|]; [cbn [slen]; lia|dj|].
      intros _ m3 [C1 C2]. cbn [base] in C2. split.
      * intros i Hi. rewrite C1 by exact Hi. unfold sem_mdct_dct4. f_equal. apply vals_map; [exact Ho|].
        intros j Hj. destruct (le_lt_dec g j).
        -- replace (base o + j) with (base o + g + (j - g)) by lia. rewrite B1 by lia. f_equal. lia.
        -- rewrite B2 by lia. apply A1. lia.
      * intros q Hq1 Hq2. rewrite C2 by lia. rewrite B2 by lia. apply A2. lia.
Qed.

Definition sem_imdct_dct4 (w : list T) (n : nat) (D : list T -> nat -> T) (x : list T) (i : nat) (v : T) : T :=
  let g := n / 2 in
  if i <? g then v +. D x (g + i) *. nth i w zero
  else if i <? n then v -. D x (n - 1 - (i - g)) *. nth i w zero
  else if i <? n + g then v -. D x (g - 1 - (i - n)) *. nth i w zero
  else v -. D x (i - (n + g)) *. nth i w zero.

Lemma imdct_dct4_ok : computes_imdct (MdctViaDct4_imdct self) n (n + sl) (sem_imdct_dct4 w n D).
Proof.
  intros m x a b s Hx Ha Hb Hs Dax Dbx Dsx Dab Das Dbs. unfold MdctViaDct4_imdct, MdctViaDct4_len, self. cbn [md_dct md_window md_scratch].
  rewrite Hlen. apply validate_buffers_mdct_ok; [exact Hx|exact Ha|exact Hb|exact Hs|]. cbv beta zeta.
  wpi (@zero T F N). cbn [base slen]. replace (n + sl - n) with sl by lia.
  set (g := n / 2) in * . assert (Hg : n = 2 * g) by apply half_even.
  assert (Lw : length (skipn n w) = n) by (rewrite skipn_length; lia).
  apply wp_bind, wp_copy_from_slice; cbn [slen base]; [lia|dj|]. intros m1 A1 A2.
  apply wp_bind. eapply wp_conseq; [apply (HD m1 (mkS (base s) n) (mkS (base s + n) sl) eq_refl)|]; [cbn [slen]; lia|dj|].
  intros _ m2 [B1 B2]. cbn [base slen] in B1, B2.
  assert (Ev : vals m1 (mkS (base s) n) = vals m x).
  { unfold vals. cbn [slen base]. rewrite Hx. apply map_seq_ext. intros i Hi. apply A1. lia. }
  rewrite Ev in B1. set (X := vals m x) in * .
  assert (K : forall q, ~ (base s <= q < base s + (n + sl)) -> m2 q = m q) by (intros q Hq; rewrite B2, A2 by lia; reflexivity).
  wpi (@zero T F N). cbn [base slen]. rewrite Ha, Hw. replace (Nat.min n (n * 2)) with n by lia. replace (Nat.min n (n - g)) with g by lia.
  apply wp_bind, (wp_for_cells (base a) (fun i => m (base a + i) +. D X (g + i) *. nth i w zero)).
  { intros i m' Hi Hm. wpi (@zero T F N). wpi (@zero T F N). wpi (@zero T F N). apply wp_wr; [lia|]. cbn [base]. split; [|intros q Hq; apply upd_other, Hq].
    rewrite upd_same. rewrite !Hm by dj. rewrite K by dj. replace (base s + g + i) with (base s + (g + i)) by lia. rewrite B1 by lia. reflexivity. }
  intros m3 C1 C2. replace (Nat.min (n - g) (n - g)) with g by lia.
  apply wp_bind, (wp_for_cells (base a + g) (fun i => m (base a + (g + i)) -. D X (n - 1 - i) *. nth (g + i) w zero)).
  { intros i m' Hi Hm. wpi (@zero T F N). wpi (@zero T F N). wpi (@zero T F N). apply wp_wr; [lia|]. cbn [base].
    replace (base a + (g + i)) with (base a + g + i) by lia. split; [|intros q Hq; apply upd_other, Hq].
    rewrite upd_same. rewrite !Hm by dj. rewrite !C2 by dj. rewrite K by dj.
    replace (base s + g + (n - g - 1 - i)) with (base s + (n - 1 - i)) by lia. rewrite B1 by lia. reflexivity. }
  intros m4 D1 D2. wpi (@zero T F N). wpi (@zero T F N). cbn [base slen]. rewrite Hb, Lw. replace (Nat.min n n) with n by lia.
  replace (Nat.min n g) with g by lia.
  apply wp_bind, (wp_for_cells (base b) (fun i => m (base b + i) -. D X (g - 1 - i) *. nth (n + i) w zero)).
  { intros i m' Hi Hm. wpi (@zero T F N). wpi (@zero T F N). wpi (@zero T F N). apply wp_wr; [lia|]. cbn [base].
    split; [|intros q Hq; apply upd_other, Hq].
    rewrite upd_same. rewrite !Hm by dj. rewrite !D2, !C2 by dj. rewrite K by dj. rewrite B1 by lia. rewrite nth_skipn_w by lia. reflexivity. }
  intros m5 E1 E2. replace (Nat.min (n - g) g) with g by lia.
  apply (wp_for_cells (base b + g) (fun i => m (base b + (g + i)) -. D X i *. nth (n + (g + i)) w zero)).
  { intros i m' Hi Hm. wpi (@zero T F N). wpi (@zero T F N). wpi (@zero T F N). apply wp_wr; [lia|]. cbn [base].
    replace (base b + (g + i)) with (base b + g + i) by lia. split; [|intros q Hq; apply upd_other, Hq].
    rewrite upd_same. rewrite !Hm by dj. rewrite !E2, !D2, !C2 by dj. rewrite K by dj. rewrite B1 by lia. rewrite nth_skipn_w by lia. reflexivity. }
  intros m6 F1 F2. unfold sem_imdct_dct4. fold g. split; [|split].
  - intros i Hi. rewrite F2, E2 by dj. destruct (Nat.ltb_spec i g).
    + rewrite D2 by lia. apply C1. lia.
    + destruct (Nat.ltb_spec i n); [|lia]. replace (base a + i) with (base a + g + (i - g)) by lia. rewrite D1 by lia.
      replace (g + (i - g)) with i by lia. replace (base a + g + (i - g)) with (base a + i) by lia. reflexivity.
  - intros i Hi. destruct (Nat.ltb_spec (n + i) g); [lia|]. destruct (Nat.ltb_spec (n + i) n); [lia|].
    destruct (Nat.ltb_spec (n + i) (n + g)).
    + rewrite F2 by dj. rewrite E1 by lia. do 3 f_equal. lia.
    + pose proof (F1 (i - g) ltac:(lia)) as Z. replace (base b + g + (i - g)) with (base b + i) in Z by lia. rewrite Z.
      replace (g + (i - g)) with i by lia. do 3 f_equal. lia.
  - intros q Hqa Hqb Hqs. rewrite F2, E2, D2, C2 by lia. apply K. lia.
Qed.
End Via.
