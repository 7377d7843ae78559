(** [MdctNaive] when its table index overflows. *)
From Coq Require Import List Arith Bool Lia ZArith ZifyNat Reals Lra.
From Verif Require Import Prog Num Model_Common Model_Mdct Model_Plan Model_Api Model_Checked Model_Checked_Mdct
  Spec Spec_Api Spec_Checked Wp Sem_Naive Sem_Mdct Trig Ref Exact_Mdct Api Api_Mdct Checked_Eq Checked_Mdct.
From Verif Require Exact_Naive.
Import ListNotations.
Open Scope nat_scope.
Ltac Zify.zify_post_hook ::= Z.div_mod_to_equations.

Section Starts.
Context {T F : Type} {N : Num T F}.
Open Scope num_scope.

(** The loop of mdct_naive.rs:84-120 with the first table index given. *)
Definition mdct_cell (tw w : list T) (n : nat) (st : nat -> prog T nat) (a b o : slice) (k : nat) : prog T unit :=
  output_cell <- get_mut_unwrap o k ;;
  assign output_cell zero ;;;
  twiddle_index <- st k ;;
  let twiddle_stride := k * 2 + 1 in
  twiddle_index <- fold_range 0 (slen a) twiddle_index (fun i twiddle_index =>
    twiddle <- idx tw twiddle_index ;;
    o <- deref output_cell ;;
    a <- rd a i ;;
    w <- idx w i ;;
    assign output_cell (o +. a *. w *. twiddle) ;;;
    mn_advance tw twiddle_index twiddle_stride) ;;
  fold_range 0 (slen b) twiddle_index (fun i twiddle_index =>
    twiddle <- idx tw twiddle_index ;;
    o <- deref output_cell ;;
    b <- rd b i ;;
    w <- idx w (i + n) ;;
    assign output_cell (o +. b *. w *. twiddle) ;;;
    mn_advance tw twiddle_index twiddle_stride) ;;;
  Ret tt.
Definition mdct_starts (tw w : list T) (n : nat) (st : nat -> prog T nat) (a b o s : slice) : prog T unit :=
  validate_buffers_mdct a b o s n 0 (fun _ => for_range 0 n (mdct_cell tw w n st a b o)).
Definition sem_start (tw w : list T) (n start : nat) (a b : list T) (k : nat) : T :=
  let stride := k * 2 + 1 in
  accum op_win (at_ b) (fun i => (nth (i + n) w zero, tw_at tw zero ((start + n * stride) mod length tw) stride 0 i))
    (accum op_win (at_ a) (fun i => (nth i w zero, tw_at tw zero start stride 0 i)) zero 0 n) 0 n.

Variables (n : nat) (w tw : list T).
Hypothesis Hw : length w = 2 * n.
Hypothesis Lt : length tw = n * 4.

Lemma cell_ok st start m m' a b o k : slen a = n -> slen b = n -> slen o = n -> disj o a -> disj o b ->
  k < n -> st k = Ret start -> start < n * 4 ->
  (forall q, ~ (base o <= q < base o + n) -> m' q = m q) ->
  wp (mdct_cell tw w n st a b o k) m' (fun _ m2 =>
    m2 (base o + k) = sem_start tw w n start (vals m a) (vals m b) k /\ (forall q, q <> base o + k -> m2 q = m' q)).
Proof.
  intros Ha Hb Ho Da Db Hk Es Hs Hm. unfold mdct_cell. apply wp_get_mut_b; [lia|]. apply wp_assign_b.
  rewrite Es. cbn [bind]. cbv zeta.
  apply wp_bind. apply (wp_mn_loop tw w (fun i => i)); [lia|lia|unfold disj in Da; lia|intros; lia|].
  intros m1 A1 A2. apply wp_bind. rewrite Ha. rewrite Lt.
  apply (wp_mn_loop tw w (fun i => i + n)); [rewrite Lt; apply Nat.mod_upper_bound; lia|lia|unfold disj in Db; lia|intros; lia|].
  intros m2 B1 B2. apply wp_ret. split.
  - rewrite B1, A1, upd_same. unfold sem_start. rewrite Lt, Ha, Hb.
    rewrite (accum_ext op_win (fun i => m1 (base b + i)) (at_ (vals m b)) _
       (fun i => (nth (i + n) w zero, tw_at tw zero ((start + n * (k * 2 + 1)) mod (n * 4)) (k * 2 + 1) 0 i)));
      [f_equal; apply accum_ext|..]; try reflexivity; intros i Hi; unfold at_; rewrite nth_vals by lia.
    + rewrite upd_other by (unfold disj in Da; lia). apply Hm. unfold disj in Da. lia.
    + rewrite A2 by (unfold disj in Db; lia). rewrite upd_other by (unfold disj in Db; lia). apply Hm. unfold disj in Db. lia.
  - intros q Hq. rewrite B2, A2 by exact Hq. apply upd_other, Hq.
Qed.

Lemma cells_ok st start m a b o h : slen a = n -> slen b = n -> slen o = n -> disj o a -> disj o b ->
  h <= n -> (forall k, k < h -> st k = Ret (start k) /\ start k < n * 4) ->
  wp (for_range 0 h (mdct_cell tw w n st a b o)) m (fun _ m' =>
    (forall i, i < h -> m' (base o + i) = sem_start tw w n (start i) (vals m a) (vals m b) i) /\
    (forall q, ~ (base o <= q < base o + n) -> m' q = m q)).
Proof.
  intros Ha Hb Ho Da Db Hh Hst.
  eapply (wp_for_cells (base o) (fun k => sem_start tw w n (start k) (vals m a) (vals m b) k)).
  - intros k m' Hk Hm. destruct (Hst k ltac:(lia)) as [E1 E2]. apply (cell_ok st (start k) m); try assumption; [lia|].
    intros q Hq. apply Hm. lia.
  - intros m' A B. split; [intros i Hi; apply A; lia|]. intros q Hq. apply B. lia.
Qed.

Lemma starts_ok st start : (forall k, k < n -> st k = Ret (start k) /\ start k < n * 4) ->
  computes_mdct (mdct_starts tw w n st) n 0 (fun a b k => sem_start tw w n (start k) a b k).
Proof.
  intros Hst m a b o s Ha Hb Ho Hs Da Db _ _ _. unfold mdct_starts.
  apply validate_buffers_mdct_ok; [exact Ha|exact Hb|exact Ho|lia|].
  eapply wp_conseq; [apply (cells_ok st start); try assumption; lia|]. intros [] m' [A B].
  split; [exact A|]. intros q Hq _. apply B, Hq.
Qed.
End Starts.

Section Wrap.
Context {T F : Type} {N : Num T F}.
Variable MAX : nat.
Lemma uadd_release a b : uadd (T := T) Release MAX a b = Ret ((a + b) mod (MAX + 1)).
Proof. unfold uadd, overflow. destruct (Nat.leb_spec (a + b) MAX); [|reflexivity]. now rewrite Nat.mod_small by lia. Qed.
Lemma umul_release a b : umul (T := T) Release MAX a b = Ret ((a * b) mod (MAX + 1)).
Proof. unfold umul at 1, overflow. destruct (Nat.leb_spec (a * b) MAX); [|reflexivity]. now rewrite Nat.mod_small by lia. Qed.

(** The first table index in either build. *)
Definition first_index (B : build) (n L k : nat) : prog T nat :=
  bind (ulift (uadd B MAX) (Ret (n / 2)) (ulift (umul B MAX) (Ret k) (ulift (uadd B MAX) (Ret n) (Ret 1)))) (fun t => umod t L).
Lemma first_index_release n L k : n + 1 <= MAX -> 0 < L ->
  first_index Release n L k = Ret (((n / 2 + k * (n + 1)) mod (MAX + 1)) mod L).
Proof.
  intros H HL. unfold first_index, ulift. cbn [bind]. rewrite uadd_release. cbn [bind]. rewrite umul_release. cbn [bind].
  rewrite uadd_release. cbn [bind]. unfold umod. destruct (Nat.eqb_spec L 0); [lia|]. do 2 f_equal.
  rewrite (Nat.mod_small (n + 1)) by lia. rewrite Nat.add_mod_idemp_r by lia. reflexivity.
Qed.
Lemma first_index_debug n L k : n + 1 <= MAX -> 0 < L ->
  first_index Debug n L k = if n / 2 + k * (n + 1) <=? MAX then Ret ((n / 2 + k * (n + 1)) mod L) else Panic EOverflow.
Proof.
  intros H HL. unfold first_index, ulift, uadd, umul, overflow. cbn [bind].
  destruct (Nat.leb_spec (n + 1) MAX); [|lia]. cbn [bind].
  destruct (Nat.leb_spec (k * (n + 1)) MAX); cbn [bind].
  - destruct (Nat.leb_spec (n / 2 + k * (n + 1)) MAX); cbn [bind]; [|reflexivity].
    unfold umod. destruct (Nat.eqb_spec L 0); [lia|]. reflexivity.
  - destruct (Nat.leb_spec (n / 2 + k * (n + 1)) MAX); [lia | reflexivity].
Qed.

Lemma naive_mdct_starts B n (w tw : list T) : length tw = n * 4 -> 8 * n + 2 <= MAX ->
  meth4_follows B (MdctNaive_mdct_ck B MAX (mkMdctNaive tw w)) (mdct_starts tw w n (first_index B n (length tw))).
Proof.
  intros Lt H a b o s. assert (El : MdctNaive_len (mkMdctNaive tw w) = n).
  { unfold MdctNaive_len. cbn [mn_tw]. rewrite Lt. apply Nat.div_mul. lia. }
  unfold MdctNaive_mdct_ck, mdct_starts. cbv zeta. rewrite El. cbn [mn_tw mn_window]. unfold MdctNaive_scratch.
  apply validate_mdct_ext. intros La Lb Lo s' _. rewrite Lo.
  apply for_range_ext. intros k Hk. unfold mdct_cell. cbv zeta. ckstep idtac. ckstep idtac.
  unfold first_index.
  match goal with |- follows _ (bind ?e ?f) (bind (bind ?e ?g) ?h) =>
    assert (HH : forall x : prog T nat, (forall v, follows B (f v) (bind (g v) h)) -> follows B (bind x f) (bind (bind x g) h)) end.
  { intros x Hx. induction x; cbn; auto; constructor; auto. }
  apply HH. clear HH. intros v. apply bind_ext. intros ti.
  eapply ret_bind; [ueval ltac:(lia)|cbv beta].
  apply bind_ext2.
  - apply fold_range_ext. intros i t Hi. do 5 (ckstep idtac). apply mn_advance_eq. lia.
  - intros t1. apply bind_ext2; [|intros ?; apply follows_refl].
    apply fold_range_ext. intros i t Hi. do 3 (ckstep idtac).
    eapply ret_bind; [ueval ltac:(lia)|cbv beta]. do 2 (ckstep idtac). apply mn_advance_eq. lia.
Qed.
End Wrap.

Section Theorems.
Context {T F : Type} {N : Num T F}.
Variable MAX : nat.

Lemma MdctNaive_new_eq B n (w : nat -> list T) : 4 * n <= MAX -> MdctNaive_new_ck B MAX n w = MdctNaive_new n w.
Proof.
  intros H. unfold MdctNaive_new_ck, MdctNaive_new, rassert. cbv zeta. destruct (_ =? 0); [|reflexivity]. cbn [rbind].
  erewrite (rof_bind _ (n * 4)); [|ueval ltac:(lia)|cbv beta; reflexivity].
  erewrite (rof_bind _ (n * 2)); [|ueval ltac:(lia)|cbv beta; reflexivity].
  erewrite (rof_bind _ (n * 2)); [|ueval ltac:(lia)|cbv beta; reflexivity].
  reflexivity.
Qed.

Definition naive_sizes (n : nat) (w : nat -> list T) (d : mdct_naive T) : MdctNaive_new n w = Ok d ->
  MdctNaive_len d = n /\ length (mn_tw d) = n * 4 /\ length (mn_window d) = 2 * n.
Proof.
  intros E. apply MdctNaive_new_inv in E as (Ev & Lw & ->). unfold MdctNaive_len. cbn [mn_tw mn_window].
  rewrite map_length, seq_length. split; [apply Nat.div_mul; lia|]. split; [reflexivity|lia].
Qed.

(** While the index can be represented. *)
Lemma naive_same B n w d : MdctNaive_new n w = Ok d -> 8 * n + 2 <= MAX -> n / 2 + (n - 1) * (n + 1) <= MAX ->
  same_method4 B (MdctNaive_mdct_ck B MAX d) (MdctNaive_mdct d).
Proof.
  intros E H1 H2. destruct (naive_sizes n w d E) as (L & Lt & _). intros m a b c s. apply follows_run.
  apply MdctNaive_mdct_eq; [rewrite Lt; lia | rewrite L; exact H2].
Qed.
Lemma naive_same_inverse B n w d : MdctNaive_new n w = Ok d -> 8 * n + 2 <= MAX ->
  same_method4 B (MdctNaive_imdct_ck B MAX d) (MdctNaive_imdct d).
Proof.
  intros E H1. destruct (naive_sizes n w d E) as (L & Lt & _). intros m a b c s. apply follows_run.
  apply MdctNaive_imdct_eq. rewrite Lt. lia.
Qed.

(** When it cannot, a debug build panics. *)
Lemma for_n_app (body : nat -> prog T unit) a p q : 
  forall m, run (for_n a (p + q) body) m = run (bind (for_n a p body) (fun _ => for_n (a + p) q body)) m.
Proof.
  revert a. induction p as [|p IH]; intros a m; [now rewrite Nat.add_0_r|].
  cbn [Nat.add for_n]. rewrite run_bind, !run_bind. destruct (run (body a) m) as [[] m'| |]; [|reflexivity..].
  rewrite IH. rewrite run_bind. replace (a + S p) with (S a + p) by lia. reflexivity.
Qed.
Lemma first_over n : n / 2 + (n - 1) * (n + 1) > MAX -> n / 2 <= MAX -> exists k0, k0 < n /\ MAX < n / 2 + k0 * (n + 1) /\
  forall k, k < k0 -> n / 2 + k * (n + 1) <= MAX.
Proof.
  intros H H0. assert (G : forall j, MAX < n / 2 + j * (n + 1) ->
    exists k0, k0 <= j /\ MAX < n / 2 + k0 * (n + 1) /\ forall k, k < k0 -> n / 2 + k * (n + 1) <= MAX).
  { induction j as [|j IH]; intros Hj; [lia|]. destruct (le_lt_dec (n / 2 + j * (n + 1)) MAX) as [Hl|Hl].
    - exists (S j). split; [lia|]. split; [exact Hj|]. intros k Hk.
      assert (k * (n + 1) <= j * (n + 1)) by (apply Nat.mul_le_mono_r; lia). lia.
    - destruct (IH Hl) as (k0 & A & C). exists k0. split; [lia|exact C]. }
  destruct (G (n - 1) H) as (k0 & A & C & D). exists k0. split; [|split; assumption].
  destruct n; [|lia]. cbn in H. lia.
Qed.
Lemma naive_panics n w d (a b o s : list T) : MdctNaive_new n w = Ok d -> 8 * n + 2 <= MAX ->
  MAX < n / 2 + (n - 1) * (n + 1) -> length a = n -> length b = n -> length o = n ->
  exists r, call4 (MdctNaive_mdct_ck Debug MAX d) a b o s = Panics EOverflow r.
Proof.
  intros E H1 H2 La Lb Lo. destruct (naive_sizes n w d E) as (L & Lt & Lw). destruct d as [tw wd]. cbn [mn_tw mn_window] in * .
  destruct (first_over n H2 ltac:(lia)) as (k0 & K1 & K2 & K3).
  unfold call4. cbv zeta. rewrite La, Lb, Lo.
  set (sa := mkS 0 n). set (sb := mkS n n). set (so := mkS (n + n) n). set (ss := mkS (n + n + n) (length s)).
  set (m := mem_of zero (a ++ b ++ o ++ s)).
  assert (R : exists m', run (MdctNaive_mdct_ck Debug MAX (mkMdctNaive tw wd) sa sb so ss) m = Panicked EOverflow m').
  2: { destruct R as [m' ->]. eauto. }
  rewrite (follows_run Debug _ _ m (naive_mdct_starts MAX Debug n wd tw Lt H1 sa sb so ss)) by (now left).
  unfold mdct_starts, validate_buffers_mdct, sa, sb, so. cbn [slen]. rewrite !Nat.eqb_refl. cbn [negb orb].
  unfold get_range. cbn [Nat.leb]. fold sa sb so.
  unfold for_range. replace (n - 0) with (k0 + S (n - S k0)) by lia. rewrite for_n_app, run_bind.
  pose proof (cells_ok n wd tw Lw Lt (first_index MAX Debug n (length tw)) (fun k => (n / 2 + k * (n + 1)) mod (n * 4))
    m sa sb so k0 eq_refl eq_refl eq_refl) as C.
  specialize (C ltac:(unfold disj; cbn; lia) ltac:(unfold disj; cbn; lia) ltac:(lia)).
  assert (C' : forall k, k < k0 -> first_index (T := T) MAX Debug n (length tw) k = Ret ((n / 2 + k * (n + 1)) mod (n * 4)) /\
    (n / 2 + k * (n + 1)) mod (n * 4) < n * 4).
  { intros k Hk. rewrite first_index_debug by lia. rewrite Lt. specialize (K3 k Hk).
    destruct (Nat.leb_spec (n / 2 + k * (n + 1)) MAX); [|lia].
    split; [reflexivity | apply Nat.mod_upper_bound; lia]. }
  specialize (C C'). unfold for_range, wp in C. rewrite Nat.sub_0_r in C.
  destruct (run (for_n 0 k0 _) m) as [[] m'| |]; [|contradiction..].
  cbn [Nat.add for_n]. rewrite run_bind. unfold mdct_cell at 1.
  unfold get_mut_unwrap. cbn [slen so]. destruct (Nat.ltb_spec k0 n); [|lia]. cbn [bind].
  unfold assign, wr. cbn [slen Nat.ltb Nat.leb bind run].
  rewrite first_index_debug by lia. destruct (Nat.leb_spec (n / 2 + k0 * (n + 1)) MAX); [lia|].
  cbn. eauto.
Qed.
End Theorems.

(** A release build. *)
Section Release.
Open Scope R_scope.
Variable MAX : nat.

Lemma tw_cos n j : (0 < n)%nat ->
  @from_f64 R R NumR (f_cos (f_mul (f_div (f_mul f_half f_pi) (f_of_nat n)) (f_add (f_of_nat j) f_half)))
  = cz (4 * zn n) (2 * zn j + 1).
Proof. intros Hn. pose proof (inr_pos n Hn). cbn [from_f64 NumR f_mul f_one f_cos f_sin f_pi f_div f_half f_of_nat f_add]. cz_angle. Qed.
Lemma angle_cz n j : (0 < n)%nat -> cos (PI / (2 * INR n) * (INR j + / 2)) = cz (4 * zn n) (2 * zn j + 1).
Proof. intros Hn. pose proof (inr_pos n Hn). cz_angle. Qed.

Lemma mshift a L : (L <> 0)%nat -> exists m : Z, (zn (a mod L) = zn a + zn L * m)%Z.
Proof.
  intros H. exists (- zn (a / L))%Z. pose proof (Nat.div_mod a L H). rewrite Nat2Z.inj_mod, Nat2Z.inj_div.
  pose proof (Z.div_mod (zn a) (zn L) ltac:(lia)). lia.
Qed.
Lemma wrapped_exact n w a b k : let tw := map (fun i => from_f64 (f_cos (f_mul (f_div (f_mul f_half f_pi) (f_of_nat n)) (f_add (f_of_nat i) f_half)))) (seq 0 (n * 4)) in
  length a = n -> length b = n -> (k < n)%nat ->
  sem_start tw w n (((n / 2 + k * (n + 1)) mod (MAX + 1)) mod (n * 4)) a b k = wrapped_mdct_at MAX n w (a ++ b) k.
Proof.
  intros tw Ha Hb Hk. unfold sem_start, wrapped_mdct_at. cbv zeta. set (st := ((n / 2 + k * (n + 1)) mod (MAX + 1))%nat).
  assert (Lt : length tw = (n * 4)%nat) by (unfold tw; rewrite map_length; apply seq_length).
  rewrite Lt, !accum_win. change (@zero R R NumR) with 0. rewrite Rplus_0_l.
  replace (2 * n)%nat with (n + n)%nat by lia. rewrite sum_app. f_equal.
  - apply sum_ext. intros i Hi. cbn [fst snd]. unfold at_. change (@zero R R NumR) with 0. rewrite app_nth1 by lia.
    rewrite (Rmult_comm (nth i a 0)). f_equal. rewrite angle_cz by lia.
    unfold tw. rewrite Exact_Naive.tw_at_map by lia. rewrite Nat.sub_0_r, tw_cos by lia.
    destruct (mshift st (n * 4)%nat) as [m1 E1]; [lia|].
    destruct (mshift (st mod (n * 4) + i * (k * 2 + 1))%nat (n * 4)%nat) as [m2 E2]; [lia|].
    apply (cz_eq (4 * zn n) ltac:(lia) _ _ (m1 + m2)). rewrite E2, Nat2Z.inj_add, E1. lia.
  - apply sum_ext. intros i Hi. cbn [fst snd]. unfold at_. change (@zero R R NumR) with 0. rewrite app_nth2 by lia.
    rewrite Ha. replace (n + i - n)%nat with i by lia. rewrite (Nat.add_comm i n).
    rewrite (Rmult_comm (nth i b 0)). f_equal. rewrite angle_cz by lia.
    unfold tw. rewrite Exact_Naive.tw_at_map by lia. rewrite Nat.sub_0_r, tw_cos by lia.
    destruct (mshift st (n * 4)%nat) as [m1 E1]; [lia|].
    destruct (mshift (st mod (n * 4) + n * (k * 2 + 1))%nat (n * 4)%nat) as [m3 E3]; [lia|].
    destruct (mshift ((st mod (n * 4) + n * (k * 2 + 1)) mod (n * 4) + i * (k * 2 + 1))%nat (n * 4)%nat) as [m2 E2]; [lia|].
    apply (cz_eq (4 * zn n) ltac:(lia) _ _ (m1 + m2 + m3)). rewrite E2, Nat2Z.inj_add, E3, Nat2Z.inj_add, E1. lia.
Qed.

Lemma naive_release n w d : MdctNaive_new n w = Ok d -> (8 * n + 2 <= MAX)%nat ->
  implements_mdct (MdctNaive_mdct_ck Release MAX d) n 0 (fun a b => map (wrapped_mdct_at MAX n (w (n * 2)%nat) (a ++ b)) (seq 0 n)).
Proof.
  intros E H. destruct (naive_sizes n w d E) as (L & Lt & Lw).
  assert (X : computes_mdct (MdctNaive_mdct_ck Release MAX d) n 0
    (fun a b k => sem_start (mn_tw d) (mn_window d) n (((n / 2 + k * (n + 1)) mod (MAX + 1)) mod (n * 4)) a b k)).
  { intros m a b o s Ha Hb Ho Hs D1 D2 D3 D4 D5.
    destruct d as [tw wd]. cbn [mn_tw mn_window] in * .
    pose proof (starts_ok n wd tw Lw Lt (first_index MAX Release n (length tw)) (fun k => ((n / 2 + k * (n + 1)) mod (MAX + 1)) mod (n * 4))%nat) as S.
    specialize (S ltac:(intros k Hk; rewrite first_index_release by lia; rewrite Lt; split; [reflexivity | apply Nat.mod_upper_bound; lia])).
    specialize (S m a b o s Ha Hb Ho Hs D1 D2 D3 D4 D5). unfold wp in * .
    rewrite (follows_run Release _ _ m (naive_mdct_starts MAX Release n wd tw Lt H a b o s)); [exact S|].
    right. intros m' Em. rewrite Em in S. exact S. }
  eapply implements_mdct_ext; [apply mdct_call, X|]. intros a b La Lb. apply map_seq_ext. intros k Hk.
  apply MdctNaive_new_inv in E as (_ & _ & ->). cbn [mn_tw mn_window]. apply wrapped_exact; first [assumption | lia].
Qed.

(** The kernel in terms of the unreduced index. *)
Lemma mdct_index n w x k : (n mod 2 = 0)%nat -> (k < n)%nat -> mdct_at n w x k =
  sum (fun i => nth i w 0 * nth i x 0 * cz (4 * zn n) (2 * zn (n / 2 + k * (n + 1) + i * (2 * k + 1)) + 1)) (2 * n).
Proof.
  intros Hev Hk. rewrite mdct_ker by lia. apply sum_ext. intros i Hi. f_equal. unfold ker. f_equal.
  assert (zn n = 2 * zn (n / 2))%Z by lia. rewrite !Nat2Z.inj_add, !Nat2Z.inj_mul, !Nat2Z.inj_add, !Nat2Z.inj_mul. nia.
Qed.
Lemma wrapped_right n w x k : (n mod 2 = 0)%nat -> (k < n)%nat -> ((MAX + 1) mod (4 * n) = 0)%nat ->
  wrapped_mdct_at MAX n w x k = mdct_at n w x k.
Proof.
  intros Hev Hk Hd. rewrite mdct_index by assumption. unfold wrapped_mdct_at. cbv zeta.
  apply sum_ext. intros i Hi. f_equal. rewrite angle_cz by lia.
  destruct (mshift (n / 2 + k * (n + 1))%nat (MAX + 1)%nat) as [m1 E1]; [lia|].
  apply Nat.mod_divides in Hd as [c Hc]; [|lia].
  apply (cz_eq (4 * zn n) ltac:(lia) _ _ (zn c * m1)%Z). rewrite Nat2Z.inj_add, E1, Hc. lia.
Qed.
Lemma release_right n w d : MdctNaive_new n w = Ok d -> (8 * n + 2 <= MAX)%nat -> ((MAX + 1) mod (4 * n) = 0)%nat ->
  implements_mdct (MdctNaive_mdct_ck Release MAX d) n 0 (fun a b => mdct_of n (w (n * 2)%nat) (a ++ b)).
Proof.
  intros E H Hd. eapply implements_mdct_ext; [apply naive_release; eassumption|].
  intros a b La Lb. unfold mdct_of. apply map_seq_ext. intros k Hk.
  apply MdctNaive_new_inv in E as (Ev & _ & _). apply wrapped_right; first [assumption | lia].
Qed.

(** It is wrong on an impulse. *)
Definition impulse (L j : nat) : list R := map (fun i => if Nat.eqb i j then 1 else 0) (seq 0 L).
Lemma sum_impulse (f : nat -> R) L j : (j < L)%nat -> sum (fun i => f i * nth i (impulse L j) 0) L = f j.
Proof.
  intros H. unfold impulse. rewrite (sum_ext _ (fun i => if Nat.eqb i j then f j else 0)).
  - assert (G : forall h, sum (fun i => if Nat.eqb i j then f j else 0) h = if Nat.ltb j h then f j else 0).
    { induction h as [|h IH]; [reflexivity|]. cbn [sum]. rewrite IH.
      destruct (Nat.ltb_spec j h), (Nat.eqb_spec h j), (Nat.ltb_spec j (S h)); lia || lra. }
    rewrite G. now destruct (Nat.ltb_spec j L); [|lia].
  - intros i Hi. rewrite nth_map_seq by exact Hi. destruct (Nat.eqb_spec i j) as [->|]; lra.
Qed.
Lemma sz_zero d j : (0 < d)%Z -> sz d j = 0 -> exists m, (j = d * m)%Z.
Proof.
  intros Hd H. unfold sz in H. apply sin_eq_0_0 in H as [m Hm]. exists m.
  assert (0 < IZR d) by (apply IZR_lt; exact Hd). pose proof PI_RGT_0.
  apply eq_IZR. rewrite mult_IZR. apply (Rmult_eq_reg_l PI); [|lra].
  replace (PI * IZR j) with (PI * IZR j / IZR d * IZR d) by (field; lra). rewrite Hm. ring.
Qed.
Lemma cz_differ d A D : (0 < d)%Z -> cz d (A + D + D) = cz d A -> (exists m, D = d * m)%Z \/ (exists m, A + D = d * m)%Z.
Proof.
  intros Hd H. pose proof (sz_sz d ltac:(lia) (A + D) D) as E.
  replace (A + D - D)%Z with A in E by lia. rewrite H in E.
  assert (P : sz d (A + D) * sz d D = 0) by lra.
  apply Rmult_integral in P as [P|P]; [right|left]; apply sz_zero; assumption.
Qed.
Lemma wrapped_wrong n w : (n mod 2 = 0)%nat -> (8 * n + 2 <= MAX)%nat -> (MAX < n / 2 + (n - 1) * (n + 1))%nat ->
  ((MAX + 1) mod (4 * n) <> 0)%nat -> nth 0 w 0 <> 0 -> nth 1 w 0 <> 0 ->
  exists j k, (j < 2)%nat /\ (k < n)%nat /\ wrapped_mdct_at MAX n w (impulse (2 * n) j) k <> mdct_at n w (impulse (2 * n) j) k.
Proof.
  intros Hev H1 H2 Hd W0 W1. destruct (first_over MAX n H2 ltac:(lia)) as (k & K1 & K2 & K3).
  assert (K4 : (n / 2 + k * (n + 1) < MAX + 1 + (MAX + 1))%nat).
  { destruct k as [|k]; [lia|]. specialize (K3 k ltac:(lia)). lia. }
  assert (St : ((n / 2 + k * (n + 1)) mod (MAX + 1) = n / 2 + k * (n + 1) - (MAX + 1))%nat).
  { replace (n / 2 + k * (n + 1))%nat with ((n / 2 + k * (n + 1) - (MAX + 1)) + 1 * (MAX + 1))%nat at 1 by lia.
    rewrite Nat.mod_add by lia. apply Nat.mod_small. lia. }
  set (S := (n / 2 + k * (n + 1))%nat) in * . set (D := (MAX + 1)%nat) in * .
  assert (G : forall j, (j < 2)%nat -> nth j w 0 <> 0 ->
    wrapped_mdct_at MAX n w (impulse (2 * n) j) k = mdct_at n w (impulse (2 * n) j) k ->
    exists m, (2 * zn (S - D + j * (2 * k + 1)) + 1 + zn D = 4 * zn n * m)%Z).
  { intros j Hj Wj E. rewrite mdct_index in E by assumption. unfold wrapped_mdct_at in E. fold S D in E. cbv zeta in E. rewrite St in E.
    rewrite (sum_ext _ (fun i => (nth i w 0 * cz (4 * zn n) (2 * zn (S - D + i * (2 * k + 1)) + 1)) * nth i (impulse (2 * n) j) 0)) in E
      by (intros i Hi; rewrite angle_cz by lia; ring).
    rewrite (sum_ext (fun i => nth i w 0 * nth i (impulse (2 * n) j) 0 * _)
      (fun i => (nth i w 0 * cz (4 * zn n) (2 * zn (S + i * (2 * k + 1)) + 1)) * nth i (impulse (2 * n) j) 0)) in E
      by (intros i Hi; ring).
    rewrite !sum_impulse in E by lia. apply Rmult_eq_reg_l in E; [|exact Wj].
    destruct (cz_differ (4 * zn n) (2 * zn (S - D + j * (2 * k + 1)) + 1) (zn D)) as [[m Hm]|[m Hm]].
    - lia.
    - rewrite E. f_equal. lia.
    - exfalso. apply Hd. apply Nat.mod_divides; [lia|]. exists (Z.to_nat m).
      assert (Hn0 : (0 < zn n)%Z) by lia. assert (HD0 : (0 <= zn D)%Z) by lia. clear - Hm Hn0 HD0.
      assert (0 <= m)%Z by nia. apply Nat2Z.inj. rewrite Hm, !Nat2Z.inj_mul, Z2Nat.id by assumption. reflexivity.
    - exists m. exact Hm. }
  destruct (Req_dec (wrapped_mdct_at MAX n w (impulse (2 * n) 0) k) (mdct_at n w (impulse (2 * n) 0) k)) as [E0|E0];
    [|exists 0%nat, k; split; [lia|]; split; assumption].
  exists 1%nat, k. split; [lia|]. split; [exact K1|]. intros E1.
  destruct (G 0%nat ltac:(lia) W0 E0) as [m0 M0]. destruct (G 1%nat ltac:(lia) W1 E1) as [m1 M1].
  assert (2 * (2 * zn k + 1) = 4 * zn n * (m1 - m0))%Z by lia.
  assert (2 * zn k + 1 = 2 * (zn n * (m1 - m0)))%Z by lia. lia.
Qed.
Lemma release_wrong n w d : MdctNaive_new n w = Ok d -> (8 * n + 2 <= MAX)%nat -> (MAX < n / 2 + (n - 1) * (n + 1))%nat ->
  ((MAX + 1) mod (4 * n) <> 0)%nat -> nth 0 (w (n * 2)%nat) 0 <> 0 -> nth 1 (w (n * 2)%nat) 0 <> 0 ->
  exists a b, length a = n /\ length b = n /\
    forall out scratch, length out = n -> exists r,
      call4 (MdctNaive_mdct_ck Release MAX d) a b out scratch = Returned (a, b, r, scratch) /\
      r <> mdct_of n (w (n * 2)%nat) (a ++ b).
Proof.
  intros E H1 H2 Hd W0 W1. pose proof (MdctNaive_new_inv _ _ _ E) as (Hev & _).
  destruct (wrapped_wrong n (w (n * 2)%nat) Hev H1 H2 Hd W0 W1) as (j & k & Hj & Hk & Ne).
  set (x := impulse (2 * n) j) in * .
  assert (Lx : length x = (2 * n)%nat) by (unfold x, impulse; now rewrite map_length, seq_length).
  exists (firstn n x), (skipn n x). rewrite firstn_length, skipn_length. split; [lia|]. split; [lia|].
  intros out s Lo. destruct (naive_release n w d E H1 (firstn n x) (skipn n x) out s) as (s' & C & L' & Sk);
    rewrite ?firstn_length, ?skipn_length; try lia. cbn [skipn] in Sk. subst s'.
  eexists. split; [exact C|]. rewrite firstn_skipn. intros Q. apply Ne.
  apply (f_equal (fun l => nth k l 0)) in Q. unfold mdct_of in Q. now rewrite !nth_map_seq in Q by exact Hk.
Qed.
End Release.
