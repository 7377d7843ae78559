(** How many additions and multiplications lie between the input and any output of the power-of-two algorithms, one after another. *)
From Coq Require Import List Arith Lia Bool ZArith ZifyNat.
From Verif Require Import Prog Num Model_Common Model_Naive Model_Fft Model_Butterflies Model_SplitRadix Model_Plan Spec_Fft Wp Contracts
  Sem_Naive Sem_Split Sem_Split2 Sem_Butterflies Objects Planner Canon Cost.
Import ListNotations.
Open Scope nat_scope.

Section Levels.
Context {T F : Type} {N : Num T F}.
(** [lev a m x]: [x] is at most [a] additions and [m] multiplications deep; [ent t]: an entry of a table of at most [M] entries. *)
Variables (M : nat) (lev : nat -> nat -> T -> Prop) (ent : T -> Prop).
Record leveled : Prop := mkLeveled {
  l_mono : forall a m a' m' x, a <= a' -> m <= m' -> lev a m x -> lev a' m' x;
  l_zero : lev 0 0 zero;
  l_neg : forall a m x, lev a m x -> lev a m (neg x);
  l_add : forall a m x y, lev a m x -> lev a m y -> lev (S a) m (add x y);
  l_sub : forall a m x y, lev a m x -> lev a m y -> lev (S a) m (sub x y);
  l_mul : forall a m x t, ent t -> lev a m x -> lev a (S m) (mul x t);
  l_two : forall a m x, lev a m x -> lev (S a) (S m) (mul x two);
  l_half : ent half; l_frac : ent frac_1_sqrt_2;
  l_big : 4 <= M;
  l_table : forall q i, q <= M -> i < q -> ent (fst (c_conj (single_twiddle (2 * i + 1) (16 * q)))) /\ ent (snd (c_conj (single_twiddle (2 * i + 1) (16 * q))))
}.
Hypothesis L : leveled.

Definition rises (n a m : nat) (g : list T -> nat -> T) : Prop :=
  forall x i j, length x = n -> (forall k, k < n -> lev i j (nth k x zero)) -> forall k, k < n -> lev (a + i) (m + j) (g x k).
(** The same when input [z] may be one multiplication deeper than the others. *)
Definition rises3 (z n a m : nat) (g : list T -> nat -> T) : Prop :=
  forall x i j, length x = n -> lev i (S j) (nth z x zero) -> (forall k, k < n -> k <> z -> lev i j (nth k x zero)) ->
  forall k, k < n -> lev (a + i) (m + j) (g x k).
Definition is_ent (t : T * T) : Prop := ent (fst (c_conj t)) /\ ent (snd (c_conj t)).
Lemma ent_1_16 : is_ent (single_twiddle 1 16). Proof. pose proof (l_big L). apply (l_table L 1 0); lia. Qed.
Lemma ent_1_32 : is_ent (single_twiddle 1 32). Proof. pose proof (l_big L). apply (l_table L 2 0); lia. Qed.
Lemma ent_3_32 : is_ent (single_twiddle 3 32). Proof. pose proof (l_big L). apply (l_table L 2 1); lia. Qed.
Lemma ent_1_64 : is_ent (single_twiddle 1 64). Proof. pose proof (l_big L). apply (l_table L 4 0); lia. Qed.
Lemma ent_3_64 : is_ent (single_twiddle 3 64). Proof. pose proof (l_big L). apply (l_table L 4 1); lia. Qed.
Lemma ent_5_64 : is_ent (single_twiddle 5 64). Proof. pose proof (l_big L). apply (l_table L 4 2); lia. Qed.
Lemma ent_7_64 : is_ent (single_twiddle 7 64). Proof. pose proof (l_big L). apply (l_table L 4 3); lia. Qed.

Ltac ks k Hk n := do n (destruct k as [|k]; [|apply -> Nat.succ_lt_mono in Hk || idtac]); [..|exfalso; lia].
Ltac ent_tac := idtac; match goal with
  | |- ent half => apply (l_half L) | |- ent frac_1_sqrt_2 => apply (l_frac L)
  | |- ent (_ (c_conj (single_twiddle 1 16))) => apply ent_1_16
  | |- ent (_ (c_conj (single_twiddle 1 32))) => apply ent_1_32 | |- ent (_ (c_conj (single_twiddle 3 32))) => apply ent_3_32
  | |- ent (_ (c_conj (single_twiddle 1 64))) => apply ent_1_64 | |- ent (_ (c_conj (single_twiddle 3 64))) => apply ent_3_64
  | |- ent (_ (c_conj (single_twiddle 5 64))) => apply ent_5_64 | |- ent (_ (c_conj (single_twiddle 7 64))) => apply ent_7_64
  | _ => assumption end.
Ltac leaf := match goal with
  | H : lev _ _ (nth ?z ?x zero) |- lev _ _ (nth ?z ?x zero) => eapply (l_mono L); [| |exact H]; lia
  | H : forall k, k < ?n -> lev _ _ (nth k ?x zero) |- lev _ _ (nth ?i ?x zero) => eapply (l_mono L); [| |apply H]; lia
  | H : forall k, k < ?n -> k <> ?z -> lev _ _ (nth k ?x zero) |- lev _ _ (nth ?i ?x zero) => eapply (l_mono L); [| |apply H]; lia end.
Ltac lv1 more := first [leaf | match goal with
  | |- lev _ _ (neg _) => apply (l_neg L) | |- lev _ _ (add _ _) => apply (l_add L) | |- lev _ _ (sub _ _) => apply (l_sub L)
  | |- lev _ _ (mul _ two) => apply (l_two L) | |- lev _ _ (mul _ _) => apply (l_mul L); [ent_tac|] end | more].
Ltac cases k Hk := repeat (destruct k as [|k]; [clear Hk|]); [..|exfalso; cbn [length] in Hk; lia].

Ltac start := intros x i j Lx Hx k Hk; cbn [Nat.add].
Ltac start3 := intros x i j Lx Hz Hx k Hk; cbn [Nat.add].
Ltac cs8 k Hk := destruct k as [|[|[|[|[|[|[|[|k]]]]]]]]; [..|exfalso; lia].
Ltac cs4 k Hk := destruct k as [|[|[|[|k]]]]; [..|exfalso; lia].
Ltac cs2 k Hk := destruct k as [|[|k]]; [..|exfalso; lia].
Ltac cs16 k Hk := destruct k as [|[|[|[|[|[|[|[|[|[|[|[|[|[|[|[|k]]]]]]]]]]]]]]]]; [..|exfalso; lia].

Lemma b2_dct2_rises : rises 2 1 1 (fun x k => at_ (b2_dct2 x) k).
Proof. start. unfold b2_dct2, at_. cs2 k Hk; cbn [nth]; repeat lv1 fail. Qed.
Lemma b2_dst2_rises : rises 2 1 1 (fun x k => at_ (b2_dst2 x) k).
Proof. start. unfold b2_dst2, at_. cs2 k Hk; cbn [nth]; repeat lv1 fail. Qed.
Lemma b2_dct3_rises : rises3 0 2 1 2 (fun x k => at_ (b2_dct3 x) k).
Proof. start3. unfold b2_dct3, at_. cs2 k Hk; cbn [nth]; repeat lv1 fail. Qed.
Lemma b2_dst3_rises : rises3 1 2 1 2 (fun x k => at_ (b2_dst3 x) k).
Proof. start3. unfold b2_dst3, at_. cs2 k Hk; cbn [nth]; repeat lv1 fail. Qed.
Lemma b4_dct2_rises : rises 4 2 1 (fun x k => at_ (b4_dct2 Butterfly4_new x) k).
Proof. start. unfold b4_dct2, Butterfly4_new, at_. cs4 k Hk; cbn [nth]; repeat lv1 fail. Qed.
Lemma b4_dst2_rises : rises 4 2 1 (fun x k => at_ (b4_dst2 Butterfly4_new x) k).
Proof. start. unfold b4_dst2, Butterfly4_new, at_. cs4 k Hk; cbn [nth]; repeat lv1 fail. Qed.
Lemma b4_dct3_rises : rises3 0 4 2 2 (fun x k => at_ (b4_dct3 Butterfly4_new x) k).
Proof. start3. unfold b4_dct3, Butterfly4_new, at_. cs4 k Hk; cbn [nth]; repeat lv1 fail. Qed.
Lemma b4_dst3_rises : rises3 3 4 2 2 (fun x k => at_ (b4_dst3 Butterfly4_new x) k).
Proof. start3. unfold b4_dst3, Butterfly4_new, at_. cs4 k Hk; cbn [nth]; repeat lv1 fail. Qed.
Ltac sub2 H := match goal with |- lev (S ?a) (S ?m) _ => apply (H _ a m); [reflexivity| |lia]; let q := fresh in let Hq := fresh in intros q Hq; cs2 q Hq; cbn [nth] end.
Ltac sub4 H := match goal with |- lev (S (S ?a)) (S ?m) _ => apply (H _ a m); [reflexivity| |lia]; let q := fresh in let Hq := fresh in intros q Hq; cs4 q Hq; cbn [nth] end.
Ltac sub23 H := match goal with |- lev (S ?a) (S (S ?m)) _ => apply (H _ a m); [reflexivity|cbn [nth]| |lia]; [|let q := fresh in let Hq := fresh in let Hn := fresh in intros q Hq Hn; cs2 q Hq; cbn [nth]; try (exfalso; lia)] end.
Ltac sub43 H := match goal with |- lev (S (S ?a)) (S (S ?m)) _ => apply (H _ a m); [reflexivity|cbn [nth]| |lia]; [|let q := fresh in let Hq := fresh in let Hn := fresh in intros q Hq Hn; cs4 q Hq; cbn [nth]; try (exfalso; lia)] end.
Ltac inner := idtac; match goal with
  | |- lev _ _ (nth _ (b2_dct2 _) zero) => sub2 b2_dct2_rises | |- lev _ _ (nth _ (b2_dst2 _) zero) => sub2 b2_dst2_rises
  | |- lev _ _ (nth _ (b2_dct3 _) zero) => sub23 b2_dct3_rises | |- lev _ _ (nth _ (b2_dst3 _) zero) => sub23 b2_dst3_rises
  | |- lev _ _ (nth _ (b4_dct2 _ _) zero) => sub4 b4_dct2_rises | |- lev _ _ (nth _ (b4_dst2 _ _) zero) => sub4 b4_dst2_rises
  | |- lev _ _ (nth _ (b4_dct3 _ _) zero) => sub43 b4_dct3_rises | |- lev _ _ (nth _ (b4_dst3 _ _) zero) => sub43 b4_dst3_rises
  end.
Ltac go := cbn [nth b8_tw b8_b4 Butterfly8_new b16_tw b16_b4 b16_b8 Butterfly16_new]; repeat lv1 inner.
Lemma b8_dct2_rises : rises 8 4 2 (fun x k => at_ (b8_dct2 Butterfly8_new x) k).
Proof. start. unfold b8_dct2. cbv zeta. unfold at_. cs8 k Hk; go. Qed.
Lemma b8_dst2_rises : rises 8 4 2 (fun x k => at_ (b8_dst2 Butterfly8_new x) k).
Proof. start. unfold b8_dst2. cbv zeta. unfold at_. cs8 k Hk; go. Qed.
Lemma b8_dct3_rises : rises3 0 8 4 3 (fun x k => at_ (b8_dct3 Butterfly8_new x) k).
Proof. start3. unfold b8_dct3. cbv zeta. unfold at_. cs8 k Hk; go. Qed.
Lemma b8_dst3_rises : rises3 7 8 4 3 (fun x k => at_ (b8_dst3 Butterfly8_new x) k).
Proof. start3. unfold b8_dst3. cbv zeta. unfold at_. cs8 k Hk; go. Qed.
Ltac sub8 H := match goal with |- lev (S (S (S (S ?a)))) (S (S ?m)) _ => apply (H _ a m); [reflexivity| |lia]; let q := fresh in let Hq := fresh in intros q Hq; cs8 q Hq; cbn [nth] end.
Ltac sub83 H := match goal with |- lev (S (S (S (S ?a)))) (S (S (S ?m))) _ => apply (H _ a m); [reflexivity|cbn [nth]| |lia]; [|let q := fresh in let Hq := fresh in let Hn := fresh in intros q Hq Hn; cs8 q Hq; cbn [nth]; try (exfalso; lia)] end.
Ltac inner16 := idtac; match goal with
  | |- lev _ _ (nth _ (b8_dct2 _ _) zero) => sub8 b8_dct2_rises | |- lev _ _ (nth _ (b8_dct3 _ _) zero) => sub83 b8_dct3_rises
  | _ => inner end.
Ltac go16 := cbn [nth b16_tw b16_b4 b16_b8 Butterfly16_new Nat.even Nat.sub]; repeat lv1 inner16.
Lemma b16_dct2_rises : rises 16 5 2 (fun x k => at_ (b16_dct2 Butterfly16_new x) k).
Proof. start. unfold b16_dct2. cbv zeta. unfold at_. cs16 k Hk; go16. Qed.
Lemma b16_dst2_rises : rises 16 5 2 (fun x k => at_ (b16_dst2 Butterfly16_new x) k).
Proof. start. unfold b16_dst2. cbv zeta. unfold at_. cs16 k Hk; go16. Qed.
Lemma b16_dct3_rises : rises3 0 16 5 3 (fun x k => at_ (b16_dct3 Butterfly16_new x) k).
Proof. start3. unfold b16_dct3. cbv zeta. unfold at_. cs16 k Hk; go16. Qed.
Lemma b16_dst3_rises : rises3 15 16 5 3 (fun x k => at_ (b16_dst3 Butterfly16_new x) k).
Proof. start3. unfold b16_dst3. cbv zeta. unfold at_. cs16 k Hk; go16. Qed.

(** *** Split radix *)
Section Split.
Variables (tw : list (T * T)) (q : nat).
Hypothesis (Htw : forall i, i < q -> ent (fst (nth i tw cc0)) /\ ent (snd (nth i tw cc0))) (Lq : length tw = q) (Hq : 0 < q).
Variables a b m p : nat.     (* half: [a], [m]; quarter: [b], [p] *)
Lemma map_lev (f : nat -> T) n i j : (forall k, k < n -> lev i j (f k)) -> forall k, k < n -> lev i j (nth k (map f (seq 0 n)) zero).
Proof. intros H k Hk. rewrite (nth_indep _ _ (f 0)) by (rewrite map_length, seq_length; exact Hk). rewrite map_nth, seq_nth by exact Hk. apply H, Hk. Qed.
Ltac lf Hx := eapply (l_mono L); [| |apply Hx]; lia.
Lemma split_dct2_rises H2 Q2 : rises (2 * q) a m H2 -> rises q b p Q2 ->
  rises (4 * q) (Nat.max (a + 1) (b + 3)) (Nat.max m (p + 1)) (sem_sr_dct2 H2 Q2 tw).
Proof.
  intros HH HQ x i j Lx Hx k Hk. unfold sem_sr_dct2. cbv zeta. rewrite Lq.
  assert (Lo : forall t, t < q -> lev (S i) j (sr_lower tw x t)) by (intros t Ht; unfold sr_lower; rewrite Lq; apply (l_sub L); apply Hx; lia).
  assert (Up : forall t, t < q -> lev (S i) j (sr_upper tw x t)) by (intros t Ht; unfold sr_upper; rewrite Lq; apply (l_sub L); apply Hx; lia).
  assert (Co : forall t, t < q -> lev (S (S i)) (S j) (sr_cos tw x t)).
  { intros t Ht. destruct (Htw t Ht). unfold sr_cos. apply (l_add L); apply (l_mul L); auto. }
  assert (Si : forall t, t < q -> lev (S (S i)) (S j) (sr_sin tw x t)).
  { intros t Ht. destruct (Htw t Ht). unfold sr_sin. apply (l_sub L); apply (l_mul L); auto. }
  assert (Od : forall t, t < q -> lev (S (S i)) (S j) (sr_odd tw x t)).
  { intros t Ht. unfold sr_odd. rewrite Lq. cbv zeta. destruct (_ =? _); [|apply (l_neg L)]; apply Si; lia. }
  assert (E : forall t, t < q -> lev (b + S (S i)) (p + S j) (Q2 (map (sr_cos tw x) (seq 0 q)) t)).
  { apply HQ; [rewrite map_length; apply seq_length|]. apply map_lev, Co. }
  assert (O : forall t, t < q -> lev (b + S (S i)) (p + S j) (Q2 (map (sr_odd tw x) (seq 0 q)) t)).
  { apply HQ; [rewrite map_length; apply seq_length|]. apply map_lev, Od. }
  assert (D : forall t, t < 2 * q -> lev (a + S i) (m + j) (H2 (map (sr_in2 tw x) (seq 0 (2 * q))) t)).
  { apply HH; [rewrite map_length; apply seq_length|]. apply map_lev. intros t Ht. unfold sr_in2. rewrite Lq. destruct (_ <? _); apply (l_add L); apply Hx; lia. }
  assert (SO : forall t, 0 < t <= q -> lev (b + S (S i)) (p + S j) (sr_sinout tw (Q2 (map (sr_odd tw x) (seq 0 q))) t)).
  { intros t Ht. unfold sr_sinout. rewrite Lq. destruct (_ =? _); [apply (l_neg L)|]; apply O; lia. }
  destruct (Nat.eqb_spec (k mod 2) 0) as [K2|K2]; [eapply (l_mono L); [| |apply D]; lia|].
  destruct (Nat.eqb_spec (k mod 4) 1) as [K4|K4].
  - destruct (Nat.eqb_spec k 1); [eapply (l_mono L); [| |apply E]; lia|].
    eapply (l_mono L); [| |apply (l_sub L); [apply E|apply SO]]; lia.
  - destruct (Nat.eqb_spec k (4 * q - 1)); [apply (l_neg L); eapply (l_mono L); [| |apply O]; lia|].
    eapply (l_mono L); [| |apply (l_add L); [apply E|apply SO]]; lia.
Qed.
Lemma map_at (f : nat -> T) n z : z < n -> nth z (map f (seq 0 n)) zero = f z.
Proof. intros Hk. rewrite (nth_indep _ _ (f 0)) by (rewrite map_length, seq_length; exact Hk). rewrite map_nth, seq_nth by exact Hk. reflexivity. Qed.
Lemma split_dct3_rises H3 Q3 : rises3 0 (2 * q) a m H3 -> rises3 0 q b p Q3 ->
  rises3 0 (4 * q) (Nat.max (a + 1) (b + 3)) (Nat.max m (p + 1)) (sem_sr_dct3 H3 Q3 tw).
Proof.
  intros HH HQ x i j Lx Hz Hx k Hk. unfold sem_sr_dct3. cbv zeta. rewrite Lq.
  assert (C : forall t, t < q -> lev (b + S i) (p + j) (Q3 (map (sr_n1 x) (seq 0 q)) t)).
  { apply HQ; [rewrite map_length; apply seq_length| |].
    - rewrite map_at by exact Hq. unfold sr_n1. cbn [Nat.eqb]. apply (l_two L), Hx; lia.
    - intros t Ht Hn. rewrite map_at by exact Ht. unfold sr_n1. destruct (Nat.eqb_spec t 0); [contradiction|]. apply (l_add L); apply Hx; lia. }
  assert (S' : forall t, t < q -> lev (b + S i) (p + j) (Q3 (map (sr_n3 tw x) (seq 0 q)) t)).
  { apply HQ; [rewrite map_length; apply seq_length| |].
    - rewrite map_at by exact Hq. unfold sr_n3. rewrite Lq. cbn [Nat.eqb]. apply (l_two L), Hx; lia.
    - intros t Ht Hn. rewrite map_at by exact Ht. unfold sr_n3. rewrite Lq. destruct (Nat.eqb_spec t 0); [contradiction|]. apply (l_sub L); apply Hx; lia. }
  assert (A : forall t, t < 2 * q -> lev (a + i) (m + j) (H3 (map (fun t => at_ x (2 * t)) (seq 0 (2 * q))) t)).
  { apply HH; [rewrite map_length; apply seq_length| |].
    - rewrite map_at by lia. exact Hz.
    - intros t Ht Hn. rewrite map_at by exact Ht. apply Hx; lia. }
  set (C0 := Q3 (map (sr_n1 x) (seq 0 q))) in * . set (S0 := Q3 (map (sr_n3 tw x) (seq 0 q))) in * . set (A0 := H3 _) in * .
  assert (Sn : forall t, t < q -> lev (b + S i) (p + j) (sr_sine S0 t)).
  { intros t Ht. unfold sr_sine. destruct (_ =? _); [|apply (l_neg L)]; apply S', Ht. }
  assert (Lo : forall t, t < q -> lev (S (b + S i)) (S (p + j)) (sr_low tw C0 S0 t)).
  { intros t Ht. destruct (Htw t Ht). unfold sr_low. apply (l_add L); apply (l_mul L); auto. }
  assert (Up : forall t, t < q -> lev (S (b + S i)) (S (p + j)) (sr_upp tw C0 S0 t)).
  { intros t Ht. destruct (Htw t Ht). unfold sr_upp. apply (l_sub L); apply (l_mul L); auto. }
  assert (A1 : forall t, t < 2 * q -> lev (Nat.max (a + i) (S (b + S i))) (Nat.max (m + j) (S (p + j))) (A0 t)) by (intros t Ht; lf A).
  assert (Lo1 : forall t, t < q -> lev (Nat.max (a + i) (S (b + S i))) (Nat.max (m + j) (S (p + j))) (sr_low tw C0 S0 t)) by (intros t Ht; lf Lo).
  assert (Up1 : forall t, t < q -> lev (Nat.max (a + i) (S (b + S i))) (Nat.max (m + j) (S (p + j))) (sr_upp tw C0 S0 t)) by (intros t Ht; lf Up).
  destruct (Nat.ltb_spec k q); [|destruct (Nat.ltb_spec k (2 * q)); [|destruct (Nat.ltb_spec k (3 * q))]].
  - eapply (l_mono L); [| |apply (l_add L); [apply A1|apply Lo1]]; lia.
  - eapply (l_mono L); [| |apply (l_add L); [apply A1|apply Up1]]; lia.
  - eapply (l_mono L); [| |apply (l_sub L); [apply A1|apply Up1]]; lia.
  - eapply (l_mono L); [| |apply (l_sub L); [apply A1|apply Lo1]]; lia.
Qed.
Lemma even_dct4_rises C3 S3 : rises3 0 q a m C3 -> rises3 (q - 1) q a m S3 -> rises (2 * q) (a + 2) (m + 1) (sem_t4e_dct4 C3 S3 tw).
Proof.
  intros HC HS x i j Lx Hx k Hk. unfold sem_t4e_dct4. cbv zeta. rewrite Lq.
  assert (A : forall t, t < q -> lev (a + S i) (m + j) (C3 (map (t4e_l x) (seq 0 q)) t)).
  { apply HC; [rewrite map_length; apply seq_length| |].
    - rewrite map_at by lia. unfold t4e_l. cbn [Nat.eqb]. apply (l_two L), Hx; lia.
    - intros t Ht Hn. rewrite map_at by exact Ht. unfold t4e_l. destruct (Nat.eqb_spec t 0); [contradiction|]. apply (l_add L); apply Hx; lia. }
  assert (B : forall t, t < q -> lev (a + S i) (m + j) (S3 (map (t4e_r tw x) (seq 0 q)) t)).
  { apply HS; [rewrite map_length; apply seq_length| |].
    - rewrite map_at by lia. unfold t4e_r. rewrite Lq, Nat.eqb_refl. apply (l_two L), Hx; lia.
    - intros t Ht Hn. rewrite map_at by exact Ht. unfold t4e_r. rewrite Lq. destruct (Nat.eqb_spec t (q - 1)); [contradiction|]. apply (l_sub L); apply Hx; lia. }
  destruct (Nat.ltb_spec k q).
  - destruct (Htw k) as [U W]; [lia|]. eapply (l_mono L); [| |apply (l_add L); (apply (l_mul L); [eassumption|]); [apply A|apply B]]; lia.
  - destruct (Htw (2 * q - 1 - k)) as [U W]; [lia|]. eapply (l_mono L); [| |apply (l_sub L); (apply (l_mul L); [eassumption|]); [apply A|apply B]]; lia.
Qed.
Lemma even_dst4_rises C3 S3 : rises3 0 q a m C3 -> rises3 (q - 1) q a m S3 -> rises (2 * q) (a + 2) (m + 1) (sem_t4e_dst4 C3 S3 tw).
Proof.
  intros HC HS x i j Lx Hx k Hk. unfold sem_t4e_dst4. cbv zeta. rewrite Lq.
  assert (A : forall t, t < q -> lev (a + S i) (m + j) (S3 (map (t4e_l' tw x) (seq 0 q)) t)).
  { apply HS; [rewrite map_length; apply seq_length| |].
    - rewrite map_at by lia. unfold t4e_l'. rewrite Lq, Nat.eqb_refl. apply (l_two L), Hx; lia.
    - intros t Ht Hn. rewrite map_at by exact Ht. unfold t4e_l'. rewrite Lq. destruct (Nat.eqb_spec t (q - 1)); [contradiction|]. apply (l_add L); apply Hx; lia. }
  assert (B : forall t, t < q -> lev (a + S i) (m + j) (C3 (map (t4e_r' x) (seq 0 q)) t)).
  { apply HC; [rewrite map_length; apply seq_length| |].
    - rewrite map_at by lia. unfold t4e_r'. cbn [Nat.eqb]. apply (l_two L), Hx; lia.
    - intros t Ht Hn. rewrite map_at by exact Ht. unfold t4e_r'. destruct (Nat.eqb_spec t 0); [contradiction|]. apply (l_sub L); apply Hx; lia. }
  destruct (Nat.ltb_spec k q).
  - destruct (Htw k) as [U W]; [lia|]. eapply (l_mono L); [| |apply (l_add L); (apply (l_mul L); [eassumption|]); [apply A|apply B]]; lia.
  - destruct (Htw (2 * q - 1 - k)) as [U W]; [lia|]. eapply (l_mono L); [| |apply (l_sub L); (apply (l_mul L); [eassumption|]); [apply B|apply A]]; lia.
Qed.
End Split.
Lemma dst2_rises n a m G : rises n a m G -> rises n a m (sem_sr_dst2 n G).
Proof.
  intros H x i j Lx Hx k Hk. unfold sem_sr_dst2. apply H; [rewrite map_length; apply seq_length| |lia]. apply map_lev. intros t Ht. unfold neg_odd, at_.
  destruct (_ =? _); [|apply (l_neg L)]; apply Hx, Ht.
Qed.
Lemma dst3_rises n a m G : 0 < n -> rises3 0 n a m G -> rises3 (n - 1) n a m (sem_sr_dst3 n G).
Proof.
  intros Hn H x i j Lx Hz Hx k Hk. unfold sem_sr_dst3. cbv zeta.
  assert (A : lev (a + i) (m + j) (G (map (fun t => at_ x (n - 1 - t)) (seq 0 n)) k)).
  { apply H; [rewrite map_length; apply seq_length| | |lia].
    - rewrite map_at by exact Hn. rewrite Nat.sub_0_r. exact Hz.
    - intros t Ht Ht0. rewrite map_at by exact Ht. apply Hx; lia. }
  destruct (_ =? _); [exact A|apply (l_neg L), A].
Qed.
Lemma rises3_rises z n a m g : rises3 z n a m g -> z < n -> rises n a m g.
Proof. intros H Hz x i j Lx Hx. apply H; [exact Lx|eapply (l_mono L); [| |apply Hx]; lia|auto]. Qed.
Lemma rises_mono n a m a' m' g : a <= a' -> m <= m' -> rises n a m g -> rises n a' m' g.
Proof. intros Ha Hm H x i j Lx Hx k Hk. eapply (l_mono L); [| |apply (H x i j Lx Hx k Hk)]; lia. Qed.
End Levels.
