(** How early the results of the power-of-two algorithms can be known, at best. *)
From Coq Require Import List Arith Lia Bool ZArith ZifyNat.
From Verif Require Import Prog Num Model_Common Model_Naive Model_Fft Model_Butterflies Model_SplitRadix Model_Plan Spec_Levels Wp Contracts
  Sem_Naive Sem_Split Sem_Split2 Sem_Butterflies Levels Levels_Plan.
Import ListNotations.
Open Scope nat_scope.

Section Lower.
Variables a m t : nat.
Notation NC := (Clock a m).
Definition lo (i j x : nat) : Prop := t + a * i + m * j <= x.
Notation "x +! y" := (@add _ _ NC x y) (at level 50, left associativity).
Lemma lo_mono i j i' j' x : i' <= i -> j' <= j -> lo i j x -> lo i' j' x.
Proof. unfold lo. intros. nia. Qed.
Lemma lo_add_l i j x y : lo i j x -> lo (S i) j (@add _ _ NC x y). Proof. unfold lo. cbn [add Clock]. nia. Qed.
Lemma lo_add_r i j x y : lo i j y -> lo (S i) j (@add _ _ NC x y). Proof. unfold lo. cbn [add Clock]. nia. Qed.
Lemma lo_sub_l i j x y : lo i j x -> lo (S i) j (@sub _ _ NC x y). Proof. unfold lo. cbn [sub Clock]. nia. Qed.
Lemma lo_sub_r i j x y : lo i j y -> lo (S i) j (@sub _ _ NC x y). Proof. unfold lo. cbn [sub Clock]. nia. Qed.
Lemma lo_mul i j x y : lo i j x -> lo i (S j) (@mul _ _ NC x y). Proof. unfold lo. cbn [mul Clock]. nia. Qed.
Lemma lo_neg i j x : lo i j x -> lo i j (@neg _ _ NC x). Proof. exact (fun H => H). Qed.

(** From all inputs; and from all but input [z]. *)
Definition reach (n A M : nat) (g : list nat -> nat -> nat) (k : nat) : Prop :=
  forall x i j, length x = n -> (forall q, q < n -> lo i j (nth q x 0)) -> lo (A + i) (M + j) (g x k).
Definition reach3 (z n A M : nat) (g : list nat -> nat -> nat) (k : nat) : Prop :=
  forall x i j, length x = n -> (forall q, q < n -> q <> z -> lo i j (nth q x 0)) -> lo (A + i) (M + j) (g x k).
Definition lo2 k g : Prop := exists q, 1 <= q < 2 ^ k /\ reach (2 ^ k) ((3 * k - 1) / 2) ((k + 1) / 2) g q.
Definition los2 k g : Prop := exists q, q < 2 ^ k /\ reach (2 ^ k) ((3 * k - 1) / 2) ((k + 1) / 2) g q.
Definition lo3 k g : Prop := reach3 0 (2 ^ k) ((3 * k - 1) / 2) ((k + 1) / 2) g 0.
Definition los3 k g : Prop := reach3 (2 ^ k - 1) (2 ^ k) ((3 * k - 1) / 2) ((k + 1) / 2) g 0.
Definition lo4 k g : Prop := reach (2 ^ k) (3 * k / 2) (k / 2 + 1) g 0.

Ltac leaf := match goal with H : forall q, _ |- lo _ _ _ => apply H; lia end.
(** Search for the path. *)
Ltac path := idtac; match goal with
  | |- lo _ _ (nth _ _ _) => solve [leaf]
  | |- lo _ _ (@neg _ _ _ _) => apply lo_neg; path
  | |- lo _ _ (@mul _ _ _ _ _) => apply lo_mul; path
  | |- lo _ _ (@add _ _ _ _ _) => apply lo_add_l; path
  | |- lo _ _ (@add _ _ _ _ _) => apply lo_add_r; path
  | |- lo _ _ (@sub _ _ _ _ _) => apply lo_sub_l; path
  | |- lo _ _ (@sub _ _ _ _ _) => apply lo_sub_r; path
  end.
Ltac go := intros x i j Lx Hx;
  match goal with |- lo (?A + i) (?M + j) _ => let A' := eval vm_compute in A in let M' := eval vm_compute in M in change A with A'; change M with M' end;
  unfold b16_dct2, b16_dst2, b16_dct3, b16_dst3, b8_dct2, b8_dst2, b8_dct3, b8_dst3, b4_dct2, b4_dst2, b4_dct3, b4_dst3, b2_dct2, b2_dst2, b2_dct3, b2_dst3, at_;
  cbn [Nat.add Nat.sub Nat.even nth]; path.
Ltac at_idx q := exists q; (split; [cbn; lia|]); go.
Lemma map_is (f : nat -> nat) n q : q < n -> nth q (map f (seq 0 n)) 0 = f q.
Proof. intros Hq. rewrite (nth_indep _ _ (f 0)) by (rewrite map_length, seq_length; exact Hq). rewrite map_nth, seq_nth by exact Hq. reflexivity. Qed.
Ltac Zify.zify_post_hook ::= Z.to_euclidean_division_equations.
Lemma low_adds k : 3 <= k -> (3 * (k - 2) - 1) / 2 + 3 = (3 * k - 1) / 2. Proof. lia. Qed.
Lemma low_muls k : 3 <= k -> (k - 2 + 1) / 2 + 1 = (k + 1) / 2. Proof. lia. Qed.
Lemma low_muls4 k : 3 <= k -> (k - 1 + 1) / 2 + 1 = k / 2 + 1. Proof. lia. Qed.
Lemma idx_mod q : 1 <= q -> (4 * q - 1) mod 2 = 1 /\ (4 * q - 1) mod 4 = 3 /\ (4 * q - 1) / 4 + 1 = q. Proof. lia. Qed.
Ltac Zify.zify_post_hook ::= idtac.
Lemma split2_lower q A M (h g : list nat -> nat -> nat) (tw : list (nat * nat)) k : length tw = q -> 1 <= k < q -> reach q A M g k ->
  reach (4 * q) (A + 3) (M + 1) (sem_sr_dct2 (N := NC) h g tw) (4 * k - 1).
Proof.
  intros Lq Hk H x i j Lx Hx. unfold sem_sr_dct2. cbv zeta. rewrite Lq. destruct (idx_mod k ltac:(lia)) as (-> & -> & ->). cbn [Nat.eqb].
  destruct (Nat.eqb_spec (4 * k - 1) (4 * q - 1)); [lia|]. replace (A + 3 + i) with (S (A + S (S i))) by lia. replace (M + 1 + j) with (M + S j) by lia.
  apply lo_add_l, H; [rewrite map_length; apply seq_length|]. intros p Hp. rewrite map_is by exact Hp. unfold sr_cos, sr_lower. rewrite Lq. apply lo_add_l, lo_mul, lo_sub_l, Hx. lia.
Qed.
Lemma split3_lower q A M (h g : list nat -> nat -> nat) (tw : list (nat * nat)) : length tw = q -> 0 < q -> reach3 0 q A M g 0 ->
  reach3 0 (4 * q) (A + 3) (M + 1) (sem_sr_dct3 (N := NC) h g tw) 0.
Proof.
  intros Lq Hq H x i j Lx Hx. unfold sem_sr_dct3. cbv zeta. rewrite Lq. destruct (Nat.ltb_spec 0 q); [|lia].
  replace (A + 3 + i) with (S (S (A + S i))) by lia. replace (M + 1 + j) with (S (M + j)) by lia. apply lo_add_r. unfold sr_low. apply lo_add_l, lo_mul.
  apply H; [rewrite map_length; apply seq_length|]. intros p Hp Hn. rewrite map_is by exact Hp. unfold sr_n1. destruct (Nat.eqb_spec p 0); [contradiction|]. apply lo_add_l, Hx; lia.
Qed.
Lemma even4_lower q A M (c s : list nat -> nat -> nat) (tw : list (nat * nat)) : length tw = q -> 0 < q -> reach3 0 q A M c 0 ->
  reach (2 * q) (A + 2) (M + 1) (sem_t4e_dct4 (N := NC) c s tw) 0.
Proof.
  intros Lq Hq H x i j Lx Hx. unfold sem_t4e_dct4. cbv zeta. rewrite Lq. destruct (Nat.ltb_spec 0 q); [|lia].
  replace (A + 2 + i) with (S (A + S i)) by lia. replace (M + 1 + j) with (S (M + j)) by lia. apply lo_add_l, lo_mul.
  apply H; [rewrite map_length; apply seq_length|]. intros p Hp Hn. rewrite map_is by exact Hp. unfold t4e_l. destruct (Nat.eqb_spec p 0); [contradiction|]. apply lo_add_l, Hx; lia.
Qed.
Lemma evens4_lower q A M (c s : list nat -> nat -> nat) (tw : list (nat * nat)) : length tw = q -> 0 < q -> reach3 (q - 1) q A M s 0 ->
  reach (2 * q) (A + 2) (M + 1) (sem_t4e_dst4 (N := NC) c s tw) 0.
Proof.
  intros Lq Hq H x i j Lx Hx. unfold sem_t4e_dst4. cbv zeta. rewrite Lq. destruct (Nat.ltb_spec 0 q); [|lia].
  replace (A + 2 + i) with (S (A + S i)) by lia. replace (M + 1 + j) with (S (M + j)) by lia. apply lo_add_l, lo_mul.
  apply H; [rewrite map_length; apply seq_length|]. intros p Hp Hn. rewrite map_is by exact Hp. unfold t4e_l'. rewrite Lq. destruct (Nat.eqb_spec p (q - 1)); [contradiction|]. apply lo_add_l, Hx; lia.
Qed.
Lemma lower_closed : closed (N := NC) lo2 los2 lo3 los3 lo4 lo4.
Proof.
  constructor.
  - split; [at_idx 1|]. split; [at_idx 0|]. split; go.
  - split; [at_idx 1|]. split; [at_idx 0|]. split; go.
  - split; [at_idx 3|]. split; [at_idx 2|]. split; go.
  - split; [at_idx 3|]. split; [at_idx 2|]. split; go.
  - intros k h g Hk _ (q & Hq & B). exists (4 * q - 1). pose proof (pow_4 k ltac:(lia)) as P4. split; [lia|].
    rewrite <- (low_adds k Hk), <- (low_muls k Hk), P4. apply split2_lower; [apply table_length|lia|exact B].
  - intros k h g Hk _ B. unfold lo3. pose proof (pow_4 k ltac:(lia)) as P4.
    rewrite <- (low_adds k Hk), <- (low_muls k Hk), P4. apply split3_lower; [apply table_length|apply pow_pos|exact B].
  - intros k g Hk (q & Hq & B). exists (2 ^ k - 1 - q). split; [lia|]. intros x i j Lx Hx. unfold sem_sr_dst2.
    replace (2 ^ k - 1 - (2 ^ k - 1 - q)) with q by lia. apply B; [rewrite map_length; apply seq_length|].
    intros p Hp. rewrite map_is by exact Hp. unfold neg_odd. destruct (_ =? _); [|apply lo_neg]; apply Hx, Hp.
  - intros k g Hk B x i j Lx Hx. unfold sem_sr_dst3. cbv zeta. change (0 mod 2 =? 0) with true. cbv iota. apply B; [rewrite map_length; apply seq_length|].
    intros p Hp Hn. rewrite map_is by exact Hp. apply Hx; lia.
  - intros k c s Hk B _. unfold lo4. rewrite <- (depth_adds4 k Hk), <- (low_muls4 k Hk), (pow_2 k) by lia. apply even4_lower; [apply table_length|apply pow_pos|exact B].
  - intros k c s Hk _ B. unfold lo4. rewrite <- (depth_adds4 k Hk), <- (low_muls4 k Hk), (pow_2 k) by lia. apply evens4_lower; [apply table_length|apply pow_pos|exact B].
Qed.
End Lower.
