(** Mirror images: the recursive algorithms, and what is planned. *)
From Coq Require Import List Arith Lia Bool ZArith ZifyNat.
From Verif Require Import Prog Num Model_Common Model_Naive Model_Butterflies Model_SplitRadix Model_Plan Model_Api Spec_Api Spec_Fft Spec_Plan Spec_Methods Wp Contracts Sem_Naive Sem_Split Sem_Split2 Sem_Butterflies
  Api Spec_Levels Levels Levels_Plan Mirror.
Import ListNotations.
Open Scope nat_scope.

Section Split.
Context {T F : Type} {N : Num T F}.
Open Scope num_scope.
Variable op : bool -> T -> T -> Prop.
Hypothesis L : sign_laws op.
Lemma nth_map (f : nat -> T) n z : z < n -> nth z (map f (seq 0 n)) zero = f z.
Proof. intros Hk. rewrite (nth_indep _ _ (f 0)) by (rewrite map_length, seq_length; exact Hk). rewrite map_nth, seq_nth by exact Hk. reflexivity. Qed.
Lemma map_len (f : nat -> T) n : length (map f (seq 0 n)) = n.
Proof. rewrite map_length. apply seq_length. Qed.
Lemma resp_maps n g b f f' : resp op n g -> (forall i, i < n -> op b (f i) (f' i)) -> forall j, j < n -> op b (g (map f (seq 0 n)) j) (g (map f' (seq 0 n)) j).
Proof. intros R H. apply R; try apply map_len. intros i Hi. rewrite !nth_map by exact Hi. apply H, Hi. Qed.
Lemma odd_mod k : Nat.odd k = negb (k mod 2 =? 0).
Proof. rewrite <- Nat.negb_even. f_equal. destruct (Nat.eqb_spec (k mod 2) 0) as [E|E]; [apply Nat.even_spec; exists (k / 2); lia|]. apply not_true_iff_false. intros H. apply Nat.even_spec in H. destruct H. lia. Qed.
Lemma odd_flag b k : odd_b b k = if k mod 2 =? 0 then b else negb b.
Proof. unfold odd_b. rewrite odd_mod. destruct (_ =? _), b; reflexivity. Qed.
Section One.
Variables (tw : list (T * T)) (q : nat).
Hypothesis (Lq : length tw = q) (Hq : 0 < q).

Lemma split2_gen H2 Q2 d e x x' : resp op (2 * q) H2 -> resp op q Q2 ->
  (forall t, t < q -> op d (sr_lower tw x t) (sr_lower tw x' t)) -> (forall t, t < q -> op d (sr_upper tw x t) (sr_upper tw x' t)) ->
  (forall t, t < 2 * q -> op e (sr_in2 tw x t) (sr_in2 tw x' t)) ->
  forall k, k < 4 * q -> op (if k mod 2 =? 0 then e else d) (sem_sr_dct2 H2 Q2 tw x k) (sem_sr_dct2 H2 Q2 tw x' k).
Proof.
  intros HH HQ Lo Up In k Hk. unfold sem_sr_dct2. cbv zeta. rewrite Lq.
  assert (Co : forall t, t < q -> op d (sr_cos tw x t) (sr_cos tw x' t)) by (intros t Ht; unfold sr_cos; apply (o_add _ L); apply (o_mul _ L); auto).
  assert (Si : forall t, t < q -> op d (sr_sin tw x t) (sr_sin tw x' t)) by (intros t Ht; unfold sr_sin; apply (o_sub _ L); apply (o_mul _ L); auto).
  assert (Od : forall t, t < q -> op d (sr_odd tw x t) (sr_odd tw x' t)).
  { intros t Ht. unfold sr_odd. rewrite Lq. cbv zeta. destruct (_ =? _); [|apply (o_neg _ L)]; apply Si; lia. }
  pose proof (resp_maps q Q2 d _ _ HQ Co) as E. pose proof (resp_maps q Q2 d _ _ HQ Od) as O. pose proof (resp_maps (2 * q) H2 e _ _ HH In) as D.
  assert (SO : forall t, 0 < t <= q -> op d (sr_sinout tw (Q2 (map (sr_odd tw x) (seq 0 q))) t) (sr_sinout tw (Q2 (map (sr_odd tw x') (seq 0 q))) t)).
  { intros t Ht. unfold sr_sinout. rewrite Lq. destruct (_ =? _); [apply (o_neg _ L)|]; apply O; lia. }
  destruct (Nat.eqb_spec (k mod 2) 0) as [K2|K2]; [apply D; lia|].
  destruct (Nat.eqb_spec (k mod 4) 1) as [K4|K4].
  - destruct (Nat.eqb_spec k 1); [apply E; lia|]. apply (o_sub _ L); [apply E|apply SO]; lia.
  - destruct (Nat.eqb_spec k (4 * q - 1)); [apply (o_neg _ L), O; lia|]. apply (o_add _ L); [apply E|apply SO]; lia.
Qed.
Lemma split2_resp H2 Q2 : resp op (2 * q) H2 -> resp op q Q2 -> resp op (4 * q) (sem_sr_dct2 H2 Q2 tw).
Proof.
  intros HH HQ b x x' Lx Lx' Hx k Hk. replace b with (if k mod 2 =? 0 then b else b) by (destruct (_ =? _); reflexivity). apply split2_gen; try assumption.
  - intros t Ht. unfold sr_lower. rewrite Lq. apply (o_sub _ L); apply Hx; lia.
  - intros t Ht. unfold sr_upper. rewrite Lq. apply (o_sub _ L); apply Hx; lia.
  - intros t Ht. unfold sr_in2. rewrite Lq. destruct (_ <? _); apply (o_add _ L); apply Hx; lia.
Qed.
Lemma split2_mirr H2 Q2 : resp op (2 * q) H2 -> resp op q Q2 -> mirr op (4 * q) (sem_sr_dct2 H2 Q2 tw).
Proof.
  intros HH HQ b x x' Lx Lx' Hx k Hk. rewrite odd_flag.
  assert (P : forall i j, i < 4 * q -> j = 4 * q - 1 - i -> op b (at_ x i) (at_ x' j)) by (intros i j Hi ->; apply Hx, Hi).
  apply split2_gen; try assumption.
  - intros t Ht. unfold sr_lower. rewrite Lq. apply (o_subc _ L); rewrite negb_involutive; apply P; lia.
  - intros t Ht. unfold sr_upper. rewrite Lq. apply (o_subc _ L); rewrite negb_involutive; apply P; lia.
  - intros t Ht. unfold sr_in2. rewrite Lq. destruct (_ <? _); apply (o_addc _ L); apply P; lia.
Qed.
Lemma split2_flat H2 Q2 k : 4 * q = 2 ^ S k -> flat op k H2 -> mirr op (4 * q) (sem_sr_dct2 H2 Q2 tw) -> flat op (S k) (sem_sr_dct2 H2 Q2 tw).
Proof.
  intros E FH M x c Lx Hx. assert (E2 : 2 * q = 2 ^ k) by (cbn [Nat.pow] in E; lia). rewrite <- E in Hx, Lx |- * .
  destruct (FH (map (sr_in2 tw x) (seq 0 (2 * q))) (c +. c)) as [A B].
  { rewrite map_len. exact E2. }
  { rewrite <- E2. intros i Hi. rewrite nth_map by exact Hi. unfold sr_in2. rewrite Lq. destruct (_ <? _); apply (o_add _ L); apply Hx; lia. }
  split.
  - unfold sem_sr_dct2. cbv zeta. rewrite Lq. exact A.
  - intros j Hj. destruct (Nat.odd j) eqn:O; [exact (flat_odd op L (S k) (4 * q) _ x c M E Lx Hx j O (proj2 Hj))|].
    rewrite odd_mod in O. destruct (Nat.eqb_spec (j mod 2) 0) as [J|J]; [|discriminate]. unfold sem_sr_dct2. cbv zeta. rewrite Lq. destruct (Nat.eqb_spec (j mod 2) 0); [|contradiction].
    apply B. lia.
Qed.

Lemma split3_gen H3 Q3 d e x x' : resp op (2 * q) H3 -> resp op q Q3 ->
  (forall t, t < 2 * q -> op e (at_ x (2 * t)) (at_ x' (2 * t))) -> (forall t, t < 2 * q -> op d (at_ x (2 * t + 1)) (at_ x' (2 * t + 1))) ->
  (forall t, t < 2 * q -> op e (H3 (map (fun i => at_ x (2 * i)) (seq 0 (2 * q))) t) (H3 (map (fun i => at_ x' (2 * i)) (seq 0 (2 * q))) t)) /\
  (forall t, t < q -> op d (sr_low tw (Q3 (map (sr_n1 x) (seq 0 q))) (Q3 (map (sr_n3 tw x) (seq 0 q))) t) (sr_low tw (Q3 (map (sr_n1 x') (seq 0 q))) (Q3 (map (sr_n3 tw x') (seq 0 q))) t)) /\
  (forall t, t < q -> op d (sr_upp tw (Q3 (map (sr_n1 x) (seq 0 q))) (Q3 (map (sr_n3 tw x) (seq 0 q))) t) (sr_upp tw (Q3 (map (sr_n1 x') (seq 0 q))) (Q3 (map (sr_n3 tw x') (seq 0 q))) t)).
Proof.
  intros HH HQ Ev Od. assert (P : forall i, i < 4 * q -> i mod 2 = 1 -> op d (at_ x i) (at_ x' i)) by (intros i Hi Hm; replace i with (2 * (i / 2) + 1) by lia; apply Od; lia).
  pose proof (resp_maps (2 * q) H3 e _ _ HH Ev) as A.
  assert (C : forall t, t < q -> op d (Q3 (map (sr_n1 x) (seq 0 q)) t) (Q3 (map (sr_n1 x') (seq 0 q)) t)).
  { apply resp_maps; [exact HQ|]. intros t Ht. unfold sr_n1. destruct (Nat.eqb_spec t 0); [apply (o_mul _ L), P; cbn; lia|]. apply (o_add _ L); apply P; lia. }
  assert (S : forall t, t < q -> op d (Q3 (map (sr_n3 tw x) (seq 0 q)) t) (Q3 (map (sr_n3 tw x') (seq 0 q)) t)).
  { apply resp_maps; [exact HQ|]. intros t Ht. unfold sr_n3. rewrite Lq. destruct (Nat.eqb_spec t 0); [apply (o_mul _ L), P; lia|]. apply (o_sub _ L); apply P; lia. }
  assert (S' : forall t, t < q -> op d (sr_sine (Q3 (map (sr_n3 tw x) (seq 0 q))) t) (sr_sine (Q3 (map (sr_n3 tw x') (seq 0 q))) t)).
  { intros t Ht. unfold sr_sine. destruct (_ =? _); [|apply (o_neg _ L)]; apply S, Ht. }
  split; [exact A|]. split; intros t Ht; [unfold sr_low; apply (o_add _ L)|unfold sr_upp; apply (o_sub _ L)]; apply (o_mul _ L); auto.
Qed.
Lemma split3_resp H3 Q3 : resp op (2 * q) H3 -> resp op q Q3 -> resp op (4 * q) (sem_sr_dct3 H3 Q3 tw).
Proof.
  intros HH HQ b x x' Lx Lx' Hx k Hk.
  destruct (split3_gen H3 Q3 b b x x' HH HQ) as (A & Lo & Up); [intros t Ht; apply Hx; lia|intros t Ht; apply Hx; lia|].
  unfold sem_sr_dct3. cbv zeta. rewrite Lq.
  destruct (Nat.ltb_spec k q); [|destruct (Nat.ltb_spec k (2 * q)); [|destruct (Nat.ltb_spec k (3 * q))]].
  - apply (o_add _ L); [apply A|apply Lo]; lia.
  - apply (o_add _ L); [apply A|apply Up]; lia.
  - apply (o_sub _ L); [apply A|apply Up]; lia.
  - apply (o_sub _ L); [apply A|apply Lo]; lia.
Qed.
Lemma split3_alter H3 Q3 : resp op (2 * q) H3 -> resp op q Q3 -> alter op (4 * q) (sem_sr_dct3 H3 Q3 tw).
Proof.
  intros HH HQ b x x' Lx Lx' Hx k Hk.
  assert (P : forall i d, i < 4 * q -> d = (if i mod 2 =? 0 then b else negb b) -> op d (at_ x i) (at_ x' i)) by (intros i d Hi ->; rewrite <- odd_flag; apply Hx, Hi).
  destruct (split3_gen H3 Q3 (negb b) b x x' HH HQ) as (A & Lo & Up).
  { intros t Ht. apply P; [lia|]. destruct (Nat.eqb_spec ((2 * t) mod 2) 0); [reflexivity|lia]. }
  { intros t Ht. apply P; [lia|]. destruct (Nat.eqb_spec ((2 * t + 1) mod 2) 0); [lia|reflexivity]. }
  unfold sem_sr_dct3. cbv zeta. rewrite Lq.
  set (A0 := H3 (map (fun i => at_ x _) _)) in * . set (A1 := H3 _) in * . set (C0 := Q3 (map (sr_n1 x) _)) in * . set (C1 := Q3 (map (sr_n1 x') _)) in * .
  set (S0 := Q3 (map (sr_n3 tw x) _)) in * . set (S1 := Q3 (map (sr_n3 tw x') _)) in * .
  destruct (Nat.ltb_spec k q); [|destruct (Nat.ltb_spec k (2 * q)); [|destruct (Nat.ltb_spec k (3 * q))]].
  - replace (4 * q - 1 - k <? q) with false by (symmetry; apply Nat.ltb_ge; lia). replace (4 * q - 1 - k <? 2 * q) with false by (symmetry; apply Nat.ltb_ge; lia).
    replace (4 * q - 1 - k <? 3 * q) with false by (symmetry; apply Nat.ltb_ge; lia). replace (4 * q - (4 * q - 1 - k) - 1) with k by lia. apply (o_addsub _ L); [apply A|apply Lo]; lia.
  - replace (4 * q - 1 - k <? q) with false by (symmetry; apply Nat.ltb_ge; lia). replace (4 * q - 1 - k <? 2 * q) with false by (symmetry; apply Nat.ltb_ge; lia).
    replace (4 * q - 1 - k <? 3 * q) with true by (symmetry; apply Nat.ltb_lt; lia). replace (4 * q - (4 * q - 1 - k) - 1) with k by lia. replace (4 * q - 1 - k - 2 * q) with (2 * q - k - 1) by lia.
    apply (o_addsub _ L); [apply A|apply Up]; lia.
  - replace (4 * q - 1 - k <? q) with false by (symmetry; apply Nat.ltb_ge; lia). replace (4 * q - 1 - k <? 2 * q) with true by (symmetry; apply Nat.ltb_lt; lia).
    replace (2 * q - (4 * q - 1 - k) - 1) with (k - 2 * q) by lia. replace (4 * q - k - 1) with (4 * q - 1 - k) by lia. apply (o_subadd _ L); [apply A|apply Up]; lia.
  - replace (4 * q - 1 - k <? q) with true by (symmetry; apply Nat.ltb_lt; lia). replace (4 * q - k - 1) with (4 * q - 1 - k) by lia. apply (o_subadd _ L); [apply A|apply Lo]; lia.
Qed.
End One.

Lemma dst2_resp n g : resp op n g -> resp op n (sem_sr_dst2 n g).
Proof. intros R b x x' Lx Lx' Hx k Hk. unfold sem_sr_dst2. apply (resp_maps n g b _ _ R); [|lia]. intros i Hi. unfold neg_odd, at_. destruct (_ =? _); [|apply (o_neg _ L)]; apply Hx, Hi. Qed.
Lemma dst2_mirr n g : n mod 2 = 0 -> mirr op n g -> mirr op n (sem_sr_dst2 n g).
Proof.
  intros Hn M b x x' Lx Lx' Hx k Hk. unfold sem_sr_dst2.
  assert (Q : op (odd_b (negb b) (n - 1 - k)) (g (map (neg_odd x) (seq 0 n)) (n - 1 - k)) (g (map (neg_odd x') (seq 0 n)) (n - 1 - k))).
  { apply M; [apply map_len|apply map_len| |lia]. intros i Hi. rewrite !nth_map by lia. unfold neg_odd, at_.
    destruct (Nat.eqb_spec (i mod 2) 0), (Nat.eqb_spec ((n - 1 - i) mod 2) 0); try lia; [apply (o_negr _ L)|apply (o_negl _ L)]; rewrite negb_involutive; apply Hx, Hi. }
  rewrite odd_flag in Q |- * . destruct (Nat.eqb_spec (k mod 2) 0), (Nat.eqb_spec ((n - 1 - k) mod 2) 0); try lia; rewrite ?negb_involutive in Q; exact Q.
Qed.
Lemma dst3_alter n g : n mod 2 = 0 -> alter op n g -> alter op n (sem_sr_dst3 n g).
Proof.
  intros Hn M b x x' Lx Lx' Hx k Hk. unfold sem_sr_dst3. cbv zeta. set (y := map _ _). set (y' := map _ _).
  assert (Q : op (negb b) (g y k) (g y' (n - 1 - k))).
  { apply M; [apply map_len|apply map_len| |exact Hk]. intros i Hi. unfold y, y'. rewrite !nth_map by lia. specialize (Hx (n - 1 - i) ltac:(lia)). rewrite odd_flag in Hx |- * .
    destruct (Nat.eqb_spec (i mod 2) 0), (Nat.eqb_spec ((n - 1 - i) mod 2) 0); try lia; rewrite ?negb_involutive; exact Hx. }
  destruct (Nat.eqb_spec (k mod 2) 0), (Nat.eqb_spec ((n - 1 - k) mod 2) 0); try lia; [apply (o_negr _ L)|apply (o_negl _ L)]; exact Q.
Qed.

Definition M2 (k : nat) (g : @fn T) : Prop := resp op (2 ^ k) g /\ mirr op (2 ^ k) g /\ flat op k g.
Definition M2s (k : nat) (g : @fn T) : Prop := mirr op (2 ^ k) g.
Definition M3 (k : nat) (g : @fn T) : Prop := resp op (2 ^ k) g /\ alter op (2 ^ k) g.
Definition M3s (k : nat) (g : @fn T) : Prop := alter op (2 ^ k) g.
Definition any (k : nat) (g : @fn T) : Prop := True.
Lemma pow_even k : 1 <= k -> 2 ^ k mod 2 = 0.
Proof. intros H. destruct k; [lia|]. rewrite Nat.pow_succ_r'. generalize (2 ^ k) as z. intros z. lia. Qed.
Lemma mirror_closed : closed (N := N) M2 M2s M3 M3s any any.
Proof.
  constructor.
  - exact (conj (conj (b2_dct2_r op L) (conj (b2_dct2_m op L) (b2_dct2_f op L))) (conj (b2_dst2_m op L) (conj (conj (b2_dct3_r op L) (b2_dct3_a op L)) (b2_dst3_a op L)))).
  - exact (conj (conj (b4_dct2_r op L) (conj (b4_dct2_m op L) (b4_dct2_f op L))) (conj (b4_dst2_m op L) (conj (conj (b4_dct3_r op L) (b4_dct3_a op L)) (b4_dst3_a op L)))).
  - exact (conj (conj (b8_dct2_r op L) (conj (b8_dct2_m op L) (b8_dct2_f op L))) (conj (b8_dst2_m op L) (conj (conj (b8_dct3_r op L) (b8_dct3_a op L)) (b8_dst3_a op L)))).
  - exact (conj (conj (b16_dct2_r op L) (conj (b16_dct2_m op L) (b16_dct2_f op L))) (conj (b16_dst2_m op L) (conj (conj (b16_dct3_r op L) (b16_dct3_a op L)) (b16_dst3_a op L)))).
  - intros k h q Hk (A & B & C) (A' & B' & C'). pose proof (pow_4 k ltac:(lia)) as E4. pose proof (pow_2 (k - 1) ltac:(lia)) as E2. replace (k - 1 - 1) with (k - 2) in E2 by lia.
    pose proof (table_length (N := N) (2 ^ (k - 2))) as Lt. assert (P : 0 < 2 ^ (k - 2)) by apply pow_pos.
    rewrite E2 in A.
    assert (M : mirr op (4 * 2 ^ (k - 2)) (sem_sr_dct2 h q (table (2 ^ (k - 2))))) by (apply split2_mirr; assumption).
    assert (E5 : 4 * 2 ^ (k - 2) = 2 ^ S (k - 1)) by (rewrite <- E4; f_equal; lia).
    split; [rewrite E4; apply split2_resp; assumption|]. split; [rewrite E4; exact M|].
    replace k with (S (k - 1)) by lia. replace (S (k - 1) - 2) with (k - 2) by lia. eapply split2_flat; [exact Lt|exact P|exact E5|exact C|exact M].
  - intros k h q Hk (A & B) (A' & B'). pose proof (pow_4 k ltac:(lia)) as E4. pose proof (pow_2 (k - 1) ltac:(lia)) as E2. replace (k - 1 - 1) with (k - 2) in E2 by lia.
    pose proof (table_length (N := N) (2 ^ (k - 2))) as Lt. assert (P : 0 < 2 ^ (k - 2)) by apply pow_pos. rewrite E2 in A.
    split; rewrite E4; [apply split3_resp|apply split3_alter]; assumption.
  - intros k g Hk (_ & B & _). apply dst2_mirr; [apply pow_even, Hk|exact B].
  - intros k g Hk (_ & B). apply dst3_alter; [apply pow_even, Hk|exact B].
  - intros; exact I.
  - intros; exact I.
Qed.
End Split.
