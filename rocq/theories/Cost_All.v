(** Counting the accesses of all planned transforms. *)
From Coq Require Import List Arith Lia Bool ZArith ZifyNat.
From Verif Require Import Prog Num Model_Common Model_Naive Model_Fft Model_Butterflies Model_SplitRadix Model_Mdct
  Model_Plan Model_Api Spec_Fft Spec_Plan Spec_Methods Spec_Memory Spec_Build Spec_Cost Wp Planner Planner_Ids Canon Plan_Theorems Objects Build_Plan
  Mdct_Theorems Cost.
Import ListNotations.
Open Scope nat_scope.
Ltac Zify.zify_post_hook ::= Z.div_mod_to_equations.

Section Rules.
Context {T : Type}.
Lemma c_crd_re s i : costs (crd_re (T:=T) s i) 1. Proof. unfold crd_re. destruct (_ <? _); [intros v|]; exact I. Qed.
Lemma c_crd_im s i : costs (crd_im (T:=T) s i) 1. Proof. unfold crd_im. destruct (_ <? _); [intros v|]; exact I. Qed.
Lemma c_crd s i : costs (crd (T:=T) s i) 2.
Proof.
  unfold crd. apply (costs_bind _ _ 1 1); [apply c_crd_re|intros x]. apply (costs_bind _ _ 1 0); [apply c_crd_im|intros y; exact I].
Qed.
Lemma c_cwr s i v : costs (cwr (T:=T) s i v) 2. Proof. unfold cwr. destruct (_ <? _); exact I. Qed.
Lemma c_cwr_im s i v : costs (cwr_im (T:=T) s i v) 1. Proof. unfold cwr_im. destruct (_ <? _); exact I. Qed.
Lemma c_unwrap s i : costs (get_mut_unwrap (T:=T) s i) 0. Proof. unfold get_mut_unwrap. destruct (_ <? _); exact I. Qed.
Lemma c_deref s : costs (deref (T:=T) s) 1. Proof. apply c_rd. Qed.
Lemma c_assign s v : costs (assign (T:=T) s v) 1. Proof. apply c_wr. Qed.
Lemma c_fold_n {X} n c (body : nat -> X -> prog T X) : (forall i x, costs (body i x) c) -> forall i x, costs (fold_n i n x body) (n * c).
Proof.
  intros H. induction n as [|n IH]; intros i x; cbn [fold_n]; [exact I|]. cbn [Nat.mul]. apply costs_bind; [apply H|]. intros y. apply IH.
Qed.
Lemma c_fold {X} a b c (x : X) (body : nat -> X -> prog T X) : (forall i x, costs (body i x) c) -> costs (fold_range a b x body) ((b - a) * c).
Proof. intros H. apply c_fold_n, H. Qed.
Lemma c_while {X} fuel cond c (body : X -> prog T X) : (forall x, costs (body x) c) -> forall x, costs (while_ fuel cond body x) (fuel * c).
Proof.
  intros H. induction fuel as [|f IH]; intros x; cbn [while_]; [exact I|]. destruct (cond x); [|exact I].
  cbn [Nat.mul]. apply costs_bind; [apply H|]. intros y. apply IH.
Qed.
Lemma c_copy d s : costs (copy_from_slice (T:=T) d s) (slen d * 2).
Proof.
  unfold copy_from_slice. destruct (_ =? _); [|exact I]. eapply costs_mono; [apply (c_for _ _ 2)|lia]. intros i.
  apply (costs_bind _ _ 1 1); [apply c_rd|intros v; apply c_wr].
Qed.
Lemma c_read_all s : costs (cread_all (T:=T) s) (clen s * 2).
Proof.
  unfold cread_all. eapply costs_mono; [apply (c_fold _ _ 2)|lia]. intros i x.
  apply (costs_bind _ _ 2 0); [apply c_crd|intros v; exact I].
Qed.
Lemma c_write_all d s l : costs (cwrite_all (T:=T) d s l) (clen s * 2).
Proof. unfold cwrite_all. eapply costs_mono; [apply (c_for _ _ 2)|lia]. intros i. apply c_cwr. Qed.
Lemma c_fft {F} {N : Num T F} f b s : costs (fft_process f b s) (4 * clen b + 4 * clen s).
Proof.
  unfold fft_process. destruct (_ || _); [exact I|].
  apply (costs_bind_le _ _ (clen b * 2) (clen s * 2 + (clen b * 2 + clen s * 2))); [apply c_read_all|lia|intros xs].
  apply costs_bind; [apply c_read_all|intros ss]. apply costs_bind; [apply c_write_all|intros _; apply c_write_all].
Qed.
Lemma c_mn tw i k : costs (mn_advance (T:=T) tw i k) 0.
Proof. unfold mn_advance. cbv zeta. destruct (_ <=? _); [apply c_usub|exact I]. Qed.
Lemma c_umod a b : costs (umod (T:=T) a b) 0. Proof. unfold umod. destruct (_ =? _); exact I. Qed.
Lemma c_if2 {A} (b : bool) (p q : prog T A) c c' : costs p c -> costs q c' -> costs (if b then p else q) (Nat.max c c').
Proof. intros H K. destruct b; [apply (costs_mono _ c)|apply (costs_mono _ c')]; auto; lia. Qed.
Lemma c_usub_bind {A} a b (k : _ -> prog T A) c : costs (k (a - b)) c -> costs (bind (usub (T:=T) a b) k) c.
Proof. intros H. unfold usub. destruct (_ <=? _); [exact H|exact I]. Qed.
(** Both slices with their lengths. *)
Lemma c_validates2 b s n sl k c : (forall s', slen b = n -> slen s' = sl -> costs (k s') c) -> costs (validate_buffers (T:=T) b s n sl k) c.
Proof.
  intros H. unfold validate_buffers, dct_error_inplace. destruct (Nat.eqb_spec (slen b) n) as [E|E]; cbn [negb bind]; [|exact I].
  unfold get_range. destruct (_ <=? _); [apply H; [exact E|reflexivity]|exact I].
Qed.
Lemma c_validates_mdct a b o s n sl k c : (forall s', slen a = n -> slen b = n -> slen o = n -> slen s' = sl -> costs (k s') c) ->
  costs (validate_buffers_mdct (T:=T) a b o s n sl k) c.
Proof.
  intros H. unfold validate_buffers_mdct, mdct_error_inplace.
  destruct (Nat.eqb_spec (slen a) n) as [Ea|]; cbn [negb orb bind]; [|exact I].
  destruct (Nat.eqb_spec (slen b) n) as [Eb|]; cbn [negb orb bind]; [|exact I].
  destruct (Nat.eqb_spec (slen o) n) as [Eo|]; cbn [negb orb bind]; [|exact I].
  unfold get_range. destruct (_ <=? _); [apply H; auto|exact I].
Qed.
Lemma c_split2 {A} s n (k : _ -> prog T A) c : (forall a b, slen a = n -> slen b = slen s - n -> costs (k (a, b)) c) -> costs (bind (split_at_mut (T:=T) s n) k) c.
Proof. intros H. unfold split_at_mut. destruct (_ <=? _); cbn [bind]; [apply H; reflexivity|exact I]. Qed.
Lemma c_csplit {A} s n (k : _ -> prog T A) c : (forall a b, clen a = n -> clen b = clen s - n -> costs (k (a, b)) c) -> costs (bind (csplit_at_mut (T:=T) s n) k) c.
Proof. intros H. unfold csplit_at_mut. destruct (_ <=? _); cbn [bind]; [apply H; reflexivity|exact I]. Qed.
Lemma c_to {A} s n (k : _ -> prog T A) c : (forall a, slen a = n -> costs (k a) c) -> costs (bind (slice_to (T:=T) s n) k) c.
Proof. intros H. unfold slice_to. destruct (_ <=? _); cbn [bind]; [apply H; reflexivity|exact I]. Qed.
Lemma c_from {A} s n (k : _ -> prog T A) c : (forall a, slen a = slen s - n -> costs (k a) c) -> costs (bind (slice_from (T:=T) s n) k) c.
Proof. intros H. unfold slice_from. destruct (_ <=? _); cbn [bind]; [apply H; reflexivity|exact I]. Qed.
Lemma c_cto {A} s n (k : _ -> prog T A) c : (forall a, clen a = n -> costs (k a) c) -> costs (bind (cslice_to (T:=T) s n) k) c.
Proof. intros H. unfold cslice_to. destruct (_ <=? _); cbn [bind]; [apply H; reflexivity|exact I]. Qed.
Lemma c_cfrom {A} s n (k : _ -> prog T A) c : (forall a, clen a = clen s - n -> costs (k a) c) -> costs (bind (cslice_from (T:=T) s n) k) c.
Proof. intros H. unfold cslice_from. destruct (_ <=? _); cbn [bind]; [apply H; reflexivity|exact I]. Qed.
Lemma c_lfrom {A X} (l : list X) n (k : _ -> prog T A) c : (forall a, length a = length l - n -> costs (k a) c) -> costs (bind (list_from (T:=T) l n) k) c.
Proof. intros H. unfold list_from. destruct (_ <=? _); cbn [bind]; [apply H, skipn_length|exact I]. Qed.
End Rules.

(** Finds a bound, as a sum. *)
Ltac syn := cbv beta zeta; lazymatch goal with
  | |- costs (match ?st with (_, _) => _ end) _ => destruct st; syn
  | |- costs (bind (match ?st with (_, _) => _ end) _) _ => destruct st; syn
  | |- costs (bind (usub _ _) _) _ => apply c_usub_bind; syn
  | |- costs (bind _ _) _ => eapply costs_bind; [syn|intros ?; syn]
  | |- costs (if _ then _ else _) _ => eapply c_if2; [syn|syn]
  | |- costs (for_range _ _ _) _ => eapply c_for; intros ?; syn
  | |- costs (fold_range _ _ _ _) _ => eapply c_fold; intros ? ?; syn
  | |- costs (while_ _ _ _ _) _ => eapply c_while; intros ?; syn
  | |- costs (rd _ _) _ => apply c_rd
  | |- costs (rdu _ _) _ => apply c_rdu
  | |- costs (wr _ _ _) _ => apply c_wr
  | |- costs (wru _ _ _) _ => apply c_wru
  | |- costs (crd _ _) _ => apply c_crd
  | |- costs (crd_re _ _) _ => apply c_crd_re
  | |- costs (crd_im _ _) _ => apply c_crd_im
  | |- costs (cwr _ _ _) _ => apply c_cwr
  | |- costs (cwr_im _ _ _) _ => apply c_cwr_im
  | |- costs (get_mut_unwrap _ _) _ => apply c_unwrap
  | |- costs (deref _) _ => apply c_deref
  | |- costs (assign _ _) _ => apply c_assign
  | |- costs (copy_from_slice _ _) _ => apply c_copy
  | |- costs (fft_process _ _ _) _ => apply c_fft
  | |- costs (usub _ _) _ => apply c_usub
  | |- costs (idx _ _) _ => apply c_idx
  | |- costs (idxu _ _) _ => apply c_idxu
  | |- costs (mn_advance _ _ _) _ => apply c_mn
  | |- costs (umod _ _) _ => apply c_umod
  | |- costs (Ret _) _ => apply (costs_ret _ 0)
  | |- _ => idtac
  end.

(** ** The naive algorithms *)
Section Naive.
Context {T F : Type} {N : Num T F}.
Definition bounded (p : meth T) (n c : nat) : Prop := forall b s, slen b = n -> costs (p b s) c.
Lemma bounded_mono (p : meth T) n c c' : bounded p n c -> c <= c' -> bounded p n c'.
Proof. intros H L b s Lb. apply (costs_mono _ c); [apply H, Lb|exact L]. Qed.
Ltac naive := intros b s Lb; unfold Dct1Naive_dct1, Dst1Naive_dst1, Type4Naive_dct4, Type4Naive_dst4, Dct5Naive_dct5, Dst5Naive_dst5, Dct6And7Naive_dct6, Dct6And7Naive_dct7,
    Dst6And7Naive_dst6, Dst6And7Naive_dst7, Dct8Naive_dct8, Dst8Naive_dst8; cbv zeta; apply c_validates2; intros s' E1 E2;
  let H := fresh in (assert (H : slen s' = slen b) by (rewrite E1, E2; reflexivity));
  eapply costs_mono; [syn|]; rewrite H, Lb; nia.
Lemma Dct1Naive_bounded (d : dct1_naive T) n : bounded (Dct1Naive_dct1 d) n (3 * n * n + 4 * n + 4).
Proof. naive. Qed.
Lemma Dst1Naive_bounded (d : dst1_naive T) n : bounded (Dst1Naive_dst1 d) n (3 * n * n + 4 * n).
Proof. naive. Qed.
Lemma Dct4Naive_bounded (d : t4_naive T) n : bounded (Type4Naive_dct4 d) n (3 * n * n + 3 * n).
Proof. naive. Qed.
Lemma Dst4Naive_bounded (d : t4_naive T) n : bounded (Type4Naive_dst4 d) n (3 * n * n + 3 * n).
Proof. naive. Qed.
Lemma Dct5Naive_bounded (d : dct5_naive T) n : bounded (Dct5Naive_dct5 d) n (4 * n * (n + 1) + 4).
Proof. naive. Qed.
Lemma Dst5Naive_bounded (d : dst5_naive T) n : bounded (Dst5Naive_dst5 d) n (4 * n * (n + 1) + 4).
Proof. naive. Qed.
Lemma Dct6Naive_bounded (d : c67_naive T) n : bounded (Dct6And7Naive_dct6 d) n (4 * n * (n + 1) + 4).
Proof. naive. Qed.
Lemma Dct7Naive_bounded (d : c67_naive T) n : bounded (Dct6And7Naive_dct7 d) n (4 * n * (n + 1) + 4).
Proof. naive. Qed.
Lemma Dst6Naive_bounded (d : s67_naive T) n : bounded (Dst6And7Naive_dst6 d) n (3 * n * n + 4 * n).
Proof. naive. Qed.
Lemma Dst7Naive_bounded (d : s67_naive T) n : bounded (Dst6And7Naive_dst7 d) n (3 * n * n + 4 * n).
Proof. naive. Qed.
Lemma Dct8Naive_bounded (d : dct8_naive T) n : bounded (Dct8Naive_dct8 d) n (4 * n * (n + 1) + 4).
Proof. naive. Qed.
Lemma Dst8Naive_bounded (d : dst8_naive T) n : bounded (Dst8Naive_dst8 d) n (4 * n * (n + 1) + 4).
Proof. naive. Qed.
End Naive.

(** ** The algorithms that use an FFT *)
Section Fft.
Context {T F : Type} {N : Num T F}.
Variable pf : nat -> fft T.
Hypothesis Hpf : fft_fits pf.
Let W m := scratch_work pf m.
Ltac lens := unfold into_complex_mut; cbn [clen]; intros.
Lemma Dct1Fft_bounded d n : 2 <= n -> Dct1ConvertToFft_new (pf (2 * (n - 1))) = Ok d -> bounded (Dct1ConvertToFft_dct1 d) n (20 * n + W (2 * (n - 1))).
Proof.
  intros Hn E b s Lb. unfold Dct1ConvertToFft_new, rassert in E. rewrite (pf_dir pf Hpf), (pf_len pf Hpf) in E.
  replace ((2 * (n - 1)) mod 2) with 0 in E by lia. cbn [Nat.eqb rbind] in E. apply Ok_inj in E. subst d.
  unfold Dct1ConvertToFft_dct1. cbn [dct1f_len dct1f_scratch dct1f_inner dct1f_fft]. apply c_validates2. intros s' _ Ls. cbv zeta.
  apply c_csplit. unfold into_complex_mut. cbn [clen]. intros u v Lu Lv. apply c_cto. intros hd Lh.
  eapply costs_mono.
  { eapply costs_bind; [syn|intros _]. apply c_cfrom. intros tl Lt. rewrite Lt. syn. }
  unfold W, scratch_work. lia.
Qed.
Lemma Dst1Fft_bounded d n : Dst1ConvertToFft_new (pf (2 * (n + 1))) = Ok d -> bounded (Dst1ConvertToFft_dst1 d) n (16 * n + 8 + W (2 * (n + 1))).
Proof.
  intros E b s Lb. unfold Dst1ConvertToFft_new, rassert, rsub in E. rewrite (pf_dir pf Hpf), (pf_len pf Hpf) in E.
  replace ((2 * (n + 1)) mod 2) with 0 in E by lia. cbn [Nat.eqb rbind] in E. destruct (1 <=? _); [|discriminate]. cbn [rbind] in E. apply Ok_inj in E. subst d.
  unfold Dst1ConvertToFft_dst1. cbn [dst1f_len dst1f_scratch dst1f_inner dst1f_fft]. apply c_validates2. intros s' _ Ls. cbv zeta.
  apply c_csplit. unfold into_complex_mut. cbn [clen]. intros u v Lu Lv. eapply costs_mono; [syn|]. unfold W, scratch_work. lia.
Qed.
Lemma T23Fft_bounded d n : Type2And3ConvertToFft_new (pf n) = Ok d ->
  bounded (Type2And3ConvertToFft_dct2 d) n (16 * n + 16 + W n) /\ bounded (Type2And3ConvertToFft_dct3 d) n (16 * n + 16 + W n) /\
  bounded (Type2And3ConvertToFft_dst2 d) n (16 * n + 16 + W n) /\ bounded (Type2And3ConvertToFft_dst3 d) n (16 * n + 16 + W n).
Proof.
  intros E. unfold Type2And3ConvertToFft_new, rassert in E. rewrite (pf_dir pf Hpf), (pf_len pf Hpf) in E. cbn [rbind] in E. apply Ok_inj in E. subst d.
  split; [|split; [|split]]; intros b s Lb;
  unfold Type2And3ConvertToFft_dct2, Type2And3ConvertToFft_dct3, Type2And3ConvertToFft_dst2, Type2And3ConvertToFft_dst3, Type2And3ConvertToFft_len;
  cbn [t23f_tw t23f_scratch t23f_fft]; rewrite map_length, seq_length; cbv zeta; apply c_validates2; intros s' _ Ls;
  (apply c_csplit; unfold into_complex_mut; cbn [clen]; intros u v Lu Lv; eapply costs_mono; [syn|]; unfold W, scratch_work; lia).
Qed.
Lemma T4Odd_bounded d n : Type4ConvertToFftOdd_new (pf n) = Ok d ->
  bounded (Type4ConvertToFftOdd_dct4 d) n (40 * n + 40 + W n) /\ bounded (Type4ConvertToFftOdd_dst4 d) n (40 * n + 40 + W n).
Proof.
  intros E. unfold Type4ConvertToFftOdd_new, rassert in E. rewrite (pf_dir pf Hpf), (pf_len pf Hpf) in E. cbn [rbind] in E.
  destruct (_ =? 1); [|discriminate]. cbn [rbind] in E. apply Ok_inj in E. subst d.
  split; intros b s Lb; unfold Type4ConvertToFftOdd_dct4, Type4ConvertToFftOdd_dst4; cbn [t4f_len t4f_scratch t4f_fft];
  cbv zeta; apply c_validates2; intros s' _ Ls;
  (apply c_csplit; unfold into_complex_mut; cbn [clen]; intros u v Lu Lv; eapply costs_mono; [syn|]; unfold W, scratch_work; lia).
Qed.
Lemma S67Fft_bounded d n : Dst6And7ConvertToFft_new (pf (2 * n + 1)) = Ok d ->
  bounded (Dst6And7ConvertToFft_dst6 d) n (20 * n + 20 + W (2 * n + 1)) /\ bounded (Dst6And7ConvertToFft_dst7 d) n (20 * n + 20 + W (2 * n + 1)).
Proof.
  intros E. unfold Dst6And7ConvertToFft_new, rassert, rsub in E. rewrite (pf_dir pf Hpf), (pf_len pf Hpf) in E.
  replace ((2 * n + 1) mod 2) with 1 in E by lia. cbn [Nat.eqb rbind] in E. destruct (1 <=? _); [|discriminate]. cbn [rbind] in E. apply Ok_inj in E. subst d.
  split; intros b s Lb; unfold Dst6And7ConvertToFft_dst6, Dst6And7ConvertToFft_dst7; cbn [s67f_len s67f_scratch s67f_inner s67f_fft];
  cbv zeta; apply c_validates2; intros s' _ Ls; apply c_csplit; unfold into_complex_mut; cbn [clen]; intros u v Lu Lv; cbv zeta.
  all: eapply costs_mono; [syn|]; unfold W, scratch_work; lia.
Qed.
End Fft.

(** ** On top of other transforms *)
Section Over.
Context {T F : Type} {N : Num T F}.
Lemma Even_bounded (i : t23 T) h c c' : 0 < h -> t23_len i = h -> bounded (t_dct3 i) h c -> bounded (t_dst3 i) h c' ->
  let d := Type4ConvertToType3Even_new i in
  bounded (Type4ConvertToType3Even_dct4 d) (2 * h) (c + c' + 10 * h) /\ bounded (Type4ConvertToType3Even_dst4 d) (2 * h) (c + c' + 10 * h).
Proof.
  intros Hh Li Hc Hs d.
  assert (L : Type4ConvertToType3Even_len d = 2 * h).
  { unfold Type4ConvertToType3Even_len, d, Type4ConvertToType3Even_new. cbn [t4e_tw]. rewrite map_length, seq_length, Li. lia. }
  assert (Ei : t4e_inner d = i) by reflexivity.
  split; intros b s Lb; unfold Type4ConvertToType3Even_dct4, Type4ConvertToType3Even_dst4; rewrite L, Ei; apply c_validates2; intros s' _ Ls; cbv zeta;
    apply c_split2; intros x y Lx Ly; apply c_split2; intros l r Ll Lr;
    (assert (Ll' : slen l = h) by lia); (assert (Lr' : slen r = h) by lia); clear Ll Lr;
    (eapply costs_mono; [syn; first [apply Hc; assumption|apply Hs; assumption]|lia]).
Qed.
Lemma MdctVia_bounded (i : t4 T) w d n c : n mod 2 = 0 -> t4_len i = n -> MdctViaDct4_new i w = Ok d -> bounded (t_dct4 i) n c ->
  (forall a b o s, slen a = n -> costs (MdctViaDct4_mdct d a b o s) (c + 8 * n)) /\
  (forall x a b s, slen x = n -> costs (MdctViaDct4_imdct d x a b s) (c + 8 * n)).
Proof.
  intros Hn Li E Hc. unfold MdctViaDct4_new, rassert in E. rewrite Li in E. destruct (_ =? 0); [|discriminate]. cbn [rbind] in E.
  destruct (Nat.eqb_spec (length (w (n * 2))) (n * 2)) as [Lw|]; [|discriminate]. cbn [rbind] in E. apply Ok_inj in E.
  assert (Di : md_dct d = i) by (rewrite <- E; reflexivity). assert (Dw : length (md_window d) = n * 2) by (rewrite <- E; exact Lw).
  split; intros a b o s La; unfold MdctViaDct4_mdct, MdctViaDct4_imdct, MdctViaDct4_len; rewrite Di, Li; apply c_validates_mdct; intros s' _ Lb Lo Ls; cbv zeta.
  - apply c_lfrom. intros wb Lwb. eapply costs_mono.
    { eapply costs_bind; [syn|intros _]. apply c_from. intros r Lr. rewrite Lr. syn. apply Hc, Lo. }
    lia.
  - apply c_split2. intros u v Lu Lv. eapply costs_mono.
    { eapply costs_bind; [syn|intros _]. eapply costs_bind; [apply Hc, Lu|intros _]. apply c_from. intros r Lr. rewrite Lr.
      eapply costs_bind; [syn|intros _]. eapply costs_bind; [syn|intros _]. apply c_lfrom. intros wb Lwb. rewrite Lwb. apply c_to. intros l Ll. rewrite Ll.
      eapply costs_bind; [syn|intros _]. syn. }
    lia.
Qed.
End Over.

(** ** The planner *)
Lemma power_of_two_eq n : is_power_of_two n = power_of_two n.
Proof. unfold is_power_of_two, power_of_two. destruct n; reflexivity. Qed.
Section Planned.
Context {T F : Type} {N : Num T F}.
Variable pf : nat -> fft T.
Hypothesis Hpf : fft_fits pf.
Notation W := (scratch_work pf).

Lemma canon23_linear n : power_of_two n && (2 <=? n) = false -> exists o, canon23 pf n = Ok o /\
  bounded (t_dct2 o) n (16 * n + 16 + W n) /\ bounded (t_dct3 o) n (16 * n + 16 + W n) /\
  bounded (t_dst2 o) n (16 * n + 16 + W n) /\ bounded (t_dst3 o) n (16 * n + 16 + W n).
Proof.
  intros E. rewrite canon23_eq. unfold canon23_step. destruct (existsb (Nat.eqb n) DCT2_BUTTERFLIES) eqn:Eb.
  - unfold DCT2_BUTTERFLIES in Eb. cbn [existsb] in Eb. rewrite !orb_true_iff, !Nat.eqb_eq in Eb.
    destruct Eb as [->|[->|[->|[->|[->|]]]]]; try discriminate. cbn [canon_bf]. eexists. split; [reflexivity|].
    cbn [Type2And3Butterfly3_obj butterfly_obj t_dct2 t_dct3 t_dst2 t_dst3].
    split; [|split; [|split]]; intros b s Lb; apply c_validate; intros _;
      unfold Butterfly3_inplace_dct2, Butterfly3_inplace_dct3, Butterfly3_inplace_dst2, Butterfly3_inplace_dst3; (eapply costs_mono; [syn|lia]).
  - rewrite power_of_two_eq. replace (power_of_two n && (2 <? n)) with false.
    2: { symmetry. apply andb_false_iff in E. destruct E as [->|E]; [reflexivity|]. apply Nat.leb_gt in E.
         replace (2 <? n) with false by (symmetry; apply Nat.ltb_ge; lia). apply andb_false_r. }
    destruct (t23_fft_new_ok pf Hpf n) as [d Ed]. rewrite Ed. cbn [rmap]. eexists. split; [reflexivity|].
    exact (T23Fft_bounded pf Hpf d n Ed).
Qed.
Lemma canon23_budget n : exists o, canon23 pf n = Ok o /\ t23_len o = n /\
  bounded (t_dct2 o) n (budget23 pf n) /\ bounded (t_dct3 o) n (budget23 pf n) /\
  bounded (t_dst2 o) n (budget23 pf n) /\ bounded (t_dst3 o) n (budget23 pf n).
Proof.
  destruct (canon23_len pf Hpf n) as (o & Eo & Lo). exists o. split; [exact Eo|]. split; [exact Lo|].
  unfold budget23. destruct (power_of_two n && (2 <=? n)) eqn:E.
  - apply andb_prop in E. destruct E as [E H2]. apply Nat.eqb_eq in E. apply Nat.leb_le in H2. set (k := Nat.log2 n) in * .
    assert (Hk : 1 <= k) by (destruct k; [cbn in E; lia|lia]).
    destruct (canon23_bounded pf Hpf k Hk) as (o' & Eo' & A & B & C & D). rewrite E in Eo', A, B, C, D. rewrite Eo in Eo'. apply Ok_inj in Eo'. subst o'.
    split; [|split; [|split]]; intros b s Lb; (eapply costs_mono; [first [apply A|apply B|apply C, Lb|apply D, Lb]|nia]).
  - destruct (canon23_linear n E) as (o' & Eo' & K). rewrite Eo in Eo'. apply Ok_inj in Eo'. subst o'. exact K.
Qed.
Lemma naive4_budget n : n < 6 \/ n < 7 /\ n mod 2 = 1 -> 3 * n * n + 3 * n <= budget4 pf n.
Proof.
  intros H. assert (L : n <= 5) by lia. clear H. do 6 (destruct n as [|n]; [cbn; lia|]). lia.
Qed.
Lemma canon4_budget n : exists o, canon4 pf n = Ok o /\ t4_len o = n /\ bounded (t_dct4 o) n (budget4 pf n) /\ bounded (t_dst4 o) n (budget4 pf n).
Proof.
  destruct (canon4_len pf Hpf n) as (o & Eo & Lo). exists o. split; [exact Eo|]. split; [exact Lo|]. revert Eo. unfold canon4.
  destruct (Nat.eqb_spec (n mod 2) 0) as [Ev|Od].
  - destruct (Nat.ltb_spec n 6) as [H6|H6].
    { intros E. apply Ok_inj in E. subst o. cbn [Type4Naive_obj t_dct4 t_dst4]. pose proof (naive4_budget n (or_introl H6)).
      split; [apply (bounded_mono _ _ _ _ (Dct4Naive_bounded _ n))|apply (bounded_mono _ _ _ _ (Dst4Naive_bounded _ n))]; assumption. }
    destruct (canon23_len pf Hpf (n / 2)) as (i & Ei & Li). rewrite Ei. cbn [rbind]. intros E. apply Ok_inj in E. subst o.
    cbn [Type4ConvertToType3Even_obj t_dct4 t_dst4].
    assert (B : exists c c', bounded (t_dct3 i) (n / 2) c /\ bounded (t_dst3 i) (n / 2) c' /\ c + c' + 10 * (n / 2) <= budget4 pf n).
    { unfold budget4. destruct (power_of_two n) eqn:Ep.
      - apply Nat.eqb_eq in Ep. set (k := Nat.log2 n) in * .
        assert (Hk : 2 <= k) by (destruct k as [|[|k]]; cbn in Ep; lia).
        assert (P : n = 2 * 2 ^ (k - 1)) by (rewrite <- Nat.pow_succ_r'; replace (S (k - 1)) with k by lia; lia).
        assert (Ph : n / 2 = 2 ^ (k - 1)) by lia.
        destruct (canon23_bounded pf Hpf (k - 1) ltac:(lia)) as (i' & Ei' & _ & B & _ & D). rewrite <- Ph in Ei', B, D. rewrite Ei in Ei'. apply Ok_inj in Ei'. subst i'.
        exists (4 * (n / 2) * (k - 1 + 1)), (4 * (n / 2) * (k - 1 + 1) + 3 * (n / 2)). split; [intros b s _; apply B|]. split; [exact D|].
        replace (k - 1 + 1) with k by lia. assert (n = 2 * (n / 2)) by lia. nia.
      - replace (Nat.even n) with true by (symmetry; apply Nat.even_spec; exists (n / 2); lia).
        assert (Eh : power_of_two (n / 2) && (2 <=? n / 2) = false).
        { apply andb_false_iff. left. destruct (power_of_two (n / 2)) eqn:Eq; [|reflexivity]. exfalso. apply Nat.eqb_eq in Eq.
          assert (Pn : n = 2 ^ S (Nat.log2 (n / 2))) by (rewrite Nat.pow_succ_r'; lia).
          apply Nat.eqb_neq in Ep. apply Ep. rewrite Pn at 1. rewrite Nat.log2_pow2 by lia. symmetry. exact Pn. }
        destruct (canon23_linear (n / 2) Eh) as (i' & Ei' & _ & B & _ & D). rewrite Ei in Ei'. apply Ok_inj in Ei'. subst i'.
        exists (16 * (n / 2) + 16 + W (n / 2)), (16 * (n / 2) + 16 + W (n / 2)). split; [exact B|]. split; [exact D|]. lia. }
    destruct B as (c & c' & B3 & B3' & Lc). destruct (Even_bounded i (n / 2) c c' ltac:(lia) Li B3 B3') as [K K'].
    replace (2 * (n / 2)) with n in K, K' by lia. split; [exact (bounded_mono _ _ _ _ K Lc)|exact (bounded_mono _ _ _ _ K' Lc)].
  - destruct (Nat.ltb_spec n 7) as [H7|H7].
    { intros E. apply Ok_inj in E. subst o. cbn [Type4Naive_obj t_dct4 t_dst4]. pose proof (naive4_budget n ltac:(lia)).
      split; [apply (bounded_mono _ _ _ _ (Dct4Naive_bounded _ n))|apply (bounded_mono _ _ _ _ (Dst4Naive_bounded _ n))]; assumption. }
    destruct (t4_fft_new_ok pf Hpf n) as [d Ed]; [lia|]. rewrite Ed. cbn [rmap]. intros E. apply Ok_inj in E. subst o.
    cbn [Type4ConvertToFftOdd_obj t_dct4 t_dst4]. destruct (T4Odd_bounded pf Hpf d n Ed) as [K K'].
    assert (L : 40 * n + 40 + W n <= budget4 pf n).
    { unfold budget4. destruct (power_of_two n) eqn:Ep.
      - apply Nat.eqb_eq in Ep. destruct (Nat.log2 n) as [|k] eqn:El; [cbn in Ep; lia|]. rewrite Nat.pow_succ_r' in Ep. lia.
      - replace (Nat.even n) with false; [lia|]. symmetry. apply not_true_is_false. rewrite Nat.even_spec. intros [x Hx]. lia. }
    split; [exact (bounded_mono _ _ _ _ K L)|exact (bounded_mono _ _ _ _ K' L)].
Qed.

Lemma use_bounded {A} (run : A -> meth T) (sc : A -> nat) (m : PM (arc A)) cs r n c :
  plans pf (fun _ _ => True) m (eq r) -> (exists o, r = Ok o /\ bounded (run o) n c) -> exists f sl,
  use run sc (snd (m (after pf cs))) = Some (f, sl) /\ forall mm b s, slen b = n -> accesses (f b s) mm <= c.
Proof.
  intros H K. destruct (planned_ex pf m r cs (fun o => bounded (run o) n c) H K) as (a & Ea & B). rewrite Ea. cbn [use].
  eexists. eexists. split; [reflexivity|]. intros mm b s Lb. apply costs_accesses, B, Lb.
Qed.
Lemma planned_budget cs c : legal c -> exists f sl, planned_method c (after pf cs) = Some (f, sl) /\
  forall m b s, slen b = size c -> accesses (f b s) m <= budget pf c.
Proof.
  intros Hc. destruct c as [n|n|n|n|n|n|n|n|n|n|n|n|n|n|n|n|n w]; cbn [legal] in Hc; try contradiction; cbn [planned_method size budget];
    unfold plan_dct3, plan_dst2, plan_dst3, plan_dst4, plan_dct7, plan_dst7.
  all: try (eapply use_bounded; [apply plan_dct2_ok|]; destruct (canon23_budget n) as (o & E & _ & A & B & C & D); exists o; split; [exact E|assumption]).
  all: try (eapply use_bounded; [apply plan_dct4_ok|]; destruct (canon4_budget n) as (o & E & _ & A & B); exists o; split; [exact E|assumption]).
  - eapply use_bounded; [apply plan_dct1_ok|]. unfold canon_dct1. destruct (Nat.ltb_spec n 10).
    + destruct (Dct1Naive_new_some (T:=T) n Hc) as [d Ed]. rewrite Ed. eexists. split; [reflexivity|].
      eapply bounded_mono; [apply Dct1Naive_bounded|]. assert (n * n <= 9 * n) by (apply Nat.mul_le_mono_r; lia). lia.
    + replace ((n - 1) * 2) with (2 * (n - 1)) by lia. destruct (dct1_fft_new_ok pf Hpf (2 * (n - 1))) as [d Ed]; [lia|]. rewrite Ed.
      eexists. split; [reflexivity|]. eapply bounded_mono; [apply (Dct1Fft_bounded pf Hpf d n Hc Ed)|lia].
  - eapply use_bounded; [apply plan_dct5_ok|]. unfold canon_dct5. destruct (Dct5Naive_new_some (T:=T) n Hc) as [d Ed]. rewrite Ed.
    eexists. split; [reflexivity|]. apply Dct5Naive_bounded.
  - eapply use_bounded; [apply plan_dct6_ok|]. unfold canon_c67. destruct (Dct6And7Naive_new_some (T:=T) n Hc) as [d Ed]. rewrite Ed.
    eexists. split; [reflexivity|]. apply Dct6Naive_bounded.
  - eapply use_bounded; [apply plan_dct6_ok|]. unfold canon_c67. destruct (Dct6And7Naive_new_some (T:=T) n Hc) as [d Ed]. rewrite Ed.
    eexists. split; [reflexivity|]. apply Dct7Naive_bounded.
  - eapply use_bounded; [apply plan_dct8_ok|]. eexists. split; [reflexivity|]. apply Dct8Naive_bounded.
  - eapply use_bounded; [apply plan_dst1_ok|]. unfold canon_dst1. destruct (Nat.ltb_spec n 25).
    + eexists. split; [reflexivity|]. cbn [Dst1Naive_obj x_run]. eapply bounded_mono; [apply Dst1Naive_bounded|]. assert (n * n <= 24 * n) by (apply Nat.mul_le_mono_r; lia). lia.
    + replace ((n + 1) * 2) with (2 * (n + 1)) by lia. destruct (dst1_fft_new_ok pf Hpf (2 * (n + 1))) as [d Ed]; [lia|lia|]. rewrite Ed.
      eexists. split; [reflexivity|]. eapply bounded_mono; [apply (Dst1Fft_bounded pf Hpf d n Ed)|lia].
  - eapply use_bounded; [apply plan_dst5_ok|]. eexists. split; [reflexivity|]. apply Dst5Naive_bounded.
  - eapply use_bounded; [apply plan_dst6_ok|]. unfold canon_s67. destruct (Nat.ltb_spec n 45).
    + eexists. split; [reflexivity|]. cbn [Dst6And7Naive_obj t_dst6]. eapply bounded_mono; [apply Dst6Naive_bounded|]. assert (n * n <= 44 * n) by (apply Nat.mul_le_mono_r; lia). lia.
    + replace (n * 2 + 1) with (2 * n + 1) by lia. destruct (s67_fft_new_ok pf Hpf (2 * n + 1)) as [d Ed]; [lia|]. rewrite Ed.
      eexists. split; [reflexivity|]. apply (bounded_mono _ _ _ _ (proj1 (S67Fft_bounded pf Hpf d n Ed))). lia.
  - eapply use_bounded; [apply plan_dst6_ok|]. unfold canon_s67. destruct (Nat.ltb_spec n 45).
    + eexists. split; [reflexivity|]. cbn [Dst6And7Naive_obj t_dst7]. eapply bounded_mono; [apply Dst7Naive_bounded|]. assert (n * n <= 44 * n) by (apply Nat.mul_le_mono_r; lia). lia.
    + replace (n * 2 + 1) with (2 * n + 1) by lia. destruct (s67_fft_new_ok pf Hpf (2 * n + 1)) as [d Ed]; [lia|]. rewrite Ed.
      eexists. split; [reflexivity|]. apply (bounded_mono _ _ _ _ (proj2 (S67Fft_bounded pf Hpf d n Ed))). lia.
  - eapply use_bounded; [apply plan_dst8_ok|]. unfold canon_dst8. destruct (Dst8Naive_new_some (T:=T) n Hc) as [d Ed]. rewrite Ed.
    eexists. split; [reflexivity|]. apply Dst8Naive_bounded.
Qed.
Lemma planned_mdct_budget cs n w : n mod 2 = 0 -> length (window_in_force cs n w (n * 2)) = n * 2 ->
  exists a, snd (plan_mdct n w (after pf cs)) = Ok a /\ forall m x y z s, slen x = n ->
    accesses (t_mdct (arc_val a) x y z s) m <= budget pf (CMdct n w) /\ accesses (t_imdct (arc_val a) x y z s) m <= budget pf (CMdct n w).
Proof.
  intros Hn Lw. destruct (planned_mdct_canon pf Hpf cs n w Hn Lw) as (i & d & a & Ei & Ed & Ea & Va). exists a. split; [exact Ea|].
  destruct (canon4_budget n) as (i' & Ei' & Li & B & _). rewrite Ei in Ei'. apply Ok_inj in Ei'. subst i'.
  destruct (MdctVia_bounded i _ d n _ Hn Li Ed B) as [K K']. intros m x y z s Lx. rewrite Va. cbn [MdctViaDct4_obj t_mdct t_imdct budget].
  split; apply costs_accesses; [apply K, Lx|apply K', Lx].
Qed.
End Planned.
