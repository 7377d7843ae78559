(** Accuracy of the butterflies of sizes 2, 4, 8 and 16 in rounded arithmetic. *)
From Coq Require Import Reals ZArith List Arith Lia Lra Psatz.
From Verif Require Import Num Model_Common Model_Butterflies Spec Spec_Round Trig Ref Ref_Split Sem_Naive Sem_Butterflies
  Exact_Split Exact_Butterflies Energy Round_Ops Round_Stage Round_Stage3 Round_Sem.
Import ListNotations.
Open Scope R_scope.

Lemma below (P : nat -> Prop) n : Forall P (seq 0 n) -> forall i, (i < n)%nat -> P i.
Proof. intros H i Hi. rewrite Forall_forall in H. apply H, in_seq. lia. Qed.

(** * From pointwise errors *)
Lemma near2_pt n r h x : length x = n -> 1 <= r -> (forall k, (k < n)%nat -> fac r (h k) (dct2_at x k)) -> near2 n r h x.
Proof.
  intros Hx Hr H. unfold near2. rewrite <- dct2_energy by exact Hx. apply sqrt_scale; [lra|]. rewrite <- sq_scal. apply sq_le; [auto|].
  intros k Hk. rewrite Rabs_mult, (Rabs_right (r - 1)) by lra. apply H, Hk.
Qed.
Lemma nears2_pt n r h x : length x = n -> 1 <= r -> (forall k, (k < n)%nat -> fac r (h k) (dst2_at x k)) -> nears2 n r h x.
Proof.
  intros Hx Hr H. unfold nears2. rewrite <- dst2_energy by exact Hx. apply sqrt_scale; [lra|]. rewrite <- sq_scal. apply sq_le; [auto|].
  intros k Hk. rewrite Rabs_mult, (Rabs_right (r - 1)) by lra. apply H, Hk.
Qed.
Lemma near3_pt n r h x : length x = n -> 1 <= r -> (forall k, (k < n)%nat -> fac r (h k) (dct3_at x k)) -> near3 n r h x.
Proof.
  intros Hx Hr H. unfold near3. rewrite <- dct3_energy by exact Hx. apply sqrt_scale; [lra|]. rewrite <- sq_scal. apply sq_le; [auto|].
  intros k Hk. rewrite Rabs_mult, (Rabs_right (r - 1)) by lra. apply H, Hk.
Qed.
Lemma nears3_pt n r h x : length x = n -> 1 <= r -> (forall k, (k < n)%nat -> fac r (h k) (dst3_at x k)) -> nears3 n r h x.
Proof.
  intros Hx Hr H. unfold nears3. rewrite <- dst3_energy by exact Hx. apply sqrt_scale; [lra|]. rewrite <- sq_scal. apply sq_le; [auto|].
  intros k Hk. rewrite Rabs_mult, (Rabs_right (r - 1)) by lra. apply H, Hk.
Qed.
Lemma dct2_one a : dct2_at [a] 0 = a.
Proof. unfold dct2_at. cbn [length sum nth]. replace (_ * _ / _) with 0 by (simpl; field). rewrite cos_0. ring. Qed.
Lemma dst2_one a : dst2_at [a] 0 = a.
Proof. rewrite dst2_dct2_at by (simpl; lia). cbn [length Nat.sub]. replace (alt_list [a]) with [a]; [apply dct2_one|]. unfold alt_list. cbn. f_equal. unfold alt. cbn. ring. Qed.
Lemma dct3_one a : dct3_at [a] 0 = a / 2.
Proof. unfold dct3_at. cbn [length sum nth Nat.eqb half_when]. replace (_ * _ / _) with 0 by (simpl; field). rewrite cos_0. field. Qed.
Lemma dst3_one a : dst3_at [a] 0 = a / 2.
Proof. rewrite dst3_dct3_at by (simpl; lia). cbn [rev app]. rewrite dct3_one. unfold alt. cbn. ring. Qed.

Section Bf.
Variables (u v : R) (N : Num R R).
Hypothesis HN : rounding u v N.
Let Hu : 0 <= u := r_u _ _ _ HN.
Notation fadd := (@add _ _ N). Notation fsub := (@sub _ _ N). Notation fmul := (@mul _ _ N). Notation z0 := (@zero _ _ N).
Notation G k := (growth u v k).

Lemma cube_ge1 : 1 <= (1 + u) ^ 3. Proof. simpl. nra. Qed.
Lemma growth_ge1 k : 1 <= G k.
Proof. unfold growth. pose proof cube_ge1. assert (1 <= level u v ^ k) by (apply pow_R1_Rle, (level_ge1 u v N HN)). nra. Qed.
Lemma growth_S k : G (S k) = level u v * G k.
Proof. unfold growth. simpl. ring. Qed.
Lemma growth_mono i j : (i <= j)%nat -> G i <= G j.
Proof.
  intros H. unfold growth. apply Rmult_le_compat_l; [pose proof cube_ge1; lra|]. apply Rle_pow; [apply (level_ge1 u v N HN)|exact H].
Qed.
Lemma acc_mono2 n i j g : (i <= j)%nat -> acc near2 n (G i) g -> acc near2 n (G j) g.
Proof. intros H A x Hx. eapply near2_mono; [apply growth_mono, H|apply A, Hx]. Qed.
Lemma acc_monos2 n i j g : (i <= j)%nat -> acc nears2 n (G i) g -> acc nears2 n (G j) g.
Proof. intros H A x Hx. eapply nears2_mono; [apply growth_mono, H|apply A, Hx]. Qed.
Lemma acc_mono3 n i j g : (i <= j)%nat -> acc near3 n (G i) g -> acc near3 n (G j) g.
Proof. intros H A x Hx. eapply near3_mono; [apply growth_mono, H|apply A, Hx]. Qed.
Lemma acc_monos3 n i j g : (i <= j)%nat -> acc nears3 n (G i) g -> acc nears3 n (G j) g.
Proof. intros H A x Hx. eapply nears3_mono; [apply growth_mono, H|apply A, Hx]. Qed.

Lemma fac_3 a b c : fac (1 + u) a b -> fac ((1 + u) * (1 + u)) b c -> fac ((1 + u) ^ 3) a c.
Proof. intros H1 H2. replace ((1 + u) ^ 3) with ((1 + u) * ((1 + u) * (1 + u))) by ring. eapply fac_trans; [lra|nra|exact H1|exact H2]. Qed.
Lemma frac_fac : fac (1 + u) (@frac_1_sqrt_2 _ _ N) (/ sqrt 2).
Proof. apply fac_rel, (r_frac_1_sqrt_2 _ _ _ HN). Qed.

(** * Size 2 *)
Lemma b2_dct2_acc : acc near2 2 (G 0) (fun x k => nth k (b2_dct2 x) z0).
Proof.
  replace (G 0) with ((1 + u) ^ 3) by (unfold growth; simpl; ring).
  intros x Lx. apply (near2_pt 2); [exact Lx|apply cube_ge1|]. intros k Hk. rewrite <- (is_list_at 2 _ _ x k b2_dct2_exact Lx Hk).
  destruct x as [|a [|b [|]]]; try discriminate. destruct k as [|[|k]]; [| |lia]; cbn [nth b2_dct2].
  - eapply fac_mono; [|apply (add_fac u v N HN)]. simpl; nra.
  - apply fac_3 with (fsub a b * frac_1_sqrt_2); [apply (mul_fac u v N HN)|]. apply (fac_mul (1 + u) (1 + u)); try lra; [apply (sub_fac u v N HN)|apply frac_fac].
Qed.
Lemma b2_dst2_acc : acc nears2 2 (G 0) (fun x k => nth k (b2_dst2 x) z0).
Proof.
  replace (G 0) with ((1 + u) ^ 3) by (unfold growth; simpl; ring).
  intros x Lx. apply (nears2_pt 2); [exact Lx|apply cube_ge1|]. intros k Hk. rewrite <- (is_list_at 2 _ _ x k b2_dst2_exact Lx Hk).
  destruct x as [|a [|b [|]]]; try discriminate. destruct k as [|[|k]]; [| |lia]; cbn [nth b2_dst2].
  - apply fac_3 with (fadd a b * frac_1_sqrt_2); [apply (mul_fac u v N HN)|]. apply (fac_mul (1 + u) (1 + u)); try lra; [apply (add_fac u v N HN)|apply frac_fac].
  - eapply fac_mono; [|apply (sub_fac u v N HN)]. simpl; nra.
Qed.

(** Sum and difference of two values. *)
Lemma sum_diff p' p q' q h0 h1 : fac ((1 + u) * (1 + u)) p' p -> fac ((1 + u) * (1 + u)) q' q ->
  fac (1 + u) h0 (p' + q') -> fac (1 + u) h1 (p' - q') ->
  sqrt ((h0 - (p + q))² + (h1 - (p - q))²) <= ((1 + u) ^ 3 - 1) * sqrt ((p + q)² + (p - q)²).
Proof.
  intros Hp Hq H0 H1.
  set (g := (1 + u) * (1 + u)) in * . assert (Hg : 1 <= g) by (unfold g; nra).
  set (two_of a b := fun k : nat => if (k =? 0)%nat then a else b : R).
  assert (E : forall a b, sq w1 2 (two_of a b) = a² + b²) by (intros; unfold sq, two_of, w1; cbn [sum Nat.eqb]; ring).
  set (B := sqrt ((p + q)² + (p - q)²)). assert (HB : 0 <= B) by apply sqrt_pos.
  assert (T1 : sqrt (sq w1 2 (two_of (p' + q' - (p + q)) (p' - q' - (p - q)))) <= (g - 1) * B).
  { rewrite E. apply sqrt_scale; [lra|]. unfold fac in Hp, Hq.
    assert (P1 : (p' - p)² <= (g - 1)² * p²) by (rewrite <- Rsqr_mult, (Rsqr_abs (p' - p)), (Rsqr_abs ((g - 1) * p)), Rabs_mult, (Rabs_right (g - 1)) by lra; apply Rsqr_incr_1; [exact Hp|apply Rabs_pos|pose proof (Rabs_pos p); nra]).
    assert (P2 : (q' - q)² <= (g - 1)² * q²) by (rewrite <- Rsqr_mult, (Rsqr_abs (q' - q)), (Rsqr_abs ((g - 1) * q)), Rabs_mult, (Rabs_right (g - 1)) by lra; apply Rsqr_incr_1; [exact Hq|apply Rabs_pos|pose proof (Rabs_pos q); nra]).
    unfold Rsqr in * . lra. }
  assert (T2 : sqrt (sq w1 2 (two_of (p' + q') (p' - q'))) <= g * B).
  { replace (g * B) with ((g - 1) * B + B) by ring. eapply Rle_trans; [|apply Rplus_le_compat; [exact T1|apply Req_le; unfold B; rewrite <- E; reflexivity]].
    eapply Rle_trans; [|apply sq_triangle; auto]. apply Req_le. f_equal. apply sq_ext; [reflexivity|]. intros i Hi. unfold two_of. destruct (_ =? _)%nat; ring. }
  assert (T3 : sqrt (sq w1 2 (two_of (h0 - (p' + q')) (h1 - (p' - q')))) <= u * (g * B)).
  { apply Rle_trans with (u * sqrt (sq w1 2 (two_of (p' + q') (p' - q')))); [|apply Rmult_le_compat_l; [exact Hu|exact T2]].
    apply sqrt_scale; [exact Hu|]. rewrite <- sq_scal. apply sq_le; [auto|]. intros i Hi. rewrite Rabs_mult, (Rabs_right u) by lra.
    unfold fac in H0, H1. unfold two_of. destruct (_ =? _)%nat; lra. }
  rewrite <- E. eapply Rle_trans with (sqrt (sq w1 2 (fun k => two_of (p' + q' - (p + q)) (p' - q' - (p - q)) k + two_of (h0 - (p' + q')) (h1 - (p' - q')) k))).
  { apply Req_le. f_equal. apply sq_ext; [reflexivity|]. intros i Hi. unfold two_of. destruct (_ =? _)%nat; ring. }
  eapply Rle_trans; [apply sq_triangle; auto|]. replace ((1 + u) ^ 3 - 1) with (g - 1 + u * g) by (unfold g; ring). rewrite Rmult_plus_distr_r.
  apply Rplus_le_compat; [exact T1|]. rewrite Rmult_assoc. exact T3.
Qed.
Lemma half_fac a : fac ((1 + u) * (1 + u)) (fmul a (@half _ _ N)) (a * / 2).
Proof. rewrite (half_2 u v N HN). eapply fac_mono; [|apply (mul_fac u v N HN)]. nra. Qed.
Lemma fr_fac a : fac ((1 + u) * (1 + u)) (fmul a (@frac_1_sqrt_2 _ _ N)) (a * / sqrt 2).
Proof.
  eapply fac_trans; [lra|lra|apply (mul_fac u v N HN)|]. rewrite <- (Rmult_1_l (1 + u)) at 1. replace (1 * (1 + u)) with (1 * (1 + u)) by ring.
  apply fac_mul; [lra|lra|apply fac_refl; lra|apply frac_fac].
Qed.
Lemma b2_dct3_acc : acc near3 2 (G 0) (fun x k => nth k (b2_dct3 x) z0).
Proof.
  replace (G 0) with ((1 + u) ^ 3) by (unfold growth; simpl; ring).
  intros x Lx. unfold near3. rewrite <- dct3_energy by exact Lx.
  pose proof (is_list_at 2 _ _ x 0 b2_dct3_exact Lx ltac:(lia)) as E0. pose proof (is_list_at 2 _ _ x 1 b2_dct3_exact Lx ltac:(lia)) as E1.
  destruct x as [|a [|b [|]]]; try discriminate. unfold sq. cbn [sum]. cbn [nth b2_dct3] in * . unfold w1. rewrite <- E0, <- E1, !Rmult_1_l, !Rplus_0_l.
  refine (sum_diff (fmul a half) (a * / 2) (fmul b frac_1_sqrt_2) (b * / sqrt 2) _ _ _ _ _ _); [apply half_fac|apply fr_fac|apply (add_fac u v N HN)|apply (sub_fac u v N HN)].
Qed.
Lemma b2_dst3_acc : acc nears3 2 (G 0) (fun x k => nth k (b2_dst3 x) z0).
Proof.
  replace (G 0) with ((1 + u) ^ 3) by (unfold growth; simpl; ring).
  intros x Lx. unfold nears3. rewrite <- dst3_energy by exact Lx.
  pose proof (is_list_at 2 _ _ x 0 b2_dst3_exact Lx ltac:(lia)) as E0. pose proof (is_list_at 2 _ _ x 1 b2_dst3_exact Lx ltac:(lia)) as E1.
  destruct x as [|a [|b [|]]]; try discriminate. unfold sq. cbn [sum]. cbn [nth b2_dst3] in * . unfold w1. rewrite <- E0, <- E1, !Rmult_1_l, !Rplus_0_l.
  refine (sum_diff (fmul a frac_1_sqrt_2) (a * / sqrt 2) (fmul b half) (b * / 2) _ _ _ _ _ _); [apply fr_fac|apply half_fac|apply (add_fac u v N HN)|apply (sub_fac u v N HN)].
Qed.

(** * The steps, in the form used below *)
Lemma rot_p x' x y' y tc ts C S T M : Rabs (tc - C) <= eps u v -> Rabs (ts - S) <= eps u v -> Rabs C <= 1 -> Rabs S <= 1 ->
  fac (1 + u) x' x -> fac (1 + u) y' y -> T = x * C + y * S -> M = Rabs x + Rabs y ->
  Rabs (fadd (fmul x' tc) (fmul y' ts) - T) <= mu u v / 2 * M.
Proof.
  intros Tc Ts BC BS Fx Fy -> ->. replace (mu u v / 2) with ((1 + u) ^ 2 * (1 + u) * (1 + eps u v) - 1) by (unfold mu; field).
  apply (rot_err u v N HN (1 + u)); auto. lra.
Qed.
Lemma rot_m x' x y' y tc ts C S T M : Rabs (tc - C) <= eps u v -> Rabs (ts - S) <= eps u v -> Rabs C <= 1 -> Rabs S <= 1 ->
  fac (1 + u) x' x -> fac (1 + u) y' y -> T = x * C - y * S -> M = Rabs x + Rabs y ->
  Rabs (fsub (fmul x' tc) (fmul y' ts) - T) <= mu u v / 2 * M.
Proof.
  intros Tc Ts BC BS Fx Fy -> ->. replace (mu u v / 2) with ((1 + u) ^ 2 * (1 + u) * (1 + eps u v) - 1) by (unfold mu; field).
  apply (rot_err u v N HN (1 + u)); auto. lra.
Qed.

Lemma step2 q k x l w ch sh yh Dh Ch Sh Rh : (0 < q)%nat ->
  length x = (4 * q)%nat -> length yh = (2 * q)%nat -> length ch = q -> length sh = q ->
  (forall i, (i < 2 * q)%nat -> fac (1 + u) (nth i yh 0) (nth i x 0 + nth (4 * q - 1 - i) x 0)) ->
  (forall i, (i < q)%nat -> l i = nth i x 0 - nth (4 * q - 1 - i) x 0) ->
  (forall i, (i < q)%nat -> w i = nth (2 * q - 1 - i) x 0 - nth (2 * q + i) x 0) ->
  (forall i, (i < q)%nat ->
     Rabs (nth i ch 0 - (l i * cz (8 * zn q) (2 * zn i + 1) + w i * sz (8 * zn q) (2 * zn i + 1))) <= mu u v / 2 * (Rabs (l i) + Rabs (w i)) /\
     Rabs (nth i sh 0 - (w i * cz (8 * zn q) (2 * zn i + 1) - l i * sz (8 * zn q) (2 * zn i + 1))) <= mu u v / 2 * (Rabs (l i) + Rabs (w i))) ->
  near2 (2 * q) (G k) Dh yh -> near2 q (G k) Ch ch -> nears2 q (G k) Sh sh ->
  (forall j, (j < 4 * q)%nat -> fac (1 + u) (Rh j) (post2 q Dh Ch Sh j)) ->
  near2 (4 * q) (G (S k)) Rh x.
Proof.
  intros Hq Lx Ly Lc Ls Hy Hl Hw Hcs AD AC AS AR.
  set (fc i := l i * cz (8 * zn q) (2 * zn i + 1) + w i * sz (8 * zn q) (2 * zn i + 1)).
  set (fs i := w i * cz (8 * zn q) (2 * zn i + 1) - l i * sz (8 * zn q) (2 * zn i + 1)).
  set (fy i := nth i x 0 + nth (4 * q - 1 - i) x 0).
  assert (Nc : forall i, (i < q)%nat -> nth i (map fc (seq 0 q)) 0 = fc i) by (intros i Hi; apply (nth_map_seq fc), Hi).
  assert (Ns : forall i, (i < q)%nat -> nth i (map fs (seq 0 q)) 0 = fs i) by (intros i Hi; apply (nth_map_seq fs), Hi).
  assert (Ny : forall i, (i < 2 * q)%nat -> nth i (map fy (seq 0 (2 * q))) 0 = fy i) by (intros i Hi; apply (nth_map_seq fy), Hi).
  unfold near2. rewrite growth_S. replace (level u v * G k) with ((1 + u) * (G k * (1 + mu u v))) by (unfold level; ring).
  apply (stage2 q Hq x (map fy (seq 0 (2 * q))) (map fc (seq 0 q)) (map fs (seq 0 q))) with (yh := yh) (ch := ch) (sh := sh) (Dh := Dh) (Ch := Ch) (Sh := Sh);
    try assumption; try apply map_seq_len; try exact Hu; try exact (mu_ge0 u v N HN); try exact (growth_ge1 k); try exact (mu_ge u v N HN).
  - intros i Hi. rewrite Nc by exact Hi. unfold fc. rewrite Hl, Hw by exact Hi. reflexivity.
  - intros i Hi. rewrite Ns by exact Hi. unfold fs. rewrite Hl, Hw by exact Hi. reflexivity.
  - intros i Hi. rewrite Ny by exact Hi. eapply Rle_trans; [apply Hy, Hi|]. apply Rmult_le_compat_r; [apply Rabs_pos|]. pose proof (mu_ge u v N HN). lra.
  - intros i Hi. rewrite Nc, Ns by exact Hi. destruct (Hcs i Hi) as [H1 H2]. replace (mu u v) with (2 * (mu u v / 2)) by field.
    apply (pair_err _ (l i) (w i)); [pose proof (mu_ge0 u v N HN); lra|exact H1|exact H2|].
    unfold fc, fs. pose proof (cz_sz_1 (8 * zn q) ltac:(lia) (2 * zn i + 1)) as H. unfold Rsqr in H |- * .
    set (C := cz _ _) in * . set (S := sz _ _) in * . transitivity ((l i * l i + w i * w i) * (C * C + S * S)); [ring|]. rewrite H. ring.
  - intros j Hj. specialize (AR j Hj). unfold fac in AR. lra.
Qed.

Lemma step3 q k x e ah bh tw Ah Ch Sh Lh Uh Rh : (0 < q)%nat -> tw_ok u v q tw ->
  length x = (4 * q)%nat -> length e = (2 * q)%nat -> length ah = q -> length bh = q ->
  (forall i, (i < 2 * q)%nat -> nth i e 0 = nth (2 * i) x 0) ->
  (forall i, (i < q)%nat -> fac (1 + u) (nth i ah 0) (if (i =? 0)%nat then 2 * nth 1 x 0 else nth (4 * i - 1) x 0 + nth (4 * i + 1) x 0)) ->
  (forall i, (i < q)%nat -> fac (1 + u) (nth i bh 0) (if (i =? q - 1)%nat then 2 * nth (4 * i + 3) x 0 else nth (4 * i + 3) x 0 - nth (4 * i + 5) x 0)) ->
  near3 (2 * q) (G k) Ah e -> near3 q (G k) Ch ah -> nears3 q (G k) Sh bh ->
  (forall i, (i < q)%nat -> Lh i = fadd (fmul (Ch i) (fst (nth i tw (0, 0)))) (fmul (Sh i) (snd (nth i tw (0, 0))))) ->
  (forall i, (i < q)%nat -> Uh i = fsub (fmul (Ch i) (snd (nth i tw (0, 0)))) (fmul (Sh i) (fst (nth i tw (0, 0))))) ->
  (forall j, (j < 4 * q)%nat -> fac (1 + u) (Rh j) (post3 q Ah Lh Uh j)) ->
  near3 (4 * q) (G (S k)) Rh x.
Proof.
  intros Hq HT Lx Le La Lb He Ha Hb AA AC AS HL HU AR.
  set (fa i := if (i =? 0)%nat then 2 * nth 1 x 0 else nth (4 * i - 1) x 0 + nth (4 * i + 1) x 0).
  set (fb i := if (i =? q - 1)%nat then 2 * nth (4 * i + 3) x 0 else nth (4 * i + 3) x 0 - nth (4 * i + 5) x 0).
  assert (Na : forall i, (i < q)%nat -> nth i (map fa (seq 0 q)) 0 = fa i) by (intros i Hi; apply (nth_map_seq fa), Hi).
  assert (Nb : forall i, (i < q)%nat -> nth i (map fb (seq 0 q)) 0 = fb i) by (intros i Hi; apply (nth_map_seq fb), Hi).
  pose proof (growth_ge1 k) as Gk.
  assert (GG : near3 (4 * q) ((1 + u) * ((1 + mu3 u v) * (G k * (1 + u)))) Rh x).
  2: { eapply near3_mono; [|exact GG]. rewrite growth_S. unfold level. pose proof (mu3_mu u v N HN).
       replace ((1 + u) * (1 + mu u v) * G k) with ((1 + u) * (G k * (1 + mu u v))) by ring. apply Rmult_le_compat_l; [lra|].
       replace ((1 + mu3 u v) * (G k * (1 + u))) with (G k * ((1 + mu3 u v) * (1 + u))) by ring. apply Rmult_le_compat_l; lra. }
  unfold near3. apply (stage3 q Hq x e (map fa (seq 0 q)) (map fb (seq 0 q))) with (ah := ah) (bh := bh) (Ah := Ah) (Ch := Ch) (Sh := Sh) (Lh := Lh) (Uh := Uh);
    try assumption; try apply map_seq_len; try exact (mu3_ge0 u v N HN).
  - intros i Hi. rewrite Na by exact Hi. specialize (Ha i Hi). unfold fac in Ha. fold (fa i) in Ha. lra.
  - intros i Hi. rewrite Nb by exact Hi. specialize (Hb i Hi). unfold fac in Hb. fold (fb i) in Hb. lra.
  - intros i Hi. rewrite HL, HU by exact Hi. apply (rot_a3 u v N HN q i tw); assumption.
  - intros j Hj. specialize (AR j Hj). unfold fac in AR. lra.
Qed.

Lemma near2_id k a : near2 1 (G k) (nt [a]) [a].
Proof. apply near2_pt; [reflexivity|apply growth_ge1|]. apply below. apply Forall_cons; [|apply Forall_nil]. cbn [nth]. rewrite dct2_one. apply fac_refl, growth_ge1. Qed.
Lemma nears2_id k a : nears2 1 (G k) (nt [a]) [a].
Proof. apply nears2_pt; [reflexivity|apply growth_ge1|]. apply below. apply Forall_cons; [|apply Forall_nil]. cbn [nth]. rewrite dst2_one. apply fac_refl, growth_ge1. Qed.
Lemma near3_id k a : near3 1 (G k) (fun _ => a) [2 * a].
Proof. apply near3_pt; [reflexivity|apply growth_ge1|]. apply below. apply Forall_cons; [|apply Forall_nil]. rewrite dct3_one. replace (2 * a / 2) with a by field. apply fac_refl, growth_ge1. Qed.
Lemma nears3_id k a : nears3 1 (G k) (fun _ => a) [2 * a].
Proof. apply nears3_pt; [reflexivity|apply growth_ge1|]. apply below. apply Forall_cons; [|apply Forall_nil]. rewrite dst3_one. replace (2 * a / 2) with a by field. apply fac_refl, growth_ge1. Qed.

(** * Sizes 4, 8 and 16 *)
Lemma fac_eq g a' a b : fac g a' b -> a = b -> fac g a' a. Proof. intros H ->. exact H. Qed.
Lemma fac_alt g a' a : fac g a' (- a) -> fac g (- a') a.
Proof. intros H. rewrite <- (Ropp_involutive a). apply fac_opp, H. Qed.
Lemma fac_neg_eq g a' a : fac g a' (- a) -> fac g (@neg _ _ N a') a.
Proof. rewrite (r_neg _ _ _ HN). apply fac_alt. Qed.
Lemma neg_le a t m : Rabs (a - - t) <= m -> Rabs (- a - t) <= m.
Proof. intros H. rewrite <- Rabs_Ropp. replace (- (- a - t)) with (a - - t) by ring. exact H. Qed.
End Bf.

Ltac each := apply below; cbn [seq Nat.mul Nat.add]; repeat (apply Forall_cons); try apply Forall_nil; cbv beta; cbn [nth Nat.mul Nat.add Nat.sub Nat.eqb].
Ltac rabs1 := solve [reflexivity | f_equal; ring | rewrite <- Rabs_Ropp; f_equal; ring].
Ltac rabs2 := solve [f_equal; rabs1 | rewrite Rplus_comm; f_equal; rabs1].
Ltac alts := change (alt 0) with 1; change (alt 1) with (-1); change (alt 2) with 1; change (alt 3) with (-1); change (alt 4) with 1; change (alt 5) with (-1);
  change (alt 6) with 1; change (alt 7) with (-1); change (alt 8) with 1; change (alt 9) with (-1); change (alt 10) with 1; change (alt 11) with (-1);
  change (alt 12) with 1; change (alt 13) with (-1); change (alt 14) with 1; change (alt 15) with (-1).
(** An operation with one rounding, possibly negated; or none. *)
Ltac one_op HN Hu :=
  first [solve [match goal with |- fac _ ?a ?b => replace b with a by (rewrite ?(r_neg _ _ _ HN); ring); apply fac_refl; lra end] |
  lazymatch goal with
  | |- fac _ (@neg _ _ _ _) _ => apply (fac_neg_eq _ _ _ HN); one_op HN Hu
  | |- fac _ (@add _ _ _ _ _) _ => eapply fac_eq; [apply (add_fac _ _ _ HN)|rewrite ?(r_neg _ _ _ HN), ?(two_2 _ _ _ HN); ring]
  | |- fac _ (@sub _ _ _ _ _) _ => eapply fac_eq; [apply (sub_fac _ _ _ HN)|rewrite ?(r_neg _ _ _ HN), ?(two_2 _ _ _ HN); ring]
  | |- fac _ (@mul _ _ _ _ _) _ => eapply fac_eq; [apply (mul_fac _ _ _ HN)|rewrite ?(r_neg _ _ _ HN), ?(two_2 _ _ _ HN); ring]
  | |- fac _ (- _) _ => apply fac_alt; one_op HN Hu
  | |- fac _ (1 * ?a) _ => rewrite (Rmult_1_l a); one_op HN Hu
  | |- fac _ (-1 * ?a) _ => replace (-1 * a) with (- a) by ring; one_op HN Hu
  end].
Ltac op_fac HN := first [apply (add_fac _ _ _ HN) | apply (sub_fac _ _ _ HN)].
Ltac rot1 HN :=
  lazymatch goal with
  | |- Rabs (- _ - _) <= _ => apply neg_le; rot1 HN
  | |- Rabs (@add _ _ _ _ _ - _) <= _ =>
    eapply (rot_p _ _ _ HN); [eassumption|eassumption|first [apply cz_le1|apply sz_le1]|first [apply cz_le1|apply sz_le1]|op_fac HN|op_fac HN
      |rewrite ?(r_neg _ _ _ HN); ring|rewrite ?(r_neg _ _ _ HN); rabs2]
  | |- Rabs (@sub _ _ _ _ _ - _) <= _ =>
    eapply (rot_m _ _ _ HN); [eassumption|eassumption|first [apply cz_le1|apply sz_le1]|first [apply cz_le1|apply sz_le1]|op_fac HN|op_fac HN
      |rewrite ?(r_neg _ _ _ HN); ring|rewrite ?(r_neg _ _ _ HN); rabs2]
  end.
Ltac ev_nat := repeat match goal with
  | |- context [Nat.eqb ?a ?b] => let c := eval vm_compute in (Nat.eqb a b) in change (Nat.eqb a b) with c
  | |- context [Nat.ltb ?a ?b] => let c := eval vm_compute in (Nat.ltb a b) in change (Nat.ltb a b) with c
  | |- context [Nat.div ?a ?b] => let c := eval vm_compute in (Nat.div a b) in change (Nat.div a b) with c
  end; cbv iota.

(** [alt_list] of a literal list. *)
Ltac alt_norm := match goal with |- context [alt_list ?l] =>
  let y := eval cbv [alt_list map seq length nth] in (alt_list l) in change (alt_list l) with y end;
  alts; rewrite ?Rmult_1_l; repeat match goal with |- context [-1 * ?a] => replace (-1 * a) with (- a) by ring end.

Section Bf4.
Variables (u v : R) (N : Num R R).
Hypothesis HN : rounding u v N.
Let Hu : 0 <= u := r_u _ _ _ HN.
Notation fadd := (@add _ _ N). Notation fsub := (@sub _ _ N). Notation fmul := (@mul _ _ N). Notation z0 := (@zero _ _ N).
Notation G k := (growth u v k).
Variable t : R * R.
Hypothesis HT : tw_ok u v 1 [t].

Lemma b4_dct2_acc : acc near2 4 (G 1) (fun x k => nth k (b4_dct2 t x) z0).
Proof.
  intros x Lx. do 4 (destruct x as [|? x]; [discriminate Lx|]). destruct x; [|discriminate Lx].
  set (l := fsub r r2). set (w := fsub r1 r0).
  apply (step2 u v N HN 1 0 [r; r0; r1; r2] (fun _ => r - r2) (fun _ => r0 - r1) [fsub (fmul l (fst t)) (fmul w (snd t))]
     [- fadd (fmul w (fst t)) (fmul l (snd t))] [fadd r r2; fadd r1 r0] (fun k => nth k (b2_dct2 [fadd r r2; fadd r1 r0]) z0)
     (nt [fsub (fmul l (fst t)) (fmul w (snd t))]) (nt [- fadd (fmul w (fst t)) (fmul l (snd t))])); try reflexivity; try lia.
  - each; one_op HN Hu.
  - each; reflexivity.
  - each; reflexivity.
  - destruct (proj2 HT 0%nat ltac:(lia)). cbn [nth] in * . each. split; rot1 HN.
  - apply (b2_dct2_acc u v N HN). reflexivity.
  - apply (near2_id u v N HN).
  - apply (nears2_id u v N HN).
  - each; unfold post2; ev_nat; cbn [nth b4_dct2 b2_dct2 Nat.sub Nat.add Nat.mul]; unfold l, w; one_op HN Hu.
Qed.
Lemma b4_dst2_acc : acc nears2 4 (G 1) (fun x k => nth k (b4_dst2 t x) z0).
Proof.
  intros x Lx. do 4 (destruct x as [|? x]; [discriminate Lx|]). destruct x; [|discriminate Lx].
  apply (nears2_of_near2 4 _ _ (fun k => nth (3 - k) (b4_dst2 t [r; r0; r1; r2]) z0) _ Lx); [each; reflexivity|].
  alt_norm. set (l := fadd r r2). set (w := fadd r1 r0).
  apply (step2 u v N HN 1 0 [r; - r0; r1; - r2] (fun _ => r + r2) (fun _ => - r0 - r1) [fsub (fmul l (fst t)) (fmul w (snd t))]
     [- fadd (fmul w (fst t)) (fmul l (snd t))] [fsub r r2; fsub r1 r0] (fun k => nth k (b2_dct2 [fsub r r2; fsub r1 r0]) z0)
     (nt [fsub (fmul l (fst t)) (fmul w (snd t))]) (nt [- fadd (fmul w (fst t)) (fmul l (snd t))])); try reflexivity; try lia.
  - each; one_op HN Hu.
  - each; ring.
  - each; ring.
  - destruct (proj2 HT 0%nat ltac:(lia)). cbn [nth] in * . each. split; rot1 HN.
  - apply (b2_dct2_acc u v N HN). reflexivity.
  - apply (near2_id u v N HN).
  - apply (nears2_id u v N HN).
  - each; unfold post2; ev_nat; cbn [nth b4_dst2 b2_dct2 Nat.sub Nat.add Nat.mul]; unfold l, w; one_op HN Hu.
Qed.
Lemma b4_dct3_acc : acc near3 4 (G 1) (fun x k => nth k (b4_dct3 t x) z0).
Proof.
  intros x Lx. do 4 (destruct x as [|? x]; [discriminate Lx|]). destruct x; [|discriminate Lx].
  apply (step3 u v N HN 1 0 [r; r0; r1; r2] [r; r1] [2 * r0] [2 * r2] [t] (fun k => nth k (b2_dct3 [r; r1]) z0) (fun _ => r0) (fun _ => r2)
     (fun _ => fadd (fmul r0 (fst t)) (fmul r2 (snd t))) (fun _ => fsub (fmul r0 (snd t)) (fmul r2 (fst t)))); try reflexivity; try lia; try exact HT.
  - each; reflexivity.
  - each; one_op HN Hu.
  - each; one_op HN Hu.
  - apply (b2_dct3_acc u v N HN). reflexivity.
  - apply (near3_id u v N HN).
  - apply (nears3_id u v N HN).
  - each; reflexivity.
  - each; reflexivity.
  - each; unfold post3; ev_nat; cbn [nth b4_dct3 b2_dct3 Nat.sub Nat.add Nat.mul]; one_op HN Hu.
Qed.
Lemma b4_dst3_acc : acc nears3 4 (G 1) (fun x k => nth k (b4_dst3 t x) z0).
Proof.
  intros x Lx. do 4 (destruct x as [|? x]; [discriminate Lx|]). destruct x; [|discriminate Lx].
  apply (nears3_of_near3 4 _ _ (fun k => alt k * nth k (b4_dst3 t [r; r0; r1; r2]) z0) _ Lx); [intros k Hk; rewrite <- Rmult_assoc, alt_sq; ring|].
  cbn [rev app].
  apply (step3 u v N HN 1 0 [r2; r1; r0; r] [r2; r0] [2 * r1] [2 * r] [t] (fun k => nth k (b2_dct3 [r2; r0]) z0) (fun _ => r1) (fun _ => r)
     (fun _ => fadd (fmul r1 (fst t)) (fmul r (snd t))) (fun _ => fsub (fmul r1 (snd t)) (fmul r (fst t)))); try reflexivity; try lia; try exact HT.
  - each; reflexivity.
  - each; one_op HN Hu.
  - each; one_op HN Hu.
  - apply (b2_dct3_acc u v N HN). reflexivity.
  - apply (near3_id u v N HN).
  - apply (nears3_id u v N HN).
  - each; reflexivity.
  - each; reflexivity.
  - each; unfold post3; ev_nat; cbn [nth b4_dst3 b2_dct3 Nat.sub Nat.add Nat.mul]; alts; rewrite ?(r_neg _ _ _ HN); one_op HN Hu.
Qed.
End Bf4.
