(** Reconstruction from overlapping MDCT segments. *)
From Coq Require Import Reals ZArith List Arith Lia Lra.
From Verif Require Import Prog Num Model_Common Model_Mdct Model_Api Spec Spec_Api Trig Ref Ref_Inverse Exact_Mdct.
Import ListNotations.
Open Scope R_scope.

(** * The MDCT followed by the IMDCT *)
Lemma ker_orth n p q : (0 < n)%nat -> (p < 2 * n)%nat -> (q < 2 * n)%nat ->
  sum (fun k => ker n p k * ker n q k) n =
  INR n / 2 * ((if (p =? q)%nat then 1 else 0) - (if (p + q + 1 =? n)%nat then 1 else 0) + (if (p + q + 1 =? 3 * n)%nat then 1 else 0)).
Proof.
  intros Hn Hp Hq. unfold ker.
  rewrite (sum_ext _ (fun k => 1 * (cz (4 * zn n) ((2 * zn k + 1) * (2 * zn p + 1 + zn n)) * cz (4 * zn n) ((2 * zn k + 1) * (2 * zn q + 1 + zn n))))) by (intros; ring).
  rewrite (sum_cc (4 * zn n) n _ _ _ (fun k => 2 * ((zn p - zn q) * (2 * zn k + 1)))%Z (fun k => 2 * ((zn p + zn q + 1 + zn n) * (2 * zn k + 1)))%Z) by lia.
  rewrite !unit_weight. replace (4 * zn n)%Z with (2 * (2 * zn n))%Z by lia.
  rewrite !(sum_ext (fun j => cz (2 * (2 * zn n)) (2 * (_ * _))) (fun j => cz (2 * zn n) (_ * (2 * zn j + 1))))
    by (intros; rewrite cz_scale by lia; reflexivity).
  assert (A : sum (fun j => cz (2 * zn n) ((zn p - zn q) * (2 * zn j + 1))) n = if (p =? q)%nat then INR n else 0).
  { destruct (Nat.eqb_spec p q).
    - replace (zn p - zn q)%Z with 0%Z by lia. apply odd_zero. lia.
    - apply grid_odd; [exact Hn|]. apply nz; lia. }
  assert (B : sum (fun j => cz (2 * zn n) ((zn p + zn q + 1 + zn n) * (2 * zn j + 1))) n =
              INR n * (- (if (p + q + 1 =? n)%nat then 1 else 0) + (if (p + q + 1 =? 3 * n)%nat then 1 else 0))).
  { destruct (Nat.eqb_spec (p + q + 1) n); [|destruct (Nat.eqb_spec (p + q + 1) (3 * n))].
    - destruct (Nat.eqb_spec (p + q + 1) (3 * n)); [lia|].
      rewrite (sum_ext _ (fun _ => - 1)); [rewrite sum_const; lra|]. intros j _.
      replace (zn p + zn q + 1 + zn n)%Z with (2 * zn n)%Z by lia. rewrite cz_d_odd by lia. lra.
    - rewrite (sum_ext _ (fun _ => 1)); [rewrite sum_const; lra|]. intros j _.
      replace ((zn p + zn q + 1 + zn n) * (2 * zn j + 1))%Z with (2 * zn n * (2 * (2 * zn j + 1)))%Z by lia. rewrite cz_d_even by lia. lra.
    - rewrite grid_odd; [lra|exact Hn|]. intros E. apply Z.mod_divide in E; [|lia]. destruct E as [z E].
      assert (z = 1 \/ z = 2 \/ z <= 0 \/ 3 <= z)%Z as [->|[->|[Hz|Hz]]] by lia; nia. }
  rewrite A, B. destruct (p =? q)%nat; lra.
Qed.

Lemma imdct_mdct n w x p : (0 < n)%nat -> (p < 2 * n)%nat -> length w = (2 * n)%nat ->
  imdct_at n w (mdct_of n w x) p =
  nth p w 0 * (INR n / 2) *
    (nth p w 0 * nth p x 0
     + if (p <? n)%nat then - (nth (n - 1 - p) w 0 * nth (n - 1 - p) x 0)
       else nth (3 * n - 1 - p) w 0 * nth (3 * n - 1 - p) x 0).
Proof.
  intros Hn Hp Lw. rewrite imdct_ker by exact Hn. rewrite Rmult_assoc. f_equal.
  rewrite (sum_ext _ (fun k => sum (fun q => nth q w 0 * nth q x 0 * (ker n p k * ker n q k)) (2 * n))).
  2: { intros k Hk. unfold mdct_of. rewrite nth_map_seq by exact Hk. rewrite mdct_ker by exact Hn. rewrite <- sum_scal_r.
       apply sum_ext. intros q Hq. ring. }
  rewrite sum_swap.
  set (f := fun q => nth q w 0 * nth q x 0).
  rewrite (sum_ext _ (fun q => INR n / 2 * (f q * (if (p =? q)%nat then 1 else 0)
    + f q * (if (p + q + 1 =? n)%nat then -1 else if (p + q + 1 =? 3 * n)%nat then 1 else 0)))).
  2: { intros q Hq. rewrite sum_scal_l, ker_orth by assumption. fold (f q).
       destruct (Nat.eqb_spec (p + q + 1) n), (Nat.eqb_spec (p + q + 1) (3 * n)); try lia; destruct (p =? q)%nat; lra. }
  rewrite sum_scal_l, sum_plus. f_equal. f_equal.
  - rewrite (sum_single _ (2 * n) p Hp); [rewrite Nat.eqb_refl; unfold f; lra|].
    intros i Hi Hip. destruct (Nat.eqb_spec p i); [lia|]. lra.
  - destruct (Nat.ltb_spec p n) as [H|H].
    + rewrite (sum_single _ (2 * n) (n - 1 - p)); [|lia|].
      * destruct (Nat.eqb_spec (p + (n - 1 - p) + 1) n); [|lia]. unfold f. lra.
      * intros i Hi Hip. destruct (Nat.eqb_spec (p + i + 1) n); [lia|]. destruct (Nat.eqb_spec (p + i + 1) (3 * n)); [lia|]. lra.
    + rewrite (sum_single _ (2 * n) (3 * n - 1 - p)); [|lia|].
      * destruct (Nat.eqb_spec (p + (3 * n - 1 - p) + 1) n); [lia|]. destruct (Nat.eqb_spec (p + (3 * n - 1 - p) + 1) (3 * n)); [|lia]. unfold f. lra.
      * intros i Hi Hip. destruct (Nat.eqb_spec (p + i + 1) n); [lia|]. destruct (Nat.eqb_spec (p + i + 1) (3 * n)); [lia|]. lra.
Qed.

(** Time domain aliasing cancels between the second half of one segment and the first half of the next. *)
Lemma tdac n w c (A B C : list R) r : (0 < n)%nat -> (r < n)%nat -> length A = n -> length B = n ->
  symmetric w -> princen_bradley c n w ->
  imdct_at n w (mdct_of n w (A ++ B)) (n + r) + imdct_at n w (mdct_of n w (B ++ C)) r = c * INR n / 2 * nth r B 0.
Proof.
  intros Hn Hr LA LB Hs [Lw Hp]. rewrite !imdct_mdct by (try exact Lw; lia).
  destruct (Nat.ltb_spec (n + r) n); [lia|]. destruct (Nat.ltb_spec r n); [|lia].
  rewrite (app_nth2 A), LA by lia. replace (n + r - n)%nat with r by lia.
  rewrite (app_nth2 A), LA by lia. replace (3 * n - 1 - (n + r))%nat with (2 * n - 1 - r)%nat by lia.
  replace (2 * n - 1 - r - n)%nat with (n - 1 - r)%nat by lia.
  rewrite !app_nth1 by lia. specialize (Hp r Hr). replace (r + n)%nat with (n + r)%nat in Hp by lia. unfold Rsqr in Hp.
  pose proof (Hs r ltac:(lia)) as S1. pose proof (Hs (n + r)%nat ltac:(lia)) as S2. rewrite Lw in S1, S2.
  replace (2 * n - 1 - (n + r))%nat with (n - 1 - r)%nat in S2 by lia. rewrite <- S1, <- S2.
  rewrite <- Hp. lra.
Qed.

(** * Overlap-add *)
Lemma block_length n x j : ((j + 1) * n <= length x)%nat -> length (block n x j) = n.
Proof. intros H. unfold block. rewrite firstn_length, skipn_length. lia. Qed.
Lemma nth_skipn_R (x : list R) a i : nth i (skipn a x) 0 = nth (a + i) x 0.
Proof.
  revert x. induction a; intros x; [reflexivity|]. destruct x as [|v x]; [destruct i; reflexivity|]. cbn [skipn Nat.add nth]. apply IHa.
Qed.
Lemma nth_firstn_R (x : list R) a i : (i < a)%nat -> nth i (firstn a x) 0 = nth i x 0.
Proof.
  revert x i. induction a; intros x i H; [lia|]. destruct x as [|v x]; [reflexivity|]. destruct i; [reflexivity|].
  cbn [firstn nth]. apply IHa. lia.
Qed.
Lemma nth_block n x j r : (r < n)%nat -> nth r (block n x j) 0 = nth (j * n + r) x 0.
Proof. intros H. unfold block. rewrite nth_firstn_R by exact H. apply nth_skipn_R. Qed.

(** What the first [m] segments have added at position [j*n + r]. *)
Definition added n w x m j r : R :=
  let y i := mdct_of n w (block n x i ++ block n x (i + 1)) in
  (if andb (0 <? j)%nat (j <=? m)%nat then imdct_at n w (y (j - 1)%nat) (n + r) else 0)
  + (if (j <? m)%nat then imdct_at n w (y j) r else 0).

Lemma overlap_added o n w x m : forall y s, correct_mdct o n w -> (0 < n)%nat -> length x = ((m + 1) * n)%nat ->
  length y = n -> (m_scratch o <= length s)%nat ->
  forall i, (i <= m)%nat -> exists out y' s', overlap_add o n x y s i = Some (out, y', s') /\
    length out = length x /\ length y' = n /\ length s' = length s /\
    forall j r, (j <= m)%nat -> (r < n)%nat -> nth (j * n + r) out 0 = added n w x i j r.
Proof.
  intros y s (Hl & HM & _ & HI) Hn Lx Ly Ls i. induction i as [|i IH]; intros Hi.
  - exists (repeat 0 (length x)), y, s. split; [reflexivity|]. rewrite repeat_length. split; [reflexivity|]. split; [exact Ly|]. split; [reflexivity|].
    intros j r Hj Hr. unfold added. destruct (Nat.ltb_spec 0 j), (Nat.leb_spec j 0), (Nat.ltb_spec j 0); cbn [andb]; try lia.
    all: rewrite nth_repeat; lra.
  - destruct (IH ltac:(lia)) as (out & y' & s' & E & Lo & Ly' & Ls' & Hv). cbn [overlap_add]. rewrite E.
    assert (Bx : forall j, (j <= m)%nat -> length (block n x j) = n) by (intros j Hj; apply block_length; rewrite Lx; nia).
    assert (Bo : forall j, (j <= m)%nat -> length (block n out j) = n) by (intros j Hj; apply block_length; rewrite Lo, Lx; nia).
    destruct (HM (block n x i) (block n x (i + 1)) y' s') as (s1 & -> & Ls1 & _); [apply Bx; lia|apply Bx; lia|exact Ly'|lia|].
    set (z := mdct_of n w (block n x i ++ block n x (i + 1))).
    assert (Lz : length z = n) by (unfold z, mdct_of; rewrite map_length; apply seq_length).
    destruct (HI z (block n out i) (block n out (i + 1)) s1) as (a & b & s2 & -> & Eab & La & Lb & Ls2 & _);
      [exact Lz|apply Bo; lia|apply Bo; lia|lia|].
    exists (firstn (i * n) out ++ a ++ b ++ skipn ((i + 2) * n) out), z, s2. split; [reflexivity|].
    assert (Lf : length (firstn (i * n) out) = (i * n)%nat) by (rewrite firstn_length, Lo, Lx; nia).
    split. { rewrite !app_length, Lf, skipn_length, La, Lb, Lo, Lx. nia. }
    split; [exact Lz|]. split; [lia|].
    assert (Vab : forall q, (q < 2 * n)%nat -> nth q (a ++ b) 0 = nth (i * n + q) out 0 + imdct_at n w z q).
    { intros q Hq. rewrite Eab. unfold add_lists, imdct_of. rewrite app_length, !Bo by lia.
      rewrite nth_map_seq by lia. rewrite (nth_map_seq (imdct_at n w z)) by lia. f_equal.
      destruct (Nat.lt_ge_cases q n) as [H|H].
      - rewrite app_nth1 by (rewrite Bo; lia). apply nth_block, H.
      - rewrite app_nth2 by (rewrite Bo; lia). rewrite Bo by lia. rewrite nth_block by lia. f_equal. nia. }
    intros j r Hj Hr. assert (Hold := Hv j r Hj Hr).
    destruct (Nat.lt_trichotomy j i) as [H|[H|H]]; [| |destruct (Nat.eq_dec j (i + 1)) as [H1|H1]].
    + rewrite app_nth1 by (rewrite Lf; nia). rewrite nth_firstn_R by nia. rewrite Hold. unfold added.
      destruct (Nat.ltb_spec 0 j), (Nat.leb_spec j i), (Nat.leb_spec j (S i)), (Nat.ltb_spec j i), (Nat.ltb_spec j (S i)); cbn [andb]; try lia; reflexivity.
    + subst j. rewrite app_nth2 by (rewrite Lf; nia). rewrite Lf. replace (i * n + r - i * n)%nat with r by lia.
      rewrite app_assoc, app_nth1 by (rewrite app_length; lia). rewrite Vab by lia. rewrite Hold. unfold added. fold z.
      destruct (Nat.ltb_spec 0 i), (Nat.leb_spec i i), (Nat.leb_spec i (S i)), (Nat.ltb_spec i i), (Nat.ltb_spec i (S i)); cbn [andb]; try lia; lra.
    + subst j. rewrite app_nth2 by (rewrite Lf; nia). rewrite Lf. replace ((i + 1) * n + r - i * n)%nat with (n + r)%nat by nia.
      rewrite app_assoc, app_nth1 by (rewrite app_length; lia). rewrite Vab by lia. replace (i * n + (n + r))%nat with ((i + 1) * n + r)%nat by nia.
      rewrite Hold. unfold added. replace (i + 1 - 1)%nat with i by lia. fold z.
      destruct (Nat.ltb_spec 0 (i + 1)), (Nat.leb_spec (i + 1) i), (Nat.leb_spec (i + 1) (S i)), (Nat.ltb_spec (i + 1) i), (Nat.ltb_spec (i + 1) (S i)); cbn [andb]; try lia; lra.
    + rewrite app_nth2 by (rewrite Lf; nia). rewrite Lf. rewrite app_assoc, app_nth2 by (rewrite app_length; nia). rewrite app_length, La, Lb.
      rewrite nth_skipn_R. replace ((i + 2) * n + (j * n + r - i * n - (n + n)))%nat with (j * n + r)%nat by nia.
      rewrite Hold. unfold added.
      destruct (Nat.ltb_spec 0 j), (Nat.leb_spec j i), (Nat.leb_spec j (S i)), (Nat.ltb_spec j i), (Nat.ltb_spec j (S i)); cbn [andb]; try lia; reflexivity.
Qed.

Lemma overlap_reconstructs o n w c x m y s : correct_mdct o n w -> symmetric w -> princen_bradley c n w -> (0 < n)%nat ->
  length x = ((m + 1) * n)%nat -> length y = n -> (m_scratch o <= length s)%nat ->
  exists out y' s', overlap_add o n x y s m = Some (out, y', s') /\ length out = length x /\
    forall i, (n <= i < m * n)%nat -> nth i out 0 = c * INR n / 2 * nth i x 0.
Proof.
  intros Ho Hs Hp Hn Lx Ly Ls. destruct (overlap_added o n w x m y s Ho Hn Lx Ly Ls m ltac:(lia)) as (out & y' & s' & E & Lo & _ & _ & Hv).
  exists out, y', s'. split; [exact E|]. split; [exact Lo|]. intros i Hi.
  set (j := (i / n)%nat). set (r := (i mod n)%nat). assert (Ei : i = (j * n + r)%nat) by (unfold j, r; pose proof (Nat.div_mod i n); lia).
  assert (Hr : (r < n)%nat) by (unfold r; apply Nat.mod_upper_bound; lia).
  assert (Hj : (1 <= j < m)%nat) by nia. rewrite Ei, Hv by lia. unfold added.
  destruct (Nat.ltb_spec 0 j), (Nat.leb_spec j m), (Nat.ltb_spec j m); cbn [andb]; try lia.
  replace (j - 1 + 1)%nat with j by lia. rewrite (tdac n w c) by (try assumption; apply block_length; rewrite Lx; nia).
  rewrite nth_block by exact Hr. reflexivity.
Qed.

(** * Windows *)
Section Windows.
Variable n : nat.
Hypothesis Hn : (0 < n)%nat.
Let Hn1 : 1 <= INR n. Proof. apply inr_pos, Hn. Qed.

Definition theta (i : nat) : R := PI / INR (2 * n) * (INR i + / 2).
Lemma theta_mirror i : (i < 2 * n)%nat -> theta (2 * n - 1 - i) = PI - theta i.
Proof. intros H. unfold theta. rewrite !minus_INR, mult_INR by lia. change (INR 2) with 2. change (INR 1) with 1. field. lra. Qed.
Lemma theta_shift i : theta (i + n) = PI / 2 + theta i.
Proof. unfold theta. rewrite plus_INR, mult_INR. change (INR 2) with 2. field. lra. Qed.

Lemma win_nth (f : nat -> R) i L : (i < L)%nat -> nth i (map f (seq 0 L)) 0 = f i.
Proof. apply nth_map_seq. Qed.
Lemma win_symmetric (f : nat -> R) : (forall i, (i < 2 * n)%nat -> f i = f (2 * n - 1 - i)%nat) -> symmetric (map f (seq 0 (2 * n))).
Proof. intros H i. rewrite map_length, seq_length. intros Hi. rewrite !win_nth by lia. apply H, Hi. Qed.
Lemma win_pb (f : nat -> R) c : (forall i, (i < n)%nat -> (f i)² + (f (i + n)%nat)² = c) -> princen_bradley c n (map f (seq 0 (2 * n))).
Proof. intros H. split; [rewrite map_length; apply seq_length|]. intros i Hi. rewrite !win_nth by lia. apply H, Hi. Qed.
Lemma pb_scale (f : nat -> R) c s : (0 <= s) -> (forall i, (i < n)%nat -> (f i)² + (f (i + n)%nat)² = c) ->
  forall i, (i < n)%nat -> (f i * sqrt s)² + (f (i + n)%nat * sqrt s)² = c * s.
Proof. intros Hs H i Hi. rewrite !Rsqr_mult, Rsqr_sqrt by exact Hs. rewrite <- (H i Hi). lra. Qed.

Definition mp3_at i := sin (theta i).
Definition vorbis_at i := sin (PI * / 2 * sin (theta i) * sin (theta i)).
Lemma mp3_sym i : (i < 2 * n)%nat -> mp3_at i = mp3_at (2 * n - 1 - i).
Proof. intros H. unfold mp3_at. rewrite theta_mirror by exact H. symmetry. apply sin_PI_x. Qed.
Lemma mp3_pb i : (i < n)%nat -> (mp3_at i)² + (mp3_at (i + n))² = 1.
Proof. intros H. unfold mp3_at. rewrite theta_shift. rewrite <- cos_sin. apply sin2_cos2. Qed.
Lemma vorbis_sym i : (i < 2 * n)%nat -> vorbis_at i = vorbis_at (2 * n - 1 - i).
Proof. intros H. unfold vorbis_at. rewrite theta_mirror by exact H. rewrite sin_PI_x. reflexivity. Qed.
Lemma vorbis_pb i : (i < n)%nat -> (vorbis_at i)² + (vorbis_at (i + n))² = 1.
Proof.
  intros H. unfold vorbis_at. rewrite theta_shift, <- cos_sin. set (t := theta i).
  replace (PI * / 2 * cos t * cos t) with (PI / 2 - PI * / 2 * sin t * sin t).
  - rewrite sin_shift. apply sin2_cos2.
  - pose proof (sin2_cos2 t) as E. unfold Rsqr in E. replace (cos t * cos t) with (1 - sin t * sin t) by lra. 
    transitivity (PI / 2 * (1 - sin t * sin t)); [lra|]. replace (1 - sin t * sin t) with (cos t * cos t) by lra. lra.
Qed.
Lemma len_pos : 0 < INR (2 * n).
Proof. rewrite mult_INR. change (INR 2) with 2. lra. Qed.
Lemma scale_nonneg c : 0 <= c -> 0 <= c / INR (2 * n).
Proof. intros H. pose proof len_pos. apply Rmult_le_pos; [exact H|]. left. apply Rinv_0_lt_compat. assumption. Qed.
Lemma scale_half c : c / INR (2 * n) = c / 2 / INR n.
Proof. rewrite mult_INR. change (INR 2) with 2. field. lra. Qed.

Lemma mp3_window : symmetric (window_mp3 (2 * n)) /\ princen_bradley 1 n (window_mp3 (2 * n)).
Proof. split; [apply (win_symmetric mp3_at mp3_sym)|apply (win_pb mp3_at 1 mp3_pb)]. Qed.
Lemma vorbis_window : symmetric (window_vorbis (2 * n)) /\ princen_bradley 1 n (window_vorbis (2 * n)).
Proof. split; [apply (win_symmetric vorbis_at vorbis_sym)|apply (win_pb vorbis_at 1 vorbis_pb)]. Qed.
Lemma one_window : symmetric (window_one (2 * n)) /\ princen_bradley 2 n (window_one (2 * n)).
Proof. split; [apply (win_symmetric (fun _ => 1))|apply (win_pb (fun _ => 1))]; intros; unfold Rsqr; lra. Qed.

Lemma mp3_inv_window : symmetric (window_mp3_invertible (2 * n)) /\ princen_bradley (2 / INR n) n (window_mp3_invertible (2 * n)).
Proof.
  split; [apply (win_symmetric (fun i => mp3_at i * sqrt (4 / INR (2 * n))))|apply (win_pb (fun i => mp3_at i * sqrt (4 / INR (2 * n))))]; intros i Hi.
  - rewrite mp3_sym by exact Hi. reflexivity.
  - rewrite (pb_scale mp3_at 1 _ (scale_nonneg 4 ltac:(lra)) mp3_pb i Hi). rewrite scale_half. lra.
Qed.
Lemma vorbis_inv_window : symmetric (window_vorbis_invertible (2 * n)) /\ princen_bradley (2 / INR n) n (window_vorbis_invertible (2 * n)).
Proof.
  split; [apply (win_symmetric (fun i => vorbis_at i * sqrt (4 / INR (2 * n))))|apply (win_pb (fun i => vorbis_at i * sqrt (4 / INR (2 * n))))]; intros i Hi.
  - rewrite vorbis_sym by exact Hi. reflexivity.
  - rewrite (pb_scale vorbis_at 1 _ (scale_nonneg 4 ltac:(lra)) vorbis_pb i Hi). rewrite scale_half. lra.
Qed.
Lemma inv_window : symmetric (window_invertible (2 * n)) /\ princen_bradley (2 / INR n) n (window_invertible (2 * n)).
Proof.
  split; [apply (win_symmetric (fun _ => sqrt (2 / INR (2 * n))))|apply (win_pb (fun _ => sqrt (2 / INR (2 * n))))]; intros i Hi; [reflexivity|].
  rewrite Rsqr_sqrt by (apply scale_nonneg; lra). rewrite scale_half. lra.
Qed.
Lemma scale_map (f g : nat -> R) s L : (forall i, (i < L)%nat -> g i = s * f i) -> map g (seq 0 L) = scale s (map f (seq 0 L)).
Proof. intros H. unfold scale. rewrite map_map. apply map_ext_in. intros i Hi. apply in_seq in Hi. apply H. lia. Qed.
Lemma mp3_inv_scale : window_mp3_invertible (2 * n) = scale (sqrt (2 / INR n)) (window_mp3 (T:=R) (2 * n)).
Proof.
  unfold window_mp3_invertible, window_mp3. apply scale_map. intros i Hi. cbn [from_f64 NumR f_mul f_sqrt f_div f_four f_of_nat].
  rewrite (scale_half 4). replace (4 / 2) with 2 by lra. apply Rmult_comm.
Qed.
Lemma vorbis_inv_scale : window_vorbis_invertible (2 * n) = scale (sqrt (2 / INR n)) (window_vorbis (T:=R) (2 * n)).
Proof.
  unfold window_vorbis_invertible, window_vorbis. apply scale_map. intros i Hi. cbn [from_f64 NumR f_mul f_sqrt f_div f_four f_of_nat].
  rewrite (scale_half 4). replace (4 / 2) with 2 by lra. apply Rmult_comm.
Qed.
Lemma inv_scale : window_invertible (2 * n) = scale (sqrt (1 / INR n)) (window_one (T:=R) (2 * n)).
Proof.
  unfold window_invertible, window_one. apply scale_map. intros i Hi. cbn [from_f64 NumR f_sqrt f_div f_two f_of_nat one].
  rewrite scale_half. replace (2 / 2) with 1 by lra. lra.
Qed.
End Windows.
