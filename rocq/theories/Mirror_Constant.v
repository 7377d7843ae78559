(** A constant vector in [f32] and [f64]: what claim C69 needs. *)
From Coq Require Import Reals List Bool Lia Lra ZArith Floats.SpecFloat.
From Verif Require Import Prog Num Model_Common Model_Plan Model_Api Spec Spec_Api Spec_Fft Spec_Plan Spec_Methods Spec_Param Spec_Levels Spec_Float Spec_Ieee Spec_Round Spec_Ieee754 Spec_Binary Spec_Symmetry Spec_Mirror
  Round_Binary Round_Ieee Param Float Sf Binary_Float Symmetry Symmetry_Silence Mirror_Binary.
Import ListNotations.
Open Scope R_scope.

Section Double.
Variables prec emax : Z.
Hypothesis (Hp : (2 <= prec)%Z) (He : (2 <= emax)%Z).
Notation rnd := (sf_rnd prec emax).
Lemma mag_double m e : mag (2 * (IZR (Zpos m) * powerRZ 2 e)) = (Zpos (digits2_pos m) + e + 1)%Z.
Proof. replace (2 * (IZR (Zpos m) * powerRZ 2 e)) with (IZR (Zpos m) * powerRZ 2 (e + 1)); [rewrite mag_pos; lia|]. rewrite double_pow. ring. Qed.
Lemma rnd_double z : number prec emax z -> rnd (2 * real_of z) = 2 * real_of z.
Proof.
  destruct z as [s| | |s m e]; try contradiction; intros H.
  - change (real_of (S754_zero s)) with 0. rewrite Rmult_0_r. apply sf_rnd_0.
  - apply number_mag in H. destruct H as [A _]. change (real_of (S754_finite s m e)) with (signed s (IZR (Zpos m) * powerRZ 2 e)).
    replace (2 * signed s (IZR (Zpos m) * powerRZ 2 e)) with (signed s (2 * (IZR (Zpos m) * powerRZ 2 e))) by (destruct s; cbn [signed]; ring).
    rewrite <- signed_rnd. f_equal. pose proof (pos_pow2 m e) as P. rewrite sf_rnd_eq, mag_double by lra. set (f := fexp prec emax (Zpos (digits2_pos m) + e + 1)).
    assert (F : f = e \/ f = (e + 1)%Z) by (unfold f, fexp in * ; lia).
    assert (W : exists n : Z, 2 * (IZR (Zpos m) * powerRZ 2 e) * powerRZ 2 (- f) = IZR n).
    { destruct F as [-> | ->].
      - exists (2 * Zpos m)%Z. rewrite mult_IZR. replace (2 * (IZR (Zpos m) * powerRZ 2 e) * powerRZ 2 (- e)) with (2 * (IZR (Zpos m) * powerRZ 2 e * powerRZ 2 (- e))) by ring.
        rewrite Rmult_assoc, <- two_pow_add. replace (e + - e)%Z with 0%Z by lia. cbn [powerRZ]. ring.
      - exists (Zpos m). replace (2 * (IZR (Zpos m) * powerRZ 2 e)) with (IZR (Zpos m) * powerRZ 2 (e + 1)) by (rewrite double_pow; ring).
        rewrite Rmult_assoc, <- two_pow_add. replace (e + 1 + - (e + 1))%Z with 0%Z by lia. cbn [powerRZ]. ring. }
    destruct W as [n W]. rewrite W, nearest_even_int, <- W. apply scale_div.
Qed.
Lemma added_exact k : forall c, number prec emax c -> 2 ^ k * Rabs (real_of c) <= greatest prec emax -> number prec emax (added prec emax k c) /\ real_of (added prec emax k c) = 2 ^ k * real_of c.
Proof.
  induction k as [|k IH]; intros c Hc Ht; [split; [exact Hc|cbn [added pow]; ring]|]. cbn [added].
  assert (P : 1 <= 2 ^ k) by (apply pow_R1_Rle; lra). pose proof (Rabs_pos (real_of c)) as A. cbn [pow] in Ht.
  destruct (SFadd_rounds prec emax Hp He c c Hc Hc) as [H1 H2].
  { replace (real_of c + real_of c) with (2 * real_of c) by ring. rewrite rnd_double, Rabs_mult, (Rabs_right 2) by (exact Hc || lra). nra. }
  replace (real_of c + real_of c) with (2 * real_of c) in H2 by ring. rewrite rnd_double in H2 by exact Hc.
  destruct (IH (SFadd prec emax c c) H1) as [B C]; [rewrite H2, Rabs_mult, (Rabs_right 2) by lra; lra|]. split; [exact B|]. rewrite C, H2. cbn [pow]. ring.
Qed.
End Double.
Lemma opposite_real x y : opposite false x y -> real_of x = real_of y.
Proof. destruct x as [s|s| |s m e], y as [t|t| |t n f]; cbn [opposite]; try contradiction; try reflexivity. intros (-> & -> & ->). destruct s; reflexivity. Qed.
Lemma repeat_all {A} (P : A -> Prop) c n : P c -> Forall P (repeat c n).
Proof. intros H. induction n; constructor; assumption. Qed.
Lemma div_le k : (1 <= k)%nat -> (k <= (3 * k - 1) / 2)%nat.
Proof. intros H. apply Nat.div_le_lower_bound; lia. Qed.

Section Formats.
Variables (co si : spec_float -> spec_float) (pf : nat -> fft spec_float) (cs : list (pcall spec_float)) (k : nat).
Hypothesis (Hk : (1 <= k <= 64)%nat).
Let c := CDct2 (T := spec_float) (2 ^ k).
Lemma constant32 : accurate (powerRZ 2 (- (48))) co cos -> accurate (powerRZ 2 (- (48))) si sin ->
  exists f sl, planned_method (N := binary32 co si) c (after (N := binary32 co si) pf cs) = Some (f, sl) /\
  forall z s, number 24 128 z -> Rabs (real_of z) * 2 ^ ((3 * k - 1) / 2 + 2) <= greatest 24 128 -> (sl <= length s)%nat ->
  exists y0 y t, call (N := binary32 co si) f (repeat z (2 ^ k)) s = Returned (y0 :: y, t) /\ number 24 128 y0 /\ real_of y0 = 2 ^ k * real_of z /\ Forall is_zero y.
Proof.
  intros Ac As. assert (P : power_call k c) by (left; split; [lia|left; reflexivity]).
  destruct (constant_call 24 128 co si pf cs k ltac:(lia)) as (f & sl & E & Q). exists f, sl. split; [exact E|]. intros z s Nz Hz Ls.
  destruct (deep_bounds k c ltac:(lia)) as [Ba Bm]. change (adds_deep c k) with ((3 * k - 1) / 2)%nat in * . set (a := ((3 * k - 1) / 2)%nat) in * .
  pose proof (INR_le_IZR (a + 4 * muls_deep c k) 232 ltac:(lia)) as I1. pose proof (INR_le_IZR (a + muls_deep c k) 130 ltac:(lia)) as I2.
  pose proof (pos_INR (a + muls_deep c k)) as I3. pose proof (pow2_1024 24 ltac:(lia)) as U1. pose proof (two_pow_pos (- (24))) as U0. pose proof (Rabs_pos (real_of z)) as Az.
  assert (Ep : 2 ^ (a + 2) = 2 * 2 ^ (a + 1)) by (replace (a + 2)%nat with (S (a + 1)) by lia; reflexivity).
  assert (Ep1 : 2 ^ (a + 1) = 2 * 2 ^ a) by (replace (a + 1)%nat with (S a) by lia; reflexivity).
  assert (A0 : 0 < 2 ^ (a + 1)) by (apply pow_lt; lra). rewrite Ep in Hz. pose proof greatest32_big as G.
  destruct (planned_binary32 co si (Rabs (real_of z)) Ac As Az pf cs k c (real_call c) ltac:(lia) P eq_refl) as (f' & sl' & E' & R); change (adds_deep c k) with a.
  - assert (INR (a + 4 * muls_deep c k) * powerRZ 2 (- (24)) <= 232 * powerRZ 2 (- (24))) by (apply Rmult_le_compat_r; lra). pose proof (pow2_le (- (24)) (- (20)) ltac:(lia)) as U2.
    change (- (20))%Z with (- (10) + - (10))%Z in U2. rewrite two_pow_add in U2. pose proof (pow2_1024 10 ltac:(lia)). pose proof (two_pow_pos (- (10))). nra.
  - assert (A : 2 ^ (a + 1) <= powerRZ 2 97) by (change (powerRZ 2 97) with (2 ^ 97); apply Rle_pow; [lra|lia]). pose proof (two_pow_pos (- (150))) as E0.
    assert (B : INR (a + muls_deep c k) * powerRZ 2 (- (150)) * 2 ^ (a + 1) <= 130 * powerRZ 2 (- (150)) * powerRZ 2 97).
    { apply Rmult_le_compat; try lra; [apply Rmult_le_pos; lra|apply Rmult_le_compat_r; lra]. }
    rewrite (Rmult_assoc 130), <- two_pow_add in B. change (- (150) + 97)%Z with (- (53))%Z in B. pose proof (pow2_1024 53 ltac:(lia)) as T1.
    pose proof (pow2_le 1 104 ltac:(lia)) as G2. change (powerRZ 2 1) with (2 * 1) in G2. lra.
  - unfold binary32, NM, c in * . rewrite E in E'. injection E' as <- <-.
    destruct (Q z (repeat z (2 ^ k)) s (repeat_length _ _) (repeat_all _ z _ (opposite_refl z)) Ls) as (y0 & y & t & C & D0 & D1).
    destruct (R (repeat z (2 ^ k)) s (repeat_length _ _) Ls (repeat_all _ z _ Nz) (repeat_all _ z _ (Rle_refl _))) as (y' & t' & C' & Ny & _). rewrite C in C'. injection C' as <- <-.
    inversion Ny as [|? ? N0 N1]; subst. exists y0, y, t. split; [exact C|]. split; [exact N0|]. split; [|exact (numbers_zero _ _ _ N1 D1)].
    rewrite <- (opposite_real _ _ D0). apply added_exact; try lia; try exact Nz.
    assert (2 ^ k <= 2 ^ a) by (apply Rle_pow; [lra|apply div_le; lia]). assert (0 < 2 ^ k) by (apply pow_lt; lra). assert (2 ^ k * Rabs (real_of z) <= 2 ^ a * Rabs (real_of z)) by (apply Rmult_le_compat_r; lra).
    assert (0 <= 2 ^ a * Rabs (real_of z)) by (apply Rmult_le_pos; lra). rewrite Ep1 in Hz. lra.
Qed.
Lemma constant64 : accurate (powerRZ 2 (- (53))) co cos -> accurate (powerRZ 2 (- (53))) si sin ->
  exists f sl, planned_method (N := binary64 co si) c (after (N := binary64 co si) pf cs) = Some (f, sl) /\
  forall z s, number 53 1024 z -> Rabs (real_of z) * 2 ^ ((3 * k - 1) / 2 + 2) <= greatest 53 1024 -> (sl <= length s)%nat ->
  exists y0 y t, call (N := binary64 co si) f (repeat z (2 ^ k)) s = Returned (y0 :: y, t) /\ number 53 1024 y0 /\ real_of y0 = 2 ^ k * real_of z /\ Forall is_zero y.
Proof.
  intros Ac As. assert (P : power_call k c) by (left; split; [lia|left; reflexivity]).
  destruct (constant_call 53 1024 co si pf cs k ltac:(lia)) as (f & sl & E & Q). exists f, sl. split; [exact E|]. intros z s Nz Hz Ls.
  destruct (deep_bounds k c ltac:(lia)) as [Ba Bm]. change (adds_deep c k) with ((3 * k - 1) / 2)%nat in * . set (a := ((3 * k - 1) / 2)%nat) in * .
  pose proof (INR_le_IZR (a + 12 * muls_deep c k) 504 ltac:(lia)) as I1. pose proof (INR_le_IZR (a + muls_deep c k) 130 ltac:(lia)) as I2.
  pose proof (pos_INR (a + muls_deep c k)) as I3. pose proof (pow2_1024 53 ltac:(lia)) as U1. pose proof (two_pow_pos (- (53))) as U0. pose proof (Rabs_pos (real_of z)) as Az.
  assert (Ep : 2 ^ (a + 2) = 2 * 2 ^ (a + 1)) by (replace (a + 2)%nat with (S (a + 1)) by lia; reflexivity).
  assert (Ep1 : 2 ^ (a + 1) = 2 * 2 ^ a) by (replace (a + 1)%nat with (S a) by lia; reflexivity).
  assert (A0 : 0 < 2 ^ (a + 1)) by (apply pow_lt; lra). rewrite Ep in Hz. pose proof greatest64 as G.
  destruct (planned_binary64 co si (Rabs (real_of z)) Ac As Az pf cs k c (real_call c) ltac:(lia) P eq_refl) as (f' & sl' & E' & R); change (adds_deep c k) with a.
  - assert (INR (a + 12 * muls_deep c k) * powerRZ 2 (- (53)) <= 504 * powerRZ 2 (- (53))) by (apply Rmult_le_compat_r; lra). lra.
  - assert (A : 2 ^ (a + 1) <= powerRZ 2 97) by (change (powerRZ 2 97) with (2 ^ 97); apply Rle_pow; [lra|lia]). pose proof (two_pow_pos (- (1075))) as E0.
    assert (B : INR (a + muls_deep c k) * powerRZ 2 (- (1075)) * 2 ^ (a + 1) <= 130 * powerRZ 2 (- (1075)) * powerRZ 2 97).
    { apply Rmult_le_compat; try lra; [apply Rmult_le_pos; lra|apply Rmult_le_compat_r; lra]. }
    rewrite (Rmult_assoc 130), <- two_pow_add in B. change (- (1075) + 97)%Z with (- (978))%Z in B. pose proof (pow2_1024 978 ltac:(lia)) as T1.
    pose proof (pow2_le 1 1023 ltac:(lia)) as G2. change (powerRZ 2 1) with (2 * 1) in G2. lra.
  - unfold binary64, NM, c in * . rewrite E in E'. injection E' as <- <-.
    destruct (Q z (repeat z (2 ^ k)) s (repeat_length _ _) (repeat_all _ z _ (opposite_refl z)) Ls) as (y0 & y & t & C & D0 & D1).
    destruct (R (repeat z (2 ^ k)) s (repeat_length _ _) Ls (repeat_all _ z _ Nz) (repeat_all _ z _ (Rle_refl _))) as (y' & t' & C' & Ny & _). rewrite C in C'. injection C' as <- <-.
    inversion Ny as [|? ? N0 N1]; subst. exists y0, y, t. split; [exact C|]. split; [exact N0|]. split; [|exact (numbers_zero _ _ _ N1 D1)].
    rewrite <- (opposite_real _ _ D0). apply added_exact; try lia; try exact Nz.
    assert (2 ^ k <= 2 ^ a) by (apply Rle_pow; [lra|apply div_le; lia]). assert (0 < 2 ^ k) by (apply pow_lt; lra). assert (2 ^ k * Rabs (real_of z) <= 2 ^ a * Rabs (real_of z)) by (apply Rmult_le_compat_r; lra).
    assert (0 <= 2 ^ a * Rabs (real_of z)) by (apply Rmult_le_pos; lra). rewrite Ep1 in Hz. lra.
Qed.
End Formats.
Section Palindromes.
Variables (co si : spec_float -> spec_float) (pf : nat -> fft spec_float) (cs : list (pcall spec_float)) (k : nat).
(** Vectors that are their own mirror image. *)
Lemma palindrome32 (c : pcall spec_float) B : (k <= 890)%nat -> (1 <= k)%nat -> c = CDct2 (2 ^ k) \/ c = CDst2 (2 ^ k) -> accurate (powerRZ 2 (- (48))) co cos -> accurate (powerRZ 2 (- (48))) si sin -> 0 <= B ->
  INR (adds_deep c k + 4 * muls_deep c k) * powerRZ 2 (- (24)) <= / 2 -> (B + INR (adds_deep c k + muls_deep c k) * powerRZ 2 (- (150))) * 2 ^ (adds_deep c k + 1) <= greatest 24 128 ->
  exists f sl, planned_method (N := binary32 co si) c (after (N := binary32 co si) pf cs) = Some (f, sl) /\
  forall b x s, length x = (2 ^ k)%nat -> Forall (number 24 128) x -> Forall (fun z => Rabs (real_of z) <= B) x -> opposites b (rev x) x -> (sl <= length s)%nat ->
  exists y t, call (N := binary32 co si) f x s = Returned (y, t) /\ forall j, (j < 2 ^ k)%nat -> Nat.odd j = negb b -> is_zero (nth j y S754_nan).
Proof.
  intros Hk H1 Hc Ac As HB Hr Ht. assert (P : power_call k c) by (left; split; [lia|destruct Hc as [-> | ->]; cbn [In]; auto]).
  destruct (palindrome_call 24 128 co si pf cs k c H1 Hc) as (f & sl & E & Q). exists f, sl. split; [exact E|]. intros b x s Lx Nx Bx Hx Ls.
  destruct (planned_binary32 co si B Ac As HB pf cs k c (real_call c) Hk P) as (f' & sl' & E' & R); [apply real_call_alike; destruct Hc as [-> | ->]; exact I|exact Hr|exact Ht|].
  unfold binary32, NM in * . rewrite E in E'. injection E' as <- <-.
  destruct (Q b x s Lx Hx Ls) as (y & t & C & D). destruct (R x s Lx Ls Nx Bx) as (y' & t' & C' & Ny & F). rewrite C in C'. injection C' as <- <-. exists y, t. split; [exact C|].
  intros j Hj O. apply (number_zero 24 128); [|exact (D j Hj O)]. rewrite Forall_forall in Ny. apply Ny, nth_In. rewrite (Forall2_len _ _ _ F). unfold real_call.
  destruct Hc as [-> | ->]; cbn [reference]; unfold dct2, dst2, transform; rewrite map_length, seq_length, map_length, Lx; exact Hj.
Qed.
Lemma palindrome64 (c : pcall spec_float) B : (k <= 890)%nat -> (1 <= k)%nat -> c = CDct2 (2 ^ k) \/ c = CDst2 (2 ^ k) -> accurate (powerRZ 2 (- (53))) co cos -> accurate (powerRZ 2 (- (53))) si sin -> 0 <= B ->
  INR (adds_deep c k + 12 * muls_deep c k) * powerRZ 2 (- (53)) <= / 2 -> (B + INR (adds_deep c k + muls_deep c k) * powerRZ 2 (- (1075))) * 2 ^ (adds_deep c k + 1) <= greatest 53 1024 ->
  exists f sl, planned_method (N := binary64 co si) c (after (N := binary64 co si) pf cs) = Some (f, sl) /\
  forall b x s, length x = (2 ^ k)%nat -> Forall (number 53 1024) x -> Forall (fun z => Rabs (real_of z) <= B) x -> opposites b (rev x) x -> (sl <= length s)%nat ->
  exists y t, call (N := binary64 co si) f x s = Returned (y, t) /\ forall j, (j < 2 ^ k)%nat -> Nat.odd j = negb b -> is_zero (nth j y S754_nan).
Proof.
  intros Hk H1 Hc Ac As HB Hr Ht. assert (P : power_call k c) by (left; split; [lia|destruct Hc as [-> | ->]; cbn [In]; auto]).
  destruct (palindrome_call 53 1024 co si pf cs k c H1 Hc) as (f & sl & E & Q). exists f, sl. split; [exact E|]. intros b x s Lx Nx Bx Hx Ls.
  destruct (planned_binary64 co si B Ac As HB pf cs k c (real_call c) Hk P) as (f' & sl' & E' & R); [apply real_call_alike; destruct Hc as [-> | ->]; exact I|exact Hr|exact Ht|].
  unfold binary64, NM in * . rewrite E in E'. injection E' as <- <-.
  destruct (Q b x s Lx Hx Ls) as (y & t & C & D). destruct (R x s Lx Ls Nx Bx) as (y' & t' & C' & Ny & F). rewrite C in C'. injection C' as <- <-. exists y, t. split; [exact C|].
  intros j Hj O. apply (number_zero 53 1024); [|exact (D j Hj O)]. rewrite Forall_forall in Ny. apply Ny, nth_In. rewrite (Forall2_len _ _ _ F). unfold real_call.
  destruct Hc as [-> | ->]; cbn [reference]; unfold dct2, dst2, transform; rewrite map_length, seq_length, map_length, Lx; exact Hj.
Qed.
End Palindromes.
