(** Rounding errors of the butterflies of size 8 and 16: each is one split step over the butterflies of half and quarter size. *)
From Coq Require Import Reals ZArith List Arith Lia Lra Psatz.
From Verif Require Import Num Model_Common Model_Butterflies Spec Spec_Round Trig Ref Ref_Split Sem_Naive Sem_Butterflies
  Exact_Split Exact_Butterflies Energy Round_Ops Round_Stage Round_Stage3 Round_Sem.
Import ListNotations.
Open Scope R_scope.
From Verif Require Import Round_Butterflies.

Section Bf8.
Variables (u v : R) (N : Num R R).
Hypothesis HN : rounding u v N.
Let Hu : 0 <= u := r_u _ _ _ HN.
Notation fadd := (@add _ _ N). Notation fsub := (@sub _ _ N). Notation fmul := (@mul _ _ N). Notation z0 := (@zero _ _ N). Notation two' := (@two _ _ N). Notation fneg := (@neg _ _ N).
Notation G k := (growth u v k).
Variables (t4 t0 t1 : R * R).
Hypothesis HT4 : tw_ok u v 1 [t4].
Hypothesis HT : tw_ok u v 2 [t0; t1].
Lemma b8_dct2_acc : acc near2 8 (G 2) (fun x k => nth k (b8_dct2 (mkBf8 t4 [t0; t1]) x) z0).
Proof.
  intros x Lx. do 8 (destruct x as [|? x]; [discriminate Lx|]). destruct x; [|discriminate Lx].
  rename r into x0, r0 into x1, r1 into x2, r2 into x3, r3 into x4, r4 into x5, r5 into x6, r6 into x7.
  set (ch := [fadd (fmul (fsub x0 x7) (fst t0)) (fmul (fsub x3 x4) (snd t0)); fadd (fmul (fsub x1 x6) (fst t1)) (fmul (fsub x2 x5) (snd t1))]).
  set (sh := [fsub (fmul (fsub x3 x4) (fst t0)) (fmul (fsub x0 x7) (snd t0)); fsub (fmul (fsub x2 x5) (fst t1)) (fmul (fsub x1 x6) (snd t1))]).
  set (yh := [fadd x0 x7; fadd x1 x6; fadd x2 x5; fadd x3 x4]).
  apply (step2 u v N HN 2 1 [x0; x1; x2; x3; x4; x5; x6; x7] (fun i => nth i [x0 - x7; x1 - x6] 0) (fun i => nth i [x3 - x4; x2 - x5] 0) ch sh yh
    (fun k => nth k (b4_dct2 t4 yh) z0) (fun k => nth k (b2_dct2 ch) z0) (fun k => alt k * nth k (b2_dst2 (rev sh)) z0)); try reflexivity; try lia.
  - unfold yh; each; one_op HN Hu.
  - each; ring.
  - each; ring.
  - destruct (proj2 HT 0%nat ltac:(lia)). destruct (proj2 HT 1%nat ltac:(lia)). cbn [nth] in * . unfold ch, sh; each; split; rot1 HN.
  - apply (b4_dct2_acc u v N HN t4 HT4). reflexivity.
  - apply (acc_mono2 u v N HN 2 0 1 _ ltac:(lia) (b2_dct2_acc u v N HN)). reflexivity.
  - apply (nears2_rev 2 _ _ (fun k => nth k (b2_dst2 (rev sh)) z0)); [reflexivity|reflexivity|].
    apply (acc_monos2 u v N HN 2 0 1 _ ltac:(lia) (b2_dst2_acc u v N HN)). reflexivity.
  - unfold ch, sh, yh; each; unfold post2; ev_nat; cbn [nth b8_dct2 b8_tw b8_b4 b16_b8 b16_b4 b16_tw rev app fst snd Nat.sub Nat.add Nat.mul Nat.even]; alts; one_op HN Hu.
Qed.
Lemma b8_dst2_acc : acc nears2 8 (G 2) (fun x k => nth k (b8_dst2 (mkBf8 t4 [t0; t1]) x) z0).
Proof.
  intros x Lx. do 8 (destruct x as [|? x]; [discriminate Lx|]). destruct x; [|discriminate Lx].
  rename r into x0, r0 into x1, r1 into x2, r2 into x3, r3 into x4, r4 into x5, r5 into x6, r6 into x7.
  apply (nears2_of_near2 8 _ _ (fun k => nth (7 - k) (b8_dst2 (mkBf8 t4 [t0; t1]) [x0; x1; x2; x3; x4; x5; x6; x7]) z0) _ Lx); [each; reflexivity|].
  alt_norm.
  set (ch := [fadd (fmul (fadd x0 x7) (fst t0)) (fmul (fsub (fneg x3) x4) (snd t0)); fadd (fmul (fsub (fneg x1) x6) (fst t1)) (fmul (fadd x2 x5) (snd t1))]).
  set (sh := [fsub (fmul (fsub (fneg x3) x4) (fst t0)) (fmul (fadd x0 x7) (snd t0)); fsub (fmul (fadd x2 x5) (fst t1)) (fmul (fsub (fneg x1) x6) (snd t1))]).
  set (yh := [fsub x0 x7; fsub x6 x1; fsub x2 x5; fsub x4 x3]).
  apply (step2 u v N HN 2 1 [x0; - x1; x2; - x3; x4; - x5; x6; - x7] (fun i => nth i [x0 + x7; - x1 - x6] 0) (fun i => nth i [- x3 - x4; x2 + x5] 0) ch sh yh
    (fun k => nth k (b4_dct2 t4 yh) z0) (fun k => nth k (b2_dct2 ch) z0) (fun k => alt k * nth k (b2_dst2 (rev sh)) z0)); try reflexivity; try lia.
  - unfold yh; each; one_op HN Hu.
  - each; ring.
  - each; ring.
  - destruct (proj2 HT 0%nat ltac:(lia)). destruct (proj2 HT 1%nat ltac:(lia)). cbn [nth] in * . unfold ch, sh; each; split; rot1 HN.
  - apply (b4_dct2_acc u v N HN t4 HT4). reflexivity.
  - apply (acc_mono2 u v N HN 2 0 1 _ ltac:(lia) (b2_dct2_acc u v N HN)). reflexivity.
  - apply (nears2_rev 2 _ _ (fun k => nth k (b2_dst2 (rev sh)) z0)); [reflexivity|reflexivity|].
    apply (acc_monos2 u v N HN 2 0 1 _ ltac:(lia) (b2_dst2_acc u v N HN)). reflexivity.
  - unfold ch, sh, yh; each; unfold post2; ev_nat; cbn [nth b8_dst2 b8_tw b8_b4 b16_b8 b16_b4 b16_tw rev app fst snd Nat.sub Nat.add Nat.mul Nat.even]; alts; one_op HN Hu.
Qed.
Lemma b8_dct3_acc : acc near3 8 (G 2) (fun x k => nth k (b8_dct3 (mkBf8 t4 [t0; t1]) x) z0).
Proof.
  intros x Lx. do 8 (destruct x as [|? x]; [discriminate Lx|]). destruct x; [|discriminate Lx].
  rename r into x0, r0 into x1, r1 into x2, r2 into x3, r3 into x4, r4 into x5, r5 into x6, r6 into x7.
  set (e := [x0; x2; x4; x6]).
  set (ah := [fmul x1 two'; fadd x3 x5]).
  set (bh := [fsub x3 x5; fmul x7 two']).
  apply (step3 u v N HN 2 1 [x0; x1; x2; x3; x4; x5; x6; x7] e ah bh [t0; t1] (fun k => nth k (b4_dct3 t4 e) z0) (fun k => nth k (b2_dct3 ah) z0) (fun k => nth k (b2_dst3 bh) z0)
    (fun i => fadd (fmul (nth i (b2_dct3 ah) z0) (fst (nth i [t0; t1] (0, 0)))) (fmul (nth i (b2_dst3 bh) z0) (snd (nth i [t0; t1] (0, 0)))))
    (fun i => fsub (fmul (nth i (b2_dct3 ah) z0) (snd (nth i [t0; t1] (0, 0)))) (fmul (nth i (b2_dst3 bh) z0) (fst (nth i [t0; t1] (0, 0)))))); try reflexivity; try lia; try exact HT.
  - unfold e; each; reflexivity.
  - unfold ah; each; one_op HN Hu.
  - unfold bh; each; one_op HN Hu.
  - apply (b4_dct3_acc u v N HN t4 HT4). reflexivity.
  - apply (acc_mono3 u v N HN 2 0 1 _ ltac:(lia) (b2_dct3_acc u v N HN)). reflexivity.
  - apply (acc_monos3 u v N HN 2 0 1 _ ltac:(lia) (b2_dst3_acc u v N HN)). reflexivity.
  - unfold e, ah, bh; each; unfold post3; ev_nat; cbn [nth b8_dct3 b8_tw b8_b4 b16_b8 b16_b4 b16_tw rev app fst snd Nat.sub Nat.add Nat.mul Nat.even]; alts; rewrite ?(r_neg _ _ _ HN); one_op HN Hu.
Qed.
Lemma b8_dst3_acc : acc nears3 8 (G 2) (fun x k => nth k (b8_dst3 (mkBf8 t4 [t0; t1]) x) z0).
Proof.
  intros x Lx. do 8 (destruct x as [|? x]; [discriminate Lx|]). destruct x; [|discriminate Lx].
  rename r into x0, r0 into x1, r1 into x2, r2 into x3, r3 into x4, r4 into x5, r5 into x6, r6 into x7.
  apply (nears3_of_near3 8 _ _ (fun k => alt k * nth k (b8_dst3 (mkBf8 t4 [t0; t1]) [x0; x1; x2; x3; x4; x5; x6; x7]) z0) _ Lx); [intros k Hk; rewrite <- Rmult_assoc, alt_sq; ring|].
  cbn [rev app].
  set (e := [x7; x5; x3; x1]).
  set (ah := [fmul x6 two'; fadd x4 x2]).
  set (bh := [fsub x4 x2; fmul x0 two']).
  apply (step3 u v N HN 2 1 [x7; x6; x5; x4; x3; x2; x1; x0] e ah bh [t0; t1] (fun k => nth k (b4_dct3 t4 e) z0) (fun k => nth k (b2_dct3 ah) z0) (fun k => nth k (b2_dst3 bh) z0)
    (fun i => fadd (fmul (nth i (b2_dct3 ah) z0) (fst (nth i [t0; t1] (0, 0)))) (fmul (nth i (b2_dst3 bh) z0) (snd (nth i [t0; t1] (0, 0)))))
    (fun i => fsub (fmul (nth i (b2_dct3 ah) z0) (snd (nth i [t0; t1] (0, 0)))) (fmul (nth i (b2_dst3 bh) z0) (fst (nth i [t0; t1] (0, 0)))))); try reflexivity; try lia; try exact HT.
  - unfold e; each; reflexivity.
  - unfold ah; each; one_op HN Hu.
  - unfold bh; each; one_op HN Hu.
  - apply (b4_dct3_acc u v N HN t4 HT4). reflexivity.
  - apply (acc_mono3 u v N HN 2 0 1 _ ltac:(lia) (b2_dct3_acc u v N HN)). reflexivity.
  - apply (acc_monos3 u v N HN 2 0 1 _ ltac:(lia) (b2_dst3_acc u v N HN)). reflexivity.
  - unfold e, ah, bh; each; unfold post3; ev_nat; cbn [nth b8_dst3 b8_tw b8_b4 b16_b8 b16_b4 b16_tw rev app fst snd Nat.sub Nat.add Nat.mul Nat.even]; alts; rewrite ?(r_neg _ _ _ HN); one_op HN Hu.
Qed.
End Bf8.

Section Bf16.
Variables (u v : R) (N : Num R R).
Hypothesis HN : rounding u v N.
Let Hu : 0 <= u := r_u _ _ _ HN.
Notation fadd := (@add _ _ N). Notation fsub := (@sub _ _ N). Notation fmul := (@mul _ _ N). Notation z0 := (@zero _ _ N). Notation two' := (@two _ _ N). Notation fneg := (@neg _ _ N).
Notation G k := (growth u v k).
Variables (t4 t0 t1 t2 t3 : R * R) (s8 : bf8 R).
Hypothesis HT4 : tw_ok u v 1 [t4].
Hypothesis HT : tw_ok u v 4 [t0; t1; t2; t3].
Hypothesis H8dct2 : acc near2 8 (G 2) (fun x k => nth k (b8_dct2 s8 x) z0).
Hypothesis H8dct3 : acc near3 8 (G 2) (fun x k => nth k (b8_dct3 s8 x) z0).
Lemma b16_dct2_acc : acc near2 16 (G 3) (fun x k => nth k (b16_dct2 (mkBf16 s8 t4 [t0; t1; t2; t3]) x) z0).
Proof.
  intros x Lx. do 16 (destruct x as [|? x]; [discriminate Lx|]). destruct x; [|discriminate Lx].
  rename r into x0, r0 into x1, r1 into x2, r2 into x3, r3 into x4, r4 into x5, r5 into x6, r6 into x7, r7 into x8, r8 into x9, r9 into x10, r10 into x11, r11 into x12, r12 into x13, r13 into x14, r14 into x15.
  set (ch := [fadd (fmul (fsub x0 x15) (fst t0)) (fmul (fsub x7 x8) (snd t0)); fadd (fmul (fsub x1 x14) (fst t1)) (fmul (fsub x6 x9) (snd t1)); fadd (fmul (fsub x2 x13) (fst t2)) (fmul (fsub x5 x10) (snd t2)); fadd (fmul (fsub x3 x12) (fst t3)) (fmul (fsub x4 x11) (snd t3))]).
  set (sh := [fsub (fmul (fsub x7 x8) (fst t0)) (fmul (fsub x0 x15) (snd t0)); fsub (fmul (fsub x6 x9) (fst t1)) (fmul (fsub x1 x14) (snd t1)); fsub (fmul (fsub x5 x10) (fst t2)) (fmul (fsub x2 x13) (snd t2)); fsub (fmul (fsub x4 x11) (fst t3)) (fmul (fsub x3 x12) (snd t3))]).
  set (yh := [fadd x0 x15; fadd x1 x14; fadd x2 x13; fadd x3 x12; fadd x4 x11; fadd x5 x10; fadd x6 x9; fadd x7 x8]).
  apply (step2 u v N HN 4 2 [x0; x1; x2; x3; x4; x5; x6; x7; x8; x9; x10; x11; x12; x13; x14; x15] (fun i => nth i [x0 - x15; x1 - x14; x2 - x13; x3 - x12] 0) (fun i => nth i [x7 - x8; x6 - x9; x5 - x10; x4 - x11] 0) ch sh yh
    (fun k => nth k (b8_dct2 s8 yh) z0) (fun k => nth k (b4_dct2 t4 ch) z0) (fun k => alt k * nth k (b4_dst2 t4 (rev sh)) z0)); try reflexivity; try lia.
  - unfold yh; each; one_op HN Hu.
  - each; ring.
  - each; ring.
  - destruct (proj2 HT 0%nat ltac:(lia)). destruct (proj2 HT 1%nat ltac:(lia)). destruct (proj2 HT 2%nat ltac:(lia)). destruct (proj2 HT 3%nat ltac:(lia)). cbn [nth] in * . unfold ch, sh; each; split; rot1 HN.
  - apply (H8dct2). reflexivity.
  - apply (acc_mono2 u v N HN 4 1 2 _ ltac:(lia) (b4_dct2_acc u v N HN t4 HT4)). reflexivity.
  - apply (nears2_rev 4 _ _ (fun k => nth k (b4_dst2 t4 (rev sh)) z0)); [reflexivity|reflexivity|].
    apply (acc_monos2 u v N HN 4 1 2 _ ltac:(lia) (b4_dst2_acc u v N HN t4 HT4)). reflexivity.
  - unfold ch, sh, yh; each; unfold post2; ev_nat; cbn [nth b16_dct2 b8_tw b8_b4 b16_b8 b16_b4 b16_tw rev app fst snd Nat.sub Nat.add Nat.mul Nat.even]; alts; one_op HN Hu.
Qed.
Lemma b16_dst2_acc : acc nears2 16 (G 3) (fun x k => nth k (b16_dst2 (mkBf16 s8 t4 [t0; t1; t2; t3]) x) z0).
Proof.
  intros x Lx. do 16 (destruct x as [|? x]; [discriminate Lx|]). destruct x; [|discriminate Lx].
  rename r into x0, r0 into x1, r1 into x2, r2 into x3, r3 into x4, r4 into x5, r5 into x6, r6 into x7, r7 into x8, r8 into x9, r9 into x10, r10 into x11, r11 into x12, r12 into x13, r13 into x14, r14 into x15.
  apply (nears2_of_near2 16 _ _ (fun k => nth (15 - k) (b16_dst2 (mkBf16 s8 t4 [t0; t1; t2; t3]) [x0; x1; x2; x3; x4; x5; x6; x7; x8; x9; x10; x11; x12; x13; x14; x15]) z0) _ Lx); [each; reflexivity|].
  alt_norm.
  set (ch := [fadd (fmul (fadd x0 x15) (fst t0)) (fmul (fsub (fneg x7) x8) (snd t0)); fadd (fmul (fsub (fneg x1) x14) (fst t1)) (fmul (fadd x6 x9) (snd t1)); fadd (fmul (fadd x2 x13) (fst t2)) (fmul (fsub (fneg x5) x10) (snd t2)); fadd (fmul (fsub (fneg x3) x12) (fst t3)) (fmul (fadd x4 x11) (snd t3))]).
  set (sh := [fsub (fmul (fsub (fneg x7) x8) (fst t0)) (fmul (fadd x0 x15) (snd t0)); fsub (fmul (fadd x6 x9) (fst t1)) (fmul (fsub (fneg x1) x14) (snd t1)); fsub (fmul (fsub (fneg x5) x10) (fst t2)) (fmul (fadd x2 x13) (snd t2)); fsub (fmul (fadd x4 x11) (fst t3)) (fmul (fsub (fneg x3) x12) (snd t3))]).
  set (yh := [fsub x0 x15; fadd (fneg x1) x14; fsub x2 x13; fadd (fneg x3) x12; fsub x4 x11; fadd (fneg x5) x10; fsub x6 x9; fadd (fneg x7) x8]).
  apply (step2 u v N HN 4 2 [x0; - x1; x2; - x3; x4; - x5; x6; - x7; x8; - x9; x10; - x11; x12; - x13; x14; - x15] (fun i => nth i [x0 + x15; - x1 - x14; x2 + x13; - x3 - x12] 0) (fun i => nth i [- x7 - x8; x6 + x9; - x5 - x10; x4 + x11] 0) ch sh yh
    (fun k => nth k (b8_dct2 s8 yh) z0) (fun k => nth k (b4_dct2 t4 ch) z0) (fun k => alt k * nth k (b4_dst2 t4 (rev sh)) z0)); try reflexivity; try lia.
  - unfold yh; each; one_op HN Hu.
  - each; ring.
  - each; ring.
  - destruct (proj2 HT 0%nat ltac:(lia)). destruct (proj2 HT 1%nat ltac:(lia)). destruct (proj2 HT 2%nat ltac:(lia)). destruct (proj2 HT 3%nat ltac:(lia)). cbn [nth] in * . unfold ch, sh; each; split; rot1 HN.
  - apply (H8dct2). reflexivity.
  - apply (acc_mono2 u v N HN 4 1 2 _ ltac:(lia) (b4_dct2_acc u v N HN t4 HT4)). reflexivity.
  - apply (nears2_rev 4 _ _ (fun k => nth k (b4_dst2 t4 (rev sh)) z0)); [reflexivity|reflexivity|].
    apply (acc_monos2 u v N HN 4 1 2 _ ltac:(lia) (b4_dst2_acc u v N HN t4 HT4)). reflexivity.
  - unfold ch, sh, yh; each; unfold post2; ev_nat; cbn [nth b16_dst2 b8_tw b8_b4 b16_b8 b16_b4 b16_tw rev app fst snd Nat.sub Nat.add Nat.mul Nat.even]; alts; one_op HN Hu.
Qed.
Lemma b16_dct3_acc : acc near3 16 (G 3) (fun x k => nth k (b16_dct3 (mkBf16 s8 t4 [t0; t1; t2; t3]) x) z0).
Proof.
  intros x Lx. do 16 (destruct x as [|? x]; [discriminate Lx|]). destruct x; [|discriminate Lx].
  rename r into x0, r0 into x1, r1 into x2, r2 into x3, r3 into x4, r4 into x5, r5 into x6, r6 into x7, r7 into x8, r8 into x9, r9 into x10, r10 into x11, r11 into x12, r12 into x13, r13 into x14, r14 into x15.
  set (e := [x0; x2; x4; x6; x8; x10; x12; x14]).
  set (ah := [fmul x1 two'; fadd x3 x5; fadd x7 x9; fadd x11 x13]).
  set (bh := [fsub x3 x5; fsub x7 x9; fsub x11 x13; fmul x15 two']).
  apply (step3 u v N HN 4 2 [x0; x1; x2; x3; x4; x5; x6; x7; x8; x9; x10; x11; x12; x13; x14; x15] e ah bh [t0; t1; t2; t3] (fun k => nth k (b8_dct3 s8 e) z0) (fun k => nth k (b4_dct3 t4 ah) z0) (fun k => nth k (b4_dst3 t4 bh) z0)
    (fun i => fadd (fmul (nth i (b4_dct3 t4 ah) z0) (fst (nth i [t0; t1; t2; t3] (0, 0)))) (fmul (nth i (b4_dst3 t4 bh) z0) (snd (nth i [t0; t1; t2; t3] (0, 0)))))
    (fun i => fsub (fmul (nth i (b4_dct3 t4 ah) z0) (snd (nth i [t0; t1; t2; t3] (0, 0)))) (fmul (nth i (b4_dst3 t4 bh) z0) (fst (nth i [t0; t1; t2; t3] (0, 0)))))); try reflexivity; try lia; try exact HT.
  - unfold e; each; reflexivity.
  - unfold ah; each; one_op HN Hu.
  - unfold bh; each; one_op HN Hu.
  - apply (H8dct3). reflexivity.
  - apply (acc_mono3 u v N HN 4 1 2 _ ltac:(lia) (b4_dct3_acc u v N HN t4 HT4)). reflexivity.
  - apply (acc_monos3 u v N HN 4 1 2 _ ltac:(lia) (b4_dst3_acc u v N HN t4 HT4)). reflexivity.
  - unfold e, ah, bh; each; unfold post3; ev_nat; cbn [nth b16_dct3 b8_tw b8_b4 b16_b8 b16_b4 b16_tw rev app fst snd Nat.sub Nat.add Nat.mul Nat.even]; alts; rewrite ?(r_neg _ _ _ HN); one_op HN Hu.
Qed.
Lemma b16_dst3_acc : acc nears3 16 (G 3) (fun x k => nth k (b16_dst3 (mkBf16 s8 t4 [t0; t1; t2; t3]) x) z0).
Proof.
  intros x Lx. do 16 (destruct x as [|? x]; [discriminate Lx|]). destruct x; [|discriminate Lx].
  rename r into x0, r0 into x1, r1 into x2, r2 into x3, r3 into x4, r4 into x5, r5 into x6, r6 into x7, r7 into x8, r8 into x9, r9 into x10, r10 into x11, r11 into x12, r12 into x13, r13 into x14, r14 into x15.
  apply (nears3_of_near3 16 _ _ (fun k => alt k * nth k (b16_dst3 (mkBf16 s8 t4 [t0; t1; t2; t3]) [x0; x1; x2; x3; x4; x5; x6; x7; x8; x9; x10; x11; x12; x13; x14; x15]) z0) _ Lx); [intros k Hk; rewrite <- Rmult_assoc, alt_sq; ring|].
  cbn [rev app].
  set (e := [x15; x13; x11; x9; x7; x5; x3; x1]).
  set (ah := [fmul x14 two'; fadd x12 x10; fadd x8 x6; fadd x4 x2]).
  set (bh := [fsub x12 x10; fsub x8 x6; fsub x4 x2; fmul x0 two']).
  apply (step3 u v N HN 4 2 [x15; x14; x13; x12; x11; x10; x9; x8; x7; x6; x5; x4; x3; x2; x1; x0] e ah bh [t0; t1; t2; t3] (fun k => nth k (b8_dct3 s8 e) z0) (fun k => nth k (b4_dct3 t4 ah) z0) (fun k => nth k (b4_dst3 t4 bh) z0)
    (fun i => fadd (fmul (nth i (b4_dct3 t4 ah) z0) (fst (nth i [t0; t1; t2; t3] (0, 0)))) (fmul (nth i (b4_dst3 t4 bh) z0) (snd (nth i [t0; t1; t2; t3] (0, 0)))))
    (fun i => fsub (fmul (nth i (b4_dct3 t4 ah) z0) (snd (nth i [t0; t1; t2; t3] (0, 0)))) (fmul (nth i (b4_dst3 t4 bh) z0) (fst (nth i [t0; t1; t2; t3] (0, 0)))))); try reflexivity; try lia; try exact HT.
  - unfold e; each; reflexivity.
  - unfold ah; each; one_op HN Hu.
  - unfold bh; each; one_op HN Hu.
  - apply (H8dct3). reflexivity.
  - apply (acc_mono3 u v N HN 4 1 2 _ ltac:(lia) (b4_dct3_acc u v N HN t4 HT4)). reflexivity.
  - apply (acc_monos3 u v N HN 4 1 2 _ ltac:(lia) (b4_dst3_acc u v N HN t4 HT4)). reflexivity.
  - unfold e, ah, bh; each; unfold post3; ev_nat; cbn [nth b16_dst3 b8_tw b8_b4 b16_b8 b16_b4 b16_tw rev app fst snd Nat.sub Nat.add Nat.mul Nat.even]; alts; rewrite ?(r_neg _ _ _ HN); one_op HN Hu.
Qed.
End Bf16.

