(** Split radix and type 4 through type 3 with the arithmetic of Model_Checked.v. *)
From Coq Require Import List Arith Bool Lia ZArith ZifyNat ZifyBool.
From Verif Require Import Prog Num Model_Common Model_SplitRadix Model_Plan Model_Checked Model_Checked_SplitRadix Checked_Eq.
Import ListNotations.
Ltac Zify.zify_post_hook ::= Z.div_mod_to_equations.

Section CheckedSplitEq.
Context {T F : Type} {N : Num T F}.
Variable B : build.
Variable MAX : nat.

Lemma Type2And3SplitRadix_dct2_eq (h' h q' q : t23 T) tw b s : t23_follows B h' h -> t23_follows B q' q -> 8 * length tw + 8 <= MAX ->
  follows B (Type2And3SplitRadix_dct2_ck B MAX (mkT23Split h' q' tw) b s) (Type2And3SplitRadix_dct2 (mkT23Split h q tw) b s).
Proof. intros (_ & _ & H1 & H2 & _) (_ & _ & H3 & H4 & _) H. unfold meth_follows in H1, H2, H3, H4. unfold Type2And3SplitRadix_dct2_ck, Type2And3SplitRadix_dct2, Type2And3SplitRadix_scratch_ck, Type2And3SplitRadix_len_ck, Type2And3SplitRadix_scratch, Type2And3SplitRadix_len. cbv zeta. cbn [sr_tw sr_half sr_quarter]. ck ltac:(cbn [slen] in *; lia). Qed.

Lemma Type2And3SplitRadix_dct3_eq (h' h q' q : t23 T) tw b s : t23_follows B h' h -> t23_follows B q' q -> 8 * length tw + 8 <= MAX ->
  follows B (Type2And3SplitRadix_dct3_ck B MAX (mkT23Split h' q' tw) b s) (Type2And3SplitRadix_dct3 (mkT23Split h q tw) b s).
Proof. intros (_ & _ & H1 & H2 & _) (_ & _ & H3 & H4 & _) H. unfold meth_follows in H1, H2, H3, H4. unfold Type2And3SplitRadix_dct3_ck, Type2And3SplitRadix_dct3, Type2And3SplitRadix_scratch_ck, Type2And3SplitRadix_len_ck, Type2And3SplitRadix_scratch, Type2And3SplitRadix_len. cbv zeta. cbn [sr_tw sr_half sr_quarter]. ck ltac:(cbn [slen] in *; lia). Qed.

Lemma Type2And3SplitRadix_dst2_eq (h' h q' q : t23 T) tw b s : t23_follows B h' h -> t23_follows B q' q -> 8 * length tw + 8 <= MAX ->
  follows B (Type2And3SplitRadix_dst2_ck B MAX (mkT23Split h' q' tw) b s) (Type2And3SplitRadix_dst2 (mkT23Split h q tw) b s).
Proof. 
  intros Hh Hq H. unfold Type2And3SplitRadix_dst2_ck, Type2And3SplitRadix_dst2, Type2And3SplitRadix_scratch_ck, Type2And3SplitRadix_len_ck, Type2And3SplitRadix_scratch, Type2And3SplitRadix_len. cbn [sr_tw].
  eapply ret_bind; [ueval ltac:(lia) | cbv beta]. apply bind_ext2; [ck ltac:(lia) | intros _].
  apply bind_ext2; [now apply Type2And3SplitRadix_dct2_eq | intros _; apply follows_refl].
 Qed.

Lemma Type2And3SplitRadix_dst3_eq (h' h q' q : t23 T) tw b s : t23_follows B h' h -> t23_follows B q' q -> 8 * length tw + 8 <= MAX ->
  follows B (Type2And3SplitRadix_dst3_ck B MAX (mkT23Split h' q' tw) b s) (Type2And3SplitRadix_dst3 (mkT23Split h q tw) b s).
Proof. 
  intros Hh Hq H. unfold Type2And3SplitRadix_dst3_ck, Type2And3SplitRadix_dst3, Type2And3SplitRadix_scratch_ck, Type2And3SplitRadix_len_ck, Type2And3SplitRadix_scratch, Type2And3SplitRadix_len. cbn [sr_tw]. apply bind_ext. intros _.
  apply bind_ext2; [now apply Type2And3SplitRadix_dct3_eq | intros _].
  eapply ret_bind; [ueval ltac:(lia) | cbv beta]. ck ltac:(lia).
 Qed.

Lemma Type2And3SplitRadix_obj_eq (h' h q' q : t23 T) tw :
  t23_follows B h' h -> t23_follows B q' q -> 8 * length tw + 8 <= MAX ->
  exists x, Type2And3SplitRadix_obj_ck B MAX (mkT23Split h' q' tw) = Ok x /\
    t23_follows B x (Type2And3SplitRadix_obj (mkT23Split h q tw)).
Proof.
  intros Hh Hq H. eexists. split.
  - unfold Type2And3SplitRadix_obj_ck, Type2And3SplitRadix_scratch_ck, Type2And3SplitRadix_len_ck.
    cbn [sr_tw]. rck ltac:(lia).
  - do 2 (split; [reflexivity|]). repeat split; intros b s;
      [now apply Type2And3SplitRadix_dct2_eq | now apply Type2And3SplitRadix_dct3_eq
       | now apply Type2And3SplitRadix_dst2_eq | now apply Type2And3SplitRadix_dst3_eq].
Qed.

Lemma Type4ConvertToType3Even_dct4_eq (d' d : t23 T) tw scr b s : t23_follows B d' d -> 8 * length tw + 8 <= MAX ->
  follows B (Type4ConvertToType3Even_dct4_ck B MAX (mkT4Even d' tw scr) b s) (Type4ConvertToType3Even_dct4 (mkT4Even d tw scr) b s).
Proof. intros (_ & _ & _ & H1 & _ & H2) H. unfold meth_follows in H1, H2. unfold Type4ConvertToType3Even_dct4_ck, Type4ConvertToType3Even_dct4, Type4ConvertToType3Even_len_ck, Type4ConvertToType3Even_len. cbv zeta. cbn [t4e_tw t4e_inner t4e_scratch]. ck ltac:(cbn [slen] in *; lia). Qed.

Lemma Type4ConvertToType3Even_dst4_eq (d' d : t23 T) tw scr b s : t23_follows B d' d -> 8 * length tw + 8 <= MAX ->
  follows B (Type4ConvertToType3Even_dst4_ck B MAX (mkT4Even d' tw scr) b s) (Type4ConvertToType3Even_dst4 (mkT4Even d tw scr) b s).
Proof. intros (_ & _ & _ & H1 & _ & H2) H. unfold meth_follows in H1, H2. unfold Type4ConvertToType3Even_dst4_ck, Type4ConvertToType3Even_dst4, Type4ConvertToType3Even_len_ck, Type4ConvertToType3Even_len. cbv zeta. cbn [t4e_tw t4e_inner t4e_scratch]. ck ltac:(cbn [slen] in *; lia). Qed.

Lemma Type4ConvertToType3Even_obj_eq (d' d : t23 T) tw scr : t23_follows B d' d -> 8 * length tw + 8 <= MAX ->
  exists x, Type4ConvertToType3Even_obj_ck B MAX (mkT4Even d' tw scr) = Ok x /\
    t4_follows B x (Type4ConvertToType3Even_obj (mkT4Even d tw scr)).
Proof.
  intros Hd H. eexists. split.
  - unfold Type4ConvertToType3Even_obj_ck, Type4ConvertToType3Even_len_ck. cbn [t4e_tw]. rck ltac:(lia).
  - do 2 (split; [reflexivity|]). repeat split; intros b s;
      [now apply Type4ConvertToType3Even_dct4_eq | now apply Type4ConvertToType3Even_dst4_eq].
Qed.

Lemma Type2And3SplitRadix_make_eq (h' h q' q : t23 T) : t23_follows B h' h -> t23_follows B q' q ->
  8 * t23_len h + 8 <= MAX -> 2 * t23_len q <= MAX ->
  res_follows B (t23_follows B)
    (rbind (Type2And3SplitRadix_new_ck B MAX h' q') (Type2And3SplitRadix_obj_ck B MAX))
    (rmap Type2And3SplitRadix_obj (Type2And3SplitRadix_new h q)).
Proof.
  intros Hh Hq H H'. left.
  assert (Lh : t23_len h' = t23_len h) by apply Hh. assert (Lq : t23_len q' = t23_len q) by apply Hq.
  unfold Type2And3SplitRadix_new_ck, Type2And3SplitRadix_new. cbv zeta. rewrite Lh, Lq.
  erewrite (rof_bind _ (t23_len h * 2)); [|ueval ltac:(lia)|cbv beta; reflexivity].
  unfold rassert. destruct (_ && _); [|reflexivity]. cbn [rbind].
  erewrite (rof_bind _ (t23_len q * 2)); [|ueval ltac:(lia)|cbv beta; reflexivity].
  destruct (_ =? _); [|reflexivity]. cbn [rbind rmap].
  erewrite rmap_list_ok; [|intros i Hi; apply in_seq in Hi; cbv beta; rck ltac:(lia)]. cbn [rbind].
  destruct (Type2And3SplitRadix_obj_eq h' h q' q
    (map (fun i => c_conj (single_twiddle (2 * i + 1) (t23_len h * 2 * 4))) (seq 0 (t23_len h * 2 / 4))) Hh Hq)
    as [x [E Hx]].
  { rewrite map_length, seq_length. lia. }
  rewrite E. exact Hx.
Qed.

Lemma Type4ConvertToType3Even_make_eq (d' d : t23 T) : t23_follows B d' d ->
  16 * t23_len d + 8 <= MAX -> 2 * t23_len d + t23_scratch d <= MAX ->
  res_follows B (t4_follows B)
    (rbind (Type4ConvertToType3Even_new_ck B MAX d') (Type4ConvertToType3Even_obj_ck B MAX))
    (Ok (Type4ConvertToType3Even_obj (Type4ConvertToType3Even_new d))).
Proof.
  intros Hd H H'. left.
  assert (Ld : t23_len d' = t23_len d) by apply Hd. assert (Sd : t23_scratch d' = t23_scratch d) by apply Hd.
  unfold Type4ConvertToType3Even_new_ck, Type4ConvertToType3Even_new. cbv zeta. rewrite Ld, Sd.
  erewrite (rof_bind _ (t23_len d * 2)); [|ueval ltac:(lia)|cbv beta; reflexivity].
  erewrite rmap_list_ok; [|intros i Hi; apply in_seq in Hi; cbv beta; rck ltac:(lia)]. cbn [rbind].
  assert (E : (if t23_scratch d <=? t23_len d * 2 then Ok (t23_len d * 2)
     else rof (T := unit) (ulift (uadd B MAX) (Ret (t23_len d * 2)) (Ret (t23_scratch d)))) =
     Ok (if t23_scratch d <=? t23_len d * 2 then t23_len d * 2 else t23_len d * 2 + t23_scratch d)).
  { destruct (_ <=? _); [reflexivity|]. erewrite (ulift_add B MAX); [reflexivity|reflexivity|reflexivity|lia]. }
  rewrite E. cbn [rbind].
  destruct (Type4ConvertToType3Even_obj_eq d' d
    (map (fun i => c_conj (single_twiddle (2 * i + 1) (t23_len d * 2 * 8))) (seq 0 (t23_len d)))
    (if t23_scratch d <=? t23_len d * 2 then t23_len d * 2 else t23_len d * 2 + t23_scratch d) Hd)
    as [x [E' Hx]].
  { rewrite map_length, seq_length. lia. }
  rewrite E'. exact Hx.
Qed.

End CheckedSplitEq.
