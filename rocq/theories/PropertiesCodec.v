(** Theorems about the encodings of keys and ciphertexts: C16-C27.
    Every theorem is followed by an example meeting its hypotheses, computed with
    the group of order 101 (ExpModel.v) and byte forms of the real sizes. *)
From Coq Require Import String Ascii NArith ZArith Bool Lia Strings.Byte List.
From Verif Require Import Prelude Field LinAlg Msp Spec MspProofs Bilinear Scheme SchemeSpec SchemeProofs SchemeTheorems
  Zp ExpModel Codec CodecProofs SchemeCodec SchemeCodecProofs PropertiesScheme.
Import ListNotations.
Local Open Scope N_scope.

(** ** Material for the examples *)
(** one byte followed by zeros *)
Definition form101 (size : nat) : compressed (zp m101) := mkCompressed
  (fun x => byte_of (Z.to_N (zval x)) :: repeat x00 (size - 1))
  (fun b => match b with
            | x :: t => if (Byte.to_N x <? 101) && forallb (fun y => Byte.to_N y =? 0) t && Nat.eqb (length b) size
                        then Some (zmod m101 (Z.of_N (Byte.to_N x))) else None
            | [] => None
            end).
Definition toy_forms : byte_forms toy := mkForms toy (form101 32) (form101 48) (form101 96) (form101 288) 104 200 576.

Lemma zmod_zval (x : zp m101) : zmod m101 (zval x) = x.
Proof. apply zp_eq. cbn [zmod zval]. apply Z.mod_small. apply zp_range. Qed.

Lemma form101_ok n : (1 <= n)%nat -> form_ok (N.of_nat n) (form101 n) (fun _ => True).
Proof.
  intros Hn. split.
  - intros a. unfold blen. cbn [form101 to_compressed length]. rewrite repeat_length. f_equal. lia.
  - intros a _. cbn [form101 to_compressed from_compressed]. assert (R : (0 <= zval a < 101)%Z) by exact (zp_range _ a).
    rewrite to_N_byte_of, N.mod_small by (change (mval m101) with 101%Z in *; lia).
    destruct (N.ltb_spec (Z.to_N (zval a)) 101) as [_|Hx]; [|lia]. cbn [andb].
    assert (E : forallb (fun y => Byte.to_N y =? 0) (repeat x00 (n - 1)) = true).
    { apply forallb_forall. intros y Hy. apply repeat_spec in Hy. subst y. reflexivity. }
    rewrite E. cbn [andb length]. rewrite repeat_length.
    destruct (Nat.eqb_spec (S (n - 1)) n) as [_|Hx]; [|lia]. f_equal. rewrite Z2N.id by lia. apply zmod_zval.
Qed.

Lemma toy_forms_ok : forms_ok toy_forms (fun _ => True).
Proof. constructor; try (apply (form101_ok 32) || apply (form101_ok 48) || apply (form101_ok 96) || apply (form101_ok 288); lia); simpl; lia. Qed.

(** the two build modes on a 64-bit machine *)
Definition debug64 : platform := mkPlatform 64 true.
Definition release64 : platform := mkPlatform 64 false.

Ltac vmr x := vm_cast_no_check (eq_refl x).

Definition toyK : list (zp m101) := map (fun i => zmod m101 i) [7; 8; 9]%Z.
Definition ex_priv : master_private_key toy := @mkPriv toy toyK (f101 10).
Definition ex_pub : master_public_key toy := @mkPub toy toyK (f101 10).
Definition ex_del : delegation_key toy := @mkDel toy toyK.
Definition bytes_of (o : outcome (list byte)) : list byte := run [] o.

Section Properties.
Variable B : BilinearMap.
Variable F : byte_forms B.
Variable fine : Gt B -> Prop.
Hypothesis HF : forms_ok F fine.
Implicit Types P : platform.

(** ** C16 *)
Theorem C16_private_key_roundtrip P (k : master_private_key B) : 64 <= usize_bits P ->
  (1 <= length (priv_t k))%nat -> N.of_nat (length (priv_t k)) <= 4294967294 ->
  exists b, priv_enc F k = Ok b /\ blen b = priv_len F k /\ priv_dec F P b = Ok k.
Proof.
  intros HP H1 H2. destruct (priv_round F fine HF P HP k []) as (b & E & L & D).
  - split; [intros E; rewrite E in H1; simpl in H1; lia|unfold u32_MAX; lia].
  - reflexivity.
  - rewrite app_nil_r in D. eauto.
Qed.

(** ** C17 *)
Theorem C17_public_key_roundtrip P (k : master_public_key B) : 64 <= usize_bits P ->
  (1 <= length (pub_t k))%nat -> N.of_nat (length (pub_t k)) <= 4294967294 -> fine (pub_y k) ->
  exists b, pub_enc F k = Ok b /\ blen b = pub_len F k /\ pub_dec F P b = Ok k.
Proof.
  intros HP H1 H2 Hy. destruct (pub_round F fine HF P HP k []) as (b & E & L & D).
  - split; [intros E; rewrite E in H1; simpl in H1; lia|unfold u32_MAX; lia].
  - exact Hy.
  - reflexivity.
  - rewrite app_nil_r in D. eauto.
Qed.

Theorem C17_delegation_key_roundtrip P (k : delegation_key B) : 64 <= usize_bits P ->
  (1 <= length (inv_t k))%nat -> N.of_nat (length (inv_t k)) <= 4294967294 ->
  exists b, del_enc F k = Ok b /\ blen b = del_len F k /\ del_dec F P b = Ok k.
Proof.
  intros HP H1 H2. destruct (del_round F fine HF P HP k []) as (b & E & L & D).
  - split; [intros E; rewrite E in H1; simpl in H1; lia|unfold u32_MAX; lia].
  - reflexivity.
  - rewrite app_nil_r in D. eauto.
Qed.

(** ** C18: every key that can be had under a generated master key *)
Hypothesis BL : BilinearLaws B.

Theorem C18_user_key_roundtrip P size (mdraw : nat -> bm_K B) mk f uk : 64 <= usize_bits P ->
  generate_master_key size mdraw = Ok mk -> obtained B P mk f uk ->
  (forall a, In a (leaves f) -> a < 4294967296) -> N.of_nat (length (leaves f)) <= 134217728 ->
  exists b, user_enc F P uk = Ok b /\ user_len F uk = Ok (blen b) /\ user_dec F P b = Ok uk.
Proof.
  intros HP Hmk Ho Hu Hl. destruct (generate_master_key_inv B BL _ _ _ Hmk) as (t & y & -> & _ & Hnz).
  destruct (obtained_rep B BL P t y f uk Hnz Ho) as (m & sg & _ & R & _).
  assert (Hu' : Forall u32 (leaves f)) by (apply Forall_forall; exact Hu).
  destruct (rep_key_ok t f m sg uk R Hu') as (Hk & Hr & Hc).
  pose proof (count_and_leaves f) as Hca.
  destruct (user_round F fine HF P HP uk [] Hk) as (b & E & L & D); [lia|lia| |].
  - reflexivity.
  - rewrite app_nil_r in D. eauto.
Qed.

(** ** C19 *)
Lemma encrypt_parts P msg gam (pk : master_public_key B) s ct : encrypt P msg gam pk s = Ok ct ->
  gamma ct = gam /\ length (e_i ct) = length gam.
Proof.
  unfold encrypt. destruct (Nat.leb _ _).
  - intros E. apply bind_ok in E as (u & _ & E). discriminate.
  - intros E. apply bind_ok in E as (ei & Hei & E). apply Ok_inj in E. subst ct. cbn [gamma e_i]. split; [reflexivity|].
    apply mapM_length in Hei. exact Hei.
Qed.

Theorem C19_ciphertext_roundtrip P msg gam (pk : master_public_key B) s ct : 64 <= usize_bits P ->
  encrypt P msg gam pk s = Ok ct -> gam <> [] -> N.of_nat (length gam) <= 4294967294 ->
  (forall a, In a gam -> a < 4294967296) -> fine (e_prime ct) ->
  exists b, ct_enc F ct = Ok b /\ blen b = ct_len F ct /\ ct_dec F P b = Ok ct.
Proof.
  intros HP He Hne Hl Hu Hf. destruct (encrypt_parts _ _ _ _ _ _ He) as [Eg El].
  destruct (ct_round F fine HF P HP ct []) as (b & E & L & D).
  - rewrite Eg. split; [exact Hne|unfold u32_MAX; lia].
  - rewrite Eg. apply Forall_forall. exact Hu.
  - rewrite Eg. exact El.
  - exact Hf.
  - reflexivity.
  - rewrite app_nil_r in D. eauto.
Qed.

(** ** C20: false *)
Theorem C20_empty_ciphertext_refuted P msg (pk : master_public_key B) s ct b : 64 <= usize_bits P ->
  encrypt P msg [] pk s = Ok ct -> ct_enc F ct = Ok b -> ct_dec F P b <> Ok ct.
Proof.
  intros HP He Hb Hd. destruct (encrypt_parts _ _ _ _ _ _ He) as [Eg El].
  destruct (e_i ct) as [|x l] eqn:Ee; [|discriminate]. unfold ct_enc in Hb. rewrite Eg, Ee in Hb. cbn [vec_enc bind] in Hb.
  cbn [gt_codec fixed_codec enc bind] in Hb. apply Ok_inj in Hb. cbn [app] in Hb.
  assert (Lb : blen b = 288) by (rewrite <- Hb; apply (gt_blen F fine HF)).
  unfold ct_dec in Hd. apply bind_ok in Hd as (g & Hg & Hd). apply bind_ok in Hd as (r & Hr & Hd).
  apply bind_ok in Hd as (ei & Hei & Hd). apply bind_ok in Hd as (r2 & Hr2 & Hd). apply bind_ok in Hd as (ep & Hep & Hd).
  apply Ok_inj in Hd. assert (g = []) by (rewrite <- Hd in Eg; exact Eg). subst g.
  destruct (vec_dec_inv u32_codec 4 _ u32_codec_ok P b []) as [[-> _]|(H & _)].
  - rewrite Lb. pose proof (big P HP). lia.
  - exact Hg.
  - discriminate Lb.
  - contradiction.
Qed.

(** Indeed no bytes at all decode to a ciphertext without attributes. *)
Theorem C20_no_bytes_decode_to_empty_refuted P bytes ct : 64 <= usize_bits P -> blen bytes < 9223372036854775808 ->
  ct_dec F P bytes = Ok ct -> gamma ct <> [].
Proof.
  intros HP Hf Hd Eg.
  unfold ct_dec in Hd. apply bind_ok in Hd as (g & Hg & Hd). apply bind_ok in Hd as (r & Hr & Hd).
  apply bind_ok in Hd as (ei & Hei & Hd). apply bind_ok in Hd as (r2 & Hr2 & Hd). apply bind_ok in Hd as (ep & Hep & Hd).
  apply Ok_inj in Hd. assert (g = []) by (rewrite <- Hd in Eg; exact Eg). subst g.
  destruct (vec_dec_inv u32_codec 4 _ u32_codec_ok P bytes []) as [[-> _]|(H & _)].
  - apply in_memory_fits; assumption.
  - exact Hg.
  - cbn in Hr. apply Ok_inj in Hr. subst r. cbn in Hei. apply Ok_inj in Hei. subst ei. cbn in Hr2. apply Ok_inj in Hr2. subst r2.
    discriminate Hep.
  - contradiction.
Qed.

(** ** C21 *)
Theorem C21_announced_length P msg gam (pk : master_public_key B) s ct b :
  encrypt P msg gam pk s = Ok ct -> N.of_nat (length gam) < 4294967296 -> ct_enc F ct = Ok b ->
  gam <> [] -> blen b = N.of_nat (ciphertext_len (length gam)).
Proof.
  intros He Hl Hb Hne. destruct (encrypt_parts _ _ _ _ _ _ He) as [Eg El].
  unfold ct_enc in Hb. apply bind_ok in Hb as (bg & Hbg & Hb). cbn [gt_codec fixed_codec enc bind] in Hb.
  apply bind_ok in Hb as (be & Hbe & Hb). apply Ok_inj in Hb. subst b.
  rewrite !blen_app, (gt_blen F fine HF).
  assert (Lg : N.of_nat (length (gamma ct)) < u32_modulus) by (rewrite Eg; exact Hl).
  assert (Le : N.of_nat (length (e_i ct)) < u32_modulus) by (rewrite El; exact Hl).
  rewrite (vec_enc_len u32_codec 4 _ u32_codec_ok _ _ Lg Hbg).
  rewrite (vec_enc_len (g2_codec F) 48 _ (g2_ok F fine HF) _ _ Le Hbe).
  rewrite Eg. destruct gam as [|a gam]; [contradiction|]. destruct (e_i ct) as [|x l] eqn:Ee; [discriminate|].
  unfold vec_len. rewrite El. simpl clen. unfold ciphertext_len. lia.
Qed.

Theorem C21_announced_length_refuted P msg (pk : master_public_key B) s ct b :
  encrypt P msg [] pk s = Ok ct -> ct_enc F ct = Ok b -> blen b = 288 /\ ciphertext_len 0 = 296%nat.
Proof.
  intros He Hb. destruct (encrypt_parts _ _ _ _ _ _ He) as [Eg El].
  destruct (e_i ct) as [|x l] eqn:Ee; [|discriminate]. unfold ct_enc in Hb. rewrite Eg, Ee in Hb. cbn [vec_enc bind] in Hb.
  cbn [gt_codec fixed_codec enc bind] in Hb. apply Ok_inj in Hb. subst b. split; [apply (gt_blen F fine HF)|reflexivity].
Qed.

(** ** C22 *)
Theorem C22_decoding_never_panics P bytes : 64 <= usize_bits P -> overflow_checks P = false ->
  blen bytes < 9223372036854775808 ->
  no_panic (priv_dec F P bytes) /\ no_panic (pub_dec F P bytes) /\ no_panic (del_dec F P bytes) /\
  no_panic (user_dec F P bytes) /\ no_panic (ct_dec F P bytes).
Proof.
  intros HP Ho Hf. repeat apply conj; (eapply safe_no_panic; [|exact Ho]).
  - apply (priv_safe F fine HF P HP); exact Hf.
  - apply (pub_safe F fine HF P HP); exact Hf.
  - apply (del_safe F fine HF P HP); exact Hf.
  - apply (user_safe F fine HF P HP); exact Hf.
  - apply (ct_safe F fine HF P HP); exact Hf.
Qed.

(** with overflow checks, the checked arithmetic is the only possible panic *)
Theorem C22_only_overflow_panics P bytes p : 64 <= usize_bits P -> blen bytes < 9223372036854775808 ->
  priv_dec F P bytes = Panic p \/ pub_dec F P bytes = Panic p \/ del_dec F P bytes = Panic p \/
  user_dec F P bytes = Panic p \/ ct_dec F P bytes = Panic p ->
  overflow_checks P = true /\ p = ArithmeticOverflow.
Proof.
  intros HP Hf [H|[H|[H|[H|H]]]].
  - apply (priv_safe F fine HF P HP bytes Hf _ H).
  - apply (pub_safe F fine HF P HP bytes Hf _ H).
  - apply (del_safe F fine HF P HP bytes Hf _ H).
  - apply (user_safe F fine HF P HP bytes Hf _ H).
  - apply (ct_safe F fine HF P HP bytes Hf _ H).
Qed.

(** it is reached by announcing zero elements in front of a valid element *)
Lemma zero_count_panics {A} P (c : codec A) k V a b rest : codec_ok c k V -> overflow_checks P = true ->
  V a -> enc c a = Ok b -> vec_dec P c (be32 0 ++ b ++ rest) = Panic ArithmeticOverflow.
Proof.
  intros C Ho Ha Hb. destruct (ok_enc _ _ _ C a) as (b' & Hb' & Lb). assert (b' = b) by congruence. subst b'.
  pose proof (ok_pos _ _ _ C) as Hk. unfold vec_dec. change (be32 0) with [x00; x00; x00; x00]. cbn [app].
  assert (L : blen (x00 :: x00 :: x00 :: x00 :: b ++ rest) = 4 + k + blen rest).
  { change (x00 :: x00 :: x00 :: x00 :: b ++ rest) with ([x00; x00; x00; x00] ++ b ++ rest). rewrite !blen_app, Lb. change (blen [x00; x00; x00; x00]) with 4. lia. }
  destruct (N.leb_spec (blen (x00 :: x00 :: x00 :: x00 :: b ++ rest)) 4) as [|_]; [lia|].
  change (from_be (firstn 4 (x00 :: x00 :: x00 :: x00 :: b ++ rest))) with 0.
  change (u32_MAX <=? 0) with false. cbn iota.
  rewrite slice_fromN_ok by (unfold blen in L; lia). cbn [bind].
  change (skipn (N.to_nat 4) (x00 :: x00 :: x00 :: x00 :: b ++ rest)) with (b ++ rest).
  rewrite (ok_rt _ _ _ C a b rest Ha Hb). cbn [bind]. unfold usize_sub, usize_wrap. rewrite Ho. reflexivity.
Qed.

Theorem C22_refuted P (x : bm_K B) (g : G2 B) (h : G3 B) : overflow_checks P = true ->
  (exists bytes, ct_dec F P bytes = Panic ArithmeticOverflow) /\
  (exists bytes, priv_dec F P bytes = Panic ArithmeticOverflow) /\
  (exists bytes, pub_dec F P bytes = Panic ArithmeticOverflow) /\
  (exists bytes, del_dec F P bytes = Panic ArithmeticOverflow) /\
  (exists bytes, user_dec F P bytes = Panic ArithmeticOverflow).
Proof.
  intros Ho.
  pose proof (zero_count_panics P u32_codec 4 _ 1 _ [] u32_codec_ok Ho ltac:(reflexivity) eq_refl) as H1.
  pose proof (zero_count_panics P (scalar_codec F) 32 _ x _ [] (scalar_ok F fine HF) Ho I eq_refl) as H2.
  pose proof (zero_count_panics P (g2_codec F) 48 _ g _ [] (g2_ok F fine HF) Ho I eq_refl) as H3.
  pose proof (zero_count_panics P (g3_codec F) 96 _ h _ [] (g3_ok F fine HF) Ho I eq_refl) as H4.
  repeat apply conj; eexists.
  - unfold ct_dec. rewrite H1. reflexivity.
  - unfold priv_dec. rewrite H2. reflexivity.
  - unfold pub_dec. rewrite H3. reflexivity.
  - unfold del_dec. rewrite H4. reflexivity.
  - unfold user_dec. rewrite H4. reflexivity.
Qed.

(** ** C23 *)
Theorem C23_decrypting_decoded_never_panics P size (mdraw : nat -> bm_K B) mk f uk (ct : ciphertext B) :
  generate_master_key size mdraw = Ok mk -> obtained B P mk f uk -> (forall a, In a (leaves f) -> a < 4294967296) ->
  (length (gamma ct) <= length (e_i ct))%nat ->
  no_panic (decrypt ct uk).
Proof.
  intros Hmk Ho Hu Hl. destruct (generate_master_key_inv B BL _ _ _ Hmk) as (t & y & -> & _ & Hnz).
  destruct (obtained_rep B BL P t y f uk Hnz Ho) as (m & sg & _ & R & _).
  assert (Hu' : Forall u32 (leaves f)) by (apply Forall_forall; exact Hu).
  destruct (rep_key_ok t f m sg uk R Hu') as (Hk & _).
  apply (decrypt_no_panic BL); assumption.
Qed.

(** the same for an untrusted key whose counts agree *)
Theorem C23_decoded_key_never_panics P kbytes uk (ct : ciphertext B) : 64 <= usize_bits P -> blen kbytes < 9223372036854775808 ->
  user_dec F P kbytes = Ok uk -> (1 <= nb_col (dk_msp uk))%nat -> length (raw_d uk) = nb_row (dk_msp uk) ->
  (length (gamma ct) <= length (e_i ct))%nat ->
  no_panic (decrypt ct uk).
Proof.
  intros HP Hf Hk Hc Hr Hl.
  unfold user_dec in Hk. destruct kbytes as [|b0 bt]; [discriminate|]. remember (b0 :: bt) as kb eqn:Eb.
  apply bind_ok in Hk as (d & Hd & Hk). apply bind_ok in Hk as (r & Hrr & Hk). apply bind_ok in Hk as (m & Hm & Hk).
  apply Ok_inj in Hk. subst uk. cbn [dk_msp raw_d] in *.
  apply slice_fromN_inv in Hrr as [Hle Hrr].
  assert (Lr : in_memory r) by (unfold in_memory; subst r; unfold blen in *; rewrite skipn_len; lia).
  pose proof (proj2 (msp_spec64 F fine HF P HP r Lr) m Hm) as S.
  assert (H1 : (1 <= nb_row m)%nat).
  { destruct (vec_dec_inv (g3_codec F) 96 _ (g3_ok F fine HF) P kb d) as [[-> _]|(Hne & _)].
    - apply in_memory_fits; assumption.
    - exact Hd.
    - discriminate Eb.
    - rewrite <- Hr. destruct d; [contradiction|]. simpl. lia. }
  apply (decrypt_no_panic BL); [|exact Hl]. split; [|split].
  - cbn [dk_msp]. apply decoded_shape_ok; assumption.
  - exact Hr.
  - reflexivity.
Qed.

(** ** C24 *)
Theorem C24_trailing_bytes_ignored P bytes rest :
  (forall k, priv_dec F P bytes = Ok k -> priv_dec F P (bytes ++ rest) = Ok k) /\
  (forall k, pub_dec F P bytes = Ok k -> pub_dec F P (bytes ++ rest) = Ok k) /\
  (forall k, bytes <> [] -> del_dec F P bytes = Ok k -> del_dec F P (bytes ++ rest) = Ok k) /\
  (forall k, user_dec F P bytes = Ok k -> user_dec F P (bytes ++ rest) = Ok k) /\
  (forall c, ct_dec F P bytes = Ok c -> ct_dec F P (bytes ++ rest) = Ok c).
Proof.
  repeat apply conj.
  - intros k E. apply (priv_ext F fine HF); [|exact E]. intros ->. discriminate E.
  - intros k E. apply (pub_ext F fine HF); [|exact E]. intros ->. discriminate E.
  - intros k Hne E. apply (del_ext F fine HF); assumption.
  - intros k E. apply (user_ext F fine HF). exact E.
  - intros c E. apply (ct_ext F fine HF); [|exact E]. intros ->. discriminate E.
Qed.

(** so concatenated encodings are split by their own lengths *)
Theorem C24_concatenation_splits P (k : master_private_key B) (pk : master_public_key B) b1 b2 : 64 <= usize_bits P ->
  (1 <= length (priv_t k))%nat -> N.of_nat (length (priv_t k)) <= 4294967294 ->
  (1 <= length (pub_t pk))%nat -> N.of_nat (length (pub_t pk)) <= 4294967294 -> fine (pub_y pk) ->
  priv_enc F k = Ok b1 -> pub_enc F pk = Ok b2 ->
  priv_dec F P (b1 ++ b2) = Ok k /\
  (let* r := slice_fromN (b1 ++ b2) (priv_len F k) in pub_dec F P r) = Ok pk.
Proof.
  intros HP H1 H2 H3 H4 H5 E1 E2.
  destruct (C16_private_key_roundtrip P k HP H1 H2) as (b & E & L & D). assert (b = b1) by congruence. subst b.
  destruct (C17_public_key_roundtrip P pk HP H3 H4 H5) as (b & E' & L' & D'). assert (b = b2) by congruence. subst b.
  split; [apply C24_trailing_bytes_ignored; exact D|].
  rewrite <- L, slice_after. exact D'.
Qed.

(** ** C25 *)
Theorem C25_private_key_injective (k1 k2 : master_private_key B) b :
  (1 <= length (priv_t k1))%nat -> N.of_nat (length (priv_t k1)) <= 4294967294 ->
  (1 <= length (priv_t k2))%nat -> N.of_nat (length (priv_t k2)) <= 4294967294 ->
  priv_enc F k1 = Ok b -> priv_enc F k2 = Ok b -> k1 = k2.
Proof.
  intros H1 H2 H3 H4 E1 E2.
  destruct (C16_private_key_roundtrip release64 k1 ltac:(simpl; lia) H1 H2) as (b1 & F1 & _ & D1).
  destruct (C16_private_key_roundtrip release64 k2 ltac:(simpl; lia) H3 H4) as (b2 & F2 & _ & D2). congruence.
Qed.

Theorem C25_public_key_injective (k1 k2 : master_public_key B) b :
  (1 <= length (pub_t k1))%nat -> N.of_nat (length (pub_t k1)) <= 4294967294 -> fine (pub_y k1) ->
  (1 <= length (pub_t k2))%nat -> N.of_nat (length (pub_t k2)) <= 4294967294 -> fine (pub_y k2) ->
  pub_enc F k1 = Ok b -> pub_enc F k2 = Ok b -> k1 = k2.
Proof.
  intros H1 H2 H3 H4 H5 H6 E1 E2.
  destruct (C17_public_key_roundtrip release64 k1 ltac:(simpl; lia) H1 H2 H3) as (b1 & F1 & _ & D1).
  destruct (C17_public_key_roundtrip release64 k2 ltac:(simpl; lia) H4 H5 H6) as (b2 & F2 & _ & D2). congruence.
Qed.

Theorem C25_delegation_key_injective (k1 k2 : delegation_key B) b :
  (1 <= length (inv_t k1))%nat -> N.of_nat (length (inv_t k1)) <= 4294967294 ->
  (1 <= length (inv_t k2))%nat -> N.of_nat (length (inv_t k2)) <= 4294967294 ->
  del_enc F k1 = Ok b -> del_enc F k2 = Ok b -> k1 = k2.
Proof.
  intros H1 H2 H3 H4 E1 E2.
  destruct (C17_delegation_key_roundtrip release64 k1 ltac:(simpl; lia) H1 H2) as (b1 & F1 & _ & D1).
  destruct (C17_delegation_key_roundtrip release64 k2 ltac:(simpl; lia) H3 H4) as (b2 & F2 & _ & D2). congruence.
Qed.

Theorem C25_user_key_injective P size (mdraw : nat -> bm_K B) mk f1 uk1 f2 uk2 b : 64 <= usize_bits P ->
  generate_master_key size mdraw = Ok mk -> obtained B P mk f1 uk1 -> obtained B P mk f2 uk2 ->
  (forall a, In a (leaves f1 ++ leaves f2) -> a < 4294967296) ->
  N.of_nat (length (leaves f1)) <= 134217728 -> N.of_nat (length (leaves f2)) <= 134217728 ->
  user_enc F P uk1 = Ok b -> user_enc F P uk2 = Ok b -> uk1 = uk2.
Proof.
  intros HP Hmk O1 O2 Hu L1 L2 E1 E2.
  destruct (C18_user_key_roundtrip P size mdraw mk f1 uk1 HP Hmk O1) as (b1 & F1 & _ & D1); [|exact L1|].
  { intros a Ha. apply Hu. apply in_or_app; auto. }
  destruct (C18_user_key_roundtrip P size mdraw mk f2 uk2 HP Hmk O2) as (b2 & F2 & _ & D2); [|exact L2|].
  { intros a Ha. apply Hu. apply in_or_app; auto. }
  congruence.
Qed.

Theorem C25_ciphertext_injective P msg1 gam1 pk1 s1 ct1 msg2 gam2 pk2 s2 (ct2 : ciphertext B) b : 64 <= usize_bits P ->
  encrypt P msg1 gam1 pk1 s1 = Ok ct1 -> encrypt P msg2 gam2 pk2 s2 = Ok ct2 ->
  gam1 <> [] -> gam2 <> [] -> N.of_nat (length gam1) <= 4294967294 -> N.of_nat (length gam2) <= 4294967294 ->
  (forall a, In a (gam1 ++ gam2) -> a < 4294967296) -> fine (e_prime ct1) -> fine (e_prime ct2) ->
  ct_enc F ct1 = Ok b -> ct_enc F ct2 = Ok b -> ct1 = ct2.
Proof.
  intros HP He1 He2 N1 N2 L1 L2 Hu G1 G2 E1 E2.
  destruct (C19_ciphertext_roundtrip P msg1 gam1 pk1 s1 ct1 HP He1 N1 L1) as (b1 & F1 & _ & D1); [|exact G1|].
  { intros a Ha. apply Hu. apply in_or_app; auto. }
  destruct (C19_ciphertext_roundtrip P msg2 gam2 pk2 s2 ct2 HP He2 N2 L2) as (b2 & F2 & _ & D2); [|exact G2|].
  { intros a Ha. apply Hu. apply in_or_app; auto. }
  congruence.
Qed.

(** ** C26 *)
Theorem C26_zero_count_rejected P {A} (c : codec A) k V bytes l : codec_ok c k V -> 64 <= usize_bits P -> k <= 288 ->
  blen bytes < 9223372036854775808 -> bytes <> [] -> from_be (firstn 4 bytes) = 0 ->
  (4 < k \/ overflow_checks P = true) -> vec_dec P c bytes <> Ok l.
Proof.
  intros C HP Hk Hf Hne H0 Hor E. pose proof (big P HP) as Hb. pose proof (ok_pos _ _ _ C) as Hk1.
  unfold vec_dec in E. destruct bytes as [|b0 bt]; [contradiction|]. remember (b0 :: bt) as bytes eqn:Eb. clear b0 bt Eb.
  destruct (blen bytes <=? 4); [discriminate|]. rewrite H0 in E. change (u32_MAX <=? 0) with false in E. cbn iota in E.
  apply bind_ok in E as (t0 & _ & E). apply bind_ok in E as (r0 & _ & E). rewrite (ok_len _ _ _ C) in E.
  set (M := usize_modulus P) in *.
  assert (W : forall z, (0 <= z mod Z.of_N M < Z.of_N M)%Z) by (intros z; apply Z.mod_pos_bound; lia).
  destruct (overflow_checks P) eqn:Ho.
  - unfold usize_sub, usize_wrap in E. rewrite Ho in E. discriminate E.
  - destruct Hor as [Hk4|]; [|discriminate].
    apply bind_ok in E as (n1 & Hn1 & E). apply bind_ok in E as (m & Hm & E). apply bind_ok in E as (lim & Hlim & E).
    assert (n1 = M - 1).
    { unfold usize_sub, usize_wrap in Hn1. rewrite Ho in Hn1. simpl in Hn1. fold M in Hn1.
      change (Z.opp 1) with (-1)%Z in Hn1. injection Hn1 as <-.
      replace (-1)%Z with (-1 + 0)%Z by lia. rewrite <- (Z_mod_plus_full (-1 + 0) 1 (Z.of_N M)).
      rewrite Z.mod_small by lia. lia. }
    subst n1.
    assert (m = M - k).
    { unfold usize_mul, usize_wrap in Hm. rewrite Ho in Hm. fold M in Hm.
      assert (Hz : (Z.of_N (M - 1) * Z.of_N k = (Z.of_N M - Z.of_N k) + (Z.of_N k - 1) * Z.of_N M)%Z) by (rewrite N2Z.inj_sub by lia; lia).
      destruct ((0 <=? Z.of_N (M - 1) * Z.of_N k)%Z && (Z.of_N (M - 1) * Z.of_N k <? Z.of_N M)%Z) eqn:Eq.
      - apply andb_prop in Eq as [_ Eq]. apply Z.ltb_lt in Eq. nia.
      - injection Hm as <-. rewrite Hz, Z_mod_plus_full, Z.mod_small by lia. lia. }
    subst m. rewrite usize_add_exact in Hlim by (fold M; lia). apply Ok_inj in Hlim. subst lim.
    destruct (N.leb_spec (blen bytes) (4 + (M - k))) as [_|Hx]; [discriminate|lia].
Qed.

(** four-byte elements without overflow checks: one element is returned *)
Theorem C26_zero_count_refuted P x rest : usize_bits P = 64 -> overflow_checks P = false -> x < 4294967296 ->
  vec_dec P u32_codec (be32 0 ++ be32 x ++ rest) = Ok [x].
Proof.
  intros HP Ho Hx. unfold vec_dec. change (be32 0) with [x00; x00; x00; x00]. cbn [app].
  set (bytes := x00 :: x00 :: x00 :: x00 :: be32 x ++ rest).
  assert (L : blen bytes = 8 + blen rest).
  { unfold bytes. change (x00 :: x00 :: x00 :: x00 :: be32 x ++ rest) with ((be32 0 ++ be32 x) ++ rest). rewrite blen_app. reflexivity. }
  destruct (N.leb_spec (blen bytes) 4) as [|_]; [lia|].
  change (from_be (firstn 4 bytes)) with 0. change (u32_MAX <=? 0) with false. cbn iota.
  rewrite slice_fromN_ok by (unfold blen in L; lia). cbn [bind].
  change (skipn (N.to_nat 4) bytes) with (be32 x ++ rest).
  rewrite (ok_rt _ _ _ u32_codec_ok x (be32 x) rest Hx eq_refl). cbn [bind].
  change (clen u32_codec x) with 4.
  assert (E1 : usize_sub P 0 1 = Ok 18446744073709551615).
  { unfold usize_sub, usize_wrap, usize_modulus. rewrite HP, Ho. reflexivity. }
  assert (E2 : usize_mul P 18446744073709551615 4 = Ok 18446744073709551612).
  { unfold usize_mul, usize_wrap, usize_modulus. rewrite HP, Ho. reflexivity. }
  assert (E3 : usize_add P 4 18446744073709551612 = Ok 0).
  { unfold usize_add, usize_wrap, usize_modulus. rewrite HP, Ho. reflexivity. }
  rewrite E1. cbn [bind]. rewrite E2. cbn [bind]. rewrite E3. cbn [bind].
  destruct (N.leb_spec (blen bytes) 0) as [|_]; [lia|].
  unfold reserve. rewrite N.mul_0_l. unfold usize_modulus. rewrite HP. reflexivity.
Qed.

(** ** C27 *)
(** reading hexadecimal digits, two by two *)
Definition digit_value (c : ascii) : option N :=
  let n := N_of_ascii c in
  if (48 <=? n) && (n <=? 57) then Some (n - 48)
  else if (97 <=? n) && (n <=? 102) then Some (n - 87)
  else None.
Fixpoint unhex (s : string) : option (list byte) :=
  match s with
  | String.EmptyString => Some []
  | String c1 (String c2 t) =>
      match digit_value c1, digit_value c2, unhex t with
      | Some h, Some l, Some b => Some (byte_of (16 * h + l) :: b)
      | _, _, _ => None
      end
  | _ => None
  end.

Lemma digit_value_digit n : n < 16 -> digit_value (hex_digit n) = Some n.
Proof.
  intros Hn. unfold digit_value, hex_digit. destruct (N.ltb_spec n 10).
  - rewrite N_ascii_embedding by lia.
    destruct (N.leb_spec 48 (48 + n)); [|lia]. destruct (N.leb_spec (48 + n) 57); [|lia]. cbn [andb]. f_equal. lia.
  - rewrite N_ascii_embedding by lia.
    destruct (N.leb_spec 48 (87 + n)); [|lia]. destruct (N.leb_spec (87 + n) 57); [lia|].
    destruct (N.leb_spec 97 (87 + n)); [|lia]. destruct (N.leb_spec (87 + n) 102); [|lia]. cbn [andb]. f_equal. lia.
Qed.

Lemma unhex_hex b : unhex (hex_encode b) = Some b.
Proof.
  induction b as [|x b IH]; [reflexivity|]. cbn [hex_encode unhex]. pose proof (byte_range x).
  rewrite !digit_value_digit by (try (apply N.div_lt_upper_bound; lia); apply N.mod_lt; lia). rewrite IH. do 2 f_equal.
  rewrite <- (N.div_mod (Byte.to_N x) 16) by lia. apply byte_of_to_N.
Qed.

Theorem C27_hex_display_lossless (o : outcome (list byte)) s b :
  o = Ok b -> display o = Ok s -> unhex s = Some b.
Proof. intros -> E. cbn [display] in E. apply Ok_inj in E. subst s. apply unhex_hex. Qed.

(** an encoding that fails is displayed as a message that no bytes are displayed as *)
Theorem C27_display_never_errors (o : outcome (list byte)) : no_panic o ->
  exists s, display o = Ok s /\ (is_err o -> s = "Invalid input"%string /\ unhex s = None).
Proof.
  intros Np. destruct o as [b|e|p].
  - exists (hex_encode b). split; [reflexivity|]. intros [e E]. discriminate.
  - exists "Invalid input"%string. split; [reflexivity|]. intros _. split; reflexivity.
  - destruct (Np p eq_refl).
Qed.

(** a key whose encoding panics is one that cannot be displayed either *)
Theorem C27_display_panics (o : outcome (list byte)) p : display o = Panic p <-> o = Panic p.
Proof. destruct o; cbn [display]; split; congruence. Qed.

Theorem C27_displayed_private_key P (k : master_private_key B) : 64 <= usize_bits P ->
  (1 <= length (priv_t k))%nat -> N.of_nat (length (priv_t k)) <= 4294967294 ->
  exists s b, display (priv_enc F k) = Ok s /\ unhex s = Some b /\ priv_dec F P b = Ok k.
Proof.
  intros HP H1 H2. destruct (C16_private_key_roundtrip P k HP H1 H2) as (b & E & _ & D).
  exists (hex_encode b), b. rewrite E. split; [reflexivity|]. split; [apply unhex_hex|exact D].
Qed.
Theorem C27_displayed_public_key P (k : master_public_key B) : 64 <= usize_bits P ->
  (1 <= length (pub_t k))%nat -> N.of_nat (length (pub_t k)) <= 4294967294 -> fine (pub_y k) ->
  exists s b, display (pub_enc F k) = Ok s /\ unhex s = Some b /\ pub_dec F P b = Ok k.
Proof.
  intros HP H1 H2 H3. destruct (C17_public_key_roundtrip P k HP H1 H2 H3) as (b & E & _ & D).
  exists (hex_encode b), b. rewrite E. split; [reflexivity|]. split; [apply unhex_hex|exact D].
Qed.
Theorem C27_displayed_delegation_key P (k : delegation_key B) : 64 <= usize_bits P ->
  (1 <= length (inv_t k))%nat -> N.of_nat (length (inv_t k)) <= 4294967294 ->
  exists s b, display (del_enc F k) = Ok s /\ unhex s = Some b /\ del_dec F P b = Ok k.
Proof.
  intros HP H1 H2. destruct (C17_delegation_key_roundtrip P k HP H1 H2) as (b & E & _ & D).
  exists (hex_encode b), b. rewrite E. split; [reflexivity|]. split; [apply unhex_hex|exact D].
Qed.
Theorem C27_displayed_user_key P size (mdraw : nat -> bm_K B) mk f uk : 64 <= usize_bits P ->
  generate_master_key size mdraw = Ok mk -> obtained B P mk f uk ->
  (forall a, In a (leaves f) -> a < 4294967296) -> N.of_nat (length (leaves f)) <= 134217728 ->
  exists s b, display (user_enc F P uk) = Ok s /\ unhex s = Some b /\ user_dec F P b = Ok uk.
Proof.
  intros HP H1 H2 H3 H4. destruct (C18_user_key_roundtrip P size mdraw mk f uk HP H1 H2 H3 H4) as (b & E & _ & D).
  exists (hex_encode b), b. rewrite E. split; [reflexivity|]. split; [apply unhex_hex|exact D].
Qed.
End Properties.

(** ** Examples *)
Example C16_example : length (bytes_of (priv_enc toy_forms ex_priv)) = 132%nat /\
  priv_dec toy_forms debug64 (bytes_of (priv_enc toy_forms ex_priv)) = Ok ex_priv.
Proof. split; [vm_compute; reflexivity|vmr (@Ok (master_private_key toy) ex_priv)]. Qed.

Example C17_example : length (bytes_of (pub_enc toy_forms ex_pub)) = 436%nat /\
  pub_dec toy_forms debug64 (bytes_of (pub_enc toy_forms ex_pub)) = Ok ex_pub /\
  del_dec toy_forms release64 (bytes_of (del_enc toy_forms ex_del)) = Ok ex_del.
Proof.
  split; [vm_compute; reflexivity|]. split; [vmr (@Ok (master_public_key toy) ex_pub)|vmr (@Ok (delegation_key toy) ex_del)].
Qed.

Example C18_example : length (bytes_of (user_enc toy_forms pf ex_uk)) = (4 + 4 * 96 + 8 + 4 * 3 * 32 + 4 * 4)%nat /\
  user_dec toy_forms pf (bytes_of (user_enc toy_forms pf ex_uk)) = Ok ex_uk /\
  obtained toy pf ex_mk ex_f ex_uk.
Proof.
  split; [vm_compute; reflexivity|]. split; [vmr (@Ok (decryption_key toy) ex_uk)|].
  apply (derived_obtained toy). exact ex_derived.
Qed.

Example C19_example :
  ct_dec toy_forms pf (bytes_of (ct_enc toy_forms (ex_ct [1; 4]))) = Ok (ex_ct [1; 4]).
Proof. vmr (@Ok (ciphertext toy) (ex_ct [1; 4])). Qed.

(** The ciphertext for no attribute encodes to 288 bytes. In this group the first
    bytes of the target element happen to be 4a 00 00 00, a large element count. *)
Example C20_example :
  encrypt pf ex_msg [] (pub_key ex_mk) ex_s = Ok (ex_ct []) /\
  length (bytes_of (ct_enc toy_forms (ex_ct []))) = 288%nat /\
  is_err (ct_dec toy_forms pf (bytes_of (ct_enc toy_forms (ex_ct [])))).
Proof.
  split; [vmr (@Ok (ciphertext toy) (ex_ct []))|]. split; [vm_compute; reflexivity|].
  exists (Deserialization "deserializing element failed. Data altered?").
  vmr (@Err (ciphertext toy) (Deserialization "deserializing element failed. Data altered?")).
Qed.

Example C21_example : length (bytes_of (ct_enc toy_forms (ex_ct [1; 4]))) = 400%nat /\ ciphertext_len 2 = 400%nat.
Proof. split; vm_compute; reflexivity. Qed.

(** a ciphertext announcing zero attributes *)
Example C22_example : ct_dec toy_forms debug64 (be32 0 ++ be32 7) = Panic ArithmeticOverflow /\
  is_err (ct_dec toy_forms release64 (be32 0 ++ be32 7)).
Proof.
  split; [vmr (@Panic (ciphertext toy) ArithmeticOverflow)|].
  exists (InvalidSize "Invalid Gt element"). vmr (@Err (ciphertext toy) (InvalidSize "Invalid Gt element")).
Qed.

(** two attributes and one group element: the generated key panics *)
Definition ex_uneven : list byte :=
  be32 2 ++ be32 1 ++ be32 4 ++ be32 1 ++ to_compressed (form101 48) (f101 5) ++ to_compressed (form101 288) (f101 5).
Definition ex_uneven_ct : ciphertext toy := run empty_ct (ct_dec toy_forms release64 ex_uneven).
Theorem C23_refuted : exists bytes ct,
  ct_dec toy_forms release64 bytes = Ok ct /\ derived toy pf ex_mk ex_f ex_uk /\ decrypt ct ex_uk = Panic IndexOutOfBounds.
Proof.
  exists ex_uneven, ex_uneven_ct. split; [vmr (@Ok (ciphertext toy) ex_uneven_ct)|]. split; [exact ex_derived|].
  vmr (@Panic (option (Gt toy)) IndexOutOfBounds).
Qed.
Example C23_example : no_panic (decrypt (ex_ct [1; 4]) ex_uk).
Proof.
  assert (Q : decrypt (ex_ct [1; 4]) ex_uk = Ok (Some ex_msg)) by vmr (@Ok (option (Gt toy)) (Some ex_msg)).
  rewrite Q. apply no_panic_ok.
Qed.

Example C24_example :
  ct_dec toy_forms pf (bytes_of (ct_enc toy_forms (ex_ct [1; 4])) ++ [x01; x02]) = Ok (ex_ct [1; 4]).
Proof. vmr (@Ok (ciphertext toy) (ex_ct [1; 4])). Qed.

(** changing the count of a one-attribute ciphertext from 1 to 0 is not noticed
    without overflow checks *)
Definition ex_altered : list byte := be32 0 ++ skipn 4 (bytes_of (ct_enc toy_forms (ex_ct [4]))).
Example C26_example : ct_dec toy_forms release64 ex_altered = Ok (ex_ct [4]) /\
  ct_dec toy_forms release64 (bytes_of (ct_enc toy_forms (ex_ct [4]))) = Ok (ex_ct [4]) /\
  ex_altered <> bytes_of (ct_enc toy_forms (ex_ct [4])).
Proof.
  split; [vmr (@Ok (ciphertext toy) (ex_ct [4]))|]. split; [vmr (@Ok (ciphertext toy) (ex_ct [4]))|].
  intros E. apply (f_equal (fun b => Byte.to_N (nth 3 b x00))) in E. vm_compute in E. discriminate.
Qed.

Example C27_example : hex_encode [x0a; xff; x30] = "0aff30"%string /\ unhex "0aff30" = Some [x0a; xff; x30] /\
  unhex "Invalid input" = None.
Proof. repeat split. Qed.

Print Assumptions C16_private_key_roundtrip.
Print Assumptions C17_public_key_roundtrip.
Print Assumptions C18_user_key_roundtrip.
Print Assumptions C19_ciphertext_roundtrip.
Print Assumptions C22_decoding_never_panics.
Print Assumptions C22_refuted.
Print Assumptions C23_decoded_key_never_panics.
Print Assumptions C23_refuted.
Print Assumptions C24_trailing_bytes_ignored.
Print Assumptions C25_user_key_injective.
Print Assumptions C26_zero_count_rejected.
Print Assumptions C26_zero_count_refuted.
Print Assumptions C27_displayed_user_key.
