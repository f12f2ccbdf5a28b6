(** Bytes of a key given in place of those of a key of another kind: C126. *)
From Coq Require Import String NArith ZArith Bool Arith Lia Strings.Byte List.
From Verif Require Import Prelude Field LinAlg Msp Spec MspProofs Bilinear Scheme SchemeSpec SchemeProofs SchemeTheorems
  Zp ExpModel PropertiesScheme Codec CodecProofs SchemeCodec SchemeCodecProofs PropertiesCodec
  Policy PolicySpec PolicyProofs Engine EngineSpec EngineProofs PropertiesEngine Hybrid HybridSpec PropertiesHybrid
  PropertiesFfi PropertiesVersions Python PropertiesPython PropertiesPyHostile Wasm Ffi.
Import ListNotations.
Local Open Scope N_scope.

(** ** Vectors whose count is not 0 *)
Section Counted.
Variable P : platform.
Hypothesis HP : 64 <= usize_bits P.
Context {A : Type} (c : codec A) (k : N) (V : A -> Prop) (C : codec_ok c k V).
Hypothesis Hk : k <= 288.
Hypothesis Hm : msize c <= 4096.

Lemma counted_np n rest : 1 <= n -> n < u32_MAX -> in_memory (be32 n ++ rest) -> no_panic (vec_dec P c (be32 n ++ rest)).
Proof using HP C Hk Hm.
  intros H1 Hn Hf. pose proof (in_memory_fits P HP _ Hf) as Hfit. pose proof (big P HP) as Hbig. pose proof (half P HP) as Hhalf.
  assert (En : from_be (firstn 4 (be32 n ++ rest)) = n).
  { rewrite firstn_app, be32_length, Nat.sub_diag, app_nil_r. rewrite firstn_all2 by (rewrite be32_length; lia). apply from_be_be32.
    unfold u32_MAX in Hn. unfold u32_modulus. lia. }
  unfold vec_dec. destruct (be32 n ++ rest) as [|b0 bt] eqn:Eb; [intros p Q; discriminate|]. rewrite <- Eb in *.
  remember (be32 n ++ rest) as bytes eqn:Q. clear Q Eb b0 bt rest.
  destruct (N.leb_spec (blen bytes) 4) as [|Hl]; [intros p Q; discriminate|].
  rewrite En. destruct (N.leb_spec u32_MAX n) as [|_]; [intros p Q; discriminate|].
  rewrite slice_fromN_ok by (unfold blen in Hl; lia). cbn [bind].
  apply no_panic_bind; [apply (ok_np _ _ _ C)|]. intros r0 Hr0. rewrite (ok_len _ _ _ C).
  unfold u32_MAX in Hn. assert (Hmul : (n - 1) * k <= 4294967295 * 288) by (apply N.mul_le_mono; lia).
  rewrite usize_sub_exact by lia. cbn [bind]. rewrite usize_mul_exact by lia. cbn [bind].
  rewrite usize_add_exact by lia. cbn [bind]. destruct (N.leb_spec (blen bytes) (4 + (n - 1) * k)) as [|Hlt]; [intros p Q; discriminate|].
  assert (R0 : reserve P (n * msize c) = Ok Datatypes.tt).
  { unfold reserve. destruct (N.ltb_spec (n * msize c) (usize_modulus P / 2)) as [|Hc]; [reflexivity|].
    assert (n * msize c <= 4294967295 * 4096) by (apply N.mul_le_mono; lia). lia. }
  rewrite R0. cbn [bind].
  pose proof (ok_dec_len _ _ _ _ _ C Hr0) as L0. unfold blen in L0. rewrite skipn_len in L0.
  assert (L1 : 4 + 1 * k <= blen bytes) by (revert L0 Hl; unfold blen; clear; intros L0 Hl; lia).
  destruct (vec_reader c k P bytes k Hfit) as [R|]; [|congruence].
  destruct (seq_read c k V C bytes 4 _ R (N.to_nat n - 1) 1 L1) as [I _].
  apply no_panic_bind; [exact I|]. intros; intros p Q; discriminate.
Qed.

(** A vector which is read has the announced length and its elements fit in the bytes. *)
Lemma counted_ok n rest l : 1 <= n -> n < u32_MAX -> in_memory (be32 n ++ rest) -> vec_dec P c (be32 n ++ rest) = Ok l ->
  N.of_nat (length l) = n /\ vec_len c l = 4 + n * k /\ 4 + n * k <= blen (be32 n ++ rest).
Proof using HP C Hk Hm.
  intros H1 Hn Hf E. pose proof (in_memory_fits P HP _ Hf) as Hfit.
  assert (En : from_be (firstn 4 (be32 n ++ rest)) = n).
  { rewrite firstn_app, be32_length, Nat.sub_diag, app_nil_r. rewrite firstn_all2 by (rewrite be32_length; lia). apply from_be_be32.
    unfold u32_MAX in Hn. unfold u32_modulus. lia. }
  destruct (vec_dec_inv c k V C P _ _ Hfit E) as [(Q & _)|(Hne & Hb & _ & [Hc|(Hc & _)] & _)].
  - apply (f_equal (@length byte)) in Q. rewrite app_length, be32_length in Q. discriminate.
  - rewrite En in Hc. split; [exact Hc|]. rewrite Hc in Hb. split; [|exact Hb].
    destruct l as [|x l]; [contradiction|]. unfold vec_len. rewrite (ok_len _ _ _ C), Hc. reflexivity.
  - rewrite En in Hc. lia.
Qed.

(** a vector too long for the bytes is refused *)
Lemma counted_short {D} n rest (g : list A -> outcome D) : 1 <= n -> n < u32_MAX -> in_memory (be32 n ++ rest) ->
  blen (be32 n ++ rest) < 4 + n * k -> is_err (let* l := vec_dec P c (be32 n ++ rest) in g l).
Proof using HP C Hk Hm.
  intros H1 Hn Hf Hs. pose proof (counted_np n rest H1 Hn Hf) as Np. destruct (vec_dec P c (be32 n ++ rest)) as [l|e|p] eqn:E.
  - destruct (counted_ok n rest l H1 Hn Hf E) as (_ & _ & L). lia.
  - exists e. reflexivity.
  - destruct (Np p eq_refl).
Qed.

(** a vector is refused if what follows it is *)
Lemma counted_end {D} n rest (g : list A -> list byte -> outcome D) : 1 <= n -> n < u32_MAX -> in_memory (be32 n ++ rest) ->
  (forall l r, blen r = blen (be32 n ++ rest) - (4 + n * k) -> is_err (g l r)) ->
  is_err (let* l := vec_dec P c (be32 n ++ rest) in let* r := slice_fromN (be32 n ++ rest) (vec_len c l) in g l r).
Proof using HP C Hk Hm.
  intros H1 Hn Hf Hg. pose proof (counted_np n rest H1 Hn Hf) as Np. destruct (vec_dec P c (be32 n ++ rest)) as [l|e|p] eqn:E.
  - destruct (counted_ok n rest l H1 Hn Hf E) as (_ & L & Lb). cbn [bind]. rewrite L. rewrite slice_fromN_ok by (unfold blen in Lb; lia).
    cbn [bind]. apply Hg. unfold blen. rewrite skipn_len. unfold blen in Lb. lia.
  - exists e. reflexivity.
  - destruct (Np p eq_refl).
Qed.
End Counted.

Section Kinds.
Variable B : BilinearMap.
Variable P : platform.
Hypothesis HP : 64 <= usize_bits P.
Variable F : byte_forms B.
Variable fine : Gt B -> Prop.
Hypothesis HF : forms_ok F fine.

Lemma priv_shape (k : master_private_key B) b : countable (priv_t k) -> priv_enc F k = Ok b ->
  exists rest, b = be32 (N.of_nat (length (priv_t k))) ++ rest /\ blen b = 4 + N.of_nat (length (priv_t k)) * 32 + 32.
Proof using HP HF.
  intros [Hne Hl] E. unfold priv_enc in E. apply bind_ok in E as (t & Et & E). cbn [scalar_codec fixed_codec enc bind] in E. apply Ok_inj in E. subst b.
  assert (Hu : N.of_nat (length (priv_t k)) < u32_modulus) by (unfold u32_MAX in Hl; unfold u32_modulus; lia).
  pose proof (vec_enc_len _ _ _ (scalar_ok F fine HF) _ _ Hu Et) as L.
  destruct (vec_enc_ok _ _ _ (scalar_ok F fine HF) (priv_t k) Hu) as (bs & _ & _ & _ & E2). rewrite Et in E2. apply Ok_inj in E2.
  destruct (priv_t k) as [|x l] eqn:Q; [contradiction|]. rewrite <- Q in *. exists (concat bs ++ to_compressed (scalar_form B F) (priv_y k)).
  split; [rewrite E2, app_assoc; reflexivity|]. rewrite blen_app, L, (scalar_blen F fine HF). rewrite Q at 1. unfold vec_len.
  rewrite (ok_len _ _ _ (scalar_ok F fine HF)). rewrite Q. reflexivity.
Qed.

Lemma del_shape (k : delegation_key B) b : countable (inv_t k) -> del_enc F k = Ok b ->
  exists rest, b = be32 (N.of_nat (length (inv_t k))) ++ rest /\ blen b = 4 + N.of_nat (length (inv_t k)) * 96.
Proof using HP HF.
  intros [Hne Hl] Et. unfold del_enc in Et.
  assert (Hu : N.of_nat (length (inv_t k)) < u32_modulus) by (unfold u32_MAX in Hl; unfold u32_modulus; lia).
  pose proof (vec_enc_len _ _ _ (g3_ok F fine HF) _ _ Hu Et) as L.
  destruct (vec_enc_ok _ _ _ (g3_ok F fine HF) (inv_t k) Hu) as (bs & _ & _ & _ & E2). rewrite Et in E2. apply Ok_inj in E2.
  destruct (inv_t k) as [|x l] eqn:Q; [contradiction|]. rewrite <- Q in *. exists (concat bs).
  split; [exact E2|]. rewrite L. rewrite Q at 1. unfold vec_len. rewrite (ok_len _ _ _ (g3_ok F fine HF)). rewrite Q. reflexivity.
Qed.

Lemma be32_cons n rest : exists x t, be32 n ++ rest = x :: t.
Proof. destruct (be32 n ++ rest) as [|x t] eqn:E; [|eauto]. apply (f_equal (@length byte)) in E. rewrite app_length, be32_length in E. discriminate. Qed.

(** A master private key is not taken for a key of another kind. *)
Theorem C126_private_key (k : master_private_key B) b :
  (1 <= length (priv_t k))%nat -> N.of_nat (length (priv_t k)) <= 4294967294 -> priv_enc F k = Ok b ->
  is_err (pub_dec F P b) /\ is_err (del_dec F P b) /\ is_err (user_dec F P b).
Proof using HP HF.
  intros H1 Hl E.
  assert (Hc : countable (priv_t k)) by (split; [destruct (priv_t k); [cbn in H1; lia|discriminate]|unfold u32_MAX; lia]).
  destruct (priv_shape k b Hc E) as (rest & Eb & L). set (n := N.of_nat (length (priv_t k))) in *.
  assert (Hn1 : 1 <= n) by (unfold n; lia). assert (Hn2 : n < u32_MAX) by (unfold u32_MAX; lia).
  assert (Hf : in_memory b) by (unfold in_memory; lia). rewrite Eb in *.
  pose proof (fo_g2_mem _ _ HF) as M2. pose proof (fo_g3_mem _ _ HF) as M3.
  split; [|split].
  - apply (counted_end P HP (g2_codec F) 48 _ (g2_ok F fine HF)) with (g := fun t r => let* y := dec (gt_codec F) r in Ok (mkPub t y)); try lia; try assumption.
    intros l r Lr. assert (Hr : blen r < 288) by lia.
    destruct (fixed_short 288 (gt_mem B F) "Invalid Gt element" "Error deserializing Gt" (gt_form B F) r Hr) as [e Ee].
    exists e. unfold gt_codec. rewrite Ee. reflexivity.
  - apply (counted_short P HP (g3_codec F) 96 _ (g3_ok F fine HF)); try lia; assumption.
  - unfold user_dec. destruct (be32_cons n rest) as (x & t & Q). rewrite Q. rewrite <- Q.
    apply (counted_short P HP (g3_codec F) 96 _ (g3_ok F fine HF)); try lia; assumption.
Qed.

(** A delegation key is not taken for a user key. *)
Theorem C126_delegation_key (k : delegation_key B) b :
  (1 <= length (inv_t k))%nat -> N.of_nat (length (inv_t k)) <= 4294967294 -> del_enc F k = Ok b ->
  is_err (user_dec F P b).
Proof using HP HF.
  intros H1 Hl E.
  assert (Hc : countable (inv_t k)) by (split; [destruct (inv_t k); [cbn in H1; lia|discriminate]|unfold u32_MAX; lia]).
  destruct (del_shape k b Hc E) as (rest & Eb & L). set (n := N.of_nat (length (inv_t k))) in *.
  assert (Hn1 : 1 <= n) by (unfold n; lia). assert (Hn2 : n < u32_MAX) by (unfold u32_MAX; lia).
  assert (Hf : in_memory b) by (unfold in_memory; lia). rewrite Eb in *.
  pose proof (fo_g3_mem _ _ HF) as M3.
  unfold user_dec. destruct (be32_cons n rest) as (x & t & Q). rewrite Q. rewrite <- Q.
  apply (counted_end P HP (g3_codec F) 96 _ (g3_ok F fine HF)) with
    (g := fun d r => let* m := msp_dec P (scalar_codec F) r in Ok (mkDec d (map (g3_to_g1 B) d) m)); try lia; try assumption.
  intros l r Lr. unfold msp_dec. destruct (N.ltb_spec (blen r) 8) as [_|H]; [eexists; reflexivity|lia].
Qed.

(** A user key is taken for a delegation key, always: the elements of the key come first,
    and what follows is not looked at. *)
Theorem C126_user_key b uk : user_dec F P b = Ok uk -> del_dec F P b = Ok (mkDel (raw_d uk)).
Proof.
  unfold user_dec, del_dec. destruct b as [|x t]; [discriminate|]. intros E. apply bind_ok in E as (d & Ed & E). apply bind_ok in E as (r & Er & E).
  apply bind_ok in E as (m & Em & E). apply Ok_inj in E. subst uk. rewrite Ed. reflexivity.
Qed.

(** a call of the C interface that succeeds *)
Lemma go_inv {A C} (m : ffi A) (g : A -> ffi C) outs r outs' : andthen m g outs = Go r outs' ->
  exists a o, m outs = Go a o /\ g a o = Go r outs'.
Proof. unfold andthen. destruct (m outs); try discriminate. eauto. Qed.
Lemma input_same b what outs b' outs' : input_bytes (Some b) what outs = Go b' outs' -> b' = b.
Proof. unfold input_bytes, not_null, andthen, ret, bail. destruct b; [discriminate|]. congruence. Qed.

Variable shake : list byte -> nat -> list byte.
Variable S : sym_scheme.
Variable policy_from : list byte -> outcome policy.
Variable attributes_from : list byte -> outcome (list attribute).
Variable attributes_parse : string -> outcome (list attribute).
Variable metadata_from : list byte -> outcome metadata.
Variable access_parse : string -> outcome access_policy.

(** Nothing is encrypted with a master private key in place of the public key, and nothing
    is decrypted with one in place of a user key, whatever the interface. *)
Theorem C126_interfaces (k : master_private_key B) b :
  (1 <= length (priv_t k))%nat -> N.of_nat (length (priv_t k)) <= 4294967294 -> priv_enc F k = Ok b ->
  (forall meta pol attrs random s nonce r,
     py_encrypt_hybrid_header P F shake S policy_from attributes_from metadata_from meta pol attrs b random s nonce <> Ok r) /\
  (forall header, is_err (py_decrypt_hybrid_header P F shake S b header)) /\
  (forall pol attrs u random s nonce r, w_encrypt_hybrid_header P F shake S policy_from attributes_parse pol b attrs u random s nonce <> Ok r) /\
  (forall pol r, w_encryption_cache P F policy_from pol b <> Ok r) /\
  (forall header r, w_decrypt_hybrid_header P F shake S b header <> Ok r) /\
  is_err (w_decryption_cache P F b) /\
  (forall pol attrs u ad random s nonce outs r outs',
     h_aes_encrypt_header P F shake S policy_from attributes_from pol (Some b) attrs u ad random s nonce outs <> Go r outs') /\
  (forall pol outs r outs', encryption_cache_of P F policy_from pol (Some b) outs <> Go r outs') /\
  (forall header outs r outs', h_aes_decrypt_header P F shake S header (Some b) outs <> Go r outs') /\
  (forall outs r outs', decryption_cache_of P F (Some b) outs <> Go r outs').
Proof using HP HF.
  intros H1 Hl E. destruct (C126_private_key k b H1 Hl E) as ((e1 & E1) & _ & (e3 & E3)).
  assert (Hb : exists x t, b = x :: t).
  { destruct b as [|x t]; [|eauto]. cbn in E3. unfold priv_enc in E. apply bind_ok in E as (t & _ & E). cbn [scalar_codec fixed_codec enc bind] in E.
    apply Ok_inj in E. apply (f_equal blen) in E. rewrite blen_app, (scalar_blen F fine HF) in E. unfold blen at 2 in E. cbn in E. lia. }
  split; [|split; [|split; [|split; [|split; [|split; [|split; [|split; [|split]]]]]]]].
  - intros meta pol attrs random s nonce r Q. unfold py_encrypt_hybrid_header in Q. rewrite E1 in Q. cbn [bind] in Q.
    apply bind_ok in Q as (x & _ & Q). apply bind_ok in Q as (y & _ & Q). apply bind_ok in Q as (z & _ & Q). discriminate.
  - intros header. exists e3. unfold py_decrypt_hybrid_header. rewrite E3. reflexivity.
  - intros pol attrs u random s nonce r Q. unfold w_encrypt_hybrid_header in Q. rewrite E1 in Q. cbn [bind] in Q.
    destruct (is_empty pol); [discriminate|]. destruct (is_empty b); [discriminate|]. destruct (is_empty u); [discriminate|].
    destruct (String.eqb attrs ""); [discriminate|]. apply bind_ok in Q as (z & _ & Q). discriminate.
  - intros pol r Q. unfold w_encryption_cache in Q. rewrite E1 in Q. cbn [bind] in Q.
    destruct (is_empty pol); [discriminate|]. destruct (is_empty b); [discriminate|]. apply bind_ok in Q as (z & _ & Q). discriminate.
  - intros header r Q. unfold w_decrypt_hybrid_header in Q. rewrite E3 in Q. cbn [bind] in Q.
    destruct (is_empty b); [discriminate|]. destruct (_ <? _); discriminate.
  - unfold w_decryption_cache. rewrite E3. destruct (is_empty b); eexists; reflexivity.
  - intros pol attrs u ad random s nonce outs r outs' Q. unfold h_aes_encrypt_header in Q.
    apply go_inv in Q as (x0 & o0 & _ & Q). apply go_inv in Q as (x1 & o1 & _ & Q). apply go_inv in Q as (x2 & o2 & _ & Q).
    apply go_inv in Q as (b' & o3 & Eb & Q). apply go_inv in Q as (x4 & o4 & _ & Q). apply go_inv in Q as (x5 & o5 & _ & Q).
    apply go_inv in Q as (x6 & o6 & Q & _). rewrite (input_same _ _ _ _ _ Eb) in Q. unfold unwrap in Q. rewrite E1 in Q. discriminate.
  - intros pol outs r outs' Q. unfold encryption_cache_of in Q.
    apply go_inv in Q as (x0 & o0 & _ & Q). apply go_inv in Q as (b' & o3 & Eb & Q). apply go_inv in Q as (x5 & o5 & _ & Q).
    apply go_inv in Q as (x6 & o6 & Q & _). rewrite (input_same _ _ _ _ _ Eb) in Q. unfold unwrap in Q. rewrite E1 in Q. discriminate.
  - intros header outs r outs' Q. unfold h_aes_decrypt_header in Q.
    apply go_inv in Q as (x0 & o0 & _ & Q). apply go_inv in Q as (x1 & o1 & _ & Q). apply go_inv in Q as (b' & o3 & Eb & Q).
    apply go_inv in Q as (x6 & o6 & Q & _). rewrite (input_same _ _ _ _ _ Eb) in Q. unfold unwrap in Q. rewrite E3 in Q. discriminate.
  - intros outs r outs' Q. unfold decryption_cache_of in Q. apply go_inv in Q as (b' & o3 & Eb & Q).
    rewrite (input_same _ _ _ _ _ Eb) in Q. unfold unwrap in Q. rewrite E3 in Q. discriminate.
Qed.

(** Exchanging the two keys given to generate_delegated_key is reported. *)
Theorem C126_exchanged it (d : delegation_key B) del uk access pol draw :
  (1 <= length (inv_t d))%nat -> N.of_nat (length (inv_t d)) <= 4294967294 -> del_enc F d = Ok del ->
  forall b, py_generate_delegated_key P F policy_from access_parse it uk del access pol draw <> Ok b.
Proof using HP HF.
  intros H1 Hl E b Q. destruct (C126_delegation_key d del H1 Hl E) as (e & Ee). unfold py_generate_delegated_key in Q.
  apply bind_ok in Q as (x & _ & Q). rewrite Ee in Q. discriminate.
Qed.
End Kinds.

(** ** Witness and example *)
Local Open Scope string_scope.
Local Ltac vmr x := vm_cast_no_check (eq_refl x).
(** a key for the first four values of the policy, delegated to an access policy it
    implies with the delegation key, and with itself in place of the delegation key *)
Definition kinds_access (x : string) : outcome access_policy :=
  if String.eqb x "Protected" then Ok (AAnd (AAttr (level "Protected")) (AAttr (dept "R&D")))
  else Ok (AAnd (AAttr (level "Top Secret")) (AOr (AAttr (dept "R&D")) (AOr (AAttr (dept "HR")) (AAttr (dept "MKG"))))).
Definition kinds_attrs (b : list byte) : outcome (list attribute) := Ok [dept "R&D"; level "Protected"].
Definition kinds_uk : list byte :=
  bytes_of (py_generate_user_private_key pf toy_forms py_policy kinds_access it_rev (fst (fst py_masters)) "Top Secret" [x01] ex_kdraw).
Definition kinds_delegated (del : list byte) : list byte :=
  bytes_of (py_generate_delegated_key pf toy_forms py_policy kinds_access it_rev del kinds_uk "Protected" [x01] ex_draw).
Definition kinds_message : list byte :=
  bytes_of (py_encrypt pf toy_forms toy_shake toy_sym py_policy kinds_attrs py_meta [x01] [x01] [] (snd (fst py_masters)) [x0c; x0d; x0e] ex_msg ex_s ex_nonce ex_nonce).

(** A user key in place of the delegation key is not reported: it gives a key that does
    not decrypt what it should, or a panic. *)
Theorem C126_refuted :
  py_generate_delegated_key pf toy_forms py_policy kinds_access it_rev kinds_uk kinds_uk "Protected" [x01] ex_draw = Ok (kinds_delegated kinds_uk) /\
  py_open kinds_uk kinds_message = Ok [x0c; x0d; x0e] /\
  py_open (kinds_delegated (snd py_masters)) kinds_message = Ok [x0c; x0d; x0e] /\
  py_open (kinds_delegated kinds_uk) kinds_message = Err CryptoError /\
  py_generate_delegated_key pf toy_forms py_policy py_access it_rev (py_user [x01]) (py_user [x01]) "b" [x01] ex_draw = Panic IndexOutOfBounds.
Proof.
  split; [vmr (py_generate_delegated_key pf toy_forms py_policy kinds_access it_rev kinds_uk kinds_uk "Protected" [x01] ex_draw)|].
  split; [vmr (@Ok (list byte) [x0c; x0d; x0e])|]. split; [vmr (@Ok (list byte) [x0c; x0d; x0e])|].
  split; [vmr (@Err (list byte) CryptoError)|]. vmr (@Panic (list byte) IndexOutOfBounds).
Qed.

(** The keys of the example meet the hypotheses of the theorems, and are read as what they are. *)
Example C126_example :
  forms_ok toy_forms (fun _ => True) /\ (64 <=? usize_bits pf)%N = true /\
  (exists k, priv_enc toy_forms k = Ok (fst (fst py_masters)) /\ length (priv_t k) = 10%nat) /\
  (exists d, del_enc toy_forms d = Ok (snd py_masters) /\ length (inv_t d) = 10%nat) /\
  gives (priv_dec toy_forms pf (fst (fst py_masters))) = true /\ gives (pub_dec toy_forms pf (snd (fst py_masters))) = true /\
  gives (del_dec toy_forms pf (snd py_masters)) = true /\ gives (user_dec toy_forms pf kinds_uk) = true /\
  gives (pub_dec toy_forms pf (fst (fst py_masters))) = false /\ gives (user_dec toy_forms pf (snd py_masters)) = false /\
  gives (del_dec toy_forms pf kinds_uk) = true.
Proof.
  split; [exact toy_forms_ok|]. split; [reflexivity|].
  split; [exists (priv_key ex_mk); split; [vmr (Ok (fst (fst py_masters)))|vmr 10%nat]|].
  split; [exists (del_key ex_mk); split; [vmr (Ok (snd py_masters))|vmr 10%nat]|].
  split; [vmr true|]. split; [vmr true|]. split; [vmr true|]. split; [vmr true|]. split; [vmr false|]. split; [vmr false|]. vmr true.
Qed.

Print Assumptions C126_private_key.
Print Assumptions C126_delegation_key.
Print Assumptions C126_user_key.
Print Assumptions C126_interfaces.
Print Assumptions C126_exchanged.
Print Assumptions C126_refuted.
