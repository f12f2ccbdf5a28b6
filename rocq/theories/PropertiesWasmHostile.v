(** Which inputs make the WebAssembly functions panic: C109. *)
From Coq Require Import String NArith ZArith Bool Lia Strings.Byte List.
From Verif Require Import Prelude Field LinAlg Msp Spec MspProofs Gauss GaussProofs MspTheorems Bilinear Scheme SchemeSpec SchemeProofs SchemeTheorems
  Zp ExpModel PropertiesScheme Codec CodecProofs SchemeCodec SchemeCodecProofs PropertiesCodec
  Policy PolicySpec PolicyProofs Engine EngineSpec EngineProofs PropertiesEngine CopiesSpec PropertiesCopies PropertiesHostileKeys
  Hybrid HybridSpec PropertiesHybrid Properties32 Python PropertiesPython Wasm PropertiesWasm Ffi FfiSpec PropertiesFfi PropertiesHostileDecrypt
  PropertiesFfiHostile PropertiesPyHostile.
Import ListNotations.
Local Open Scope N_scope.

(** The bytes announce, in their first four, more elements than memory can hold, although all of them seem to be
    there: the size that is computed, of elements of [k] bytes, wraps around. The first element is valid. *)
Definition oversized {A} (P : platform) (c : codec A) (k : N) (bytes : list byte) : Prop :=
  let n := from_be (firstn 4 bytes) in
  4 < blen bytes /\ n < 4294967295 /\ is_ok (dec c (skipn 4 bytes)) /\
  (4 + (n - 1) * k) mod usize_modulus P < blen bytes /\ usize_modulus P / 2 <= n * msize c.

Section WasmHostile.
Variable B : BilinearMap.
Hypothesis BL : BilinearLaws B.
Notation K := (bm_K B).
Variable P : platform.
Variable F : byte_forms B.
Variable fine : Gt B -> Prop.
Hypothesis HF : forms_ok F fine.
Variable shake : list byte -> nat -> list byte.
Variable S : sym_scheme.
Variable policy_from : list byte -> outcome policy.
Variable attributes_from : list byte -> outcome (list attribute).
Variable policy_text : policy -> outcome string.
Variable access_parse : string -> outcome access_policy.
Variable attributes_parse : string -> outcome (list attribute).
(** a release build for a machine with 32 bits or more *)
Hypothesis HP : 32 <= usize_bits P.
Hypothesis Ho : overflow_checks P = false.
(** the external functions return errors *)
Hypothesis T : sym_total S.
Hypothesis T1 : forall k m n a p, sym_encrypt S k m n a <> Panic p.
Hypothesis T2 : forall m p, meta_to_bytes S m <> Panic p.
Hypothesis T3 : forall k u i n m p, block_encrypt S k u i n m <> Panic p.
Hypothesis J1 : forall t p, policy_from t <> Panic p.
Hypothesis J2 : forall t p, attributes_from t <> Panic p.
Hypothesis J3 : forall t p, access_parse t <> Panic p.
Hypothesis J4 : forall t p, attributes_parse t <> Panic p.
Hypothesis J5 : forall t p, policy_text t <> Panic p.

Local Notation master_keys := (w_generate_master_keys F policy_from).
Local Notation user_private_key := (w_generate_user_private_key P F policy_from access_parse).
Local Notation rotate_attributes := (w_rotate_attributes policy_from attributes_from policy_text).
Local Notation encrypt_header := (w_encrypt_hybrid_header P F shake S policy_from attributes_parse).
Local Notation decrypt_header := (w_decrypt_hybrid_header P F shake S).
Local Notation encryption_cache := (w_encryption_cache P F policy_from).
Local Notation decryption_cache := (w_decryption_cache P F).

Ltac peel H x Hx := apply Prelude.bind_panic in H as [H|(x & Hx & H)].

(** ** Reading vectors *)
Lemma wrap_release r : usize_wrap P r = Ok (Z.to_N (r mod Z.of_N (usize_modulus P))).
Proof using Ho HP.
  unfold usize_wrap. rewrite Ho. destruct ((0 <=? r)%Z && (r <? Z.of_N (usize_modulus P))%Z) eqn:E; [|reflexivity].
  apply andb_true_iff in E as [E1 E2]. apply Z.leb_le in E1. apply Z.ltb_lt in E2. rewrite Z.mod_small by lia. reflexivity.
Qed.
Lemma release_add a b : usize_add P a b = Ok ((a + b) mod usize_modulus P).
Proof using Ho HP.
  unfold usize_add. rewrite wrap_release, <- N2Z.inj_add, <- N2Z.inj_mod, N2Z.id. reflexivity.
Qed.
Lemma release_mul a b : usize_mul P a b = Ok ((a * b) mod usize_modulus P).
Proof using Ho HP.
  unfold usize_mul. rewrite wrap_release, <- N2Z.inj_mul, <- N2Z.inj_mod, N2Z.id. reflexivity.
Qed.

Lemma vec_panics {A} (c : codec A) k V bytes q : codec_ok c k V -> blen bytes < usize_modulus P ->
  (vec_dec P c bytes = Panic q <-> q = CapacityOverflow /\ oversized P c k bytes).
Proof using HP Ho.
  intros C Hfit. pose proof (usize_big P HP) as Hbig. unfold u32_modulus in Hbig.
  assert (Hh : 0 < usize_modulus P / 2) by (apply N.div_str_pos; lia).
  unfold vec_dec, oversized. destruct bytes as [|b0 bt]; [split; [discriminate|intros (_ & L & _); cbn in L; lia]|].
  remember (b0 :: bt) as bytes eqn:Eb. clear b0 bt Eb.
  destruct (N.leb_spec (blen bytes) 4) as [L4|L4]; [split; [discriminate|intros (_ & L & _); lia]|].
  assert (Hn : from_be (firstn 4 bytes) < u32_modulus) by (apply from_be_range; rewrite firstn_length; unfold blen in L4; lia).
  set (n := from_be (firstn 4 bytes)) in *. unfold u32_MAX, u32_modulus in *. destruct (N.leb_spec 4294967295 n) as [Ln|Ln]; [split; [discriminate|intros (_ & _ & L & _); lia]|].
  rewrite slice_fromN_ok by (unfold blen in L4; lia). cbn [bind]. change (N.to_nat 4) with 4%nat.
  destruct (dec c (skipn 4 bytes)) as [r0|e|p] eqn:Er0; cbn [bind].
  2:{ split; [discriminate|intros (_ & _ & _ & (a & X) & _); discriminate]. }
  2:{ exfalso. exact (ok_np _ _ _ C _ _ Er0). }
  rewrite (ok_len _ _ _ C).
  destruct (N.eq_dec n 0) as [N0|N0].
  { split.
    - intros H. exfalso. unfold usize_sub in H. rewrite wrap_release in H. cbn [bind] in H. rewrite release_mul in H. cbn [bind] in H. rewrite release_add in H. cbn [bind] in H.
      destruct (_ <=? _); [discriminate|]. rewrite N0 in H. unfold reserve in H. destruct (N.ltb_spec (0 * msize c) (usize_modulus P / 2)) as [_|X]; [|lia]. cbn in H. discriminate.
    - intros (_ & _ & _ & _ & _ & X). rewrite N0 in X. lia. }
  rewrite usize_sub_exact by lia. cbn [bind]. rewrite release_mul. cbn [bind]. rewrite release_add. cbn [bind].
  rewrite N.add_mod_idemp_r by lia.
  destruct (N.leb_spec (blen bytes) ((4 + (n - 1) * k) mod usize_modulus P)) as [Hl|Hl].
  { split; [discriminate|intros (_ & _ & _ & _ & X & _); lia]. }
  unfold reserve. destruct (N.ltb_spec (n * msize c) (usize_modulus P / 2)) as [Hr|Hr]; cbn [bind].
  - split; [|intros (_ & _ & _ & _ & _ & X); lia]. intros H. exfalso.
    pose proof (ok_dec_len _ _ _ _ _ C Er0) as L0. unfold blen in L0. rewrite skipn_len in L0.
    assert (L1 : 4 + 1 * k <= blen bytes) by (revert L0 L4; unfold blen; clear; intros L0 Hl; lia).
    destruct (vec_reader c k P bytes k Hfit) as [R|]; [|congruence].
    destruct (seq_read c k V C bytes 4 _ R (N.to_nat n - 1) 1 L1) as [Hs _].
    peel H x Hx; [exact (Hs _ H)|discriminate H].
  - split; [|intros [-> _]; reflexivity]. intros H. split; [congruence|]. repeat split; try assumption. eexists; reflexivity.
Qed.

Lemma rest_fits {A} (c : codec A) k V bytes l : codec_ok c k V -> blen bytes < usize_modulus P -> vec_dec P c bytes = Ok l ->
  slice_fromN bytes (vec_len c l) = Ok (skipn (N.to_nat (vec_len c l)) bytes).
Proof using Type. intros C Hf E. apply slice_fromN_ok. exact (vec_dec_bound c k V C P bytes l Hf E). Qed.

(** Private and public master keys and ciphertexts that cannot be read: exactly those with an oversized vector. *)
Theorem C109_oversized bytes q : blen bytes < usize_modulus P ->
  (priv_dec F P bytes = Panic q <-> q = CapacityOverflow /\ oversized P (scalar_codec F) 32 bytes) /\
  (pub_dec F P bytes = Panic q <-> q = CapacityOverflow /\ oversized P (g2_codec F) 48 bytes) /\
  (ct_dec F P bytes = Panic q <-> q = CapacityOverflow /\ (oversized P u32_codec 4 bytes \/
     exists attrs, vec_dec P u32_codec bytes = Ok attrs /\ oversized P (g2_codec F) 48 (skipn (N.to_nat (vec_len u32_codec attrs)) bytes))).
Proof using HP Ho HF.
  intros Hf. split; [|split].
  - rewrite <- (vec_panics (scalar_codec F) 32 _ bytes q (scalar_ok F fine HF) Hf). unfold priv_dec. split; [|intros ->; reflexivity].
    intros H. peel H t Et; [exact H|]. exfalso. rewrite (rest_fits _ _ _ _ _ (scalar_ok F fine HF) Hf Et) in H. cbn [bind] in H.
    peel H y Ey; [exact (ok_np _ _ _ (scalar_ok F fine HF) _ _ H)|discriminate H].
  - rewrite <- (vec_panics (g2_codec F) 48 _ bytes q (g2_ok F fine HF) Hf). unfold pub_dec. split; [|intros ->; reflexivity].
    intros H. peel H t Et; [exact H|]. exfalso. rewrite (rest_fits _ _ _ _ _ (g2_ok F fine HF) Hf Et) in H. cbn [bind] in H.
    peel H y Ey; [revert H; apply fixed_np|discriminate H].
  - unfold ct_dec. split.
    + intros H. peel H g Eg.
      { apply (vec_panics u32_codec 4 _ bytes q u32_codec_ok Hf) in H as [-> H]. auto. }
      cbv zeta in H. rewrite (rest_fits _ _ _ _ _ u32_codec_ok Hf Eg) in H. cbn [bind] in H. set (r := skipn (N.to_nat (vec_len u32_codec g)) bytes) in *.
      assert (Hr : blen r < usize_modulus P) by (unfold r; unfold blen in *; rewrite skipn_len; lia).
      peel H ei Eei.
      { apply (vec_panics (g2_codec F) 48 _ r q (g2_ok F fine HF) Hr) in H as [-> H]. split; [reflexivity|]. right. exists g. auto. }
      exfalso. pose proof (vec_dec_bound _ _ _ u32_codec_ok P bytes g Hf Eg) as B1. pose proof (vec_dec_bound _ _ _ (g2_ok F fine HF) P r ei Hr Eei) as B2.
      rewrite slice_fromN_ok in H by (unfold r, blen in *; rewrite skipn_len in B2; lia). cbn [bind] in H.
      peel H y Ey; [revert H; apply fixed_np|discriminate H].
    + intros (-> & [H|(g & Eg & H)]).
      * rewrite (proj2 (vec_panics u32_codec 4 _ bytes _ u32_codec_ok Hf) (conj eq_refl H)). reflexivity.
      * rewrite Eg. cbn [bind]. cbv zeta. rewrite (rest_fits _ _ _ _ _ u32_codec_ok Hf Eg). cbn [bind].
        assert (Hr : blen (skipn (N.to_nat (vec_len u32_codec g)) bytes) < usize_modulus P) by (unfold blen in *; rewrite skipn_len; lia).
        rewrite (proj2 (vec_panics (g2_codec F) 48 _ _ _ (g2_ok F fine HF) Hr) (conj eq_refl H)). reflexivity.
Qed.

(** ** The functions *)
Lemma header_size_calm b q : w_get_encrypted_header_size b <> Panic q.
Proof using Type. unfold w_get_encrypted_header_size. destruct (_ <? _); discriminate. Qed.

(** Sizes, blocks and rotations never panic. *)
Theorem C109_never_panic q :
  (forall attrs pol, rotate_attributes attrs pol <> Panic q) /\
  (forall e, w_get_encrypted_header_size e <> Panic q) /\
  (forall key u number data nonce, w_encrypt_hybrid_block S key u number data nonce <> Panic q) /\
  (forall key u number data, w_decrypt_hybrid_block S key u number data <> Panic q).
Proof using T T3 J1 J2 J5.
  split; [|split; [|split]]; intros.
  - intros H. unfold w_rotate_attributes in H. peel H l El; [exact (J2 _ _ H)|]. peel H p Hp; [exact (J1 _ _ H)|]. peel H p' Hp'; [|exact (J5 _ _ H)].
    rewrite rotate_each_ops in H. exact (run_ops_no_panic _ _ _ H).
  - apply header_size_calm.
  - unfold w_encrypt_hybrid_block. destruct (negb _); [discriminate|]. destruct (is_empty data); [discriminate|]. intros H. peel H x Hx; [exact (array_calm _ _ _ H)|].
    revert H. unfold encrypt_hybrid_block. destruct data; [discriminate|]. destruct (_ <? _); [discriminate|apply T3].
  - unfold w_decrypt_hybrid_block. destruct (negb _); [discriminate|]. destruct (is_empty data); [discriminate|]. intros H. peel H x Hx; [exact (array_calm _ _ _ H)|].
    revert H. unfold decrypt_hybrid_block. destruct data; [discriminate|]. destruct (_ <? _); [discriminate|apply T].
Qed.

(** Master keys: only a secret that was drawn as zero. *)
Theorem C109_master_keys pol draw q : master_keys pol draw = Panic q <->
  q = DivisionByZero /\ exists p i, policy_from pol = Ok p /\ (i < N.to_nat (max_attribute_creations p))%nat /\ draw i = @f0 K.
Proof using P BL HF J1.
  rewrite <- (C108_master_keys B BL P F fine HF policy_from J1 pol draw q).
  unfold w_generate_master_keys, py_generate_master_keys. destruct (policy_from pol) as [p|e|p]; cbn [bind]; [|split; discriminate|split; congruence].
  destruct (eng_master_key p draw) as [mk|e|p']; cbn [bind]; [|split; discriminate|split; congruence].
  assert (N1 : no_panic (priv_enc F (priv_key mk))) by (unfold priv_enc; apply no_panic_bind; [apply (vec_enc_np _ _ _ _ (scalar_ok F fine HF))|]; intros; apply no_panic_ok).
  assert (N2 : no_panic (pub_enc F (pub_key mk))) by (unfold pub_enc; apply no_panic_bind; [apply (vec_enc_np _ _ _ _ (g2_ok F fine HF))|]; intros; apply no_panic_ok).
  assert (N3 : no_panic (del_enc F (del_key mk))) by (apply (vec_enc_np _ _ _ _ (g3_ok F fine HF))).
  destruct (priv_enc F (priv_key mk)) as [x|e|z]; cbn [bind]; [|split; discriminate|destruct (N1 z eq_refl)].
  destruct (pub_enc F (pub_key mk)) as [y|e|z]; cbn [bind]; [|split; discriminate|destruct (N2 z eq_refl)].
  destruct (del_enc F (del_key mk)) as [w|e|z]; cbn [bind]; [split; discriminate|split; discriminate|destruct (N3 z eq_refl)].
Qed.

(** User keys: a private key that cannot be read or has 8192 secrets or more, or a needed secret that is zero. *)
Theorem C109_user_key it n ops p priv access pol draw q :
  policy_from pol = Ok p -> run_ops ops (new_policy n) = Ok p -> proper_axes ops -> iteration_ok it -> blen priv < 4294967296 ->
  user_private_key it priv access pol draw = Panic q ->
  (q = CapacityOverflow /\ (oversized P (scalar_codec F) 32 priv \/ exists k, priv_dec F P priv = Ok k /\ 8192 <= N.of_nat (length (priv_t k)))) \/
  (q = DivisionByZero /\ exists k ap c i, priv_dec F P priv = Ok k /\ access_parse access = Ok ap /\
    needed ops ap c /\ nth_error (numbering ops) i = Some c /\ nth_error (priv_t k) (Datatypes.S i) = Some f0).
Proof using BL HF HP Ho J3.
  intros Ep Hp Hpr Hit Lp H. pose proof (usize_big P HP) as Hbig. unfold u32_modulus in Hbig. unfold w_generate_user_private_key in H. peel H k Ek.
  { apply (C109_oversized priv q) in H as [-> H]; [left; auto|lia]. }
  peel H p' Ep'; [congruence|]. assert (p' = p) by congruence. subst p'. peel H ap Ea; [destruct (J3 _ _ H)|].
  destruct k as [t y]. peel H uk Eu.
  - destruct (user_key_panics B BL P it n ops p t y ap draw q Hp Hpr Hit H) as (-> & c & i & Q1 & Q2 & Q3). right. split; [reflexivity|]. exists (mkPriv t y), ap, c, i. auto 8.
  - left. unfold eng_user_key in Eu. rewrite policy_to_msp_formula in Eu. apply bind_ok in Eu as (m & Em & Eu). apply bind_ok in Em as (f & Ef & Em).
    pose proof (to_msp_msp_of K (bl_field B BL) P f m Em) as M. destruct (key_generation_rep B BL f m t y draw uk M Eu) as (u & _ & R & _).
    assert (Hin : forall a, In a (leaves f) -> a < N.of_nat (length t)) by (intros a Ha; pose proof (kr_range _ _ _ _ _ _ R a Ha) as X; unfold in_range in X; lia).
    assert (Ht : N.of_nat (length t) <= 134217728).
    { unfold priv_dec in Ek. apply bind_ok in Ek as (t' & Et & E). apply bind_ok in E as (r & _ & E). apply bind_ok in E as (y' & _ & E). apply Ok_inj in E. injection E as -> _.
      destruct (vec_dec_inv (scalar_codec F) 32 _ (scalar_ok F fine HF) P priv t) as [[_ ->]|(_ & L & _)]; [|exact Et|cbn; lia|lia]. lia. }
    destruct (rep_key_ok t f m (share B m u) uk R) as (Hk & Hr & Hc); [apply Forall_forall; intros a Ha; specialize (Hin a Ha); unfold u32, u32_modulus; lia|].
    pose proof (few_numbers (leaves f) (length t) (mo_nodup K f m M) Hin) as Hl. pose proof (count_and_leaves f) as Hca.
    unfold user_enc in H. peel H d Ed; [destruct (vec_enc_np _ _ _ _ (g3_ok F fine HF) q H)|]. peel H x Ex; [|discriminate H].
    assert (G : program_ok (fun _ => True) (dk_msp uk)) by exact (proj1 Hk).
    split.
    + destruct (first_entry_ok _ _ G) as (e & Ee & _). unfold msp_enc in H. rewrite Ee in H. cbn [bind] in H.
      repeat (first [rewrite release_mul in H|rewrite release_add in H]; cbn [bind] in H).
      peel H z Ez; [unfold reserve in H; destruct (_ <? _); congruence|]. exfalso. unfold u32_bytes in H. 
      destruct (_ <? _) in H; [|discriminate]. cbn [bind] in H. destruct (_ <? _) in H; [|discriminate]. cbn [bind] in H. peel H es Ees; [|discriminate].
      revert H. apply mapM_no_panic. intros a _. destruct (ok_enc _ _ _ (scalar_ok F fine HF) a) as (b' & E' & _). rewrite E'. apply no_panic_ok.
    + right. exists (mkPriv t y). split; [exact Ek|]. cbn [priv_t]. destruct (N.le_gt_cases 8192 (N.of_nat (length t))) as [L|L]; [exact L|exfalso].
      destruct (msp_enc_ok (scalar_codec F) 32 _ (scalar_ok F fine HF) P (dk_msp uk) G) as (b & E); [unfold u32_modulus; lia|unfold u32_modulus; lia| |congruence].
      assert (A3 : N.of_nat (nb_row (dk_msp uk)) * N.of_nat (nb_col (dk_msp uk)) * 32 <= 8191 * 8191 * 32) by (apply N.mul_le_mono_r; apply N.mul_le_mono; lia).
      assert (2147483648 <= usize_modulus P / 2) by (apply N.div_le_lower_bound; lia). lia.
Qed.

(** and the division is made whenever the function gives a key for a private key of the same size. *)
Theorem C109_user_key_panics it n ops p priv priv' access pol draw k k' b :
  policy_from pol = Ok p -> run_ops ops (new_policy n) = Ok p -> proper_axes ops -> iteration_ok it ->
  priv_dec F P priv = Ok k -> priv_dec F P priv' = Ok k' ->
  length (priv_t k') = length (priv_t k) -> user_private_key it priv' access pol draw = Ok b ->
  (exists ap c i, access_parse access = Ok ap /\ needed ops ap c /\ nth_error (numbering ops) i = Some c /\ nth_error (priv_t k) (Datatypes.S i) = Some f0) ->
  user_private_key it priv access pol draw = Panic DivisionByZero.
Proof using BL.
  intros Ep Hp Hpr Hit Ek Ek' Hl Eb (ap & c & i & Ea & Hz). unfold w_generate_user_private_key in *. rewrite Ek' in Eb. rewrite Ek, Ep, Ea in *. cbn [bind] in *.
  apply bind_ok in Eb as (uk & Eu & _).
  rewrite (C102_zero_secret_refuted B BL P n ops p k k' it ap draw Hp Hpr Hit Hl (ex_intro _ uk Eu) (ex_intro _ c (ex_intro _ i Hz))). reflexivity.
Qed.

(** Header encryption: exactly the public keys that cannot be read or are too small for an attribute, but not for the list. *)
Lemma encoded_header p k attrs u random s nonce q :
  w_header P F shake S attributes_parse p k attrs u random s nonce = Panic q <->
  exists l, attributes_parse attrs = Ok l /\ encrypt_hybrid_header S F shake P p k l (Some (mkMeta u None)) random s nonce = Panic q.
Proof using J4.
  unfold w_header. split.
  - intros H. peel H l El; [destruct (J4 _ _ H)|]. exists l. split; [exact El|]. peel H h Eh; [exact H|discriminate H].
  - intros (l & -> & H). cbn [bind]. rewrite H. reflexivity.
Qed.

Theorem C109_encrypt_header n ops p pol pk attrs u random (s : K) nonce q :
  policy_from pol = Ok p -> run_ops ops (new_policy n) = Ok p -> proper_axes ops -> blen pk < usize_modulus P ->
  (encrypt_header pol pk attrs u random s nonce = Panic q <->
   pol <> [] /\ u <> [] /\ attrs <> ""%string /\
   ((q = CapacityOverflow /\ oversized P (g2_codec F) 48 pk) \/
    (q = IndexOutOfBounds /\ exists k l, pub_dec F P pk = Ok k /\ attributes_parse attrs = Ok l /\ too_small B ops k l))).
Proof using HF HP Ho T1 T2 J4.
  intros Ep Hp Hpr Lpk. unfold w_encrypt_hybrid_header.
  destruct pol as [|p0 pt] eqn:Epol; cbn [is_empty]; [split; [discriminate|intros (X & _); contradiction]|].
  destruct pk as [|k0 kt] eqn:Epk; cbn [is_empty].
  { split; [discriminate|]. intros (_ & _ & _ & [(_ & L & _)|(_ & k & l & Ek & _)]); [cbn in L; lia|discriminate Ek]. }
  destruct u as [|u0 ut] eqn:Eu; cbn [is_empty]; [split; [discriminate|intros (_ & X & _); contradiction]|].
  destruct (String.eqb_spec attrs "") as [->|Ha]; [split; [discriminate|intros (_ & _ & X & _); contradiction]|].
  rewrite <- Epol, <- Epk, <- Eu in *. rewrite Ep. cbn [bind]. split.
  - intros H. split; [congruence|]. split; [congruence|]. split; [exact Ha|]. peel H k Ek.
    + apply (C109_oversized pk q Lpk) in H as [-> H]. left. auto.
    + right. apply encoded_header in H as (l & El & H).
      apply (any_header_panics B P F fine HF shake S T1 T2 n ops p pk k l _ random s nonce q Hp Hpr Lpk Ek) in H as (-> & Q). split; [reflexivity|]. exists k, l. auto.
  - intros (_ & _ & _ & [(-> & H)|(-> & k & l & Ek & El & Q)]).
    + rewrite (proj2 (proj1 (proj2 (C109_oversized pk _ Lpk))) (conj eq_refl H)). reflexivity.
    + rewrite Ek. cbn [bind]. apply encoded_header. exists l. split; [exact El|].
      apply (any_header_panics B P F fine HF shake S T1 T2 n ops p pk k l _ random s nonce _ Hp Hpr Lpk Ek). split; [reflexivity|exact Q].
Qed.

(** ** Decryption *)
Lemma decoded_shape32 kbytes uk : blen kbytes < usize_modulus P -> user_dec F P kbytes = Ok uk -> decoded_shape (fun _ => True) (dk_msp uk).
Proof using HF HP.
  intros Hf Hk. unfold user_dec in Hk. destruct kbytes as [|b0 bt]; [discriminate|]. remember (b0 :: bt) as kb eqn:Eb.
  apply bind_ok in Hk as (d & Hd & Hk). apply bind_ok in Hk as (r & Hrr & Hk). apply bind_ok in Hk as (m & Hm & Hk).
  apply Ok_inj in Hk. subst uk. cbn [dk_msp]. apply slice_fromN_inv in Hrr as [Hle Hrr].
  assert (Lr : blen r < usize_modulus P) by (subst r; unfold blen in *; rewrite skipn_len; lia).
  exact (proj2 (msp_dec_tame (scalar_codec F) 32 _ (scalar_ok F fine HF) P True r HP Lr (or_introl I)) m Hm).
Qed.

(** what [stops] decryption, for the parts of a key and a ciphertext *)
Definition halts (k : decryption_key B) (ct : ciphertext B) : Prop :=
  stops (gamma ct) (length (e_i ct)) (row_to_attr (dk_msp k)) (length (raw_d k)) (nb_col (dk_msp k)).

Lemma opening uk k header q : blen uk < usize_modulus P -> blen header < usize_modulus P -> user_dec F P uk = Ok k ->
  let size := from_be (firstn 4 header) in
  let body := firstn (N.to_nat size) (skipn 4 header) in
  (w_open P F shake S k header = Panic q <->
   4 <= blen header /\ 4 + size <= blen header /\
   ((q = CapacityOverflow /\ ct_dec F P body = Panic CapacityOverflow) \/
    (q = IndexOutOfBounds /\ exists ct, ct_dec F P body = Ok ct /\ halts k ct))).
Proof using BL HF HP Ho T T2.
  intros Lk Lh Ek size body.
  assert (E : w_open P F shake S k header = Panic q <-> decrypt_hybrid_header S F shake P k header = Panic q).
  { unfold w_open. split; [|intros ->; reflexivity]. intros H. peel H c Ec; [exact H|]. exfalso. unfold ch_enc in H. peel H m Em; [exact (T2 _ _ H)|discriminate H]. }
  rewrite E. clear E.
  assert (Lb : blen body < usize_modulus P) by (unfold body, blen in *; rewrite firstn_length, skipn_len; lia).
  assert (X : forall ct, (halts k ct -> decrypt ct k = Panic IndexOutOfBounds) /\ (~ halts k ct -> no_panic (decrypt ct k))).
  { intros ct. exact (shape_decrypt B BL k (decoded_shape32 uk k Lk Ek) (decoded_parts B F P uk k Ek) ct). }
  split.
  - intros H. destruct (C64_framing_never_panics B F shake S P k header q T H) as [Hl D]. cbv zeta in *. fold size in Hl, D. fold body in D.
    split; [lia|]. split; [exact Hl|]. unfold decrypt_symmetric_key in D. peel D ct Ec.
    + left. destruct (C77_only_capacity_panics B F fine HF P body q HP Lb) as [->|[X' _]]; [tauto|auto|congruence].
    + right. peel D o Eo; [|destruct o; discriminate D]. unfold eng_decrypt in D. destruct (X ct) as [X1 X2].
      destruct (stops_dec (gamma ct) (length (e_i ct)) (row_to_attr (dk_msp k)) (length (raw_d k)) (nb_col (dk_msp k))) as [Hs|Hs]; fold (halts k ct) in Hs.
      * rewrite (X1 Hs) in D. split; [congruence|]. exists ct. auto.
      * exfalso. exact (X2 Hs q D).
  - intros (H4 & Hl & Q). unfold decrypt_hybrid_header. destruct (N.ltb_spec (blen header) 4) as [|_]; [lia|].
    unfold scan_u32, scan_next. destruct (N.ltb_spec (blen header) 4) as [|_]; [lia|]. cbn [bind]. change (N.to_nat 4) with 4%nat. fold size.
    destruct (N.ltb_spec (blen (skipn 4 header)) size) as [L|_]; [unfold blen in *; rewrite skipn_length in L; lia|]. cbn [bind]. fold body.
    unfold decrypt_symmetric_key, eng_decrypt. destruct Q as [(-> & Ec)|(-> & ct & Ec & Hs)]; rewrite Ec; cbn [bind]; [reflexivity|].
    rewrite (proj1 (X ct) Hs). reflexivity.
Qed.

(** Header decryption: exactly the keys and ciphertexts that cannot be read, and those on which decryption stops. *)
Theorem C109_decrypt_header uk header q : blen uk < usize_modulus P -> blen header < usize_modulus P ->
  let size := from_be (firstn 4 header) in
  let body := firstn (N.to_nat size) (skipn 4 header) in
  (decrypt_header uk header = Panic q <->
   4 <= blen header /\
   ((q = CapacityOverflow /\ user_dec F P uk = Panic CapacityOverflow) \/
    exists k, user_dec F P uk = Ok k /\ 4 + size <= blen header /\
      ((q = CapacityOverflow /\ ct_dec F P body = Panic CapacityOverflow) \/
       (q = IndexOutOfBounds /\ exists ct, ct_dec F P body = Ok ct /\ halts k ct)))).
Proof using BL HF HP Ho T T2.
  intros Lk Lh size body. unfold w_decrypt_hybrid_header.
  destruct uk as [|k0 kt] eqn:Euk; cbn [is_empty]. { split; [discriminate|]. intros (_ & [(_ & X)|(k & X & _)]); discriminate X. }
  rewrite <- Euk in *. destruct (N.ltb_spec (blen header) 4) as [L4|L4]; [split; [discriminate|intros (L & _); lia]|]. split.
  - intros H. split; [exact L4|]. peel H k Ek.
    + left. destruct (C77_only_capacity_panics B F fine HF P uk q HP Lk) as [->|[X _]]; [tauto|auto|congruence].
    + right. exists k. split; [exact Ek|]. apply (opening uk k header q Lk Lh Ek) in H as (_ & Hl & Q). auto.
  - intros (_ & [(-> & E)|(k & Ek & Hl & Q)]).
    + rewrite E. reflexivity.
    + rewrite Ek. cbn [bind]. apply (opening uk k header q Lk Lh Ek). auto.
Qed.

(** The caches are made exactly when the keys can be read; decrypting and encrypting with them panics as above. *)
Theorem C109_caches pol pk uk q : blen pk < usize_modulus P -> blen uk < usize_modulus P ->
  (encryption_cache pol pk = Panic q <-> pol <> [] /\ is_ok (policy_from pol) /\ q = CapacityOverflow /\ oversized P (g2_codec F) 48 pk) /\
  (decryption_cache uk = Panic q <-> q = CapacityOverflow /\ user_dec F P uk = Panic CapacityOverflow).
Proof using HF HP Ho J1.
  clear shake. intros Lpk Luk. split.
  - unfold w_encryption_cache. destruct pol as [|p0 pt] eqn:Epol; cbn [is_empty]; [split; [discriminate|intros (X & _); contradiction]|].
    destruct pk as [|k0 kt] eqn:Epk; cbn [is_empty]; [split; [discriminate|intros (_ & _ & _ & L & _); cbn in L; lia]|]. rewrite <- Epol, <- Epk in *. split.
    + intros H. split; [congruence|]. peel H p Ep; [destruct (J1 _ _ H)|]. split; [eexists; exact Ep|]. peel H k Ek; [|discriminate H]. apply (C109_oversized pk q Lpk) in H. exact H.
    + intros (_ & (p & Ep) & -> & H). rewrite Ep. cbn [bind]. rewrite (proj2 (proj1 (proj2 (C109_oversized pk _ Lpk))) (conj eq_refl H)). reflexivity.
  - unfold w_decryption_cache. destruct uk as [|k0 kt] eqn:Euk; cbn [is_empty]; [split; [discriminate|intros (_ & X); discriminate X]|]. rewrite <- Euk in *.
    split; [|intros [-> H]; exact H]. intros H. destruct (C77_only_capacity_panics B F fine HF P uk q HP Luk) as [->|[X _]]; [tauto|auto|congruence].
Qed.

(** On 32 bits such keys are short: a private key of 37 bytes, whatever its scalar, and a public key of 53 bytes,
    whatever its point, when points have at least 8 bytes in memory. *)
Theorem C109_short_keys : usize_bits P = 32 ->
  (forall (x : K) b, enc (scalar_codec F) x = Ok b ->
     blen (be32 134217729 ++ b ++ [x00]) = 37 /\ oversized P (scalar_codec F) 32 (be32 134217729 ++ b ++ [x00])) /\
  (forall (g : G2 B) b, 8 <= g2_mem B F -> enc (g2_codec F) g = Ok b ->
     blen (be32 268435457 ++ b ++ [x00]) = 53 /\ oversized P (g2_codec F) 48 (be32 268435457 ++ b ++ [x00])).
Proof using HF.
  clear HP. intros Hb. unfold oversized, usize_modulus. rewrite Hb. change (2 ^ 32) with 4294967296. change (4294967296 / 2) with 2147483648.
  split.
  - intros x b E. destruct (ok_enc _ _ _ (scalar_ok F fine HF) x) as (b' & E' & L). assert (b' = b) by congruence. subst b'.
    assert (Lw : blen (be32 134217729 ++ b ++ [x00]) = 37) by (rewrite !blen_app, L; reflexivity). rewrite Lw. split; [reflexivity|].
    change (firstn 4 (be32 134217729 ++ b ++ [x00])) with (be32 134217729). change (from_be (be32 134217729)) with 134217729. cbv zeta.
    change (skipn 4 (be32 134217729 ++ b ++ [x00])) with (b ++ [x00]). rewrite (ok_rt _ _ _ (scalar_ok F fine HF) x b [x00]) by (exact I || exact E).
    split; [reflexivity|]. split; [reflexivity|]. split; [eexists; reflexivity|]. split; [reflexivity|]. cbn [scalar_codec fixed_codec msize]. lia.
  - intros g b Hm E. destruct (ok_enc _ _ _ (g2_ok F fine HF) g) as (b' & E' & L). assert (b' = b) by congruence. subst b'.
    assert (Lw : blen (be32 268435457 ++ b ++ [x00]) = 53) by (rewrite !blen_app, L; reflexivity). rewrite Lw. split; [reflexivity|].
    change (firstn 4 (be32 268435457 ++ b ++ [x00])) with (be32 268435457). change (from_be (be32 268435457)) with 268435457. cbv zeta.
    change (skipn 4 (be32 268435457 ++ b ++ [x00])) with (b ++ [x00]). rewrite (ok_rt _ _ _ (g2_ok F fine HF) g b [x00]) by (exact I || exact E).
    split; [reflexivity|]. split; [reflexivity|]. split; [eexists; reflexivity|]. split; [reflexivity|]. cbn [g2_codec fixed_codec msize]. lia.
Qed.
End WasmHostile.

(** ** Examples: panics in a program that uses the WebAssembly interface with hostile bytes *)
Local Ltac vmr x := vm_cast_no_check (eq_refl x).
Definition wh_priv : list byte := be32 134217729 ++ bytes_of (enc (scalar_codec toy_forms) ex_s) ++ [x00].
Definition wh_pub : list byte := be32 268435457 ++ bytes_of (enc (g2_codec toy_forms) (nth 0 (pub_t (pub_key ex_mk)) (g2_gen_exp toy ex_s))) ++ [x00].
Definition wh_user (priv : list byte) (a : string) := w_generate_user_private_key (B := toy) release32 toy_forms py_policy ph_access it_rev priv a [x01] ex_kdraw.
Definition wh_header (pk : list byte) (a : string) :=
  w_encrypt_hybrid_header release32 toy_forms toy_shake toy_sym py_policy w_attrs [x02] pk a [x07] ex_msg ex_s ex_nonce.
Definition wh_open (key header : list byte) := w_decrypt_hybrid_header release32 toy_forms toy_shake toy_sym key header.
Definition wh_bad_key : list byte := bad_key toy toy_forms (g3_gen_exp toy ex_s).

Theorem C109_refuted :
  w_generate_master_keys (B := toy) toy_forms py_policy [x01] (fun i => f101 (3 - Z.of_nat i)) = Panic DivisionByZero /\
  wh_user zero_bytes "HR" = Panic DivisionByZero /\
  wh_user wh_priv "HR" = Panic CapacityOverflow /\
  wh_header short_bytes "hr" = Panic IndexOutOfBounds /\
  wh_header wh_pub "hr" = Panic CapacityOverflow /\
  wh_open cut_bytes hostile_header = Panic IndexOutOfBounds /\
  wh_open (w_user [x01]) bad_header = Panic CapacityOverflow /\
  wh_open wh_bad_key bad_header = Panic CapacityOverflow.
Proof.
  split; [vmr (@Panic (list byte) DivisionByZero)|]. split; [vmr (@Panic (list byte) DivisionByZero)|]. split; [vmr (@Panic (list byte) CapacityOverflow)|].
  split; [vmr (@Panic (list byte) IndexOutOfBounds)|]. split; [vmr (@Panic (list byte) CapacityOverflow)|]. split; [vmr (@Panic (list byte) IndexOutOfBounds)|].
  split; vmr (@Panic (list byte) CapacityOverflow).
Qed.

(** The same calls with other bytes, or for other attributes, do not panic. *)
Example C109_example :
  sym_total toy_sym /\ iteration_ok it_rev /\ (8 <=? g2_mem toy toy_forms) = true /\ length wh_priv = 37%nat /\ length wh_pub = 53%nat /\ length bad_header = 12%nat /\
  gives (wh_user zero_bytes "FIN") = true /\
  gives (wh_header (snd (cut w_masters)) "hr") = true /\
  wh_open (w_user [x01]) hostile_header = Err InvalidEncryptedData /\
  gives (wh_open (w_user [x01]) (snd (cut (w_sealed [x01] "hr")))) = true.
Proof.
  split; [exact toy_sym_total|]. split; [exact it_rev_ok|]. split; [vmr true|]. split; [vmr 37%nat|]. split; [vmr 53%nat|]. split; [vmr 12%nat|].
  split; [vmr true|]. split; [vmr true|]. split; [vmr (@Err (list byte) InvalidEncryptedData)|]. vmr true.
Qed.

Print Assumptions C109_oversized.
Print Assumptions C109_never_panic.
Print Assumptions C109_master_keys.
Print Assumptions C109_user_key.
Print Assumptions C109_user_key_panics.
Print Assumptions C109_encrypt_header.
Print Assumptions C109_decrypt_header.
Print Assumptions C109_caches.
Print Assumptions C109_short_keys.
Print Assumptions C109_refuted.
