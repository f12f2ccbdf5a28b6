(** Which inputs make the Python functions panic: C108. *)
From Coq Require Import String NArith ZArith Bool Lia Strings.Byte Permutation List.
From Verif Require Import Prelude Field LinAlg Msp Spec MspProofs Gauss GaussProofs MspTheorems Bilinear Scheme SchemeSpec SchemeProofs SchemeTheorems
  Zp ExpModel PropertiesScheme Codec CodecProofs SchemeCodec SchemeCodecProofs PropertiesCodec
  Policy PolicySpec PolicyProofs Engine EngineSpec EngineProofs PropertiesEngine CopiesSpec PropertiesCopies PropertiesHostileKeys
  Hybrid HybridSpec PropertiesHybrid Python PropertiesPython PropertiesHostileDecrypt PropertiesFfiHostile.
Import ListNotations.
Local Open Scope N_scope.

Section PyHostile.
Variable B : BilinearMap.
Hypothesis BL : BilinearLaws B.
Notation K := (bm_K B).
Variable P : platform.
Variable F : byte_forms B.
Variable fine : Gt B -> Prop.
Hypothesis HF : forms_ok F fine.
Variable shake : list byte -> nat -> list byte.
Variable S : sym_scheme.
Variable policy_from : list byte -> outcome policy.
Variable attributes_from : list byte -> outcome (list attribute).
Variable axes_from : list byte -> outcome (list policy_axis).
Variable metadata_from : list byte -> outcome metadata.
Variable policy_json : policy -> outcome (list byte).
Variable access_parse : string -> outcome access_policy.
(** a release build for a machine with 64 bits *)
Hypothesis HP : 64 <= usize_bits P.
Hypothesis Ho : overflow_checks P = false.
(** the external functions return errors *)
Hypothesis T : sym_total S.
Hypothesis T1 : forall k m n a p, sym_encrypt S k m n a <> Panic p.
Hypothesis T2 : forall m p, meta_to_bytes S m <> Panic p.
Hypothesis T3 : forall k u i n m p, block_encrypt S k u i n m <> Panic p.
Hypothesis J1 : forall t p, policy_from t <> Panic p.
Hypothesis J2 : forall t p, attributes_from t <> Panic p.
Hypothesis J3 : forall t p, access_parse t <> Panic p.
Hypothesis J4 : forall t p, axes_from t <> Panic p.
Hypothesis J5 : forall t p, metadata_from t <> Panic p.
Hypothesis J6 : forall t p, policy_json t <> Panic p.

Local Notation master_keys := (py_generate_master_keys F policy_from).
Local Notation user_private_key := (py_generate_user_private_key P F policy_from access_parse).
Local Notation delegated_key := (py_generate_delegated_key P F policy_from access_parse).
Local Notation generate_policy := (py_generate_policy axes_from policy_json).
Local Notation rotate_attributes := (py_rotate_attributes policy_from attributes_from policy_json).
Local Notation encrypt_header := (py_encrypt_hybrid_header P F shake S policy_from attributes_from metadata_from).
Local Notation decrypt_header := (py_decrypt_hybrid_header P F shake S).
Local Notation py_enc := (py_encrypt P F shake S policy_from attributes_from metadata_from).
Local Notation py_dec := (py_decrypt P F shake S).

Ltac peel H x Hx := apply bind_panic in H as [H|(x & Hx & H)].

(** Policies, sizes and blocks never panic. *)
Lemma array_calm n k q : array_from n k <> Panic q.
Proof using Type. unfold array_from. destruct (Nat.eqb _ _); discriminate. Qed.
Lemma encrypt_block_calm key u number data nonce q : py_encrypt_hybrid_block S key u number data nonce <> Panic q.
Proof using T3.
  intros H. unfold py_encrypt_hybrid_block in H. peel H x Hx; [exact (array_calm _ _ _ H)|]. revert H. unfold encrypt_hybrid_block.
  destruct data; [discriminate|]. destruct (_ <? _); [discriminate|apply T3].
Qed.
Lemma decrypt_block_calm key u number data q : py_decrypt_hybrid_block S key u number data <> Panic q.
Proof using T.
  intros H. unfold py_decrypt_hybrid_block in H. peel H x Hx; [exact (array_calm _ _ _ H)|]. revert H. unfold decrypt_hybrid_block.
  destruct data; [discriminate|]. destruct (_ <? _); [discriminate|apply T].
Qed.

Theorem C108_never_panic q :
  (forall axes max, generate_policy axes max <> Panic q) /\
  (forall attrs pol, rotate_attributes attrs pol <> Panic q) /\
  (forall e, py_get_encrypted_header_size e <> Panic q) /\
  (forall key u number data nonce, py_encrypt_hybrid_block S key u number data nonce <> Panic q) /\
  (forall key u number data, py_decrypt_hybrid_block S key u number data <> Panic q).
Proof using T T3 J1 J2 J4 J6.
  split; [|split; [|split; [|split]]]; intros.
  - intros H. unfold py_generate_policy in H. peel H l El; [exact (J4 _ _ H)|]. peel H p Hp; [|exact (J6 _ _ H)]. rewrite add_axes_ops in H. exact (run_ops_no_panic _ _ _ H).
  - intros H. unfold py_rotate_attributes in H. peel H l El; [exact (J2 _ _ H)|]. peel H p Hp; [exact (J1 _ _ H)|]. peel H p' Hp'; [|exact (J6 _ _ H)].
    rewrite rotate_each_ops in H. exact (run_ops_no_panic _ _ _ H).
  - unfold py_get_encrypted_header_size. destruct (_ <? _); discriminate.
  - apply encrypt_block_calm.
  - apply decrypt_block_calm.
Qed.

(** Master keys: only a secret that was drawn as zero. *)
Theorem C108_master_keys pol draw q : master_keys pol draw = Panic q <->
  q = DivisionByZero /\ exists p i, policy_from pol = Ok p /\ (i < N.to_nat (max_attribute_creations p))%nat /\ draw i = @f0 K.
Proof using P BL HF J1.
  split.
  - intros H. unfold py_generate_master_keys in H. peel H p Ep; [destruct (J1 _ _ H)|]. peel H mk Emk.
    + unfold eng_master_key in H. destruct (C43_master_key_generation B BL P (N.to_nat (max_attribute_creations p)) draw) as [X Y].
      assert (Z : (exists i, (i < N.to_nat (max_attribute_creations p))%nat /\ draw i = f0) \/ forall i, (i < N.to_nat (max_attribute_creations p))%nat -> draw i <> f0).
      { clear - BL. induction (N.to_nat (max_attribute_creations p)) as [|n IH]; [right; lia|]. destruct IH as [(i & L & E)|IH]; [left; exists i; split; [lia|exact E]|].
        destruct (K_eq_dec K (bl_field B BL) (draw n) f0) as [E|E]; [left; exists n; split; [lia|exact E]|right]. intros i L. destruct (Nat.eq_dec i n) as [->|]; [exact E|apply IH; lia]. }
      destruct Z as [(i & L & E)|Z]; [|destruct (X Z) as (mk & E & _); congruence]. specialize (Y (ex_intro _ i (conj L E))).
      split; [congruence|]. exists p, i. auto.
    + exfalso. peel H x Hx.
      { revert H. unfold priv_enc. apply no_panic_bind; [apply (vec_enc_np _ _ _ _ (scalar_ok F fine HF))|]. intros. apply no_panic_ok. }
      peel H y Hy.
      { revert H. unfold pub_enc. apply no_panic_bind; [apply (vec_enc_np _ _ _ _ (g2_ok F fine HF))|]. intros. apply no_panic_ok. }
      peel H z Hz; [|discriminate H]. revert H. unfold del_enc. apply (vec_enc_np _ _ _ _ (g3_ok F fine HF)).
  - intros (-> & p & i & Ep & L & E). unfold py_generate_master_keys. rewrite Ep. cbn [bind]. unfold eng_master_key.
    rewrite (proj2 (C43_master_key_generation B BL P (N.to_nat (max_attribute_creations p)) draw) (ex_intro _ i (conj L E))). reflexivity.
Qed.

(** User keys: only private keys with a needed secret that is zero, *)
Theorem C108_user_key it n ops p priv access pol draw q :
  policy_from pol = Ok p -> run_ops ops (new_policy n) = Ok p -> proper_axes ops -> iteration_ok it -> blen priv < 4294967296 ->
  user_private_key it priv access pol draw = Panic q ->
  q = DivisionByZero /\ exists k ap c i, priv_dec F P priv = Ok k /\ access_parse access = Ok ap /\
    needed ops ap c /\ nth_error (numbering ops) i = Some c /\ nth_error (priv_t k) (Datatypes.S i) = Some f0.
Proof using BL HF HP Ho J3.
  intros Ep Hp Hpr Hit Lp H. unfold py_generate_user_private_key in H. peel H k Ek.
  { destruct (C22_decoding_never_panics B F fine HF P priv HP Ho ltac:(lia)) as (N & _). destruct (N q H). }
  peel H p' Ep'; [congruence|]. assert (p' = p) by congruence. subst p'. peel H ap Ea; [destruct (J3 _ _ H)|].
  pose proof (priv_slots B P F fine HF HP priv k Lp Ek) as Ls. destruct k as [t y]. cbn [priv_t] in Ls. peel H uk Eu.
  - destruct (user_key_panics B BL P it n ops p t y ap draw q Hp Hpr Hit H) as (-> & c & i & Q1 & Q2 & Q3). split; [reflexivity|]. exists (mkPriv t y), ap, c, i. auto 8.
  - exfalso. exact (user_key_encoded B BL P F fine HF HP it p t y ap draw uk q Ls Eu H).
Qed.

(** and the function panics on these whenever it gives a key for a private key of the same size. *)
Theorem C108_user_key_panics it n ops p priv priv' access pol draw k k' b :
  policy_from pol = Ok p -> run_ops ops (new_policy n) = Ok p -> proper_axes ops -> iteration_ok it ->
  priv_dec F P priv = Ok k -> priv_dec F P priv' = Ok k' ->
  length (priv_t k') = length (priv_t k) -> user_private_key it priv' access pol draw = Ok b ->
  (exists ap c i, access_parse access = Ok ap /\ needed ops ap c /\ nth_error (numbering ops) i = Some c /\ nth_error (priv_t k) (Datatypes.S i) = Some f0) ->
  user_private_key it priv access pol draw = Panic DivisionByZero.
Proof using BL.
  intros Ep Hp Hpr Hit Ek Ek' Hl Eb (ap & c & i & Ea & Hz). unfold py_generate_user_private_key in *. rewrite Ek' in Eb. rewrite Ek, Ep, Ea in *. cbn [bind] in *.
  apply bind_ok in Eb as (uk & Eu & _).
  rewrite (C102_zero_secret_refuted B BL P n ops p k k' it ap draw Hp Hpr Hit Hl (ex_intro _ uk Eu) (ex_intro _ c (ex_intro _ i Hz))). reflexivity.
Qed.

(** Header encryption: exactly the public keys that are too small for an attribute, but not for the list. *)
Definition too_small (ops : list op) (k : master_public_key B) (l : list attribute) : Prop :=
  (length l < length (pub_t k))%nat /\ (forall b, In b l -> declared ops b) /\
  exists b i, In b l /\ last_place (numbering ops) b i /\ (length (pub_t k) <= Datatypes.S i)%nat.

Theorem C108_encrypt_header n ops p meta pol attrs pk random (s : K) nonce q :
  policy_from pol = Ok p -> run_ops ops (new_policy n) = Ok p -> proper_axes ops -> blen pk < 9223372036854775808 ->
  (encrypt_header meta pol attrs pk random s nonce = Panic q <->
   q = IndexOutOfBounds /\ is_ok (metadata_from meta) /\ exists k l, pub_dec F P pk = Ok k /\ attributes_from attrs = Ok l /\ too_small ops k l).
Proof using HF HP Ho T1 T2 J2 J5.
  intros Ep Hp Hpr Lpk. unfold py_encrypt_hybrid_header. split.
  - intros H. peel H m Em; [destruct (J5 _ _ H)|]. peel H p' Ep'; [congruence|]. assert (p' = p) by congruence. subst p'. peel H l El; [destruct (J2 _ _ H)|].
    peel H k Ek. { destruct (C22_decoding_never_panics B F fine HF P pk HP Ho Lpk) as (_ & N & _). destruct (N q H). }
    peel H h Eh; [|discriminate H]. apply (header_panics B P F fine HF shake S HP T1 T2 n ops p pk k l (Some m) random s nonce q Hp Hpr Lpk Ek) in H as (-> & Q).
    split; [reflexivity|]. split; [eexists; exact Em|]. exists k, l. auto.
  - intros (-> & (m & Em) & k & l & Ek & El & Q). rewrite Em, Ep, El, Ek. cbn [bind].
    rewrite (proj2 (header_panics B P F fine HF shake S HP T1 T2 n ops p pk k l (Some m) random s nonce IndexOutOfBounds Hp Hpr Lpk Ek) (conj eq_refl Q)). reflexivity.
Qed.

Theorem C108_encrypt n ops p meta pol attrs pk plaintext random (s : K) nonce nonce' q :
  policy_from pol = Ok p -> run_ops ops (new_policy n) = Ok p -> proper_axes ops -> blen pk < 9223372036854775808 ->
  (py_enc meta pol attrs pk plaintext random s nonce nonce' = Panic q <->
   q = IndexOutOfBounds /\ is_ok (metadata_from meta) /\ exists k l, pub_dec F P pk = Ok k /\ attributes_from attrs = Ok l /\ too_small ops k l).
Proof using HF HP Ho T1 T2 T3 J2 J5.
  intros Ep Hp Hpr Lpk. rewrite <- (C108_encrypt_header n ops p meta pol attrs pk random s nonce q Ep Hp Hpr Lpk). unfold py_encrypt. split.
  - intros H. peel H m Em; [destruct (J5 _ _ H)|]. peel H kh Ekh; [exact H|]. destruct kh as [key header]. exfalso.
    peel H c Ec; [exact (encrypt_block_calm _ _ _ _ _ _ H)|discriminate H].
  - intros H. assert (X : is_ok (metadata_from meta)).
    { apply (C108_encrypt_header n ops p meta pol attrs pk random s nonce q Ep Hp Hpr Lpk) in H as (_ & X & _). exact X. }
    destruct X as (m & Em). rewrite Em. cbn [bind]. rewrite H. reflexivity.
Qed.

(** Header decryption: exactly the ciphertexts on which decryption stops. *)
Definition stopping (uk header : list byte) : Prop := exists k ct, user_dec F P uk = Ok k /\
  4 <= blen header /\ 4 + from_be (firstn 4 header) <= blen header /\
  ct_dec F P (firstn (N.to_nat (from_be (firstn 4 header))) (skipn 4 header)) = Ok ct /\
  stops (gamma ct) (length (e_i ct)) (row_to_attr (dk_msp k)) (length (raw_d k)) (nb_col (dk_msp k)).

Theorem C108_decrypt_header uk header q : blen uk < 9223372036854775808 -> blen header < 9223372036854775808 ->
  (decrypt_header uk header = Panic q <-> q = IndexOutOfBounds /\ stopping uk header).
Proof using BL HF HP Ho T T2.
  intros Lk Lh. unfold py_decrypt_hybrid_header. split.
  - intros H. peel H k Ek. { destruct (C22_decoding_never_panics B F fine HF P uk HP Ho Lk) as (_ & _ & _ & N & _). destruct (N q H). }
    peel H c Ec. 2: { exfalso. peel H m Em; [exact (T2 _ _ H)|discriminate H]. }
    apply (C105_headers B BL F fine HF shake S P uk k header q T HP Ho Lk Lh Ek) in H as (-> & L4 & Ls & ct & Ect & Hs). split; [reflexivity|]. exists k, ct. auto 8.
  - intros (-> & k & ct & Ek & L4 & Ls & Ect & Hs). rewrite Ek. cbn [bind].
    assert (E : decrypt_hybrid_header S F shake P k header = Panic IndexOutOfBounds).
    { apply (C105_headers B BL F fine HF shake S P uk k header _ T HP Ho Lk Lh Ek). split; [reflexivity|]. split; [exact L4|]. split; [exact Ls|]. exists ct. auto. }
    rewrite E. reflexivity.
Qed.

(** Decryption: also the messages shorter than they announce. *)
Theorem C108_decrypt uk e q : blen uk < 9223372036854775808 -> blen e < 9223372036854775808 ->
  let size := from_be (firstn 4 e) in
  (py_dec uk e = Panic q <->
   (q = SliceOutOfRange /\ 4 <= blen e < 4 + size) \/
   (q = IndexOutOfBounds /\ 4 <= blen e /\ 4 + size <= blen e /\ stopping uk (firstn (N.to_nat size) (skipn 4 e)))).
Proof using BL HF HP Ho T T2.
  intros Lk Le size. unfold py_decrypt, py_get_encrypted_header_size. destruct (N.ltb_spec (blen e) 4) as [L4|L4].
  { cbn [bind]. split; [discriminate|]. intros [(_ & L & _)|(_ & L & _)]; lia. }
  cbn [bind]. fold size.
  assert (Hs : size < 4294967296).
  { unfold size. change 4294967296 with u32_modulus. apply from_be_range. rewrite firstn_length. unfold blen in L4. lia. }
  rewrite (add64 P HP) by lia. cbn [bind]. destruct (N.leb_spec 4 (4 + size)) as [_|]; [|lia]. destruct (N.leb_spec (4 + size) (blen e)) as [Ll|Ll]; cbn [andb bind].
  2: { split; [intros H; left; split; [congruence|lia]|]. intros [(-> & _)|(_ & _ & L & _)]; [reflexivity|lia]. }
  rewrite slice_fromN_ok by (unfold blen in Ll; exact Ll). cbn [bind]. replace (4 + size - 4) with size by lia.
  set (header := firstn (N.to_nat size) (skipn 4 e)).
  assert (Lh : blen header < 9223372036854775808) by (unfold blen in *; unfold header; rewrite firstn_length, skipn_len; lia).
  split.
  - intros H. right. peel H km Ekm.
    + apply (C108_decrypt_header uk header q Lk Lh) in H as [-> Q]. auto.
    + exfalso. destruct km as [key meta]. peel H m Em; [|exact (decrypt_block_calm _ _ _ _ _ H)]. destruct T as (_ & X & _). exact (X _ _ H).
  - intros [(_ & L)|(-> & _ & _ & Q)]; [lia|].
    rewrite (proj2 (C108_decrypt_header uk header IndexOutOfBounds Lk Lh) (conj eq_refl Q)). reflexivity.
Qed.

(** ** Delegation *)
Lemma small_encoded (uk : decryption_key B) q : program_ok (fun _ => True) (dk_msp uk) ->
  N.of_nat (nb_row (dk_msp uk)) <= 134217728 -> N.of_nat (nb_col (dk_msp uk)) <= 134217728 -> user_enc F P uk <> Panic q.
Proof using HF HP.
  intros G Hr Hc H. unfold user_enc in H. peel H d Ed; [exact (vec_enc_np _ _ _ _ (g3_ok F fine HF) q H)|]. peel H m Em; [|discriminate H].
  destruct (msp_enc_ok (scalar_codec F) 32 _ (scalar_ok F fine HF) P (dk_msp uk) G) as (b & E); [unfold u32_modulus; lia|unfold u32_modulus; lia| |congruence].
  assert (A3 : N.of_nat (nb_row (dk_msp uk)) * N.of_nat (nb_col (dk_msp uk)) * 32 <= 134217728 * 134217728 * 32) by (apply N.mul_le_mono_r; apply N.mul_le_mono; assumption).
  pose proof (half P HP). lia.
Qed.

(** The sizes of a user key that was read from fewer than 2^32 bytes. *)
Lemma user_sizes kbytes uk : blen kbytes < 4294967296 -> user_dec F P kbytes = Ok uk ->
  N.of_nat (length (raw_d uk)) <= 134217728 /\
  ((1 <= nb_row (dk_msp uk))%nat -> N.of_nat (nb_row (dk_msp uk)) <= 134217728 -> N.of_nat (nb_col (dk_msp uk)) <= 134217728).
Proof using HF HP.
  intros Hf Hk. unfold user_dec in Hk. destruct kbytes as [|b0 bt]; [discriminate|]. remember (b0 :: bt) as kb eqn:Eb.
  apply bind_ok in Hk as (d & Hd & Hk). apply bind_ok in Hk as (r & Hrr & Hk). apply bind_ok in Hk as (m & Hm & Hk). apply Ok_inj in Hk. subst uk. cbn [dk_msp raw_d].
  assert (Hin : blen kb < usize_modulus P) by (apply (in_memory_fits P HP); unfold in_memory; lia). split.
  - destruct (vec_dec_inv (g3_codec F) 96 _ (g3_ok F fine HF) P kb d Hin Hd) as [[-> _]|(_ & L & _)]; [discriminate|lia].
  - intros H1 H2. apply slice_fromN_inv in Hrr as [_ Hrr].
    assert (Lr : blen r < 4294967296) by (subst r; unfold blen in *; rewrite skipn_len; lia).
    pose proof (big64 P HP) as Hbig. unfold msp_dec in Hm. destruct (N.ltb_spec (blen r) 8) as [|H8]; [discriminate|].
    destruct (head_range r H8) as [Hnr Hnc]. set (nr := from_be (firstn 4 r)) in *. set (nc := from_be (firstn 4 (skipn 4 r))) in *. unfold u32_modulus in Hnr, Hnc.
    rewrite usize_mul_exact in Hm by lia. cbn [bind] in Hm. rewrite usize_add_exact in Hm by lia. cbn [bind] in Hm. destruct (N.ltb_spec (blen r) (8 + 4 * nr)) as [|Hb]; [discriminate|].
    apply bind_ok in Hm as (? & _ & Hm). apply bind_ok in Hm as (? & _ & Hm). apply bind_ok in Hm as ([a2r r2a] & _ & Hm). apply bind_ok in Hm as (? & _ & Hm).
    apply bind_ok in Hm as (? & _ & Hm). apply bind_ok in Hm as (t & _ & Hm). apply bind_ok in Hm as (xe & _ & Hm). rewrite (ok_len _ _ _ (scalar_ok F fine HF)) in Hm.
    assert (W : nr <= 134217728 -> usize_mul P nr nc = Ok (nr * nc) /\ usize_mul P (nr * nc) 32 = Ok (nr * nc * 32) /\ usize_add P (8 + 4 * nr) (nr * nc * 32) = Ok (8 + 4 * nr + nr * nc * 32)).
    { intros L. assert (nr * nc <= 134217728 * 4294967295) by (apply N.mul_le_mono; lia). split; [apply usize_mul_exact; lia|]. split; [apply usize_mul_exact; lia|apply usize_add_exact; lia]. }
    apply bind_ok in Hm as (n1 & En1 & Hm). apply bind_ok in Hm as (n2 & En2 & Hm). apply bind_ok in Hm as (lim & El & Hm).
    destruct (N.ltb_spec (blen r) lim) as [|Hlim]; [discriminate|]. apply bind_ok in Hm as (row0 & _ & Hm). apply bind_ok in Hm as (rows & _ & Hm). apply Ok_inj in Hm. subst m.
    cbn [nb_row nb_col] in *. rewrite N2Nat.id in *. destruct (W H2) as (W1 & W2 & W3). rewrite W1 in En1. apply Ok_inj in En1. subst n1. rewrite W2 in En2. apply Ok_inj in En2. subst n2.
    rewrite W3 in El. apply Ok_inj in El. subst lim. assert (1 * nc <= nr * nc) by (apply N.mul_le_mono_r; lia). lia.
Qed.

(** Refreshing: exactly the user keys with a column but without attributes, or with an attribute that
    the delegation key or the parts of the key do not cover. *)
Definition uncovered (del : delegation_key B) (uk : decryption_key B) (a : N) : Prop :=
  N.of_nat (length (inv_t del)) <= a \/ exists r, nth_error (row_to_attr (dk_msp uk)) r = Some a /\ (length (raw_d uk) <= r)%nat.

Lemma nth_search {A} (Q : nat -> A -> Prop) (l : list A) : (forall i a, Q i a \/ ~ Q i a) ->
  (exists i a, nth_error l i = Some a /\ Q i a) \/ forall i a, nth_error l i = Some a -> ~ Q i a.
Proof using Type.
  clear. intros D. revert Q D. induction l as [|x l IH]; intros Q D; [right; intros [|i] a H; discriminate|].
  destruct (D O x) as [H|H]; [left; exists O, x; auto|]. destruct (IH (fun i => Q (Datatypes.S i))) as [(i & a & E & H')|H']; [intros; apply D|left; exists (Datatypes.S i), a; auto|].
  right. intros [|i] a E; [injection E as <-; exact H|exact (H' i a E)].
Qed.

Theorem C108_refreshed_key it del uk access pol draw q d k p : blen del < 9223372036854775808 -> blen uk < 4294967296 ->
  del_dec F P del = Ok d -> user_dec F P uk = Ok k -> policy_from pol = Ok p -> access_parse access = Ok AAll ->
  (delegated_key it del uk access pol draw = Panic q <->
   q = IndexOutOfBounds /\ (1 <= nb_col (dk_msp k))%nat /\
   (row_to_attr (dk_msp k) = [] \/ exists a, In a (row_to_attr (dk_msp k)) /\ uncovered d k a)).
Proof using HF HP.
  intros Ld Lu Ed Ek Ep Ea. unfold py_generate_delegated_key. rewrite Ed, Ek, Ea, Ep. cbn [bind].
  destruct (C103_refresh B F fine HF P it p uk k d draw HP ltac:(lia) Ek) as [X0 X1]. cbv zeta in X1.
  pose proof (decoded_user_shape B F fine HF P uk k HP ltac:(lia) Ek) as D. set (m := dk_msp k) in *.
  assert (Same : (exists i a, nth_error (row_to_attr m) i = Some a /\ (N.of_nat (length (inv_t d)) <= a \/ (length (raw_d k) <= i)%nat)) <->
                 exists a, In a (row_to_attr m) /\ uncovered d k a).
  { split.
    - intros (i & a & Hi & [H|H]); exists a; (split; [eapply nth_error_In; exact Hi|]); [left; exact H|right; exists i; auto].
    - intros (a & Ha & [H|(r & Hr & H)]); [apply In_nth_error in Ha as (i & Hi); exists i, a; auto|exists r, a; auto]. }
  split.
  - intros H. destruct (Nat.eq_dec (nb_col m) 0) as [E0|E0]; [destruct (X0 E0) as (e & E); rewrite E in H; discriminate H|].
    destruct (X1 ltac:(lia)) as [Y1 Y2].
    destruct (list_eq_dec N.eq_dec (row_to_attr m) []) as [En|En].
    { rewrite (Y1 (or_introl En)) in H. cbn [bind] in H. split; [congruence|]. split; [lia|auto]. }
    destruct (nth_search (fun i a => N.of_nat (length (inv_t d)) <= a \/ (length (raw_d k) <= i)%nat) (row_to_attr m)) as [Hbad|Hok].
    { intros i a. destruct (N.le_gt_cases (N.of_nat (length (inv_t d))) a); [auto|]. destruct (Nat.le_gt_cases (length (raw_d k)) i); [auto|]. right. lia. }
    + rewrite (Y1 (or_intror Hbad)) in H. cbn [bind] in H. split; [congruence|]. split; [lia|]. right. apply Same. exact Hbad.
    + exfalso. destruct (Y2 En) as (uk' & E); [intros i a Hi; specialize (Hok i a Hi); lia|]. rewrite E in H. cbn [bind] in H.
      assert (Em : dk_msp uk' = m).
      { unfold eng_delegate in E. cbn [bind] in E. unfold abe_key_delegation, key_randomization in E. apply bind_ok in E as (u & _ & E). apply bind_ok in E as (big & _ & E). apply Ok_inj in E. subst uk'. reflexivity. }
      assert (Hr : (1 <= nb_row m)%nat) by (rewrite <- (ds_labels _ _ D); destruct (row_to_attr m); [contradiction|cbn; lia]).
      destruct (user_sizes uk k Lu Ek) as [S1 S2]. fold m in S2.
      assert (Hrow : N.of_nat (nb_row m) <= 134217728).
      { destruct (nth_error (row_to_attr m) (nb_row m - 1)) as [a|] eqn:Ha; [|apply nth_error_None in Ha; rewrite (ds_labels _ _ D) in Ha; lia].
        specialize (Hok _ _ Ha). lia. }
      revert H. apply small_encoded; rewrite Em; [apply decoded_shape_ok; [exact D|exact Hr|lia]|exact Hrow|apply S2; [exact Hr|exact Hrow]].
  - intros (-> & Hc & Hbad). destruct (X1 Hc) as [Y1 _]. rewrite Y1; [reflexivity|]. destruct Hbad as [E|Hb]; [left; exact E|right; apply Same; exact Hb].
Qed.

(** Delegation for an access policy: only if a needed attribute is not covered, *)
Lemma delegate_eq it p (d : delegation_key B) (k : decryption_key B) ap (draw : nat -> K) : ap <> AAll -> eng_delegate P it p d k ap draw = (let* m := policy_to_msp it P p ap in key_delegation m k d draw).
Proof using Type. intros H. unfold eng_delegate. destruct ap; try contradiction; destruct (policy_to_msp it P p _); reflexivity. Qed.

Lemma deleg_one_cases (d : delegation_key B) (k : decryption_key B) (u : list K) a row : decoded_shape (fun _ => True) (dk_msp k) ->
  (uncovered d k a /\ deleg_one B k d of_i32 u a row = Panic IndexOutOfBounds) \/
  (~ uncovered d k a /\ In a (row_to_attr (dk_msp k)) /\ is_ok (deleg_one B k d of_i32 u a row)) \/
  (~ uncovered d k a /\ ~ In a (row_to_attr (dk_msp k)) /\ is_err (deleg_one B k d of_i32 u a row)).
Proof using HP.
  intros D. unfold deleg_one. destruct (indexN_cases (inv_t d) a) as [[L [g E]]|[L E]]; rewrite E; cbn [bind].
  2: { left. split; [left; lia|reflexivity]. }
  unfold get_row_from_attr. rewrite (ds_index _ _ D), <- (ds_labels _ _ D).
  destruct (assoc_get (combine (row_to_attr (dk_msp k)) (seq 0 (length (row_to_attr (dk_msp k))))) a) as [r|] eqn:Er.
  - pose proof Er as Er'. apply assoc_get_combine_some in Er as [_ Er]. rewrite Nat.sub_0_r in Er. unfold index. destruct (nth_error (raw_d k) r) as [x|] eqn:Ex.
    + right. left. split; [|split; [eapply nth_error_In; exact Er|eexists; reflexivity]]. intros [H|(r' & Hr' & H)]; [lia|].
      rewrite (assoc_get_combine_nodup _ 0 r' a (ds_distinct _ _ D) Hr') in Er'. injection Er' as <-. assert (r' < length (raw_d k))%nat by (apply nth_error_Some; cbn in Ex; rewrite Ex; discriminate). lia.
    + left. split; [|reflexivity]. right. exists r. split; [exact Er|apply nth_error_None; exact Ex].
  - apply assoc_get_combine_none in Er. right. right. split; [|split; [exact Er|eexists; reflexivity]]. intros [H|(r & Hr & _)]; [lia|]. apply Er. eapply nth_error_In. exact Hr.
Qed.

Lemma delegated_encoded it p (d : delegation_key B) (k : decryption_key B) kbytes ap draw uk q : ap <> AAll -> blen kbytes < 4294967296 -> user_dec F P kbytes = Ok k ->
  eng_delegate P it p d k ap draw = Ok uk -> user_enc F P uk <> Panic q.
Proof using BL HF HP.
  intros Hap Lu Ek E. rewrite delegate_eq in E by exact Hap. rewrite policy_to_msp_formula in E. apply bind_ok in E as (m & Em & E). apply bind_ok in Em as (f & _ & Em).
  pose proof (to_msp_msp_of K (bl_field B BL) P f m Em) as M. pose proof (decoded_user_shape B F fine HF P kbytes k HP ltac:(lia) Ek) as D.
  unfold key_delegation in E. apply bind_ok in E as (u & _ & E). rewrite (rerandomised_eq B) in E by (symmetry; apply (mo_mat K f m M)).
  apply bind_ok in E as (big & Eb & E). apply Ok_inj in E. subst uk.
  assert (All : forall a, In a (row_to_attr m) -> ~ uncovered d k a /\ In a (row_to_attr (dk_msp k))).
  { intros a Ha. apply In_nth_error in Ha as (i & Hi).
    assert (Hrow : exists row, nth_error (matrix m) i = Some row).
    { destruct (nth_error (matrix m) i) as [row|] eqn:E; [eauto|]. apply nth_error_None in E. rewrite (mo_mat K f m M) in E. assert (i < length (row_to_attr m))%nat by (apply nth_error_Some; congruence). lia. }
    destruct Hrow as (row & Hrow). assert (Hq : In (a, row) (labelled m)) by (unfold labelled; eapply nth_in_combine; eauto).
    apply mapM_ok_inv in Eb. destruct (Forall2_in_l _ _ _ _ Eb Hq) as (y & _ & Ey). cbn [fst snd] in Ey.
    destruct (deleg_one_cases d k u a row D) as [(_ & H)|[(H1 & H2 & _)|(_ & _ & (e & H))]]; [congruence|auto|congruence]. }
  pose proof (Permutation_length (mo_perm K f m M)) as Lp. pose proof (count_and_leaves f) as Hca.
  assert (Hn : N.of_nat (length (row_to_attr m)) <= 134217728).
  { destruct (user_sizes kbytes k Lu Ek) as [S1 _].
    assert (Hl : (length (row_to_attr m) <= length (firstn (length (raw_d k)) (row_to_attr (dk_msp k))))%nat).
    { apply NoDup_incl_length; [apply (Permutation_NoDup (Permutation_sym (mo_perm K f m M))); apply (mo_nodup K f m M)|]. intros a Ha. destruct (All a Ha) as [H1 H2].
      apply In_nth_error in H2 as (r & Hr). assert (L : (r < length (raw_d k))%nat) by (destruct (Nat.le_gt_cases (length (raw_d k)) r); [exfalso; apply H1; right; eauto|assumption]).
      assert (L' : (r < length (row_to_attr (dk_msp k)))%nat) by (apply nth_error_Some; congruence).
      rewrite <- (firstn_skipn (length (raw_d k)) (row_to_attr (dk_msp k))), nth_error_app1 in Hr by (rewrite firstn_length; lia). exact (nth_error_In _ _ Hr). }
    rewrite firstn_length in Hl. lia. }
  apply small_encoded; cbn [dk_msp]; unfold msp_map.
  - constructor; cbn [nb_row nb_col matrix attr_to_row row_to_attr].
    + rewrite (mo_rows _ _ _ M). lia.
    + rewrite (mo_cols _ _ _ M). lia.
    + rewrite map_length, (mo_mat _ _ _ M), (mo_rows _ _ _ M). reflexivity.
    + intros r Hr. apply in_map_iff in Hr as (x & <- & Hx). rewrite map_length. apply (mo_width _ _ _ M). exact Hx.
    + symmetry. apply (mo_rows _ _ _ M).
    + apply (Permutation_NoDup (Permutation_sym (mo_perm _ _ _ M))). apply (mo_nodup _ _ _ M).
    + rewrite (mo_rows _ _ _ M). apply (mo_map _ _ _ M).
    + apply Forall_forall. intros a Ha. destruct (All a Ha) as [_ H]. exact (proj1 (Forall_forall _ _) (ds_u32 _ _ D) a H).
    + apply Forall_forall. intros; exact I.
  - cbn [nb_row]. rewrite (mo_rows _ _ _ M). exact Hn.
  - cbn [nb_col]. rewrite (mo_cols _ _ _ M). lia.
Qed.

Theorem C108_delegated_key it n ops p del uk access ap pol draw q d k :
  blen uk < 4294967296 -> del_dec F P del = Ok d -> user_dec F P uk = Ok k ->
  policy_from pol = Ok p -> run_ops ops (new_policy n) = Ok p -> proper_axes ops -> iteration_ok it ->
  access_parse access = Ok ap -> ap <> AAll ->
  delegated_key it del uk access pol draw = Panic q ->
  q = IndexOutOfBounds /\ exists c i, needed ops ap c /\ nth_error (numbering ops) i = Some c /\ uncovered d k (N.of_nat (Datatypes.S i)).
Proof using BL HF HP.
  intros Lu Ed Ek Ep Hp Hpr Hit Ea Hap H. unfold py_generate_delegated_key in H. rewrite Ed, Ek, Ea, Ep in H. cbn [bind] in H.
  peel H uk' Euk; [|exfalso; exact (delegated_encoded it p d k uk ap draw uk' q Hap Lu Ek Euk H)].
  pose proof (decoded_user_shape B F fine HF P uk k HP ltac:(lia) Ek) as D.
  rewrite delegate_eq in H by exact Hap. rewrite policy_to_msp_formula in H.
  pose proof (key_formula_no_panic it ops p ap Hit (inv_history n ops p Hp)) as Hnp. apply no_panic_cases in Hnp as [[f Ef]|[e E]]; [|rewrite E in H; discriminate H].
  rewrite Ef in H. cbn [bind] in H. destruct (ListDec.NoDup_dec N.eq_dec (leaves f)) as [Hnd|Hnd]; [|rewrite (to_msp_dup P f Hnd) in H; discriminate H].
  destruct (to_msp_ok P f Hnd) as (rows & _ & Em). match type of Em with _ = Ok ?x => set (m := x) in * end.
  rewrite Em in H. cbn [bind] in H. pose proof (to_msp_msp_of K (bl_field B BL) P f m Em) as M.
  unfold key_delegation in H. destruct (zero_sharing_vector_total B (nb_col m) draw) as (u & Eu); [rewrite (mo_cols K f m M); lia|]. rewrite Eu in H. cbn [bind] in H.
  rewrite (rerandomised_eq B) in H by (symmetry; apply (mo_mat K f m M)). peel H parts Eb; [|discriminate H].
  assert (X : exists a row, In (a, row) (labelled m) /\ deleg_one B k d of_i32 u a row = Panic q).
  { revert H. generalize (labelled m). induction l as [|[a row] l IH]; [discriminate|]. cbn [mapM fst snd]. intros H.
    apply bind_panic in H as [H|(xa & _ & H)]; [exists a, row; split; [left; reflexivity|exact H]|]. apply bind_panic in H as [H|(xs & _ & H)]; [|discriminate].
    destruct (IH H) as (a' & row' & Hin & E). exists a', row'. split; [right; exact Hin|exact E]. }
  destruct X as (a & row & Hq & X). destruct (deleg_one_cases d k u a row D) as [(Hu & E)|[(_ & _ & (y & E))|(_ & _ & (e & E))]]; try congruence.
  split; [congruence|]. destruct (row_of_labelled B f m (a, row) M Hq) as [Hin _]. cbn [fst] in Hin.
  apply (key_numbers it n ops p ap f Hp Hpr Hit Ef) in Hin as (c & i & Hc & Hi & Ei). exists c, i. rewrite <- Ei. auto.
Qed.

(** and always then, if the user key has all the needed attributes and the policy gives a key. *)
Theorem C108_delegated_key_panics it n ops p del uk access ap pol draw d k priv pdraw x :
  del_dec F P del = Ok d -> user_dec F P uk = Ok k -> blen uk < 4294967296 ->
  policy_from pol = Ok p -> run_ops ops (new_policy n) = Ok p -> proper_axes ops -> iteration_ok it ->
  access_parse access = Ok ap -> ap <> AAll -> user_private_key it priv access pol pdraw = Ok x ->
  (forall c i, needed ops ap c -> nth_error (numbering ops) i = Some c -> In (N.of_nat (Datatypes.S i)) (row_to_attr (dk_msp k))) ->
  (exists c i, needed ops ap c /\ nth_error (numbering ops) i = Some c /\ uncovered d k (N.of_nat (Datatypes.S i))) ->
  delegated_key it del uk access pol draw = Panic IndexOutOfBounds.
Proof using BL HF HP.
  intros Ed Ek Lu Ep Hp Hpr Hit Ea Hap Ex Hall (c & i & Hc & Hi & Hu). unfold py_generate_delegated_key. rewrite Ed, Ek, Ea, Ep. cbn [bind].
  pose proof (decoded_user_shape B F fine HF P uk k HP ltac:(lia) Ek) as D.
  rewrite delegate_eq by exact Hap. unfold py_generate_user_private_key in Ex. apply bind_ok in Ex as (mpk & _ & Ex). rewrite Ep, Ea in Ex. cbn [bind] in Ex.
  apply bind_ok in Ex as (kx & Ex & _). unfold eng_user_key in Ex. apply bind_ok in Ex as (m & Em & _). rewrite Em. cbn [bind].
  rewrite policy_to_msp_formula in Em. apply bind_ok in Em as (f & Ef & Em). pose proof (to_msp_msp_of K (bl_field B BL) P f m Em) as M.
  unfold key_delegation. destruct (zero_sharing_vector_total B (nb_col m) draw) as (u & Eu); [rewrite (mo_cols K f m M); lia|]. rewrite Eu. cbn [bind].
  rewrite (rerandomised_eq B) by (symmetry; apply (mo_mat K f m M)).
  rewrite (mapM_stops _ IndexOutOfBounds); [reflexivity| |].
  - intros [a row] Hq. cbn [fst snd]. destruct (deleg_one_cases d k u a row D) as [(_ & E)|[(_ & _ & E)|(_ & Hno & _)]]; [right; exact E|left; exact E|].
    exfalso. apply Hno. destruct (row_of_labelled B f m (a, row) M Hq) as [Hin _]. cbn [fst] in Hin. apply (key_numbers it n ops p ap f Hp Hpr Hit Ef) in Hin as (c' & i' & Hc' & Hi' & ->). exact (Hall c' i' Hc' Hi').
  - assert (Hin : In (N.of_nat (Datatypes.S i)) (leaves f)) by (apply (key_numbers it n ops p ap f Hp Hpr Hit Ef); exists c, i; auto).
    apply (Permutation_in _ (Permutation_sym (mo_perm K f m M))) in Hin. apply In_nth_error in Hin as (j & Hj).
    assert (Hrow : exists row, nth_error (matrix m) j = Some row).
    { destruct (nth_error (matrix m) j) as [row|] eqn:E; [eauto|]. apply nth_error_None in E. rewrite (mo_mat K f m M) in E. assert (j < length (row_to_attr m))%nat by (apply nth_error_Some; congruence). lia. }
    destruct Hrow as (row & Hrow). exists (N.of_nat (Datatypes.S i), row). split; [unfold labelled; eapply nth_in_combine; eauto|]. cbn [fst snd].
    destruct (deleg_one_cases d k u (N.of_nat (Datatypes.S i)) row D) as [(_ & E)|[(H & _)|(H & _)]]; [exact E|contradiction|contradiction].
Qed.
End PyHostile.

(** ** Examples: panics in a program that uses the Python interface with hostile bytes *)
Local Open Scope string_scope.
Local Ltac vmr x := vm_cast_no_check (eq_refl x).
Definition ph_access (x : string) : outcome access_policy :=
  if String.eqb x "HR" then Ok (AAttr (dept "HR")) else if String.eqb x "FIN" then Ok (AAttr (dept "FIN")) else if String.eqb x "all" then Ok AAll else Ok ex_ap'.
Definition ph_user (priv : list byte) (a : string) := py_generate_user_private_key (B := toy) release64 toy_forms py_policy ph_access it_rev priv a [x01] ex_kdraw.
Definition ph_header (pk : list byte) (a : byte) :=
  py_encrypt_hybrid_header release64 toy_forms toy_shake toy_sym py_policy py_attrs py_meta [x01] [x01] [a] pk ex_msg ex_s ex_nonce.
Definition ph_encrypt (pk : list byte) (a : byte) :=
  py_encrypt release64 toy_forms toy_shake toy_sym py_policy py_attrs py_meta [x01] [x01] [a] pk [x0c; x0d; x0e] ex_msg ex_s ex_nonce ex_nonce.
Definition ph_decrypt (key message : list byte) := py_decrypt release64 toy_forms toy_shake toy_sym key message.
Definition ph_message : list byte := be32 (blen hostile_header) ++ hostile_header ++ [x01; x02].
Definition ph_delegate (del uk : list byte) (a : string) := py_generate_delegated_key release64 toy_forms py_policy ph_access it_rev del uk a [x01] ex_draw.
Definition ph_del : list byte := snd py_masters.
Definition ph_short_del : list byte := bytes_of (del_enc toy_forms (@mkDel toy (firstn 3 (inv_t (del_key ex_mk))))).
Definition ph_uk : list byte := py_user [x01].
(** the same key without its last part, which is that of FIN *)
Definition ph_cut_uk : list byte :=
  bytes_of (let* k := user_dec toy_forms release64 ph_uk in user_enc toy_forms release64 (@mkDec toy (firstn 3 (raw_d k)) (firstn 3 (d_i k)) (dk_msp k))).

Theorem C108_refuted :
  py_generate_master_keys (B := toy) toy_forms py_policy [x01] (fun i => f101 (3 - Z.of_nat i)) = Panic DivisionByZero /\
  ph_user zero_bytes "HR" = Panic DivisionByZero /\
  ph_header short_bytes x02 = Panic IndexOutOfBounds /\
  ph_encrypt short_bytes x02 = Panic IndexOutOfBounds /\
  ph_decrypt cut_bytes ph_message = Panic IndexOutOfBounds /\
  ph_decrypt ph_uk (firstn 50 (py_message [x01] [x01])) = Panic SliceOutOfRange /\
  ph_delegate ph_del ph_cut_uk "all" = Panic IndexOutOfBounds /\
  ph_delegate ph_del ph_cut_uk "FIN" = Panic IndexOutOfBounds /\
  ph_delegate ph_short_del ph_uk "HR" = Panic IndexOutOfBounds.
Proof.
  split; [vmr (@Panic (list byte * list byte * list byte) DivisionByZero)|]. split; [vmr (@Panic (list byte) DivisionByZero)|].
  split; [vmr (@Panic (list byte * list byte) IndexOutOfBounds)|]. split; [vmr (@Panic (list byte) IndexOutOfBounds)|]. split; [vmr (@Panic (list byte) IndexOutOfBounds)|].
  split; [vmr (@Panic (list byte) SliceOutOfRange)|]. split; [vmr (@Panic (list byte) IndexOutOfBounds)|]. split; vmr (@Panic (list byte) IndexOutOfBounds).
Qed.

(** The same calls with other bytes, or for other attributes, do not panic. *)
Definition gives {A} (o : outcome A) : bool := match o with Ok _ => true | _ => false end.
Example C108_example :
  sym_total toy_sym /\ iteration_ok it_rev /\
  gives (ph_user zero_bytes "FIN") = true /\
  gives (ph_header (snd (fst py_masters)) x02) = true /\
  ph_decrypt ph_uk ph_message = Err InvalidEncryptedData /\
  ph_decrypt ph_uk (py_message [x01] [x01]) = Ok [x0c; x0d; x0e] /\
  gives (ph_delegate ph_del ph_uk "all") = true /\
  gives (ph_delegate ph_del ph_cut_uk "HR") = true /\ gives (ph_delegate ph_del ph_cut_uk "other") = true.
Proof.
  split; [exact toy_sym_total|]. split; [exact it_rev_ok|]. split; [vmr true|]. split; [vmr true|]. split; [vmr (@Err (list byte) InvalidEncryptedData)|].
  split; [vmr (@Ok (list byte) [x0c; x0d; x0e])|]. split; [vmr true|]. split; vmr true.
Qed.

Print Assumptions C108_never_panic.
Print Assumptions C108_master_keys.
Print Assumptions C108_user_key.
Print Assumptions C108_user_key_panics.
Print Assumptions C108_encrypt_header.
Print Assumptions C108_encrypt.
Print Assumptions C108_decrypt_header.
Print Assumptions C108_decrypt.
Print Assumptions C108_refreshed_key.
Print Assumptions C108_delegated_key.
Print Assumptions C108_delegated_key_panics.
Print Assumptions C108_refuted.
