(** Properties of the Python interface: C58, C73, C74. *)
From Coq Require Import String NArith ZArith Bool Arith Lia Strings.Byte List.
From Verif Require Import Prelude Field LinAlg Msp Spec Bilinear Scheme SchemeSpec SchemeTheorems
  Zp ExpModel PropertiesScheme Codec CodecProofs SchemeCodec SchemeCodecProofs PropertiesCodec
  Policy PolicySpec PolicyProofs Engine EngineSpec EngineProofs PropertiesEngine Hybrid HybridSpec PropertiesHybrid
  PropertiesFfi PropertiesVersions Python.
Import ListNotations.
Local Open Scope N_scope.

Section Python.
Variable B : BilinearMap.
Hypothesis BL : BilinearLaws B.
Local Notation K := (bm_K B).
Variable P : platform.
Hypothesis HP : 64 <= usize_bits P.
Variable F : byte_forms B.
Variable fine : Gt B -> Prop.
Hypothesis HF : forms_ok F fine.
Variable shake : list byte -> nat -> list byte.
Variable S : sym_scheme.
Variable metas : metadata -> Prop.
Hypothesis SL : sym_laws S metas.
Variable policy_from : list byte -> outcome policy.
Variable attributes_from : list byte -> outcome (list attribute).
Variable axes_from : list byte -> outcome (list policy_axis).
Variable metadata_from : list byte -> outcome metadata.
Variable policy_json : policy -> outcome (list byte).
Variable access_parse : string -> outcome access_policy.

Local Notation generate_master_keys := (py_generate_master_keys F policy_from).
Local Notation generate_user_private_key := (py_generate_user_private_key P F policy_from access_parse).
Local Notation generate_delegated_key := (py_generate_delegated_key P F policy_from access_parse).
Local Notation generate_policy := (py_generate_policy axes_from policy_json).
Local Notation rotate_attributes := (py_rotate_attributes policy_from attributes_from policy_json).
Local Notation encrypt_header := (py_encrypt_hybrid_header P F shake S policy_from attributes_from metadata_from).
Local Notation decrypt_header := (py_decrypt_hybrid_header P F shake S).
Local Notation py_enc := (py_encrypt P F shake S policy_from attributes_from metadata_from).
Local Notation py_dec := (py_decrypt P F shake S).

Lemma add64 a b : a <= 4294967296 -> b < 4294967296 -> usize_add P a b = Ok (a + b).
Proof using HP.
  intros Ha Hb. unfold usize_add, usize_wrap, usize_modulus.
  assert (Z.of_N (2 ^ 64) <= Z.of_N (2 ^ usize_bits P))%Z by (apply N2Z.inj_le, N.pow_le_mono_r; lia).
  change (Z.of_N (2 ^ 64)) with 18446744073709551616%Z in H.
  destruct (_ && _) eqn:E; [f_equal; lia|]. apply andb_false_iff in E as [E|E]; [apply Z.leb_gt in E|apply Z.ltb_ge in E]; lia.
Qed.

(** the layout of a message and what [decrypt] makes of it *)
Lemma py_decrypt_layout uk header ciphertext : blen header < 4294967296 ->
  py_dec uk (be32 (blen header) ++ header ++ ciphertext) =
  (let* (key, meta) := decrypt_header uk header in
   let* m := meta_from_bytes S meta in
   py_decrypt_hybrid_block S key (uid m) 0 ciphertext).
Proof using HP.
  intros H. unfold py_decrypt, py_get_encrypted_header_size. rewrite firstn_be32, from_be_be32 by exact H. rewrite !blen_app.
  change (blen (be32 (blen header))) with 4.
  destruct (4 + (blen header + blen ciphertext) <? 4) eqn:E; [apply N.ltb_lt in E; lia|]. cbn [bind]. rewrite add64 by lia. cbn [bind].
  assert (E1 : (4 <=? 4 + blen header) && (4 + blen header <=? 4 + (blen header + blen ciphertext)) = true).
  { apply andb_true_intro. split; apply N.leb_le; lia. }
  rewrite E1. change (skipn 4 (be32 (blen header) ++ header ++ ciphertext)) with (header ++ ciphertext).
  assert (E2 : firstn (N.to_nat (4 + blen header - 4)) (header ++ ciphertext) = header).
  { replace (4 + blen header - 4) with (blen header) by lia. unfold blen. rewrite Nat2N.id, firstn_app, Nat.sub_diag, firstn_all, app_nil_r. reflexivity. }
  rewrite E2. cbn [bind]. unfold slice_fromN.
  assert (E3 : (4 + blen header <=? N.of_nat (length (be32 (blen header) ++ header ++ ciphertext))) = true).
  { apply N.leb_le. rewrite !app_length. unfold blen. cbn [length be32]. lia. }
  rewrite E3. cbn [bind].
  replace (N.to_nat (4 + blen header)) with (4 + length header)%nat by (unfold blen; lia).
  change (skipn (4 + length header) (be32 (blen header) ++ header ++ ciphertext)) with (skipn (length header) (header ++ ciphertext)).
  rewrite skipn_app, skipn_all, Nat.sub_diag. reflexivity.
Qed.

Lemma header_inv meta pol attrs pk random (s : K) nonce key header m p l k :
  metadata_from meta = Ok m -> policy_from pol = Ok p -> attributes_from attrs = Ok l -> pub_dec F P pk = Ok k ->
  encrypt_header meta pol attrs pk random s nonce = Ok (key, header) ->
  exists h, encrypt_hybrid_header S F shake P p k l (Some m) random s nonce = Ok h /\ key = eh_key h /\ header = eh_bytes h.
Proof.
  intros Em Ep El Ek E. unfold py_encrypt_hybrid_header in E. rewrite Em, Ep, El, Ek in E. cbn [bind] in E.
  apply bind_ok in E as (h & Eh & E). assert (key = eh_key h) by congruence. assert (header = eh_bytes h) by congruence. eauto.
Qed.

(** a header is opened by exactly the keys that decrypt its ciphertext *)
Lemma py_header_opened n ops p meta pol attrs pk random (s : K) nonce key header m l k :
  n < 4294967296 -> run_ops ops (new_policy n) = Ok p -> length (pub_t k) = N.to_nat n -> l <> [] ->
  metadata_from meta = Ok m -> policy_from pol = Ok p -> attributes_from attrs = Ok l -> pub_dec F P pk = Ok k ->
  length nonce = nonce_length S -> metas m ->
  encrypt_header meta pol attrs pk random s nonce = Ok (key, header) ->
  (forall ct, eng_encrypt P p k l random s = Ok ct -> fine (e_prime ct)) ->
  length key = key_length S /\
  exists ct, eng_encrypt P p k l random s = Ok ct /\ forall b uk, user_dec F P b = Ok uk ->
    (eng_decrypt ct uk = Ok (Some random) -> exists mb, decrypt_header b header = Ok (key, mb) /\ meta_from_bytes S mb = Ok m) /\
    (refused (eng_decrypt ct uk) -> is_err (decrypt_header b header)).
Proof using BL HP HF SL.
  intros Hn Hp Hk Hl Em Ep El Ek Hno Hm E Hf.
  destruct (header_inv _ _ _ _ _ _ _ _ _ _ _ _ _ Em Ep El Ek E) as (h & Eh & -> & ->).
  destruct (header_layout B F shake S P p k l (Some m) random s nonce h Eh) as (sk & tail & _ & Lk & _ & _ & mb & em & Emb & _).
  split; [exact Lk|].
  destruct (header_opened B BL F fine HF shake S metas SL P n ops p k l (Some m) random s nonce h HP Hn Hp Hk Hl Hno) as (ct & Ect & Ho); try assumption.
  { intros m' Q. assert (m' = m) by congruence. subst m'. exact Hm. }
  exists ct. split; [exact Ect|]. intros b uk Eu. destruct (Ho uk) as [H1 H2]. unfold py_decrypt_hybrid_header. rewrite Eu. cbn [bind].
  split; intros H.
  - rewrite (H1 H). cbn [bind ch_meta ch_key]. rewrite Emb. exists mb. split; [reflexivity|]. exact (law_meta _ _ SL m mb Hm Emb).
  - destruct (H2 H) as [e Q]. rewrite Q. exists e. reflexivity.
Qed.

Lemma py_message_opened n ops p meta pol attrs pk plaintext random (s : K) nonce nonce' e m l k :
  n < 4294967296 -> run_ops ops (new_policy n) = Ok p -> length (pub_t k) = N.to_nat n -> l <> [] ->
  metadata_from meta = Ok m -> policy_from pol = Ok p -> attributes_from attrs = Ok l -> pub_dec F P pk = Ok k ->
  length nonce = nonce_length S -> length nonce' = nonce_length S -> metas m ->
  py_enc meta pol attrs pk plaintext random s nonce nonce' = Ok e -> blen e < 4294967296 ->
  (forall ct, eng_encrypt P p k l random s = Ok ct -> fine (e_prime ct)) ->
  exists ct, eng_encrypt P p k l random s = Ok ct /\ forall b uk, user_dec F P b = Ok uk ->
    (eng_decrypt ct uk = Ok (Some random) -> py_dec b e = Ok plaintext) /\
    (refused (eng_decrypt ct uk) -> is_err (py_dec b e)).
Proof using BL HP HF SL.
  intros Hn Hp Hk Hl Em Ep El Ek Hno Hno' Hm E He Hf. unfold py_encrypt in E. rewrite Em in E. cbn [bind] in E.
  apply bind_ok in E as ([key header] & Eh & E). apply bind_ok in E as (c & Ec & E). apply Ok_inj in E.
  destruct (py_header_opened n ops p meta pol attrs pk random s nonce key header m l k Hn Hp Hk Hl Em Ep El Ek Hno Hm Eh Hf) as (Lk & ct & Ect & Ho).
  assert (Lh : blen header < 4294967296) by (subst e; rewrite !blen_app in He; lia).
  unfold u32_modulus in E. rewrite N.mod_small in E by exact Lh.
  unfold py_encrypt_hybrid_block in Ec. rewrite array_from_ok in Ec by exact Lk. cbn [bind] in Ec.
  exists ct. split; [exact Ect|]. intros b uk Eu. destruct (Ho b uk Eu) as [H1 H2]. subst e. rewrite py_decrypt_layout by exact Lh. split; intros H.
  - destruct (H1 H) as (mb & Q & Qm). rewrite Q. cbn [bind]. rewrite Qm. cbn [bind]. unfold py_decrypt_hybrid_block.
    rewrite array_from_ok by exact Lk. cbn [bind].
    destruct (C49_block_roundtrip S metas SL py_max_clear_text key (uid m) 0 nonce' plaintext c Lk Hno' Ec) as [Q' _]. exact Q'.
  - destruct (H2 H) as [x Q]. rewrite Q. exists x. reflexivity.
Qed.

(** ** C58 *)
(** [decrypt] returns what was given to [encrypt] exactly if the attributes satisfy
    the access policy of the key, and raises an exception otherwise. *)
Theorem C58_roundtrip n ops p (mdraw : nat -> K) mk ap uk b meta pol attrs pk plaintext random (s : K) nonce nonce' e m l :
  n < 4294967296 -> run_ops ops (new_policy n) = Ok p -> eng_master_key p mdraw = Ok mk ->
  user_key P mk p ap uk -> user_dec F P b = Ok uk -> pub_dec F P pk = Ok (pub_key mk) ->
  metadata_from meta = Ok m -> policy_from pol = Ok p -> attributes_from attrs = Ok l -> l <> [] ->
  length nonce = nonce_length S -> length nonce' = nonce_length S -> metas m ->
  py_enc meta pol attrs pk plaintext random s nonce nonce' = Ok e -> blen e < 4294967296 ->
  (forall ct, eng_encrypt P p (pub_key mk) l random s = Ok ct -> fine (e_prime ct)) ->
  (satisfied ops (fun a => In a l) ap /\ py_dec b e = Ok plaintext) \/
  (~ satisfied ops (fun a => In a l) ap /\ is_err (py_dec b e)).
Proof using BL HP HF SL.
  intros Hn Hp Hmk Hk Eu Ek Em Ep El Hl Hno Hno' Hm E He Hf. pose proof (run_max _ _ _ Hp) as Hmax.
  change (max_attribute_creations (new_policy n)) with n in Hmax.
  destruct (py_message_opened n ops p meta pol attrs pk plaintext random s nonce nonce' e m l (pub_key mk) Hn Hp
              (pub_slots B BL _ _ _ _ Hmax Hmk) Hl Em Ep El Ek Hno Hno' Hm E He Hf) as (ct & Ect & Ho).
  destruct (Ho b uk Eu) as [H1 H2].
  destruct (C38_refreshed_key B BL P n ops [] p p p mdraw mk ap uk l random s ct Hp eq_refl Hmk Hk Ect) as [[Hs Hd]|[Hs Hd]];
    rewrite app_nil_r in Hs; [left|right]; auto.
Qed.

(** The header of a message gives the symmetric key and the metadata back. *)
Theorem C58_metadata_preserved n ops p (mdraw : nat -> K) mk ap uk b meta pol attrs pk random (s : K) nonce key header m l :
  n < 4294967296 -> run_ops ops (new_policy n) = Ok p -> eng_master_key p mdraw = Ok mk ->
  user_key P mk p ap uk -> user_dec F P b = Ok uk -> pub_dec F P pk = Ok (pub_key mk) ->
  metadata_from meta = Ok m -> policy_from pol = Ok p -> attributes_from attrs = Ok l -> l <> [] ->
  length nonce = nonce_length S -> metas m ->
  encrypt_header meta pol attrs pk random s nonce = Ok (key, header) ->
  (forall ct, eng_encrypt P p (pub_key mk) l random s = Ok ct -> fine (e_prime ct)) ->
  (satisfied ops (fun a => In a l) ap /\ exists mb, decrypt_header b header = Ok (key, mb) /\ meta_from_bytes S mb = Ok m) \/
  (~ satisfied ops (fun a => In a l) ap /\ is_err (decrypt_header b header)).
Proof using BL HP HF SL.
  intros Hn Hp Hmk Hk Eu Ek Em Ep El Hl Hno Hm E Hf. pose proof (run_max _ _ _ Hp) as Hmax.
  change (max_attribute_creations (new_policy n)) with n in Hmax.
  destruct (py_header_opened n ops p meta pol attrs pk random s nonce key header m l (pub_key mk) Hn Hp
              (pub_slots B BL _ _ _ _ Hmax Hmk) Hl Em Ep El Ek Hno Hm E Hf) as (_ & ct & Ect & Ho).
  destruct (Ho b uk Eu) as [H1 H2].
  destruct (C38_refreshed_key B BL P n ops [] p p p mdraw mk ap uk l random s ct Hp eq_refl Hmk Hk Ect) as [[Hs Hd]|[Hs Hd]];
    rewrite app_nil_r in Hs; [left|right]; auto.
Qed.

(** The blocks of the Python functions hold from one byte to one gibibyte, keys must
    have the right length, and nothing else is refused before the cipher is asked. *)
Theorem C58_block_limits key u number nonce b :
  (length key <> key_length S -> is_err (py_encrypt_hybrid_block S key u number b nonce) /\ is_err (py_decrypt_hybrid_block S key u number b)) /\
  (b = [] \/ 2 ^ 30 < blen b -> is_err (py_encrypt_hybrid_block S key u number b nonce)) /\
  (b = [] \/ 2 ^ 30 + overhead S < blen b -> is_err (py_decrypt_hybrid_block S key u number b)) /\
  (length key = key_length S -> 1 <= blen b <= 2 ^ 30 -> py_encrypt_hybrid_block S key u number b nonce = block_encrypt S key u number nonce b) /\
  (length key = key_length S -> 1 <= blen b <= 2 ^ 30 + overhead S -> py_decrypt_hybrid_block S key u number b = block_decrypt S key u number b).
Proof using Type.
  clear HP.
  change (2 ^ 30) with 1073741824.
  unfold py_encrypt_hybrid_block, py_decrypt_hybrid_block, array_from, py_max_clear_text, encrypt_hybrid_block, decrypt_hybrid_block.
  destruct (Nat.eqb_spec (length key) (key_length S)) as [Hk|Hk]; cbn [bind];
    (split; [intros Hn; try contradiction; split; eexists; reflexivity|]);
    (split; [intros H; try (eexists; reflexivity)|]); (try (split; [intros H; try (eexists; reflexivity)|]));
    try (split; intros Hn H; try contradiction).
  - destruct b as [|x r]; [eexists; reflexivity|]. destruct H as [H|H]; [discriminate|]. apply N.ltb_lt in H. rewrite H. eexists; reflexivity.
  - destruct b as [|x r]; [eexists; reflexivity|]. destruct H as [H|H]; [discriminate|]. apply N.ltb_lt in H. rewrite H. eexists; reflexivity.
  - destruct b as [|x r]; [change (blen []) with 0 in H; lia|]. destruct (N.ltb_spec 1073741824 (blen (x :: r))); [lia|]. reflexivity.
  - destruct b as [|x r]; [change (blen []) with 0 in H; lia|]. destruct (N.ltb_spec (1073741824 + overhead S) (blen (x :: r))); [lia|]. reflexivity.
Qed.

(** Messages of less than four bytes raise an exception; a size of the header larger
    than the rest of the message panics; otherwise [decrypt] panics only where the
    decoding of the key or the decryption of the header does. *)
Theorem C58_decrypt_panics b e p : sym_total S -> (forall m q, meta_to_bytes S m <> Panic q) ->
  let size := from_be (firstn 4 e) in
  let header := firstn (N.to_nat size) (skipn 4 e) in
  (blen e < 4 -> is_err (py_dec b e)) /\
  (4 <= blen e < 4 + size -> py_dec b e = Panic SliceOutOfRange) /\
  (4 + size <= blen e -> py_dec b e = Panic p ->
     user_dec F P b = Panic p \/ exists uk, user_dec F P b = Ok uk /\ decrypt_hybrid_header S F shake P uk header = Panic p).
Proof using HP.
  intros ST MT size header.
  assert (Hs : blen e < 4 \/ size < 4294967296).
  { destruct (N.lt_ge_cases (blen e) 4) as [H|H]; [left; exact H|right]. unfold size.
    destruct e as [|a0 [|a1 [|a2 [|a3 r]]]]; try (cbn in H; lia).
    pose proof (Byte.to_N_bounded a0). pose proof (Byte.to_N_bounded a1). pose proof (Byte.to_N_bounded a2). pose proof (Byte.to_N_bounded a3).
    unfold from_be. cbn [firstn fold_left]. lia. }
  unfold py_decrypt, py_get_encrypted_header_size. split; [|split].
  - intros H. apply N.ltb_lt in H. rewrite H. eexists. reflexivity.
  - intros [H H']. destruct Hs as [Hs|Hs]; [lia|]. pose proof H as Hb. apply N.ltb_ge in Hb. rewrite Hb. cbn [bind]. fold size. rewrite add64 by lia. cbn [bind].
    assert (Q : (4 <=? 4 + size) && (4 + size <=? blen e) = false) by (apply andb_false_iff; right; apply N.leb_gt; lia).
    rewrite Q. reflexivity.
  - intros H E. destruct Hs as [Hs|Hs]; [lia|]. assert (Hb : blen e <? 4 = false) by (apply N.ltb_ge; lia). rewrite Hb in E. cbn [bind] in E.
    fold size in E. rewrite add64 in E by lia. cbn [bind] in E.
    assert (Q : (4 <=? 4 + size) && (4 + size <=? blen e) = true) by (apply andb_true_intro; split; apply N.leb_le; lia).
    rewrite Q in E. cbn [bind] in E. replace (4 + size - 4) with size in E by lia. fold header in E. unfold slice_fromN in E.
    assert (Q' : (4 + size <=? N.of_nat (length e)) = true) by (apply N.leb_le; exact H). rewrite Q' in E. cbn [bind] in E.
    unfold py_decrypt_hybrid_header in E.
    destruct (user_dec F P b) as [uk|x|q] eqn:Eu; [|discriminate|left; cbn [bind] in E; inversion E; reflexivity].
    cbn [bind] in E. right. exists uk. split; [reflexivity|].
    destruct (decrypt_hybrid_header S F shake P uk header) as [c|x|q] eqn:Ed; [|discriminate|cbn [bind] in E; inversion E; reflexivity]. exfalso.
    cbn [bind] in E. destruct (meta_to_bytes S (ch_meta c)) as [mb|x|q] eqn:Em; [|discriminate|exact (MT _ _ Em)]. cbn [bind] in E.
    destruct (meta_from_bytes S mb) as [m|x|q] eqn:Ef; [|discriminate|exact (proj1 (proj2 ST) _ _ Ef)]. cbn [bind] in E.
    unfold py_decrypt_hybrid_block, array_from in E. destruct (Nat.eqb _ _); [|discriminate]. cbn [bind] in E.
    unfold decrypt_hybrid_block in E. destruct (skipn (N.to_nat (4 + size)) e) as [|y r]; [discriminate|].
    destruct (_ <? _); [discriminate|]. exact (proj2 (proj2 ST) _ _ _ _ _ E).
Qed.

(** With a genuine key, built without overflow checks: apart from the size of the
    header, only a ciphertext with too few elements panics. *)
Theorem C58_other_panics n (mdraw : nat -> K) p0 mk p ap uk b e q :
  sym_total S -> (forall m q, meta_to_bytes S m <> Panic q) -> overflow_checks P = false ->
  n < 4294967296 -> max_attribute_creations p0 = n -> eng_master_key p0 mdraw = Ok mk ->
  user_key P mk p ap uk -> user_dec F P b = Ok uk -> blen e < 4611686018427387904 ->
  let size := from_be (firstn 4 e) in
  py_dec b e = Panic q -> 4 + size <= blen e ->
  let header := firstn (N.to_nat size) (skipn 4 e) in
  exists ct, ct_dec F P (firstn (N.to_nat (from_be (firstn 4 header))) (skipn 4 header)) = Ok ct /\
             (length (e_i ct) < length (gamma ct))%nat.
Proof using BL HP HF.
  intros ST MT Ho Hn Hm Hmk Hk Eu He size E Hs header.
  destruct (C58_decrypt_panics b e q ST MT) as (_ & _ & H). destruct (H Hs E) as [Q|(uk' & Q & Ed)]; [congruence|].
  assert (uk' = uk) by congruence. subst uk'. fold size in Ed. fold header in Ed.
  destruct (user_key_derived B P mk p ap uk Hk) as (it & f & _ & _ & Hd). apply (derived_obtained B) in Hd.
  assert (Lh : blen header <= blen e).
  { unfold header. generalize (N.to_nat size). intros k. unfold blen. rewrite firstn_length, skipn_length. lia. }
  apply (C64_only_uneven_ciphertexts_panic B BL F fine HF shake S P _ mdraw mk f uk header q HP Ho ltac:(lia) ST Hmk Hd); [|exact Ed].
  unfold eng_master_key in Hmk. destruct (generate_master_key_inv B BL _ _ _ Hmk) as (t & y & -> & Ht & Hnz).
  destruct (obtained_rep B BL P t y f uk Hnz Hd) as (m & sg & _ & R & _).
  intros a Ha. pose proof (SchemeProofs.kr_range _ _ _ _ _ _ R a Ha) as Hr. unfold SchemeProofs.in_range in Hr. lia.
Qed.

(** ** C73 *)
(** Keys as Python users get them: from the master private key, or from another such
    key and the delegation key. *)
Inductive py_key (priv del pol : list byte) : access_policy -> list byte -> Prop :=
| py_generated it access ap draw b : iteration_ok it -> access_parse access = Ok ap ->
    generate_user_private_key it priv access pol draw = Ok b -> blen b < 2147483648 -> py_key priv del pol ap b
| py_refreshed it access ap b draw b' : py_key priv del pol ap b -> access_parse access = Ok AAll ->
    generate_delegated_key it del b access pol draw = Ok b' -> blen b' < 2147483648 -> py_key priv del pol ap b'
| py_delegated it access ap ap' b draw b' : iteration_ok it -> py_key priv del pol ap b -> access_parse access = Ok ap' ->
    ap' <> AAll -> narrower ap' ap ->
    generate_delegated_key it del b access pol draw = Ok b' -> blen b' < 2147483648 -> py_key priv del pol ap' b'.

Lemma py_master_keys n p0 pol0 (mdraw : nat -> K) priv pub del :
  policy_from pol0 = Ok p0 -> max_attribute_creations p0 = n -> 1 <= n < 4294967295 ->
  generate_master_keys pol0 mdraw = Ok (priv, pub, del) ->
  (forall mk, eng_master_key p0 mdraw = Ok mk -> fine (pub_y (pub_key mk))) ->
  exists mk, eng_master_key p0 mdraw = Ok mk /\ priv_dec F P priv = Ok (priv_key mk) /\
    pub_dec F P pub = Ok (pub_key mk) /\ del_dec F P del = Ok (del_key mk).
Proof using BL HP HF.
  intros Ep Hm Hn E Hf. unfold py_generate_master_keys in E. rewrite Ep in E. cbn [bind] in E.
  apply bind_ok in E as (mk & Emk & E). apply bind_ok in E as (b1 & E1 & E). apply bind_ok in E as (b2 & E2 & E). apply bind_ok in E as (b3 & E3 & E).
  assert (b1 = priv) by congruence. assert (b2 = pub) by congruence. assert (b3 = del) by congruence. subst b1 b2 b3. clear E.
  exists mk. split; [exact Emk|]. pose proof (Hf mk Emk) as Hy. clear Hf.
  unfold eng_master_key in Emk. rewrite Hm in Emk.
  destruct (generate_master_key_inv B BL _ _ _ Emk) as (t & y & -> & Ht & _).
  assert (N1 : forall (A : Type) (l : list A), length l = length t -> countable l).
  { intros A l H. split; [intros Q; rewrite Q in H; cbn in H; lia|unfold u32_MAX; lia]. }
  split; [|split].
  - destruct (priv_round F fine HF P HP (priv_key (master_of B t y)) [] (N1 _ _ eq_refl) eq_refl) as (b & Eb & _ & D). rewrite app_nil_r in D. congruence.
  - destruct (pub_round F fine HF P HP (pub_key (master_of B t y)) [] ltac:(apply N1; cbn; apply map_length) Hy eq_refl) as (b & Eb & _ & D).
    rewrite app_nil_r in D. congruence.
  - destruct (del_round F fine HF P HP (del_key (master_of B t y)) [] ltac:(apply N1; cbn; apply map_length) eq_refl) as (b & Eb & _ & D).
    rewrite app_nil_r in D. congruence.
Qed.

Lemma py_key_sound n p0 (mdraw : nat -> K) mk priv del pol p ap b :
  max_attribute_creations p0 = n -> n < 4294967296 -> eng_master_key p0 mdraw = Ok mk ->
  priv_dec F P priv = Ok (priv_key mk) -> del_dec F P del = Ok (del_key mk) -> policy_from pol = Ok p ->
  py_key priv del pol ap b -> exists uk, user_key P mk p ap uk /\ user_dec F P b = Ok uk.
Proof using BL HP HF.
  intros Hm Hn Hmk Dp Dd Ep H.
  assert (back : forall ap uk b, user_key P mk p ap uk -> user_enc F P uk = Ok b -> blen b < 2147483648 -> user_dec F P b = Ok uk).
  { intros ap' uk b' Hk Eb Lb. destruct (user_key_derived B P mk p ap' uk Hk) as (it & f & _ & _ & Hd). apply (derived_obtained B) in Hd.
    unfold eng_master_key in Hmk. destruct (generate_master_key_inv B BL _ _ _ Hmk) as (t & y & -> & Ht & Hnz).
    apply (user_key_reads_back B P ltac:(lia) F fine HF BL t y f uk b' HP); try assumption. lia. }
  induction H as [it access ap draw b Hit Ea E Lb|it access ap b draw b' H IH Ea E Lb|it access ap ap' b draw b' Hit H IH Ea Hne Hna E Lb].
  - unfold py_generate_user_private_key in E. rewrite Dp, Ep, Ea in E. cbn [bind] in E. apply bind_ok in E as (uk & Eu & E).
    assert (Hk : user_key P mk p ap uk) by (apply uk_gen with it draw; assumption). exists uk. split; [exact Hk|]. exact (back ap uk b Hk E Lb).
  - destruct IH as (uk & Hk & Du). unfold py_generate_delegated_key in E. rewrite Dd, Du, Ea, Ep in E. cbn [bind] in E. apply bind_ok in E as (uk' & Eu & E).
    assert (Hk' : user_key P mk p ap uk') by (apply uk_refresh with it uk draw; assumption). exists uk'. split; [exact Hk'|]. exact (back ap uk' b' Hk' E Lb).
  - destruct IH as (uk & Hk & Du). unfold py_generate_delegated_key in E. rewrite Dd, Du, Ea, Ep in E. cbn [bind] in E. apply bind_ok in E as (uk' & Eu & E).
    assert (Hk' : user_key P mk p ap' uk') by (apply uk_delegate with it ap uk draw; assumption). exists uk'. split; [exact Hk'|]. exact (back ap' uk' b' Hk' E Lb).
Qed.

(** The functions work together, across versions of the policy: a key older than the
    message opens it exactly if the attributes that were not rotated in between
    satisfy its access policy; a key that is not older, exactly if the attributes do. *)
Theorem C73_older_key n p0 pol0 (mdraw : nat -> K) priv pub del ops1 ops2 pol1 p1 pol2 p2 ap b meta attrs plaintext random (s : K) nonce nonce' e m l :
  1 <= n < 4294967295 ->
  policy_from pol0 = Ok p0 -> max_attribute_creations p0 = n -> generate_master_keys pol0 mdraw = Ok (priv, pub, del) ->
  (forall mk, eng_master_key p0 mdraw = Ok mk -> fine (pub_y (pub_key mk))) ->
  policy_from pol1 = Ok p1 -> run_ops ops1 (new_policy n) = Ok p1 ->
  policy_from pol2 = Ok p2 -> run_ops ops2 p1 = Ok p2 ->
  py_key priv del pol1 ap b ->
  metadata_from meta = Ok m -> attributes_from attrs = Ok l -> l <> [] ->
  length nonce = nonce_length S -> length nonce' = nonce_length S -> metas m ->
  py_enc meta pol2 attrs pub plaintext random s nonce nonce' = Ok e -> blen e < 4294967296 ->
  (forall mk ct, eng_master_key p0 mdraw = Ok mk -> eng_encrypt P p2 (pub_key mk) l random s = Ok ct -> fine (e_prime ct)) ->
  let T := fun a => In a l /\ ~ In (Rotate a) ops2 in
  (satisfied ops1 T ap /\ py_dec b e = Ok plaintext) \/ (~ satisfied ops1 T ap /\ is_err (py_dec b e)).
Proof using BL HP HF SL.
  intros Hn Ep0 Hm0 Ek Hy Ep1 H1 Ep2 H2 Hk Em El Hl Hno Hno' Hm E He Hf T.
  destruct (py_master_keys n p0 pol0 mdraw priv pub del Ep0 Hm0 Hn Ek Hy) as (mk & Hmk & Dp & Dq & Dd).
  destruct (py_key_sound n p0 mdraw mk priv del pol1 p1 ap b Hm0 ltac:(lia) Hmk Dp Dd Ep1 Hk) as (uk & Huk & Du).
  assert (Hp : run_ops (ops1 ++ ops2) (new_policy n) = Ok p2) by (rewrite run_ops_app, H1; exact H2).
  destruct (py_message_opened n (ops1 ++ ops2) p2 meta pol2 attrs pub plaintext random s nonce nonce' e m l (pub_key mk) ltac:(lia) Hp
              (pub_slots B BL _ _ _ _ Hm0 Hmk) Hl Em Ep2 El Dq Hno Hno' Hm E He ltac:(intros ct; apply Hf; exact Hmk)) as (ct & Ect & Ho).
  destruct (Ho b uk Du) as [Ho1 Ho2].
  destruct (C37_rotation_revokes B BL P n ops1 ops2 p1 p2 p0 mdraw mk ap uk l random s ct H1 H2 Hmk Huk Ect) as [[Hs Hd]|[Hs Hd]]; [left|right]; auto.
Qed.

Theorem C73_newer_key n p0 pol0 (mdraw : nat -> K) priv pub del ops1 ops2 pol1 p1 pol2 p2 ap b meta attrs plaintext random (s : K) nonce nonce' e m l :
  1 <= n < 4294967295 ->
  policy_from pol0 = Ok p0 -> max_attribute_creations p0 = n -> generate_master_keys pol0 mdraw = Ok (priv, pub, del) ->
  (forall mk, eng_master_key p0 mdraw = Ok mk -> fine (pub_y (pub_key mk))) ->
  policy_from pol1 = Ok p1 -> run_ops ops1 (new_policy n) = Ok p1 ->
  policy_from pol2 = Ok p2 -> run_ops ops2 p1 = Ok p2 ->
  py_key priv del pol2 ap b ->
  metadata_from meta = Ok m -> attributes_from attrs = Ok l -> l <> [] ->
  length nonce = nonce_length S -> length nonce' = nonce_length S -> metas m ->
  py_enc meta pol1 attrs pub plaintext random s nonce nonce' = Ok e -> blen e < 4294967296 ->
  (forall mk ct, eng_master_key p0 mdraw = Ok mk -> eng_encrypt P p1 (pub_key mk) l random s = Ok ct -> fine (e_prime ct)) ->
  let T := fun a => In a l in
  (satisfied (ops1 ++ ops2) T ap /\ py_dec b e = Ok plaintext) \/ (~ satisfied (ops1 ++ ops2) T ap /\ is_err (py_dec b e)).
Proof using BL HP HF SL.
  intros Hn Ep0 Hm0 Ek Hy Ep1 H1 Ep2 H2 Hk Em El Hl Hno Hno' Hm E He Hf T.
  destruct (py_master_keys n p0 pol0 mdraw priv pub del Ep0 Hm0 Hn Ek Hy) as (mk & Hmk & Dp & Dq & Dd).
  destruct (py_key_sound n p0 mdraw mk priv del pol2 p2 ap b Hm0 ltac:(lia) Hmk Dp Dd Ep2 Hk) as (uk & Huk & Du).
  destruct (py_message_opened n ops1 p1 meta pol1 attrs pub plaintext random s nonce nonce' e m l (pub_key mk) ltac:(lia) H1
              (pub_slots B BL _ _ _ _ Hm0 Hmk) Hl Em Ep1 El Dq Hno Hno' Hm E He ltac:(intros ct; apply Hf; exact Hmk)) as (ct & Ect & Ho).
  destruct (Ho b uk Du) as [Ho1 Ho2].
  destruct (C38_refreshed_key B BL P n ops1 ops2 p1 p2 p0 mdraw mk ap uk l random s ct H1 H2 Hmk Huk Ect) as [[Hs Hd]|[Hs Hd]]; [left|right]; auto.
Qed.

(** ** C74 *)
(** the operations asked for *)
Definition axis_op (a : policy_axis) : op := let '(name, attrs, h) := a in AddAxis name attrs h.

Lemma add_axes_ops l : forall p, add_axes p l = run_ops (map axis_op l) p.
Proof.
  induction l as [|[[x names] h] l IH]; intros p; [reflexivity|]. cbn [add_axes map axis_op run_ops apply_op]. unfold bind.
  destruct (add_axis p x names h); [apply IH|reflexivity|reflexivity].
Qed.
Lemma rotate_each_ops l : forall p, rotate_each p l = run_ops (map Rotate l) p.
Proof.
  induction l as [|a l IH]; intros p; [reflexivity|]. cbn [rotate_each map run_ops apply_op]. unfold bind.
  destruct (rotate p a); [apply IH|reflexivity|reflexivity].
Qed.

Lemma run_ops_no_panic ops : forall p q, run_ops ops p <> Panic q.
Proof.
  induction ops as [|[x names h|a] ops IH]; intros p q E; [discriminate| |]; cbn [run_ops apply_op] in E; unfold bind in E.
  - unfold add_axis in E. destruct (_ <? _); [discriminate|]. destruct (axis_get p x); [discriminate|].
    destruct (insert_values _ _ _ _). exact (IH _ _ E).
  - unfold rotate in E. destruct (_ =? _); [discriminate|]. destruct (heap_get p a); [|discriminate]. exact (IH _ _ E).
Qed.

(** The policies made by the Python functions have the history that was asked for;
    when this history is impossible an exception is raised. *)
Theorem C74_policy_history axes l max : axes_from axes = Ok l -> max < 4294967296 ->
  (exists p, run_ops (map axis_op l) (new_policy max) = Ok p /\ generate_policy axes max = policy_json p) \/
  ((forall p, run_ops (map axis_op l) (new_policy max) <> Ok p) /\ is_err (generate_policy axes max)).
Proof.
  intros E H. unfold py_generate_policy. rewrite E. cbn [bind]. unfold u32_modulus. rewrite N.mod_small by exact H. rewrite add_axes_ops.
  destruct (run_ops _ _) as [p|x|q] eqn:Q; [left; exists p; split; reflexivity|right|destruct (run_ops_no_panic _ _ _ Q)].
  split; [discriminate|exists x; reflexivity].
Qed.

Theorem C74_rotation_history attrs l pol p n ops : attributes_from attrs = Ok l -> policy_from pol = Ok p ->
  run_ops ops (new_policy n) = Ok p ->
  (exists p', run_ops (ops ++ map Rotate l) (new_policy n) = Ok p' /\ rotate_attributes attrs pol = policy_json p') \/
  ((forall p', run_ops (ops ++ map Rotate l) (new_policy n) <> Ok p') /\ is_err (rotate_attributes attrs pol)).
Proof.
  intros El Ep Hp. unfold py_rotate_attributes. rewrite El, Ep. cbn [bind]. rewrite rotate_each_ops, run_ops_app, Hp. cbn [bind].
  destruct (run_ops (map Rotate l) p) as [p'|x|q] eqn:Q; [left; exists p'; split; reflexivity|right|destruct (run_ops_no_panic _ _ _ Q)].
  split; [discriminate|exists x; reflexivity].
Qed.

(** false from 2^32 attribute creations on: the limit is reduced modulo 2^32 *)
Theorem C74_limit_truncated axes max : generate_policy axes (max + 4294967296) = generate_policy axes max.
Proof.
  unfold py_generate_policy. unfold u32_modulus. replace (max + 4294967296) with (max + 1 * 4294967296) by lia.
  rewrite N.mod_add by lia. reflexivity.
Qed.
End Python.

(** ** Examples and witnesses *)
(** the JSON texts of the examples *)
Definition py_policy (b : list byte) : outcome policy := match b with [x01] => Ok pol_a | [x02] => Ok pol_b | _ => Err Utf8Error end.
Definition py_attrs (b : list byte) : outcome (list attribute) :=
  match b with
  | [x01] => Ok [dept "HR"; level "Protected"]
  | [x02] => Ok [dept "FIN"; level "Protected"]
  | [x03] => Ok [dept "HR"]
  | _ => Err Utf8Error
  end.
Definition py_meta (b : list byte) : outcome metadata := match b with [x01] => Ok ex_meta | _ => Err Utf8Error end.
Definition py_access (x : string) : outcome access_policy :=
  if String.eqb x "a" then Ok ex_ap else if String.eqb x "b" then Ok ex_ap' else Err Utf8Error.
Definition py_axes (b : list byte) : outcome (list policy_axis) :=
  match b with [x01] => Ok [("Department", ["HR"; "FIN"], false)]%string | _ => Err Utf8Error end.

Definition py_masters : list byte * list byte * list byte := run ([], [], []) (py_generate_master_keys toy_forms py_policy [x01] ex_draw).
Definition py_user (pol : list byte) : list byte :=
  bytes_of (py_generate_user_private_key pf toy_forms py_policy py_access it_rev (fst (fst py_masters)) "a" pol ex_kdraw).
Definition py_user' (pol : list byte) : list byte :=
  bytes_of (py_generate_delegated_key pf toy_forms py_policy py_access it_rev (snd py_masters) (py_user pol) "b" pol ex_draw).
Definition py_message (pol attrs : list byte) : list byte :=
  bytes_of (py_encrypt pf toy_forms toy_shake toy_sym py_policy py_attrs py_meta [x01] pol attrs (snd (fst py_masters)) [x0c; x0d; x0e] ex_msg ex_s ex_nonce ex_nonce).
Definition py_open (key message : list byte) : outcome (list byte) := py_decrypt pf toy_forms toy_shake toy_sym key message.

(** a message, with keys of both versions of the policy: the HR attribute was rotated *)
Example C58_C73_example :
  (blen (py_message [x01] [x01]) <? 4294967296) = true /\
  py_open (py_user [x01]) (py_message [x01] [x01]) = Ok [x0c; x0d; x0e] /\
  py_open (py_user [x01]) (py_message [x01] [x03]) = Err InvalidEncryptedData /\
  py_open (py_user [x01]) (py_message [x02] [x01]) = Err InvalidEncryptedData /\
  py_open (py_user [x01]) (py_message [x02] [x02]) = Ok [x0c; x0d; x0e] /\
  py_open (py_user [x02]) (py_message [x01] [x01]) = Ok [x0c; x0d; x0e] /\
  py_open (py_user' [x01]) (py_message [x01] [x01]) = Ok [x0c; x0d; x0e] /\
  py_open (py_user' [x01]) (py_message [x01] [x02]) = Err InvalidEncryptedData.
Proof.
  split; [vmr true|]. split; [vmr (@Ok (list byte) [x0c; x0d; x0e])|]. do 2 (split; [vmr (@Err (list byte) InvalidEncryptedData)|]).
  do 3 (split; [vmr (@Ok (list byte) [x0c; x0d; x0e])|]). vmr (@Err (list byte) InvalidEncryptedData).
Qed.

(** C58 is false for arbitrary bytes *)
Theorem C58_refuted : exists message, length message = 4%nat /\
  forall (B : BilinearMap) P (F : byte_forms B) shake S key, 64 <= usize_bits P -> py_decrypt P F shake S key message = Panic SliceOutOfRange.
Proof.
  exists [x00; x00; x00; x01]. split; [reflexivity|]. intros B P F shake S key HP. unfold py_decrypt, py_get_encrypted_header_size.
  change (blen [x00; x00; x00; x01] <? 4) with false. cbn [bind]. change (from_be (firstn 4 [x00; x00; x00; x01])) with 1.
  rewrite (add64 P HP) by lia. reflexivity.
Qed.

(** a limit of 2^32 + 1 attribute creations leaves room for one attribute, so that an
    axis of two attributes is refused *)
Theorem C74_refuted : exists axes l max p,
  py_axes axes = Ok l /\ run_ops (map axis_op l) (new_policy max) = Ok p /\
  forall policy_json, py_generate_policy py_axes policy_json axes max = Err (PolicyError PolicyCapacityOverflow).
Proof.
  exists [x01], [("Department", ["HR"; "FIN"], false)]%string, 4294967297. eexists.
  split; [reflexivity|]. split; [vm_compute; reflexivity|]. intros policy_json. vm_compute. reflexivity.
Qed.

Example C74_example :
  py_generate_policy py_axes (fun p => Ok (be32 (last_attribute_value p) ++ be32 (max_attribute_creations p))) [x01] 4294967295
    = Ok (be32 2 ++ be32 4294967295) /\
  py_generate_policy py_axes (fun p => Ok (be32 (last_attribute_value p))) [x01] 1 = Err (PolicyError PolicyCapacityOverflow) /\
  py_rotate_attributes py_policy py_attrs (fun p => Ok (be32 (last_attribute_value p))) [x01] [x01] = Ok (be32 (last_attribute_value pol_a + 2)).
Proof. vm_compute. auto. Qed.

Print Assumptions C58_roundtrip.
Print Assumptions C58_metadata_preserved.
Print Assumptions C58_block_limits.
Print Assumptions C58_decrypt_panics.
Print Assumptions C58_other_panics.
Print Assumptions C73_older_key.
Print Assumptions C73_newer_key.
Print Assumptions C74_policy_history.
Print Assumptions C74_rotation_history.
Print Assumptions C58_refuted.
Print Assumptions C74_refuted.
