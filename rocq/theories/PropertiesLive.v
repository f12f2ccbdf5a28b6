(** Correct calls succeed: C127. *)
From Coq Require Import String NArith ZArith Bool Arith Lia Strings.Byte List.
From Verif Require Import Prelude Field LinAlg Msp Spec MspProofs Bilinear Scheme SchemeSpec SchemeProofs SchemeTheorems
  Zp ExpModel PropertiesScheme Codec CodecProofs SchemeCodec SchemeCodecProofs PropertiesCodec
  Policy PolicySpec PolicyProofs Engine EngineSpec EngineProofs PropertiesEngine Hybrid HybridSpec PropertiesHybrid
  PropertiesFfi PropertiesVersions Python PropertiesPython HistorySpec PropertiesHistory PropertiesWorking Demo PropertiesDemo.
Import ListNotations.
Local Open Scope N_scope.

(** ** Specification *)
(** What is asked of the external symmetric scheme besides [sym_laws]: it encrypts what it
    is given, its nonces and what it adds to messages are short, and so are metadata. *)
Record serves (S : sym_scheme) (metas : metadata -> Prop) : Prop := {
  sv_meta : forall m, metas m -> exists b, meta_to_bytes S m = Ok b /\ blen b < 536870912;
  sv_sym : forall k m n, length k = key_length S -> length n = nonce_length S -> blen m < 536870912 ->
    exists c, sym_encrypt S k m n None = Ok c /\ blen c < 1073741824;
  sv_block : forall k u i n m, length k = key_length S -> length n = nonce_length S -> blen m <= 1073741824 ->
    exists c, block_encrypt S k u i n m = Ok c;
  sv_nonce : N.of_nat (nonce_length S) < 65536;
  sv_overhead : overhead S < 65536
}.

Section Live.
Variable B : BilinearMap.
Hypothesis BL : BilinearLaws B.
Local Notation K := (bm_K B).
Variable P : platform.
Hypothesis HP : 64 <= usize_bits P.
Variable F : byte_forms B.
Variable fine : Gt B -> Prop.
Hypothesis HF : forms_ok F fine.
Variable shake : list byte -> nat -> list byte.
Hypothesis shake_length : forall b n, length (shake b n) = n.
Variable S : sym_scheme.
Variable metas : metadata -> Prop.
Hypothesis SL : sym_laws S metas.
Hypothesis SV : serves S metas.
Variable policy_from : list byte -> outcome policy.
Variable attributes_from : list byte -> outcome (list attribute).
Variable metadata_from : list byte -> outcome metadata.
Variable access_parse : string -> outcome access_policy.

Local Notation generate_master_keys := (py_generate_master_keys F policy_from).
Local Notation generate_user_private_key := (py_generate_user_private_key P F policy_from access_parse).
Local Notation generate_delegated_key := (py_generate_delegated_key P F policy_from access_parse).
Local Notation py_enc := (py_encrypt P F shake S policy_from attributes_from metadata_from).
Local Notation py_dec := (py_decrypt P F shake S).

(** the history of a policy of at most 2^24 attribute creations, and the draws of the
    master key *)
Variables (n : N) (history : list op) (mdraw : nat -> K).
Hypothesis Hn : 1 <= n <= 16777216.
Hypothesis Hprop : proper_axes history.
Hypothesis Hdraw : forall i, (i < N.to_nat n)%nat -> mdraw i <> f0.

Lemma version_max i p : version n history i p -> max_attribute_creations p = n.
Proof using Type. intros [_ E]. rewrite (run_max _ _ _ E). reflexivity. Qed.

(** The master keys are made, whatever the version, and are read back. *)
Theorem C127_master_keys i p pol : version n history i p -> policy_from pol = Ok p ->
  (forall mk, eng_master_key p mdraw = Ok mk -> fine (pub_y (pub_key mk))) ->
  exists mk priv pub del, eng_master_key p mdraw = Ok mk /\ generate_master_keys pol mdraw = Ok (priv, pub, del) /\
    priv_dec F P priv = Ok (priv_key mk) /\ pub_dec F P pub = Ok (pub_key mk) /\ del_dec F P del = Ok (del_key mk).
Proof using BL HP HF Hn Hdraw.
  intros V Ep Hf. pose proof (version_max i p V) as Hm.
  assert (Emk : exists mk, eng_master_key p mdraw = Ok mk).
  { unfold eng_master_key. rewrite Hm. rewrite (generate_master_key_ok B BL (N.to_nat n) mdraw Hdraw). eauto. }
  destruct Emk as (mk & Emk). exists mk. specialize (Hf mk Emk). pose proof Emk as Emk'. unfold eng_master_key in Emk'. rewrite Hm in Emk'.
  destruct (generate_master_key_inv B BL _ _ _ Emk') as (t & y & Q & Ht & _).
  assert (N1 : forall (A : Type) (l : list A), length l = length t -> countable l).
  { intros A l H. split; [intros X; rewrite X in H; cbn in H; lia|unfold u32_MAX; lia]. }
  destruct (priv_round F fine HF P HP (priv_key mk) []) as (b1 & E1 & _ & D1); [rewrite Q; apply N1; reflexivity|reflexivity|].
  destruct (pub_round F fine HF P HP (pub_key mk) []) as (b2 & E2 & _ & D2); [rewrite Q; apply N1; cbn; apply map_length|exact Hf|reflexivity|].
  destruct (del_round F fine HF P HP (del_key mk) []) as (b3 & E3 & _ & D3); [rewrite Q; apply N1; cbn; apply map_length|reflexivity|].
  rewrite app_nil_r in D1, D2, D3. exists b1, b2, b3. split; [exact Emk|]. split; [|auto].
  unfold py_generate_master_keys. rewrite Ep. cbn [bind]. rewrite Emk. cbn [bind]. rewrite E1. cbn [bind]. rewrite E2. cbn [bind]. rewrite E3. reflexivity.
Qed.

Variables (p0 : policy) (mk : master_key B).
Hypothesis Hmax : max_attribute_creations p0 = n.
Hypothesis Hmk : eng_master_key p0 mdraw = Ok mk.

(** every key is written, and read back *)
Lemma key_written f uk : derived B P mk f uk -> exists b, user_enc F P uk = Ok b /\ user_dec F P b = Ok uk.
Proof using BL HP HF Hn Hmax Hmk.
  intros Hd. unfold eng_master_key in Hmk. rewrite Hmax in Hmk.
  pose proof (derived_leaves B BL P mk f uk _ mdraw Hmk Hd) as Hnd. pose proof (derived_obtained B P mk f uk Hd) as Ho.
  assert (Hr : forall a, In a (leaves f) -> a < n).
  { destruct (generate_master_key_inv B BL _ _ _ Hmk) as (t & y & Q & Ht & Hnz). rewrite Q in Ho.
    destruct (obtained_rep B BL P t y f uk Hnz Ho) as (m & sg & _ & R & _).
    intros a Ha. pose proof (SchemeProofs.kr_range _ _ _ _ _ _ R a Ha) as Hr. unfold SchemeProofs.in_range in Hr. lia. }
  destruct (C18_user_key_roundtrip B F fine HF BL P (N.to_nat n) mdraw mk f uk HP Hmk Ho) as (b & E1 & _ & E2).
  - intros a Ha. specialize (Hr a Ha). lia.
  - assert (L : (length (leaves f) <= N.to_nat n)%nat).
    { rewrite <- (map_length N.to_nat). rewrite <- (seq_length (N.to_nat n) 0). apply NoDup_incl_length.
      - apply FinFun.Injective_map_NoDup; [intros a b E; lia|exact Hnd].
      - intros x Hx. apply in_map_iff in Hx as (a & <- & Ha). apply in_seq. specialize (Hr a Ha). lia. }
    lia.
  - eauto.
Qed.

(** Keys in their bytes: [b] was made for [ap] at version [i]. *)
Definition owned (i : nat) (ap : access_policy) (b : list byte) : Prop :=
  exists uk, held_key P mk n history i ap uk /\ user_dec F P b = Ok uk.

Lemma held_written i ap uk : held_key P mk n history i ap uk -> exists b, user_enc F P uk = Ok b /\ owned i ap b.
Proof using BL HP HF Hn Hmax Hmk Hprop.
  intros Hk. destruct (held_stands B BL P n history _ mdraw mk Hprop Hmk i ap uk Hk) as (q & it & f & g & _ & _ & _ & _ & _ & Hd).
  destruct (key_written f uk Hd) as (b & E1 & E2). exists b. split; [exact E1|]. exists uk. auto.
Qed.

Theorem C127_user_key i p pol it access ap priv draw :
  version n history i p -> policy_from pol = Ok p -> last_attribute_value p < n ->
  priv_dec F P priv = Ok (priv_key mk) -> iteration_ok it -> access_parse access = Ok ap ->
  (forall a, In a (mentioned ap) -> declared (firstn i history) a) -> ~ all_inside ap -> no_overlap (firstn i history) ap ->
  (ap = AAll -> exists b, declared (firstn i history) b) ->
  exists b, generate_user_private_key it priv access pol draw = Ok b /\ owned i ap b.
Proof using BL HP HF Hn Hmax Hmk Hprop Hdraw.
  intros V Ep Hlast Dp Hit Ea Hm Hai Hno Hall.
  destruct (C05_pipeline B BL P n (firstn i history) p mdraw draw it ap [] (gt_gen_exp B f0) f0) as (mk' & uk & _ & Emk & Euk & _); auto.
  - exact (proj2 V).
  - apply proper_firstn, Hprop.
  - intros b [].
  - cbn. lia.
  - assert (mk' = mk).
    { unfold eng_master_key in Emk, Hmk. rewrite Hmax in Hmk. rewrite (version_max i p V) in Emk. congruence. }
    subst mk'. destruct (held_written i ap uk (hk_gen P mk n history it i p ap draw uk Hit V Euk)) as (b & E1 & E2).
    exists b. split; [|exact E2]. unfold py_generate_user_private_key. rewrite Dp. cbn [bind]. rewrite Ep. cbn [bind]. rewrite Ea. cbn [bind].
    rewrite Euk. exact E1.
Qed.

(** refreshed keys: the draws of [generate_delegated_key] only re-randomise the key *)
Theorem C127_refreshed_key i ap b p pol it access del draw :
  owned i ap b -> policy_from pol = Ok p -> del_dec F P del = Ok (del_key mk) -> access_parse access = Ok AAll ->
  exists b', generate_delegated_key it del b access pol draw = Ok b' /\ owned i ap b'.
Proof using BL HP HF Hn Hmax Hmk Hprop.
  intros (uk & Hk & Du) Ep Dd Ea.
  assert (E : exists uk', eng_delegate P it p (del_key mk) uk AAll draw = Ok uk').
  { destruct (held_stands B BL P n history _ mdraw mk Hprop Hmk i ap uk Hk) as (q & it0 & f & g & _ & _ & _ & _ & _ & Hd).
    pose proof Hmk as Hmk'. unfold eng_master_key in Hmk'.
    destruct (C12_delegating_to_all_rerandomises B BL P _ mdraw mk f uk draw Hmk' (derived_obtained B P mk f uk Hd)) as (uk' & E & _).
    exists uk'. exact E. }
  destruct E as (uk' & E). destruct (held_written i ap uk' (hk_refresh P mk n history it i ap uk p draw uk' Hk E)) as (b' & E1 & E2).
  exists b'. split; [|exact E2]. unfold py_generate_delegated_key. rewrite Dd. cbn [bind]. rewrite Du. cbn [bind]. rewrite Ea. cbn [bind].
  rewrite Ep. cbn [bind]. rewrite E. exact E1.
Qed.

Theorem C127_delegated_key i ap b j p pol it access ap' del draw :
  owned i ap b -> version n history j p -> policy_from pol = Ok p -> del_dec F P del = Ok (del_key mk) -> iteration_ok it ->
  access_parse access = Ok ap' -> ap' <> AAll -> included (firstn i history) ap' ap ->
  (forall a, In a (mentioned ap') -> declared (firstn j history) a) ->
  (forall a, needed (firstn i history) ap' a -> ~ In (Rotate a) (between history i j)) ->
  exists b', generate_delegated_key it del b access pol draw = Ok b' /\ owned (min i j) ap' b'.
Proof using BL HP HF Hn Hmax Hmk Hprop.
  intros (uk & Hk & Du) V Ep Dd Hit Ea Hne Hin Hm Hr.
  destruct (C122_delegation B BL P n history p0 mdraw mk i ap uk it j p ap' draw Hprop Hmk Hk Hit V Hne Hin) as [_ H].
  destruct (H (conj Hm Hr)) as (uk' & E).
  destruct (held_written (min i j) ap' uk' (hk_delegate P mk n history it i j p ap ap' uk draw uk' Hk Hit V Hne Hin E)) as (b' & E1 & E2).
  exists b'. split; [|exact E2]. unfold py_generate_delegated_key. rewrite Dd. cbn [bind]. rewrite Du. cbn [bind]. rewrite Ea. cbn [bind].
  rewrite Ep. cbn [bind]. rewrite E. exact E1.
Qed.

(** ** Messages *)
Lemma encryption k q l msg (s : K) : version n history k q -> last_attribute_value q < n ->
  (forall a, In a l -> declared (firstn k history) a) -> N.of_nat (length l) < n -> (exists a, In a l) ->
  exists ct, eng_encrypt P q (pub_key mk) l msg s = Ok ct.
Proof using BL Hn Hmax Hmk Hprop Hdraw.
  intros V Hlast Hl Hlen (a & Ha).
  destruct (C05_pipeline B BL P n (firstn k history) q mdraw (fun _ => f0) it_rev AAll l msg s) as (mk' & uk & ct & Emk & _ & E); auto.
  - exact (proj2 V).
  - apply proper_firstn, Hprop.
  - exact it_rev_ok.
  - intros x [].
  - cbn. tauto.
  - intros _. exists a. apply Hl, Ha.
  - assert (mk' = mk).
    { unfold eng_master_key in Emk, Hmk. rewrite Hmax in Hmk. rewrite (version_max k q V) in Emk. congruence. }
    subst mk'. eauto.
Qed.

(** the header and its length *)
Lemma header_made k q l m random (s : K) nonce : version n history k q -> last_attribute_value q < n ->
  (forall a, In a l -> declared (firstn k history) a) -> N.of_nat (length l) < n -> l <> [] -> metas m -> length nonce = nonce_length S ->
  exists h, encrypt_hybrid_header S F shake P q (pub_key mk) l (Some m) random s nonce = Ok h /\ length (eh_key h) = key_length S /\
    blen (eh_bytes h) < 2000000000.
Proof using BL HP HF Hn Hmax Hmk Hprop Hdraw shake_length SV.
  intros V Hlast Hl Hlen Hne Hm Hno.
  assert (Hex : exists a, In a l) by (destruct l as [|a l']; [contradiction|exists a; left; reflexivity]).
  destruct (encryption k q l random s V Hlast Hl Hlen Hex) as (ct & Ect). pose proof Ect as Ec.
  unfold eng_encrypt in Ec. apply bind_ok in Ec as (gam & Eg & Ec). pose proof (Forall2_length_eq _ _ _ (attributes_values_inv _ _ _ Eg)) as Lg.
  destruct (encrypt_parts B P random gam (pub_key mk) s ct Ec) as [Q1 Q2].
  assert (Hu : N.of_nat (length gam) < u32_modulus) by (unfold u32_modulus; lia).
  assert (Ece : exists b, ct_enc F ct = Ok b /\ blen b < 900000000).
  { destruct (vec_enc_ok u32_codec 4 _ u32_codec_ok (gamma ct)) as (b1 & _ & _ & _ & E1); [rewrite Q1; exact Hu|].
    destruct (vec_enc_ok (g2_codec F) 48 _ (g2_ok F fine HF) (e_i ct)) as (b2 & _ & _ & _ & E2); [rewrite Q2; exact Hu|].
    unfold ct_enc. rewrite E1. cbn [bind]. rewrite E2. cbn [bind gt_codec fixed_codec enc]. eexists. split; [reflexivity|].
    rewrite !blen_app, (gt_blen F fine HF).
    assert (L1 : N.of_nat (length (gamma ct)) < u32_modulus) by (rewrite Q1; exact Hu).
    assert (L2 : N.of_nat (length (e_i ct)) < u32_modulus) by (rewrite Q2; exact Hu).
    rewrite (vec_enc_len u32_codec 4 _ u32_codec_ok (gamma ct) _ L1 E1), (vec_enc_len (g2_codec F) 48 _ (g2_ok F fine HF) (e_i ct) _ L2 E2).
    assert (X : forall (A : Type) (c : codec A) j V0 (x : list A), codec_ok c j V0 -> vec_len c x <= 4 + N.of_nat (length x) * j).
    { intros A c j V0 [|x t] C; [cbn; lia|]. unfold vec_len. rewrite (ok_len _ _ _ C). lia. }
    pose proof (X _ _ _ _ (gamma ct) u32_codec_ok) as X1. pose proof (X _ _ _ _ (e_i ct) (g2_ok F fine HF)) as X2. rewrite Q1 in *. rewrite Q2 in X2. lia. }
  destruct Ece as (cb & Ecb & Lcb).
  destruct (sv_meta S metas SV m Hm) as (mb & Emb & Lmb).
  set (key := shake (to_compressed (gt_form B F) random) (key_length S)). assert (Lk : length key = key_length S) by apply shake_length.
  destruct (sv_sym S metas SV key mb nonce Lk Hno Lmb) as (em & Eem & Lem).
  exists (mkEncHeader key ((be32 (blen cb) ++ cb) ++ nonce ++ be32 (blen em) ++ em)). split; [|split; [exact Lk|]].
  - unfold encrypt_hybrid_header, generate_symmetric_key. rewrite Ect. cbn [bind]. rewrite Ecb. cbn [bind gt_codec fixed_codec enc]. fold key.
    rewrite array_from_ok by exact Lk. cbn [bind]. unfold u32_len. destruct (N.ltb_spec (blen cb) u32_modulus) as [_|X]; [|unfold u32_modulus in X; lia]. cbn [bind].
    rewrite Emb. cbn [bind]. rewrite Eem. cbn [bind]. destruct (N.ltb_spec (blen em) u32_modulus) as [_|X]; [|unfold u32_modulus in X; lia]. reflexivity.
  - cbn [eh_bytes]. rewrite !blen_app. change (blen (be32 (blen cb))) with 4. change (blen (be32 (blen em))) with 4.
    pose proof (sv_nonce S metas SV). unfold blen at 2. rewrite Hno. lia.
Qed.

(** a message is made, of less than 4 GB *)
Lemma message_made k q pol attrs l meta m pk plaintext random (s : K) nonce nonce' :
  version n history k q -> policy_from pol = Ok q -> last_attribute_value q < n ->
  attributes_from attrs = Ok l -> l <> [] -> (forall a, In a l -> declared (firstn k history) a) -> N.of_nat (length l) < n ->
  metadata_from meta = Ok m -> metas m -> pub_dec F P pk = Ok (pub_key mk) ->
  length nonce = nonce_length S -> length nonce' = nonce_length S ->
  plaintext <> [] -> blen plaintext <= 1073741824 ->
  exists e, py_enc meta pol attrs pk plaintext random s nonce nonce' = Ok e /\ blen e < 4294967296.
Proof using BL HP HF Hn Hmax Hmk Hprop Hdraw shake_length SV SL.
  intros V Ep Hlast El Hne Hl Hlen Em Hm Dpk Hno Hno' Hpl Hpl2.
  destruct (header_made k q l m random s nonce V Hlast Hl Hlen Hne Hm Hno) as (h & Eh & Lk & Lh).
  destruct (sv_block S metas SV (eh_key h) (uid m) 0 nonce' plaintext Lk Hno' Hpl2) as (c & Ec).
  pose proof (law_overhead S metas SL _ _ _ _ _ _ Lk Hno' Ec) as Lc. pose proof (sv_overhead S metas SV) as Lo.
  exists (be32 (blen (eh_bytes h)) ++ eh_bytes h ++ c). split.
  - unfold py_encrypt. rewrite Em. cbn [bind]. unfold py_encrypt_hybrid_header. rewrite Em, Ep, El, Dpk. cbn [bind]. rewrite Eh. cbn [bind].
    unfold py_encrypt_hybrid_block. rewrite array_from_ok by exact Lk. cbn [bind]. unfold encrypt_hybrid_block, py_max_clear_text.
    destruct plaintext as [|x t] eqn:Q; [contradiction|]. rewrite <- Q in *. destruct (N.ltb_spec 1073741824 (blen plaintext)) as [X|_]; [lia|].
    rewrite Ec. cbn [bind]. unfold u32_modulus. rewrite N.mod_small by lia. reflexivity.
  - rewrite !blen_app. change (blen (be32 (blen (eh_bytes h)))) with 4. lia.
Qed.

(** Every message for attributes of the policy is encrypted, and every key opens the
    message or reports an error, as it should. *)
Theorem C127_message k q pol attrs l meta m pk plaintext random (s : K) nonce nonce' :
  version n history k q -> policy_from pol = Ok q -> last_attribute_value q < n ->
  attributes_from attrs = Ok l -> l <> [] -> (forall a, In a l -> declared (firstn k history) a) -> N.of_nat (length l) < n ->
  metadata_from meta = Ok m -> metas m -> pub_dec F P pk = Ok (pub_key mk) ->
  length nonce = nonce_length S -> length nonce' = nonce_length S ->
  plaintext <> [] -> blen plaintext <= 1073741824 ->
  (forall ct, eng_encrypt P q (pub_key mk) l random s = Ok ct -> fine (e_prime ct)) ->
  exists e, py_enc meta pol attrs pk plaintext random s nonce nonce' = Ok e /\
    forall i ap b, owned i ap b ->
    let T := fun a => In a l /\ ~ In (Rotate a) (between history i k) in
    (satisfied (firstn i history) T ap /\ py_dec b e = Ok plaintext) \/ (~ satisfied (firstn i history) T ap /\ is_err (py_dec b e)).
Proof using BL HP HF Hn Hmax Hmk Hprop Hdraw shake_length SV SL.
  intros V Ep Hlast El Hne Hl Hlen Em Hm Dpk Hno Hno' Hpl Hpl2 Hf.
  destruct (message_made k q pol attrs l meta m pk plaintext random s nonce nonce' V Ep Hlast El Hne Hl Hlen Em Hm Dpk Hno Hno' Hpl Hpl2) as (e & E & Le).
  exists e. split; [exact E|]. intros i ap b (uk & Hk & Du) T.
  destruct (py_message_opened B BL P HP F fine HF shake S metas SL policy_from attributes_from metadata_from
    n (firstn k history) q meta pol attrs pk plaintext random s nonce nonce' e m l (pub_key mk)) as (ct & Ect & Ho);
    [lia|exact (proj2 V)|exact (pub_slots B BL _ _ _ _ Hmax Hmk)|exact Hne|exact Em|exact Ep|exact El|exact Dpk|exact Hno|exact Hno'|exact Hm|exact E|exact Le|exact Hf|].
  destruct (Ho b uk Du) as [H1 H2].
  destruct (C122_history B BL P n history p0 mdraw mk i ap uk k q l random s ct Hprop Hmk Hk V Ect) as [[Hs Hd]|[Hs Hd]]; [left|right]; auto.
Qed.
End Live.

(** The calls of a whole program, none of which fails: master keys made with one version of
    the policy, a user key with a second, a message with a third. *)
Section Session.
Variable B : BilinearMap.
Hypothesis BL : BilinearLaws B.
Local Notation K := (bm_K B).
Variable P : platform.
Hypothesis HP : 64 <= usize_bits P.
Variable F : byte_forms B.
Variable fine : Gt B -> Prop.
Hypothesis HF : forms_ok F fine.
Variable shake : list byte -> nat -> list byte.
Hypothesis shake_length : forall b n, length (shake b n) = n.
Variable S : sym_scheme.
Variable metas : metadata -> Prop.
Hypothesis SL : sym_laws S metas.
Hypothesis SV : serves S metas.
Variable policy_from : list byte -> outcome policy.
Variable attributes_from : list byte -> outcome (list attribute).
Variable metadata_from : list byte -> outcome metadata.
Variable access_parse : string -> outcome access_policy.

Theorem C127_session n history i0 pol0 p0 i pol p k pol' q (mdraw : nat -> K) it access ap (kdraw : nat -> K)
    attrs l meta m plaintext random (s : K) nonce nonce' :
  1 <= n <= 16777216 -> proper_axes history ->
  version n history i0 p0 -> version n history i p -> version n history k q ->
  policy_from pol0 = Ok p0 -> policy_from pol = Ok p -> policy_from pol' = Ok q ->
  last_attribute_value p < n -> last_attribute_value q < n ->
  (forall j, (j < N.to_nat n)%nat -> mdraw j <> f0) -> iteration_ok it ->
  access_parse access = Ok ap -> (forall a, In a (mentioned ap) -> declared (firstn i history) a) -> ~ all_inside ap ->
  no_overlap (firstn i history) ap -> (ap = AAll -> exists b, declared (firstn i history) b) ->
  attributes_from attrs = Ok l -> l <> [] -> (forall a, In a l -> declared (firstn k history) a) -> N.of_nat (length l) < n ->
  metadata_from meta = Ok m -> metas m -> length nonce = nonce_length S -> length nonce' = nonce_length S ->
  plaintext <> [] -> blen plaintext <= 1073741824 ->
  (forall mk, eng_master_key p0 mdraw = Ok mk -> fine (pub_y (pub_key mk)) /\
     forall ct, eng_encrypt P q (pub_key mk) l random s = Ok ct -> fine (e_prime ct)) ->
  exists priv pub del b e,
    py_generate_master_keys F policy_from pol0 mdraw = Ok (priv, pub, del) /\
    py_generate_user_private_key P F policy_from access_parse it priv access pol kdraw = Ok b /\
    py_encrypt P F shake S policy_from attributes_from metadata_from meta pol' attrs pub plaintext random s nonce nonce' = Ok e /\
    let T := fun a => In a l /\ ~ In (Rotate a) (between history i k) in
    (satisfied (firstn i history) T ap /\ py_decrypt P F shake S b e = Ok plaintext) \/
    (~ satisfied (firstn i history) T ap /\ is_err (py_decrypt P F shake S b e)).
Proof using BL HP HF shake_length SL SV.
  intros Hn Hprop V0 V V' E0 E E' Hlast Hlast' Hd Hit Ea Hm Hai Hno Hall El Hne Hl Hlen Em Hmeta Hnonce Hnonce' Hpl Hpl2 Hf.
  destruct (C127_master_keys B BL P HP F fine HF policy_from n history mdraw Hn Hd i0 p0 pol0 V0 E0) as (mk & priv & pub & del & Emk & Emb & D1 & D2 & _).
  { intros mk Emk. apply Hf, Emk. }
  pose proof (version_max n history i0 p0 V0) as Hmax.
  destruct (C127_user_key B BL P HP F fine HF policy_from access_parse n history mdraw Hn Hprop Hd p0 mk Hmax Emk i p pol it access ap priv kdraw
    V E Hlast D1 Hit Ea Hm Hai Hno Hall) as (b & Eb & Ob).
  destruct (C127_message B BL P HP F fine HF shake shake_length S metas SL SV policy_from attributes_from metadata_from n history mdraw Hn Hprop Hd
    p0 mk Hmax Emk k q pol' attrs l meta m pub plaintext random s nonce nonce' V' E' Hlast' El Hne Hl Hlen Em Hmeta D2 Hnonce Hnonce' Hpl Hpl2
    (proj2 (Hf mk Emk))) as (e & Ee & Ho).
  exists priv, pub, del, b, e. split; [exact Emb|]. split; [exact Eb|]. split; [exact Ee|]. exact (Ho i ap b Ob).
Qed.
End Session.

(** ** Example *)
Definition short_meta (m : metadata) : Prop :=
  additional_data m <> Some [] /\ blen (uid m) < 65536 /\ match additional_data m with Some a => blen a < 65536 | None => True end.
Lemma toy_serves : serves toy_sym short_meta.
Proof.
  split.
  - intros m (_ & Hu & Ha). cbn [meta_to_bytes toy_sym]. unfold u32_len. destruct (N.ltb_spec (blen (uid m)) u32_modulus) as [_|X]; [|unfold u32_modulus in X; lia].
    cbn [bind]. eexists. split; [reflexivity|]. rewrite !blen_app. change (blen (be32 (blen (uid m)))) with 4.
    destruct (additional_data m) as [a|]; [|change (blen []) with 0]; lia.
  - intros k m n _ _ Hm. cbn [sym_encrypt toy_sym]. unfold toy_encrypt. eexists. split; [reflexivity|]. unfold blen in *. cbn [length]. lia.
  - intros k u i n m _ _ _. cbn [block_encrypt toy_sym]. unfold toy_encrypt. cbn [bind]. eauto.
  - cbn. lia.
  - cbn. lia.
Qed.

Lemma ex_draws j : (j < 10)%nat -> ex_draw j <> f0.
Proof. intros H. do 10 (destruct j as [|j]; [intros E; apply (f_equal zval) in E; vm_compute in E; discriminate|]). lia. Qed.

Lemma toy_short_laws : sym_laws toy_sym short_meta.
Proof. destruct toy_sym_laws. constructor; auto. intros m b [H _]. auto. Qed.

(** keys of the second state of the policy, a message of the third: the key opens it unless
    it needs the attribute rotated in between *)
Lemma live_session (attrs : list byte) l : py_attrs attrs = Ok l -> l <> [] -> forallb (fun a => on (covered hist a) a) l = true -> N.of_nat (length l) < 10 ->
  exists priv pub del b e,
  py_generate_master_keys toy_forms py_policy [x01] ex_draw = Ok (priv, pub, del) /\
  py_generate_user_private_key pf toy_forms py_policy py_access it_rev priv "a" [x01] ex_kdraw = Ok b /\
  py_encrypt pf toy_forms toy_shake toy_sym py_policy py_attrs py_meta [x01] [x02] attrs pub [x0c; x0d; x0e] ex_msg ex_s ex_nonce ex_nonce = Ok e /\
  if grants ops_a (filter (fun a => negb (attribute_eqb (dept "HR") a)) l) ex_ap then py_decrypt pf toy_forms toy_shake toy_sym b e = Ok [x0c; x0d; x0e]
  else is_err (py_decrypt pf toy_forms toy_shake toy_sym b e).
Proof.
  intros El Hne Hd Hlen. rewrite forallb_forall in Hd.
  destruct (C127_session toy toy_laws pf ltac:(cbn; lia) toy_forms (fun _ => True) toy_forms_ok toy_shake toy_shake_length toy_sym short_meta
    toy_short_laws toy_serves py_policy py_attrs py_meta py_access
    10%N hist 2%nat [x01] pol_a 2%nat [x01] pol_a 3%nat [x02] pol_b ex_draw it_rev "a"%string ex_ap ex_kdraw
    attrs l [x01] ex_meta [x0c; x0d; x0e] ex_msg ex_s ex_nonce ex_nonce)
    as (priv & pub & del & b & e & H1 & H2 & H3 & Q).
  - lia.
  - exact hist_proper.
  - exact hist_two.
  - exact hist_two.
  - exact hist_three.
  - reflexivity.
  - reflexivity.
  - reflexivity.
  - vm_compute. reflexivity.
  - vm_compute. reflexivity.
  - intros j Hj. apply ex_draws. lia.
  - exact it_rev_ok.
  - reflexivity.
  - intros a Ha. apply declared_spec. cbn in Ha. repeat (destruct Ha as [<-|Ha]; [vm_compute; reflexivity|]). destruct Ha.
  - cbn. intuition discriminate.
  - apply apart_spec. vm_compute. reflexivity.
  - discriminate.
  - exact El.
  - exact Hne.
  - intros a Ha. apply declared_spec. exact (Hd a Ha).
  - exact Hlen.
  - reflexivity.
  - split; [discriminate|]. split; vm_compute; reflexivity.
  - reflexivity.
  - reflexivity.
  - discriminate.
  - vm_compute. discriminate.
  - intros mk _. split; [exact Logic.I|]. intros ct _. exact Logic.I.
  - exists priv, pub, del, b, e. split; [exact H1|]. split; [exact H2|]. split; [exact H3|].
    cbv zeta in Q. assert (G := grants_spec (firstn 2 hist) (fun a => In a l /\ ~ In (Rotate a) (between hist 2 3)) (filter (fun a => negb (attribute_eqb (dept "HR") a)) l) ex_ap).
    change (firstn 2 hist) with ops_a in *. change (between hist 2 3) with [Rotate (dept "HR")] in *.
    destruct (grants _ _ _).
    + destruct Q as [[_ Q]|[Q _]]; [exact Q|]. exfalso. apply Q. apply G; [|reflexivity].
      intros a. rewrite filter_In, negb_true_iff, <- not_true_iff_false, attribute_eqb_spec. simpl.
      split; intros [A1 A2]; (split; [exact A1|]); [intros E; apply A2; left; f_equal; exact E|intros [E|[]]; apply A2; congruence].
    + destruct Q as [[Q _]|[_ Q]]; [|exact Q]. exfalso. assert (X : false = true); [|discriminate]. apply G; [|exact Q].
      intros a. rewrite filter_In, negb_true_iff, <- not_true_iff_false, attribute_eqb_spec. simpl.
      split; intros [A1 A2]; (split; [exact A1|]); [intros E; apply A2; left; f_equal; exact E|intros [E|[]]; apply A2; congruence].
Qed.

Example C127_example : exists priv pub del b e,
  py_generate_master_keys toy_forms py_policy [x01] ex_draw = Ok (priv, pub, del) /\
  py_generate_user_private_key pf toy_forms py_policy py_access it_rev priv "a" [x01] ex_kdraw = Ok b /\
  py_encrypt pf toy_forms toy_shake toy_sym py_policy py_attrs py_meta [x01] [x02] [x02] pub [x0c; x0d; x0e] ex_msg ex_s ex_nonce ex_nonce = Ok e /\
  py_decrypt pf toy_forms toy_shake toy_sym b e = Ok [x0c; x0d; x0e].
Proof. apply (live_session [x02] [dept "FIN"; level "Protected"]); [reflexivity|discriminate|vm_compute; reflexivity|vm_compute; reflexivity]. Qed.
Example C127_rotated_example : exists priv pub del b e,
  py_generate_master_keys toy_forms py_policy [x01] ex_draw = Ok (priv, pub, del) /\
  py_generate_user_private_key pf toy_forms py_policy py_access it_rev priv "a" [x01] ex_kdraw = Ok b /\
  py_encrypt pf toy_forms toy_shake toy_sym py_policy py_attrs py_meta [x01] [x02] [x01] pub [x0c; x0d; x0e] ex_msg ex_s ex_nonce ex_nonce = Ok e /\
  is_err (py_decrypt pf toy_forms toy_shake toy_sym b e).
Proof. apply (live_session [x01] [dept "HR"; level "Protected"]); [reflexivity|discriminate|vm_compute; reflexivity|vm_compute; reflexivity]. Qed.

Print Assumptions C127_master_keys.
Print Assumptions C127_user_key.
Print Assumptions C127_refreshed_key.
Print Assumptions C127_delegated_key.
Print Assumptions C127_message.
Print Assumptions C127_session.
