(** Headers made under one version of a policy and keys of another one: C72. *)
From Coq Require Import String NArith ZArith Bool Arith Lia Strings.Byte List.
From Verif Require Import Prelude Field LinAlg Msp Spec Bilinear Scheme SchemeSpec SchemeTheorems
  Zp ExpModel PropertiesScheme Codec CodecProofs SchemeCodec SchemeCodecProofs PropertiesCodec
  Policy PolicySpec PolicyProofs Engine EngineSpec EngineProofs PropertiesEngine Hybrid HybridSpec PropertiesHybrid.
Import ListNotations.
Local Open Scope N_scope.

Lemma run_ops_app ops1 ops2 p : run_ops (ops1 ++ ops2) p = (let* p := run_ops ops1 p in run_ops ops2 p).
Proof.
  revert p; induction ops1 as [|o ops1 IH]; intros p; [reflexivity|]. cbn [app run_ops]. unfold bind at 1 2.
  destruct (apply_op p o); [rewrite IH; reflexivity|reflexivity|reflexivity].
Qed.

Section Versions.
Variable B : BilinearMap.
Hypothesis BL : BilinearLaws B.
Local Notation K := (bm_K B).
Variable F : byte_forms B.
Variable fine : Gt B -> Prop.
Hypothesis HF : forms_ok F fine.
Variable shake : list byte -> nat -> list byte.
Variable S : sym_scheme.
Variable metas : metadata -> Prop.
Hypothesis SL : sym_laws S metas.
Implicit Types P : platform.

(** a header is opened by exactly the keys that decrypt its ciphertext *)
Lemma header_opened P n ops p (pk : master_public_key B) l meta random (s : K) nonce h :
  64 <= usize_bits P -> n < 4294967296 ->
  run_ops ops (new_policy n) = Ok p -> length (pub_t pk) = N.to_nat n -> l <> [] ->
  length nonce = nonce_length S -> (forall m, meta = Some m -> metas m) ->
  encrypt_hybrid_header S F shake P p pk l meta random s nonce = Ok h ->
  (forall ct, eng_encrypt P p pk l random s = Ok ct -> fine (e_prime ct)) ->
  exists ct, eng_encrypt P p pk l random s = Ok ct /\ forall uk,
    (eng_decrypt ct uk = Ok (Some random) -> decrypt_hybrid_header S F shake P uk (eh_bytes h) =
       Ok (mkClearHeader (eh_key h) match meta with Some m => m | None => mkMeta [] None end)) /\
    (refused (eng_decrypt ct uk) -> is_err (decrypt_hybrid_header S F shake P uk (eh_bytes h))).
Proof using BL HF SL.
  intros HP Hn Hp Hpk Hl Hno Hm He Hf.
  destruct (header_layout B F shake S P p pk l meta random s nonce h He) as (sk & tail & Eg & Lk & Ls & Eb & Et).
  destruct (symmetric_key_inv B F fine HF shake P n ops p _ l _ random s _ sk HP Hn Hp Hpk Hl Eg Hf) as (ct & Ect & Ed & r & Er & Ekey).
  exists ct. split; [exact Ect|]. intros uk. rewrite Eb, (decrypt_layout B F shake S) by exact Ls.
  unfold decrypt_symmetric_key. rewrite Ed. cbn [bind]. split.
  - intros H. rewrite H. cbn [bind]. rewrite Er. cbn [bind]. rewrite <- Ekey. rewrite array_from_ok by exact Lk. cbn [bind].
    destruct meta as [m|].
    + destruct Et as (mb & em & Em & Ee & Le & ->).
      assert (M : has_more (nonce ++ be32 (blen em) ++ em) = true) by (destruct nonce; reflexivity).
      rewrite M. rewrite <- Hno at 1. change (N.of_nat (length nonce)) with (blen nonce). rewrite scan_next_app. cbn [bind].
      rewrite array_from_ok by exact Hno. cbn [bind]. rewrite scan_u32_app by exact Le. cbn [bind].
      rewrite <- (app_nil_r em) at 2. rewrite scan_next_app. cbn [bind].
      rewrite (law_decrypt _ _ SL _ _ _ _ _ Lk Hno Ee). cbn [bind].
      rewrite (law_meta _ _ SL m mb (Hm m eq_refl) Em). reflexivity.
    + rewrite Et. reflexivity.
  - intros [H|H]; rewrite H; eexists; reflexivity.
Qed.

Lemma pub_slots p n (mdraw : nat -> K) mk : max_attribute_creations p = n -> eng_master_key p mdraw = Ok mk ->
  length (pub_t (pub_key mk)) = N.to_nat n.
Proof using BL.
  intros Hm Hmk. unfold eng_master_key in Hmk. rewrite Hm in Hmk.
  destruct (generate_master_key_inv B BL _ _ _ Hmk) as (t & y & -> & Ht & _). simpl. rewrite map_length. exact Ht.
Qed.

(** ** C72 *)
(** A key made before the operations [ops2] on the policy (rotations and new axes)
    opens a header made after them exactly if the attributes of the header that were
    not rotated satisfy its access policy. *)
Theorem C72_header_after_rotation P n ops1 ops2 p1 p2 p0 (mdraw : nat -> K) mk ap uk l meta random (s : K) nonce h :
  64 <= usize_bits P -> n < 4294967296 ->
  run_ops ops1 (new_policy n) = Ok p1 -> run_ops ops2 p1 = Ok p2 ->
  max_attribute_creations p0 = n -> eng_master_key p0 mdraw = Ok mk ->
  user_key P mk p1 ap uk -> l <> [] ->
  length nonce = nonce_length S -> (forall m, meta = Some m -> metas m) ->
  encrypt_hybrid_header S F shake P p2 (pub_key mk) l meta random s nonce = Ok h ->
  (forall ct, eng_encrypt P p2 (pub_key mk) l random s = Ok ct -> fine (e_prime ct)) ->
  let T := fun b => In b l /\ ~ In (Rotate b) ops2 in
  (satisfied ops1 T ap /\ decrypt_hybrid_header S F shake P uk (eh_bytes h) =
     Ok (mkClearHeader (eh_key h) match meta with Some m => m | None => mkMeta [] None end)) \/
  (~ satisfied ops1 T ap /\ is_err (decrypt_hybrid_header S F shake P uk (eh_bytes h))).
Proof using BL HF SL.
  intros HP Hn H1 H2 Hm0 Hmk Hk Hl Hno Hm He Hf T.
  assert (Hp : run_ops (ops1 ++ ops2) (new_policy n) = Ok p2) by (rewrite run_ops_app, H1; exact H2).
  destruct (header_opened P n (ops1 ++ ops2) p2 (pub_key mk) l meta random s nonce h HP Hn Hp (pub_slots _ _ _ _ Hm0 Hmk) Hl Hno Hm He Hf)
    as (ct & Ect & Ho). destruct (Ho uk) as [Ho1 Ho2].
  destruct (C37_rotation_revokes B BL P n ops1 ops2 p1 p2 p0 mdraw mk ap uk l random s ct H1 H2 Hmk Hk Ect) as [[Hs Hd]|[Hs Hd]]; [left|right]; auto.
Qed.

(** A key made after the operations opens a header made before them exactly if the
    attributes of the header satisfy its access policy. *)
Theorem C72_header_before_rotation P n ops1 ops2 p1 p2 p0 (mdraw : nat -> K) mk ap uk l meta random (s : K) nonce h :
  64 <= usize_bits P -> n < 4294967296 ->
  run_ops ops1 (new_policy n) = Ok p1 -> run_ops ops2 p1 = Ok p2 ->
  max_attribute_creations p0 = n -> eng_master_key p0 mdraw = Ok mk ->
  user_key P mk p2 ap uk -> l <> [] ->
  length nonce = nonce_length S -> (forall m, meta = Some m -> metas m) ->
  encrypt_hybrid_header S F shake P p1 (pub_key mk) l meta random s nonce = Ok h ->
  (forall ct, eng_encrypt P p1 (pub_key mk) l random s = Ok ct -> fine (e_prime ct)) ->
  let T := fun b => In b l in
  (satisfied (ops1 ++ ops2) T ap /\ decrypt_hybrid_header S F shake P uk (eh_bytes h) =
     Ok (mkClearHeader (eh_key h) match meta with Some m => m | None => mkMeta [] None end)) \/
  (~ satisfied (ops1 ++ ops2) T ap /\ is_err (decrypt_hybrid_header S F shake P uk (eh_bytes h))).
Proof using BL HF SL.
  intros HP Hn H1 H2 Hm0 Hmk Hk Hl Hno Hm He Hf T.
  destruct (header_opened P n ops1 p1 (pub_key mk) l meta random s nonce h HP Hn H1 (pub_slots _ _ _ _ Hm0 Hmk) Hl Hno Hm He Hf)
    as (ct & Ect & Ho). destruct (Ho uk) as [Ho1 Ho2].
  destruct (C38_refreshed_key B BL P n ops1 ops2 p1 p2 p0 mdraw mk ap uk l random s ct H1 H2 Hmk Hk Ect) as [[Hs Hd]|[Hs Hd]]; [left|right]; auto.
Qed.
End Versions.

(** the HR attribute is rotated between the key and the header; the refreshed key
    opens headers made before and after *)
Definition ver_header (p : policy) (l : list attribute) : encrypted_header :=
  run empty_header (encrypt_hybrid_header toy_sym toy_forms toy_shake pf p (pub_key ex_mk) l (Some ex_meta) ex_msg ex_s ex_nonce).
Definition ver_open (uk : decryption_key toy) (p : policy) (l : list attribute) : outcome clear_header :=
  decrypt_hybrid_header toy_sym toy_forms toy_shake pf uk (eh_bytes (ver_header p l)).
Example C72_example :
  ver_open (ekey pol_a ex_ap) pol_b [dept "HR"; level "Protected"] = Err InvalidEncryptedData /\
  ver_open (ekey pol_a ex_ap) pol_b [dept "FIN"; level "Protected"]
    = Ok (mkClearHeader (eh_key (ver_header pol_b [dept "FIN"; level "Protected"])) ex_meta) /\
  ver_open (ekey pol_b ex_ap) pol_a [dept "HR"; level "Protected"]
    = Ok (mkClearHeader (eh_key (ver_header pol_a [dept "HR"; level "Protected"])) ex_meta) /\
  ver_open (ekey pol_b ex_ap) pol_b [dept "HR"; level "Protected"]
    = Ok (mkClearHeader (eh_key (ver_header pol_b [dept "HR"; level "Protected"])) ex_meta).
Proof.
  split; [vmr (@Err clear_header InvalidEncryptedData)|].
  split; [vmr (ver_open (ekey pol_a ex_ap) pol_b [dept "FIN"; level "Protected"])|].
  split; [vmr (ver_open (ekey pol_b ex_ap) pol_a [dept "HR"; level "Protected"])|].
  vmr (ver_open (ekey pol_b ex_ap) pol_b [dept "HR"; level "Protected"]).
Qed.

Print Assumptions C72_header_after_rotation.
Print Assumptions C72_header_before_rotation.
