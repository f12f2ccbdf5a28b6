(** Theorems about hybrid encryption: C46-C49, C64, C65. *)
From Coq Require Import String NArith ZArith Bool Arith Lia Strings.Byte List.
From Verif Require Import Prelude Field LinAlg Msp Spec MspProofs Bilinear Scheme SchemeSpec SchemeProofs SchemeTheorems
  Zp ExpModel PropertiesScheme Codec CodecProofs SchemeCodec SchemeCodecProofs PropertiesCodec
  Policy PolicySpec PolicyProofs Engine EngineSpec EngineProofs PropertiesEngine Hybrid HybridSpec.
Import ListNotations.
Local Open Scope N_scope.

(** ** Scanning *)
Lemma scan_next_app a b : scan_next (blen a) (a ++ b) = Ok (a, b).
Proof.
  unfold scan_next. destruct (N.ltb_spec (blen (a ++ b)) (blen a)) as [H|_]; [rewrite blen_app in H; lia|].
  unfold blen. rewrite Nat2N.id, firstn_app, firstn_all, Nat.sub_diag, skipn_app, skipn_all, Nat.sub_diag. cbn [firstn skipn app].
  rewrite app_nil_r. reflexivity.
Qed.
Lemma scan_next_short n s : blen s < n -> scan_next n s = Err CryptoError.
Proof. intros H. unfold scan_next. destruct (N.ltb_spec (blen s) n); [reflexivity|lia]. Qed.
Lemma scan_next_inv n s a r : scan_next n s = Ok (a, r) -> s = a ++ r /\ blen a = n.
Proof.
  unfold scan_next. destruct (N.ltb_spec (blen s) n) as [|H]; [discriminate|]. intros E. apply Ok_inj in E.
  assert (a = firstn (N.to_nat n) s /\ r = skipn (N.to_nat n) s) as [-> ->] by (split; congruence).
  split; [symmetry; apply firstn_skipn|]. unfold blen in *. rewrite firstn_length. lia.
Qed.
Lemma scan_next_ext n s a r t : scan_next n s = Ok (a, r) -> scan_next n (s ++ t) = Ok (a, r ++ t).
Proof. intros E. apply scan_next_inv in E as [-> E]. subst n. rewrite <- app_assoc. apply scan_next_app. Qed.
Lemma scan_next_cases n s : (blen s < n /\ scan_next n s = Err CryptoError) \/ exists a r, scan_next n s = Ok (a, r).
Proof. unfold scan_next. destruct (N.ltb_spec (blen s) n); eauto. Qed.

Lemma scan_u32_app n s : n < u32_modulus -> scan_u32 (be32 n ++ s) = Ok (n, s).
Proof.
  intros H. unfold scan_u32. assert (E : 4 = blen (be32 n)) by reflexivity. rewrite E, scan_next_app. cbn [bind].
  rewrite from_be_be32 by exact H. reflexivity.
Qed.
Lemma scan_u32_inv s n r : scan_u32 s = Ok (n, r) -> exists b, s = b ++ r /\ blen b = 4 /\ n = from_be b.
Proof.
  unfold scan_u32. intros E. apply bind_ok in E as ([b r'] & E & E'). apply Ok_inj in E'.
  assert (n = from_be b /\ r = r') as [-> ->] by (split; congruence). apply scan_next_inv in E as [-> E]. eauto.
Qed.
Lemma scan_u32_ext s n r t : scan_u32 s = Ok (n, r) -> scan_u32 (s ++ t) = Ok (n, r ++ t).
Proof.
  unfold scan_u32. intros E. apply bind_ok in E as ([b r'] & E & E'). apply Ok_inj in E'.
  rewrite (scan_next_ext _ _ _ _ t E). cbn [bind]. congruence.
Qed.
Lemma scan_u32_short s : blen s < 4 -> scan_u32 s = Err CryptoError.
Proof. intros H. unfold scan_u32. rewrite scan_next_short by exact H. reflexivity. Qed.

Lemma array_from_ok n b : length b = n -> array_from n b = Ok b.
Proof. intros <-. unfold array_from. rewrite Nat.eqb_refl. reflexivity. Qed.
Lemma array_from_inv n b b' : array_from n b = Ok b' -> b' = b /\ length b = n.
Proof.
  unfold array_from. destruct (Nat.eqb_spec (length b) n) as [E|]; [|discriminate]. intros H. apply Ok_inj in H. auto.
Qed.
Lemma u32_len_inv b s : u32_len b = Ok s -> blen b < u32_modulus /\ s = be32 (blen b).
Proof.
  unfold u32_len. destruct (N.ltb_spec (blen b) u32_modulus) as [E|]; [|discriminate]. intros H. apply Ok_inj in H. auto.
Qed.
Lemma firstn_be32 n s : firstn 4 (be32 n ++ s) = be32 n.
Proof. reflexivity. Qed.

Lemma firstn_app_le {A} k (a b : list A) : (k <= length a)%nat -> firstn k (a ++ b) = firstn k a.
Proof. intros H. rewrite firstn_app. replace (k - length a)%nat with 0%nat by lia. cbn [firstn]. apply app_nil_r. Qed.
Lemma firstn_app_ge {A} k (a b : list A) : (length a <= k)%nat -> firstn k (a ++ b) = a ++ firstn (k - length a) b.
Proof. intros H. rewrite firstn_app, firstn_all2 by lia. reflexivity. Qed.

Section Properties.
Variable B : BilinearMap.
Hypothesis BL : BilinearLaws B.
Local Notation K := (bm_K B).
Variable F : byte_forms B.
Variable fine : Gt B -> Prop.
Hypothesis HF : forms_ok F fine.
Variable shake : list byte -> nat -> list byte.
Hypothesis shake_length : forall b n, length (shake b n) = n.
Variable S : sym_scheme.
Variable metas : metadata -> Prop.
Hypothesis SL : sym_laws S metas.
Implicit Types P : platform.

(** the layout of a header *)
Lemma header_layout P p (pk : master_public_key B) l meta random (s : K) nonce h :
  encrypt_hybrid_header S F shake P p pk l meta random s nonce = Ok h ->
  exists sk tail,
    generate_symmetric_key P F shake p pk l (key_length S) random s = Ok (eh_key h, sk) /\
    length (eh_key h) = key_length S /\ blen sk < u32_modulus /\
    eh_bytes h = be32 (blen sk) ++ sk ++ tail /\
    match meta with
    | None => tail = []
    | Some m => exists mb em, meta_to_bytes S m = Ok mb /\ sym_encrypt S (eh_key h) mb nonce None = Ok em /\
        blen em < u32_modulus /\ tail = nonce ++ be32 (blen em) ++ em
    end.
Proof using Type.
  unfold encrypt_hybrid_header. intros E. apply bind_ok in E as ([key sk] & Eg & E). apply bind_ok in E as (key' & Ek & E).
  apply array_from_inv in Ek as [-> Lk]. apply bind_ok in E as (sz & Es & E). apply u32_len_inv in Es as [Ls ->].
  apply bind_ok in E as (hd & Eh & E). apply Ok_inj in E. subst h. cbn [eh_key eh_bytes]. exists sk.
  destruct meta as [m|].
  - apply bind_ok in Eh as (mb & Em & Eh). apply bind_ok in Eh as (em & Ee & Eh). apply bind_ok in Eh as (sz & Es & Eh).
    apply u32_len_inv in Es as [Le ->]. apply Ok_inj in Eh. exists (nonce ++ be32 (blen em) ++ em).
    rewrite <- Eh, <- app_assoc. eauto 10.
  - apply Ok_inj in Eh. exists []. rewrite <- Eh, app_nil_r. auto.
Qed.

(** decryption of a header, up to the metadata *)
Lemma decrypt_layout P (uk : decryption_key B) sk tail : blen sk < u32_modulus ->
  decrypt_hybrid_header S F shake P uk (be32 (blen sk) ++ sk ++ tail) =
  (let* sk_bytes := decrypt_symmetric_key P F shake uk sk (key_length S) in
   let* symmetric_key := array_from (key_length S) sk_bytes in
   let* meta :=
      (if has_more tail then
        let* (nonce, r) := scan_next (N.of_nat (nonce_length S)) tail in
        let* nonce := array_from (nonce_length S) nonce in
        let* (size, r) := scan_u32 r in
        let* (em, r) := scan_next size r in
        let* m := sym_decrypt S symmetric_key em nonce None in
        meta_from_bytes S m
      else Ok meta_default) in
   Ok (mkClearHeader symmetric_key meta)).
Proof using Type.
  intros H. unfold decrypt_hybrid_header. rewrite blen_app.
  destruct (N.ltb_spec (blen (be32 (blen sk)) + blen (sk ++ tail)) 4) as [X|_]; [unfold blen in X; rewrite be32_length in X; lia|].
  rewrite scan_u32_app by exact H. cbn [bind]. rewrite scan_next_app. reflexivity.
Qed.

(** ** C46 *)
Theorem C46_header_roundtrip P n ops p (mdraw : nat -> K) mk ap uk l meta random (s : K) nonce h :
  64 <= usize_bits P -> n < 4294967296 ->
  run_ops ops (new_policy n) = Ok p -> eng_master_key p mdraw = Ok mk ->
  user_key P mk p ap uk -> l <> [] -> satisfied ops (fun b => In b l) ap ->
  length nonce = nonce_length S -> (forall m, meta = Some m -> metas m) ->
  encrypt_hybrid_header S F shake P p (pub_key mk) l meta random s nonce = Ok h ->
  (forall ct, eng_encrypt P p (pub_key mk) l random s = Ok ct -> fine (e_prime ct)) ->
  decrypt_hybrid_header S F shake P uk (eh_bytes h) =
    Ok (mkClearHeader (eh_key h) match meta with Some m => m | None => mkMeta [] None end).
Proof.
  intros HP Hn Hp Hmk Hk Hl Hs Hno Hm He Hf.
  destruct (header_layout _ _ _ _ _ _ _ _ _ He) as (sk & tail & Eg & Lk & Ls & Eb & Et).
  rewrite Eb, decrypt_layout by exact Ls.
  destruct (C44_symmetric_key_roundtrip B BL F fine HF shake shake_length P n ops p mdraw mk ap uk l _ random s _ sk
    HP Hn Hp Hmk Hk Hl Hs Eg Hf) as [D _].
  rewrite D. cbn [bind]. rewrite array_from_ok by exact Lk. cbn [bind].
  destruct meta as [m|].
  - destruct Et as (mb & em & Em & Ee & Le & ->).
    assert (M : has_more (nonce ++ be32 (blen em) ++ em) = true) by (destruct nonce; reflexivity).
    rewrite M. rewrite <- Hno at 1. change (N.of_nat (length nonce)) with (blen nonce). rewrite scan_next_app. cbn [bind].
    rewrite array_from_ok by exact Hno. cbn [bind]. rewrite scan_u32_app by exact Le. cbn [bind].
    rewrite <- (app_nil_r em) at 2. rewrite scan_next_app. cbn [bind].
    rewrite (law_decrypt _ _ SL _ _ _ _ _ Lk Hno Ee). cbn [bind].
    rewrite (law_meta _ _ SL m mb (Hm m eq_refl) Em). reflexivity.
  - rewrite Et. reflexivity.
Qed.

(** ** C47 *)
Theorem C47_unauthorised_header P n ops p (mdraw : nat -> K) mk ap uk l meta random (s : K) nonce h k :
  64 <= usize_bits P -> n < 4294967296 ->
  run_ops ops (new_policy n) = Ok p -> eng_master_key p mdraw = Ok mk ->
  user_key P mk p ap uk -> l <> [] -> ~ satisfied ops (fun b => In b l) ap ->
  encrypt_hybrid_header S F shake P p (pub_key mk) l meta random s nonce = Ok h ->
  (forall ct, eng_encrypt P p (pub_key mk) l random s = Ok ct -> fine (e_prime ct)) ->
  is_err (decrypt_hybrid_header S F shake P uk (firstn k (eh_bytes h))).
Proof using BL HF.
  intros HP Hn Hp Hmk Hk Hl Hs He Hf.
  destruct (header_layout _ _ _ _ _ _ _ _ _ He) as (sk & tail & Eg & Lk & Ls & Eb & Et). rewrite Eb.
  assert (R : is_err (decrypt_symmetric_key P F shake uk sk (key_length S))).
  { destruct (C45_unauthorised_symmetric_key B BL F fine HF shake P n ops p mdraw mk ap uk l _ (key_length S) random s _ sk
      HP Hn Hp Hmk Hk Hl Hs Eg Hf) as [D|D]; rewrite D; eexists; reflexivity. }
  destruct (le_lt_dec (4 + length sk) k) as [Hk'|Hk'].
  - rewrite firstn_app_ge by (rewrite be32_length; lia). rewrite be32_length, firstn_app_ge by lia.
    rewrite decrypt_layout by exact Ls. destruct R as [e R]. rewrite R. eexists; reflexivity.
  - clear R. unfold decrypt_hybrid_header.
    destruct (N.ltb_spec (blen (firstn k (be32 (blen sk) ++ sk ++ tail))) 4) as [|H4]; [eexists; reflexivity|].
    assert (Hk4 : (4 <= k)%nat) by (unfold blen in H4; rewrite firstn_length in H4; lia).
    rewrite firstn_app_ge by (rewrite be32_length; lia). rewrite be32_length, firstn_app_le by lia.
    rewrite scan_u32_app by exact Ls. cbn [bind]. rewrite scan_next_short; [eexists; reflexivity|].
    unfold blen. rewrite firstn_length. lia.
Qed.

(** cutting a header *)
Theorem C47_truncated_header P n ops p (mdraw : nat -> K) mk ap uk l meta random (s : K) nonce h k :
  64 <= usize_bits P -> n < 4294967296 ->
  run_ops ops (new_policy n) = Ok p -> eng_master_key p mdraw = Ok mk ->
  user_key P mk p ap uk -> l <> [] -> satisfied ops (fun b => In b l) ap ->
  length nonce = nonce_length S ->
  encrypt_hybrid_header S F shake P p (pub_key mk) l meta random s nonce = Ok h ->
  (forall ct, eng_encrypt P p (pub_key mk) l random s = Ok ct -> fine (e_prime ct)) ->
  (k < length (eh_bytes h))%nat ->
  let size := from_be (firstn 4 (eh_bytes h)) in
  (N.of_nat k = 4 + size ->
     decrypt_hybrid_header S F shake P uk (firstn k (eh_bytes h)) = Ok (mkClearHeader (eh_key h) (mkMeta [] None))) /\
  (N.of_nat k <> 4 + size -> is_err (decrypt_hybrid_header S F shake P uk (firstn k (eh_bytes h)))).
Proof.
  intros HP Hn Hp Hmk Hk Hl Hs Hno He Hf Hlt.
  destruct (header_layout _ _ _ _ _ _ _ _ _ He) as (sk & tail & Eg & Lk & Ls & Eb & Et). rewrite Eb in *.
  destruct (C44_symmetric_key_roundtrip B BL F fine HF shake shake_length P n ops p mdraw mk ap uk l _ random s _ sk
    HP Hn Hp Hmk Hk Hl Hs Eg Hf) as [D _].
  intros size. assert (Es : size = blen sk) by (unfold size; rewrite firstn_be32; apply from_be_be32; exact Ls).
  clearbody size. subst size. rewrite !app_length, be32_length in Hlt.
  destruct (le_lt_dec (4 + length sk) k) as [Hk'|Hk'].
  - rewrite firstn_app_ge by (rewrite be32_length; lia). rewrite be32_length, firstn_app_ge by lia.
    rewrite decrypt_layout by exact Ls. rewrite D. cbn [bind]. rewrite array_from_ok by exact Lk. cbn [bind].
    remember (k - 4 - length sk)%nat as j eqn:Ej. split; intros Hc; change (blen sk) with (N.of_nat (length sk)) in Hc.
    + replace j with 0%nat by lia. reflexivity.
    + destruct meta as [m|]; [|rewrite Et in Hlt; simpl in Hlt; lia].
      destruct Et as (mb & em & _ & _ & Le & ->). rewrite !app_length, be32_length in Hlt.
      assert (M : has_more (firstn j (nonce ++ be32 (blen em) ++ em)) = true).
      { destruct j; [lia|]. destruct (nonce ++ be32 (blen em) ++ em) eqn:Q; [|reflexivity].
        apply (f_equal (@length byte)) in Q. rewrite !app_length, be32_length in Q. simpl in Q. lia. }
      rewrite M. destruct (le_lt_dec (length nonce) j) as [H1|H1].
      2:{ rewrite scan_next_short; [eexists; reflexivity|]. unfold blen. rewrite firstn_length. lia. }
      rewrite firstn_app_ge by exact H1. rewrite <- Hno at 1. change (N.of_nat (length nonce)) with (blen nonce).
      rewrite scan_next_app. cbn [bind]. rewrite array_from_ok by exact Hno. cbn [bind].
      destruct (le_lt_dec (4 + length nonce) j) as [H2|H2].
      2:{ rewrite scan_u32_short; [eexists; reflexivity|]. unfold blen. rewrite firstn_length. lia. }
      rewrite firstn_app_ge by (rewrite be32_length; lia). rewrite be32_length, scan_u32_app by exact Le. cbn [bind].
      rewrite scan_next_short; [eexists; reflexivity|]. unfold blen. rewrite firstn_length. lia.
  - split; intros Hc; [unfold blen in Hc; lia|]. unfold decrypt_hybrid_header.
    destruct (N.ltb_spec (blen (firstn k (be32 (blen sk) ++ sk ++ tail))) 4) as [|H4]; [eexists; reflexivity|].
    assert (Hk4 : (4 <= k)%nat) by (unfold blen in H4; rewrite firstn_length in H4; lia).
    rewrite firstn_app_ge by (rewrite be32_length; lia). rewrite be32_length, firstn_app_le by lia.
    rewrite scan_u32_app by exact Ls. cbn [bind]. rewrite scan_next_short; [eexists; reflexivity|].
    unfold blen. rewrite firstn_length. lia.
Qed.

(** ** C48 *)
Lemma split_header_app P key rest : 64 <= usize_bits P -> blen key < u32_modulus ->
  split_header P (be32 (blen key) ++ key ++ rest) = Ok (key, rest).
Proof using Type.
  intros HP Lk. pose proof (big P HP) as Hb. unfold split_header.
  assert (L : blen (be32 (blen key) ++ key ++ rest) = 4 + blen key + blen rest)
    by (rewrite !blen_app; unfold blen at 1; rewrite be32_length; lia).
  rewrite L. destruct (N.ltb_spec (4 + blen key + blen rest) 4) as [|_]; [lia|].
  rewrite firstn_be32, from_be_be32 by exact Lk. unfold u32_modulus in Lk. rewrite usize_add_exact by lia. cbn [bind].
  destruct (N.leb_spec 4 (4 + blen key)) as [_|]; [|lia]. destruct (N.leb_spec (4 + blen key) (4 + blen key + blen rest)) as [_|]; [|lia].
  cbn [andb bind].
  change (blen (be32 (blen key) ++ key ++ rest)) with (N.of_nat (length (be32 (blen key) ++ key ++ rest))) in L.
  rewrite slice_fromN_ok by lia. cbn [bind].
  replace (4 + blen key - 4) with (blen key) by lia. unfold blen. rewrite Nat2N.id.
  change (skipn 4 (be32 (N.of_nat (length key)) ++ key ++ rest)) with (key ++ rest).
  rewrite firstn_app, firstn_all, Nat.sub_diag. cbn [firstn]. rewrite app_nil_r.
  replace (N.to_nat (4 + N.of_nat (length key))) with (length (be32 (N.of_nat (length key)) ++ key)) by (rewrite app_length, be32_length; lia).
  rewrite app_assoc, skipn_app, skipn_all, Nat.sub_diag. reflexivity.
Qed.

Theorem C48_encrypted_header_roundtrip P h b : 64 <= usize_bits P -> length (eh_key h) = key_length S ->
  eh_enc S h = Ok b -> eh_dec S P b = Ok h.
Proof.
  intros HP Lk E. unfold eh_enc in E. apply Ok_inj in E. subst b. unfold eh_dec. rewrite <- Lk.
  change (N.of_nat (length (eh_key h))) with (blen (eh_key h)). rewrite split_header_app; [|exact HP|].
  - cbn [bind]. rewrite array_from_ok by reflexivity. destruct h; reflexivity.
  - unfold blen. rewrite Lk. apply (law_key _ _ SL).
Qed.

Theorem C48_clear_header_roundtrip P h b : 64 <= usize_bits P -> length (ch_key h) = key_length S ->
  metas (ch_meta h) -> ch_enc S h = Ok b -> ch_dec S P b = Ok h.
Proof.
  intros HP Lk Hm E. unfold ch_enc in E. apply bind_ok in E as (m & Em & E). apply Ok_inj in E. subst b. unfold ch_dec. rewrite <- Lk.
  change (N.of_nat (length (ch_key h))) with (blen (ch_key h)). rewrite split_header_app; [|exact HP|].
  - cbn [bind]. rewrite array_from_ok by reflexivity. cbn [bind]. rewrite (law_meta _ _ SL _ _ Hm Em). destruct h; reflexivity.
  - unfold blen. rewrite Lk. apply (law_key _ _ SL).
Qed.

(** decoding panics exactly when the announced key length exceeds what follows *)
Theorem C48_decoding_panics_iff P b : 64 <= usize_bits P -> sym_total S ->
  let wrong := 4 <= blen b /\ blen b < 4 + from_be (firstn 4 b) in
  ((exists p, eh_dec S P b = Panic p) <-> wrong) /\ ((exists p, ch_dec S P b = Panic p) <-> wrong).
Proof using Type.
  intros HP (_ & Tm & _) wrong. pose proof (big P HP) as Hb.
  assert (Sp : (wrong /\ split_header P b = Panic SliceOutOfRange) \/ (~ wrong /\ no_panic (split_header P b))).
  { unfold split_header, wrong. destruct (N.ltb_spec (blen b) 4) as [H|H]; [right; split; [lia|apply no_panic_err]|].
    assert (R : from_be (firstn 4 b) < u32_modulus) by (apply from_be_range; unfold blen in H; rewrite firstn_length; lia).
    unfold u32_modulus in R. rewrite usize_add_exact by lia. cbn [bind]. set (n := from_be (firstn 4 b)) in *. clearbody n.
    destruct (N.leb_spec 4 (4 + n)) as [_|]; [|lia]. cbn [andb]. destruct (N.leb_spec (4 + n) (blen b)) as [H1|H1].
    - right. split; [lia|]. cbn [bind]. rewrite slice_fromN_ok by (unfold blen in H1; lia). apply no_panic_ok.
    - left. split; [lia|reflexivity]. }
  destruct Sp as [[W E]|[W E]].
  - unfold eh_dec, ch_dec. rewrite E. cbn [bind]. split; split; intros _; try exact W; eexists; reflexivity.
  - assert (A : forall k, no_panic (array_from (key_length S) k)).
    { intros k. unfold array_from. destruct (Nat.eqb _ _); [apply no_panic_ok|apply no_panic_err]. }
    split; split; try (intros H; contradiction); intros [p H]; exfalso; revert H.
    + unfold eh_dec. apply no_panic_bind; [exact E|]. intros [key rest] _. apply no_panic_bind; [apply A|]. intros; apply no_panic_ok.
    + unfold ch_dec. apply no_panic_bind; [exact E|]. intros [key rest] _. apply no_panic_bind; [apply A|]. intros a _.
      apply no_panic_bind; [exact (Tm rest)|]. intros; apply no_panic_ok.
Qed.

Theorem C48_refuted P : 64 <= usize_bits P -> sym_total S ->
  exists b, length b = 4%nat /\ (exists p, eh_dec S P b = Panic p) /\ (exists p, ch_dec S P b = Panic p).
Proof using Type.
  intros HP T. exists (be32 1). split; [reflexivity|].
  destruct (C48_decoding_panics_iff P (be32 1) HP T) as [H1 H2]. split; [apply H1|apply H2]; split; vm_compute; congruence.
Qed.

(** ** C49 *)
Lemma block_not_empty max key u number nonce plaintext c :
  length key = key_length S -> length nonce = nonce_length S ->
  encrypt_hybrid_block S max key u number nonce plaintext = Ok c -> c <> [].
Proof.
  intros Lk Ln E Hc. unfold encrypt_hybrid_block in E. destruct plaintext as [|x t] eqn:Q; [discriminate|]. rewrite <- Q in *.
  destruct (N.ltb_spec max (blen plaintext)) as [|H]; [discriminate|].
  pose proof (law_overhead _ _ SL _ _ _ _ _ _ Lk Ln E) as L. rewrite Hc, Q in L. unfold blen in L. cbn [length] in L. lia.
Qed.

Theorem C49_block_roundtrip max key u number nonce plaintext c :
  length key = key_length S -> length nonce = nonce_length S ->
  encrypt_hybrid_block S max key u number nonce plaintext = Ok c ->
  decrypt_hybrid_block S max key u number c = Ok plaintext /\ blen c = blen plaintext + overhead S /\
  plaintext <> [] /\ blen plaintext <= max.
Proof.
  intros Lk Ln E. pose proof (block_not_empty _ _ _ _ _ _ _ Lk Ln E) as Hc. unfold encrypt_hybrid_block in E. destruct plaintext as [|x t] eqn:Q; [discriminate|].
  assert (Hne : plaintext <> []) by (rewrite Q; discriminate). rewrite <- Q in *.
  destruct (N.ltb_spec max (blen plaintext)) as [|H]; [discriminate|].
  assert (L : blen c = blen plaintext + overhead S) by exact (law_overhead _ _ SL _ _ _ _ _ _ Lk Ln E).
  split; [|repeat split; assumption].
  unfold decrypt_hybrid_block. destruct c as [|y r] eqn:Qc; [contradiction|]. rewrite <- Qc in *.
  destruct (N.ltb_spec (max + overhead S) (blen c)) as [|_]; [lia|]. exact (law_block _ _ SL _ _ _ _ _ _ Lk Ln E).
Qed.

Theorem C49_limits max key u number nonce b :
  (b = [] -> encrypt_hybrid_block S max key u number nonce b = Err EmptyPlaintext /\
             decrypt_hybrid_block S max key u number b = Err EmptyCiphertext) /\
  (max < blen b -> is_err (encrypt_hybrid_block S max key u number nonce b)) /\
  (max + overhead S < blen b -> is_err (decrypt_hybrid_block S max key u number b)).
Proof using Type.
  repeat split.
  - subst b. reflexivity.
  - subst b. reflexivity.
  - intros H. unfold encrypt_hybrid_block. destruct b as [|x t] eqn:Q; [eexists; reflexivity|]. rewrite <- Q in *.
    destruct (N.ltb_spec max (blen b)) as [_|]; [eexists; reflexivity|lia].
  - intros H. unfold decrypt_hybrid_block. destruct b as [|x t] eqn:Q; [eexists; reflexivity|]. rewrite <- Q in *.
    destruct (N.ltb_spec (max + overhead S) (blen b)) as [_|]; [eexists; reflexivity|lia].
Qed.

(** ** C64: what a hostile header can do *)
Theorem C64_framing_never_panics P (uk : decryption_key B) b p : sym_total S ->
  decrypt_hybrid_header S F shake P uk b = Panic p ->
  let size := from_be (firstn 4 b) in
  4 + size <= blen b /\
  decrypt_symmetric_key P F shake uk (firstn (N.to_nat size) (skipn 4 b)) (key_length S) = Panic p.
Proof using Type.
  intros (T1 & T2 & _) E. unfold decrypt_hybrid_header in E. destruct (N.ltb_spec (blen b) 4) as [|H4]; [discriminate|].
  apply bind_panic in E as [E|([size r] & Es & E)].
  { exfalso. revert E. unfold scan_u32. destruct (scan_next_cases 4 b) as [[_ Q]|(x & y & Q)]; rewrite Q; discriminate. }
  apply scan_u32_inv in Es as (b4 & -> & L4 & ->). cbv zeta.
  assert (Q4 : firstn 4 (b4 ++ r) = b4).
  { rewrite firstn_app_ge by (unfold blen in L4; lia). replace (4 - length b4)%nat with 0%nat by (unfold blen in L4; lia). apply app_nil_r. }
  assert (S4 : skipn 4 (b4 ++ r) = r).
  { rewrite skipn_app, skipn_all2 by (unfold blen in L4; lia). replace (4 - length b4)%nat with 0%nat by (unfold blen in L4; lia). reflexivity. }
  rewrite Q4, S4. apply bind_panic in E as [E|([sk r'] & Es & E)].
  { exfalso. revert E. destruct (scan_next_cases (from_be b4) r) as [[_ Q]|(x & y & Q)]; rewrite Q; discriminate. }
  apply scan_next_inv in Es as [-> Ls]. rewrite !blen_app. split; [lia|].
  assert (Q : firstn (N.to_nat (from_be b4)) (sk ++ r') = sk).
  { rewrite <- Ls. unfold blen. rewrite Nat2N.id, firstn_app, firstn_all, Nat.sub_diag. apply app_nil_r. }
  rewrite Q. assert (A : forall n k q, array_from n k <> Panic q).
  { intros n k q. unfold array_from. destruct (Nat.eqb _ _); discriminate. }
  apply bind_panic in E as [E|(skb & Ed & E)]; [exact E|]. exfalso.
  apply bind_panic in E as [E|(key & Ek & E)]; [exact (A _ _ _ E)|].
  apply bind_panic in E as [E|(m & Em & E)]; [|discriminate].
  destruct (has_more r'); [|discriminate].
  apply bind_panic in E as [E|([no r2] & Em & E)].
  { destruct (scan_next_cases (N.of_nat (nonce_length S)) r') as [[_ X]|(x & y & X)]; rewrite X in E; discriminate. }
  apply bind_panic in E as [E|(no' & En & E)]; [exact (A _ _ _ E)|].
  apply bind_panic in E as [E|([sz r3] & Em' & E)].
  { unfold scan_u32 in E. destruct (scan_next_cases 4 r2) as [[_ X]|(x & y & X)]; rewrite X in E; discriminate. }
  apply bind_panic in E as [E|([em r4] & Em'' & E)].
  { destruct (scan_next_cases sz r3) as [[_ X]|(x & y & X)]; rewrite X in E; discriminate. }
  apply bind_panic in E as [E|(mb & Emb & E)]; [exact (T1 _ _ _ _ _ E)|exact (T2 _ _ E)].
Qed.

(** With a genuine key and without overflow checks, the only headers that make
    decryption panic carry a ciphertext that lists more attributes than it has
    group elements. *)
Theorem C64_only_uneven_ciphertexts_panic P size (mdraw : nat -> K) mk f (uk : decryption_key B) b p :
  64 <= usize_bits P -> overflow_checks P = false -> blen b < 9223372036854775808 -> sym_total S ->
  generate_master_key size mdraw = Ok mk -> obtained B P mk f uk -> (forall a, In a (leaves f) -> a < 4294967296) ->
  decrypt_hybrid_header S F shake P uk b = Panic p ->
  exists ct, ct_dec F P (firstn (N.to_nat (from_be (firstn 4 b))) (skipn 4 b)) = Ok ct /\
             (length (e_i ct) < length (gamma ct))%nat.
Proof using BL HF.
  intros HP Ho Hb T Hmk Hk Hu E. destruct (C64_framing_never_panics P uk b p T E) as [Hl D]. cbv zeta in *.
  set (sk := firstn (N.to_nat (from_be (firstn 4 b))) (skipn 4 b)) in *.
  assert (Lsk : blen sk < 9223372036854775808) by (unfold sk, blen in *; rewrite firstn_length, skipn_length; lia).
  unfold decrypt_symmetric_key in D. apply bind_panic in D as [D|(ct & Ec & D)].
  - exfalso. destruct (C22_decoding_never_panics B F fine HF P sk HP Ho Lsk) as (_ & _ & _ & _ & N). exact (N p D).
  - exists ct. split; [exact Ec|]. destruct (le_lt_dec (length (gamma ct)) (length (e_i ct))) as [H|H]; [exfalso|exact H].
    apply bind_panic in D as [D|(o & Eo & D)].
    + exact (C23_decrypting_decoded_never_panics B BL P size mdraw mk f uk ct Hmk Hk Hu H p D).
    + destruct o; discriminate D.
Qed.

(** ** C65: bytes after a header that carries metadata are ignored *)
Theorem C65_trailing_bytes_ignored P (uk : decryption_key B) b c rest :
  decrypt_hybrid_header S F shake P uk b = Ok c -> 4 + from_be (firstn 4 b) < blen b ->
  decrypt_hybrid_header S F shake P uk (b ++ rest) = Ok c.
Proof using Type.
  intros E Hlt. unfold decrypt_hybrid_header in *. rewrite blen_app. destruct (N.ltb_spec (blen b) 4) as [|H4]; [discriminate|].
  destruct (N.ltb_spec (blen b + blen rest) 4) as [|_]; [lia|].
  apply bind_ok in E as ([size r] & Es & E). rewrite (scan_u32_ext _ _ _ rest Es). cbn [bind].
  apply bind_ok in E as ([sk r'] & Esk & E). rewrite (scan_next_ext _ _ _ _ rest Esk). cbn [bind].
  apply bind_ok in E as (skb & -> & E). cbn [bind]. apply bind_ok in E as (key & -> & E). cbn [bind].
  apply bind_ok in E as (m & Em & E).
  apply scan_u32_inv in Es as (b4 & -> & L4 & ->). apply scan_next_inv in Esk as [-> Ls].
  assert (Q4 : firstn 4 (b4 ++ sk ++ r') = b4).
  { rewrite firstn_app_ge by (unfold blen in L4; lia). replace (4 - length b4)%nat with 0%nat by (unfold blen in L4; lia). apply app_nil_r. }
  rewrite Q4, !blen_app in Hlt. destruct r' as [|x r']; [rewrite blen_nil in Hlt; lia|].
  cbn [has_more app] in *. change (x :: r' ++ rest) with ((x :: r') ++ rest).
  apply bind_ok in Em as ([no r2] & En & Em). rewrite (scan_next_ext _ _ _ _ rest En). cbn [bind].
  apply bind_ok in Em as (no' & -> & Em). cbn [bind]. apply bind_ok in Em as ([sz r3] & E3 & Em).
  rewrite (scan_u32_ext _ _ _ rest E3). cbn [bind]. apply bind_ok in Em as ([em r4] & E4 & Em).
  rewrite (scan_next_ext _ _ _ _ rest E4). cbn [bind]. apply bind_ok in Em as (mb & -> & Em). cbn [bind]. rewrite Em. exact E.
Qed.

(** while a header without metadata tolerates none of 1 to nonce + 3 bytes *)
Theorem C65_bare_header_not_extendable P (uk : decryption_key B) b rest :
  4 + from_be (firstn 4 b) = blen b -> rest <> [] -> blen rest < N.of_nat (nonce_length S) + 4 ->
  no_panic (decrypt_hybrid_header S F shake P uk b) ->
  is_err (decrypt_hybrid_header S F shake P uk (b ++ rest)).
Proof using Type.
  intros Hb Hr Hlt Np.
  assert (L4 : (4 <= length b)%nat) by (unfold blen in Hb; lia).
  assert (exists sk, b = be32 (blen sk) ++ sk ++ [] /\ blen sk < u32_modulus) as (sk & -> & Ls).
  { exists (skipn 4 b). assert (Q : blen (skipn 4 b) = from_be (firstn 4 b)) by (unfold blen in *; rewrite skipn_length; lia).
    assert (L : length (firstn 4 b) = 4%nat) by (rewrite firstn_length; lia).
    rewrite Q, be32_from_be, app_nil_r, firstn_skipn by exact L. split; [reflexivity|]. apply from_be_range. exact L. }
  rewrite decrypt_layout in Np by exact Ls. rewrite app_nil_r, <- app_assoc, decrypt_layout by exact Ls. clear Hb.
  destruct (decrypt_symmetric_key P F shake uk sk (key_length S)) as [skb|e|q]; cbn [bind] in *; [|eexists; reflexivity|destruct (Np q eq_refl)].
  destruct (array_from (key_length S) skb) as [key|e|q]; cbn [bind] in *; [|eexists; reflexivity|destruct (Np q eq_refl)].
  destruct rest as [|x rest]; [contradiction|]. cbn [has_more].
  destruct (scan_next_cases (N.of_nat (nonce_length S)) (x :: rest)) as [[_ Q]|(no & r & Q)]; rewrite Q; cbn [bind]; [eexists; reflexivity|].
  destruct (array_from (nonce_length S) no) as [no'|e|q] eqn:Ea; cbn [bind]; [|eexists; reflexivity|].
  2:{ unfold array_from in Ea. destruct (Nat.eqb _ _); discriminate. }
  apply scan_next_inv in Q as [Q1 Q2]. rewrite Q1, blen_app in Hlt. rewrite scan_u32_short by lia. eexists; reflexivity.
Qed.
End Properties.

(** ** Examples and witnesses *)
(** A symmetric scheme to compute with: a checksum over everything stands for the
    authentication tag. *)
Definition sum_bytes (b : list byte) : byte := byte_of (fold_left (fun acc x => 3 * acc + Byte.to_N x + 1) b 0).
Definition toy_tag (k m n : list byte) (a : option (list byte)) : byte :=
  sum_bytes (k ++ n ++ match a with Some a => x01 :: a | None => [x00] end ++ m).
Definition toy_encrypt (k m n : list byte) (a : option (list byte)) : outcome (list byte) := Ok (toy_tag k m n a :: m).
Definition toy_decrypt (k c n : list byte) (a : option (list byte)) : outcome (list byte) :=
  match c with
  | [] => Err CryptoError
  | t :: m => if Byte.eqb t (toy_tag k m n a) then Ok m else Err CryptoError
  end.
Definition toy_sym : sym_scheme := mkSym 32 12 13 toy_encrypt toy_decrypt
  (fun k u i n m => let* c := toy_encrypt k m n (Some (u ++ be32 i)) in Ok (n ++ c))
  (fun k u i c => let* (n, c) := scan_next 12 c in toy_decrypt k c n (Some (u ++ be32 i)))
  (fun m => let* n := u32_len (uid m) in
            Ok (n ++ uid m ++ match additional_data m with Some a => a | None => [] end))
  (fun b => match b with
            | [] => Ok meta_default
            | _ => let* (n, r) := scan_u32 b in
                   let* (u, r) := scan_next n r in
                   Ok (mkMeta u match r with [] => None | _ => Some r end)
            end).

Lemma toy_round k m n a : toy_decrypt k (toy_tag k m n a :: m) n a = Ok m.
Proof. unfold toy_decrypt. destruct (Byte.eqb _ _) eqn:E; [reflexivity|]. apply Byte.eqb_false in E. contradiction. Qed.

Lemma toy_sym_laws : sym_laws toy_sym (fun m => additional_data m <> Some []).
Proof.
  constructor.
  - reflexivity.
  - intros k m n a c _ _ E. cbn [sym_encrypt toy_sym] in E. unfold toy_encrypt in E. apply Ok_inj in E. subst c. apply toy_round.
  - intros k u i n m c _ Ln E. cbn [block_encrypt toy_sym] in E. unfold toy_encrypt in E. cbn [bind] in E. apply Ok_inj in E. subst c.
    cbn [block_decrypt toy_sym]. assert (Q : 12 = blen n) by (unfold blen; rewrite Ln; reflexivity). rewrite Q, scan_next_app.
    cbn [bind]. apply toy_round.
  - intros k u i n m c _ Ln E. cbn [block_encrypt toy_sym] in E. unfold toy_encrypt in E. cbn [bind] in E. apply Ok_inj in E. subst c.
    rewrite blen_app. unfold blen. cbn [length]. rewrite Ln. cbn [nonce_length toy_sym overhead]. lia.
  - intros m b Hm E. cbn [meta_to_bytes toy_sym] in E. apply bind_ok in E as (sz & Es & E). apply u32_len_inv in Es as [L ->].
    apply Ok_inj in E. subst b. cbn [meta_from_bytes toy_sym].
    assert (Q : match be32 (blen (uid m)) ++ uid m ++ match additional_data m with Some a => a | None => [] end with
      [] => False | _ => True end) by exact Logic.I.
    destruct (be32 (blen (uid m)) ++ uid m ++ match additional_data m with Some a => a | None => [] end) eqn:W; [contradiction|].
    rewrite <- W, scan_u32_app by exact L. cbn [bind]. rewrite scan_next_app. cbn [bind].
    destruct m as [u [[|x t]|]]; [destruct (Hm eq_refl)|reflexivity|reflexivity].
Qed.

Lemma toy_sym_total : sym_total toy_sym.
Proof.
  assert (D : forall k c n a p, toy_decrypt k c n a <> Panic p).
  { intros k [|t m] n a p; cbn [toy_decrypt]; [discriminate|]. destruct (Byte.eqb _ _); discriminate. }
  split; [exact D|]. split.
  - intros b p E. cbn [meta_from_bytes toy_sym] in E. destruct b as [|x t] eqn:Q; [discriminate|]. rewrite <- Q in E.
    unfold scan_u32 in E. destruct (scan_next_cases 4 b) as [[_ X]|(y & z & X)]; rewrite X in E; [discriminate|]. cbn [bind] in E.
    destruct (scan_next_cases (from_be y) z) as [[_ X']|(y' & z' & X')]; rewrite X' in E; discriminate.
  - intros k u i c p E. cbn [block_decrypt toy_sym] in E.
    destruct (scan_next_cases 12 c) as [[_ X]|(y & z & X)]; rewrite X in E; [discriminate|]. cbn [bind] in E. exact (D _ _ _ _ _ E).
Qed.

Definition ex_meta : metadata := mkMeta [x01; x02; x03] (Some [x0a; x0b]).
Definition ex_nonce : list byte := repeat x07 12.
Definition empty_header : encrypted_header := mkEncHeader [] [].
Definition ex_header (l : list attribute) (meta : option metadata) : encrypted_header :=
  run empty_header (encrypt_hybrid_header toy_sym toy_forms toy_shake pf pol_a (pub_key ex_mk) l meta ex_msg ex_s ex_nonce).

(** a header with metadata, opened by an authorised key, refused to another list of
    attributes, and cut at three places *)
Example C46_C47_example :
  encrypt_hybrid_header toy_sym toy_forms toy_shake pf pol_a (pub_key ex_mk) [dept "HR"; level "Protected"] (Some ex_meta) ex_msg ex_s ex_nonce
    = Ok (ex_header [dept "HR"; level "Protected"] (Some ex_meta)) /\
  decrypt_hybrid_header toy_sym toy_forms toy_shake pf (ekey pol_a ex_ap) (eh_bytes (ex_header [dept "HR"; level "Protected"] (Some ex_meta)))
    = Ok (mkClearHeader (eh_key (ex_header [dept "HR"; level "Protected"] (Some ex_meta))) ex_meta) /\
  decrypt_hybrid_header toy_sym toy_forms toy_shake pf (ekey pol_a ex_ap) (eh_bytes (ex_header [dept "HR"] (Some ex_meta)))
    = Err InvalidEncryptedData /\
  decrypt_hybrid_header toy_sym toy_forms toy_shake pf (ekey pol_a ex_ap) (firstn 404 (eh_bytes (ex_header [dept "HR"; level "Protected"] (Some ex_meta))))
    = Ok (mkClearHeader (eh_key (ex_header [dept "HR"; level "Protected"] (Some ex_meta))) (mkMeta [] None)) /\
  decrypt_hybrid_header toy_sym toy_forms toy_shake pf (ekey pol_a ex_ap) (firstn 403 (eh_bytes (ex_header [dept "HR"; level "Protected"] (Some ex_meta))))
    = Err CryptoError /\
  decrypt_hybrid_header toy_sym toy_forms toy_shake pf (ekey pol_a ex_ap) (firstn 405 (eh_bytes (ex_header [dept "HR"; level "Protected"] (Some ex_meta))))
    = Err CryptoError.
Proof.
  split; [vmr (@Ok encrypted_header (ex_header [dept "HR"; level "Protected"] (Some ex_meta)))|].
  split; [vmr (@Ok clear_header (mkClearHeader (eh_key (ex_header [dept "HR"; level "Protected"] (Some ex_meta))) ex_meta))|].
  split; [vmr (@Err clear_header InvalidEncryptedData)|].
  split; [vmr (@Ok clear_header (mkClearHeader (eh_key (ex_header [dept "HR"; level "Protected"] (Some ex_meta))) (mkMeta [] None)))|].
  split; vmr (@Err clear_header CryptoError).
Qed.

Example C48_example :
  eh_dec toy_sym pf (bytes_of (eh_enc toy_sym (mkEncHeader (repeat x05 32) [x01; x02]))) = Ok (mkEncHeader (repeat x05 32) [x01; x02]) /\
  ch_dec toy_sym pf (bytes_of (ch_enc toy_sym (mkClearHeader (repeat x05 32) ex_meta))) = Ok (mkClearHeader (repeat x05 32) ex_meta) /\
  eh_dec toy_sym pf [x00; x00; x00; x20; x01] = Panic SliceOutOfRange.
Proof. repeat split. Qed.

Example C49_example :
  decrypt_hybrid_block toy_sym 100 (repeat x05 32) [x01] 7
    (bytes_of (encrypt_hybrid_block toy_sym 100 (repeat x05 32) [x01] 7 ex_nonce [x01; x02])) = Ok [x01; x02] /\
  is_err (decrypt_hybrid_block toy_sym 100 (repeat x05 32) [x01] 8
    (bytes_of (encrypt_hybrid_block toy_sym 100 (repeat x05 32) [x01] 7 ex_nonce [x01; x02]))).
Proof. split; [reflexivity|eexists; vm_compute; reflexivity]. Qed.

(** a header that makes the decryption with a genuine key panic *)
Theorem C64_refuted : exists b, sym_total toy_sym /\ derived toy pf ex_mk ex_f ex_uk /\
  decrypt_hybrid_header toy_sym toy_forms toy_shake release64 ex_uk b = Panic IndexOutOfBounds.
Proof.
  exists (be32 (blen ex_uneven) ++ ex_uneven). split; [exact toy_sym_total|]. split; [exact ex_derived|].
  vmr (@Panic clear_header IndexOutOfBounds).
Qed.

Example C65_example :
  decrypt_hybrid_header toy_sym toy_forms toy_shake pf (ekey pol_a ex_ap)
    (eh_bytes (ex_header [dept "HR"; level "Protected"] (Some ex_meta)) ++ [x01; x02; x03])
    = Ok (mkClearHeader (eh_key (ex_header [dept "HR"; level "Protected"] (Some ex_meta))) ex_meta) /\
  decrypt_hybrid_header toy_sym toy_forms toy_shake pf (ekey pol_a ex_ap)
    (eh_bytes (ex_header [dept "HR"; level "Protected"] None) ++ [x01; x02; x03]) = Err CryptoError.
Proof.
  split; [vmr (@Ok clear_header (mkClearHeader (eh_key (ex_header [dept "HR"; level "Protected"] (Some ex_meta))) ex_meta))|].
  vmr (@Err clear_header CryptoError).
Qed.

Print Assumptions C46_header_roundtrip.
Print Assumptions C47_unauthorised_header.
Print Assumptions C47_truncated_header.
Print Assumptions C48_encrypted_header_roundtrip.
Print Assumptions C48_clear_header_roundtrip.
Print Assumptions C48_decoding_panics_iff.
Print Assumptions C48_refuted.
Print Assumptions C49_block_roundtrip.
Print Assumptions C49_limits.
Print Assumptions C64_framing_never_panics.
Print Assumptions C64_only_uneven_ciphertexts_panic.
Print Assumptions C64_refuted.
Print Assumptions C65_trailing_bytes_ignored.
Print Assumptions C65_bare_header_not_extendable.
