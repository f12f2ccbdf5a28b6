(** The three interfaces work together: C115.

    Keys, headers, blocks and messages made through one interface, on one machine,
    are used through another interface, on another machine. *)
From Coq Require Import String NArith ZArith Bool Arith Lia Strings.Byte List.
From Coq Require ListDec.
From Verif Require SchemeProofs.
From Verif Require Import Prelude Field LinAlg Msp Spec MspProofs Bilinear Scheme SchemeSpec SchemeTheorems
  Zp ExpModel PropertiesScheme Codec CodecProofs SchemeCodec SchemeCodecProofs PropertiesCodec
  Policy PolicySpec PolicyProofs Engine EngineSpec EngineProofs PropertiesEngine Hybrid HybridSpec PropertiesHybrid PropertiesVersions
  Properties32 Ffi FfiSpec PropertiesFfi PropertiesFfiBlocks Python PropertiesPython Wasm PropertiesWasm.
Import ListNotations.
Local Open Scope N_scope.

(** ** What does not depend on the machine *)
Lemma to_msp_any P P' f : to_msp P f = to_msp P' f.
Proof.
  destruct (ListDec.NoDup_dec N.eq_dec (leaves f)) as [H|H].
  - destruct (to_msp_ok P f H) as (r & (E & _) & Q). destruct (to_msp_ok P' f H) as (r' & (E' & _) & Q').
    assert (r' = r) by congruence. subst r'. congruence.
  - rewrite (to_msp_dup P f H), (to_msp_dup P' f H). reflexivity.
Qed.

Lemma program_any it P P' p ap : policy_to_msp it P p ap = policy_to_msp it P' p ap.
Proof. rewrite !policy_to_msp_formula. destruct (key_formula it p ap); cbn [bind]; [apply to_msp_any|reflexivity|reflexivity]. Qed.

Section Any.
Variable B : BilinearMap.
Hypothesis BL : BilinearLaws B.
Local Notation K := (bm_K B).
Variable F : byte_forms B.
Variable fine : Gt B -> Prop.
Hypothesis HF : forms_ok F fine.
Variable shake : list byte -> nat -> list byte.
Variable S : sym_scheme.
Implicit Types P : platform.

Lemma user_key_any P P' mk p ap (uk : decryption_key B) : user_key P mk p ap uk -> user_key P' mk p ap uk.
Proof using Type.
  intros H. induction H as [it ap draw uk Hit E|it ap uk draw uk' _ IH E|it ap ap' uk draw uk' Hit _ IH Ha Hn E].
  - apply uk_gen with it draw; [exact Hit|]. unfold eng_user_key in *. rewrite (program_any it P' P). exact E.
  - apply uk_refresh with it uk draw; [exact IH|]. exact E.
  - apply uk_delegate with it ap uk draw; try assumption. unfold eng_delegate in *. rewrite (program_any it P' P). exact E.
Qed.

Lemma encrypt_any P P' msg gam (pk : master_public_key B) s ct : encrypt P msg gam pk s = Ok ct -> encrypt P' msg gam pk s = Ok ct.
Proof using Type. unfold encrypt. destruct (Nat.leb _ _); [|exact (fun H => H)]. destruct (usize_sub P _ 1); discriminate. Qed.

Lemma eng_encrypt_any P P' p (pk : master_public_key B) l msg s ct : eng_encrypt P p pk l msg s = Ok ct -> eng_encrypt P' p pk l msg s = Ok ct.
Proof using Type. unfold eng_encrypt. intros H. apply bind_ok in H as (v & -> & H). cbn [bind]. exact (encrypt_any P P' _ _ _ _ _ H). Qed.

Lemma header_any P P' p (pk : master_public_key B) l meta random s nonce h :
  encrypt_hybrid_header S F shake P p pk l meta random s nonce = Ok h -> encrypt_hybrid_header S F shake P' p pk l meta random s nonce = Ok h.
Proof using Type.
  unfold encrypt_hybrid_header. intros H. apply bind_ok in H as (g & Eg & H).
  assert (Q : generate_symmetric_key P' F shake p pk l (key_length S) random s = Ok g).
  { unfold generate_symmetric_key in *. apply bind_ok in Eg as (ct & Ec & Eg). rewrite (eng_encrypt_any P P' _ _ _ _ _ _ Ec). cbn [bind]. exact Eg. }
  rewrite Q. cbn [bind]. exact H.
Qed.

Lemma wrap_small P z : (0 <= z)%Z -> Z.to_N z < usize_modulus P -> usize_wrap P z = Ok (Z.to_N z).
Proof using Type.
  intros H0 H. unfold usize_wrap. destruct (Z.leb_spec 0 z) as [_|]; [|lia]. destruct (Z.ltb_spec z (Z.of_N (usize_modulus P))) as [_|]; [reflexivity|lia].
Qed.

Lemma user_enc_any P P' (uk : decryption_key B) b : key_ok uk -> fits P' (blen b) -> user_enc F P uk = Ok b -> user_enc F P' uk = Ok b.
Proof using HF.
  intros (Hm & _) Hb H. unfold user_enc in *. apply bind_ok in H as (d & Ed & H). apply bind_ok in H as (m & Em & H). apply Ok_inj in H. subst b.
  rewrite Ed. cbn [bind]. pose proof (msp_enc_len (scalar_codec F) 32 _ (scalar_ok F fine HF) P (dk_msp uk) m Hm Em) as L.
  assert (Hs : fits P' (blen m)) by (eapply fits_le; [|exact Hb]; rewrite blen_app; lia). clear Hb Ed.
  assert (Q : msp_enc P' (scalar_codec F) (dk_msp uk) = Ok m); [|rewrite Q; reflexivity].
  unfold msp_enc in *. apply bind_ok in Em as (x & -> & Em). cbn [bind].
  change (clen (scalar_codec F) x) with 32 in *.
  assert (Lm : blen m < usize_modulus P') by (apply fits_modulus; exact Hs).
  unfold usize_mul at 1. rewrite wrap_small by (try lia). cbn [bind].
  unfold usize_mul at 1. rewrite wrap_small by (try lia). cbn [bind].
  unfold usize_add at 1. rewrite wrap_small by (try lia). cbn [bind].
  unfold usize_mul at 1. rewrite wrap_small by (try lia). cbn [bind].
  unfold usize_add at 1. rewrite wrap_small by (try lia). cbn [bind].
  unfold reserve at 1. replace (Z.to_N _) with (blen m) by lia.
  unfold fits in Hs. apply N.ltb_lt in Hs. rewrite Hs. cbn [bind].
  do 6 apply bind_ok in Em as (? & _ & Em). exact Em.
Qed.
End Any.

Section Together.
Variable B : BilinearMap.
Hypothesis BL : BilinearLaws B.
Local Notation K := (bm_K B).
Variable F : byte_forms B.
Variable fine : Gt B -> Prop.
Hypothesis HF : forms_ok F fine.
Variable shake : list byte -> nat -> list byte.
Variable S : sym_scheme.
Variable metas : metadata -> Prop.
Hypothesis SL : sym_laws S metas.
(** the key of AES-256 *)
Hypothesis SK : key_length S = 32%nat.
(** the machines of the C program, of the Python program and of the browser *)
Variables PC PP PW : platform.
Hypothesis HC : 32 <= usize_bits PC.
Hypothesis HPP : 32 <= usize_bits PP.
Hypothesis HW : 32 <= usize_bits PW.
(** JSON texts given to C functions *)
Variable c_policy_from : list byte -> outcome policy.
Variable c_attributes_from : list byte -> outcome (list attribute).
Variable c_access_from : list byte -> outcome access_policy.
(** JSON texts and expressions given to Python and WebAssembly functions *)
Variable policy_from : list byte -> outcome policy.
Variable attributes_from : list byte -> outcome (list attribute).
Variable metadata_from : list byte -> outcome metadata.
Variable access_parse : string -> outcome access_policy.
Variable attributes_parse : string -> outcome (list attribute).

Local Notation c_master_keys := (h_generate_master_keys (B := B) PC F c_policy_from).
Local Notation c_user_key := (h_generate_user_private_key (B := B) PC F c_policy_from c_access_from).
Local Notation c_encrypt_header := (h_aes_encrypt_header PC F shake S c_policy_from c_attributes_from).
Local Notation c_decrypt_header := (h_aes_decrypt_header PC F shake S).
Local Notation c_encrypt_block := (h_aes_encrypt_block PC S).
Local Notation c_decrypt_block := (h_aes_decrypt_block PC S).
Local Notation py_master_keys := (py_generate_master_keys F policy_from).
Local Notation py_user_key := (py_generate_user_private_key PP F policy_from access_parse).
Local Notation py_delegated_key := (py_generate_delegated_key PP F policy_from access_parse).
Local Notation py_encrypt_header := (py_encrypt_hybrid_header PP F shake S policy_from attributes_from metadata_from).
Local Notation py_decrypt_header := (py_decrypt_hybrid_header PP F shake S).
Local Notation py_enc := (py_encrypt PP F shake S policy_from attributes_from metadata_from).
Local Notation py_dec := (py_decrypt PP F shake S).
Local Notation w_master_keys := (w_generate_master_keys F policy_from).
Local Notation w_user_key := (w_generate_user_private_key PW F policy_from access_parse).
Local Notation w_encrypt_header := (w_encrypt_hybrid_header PW F shake S policy_from attributes_parse).
Local Notation w_decrypt_header := (w_decrypt_hybrid_header PW F shake S).

(** *** Specification *)
(** Private and public key made by one of the interfaces for policy [p] with the draws
    [d], and the delegation key where the interface gives it *)
Inductive masters (p : policy) (d : nat -> K) : list byte -> list byte -> option (list byte) -> Prop :=
| masters_c pol o o1 : c_policy_from pol = Ok p -> good_out o -> c_master_keys (Some pol) d [o] = Go Datatypes.tt [o1] ->
    masters p d (fst (split_keys (read_out o1))) (snd (split_keys (read_out o1))) None
| masters_py pol priv pub del : policy_from pol = Ok p -> py_master_keys pol d = Ok (priv, pub, del) -> masters p d priv pub (Some del)
| masters_w pol keys : policy_from pol = Ok p -> w_master_keys pol d = Ok keys -> masters p d (fst (cut keys)) (snd (cut keys)) None.

(** User keys for version [p] of the policy, made by any interface, then refreshed or
    delegated by Python, any number of times *)
Inductive issued (priv : list byte) (del : option (list byte)) (p : policy) : access_policy -> list byte -> Prop :=
| issued_c it access ap pol draw o o1 : iteration_ok it -> c_access_from access = Ok ap -> c_policy_from pol = Ok p -> good_out o ->
    c_user_key it (Some priv) (Some access) (Some pol) draw [o] = Go Datatypes.tt [o1] -> blen (read_out o1) < 50000000 ->
    issued priv del p ap (read_out o1)
| issued_py it access ap pol draw b : iteration_ok it -> access_parse access = Ok ap -> policy_from pol = Ok p ->
    py_user_key it priv access pol draw = Ok b -> blen b < 50000000 -> issued priv del p ap b
| issued_w it access ap pol draw b : iteration_ok it -> access_parse access = Ok ap -> policy_from pol = Ok p ->
    w_user_key it priv access pol draw = Ok b -> blen b < 50000000 -> issued priv del p ap b
| issued_refreshed it access ap b pol dk draw b' : issued priv del p ap b -> del = Some dk -> access_parse access = Ok AAll -> policy_from pol = Ok p ->
    py_delegated_key it dk b access pol draw = Ok b' -> blen b' < 50000000 -> issued priv del p ap b'
| issued_delegated it access ap ap' b pol dk draw b' : iteration_ok it -> issued priv del p ap b -> del = Some dk -> access_parse access = Ok ap' ->
    ap' <> AAll -> narrower ap' ap -> policy_from pol = Ok p ->
    py_delegated_key it dk b access pol draw = Ok b' -> blen b' < 50000000 -> issued priv del p ap' b'.

(** A header for the attributes [l] of version [p], with the metadata [m]: its
    symmetric key and its bytes *)
Inductive sealed (pub : list byte) (p : policy) (l : list attribute) (random : Gt B) (s : K) : metadata -> list byte -> list byte -> Prop :=
| sealed_c pol attrs u ad nonce ok oh ok' oh' : c_policy_from pol = Ok p -> c_attributes_from attrs = Ok l -> length nonce = nonce_length S ->
    good_out ok -> good_out oh ->
    c_encrypt_header (Some pol) (Some pub) (Some attrs) u ad random s nonce [ok; oh] = Go Datatypes.tt [ok'; oh'] ->
    sealed pub p l random s (meta_of u ad) (read_out ok') (read_out oh')
| sealed_py meta m pol attrs nonce key header : metadata_from meta = Ok m -> policy_from pol = Ok p -> attributes_from attrs = Ok l ->
    length nonce = nonce_length S -> py_encrypt_header meta pol attrs pub random s nonce = Ok (key, header) ->
    sealed pub p l random s m key header
| sealed_w pol attrs u nonce e : policy_from pol = Ok p -> attributes_parse attrs = Ok l -> length nonce = nonce_length S ->
    w_encrypt_header pol pub attrs u random s nonce = Ok e ->
    sealed pub p l random s (mkMeta u None) (fst (cut e)) (snd (cut e)).

(** All three interfaces open the header with the key [b] and find [key] and [m]. *)
Definition opened (b header key : list byte) (m : metadata) : Prop :=
  decrypt_protocol (mkClearHeader key m) (c_decrypt_header (Some header) (Some b)) /\
  (exists mb, py_decrypt_header b header = Ok (key, mb) /\ meta_from_bytes S mb = Ok m) /\
  (exists c, w_decrypt_header b header = Ok c /\ fst (cut c) = key /\ meta_from_bytes S (snd (cut c)) = Ok m).
(** All three report an error. *)
Definition stays_closed (b header : list byte) : Prop :=
  (forall ok ou oa, len_given ok -> exists e, c_decrypt_header (Some header) (Some b) [ok; ou; oa] = Bail e [ok; ou; oa]) /\
  is_err (py_decrypt_header b header) /\ is_err (w_decrypt_header b header).

(** Block [number] of resource [u], made by any interface *)
Inductive block_made (key u : list byte) (number : N) (data : list byte) : list byte -> Prop :=
| block_c ou z nonce o o1 : uid_given ou = u -> i32_range z -> names_block PC z number -> length nonce = nonce_length S -> good_out o ->
    c_encrypt_block (Some key) ou z (Some data) nonce [o] = Go Datatypes.tt [o1] -> block_made key u number data (read_out o1)
| block_py nonce c : length nonce = nonce_length S -> py_encrypt_hybrid_block S key u number data nonce = Ok c -> block_made key u number data c
| block_w ou oi nonce c : ou = Some u \/ (ou = None /\ u = []) -> oi = Some number \/ (oi = None /\ number = 0) -> length nonce = nonce_length S ->
    w_encrypt_hybrid_block S key ou oi data nonce = Ok c -> block_made key u number data c.
(** All three interfaces read [data] in it. *)
Definition block_read (key u : list byte) (number : N) (c data : list byte) : Prop :=
  (forall ou z o, uid_given ou = u -> i32_range z -> names_block PC z number -> PropertiesFfi.offered o -> room data o ->
     exists o', c_decrypt_block (Some key) ou z (Some c) [o] = Go Datatypes.tt [o'] /\ delivered data o o') /\
  py_decrypt_hybrid_block S key u number c = Ok data /\
  (forall ou oi, ou = Some u \/ (ou = None /\ u = []) -> oi = Some number \/ (oi = None /\ number = 0) ->
     w_decrypt_hybrid_block S key ou oi c = Ok data).

(** *** Master keys *)
Local Ltac step E := apply then_go in E; let a := fresh "a" in let o1 := fresh "o" in let E1 := fresh "E" in destruct E as (a & o1 & E1 & E).

Lemma masters_inv n p d priv pub del : max_attribute_creations p = n -> 1 <= n < 524288 -> masters p d priv pub del ->
  exists mk, eng_master_key p d = Ok mk /\ priv_enc F (priv_key mk) = Ok priv /\ pub_enc F (pub_key mk) = Ok pub /\
    (forall dk, del = Some dk -> del_enc F (del_key mk) = Ok dk).
Proof using BL HF HC.
  intros Hm Hn H.
  assert (L1 : forall mk b, eng_master_key p d = Ok mk -> priv_enc F (priv_key mk) = Ok b -> blen b < 4294967296).
  { clear - Hm Hn BL HF. intros mk b1 Emk E1. unfold eng_master_key in Emk. rewrite Hm in Emk. destruct (generate_master_key_inv B BL _ _ _ Emk) as (t & y & -> & Ht & _).
    unfold priv_enc in E1. apply bind_ok in E1 as (tb & Et & E1). apply bind_ok in E1 as (yb & Ey & E1). apply Ok_inj in E1. subst b1.
    rewrite blen_app. cbn [scalar_codec fixed_codec enc] in Ey. apply Ok_inj in Ey. subst yb. change (priv_t (priv_key (master_of B t y))) with t in Et.
    rewrite (vec_enc_len _ _ _ (scalar_ok F fine HF) t tb ltac:(unfold u32_modulus; lia) Et).
    assert (Lc : blen (to_compressed (scalar_form B F) (priv_y (priv_key (master_of B t y)))) = 32) by apply (fo_scalar _ _ HF). rewrite Lc.
    destruct t as [|x t']; [cbn in Ht; lia|]. unfold vec_len. rewrite (ok_len _ _ _ (scalar_ok F fine HF)). lia. }
  destruct H as [pol o o1 Ep G E|pol priv pub del Ep E|pol keys Ep E].
  - step E. step E. step E. step E. step E. step E. apply check_go in E0 as [-> _]. apply null_go in E1 as [Q1 ->]. apply unwrap_go in E2 as [Q2 ->].
    apply unwrap_go in E3 as [Q3 ->]. apply unwrap_go in E4 as [Q4 ->]. apply unwrap_go in E5 as [Q5 ->].
    assert (a0 = pol) by congruence. subst a0. assert (a1 = p) by congruence. subst a1.
    apply (deliver_go PC HC 0 _ [o] Datatypes.tt [o1] o eq_refl G) in E as (o' & Eo & D & _). cbn [set_out] in Eo. assert (o1 = o') by congruence. subst o'.
    rewrite (delivered_read _ _ _ D). unfold master_keys_bytes. rewrite N.mod_small by (unfold u32_modulus; exact (L1 _ _ Q3 Q4)).
    change (split_keys (be32 (blen a3) ++ a3 ++ a4)) with (cut (be32 (blen a3) ++ a3 ++ a4)). rewrite cut_app by exact (L1 _ _ Q3 Q4). cbn [fst snd].
    exists a2. split; [exact Q3|]. split; [exact Q4|]. split; [exact Q5|]. discriminate.
  - unfold py_generate_master_keys in E. rewrite Ep in E. cbn [bind] in E. apply bind_ok in E as (mk & Emk & E). apply bind_ok in E as (b1 & E1 & E).
    apply bind_ok in E as (b2 & E2 & E). apply bind_ok in E as (b3 & E3 & E). apply Ok_inj in E.
    exists mk. split; [exact Emk|]. split; [congruence|]. split; [congruence|]. intros dk Q. congruence.
  - unfold w_generate_master_keys in E. rewrite Ep in E. cbn [bind] in E. apply bind_ok in E as (mk & Emk & E). apply bind_ok in E as (b1 & E1 & E).
    apply bind_ok in E as (b2 & E2 & E). apply Ok_inj in E. subst keys. rewrite N.mod_small by (unfold u32_modulus; exact (L1 _ _ Emk E1)).
    rewrite cut_app by exact (L1 _ _ Emk E1). cbn [fst snd]. exists mk. split; [exact Emk|]. split; [exact E1|]. split; [exact E2|]. discriminate.
Qed.

Lemma masters_decode P n p d mk priv pub : 32 <= usize_bits P -> max_attribute_creations p = n -> 1 <= n < 524288 ->
  eng_master_key p d = Ok mk -> fine (pub_y (pub_key mk)) -> priv_enc F (priv_key mk) = Ok priv -> pub_enc F (pub_key mk) = Ok pub ->
  priv_dec F P priv = Ok (priv_key mk) /\ pub_dec F P pub = Ok (pub_key mk) /\
  (forall dk, del_enc F (del_key mk) = Ok dk -> del_dec F P dk = Ok (del_key mk)).
Proof using BL HF.
  clear HC HPP HW SK. intros HP Hm Hn Emk Hy E1 E2.
  unfold eng_master_key in Emk. rewrite Hm in Emk. destruct (generate_master_key_inv B BL _ _ _ Emk) as (t & y & -> & Ht & _).
  assert (N1 : forall (A : Type) (l : list A), length l = length t -> countable l).
  { clear HP. intros A l H. split; [intros Q; rewrite Q in H; cbn in H; lia|unfold u32_MAX; lia]. }
  assert (Lt : N.of_nat (length t) < 524288) by lia.
  assert (L1 : blen priv = 4 + N.of_nat (length t) * 32 + 32).
  { unfold priv_enc in E1. apply bind_ok in E1 as (tb & Et & E1). apply bind_ok in E1 as (yb & Ey & E1). apply Ok_inj in E1. subst priv.
    rewrite blen_app. cbn [scalar_codec fixed_codec enc] in Ey. apply Ok_inj in Ey. subst yb. change (priv_t (priv_key (master_of B t y))) with t in Et.
    rewrite (vec_enc_len _ _ _ (scalar_ok F fine HF) t tb ltac:(unfold u32_modulus; lia) Et).
    assert (Lc : blen (to_compressed (scalar_form B F) (priv_y (priv_key (master_of B t y)))) = 32) by apply (fo_scalar _ _ HF). rewrite Lc.
    destruct t as [|x t']; [cbn in Ht; lia|]. unfold vec_len. rewrite (ok_len _ _ _ (scalar_ok F fine HF)). reflexivity. }
  assert (L2 : blen pub = 4 + N.of_nat (length t) * 48 + 288).
  { unfold pub_enc in E2. apply bind_ok in E2 as (tb & Et & E2). apply bind_ok in E2 as (yb & Ey & E2). apply Ok_inj in E2. subst pub.
    rewrite blen_app. cbn [gt_codec fixed_codec enc] in Ey. apply Ok_inj in Ey. subst yb.
    assert (Lq : length (pub_t (pub_key (master_of B t y))) = length t) by (cbn; apply map_length).
    rewrite (vec_enc_len _ _ _ (g2_ok F fine HF) (pub_t (pub_key (master_of B t y))) tb ltac:(rewrite Lq; unfold u32_modulus; lia) Et).
    rewrite (gt_blen F fine HF). rewrite <- Lq.
    destruct (pub_t (pub_key (master_of B t y))) as [|x t']; [cbn in Lq; lia|]. unfold vec_len. rewrite (ok_len _ _ _ (g2_ok F fine HF)). reflexivity. }
  split; [|split].
  - rewrite <- (app_nil_r priv). apply (C76_private_key B F fine HF P _ priv [] HP); [apply N1; reflexivity|exact E1|].
    rewrite app_nil_r. apply (small_fits P HP). lia.
  - rewrite <- (app_nil_r pub). apply (C76_public_key B F fine HF P _ pub [] HP); [apply N1; cbn; apply map_length|exact Hy| |exact E2|].
    + assert (Lq : length (pub_t (pub_key (master_of B t y))) = length t) by (cbn; apply map_length). rewrite Lq. apply (small_fits P HP). pose proof (fo_g2_mem _ _ HF) as G.
      apply N.le_lt_trans with (N.of_nat (length t) * 4096); [apply N.mul_le_mono_l; exact G|lia].
    + rewrite app_nil_r. apply (small_fits P HP). lia.
  - intros dk E3. assert (Lq : length (inv_t (del_key (master_of B t y))) = length t) by (cbn; apply map_length).
    assert (L3 : blen dk = 4 + N.of_nat (length t) * 96).
    { unfold del_enc in E3. rewrite (vec_enc_len _ _ _ (g3_ok F fine HF) (inv_t (del_key (master_of B t y))) dk ltac:(rewrite Lq; unfold u32_modulus; lia) E3).
      rewrite <- Lq. destruct (inv_t (del_key (master_of B t y))) as [|x t']; [cbn in Lq; lia|]. unfold vec_len. rewrite (ok_len _ _ _ (g3_ok F fine HF)). reflexivity. }
    rewrite <- (app_nil_r dk). apply (C76_delegation_key B F fine HF P _ dk [] HP); [apply N1; exact Lq| |exact E3|rewrite app_nil_r; apply (small_fits P HP); lia].
    rewrite Lq. apply (small_fits P HP). pose proof (fo_g3_mem _ _ HF) as G.
    apply N.le_lt_trans with (N.of_nat (length t) * 4096); [apply N.mul_le_mono_l; exact G|lia].
Qed.

(** *** User keys *)
Lemma key_everywhere n p0 (mdraw : nat -> K) mk P p ap uk b :
  max_attribute_creations p0 = n -> n < 524288 -> eng_master_key p0 mdraw = Ok mk ->
  user_key P mk p ap uk -> user_enc F P uk = Ok b -> blen b < 50000000 ->
  forall P', 32 <= usize_bits P' -> user_key P' mk p ap uk /\ user_dec F P' b = Ok uk.
Proof using BL HF.
  clear HC HPP HW SK. intros Hm Hn Hmk Hk E Lb P' HP'. pose proof (user_key_any B P P' mk p ap uk Hk) as Hk'. split; [exact Hk'|].
  apply (w_reads_back B BL P' HP' F fine HF n p0 mdraw mk p ap uk b); try assumption.
  apply (user_enc_any B F fine HF P P'); [|apply (small_fits P' HP'); lia|exact E]. clear E Lb.
  destruct (user_key_derived B P mk p ap uk Hk) as (it' & f & _ & _ & Hd). apply (derived_obtained B) in Hd.
  unfold eng_master_key in Hmk. rewrite Hm in Hmk. destruct (generate_master_key_inv B BL _ _ _ Hmk) as (t & y & -> & Ht & Hnz).
  destruct (obtained_rep B BL P t y f uk Hnz Hd) as (m & sg & _ & R & _).
  assert (Hu : Forall u32 (leaves f)).
  { apply Forall_forall. intros a Ha. pose proof (SchemeProofs.kr_range _ _ _ _ _ _ R a Ha) as Hr. unfold SchemeProofs.in_range in Hr. unfold u32, u32_modulus. lia. }
  exact (proj1 (rep_key_ok t f m sg uk R Hu)).
Qed.

Lemma issued_sound n p0 (mdraw : nat -> K) mk priv del p ap b :
  max_attribute_creations p0 = n -> n < 524288 -> eng_master_key p0 mdraw = Ok mk ->
  (forall P, 32 <= usize_bits P -> priv_dec F P priv = Ok (priv_key mk)) ->
  (forall P dk, 32 <= usize_bits P -> del = Some dk -> del_dec F P dk = Ok (del_key mk)) ->
  issued priv del p ap b -> exists uk, forall P, 32 <= usize_bits P -> user_key P mk p ap uk /\ user_dec F P b = Ok uk.
Proof using BL HF HC HPP HW.
  intros Hm Hn Hmk Dp Dd H. pose proof (key_everywhere n p0 mdraw mk) as back.
  induction H as [it access ap pol draw o o1 Hit Ea Ep G E Lb|it access ap pol draw b Hit Ea Ep E Lb|it access ap pol draw b Hit Ea Ep E Lb
                 |it access ap b pol dk draw b' H IH Ed Ea Ep E Lb|it access ap ap' b pol dk draw b' Hit H IH Ed Ea Hne Hna Ep E Lb].
  - step E. step E. step E. step E. step E. step E. step E. step E. step E.
    apply check_go in E0 as [-> _]. apply input_go_inv in E1 as (Q1 & _ & ->). apply null_go in E2 as [Q2 ->]. apply null_go in E3 as [Q3 ->].
    apply unwrap_go in E4 as [Q4 ->]. apply unwrap_go in E5 as [Q5 ->]. apply unwrap_go in E6 as [Q6 ->]. apply unwrap_go in E7 as [Q7 ->].
    apply unwrap_go in E8 as [Q8 ->]. pose proof (Dp PC HC) as Dc.
    assert (a0 = priv) by congruence. subst a0. assert (a3 = priv_key mk) by congruence. subst a3.
    assert (a1 = access) by congruence. subst a1. assert (a4 = ap) by congruence. subst a4. assert (a2 = pol) by congruence. subst a2.
    assert (a5 = p) by congruence. subst a5.
    apply (deliver_go PC HC 0 a7 [o] Datatypes.tt [o1] o eq_refl G) in E as (o' & Eo & D & L). cbn [set_out] in Eo. assert (o1 = o') by congruence. subst o'.
    rewrite (delivered_read _ _ _ D) in *.
    exists a6. apply (back PC); try assumption. apply uk_gen with it draw; assumption.
  - unfold py_generate_user_private_key in E. rewrite (Dp PP HPP), Ep, Ea in E. cbn [bind] in E. apply bind_ok in E as (uk & Eu & E).
    exists uk. apply (back PP); try assumption. apply uk_gen with it draw; assumption.
  - unfold w_generate_user_private_key in E. rewrite (Dp PW HW), Ep, Ea in E. cbn [bind] in E. apply bind_ok in E as (uk & Eu & E).
    exists uk. apply (back PW); try assumption. apply uk_gen with it draw; assumption.
  - destruct IH as (uk & Hu). destruct (Hu PP HPP) as [Hk Du]. unfold py_generate_delegated_key in E. rewrite (Dd PP dk HPP Ed), Du, Ea, Ep in E. cbn [bind] in E.
    apply bind_ok in E as (uk' & Eu & E). exists uk'. apply (back PP); try assumption. apply uk_refresh with it uk draw; assumption.
  - destruct IH as (uk & Hu). destruct (Hu PP HPP) as [Hk Du]. unfold py_generate_delegated_key in E. rewrite (Dd PP dk HPP Ed), Du, Ea, Ep in E. cbn [bind] in E.
    apply bind_ok in E as (uk' & Eu & E). exists uk'. apply (back PP); try assumption. apply uk_delegate with it ap uk draw; assumption.
Qed.

(** *** Headers *)
Lemma sealed_inv k pub p l random (s : K) m key header : (forall P, 32 <= usize_bits P -> pub_dec F P pub = Ok k) ->
  sealed pub p l random s m key header ->
  exists nonce h, length nonce = nonce_length S /\ key = eh_key h /\ header = eh_bytes h /\
    forall P, encrypt_hybrid_header S F shake P p k l (Some m) random s nonce = Ok h.
Proof using HC HPP HW SK.
  intros Dq [pol attrs u ad nonce ok oh ok' oh' Ep El Ln Gk Gh E|meta m' pol attrs nonce key' header' Em Ep El Ln E|pol attrs u nonce e Ep El Ln E].
  - step E. step E. step E. step E. step E. step E. step E. step E. step E. step E.
    apply check_go in E0 as [-> _]. apply check_go in E1 as [-> _]. apply null_go in E2 as [Q1 ->]. apply input_go_inv in E3 as (Q2 & _ & ->).
    apply null_go in E4 as [Q3 ->]. apply unwrap_go in E5 as [Q4 ->]. apply unwrap_go in E6 as [Q5 ->]. apply unwrap_go in E7 as [Q6 ->].
    apply unwrap_go in E8 as [Q7 ->]. pose proof (Dq PC HC) as Dc.
    assert (a1 = pol) by congruence. subst a1. assert (a4 = p) by congruence. subst a4.
    assert (a2 = pub) by congruence. subst a2. assert (a5 = k) by congruence. subst a5.
    assert (a3 = attrs) by congruence. subst a3. assert (a6 = l) by congruence. subst a6.
    assert (Q : meta_arg u ad = meta_of u ad) by (unfold meta_arg, meta_of, optional_bytes; destruct ad as [[|x b]|]; reflexivity).
    rewrite Q in Q7. exists nonce, a7. split; [exact Ln|].
    apply (deliver_go PC HC 0 (eh_key a7) [ok; oh] a8 _ ok eq_refl Gk) in E9 as (x1 & -> & D1 & L1). cbn [set_out] in E.
    apply (deliver_go PC HC 1 (eh_bytes a7) [x1; oh] Datatypes.tt [ok'; oh'] oh eq_refl Gh) in E as (x2 & Eo & D2 & L2). cbn [set_out] in Eo.
    assert (ok' = x1) by congruence. assert (oh' = x2) by congruence. subst x1 x2.
    split; [exact (delivered_read _ _ _ D1)|]. split; [exact (delivered_read _ _ _ D2)|]. intros P. exact (header_any B F shake S PC P _ _ _ _ _ _ _ _ Q7).
  - destruct (header_inv B PP F shake S policy_from attributes_from metadata_from _ _ _ _ _ _ _ _ _ _ _ _ _ Em Ep El (Dq PP HPP) E) as (h & Eh & Q1 & Q2).
    exists nonce, h. split; [exact Ln|]. split; [exact Q1|]. split; [exact Q2|]. intros P. exact (header_any B F shake S PP P _ _ _ _ _ _ _ _ Eh).
  - unfold w_encrypt_hybrid_header in E. destruct (is_empty pol); [discriminate|]. destruct (is_empty pub); [discriminate|]. destruct (is_empty u); [discriminate|].
    destruct (String.eqb attrs ""); [discriminate|]. rewrite Ep in E. cbn [bind] in E. rewrite (Dq PW HW) in E. cbn [bind] in E.
    unfold w_header in E. rewrite El in E. cbn [bind] in E. apply bind_ok in E as (h & Eh & E). unfold eh_enc in E. apply Ok_inj in E. subst e.
    destruct (header_layout B F shake S PW p k l _ random s nonce h Eh) as (sk & tail & _ & Lh & _).
    assert (Qk : N.of_nat (key_length S) = blen (eh_key h)) by (unfold blen; rewrite Lh; reflexivity).
    rewrite Qk, cut_app by (unfold blen; rewrite Lh, SK; reflexivity). cbn [fst snd].
    exists nonce, h. split; [exact Ln|]. split; [reflexivity|]. split; [reflexivity|]. intros P. exact (header_any B F shake S PW P _ _ _ _ _ _ _ _ Eh).
Qed.

Lemma sealed_opened n ops p k pub l random (s : K) m key header :
  1 <= n < 524288 -> run_ops ops (new_policy n) = Ok p -> length (pub_t k) = N.to_nat n -> l <> [] -> metas m ->
  (forall P, 32 <= usize_bits P -> pub_dec F P pub = Ok k) -> sealed pub p l random s m key header -> blen header < 2147483648 ->
  (forall ct, eng_encrypt PC p k l random s = Ok ct -> fine (e_prime ct)) ->
  length key = 32%nat /\ exists ct, eng_encrypt PC p k l random s = Ok ct /\ forall b uk, (forall P, 32 <= usize_bits P -> user_dec F P b = Ok uk) ->
    (eng_decrypt ct uk = Ok (Some random) -> opened b header key m) /\
    (refused (eng_decrypt ct uk) -> stays_closed b header).
Proof using BL HF SL HC HPP HW SK.
  intros Hn Hp Lk Hl Hm Dq Hs Lh Hf. destruct (sealed_inv k pub p l random s m key header Dq Hs) as (nonce & h & Hno & -> & -> & Eh). clear Hs.
  destruct (header_layout B F shake S PC p k l (Some m) random s nonce h (Eh PC)) as (sk & tail & _ & Lkey & _ & Eb & mb & em & Emb & _).
  split; [congruence|].
  assert (Hopen : forall P, 32 <= usize_bits P -> exists ct, eng_encrypt P p k l random s = Ok ct /\ forall uk,
    (eng_decrypt ct uk = Ok (Some random) -> decrypt_hybrid_header S F shake P uk (eh_bytes h) = Ok (mkClearHeader (eh_key h) m)) /\
    (refused (eng_decrypt ct uk) -> is_err (decrypt_hybrid_header S F shake P uk (eh_bytes h)))).
  { intros P HP. apply (header_opened32 B BL F fine HF shake S metas SL P n ops p k l (Some m) random s nonce h HP); try assumption.
    - lia.
    - apply (small_fits P HP). pose proof (fo_g2_mem _ _ HF) as G. apply N.le_lt_trans with (n * 4096); [apply N.mul_le_mono_l; exact G|lia].
    - intros m' Q. assert (m' = m) by congruence. subst m'. exact Hm.
    - exact (Eh P).
    - apply (small_fits P HP). exact Lh.
    - intros ct Ect. apply Hf. exact (eng_encrypt_any B P PC p k l random s ct Ect). }
  destruct (Hopen PC HC) as (ct & Ect & Oc). destruct (Hopen PP HPP) as (ct1 & Ect1 & Op). destruct (Hopen PW HW) as (ct2 & Ect2 & Ow).
  apply (eng_encrypt_any B PP PC) in Ect1. apply (eng_encrypt_any B PW PC) in Ect2.
  assert (ct1 = ct) by congruence. assert (ct2 = ct) by congruence. subst ct1 ct2. clear Ect1 Ect2 Hopen.
  exists ct. split; [exact Ect|]. intros b uk Du. pose proof (Du PC HC) as DC. pose proof (Du PP HPP) as DP. pose proof (Du PW HW) as DW.
  assert (Hb : b <> []) by (intros ->; unfold user_dec in DC; discriminate).
  assert (Hh : eh_bytes h <> []) by (rewrite Eb; discriminate).
  assert (Nb : is_empty b = false) by (destruct b; [contradiction|reflexivity]).
  assert (Lb : (blen (eh_bytes h) <? 4) = false).
  { apply N.ltb_ge. rewrite Eb, blen_app. change (blen (be32 (blen sk))) with 4. lia. }
  split.
  - intros H. split; [|split].
    + apply (C54_decrypt_header B PC HC F shake S (eh_bytes h) b uk); try assumption; [exact (proj1 (Oc uk) H)|].
      cbn [ch_key]. unfold blen. rewrite Lkey, SK. reflexivity.
    + exists mb. unfold py_decrypt_hybrid_header. rewrite DP. cbn [bind]. rewrite (proj1 (Op uk) H). cbn [bind ch_meta ch_key]. rewrite Emb. cbn [bind].
      split; [reflexivity|]. exact (law_meta _ _ SL _ _ Hm Emb).
    + unfold w_decrypt_hybrid_header. rewrite Nb, Lb, DW. cbn [bind]. unfold w_open. rewrite (proj1 (Ow uk) H). cbn [bind]. unfold ch_enc. cbn [ch_meta ch_key].
      rewrite Emb. cbn [bind]. eexists. split; [reflexivity|].
      assert (Qk : N.of_nat (key_length S) = blen (eh_key h)) by (unfold blen; rewrite Lkey; reflexivity).
      rewrite Qk, cut_app by (unfold blen; rewrite Lkey, SK; reflexivity). cbn [fst snd]. split; [reflexivity|]. exact (law_meta _ _ SL _ _ Hm Emb).
  - intros H. split; [|split].
    + intros o0 ou oa L0. unfold h_aes_decrypt_header. rewrite then_assoc_check.
      destruct (check_outs 0 "symmetric key" [o0; ou; oa] o0 eq_refl L0) as [[? Q]|[Q _]]; rewrite Q; [eexists; reflexivity|].
      unfold andthen at 1. rewrite input_go by exact Hh. unfold andthen at 1. rewrite input_go by exact Hb. unfold andthen, unwrap. rewrite DC.
      destruct (proj2 (Oc uk) H) as [e Qe]. rewrite Qe. eexists. reflexivity.
    + unfold py_decrypt_hybrid_header. rewrite DP. cbn [bind]. destruct (proj2 (Op uk) H) as [e Qe]. rewrite Qe. eexists. reflexivity.
    + unfold w_decrypt_hybrid_header. rewrite Nb, Lb, DW. cbn [bind]. unfold w_open. destruct (proj2 (Ow uk) H) as [e Qe]. rewrite Qe. eexists. reflexivity.
Qed.

(** ** C115 *)
(** A key that is not newer than the header: all three interfaces open the header if
    the attributes that were not rotated in between satisfy the access policy of the
    key, and all three report an error otherwise. *)
Theorem C115_older_key n p0 (mdraw : nat -> K) priv pub del ops1 ops2 p1 p2 ap b l random (s : K) m key header :
  1 <= n < 524288 -> max_attribute_creations p0 = n -> masters p0 mdraw priv pub del ->
  (forall mk, eng_master_key p0 mdraw = Ok mk -> fine (pub_y (pub_key mk))) ->
  run_ops ops1 (new_policy n) = Ok p1 -> run_ops ops2 p1 = Ok p2 ->
  issued priv del p1 ap b ->
  l <> [] -> metas m -> sealed pub p2 l random s m key header -> blen header < 2147483648 ->
  (forall mk ct, eng_master_key p0 mdraw = Ok mk -> eng_encrypt PC p2 (pub_key mk) l random s = Ok ct -> fine (e_prime ct)) ->
  let T := fun a => In a l /\ ~ In (Rotate a) ops2 in
  (satisfied ops1 T ap /\ opened b header key m) \/ (~ satisfied ops1 T ap /\ stays_closed b header).
Proof using BL HF SL HC HPP HW SK.
  intros Hn Hm0 Hk Hy H1 H2 Hu Hl Hm Hs Lh Hf T.
  destruct (masters_inv n p0 mdraw priv pub del Hm0 Hn Hk) as (mk & Hmk & E1 & E2 & E3).
  assert (D : forall P, 32 <= usize_bits P -> priv_dec F P priv = Ok (priv_key mk) /\ pub_dec F P pub = Ok (pub_key mk) /\
                (forall dk, del_enc F (del_key mk) = Ok dk -> del_dec F P dk = Ok (del_key mk))).
  { intros P HP. apply (masters_decode P n p0 mdraw mk priv pub HP); try assumption. apply Hy. exact Hmk. }
  destruct (issued_sound n p0 mdraw mk priv del p1 ap b Hm0 (proj2 Hn) Hmk) as (uk & Huk); [| |exact Hu|].
  { intros P HP. exact (proj1 (D P HP)). } { intros P dk HP Q. apply (proj2 (proj2 (D P HP))). exact (E3 dk Q). }
  assert (Hp : run_ops (ops1 ++ ops2) (new_policy n) = Ok p2) by (rewrite run_ops_app, H1; exact H2).
  destruct (sealed_opened n (ops1 ++ ops2) p2 (pub_key mk) pub l random s m key header Hn Hp (pub_slots B BL _ _ _ _ Hm0 Hmk) Hl Hm
    ltac:(intros P HP; exact (proj1 (proj2 (D P HP)))) Hs Lh ltac:(intros ct; apply Hf; exact Hmk)) as (_ & ct & Ect & Ho).
  destruct (Ho b uk ltac:(intros P HP; exact (proj2 (Huk P HP)))) as [Ho1 Ho2].
  destruct (C37_rotation_revokes B BL PC n ops1 ops2 p1 p2 p0 mdraw mk ap uk l random s ct H1 H2 Hmk (proj1 (Huk PC HC)) Ect) as [[Hs' Hd]|[Hs' Hd]]; [left|right]; auto.
Qed.

(** A key that is not older than the header: exactly if the attributes satisfy it. *)
Theorem C115_newer_key n p0 (mdraw : nat -> K) priv pub del ops1 ops2 p1 p2 ap b l random (s : K) m key header :
  1 <= n < 524288 -> max_attribute_creations p0 = n -> masters p0 mdraw priv pub del ->
  (forall mk, eng_master_key p0 mdraw = Ok mk -> fine (pub_y (pub_key mk))) ->
  run_ops ops1 (new_policy n) = Ok p1 -> run_ops ops2 p1 = Ok p2 ->
  issued priv del p2 ap b ->
  l <> [] -> metas m -> sealed pub p1 l random s m key header -> blen header < 2147483648 ->
  (forall mk ct, eng_master_key p0 mdraw = Ok mk -> eng_encrypt PC p1 (pub_key mk) l random s = Ok ct -> fine (e_prime ct)) ->
  let T := fun a => In a l in
  (satisfied (ops1 ++ ops2) T ap /\ opened b header key m) \/ (~ satisfied (ops1 ++ ops2) T ap /\ stays_closed b header).
Proof using BL HF SL HC HPP HW SK.
  intros Hn Hm0 Hk Hy H1 H2 Hu Hl Hm Hs Lh Hf T.
  destruct (masters_inv n p0 mdraw priv pub del Hm0 Hn Hk) as (mk & Hmk & E1 & E2 & E3).
  assert (D : forall P, 32 <= usize_bits P -> priv_dec F P priv = Ok (priv_key mk) /\ pub_dec F P pub = Ok (pub_key mk) /\
                (forall dk, del_enc F (del_key mk) = Ok dk -> del_dec F P dk = Ok (del_key mk))).
  { intros P HP. apply (masters_decode P n p0 mdraw mk priv pub HP); try assumption. apply Hy. exact Hmk. }
  destruct (issued_sound n p0 mdraw mk priv del p2 ap b Hm0 (proj2 Hn) Hmk) as (uk & Huk); [| |exact Hu|].
  { intros P HP. exact (proj1 (D P HP)). } { intros P dk HP Q. apply (proj2 (proj2 (D P HP))). exact (E3 dk Q). }
  destruct (sealed_opened n ops1 p1 (pub_key mk) pub l random s m key header Hn H1 (pub_slots B BL _ _ _ _ Hm0 Hmk) Hl Hm
    ltac:(intros P HP; exact (proj1 (proj2 (D P HP)))) Hs Lh ltac:(intros ct; apply Hf; exact Hmk)) as (_ & ct & Ect & Ho).
  destruct (Ho b uk ltac:(intros P HP; exact (proj2 (Huk P HP)))) as [Ho1 Ho2].
  destruct (C38_refreshed_key B BL PC n ops1 ops2 p1 p2 p0 mdraw mk ap uk l random s ct H1 H2 Hmk (proj1 (Huk PC HC)) Ect) as [[Hs' Hd]|[Hs' Hd]]; [left|right]; auto.
Qed.

(** Blocks *)
Lemma block_made_inv key u number data c : block_made key u number data c ->
  length key = key_length S /\ exists nonce, length nonce = nonce_length S /\ encrypt_hybrid_block S 1073741824 key u number nonce data = Ok c.
Proof using HC.
  intros [ou z nonce o o1 Hu Hz Hz' Ln G E|nonce c' Ln E|ou oi nonce c' Hu Hi Ln E].
  - destruct (encrypt_block_inv PC HC S _ _ _ _ _ _ _ G Hz E) as (k & d & n & Q1 & Q2 & Lk & _ & _ & Hn & Ec).
    assert (k = key) by congruence. assert (d = data) by congruence. subst k d. assert (n = number) by exact (names_unique PC z n number Hn Hz'). subst n.
    rewrite Hu in Ec. split; [exact Lk|]. exists nonce. split; assumption.
  - unfold py_encrypt_hybrid_block in E. apply bind_ok in E as (k & Ek & E). apply array_from_inv in Ek as [-> Lk].
    split; [exact Lk|]. exists nonce. split; [exact Ln|exact E].
  - unfold w_encrypt_hybrid_block in E. destruct (negb (blen key =? 32)); [discriminate|]. destruct (is_empty data); [discriminate|].
    apply bind_ok in E as (k & Ek & E). apply array_from_inv in Ek as [-> Lk].
    assert (Q1 : w_uid ou = u) by (destruct Hu as [->|[-> ->]]; reflexivity).
    assert (Q2 : w_number oi = number) by (destruct Hi as [->|[-> ->]]; reflexivity).
    rewrite Q1, Q2 in E. split; [exact Lk|]. exists nonce. split; [exact Ln|exact E].
Qed.

(** A block made by one interface is read by all three. *)
Theorem C115_blocks key u number data c : block_made key u number data c ->
  block_read key u number c data /\ blen c = blen data + overhead S.
Proof using HC SL SK.
  intros H. destruct (block_made_inv key u number data c H) as (Lk & nonce & Ln & E). clear H.
  destruct (C49_block_roundtrip S metas SL 1073741824 key u number nonce data c Lk Ln E) as (D & Lc & _).
  pose proof (block_not_empty S metas SL _ _ _ _ _ _ _ Lk Ln E) as Hc. split; [|exact Lc].
  assert (Hk : key <> []) by (intros ->; rewrite SK in Lk; discriminate).
  split; [|split].
  - intros ou z o Hu Hz Hz' (len & (G & Hmem & El) & Hl1) (len' & El' & Hr). assert (len' = len) by congruence. subst len'.
    destruct (o_mem o) as [mem|] eqn:Em; [|contradiction].
    assert (Q : number = as_usize PC z) by (eapply names_unique; [exact Hz'|apply names_usize; assumption]).
    destruct (C54_decrypt_block_refuted PC HC S key ou z c data Lk Hk Hc) with (o := o) (mem := mem) (len := len) as [R1 _]; try assumption.
    { change (optional_bytes ou) with (uid_given ou). rewrite Hu, <- Q. exact D. }
    exact (R1 Hr).
  - unfold py_decrypt_hybrid_block. rewrite array_from_ok by exact Lk. cbn [bind]. exact D.
  - intros ou oi Hu Hi. unfold w_decrypt_hybrid_block.
    assert (L32 : (blen key =? 32) = true) by (apply N.eqb_eq; unfold blen; rewrite Lk, SK; reflexivity).
    rewrite L32. cbn [negb]. assert (Nc : is_empty c = false) by (destruct c; [contradiction|reflexivity]). rewrite Nc.
    rewrite array_from_ok by exact Lk. cbn [bind].
    assert (Q1 : w_uid ou = u) by (destruct Hu as [->|[-> ->]]; reflexivity).
    assert (Q2 : w_number oi = number) by (destruct Hi as [->|[-> ->]]; reflexivity). rewrite Q1, Q2. exact D.
Qed.

(** Messages: the size of the header, the header, the first block *)
Definition message (header block : list byte) : list byte := be32 (blen header) ++ header ++ block.

(** What Python makes is such a message. *)
Theorem C115_python_messages meta m pol p attrs l pub plaintext random (s : K) nonce nonce' e :
  metadata_from meta = Ok m -> policy_from pol = Ok p -> attributes_from attrs = Ok l ->
  length nonce = nonce_length S -> length nonce' = nonce_length S ->
  py_enc meta pol attrs pub plaintext random s nonce nonce' = Ok e -> blen e < 4294967296 ->
  exists key header block, e = message header block /\ sealed pub p l random s m key header /\ block_made key (uid m) 0 plaintext block.
Proof using Type.
  clear HC HPP HW SK. intros Em Ep El Ln Ln' E Le. unfold py_encrypt in E. rewrite Em in E. cbn [bind] in E.
  apply bind_ok in E as ([key header] & Eh & E). apply bind_ok in E as (c & Ec & E). apply Ok_inj in E. subst e.
  assert (L : blen header < 4294967296) by (rewrite !blen_app in Le; lia).
  exists key, header, c. split; [unfold message; rewrite N.mod_small by (unfold u32_modulus; exact L); reflexivity|].
  split; [exact (sealed_py pub p l random s meta m pol attrs nonce key header Em Ep El Ln Eh)|exact (block_py key (uid m) 0 plaintext nonce' c Ln' Ec)].
Qed.

(** The size functions of the three interfaces find the header. *)
Theorem C115_header_size header block outs : blen header < 2147483648 ->
  h_get_encrypted_header_size (Some (message header block)) outs = Go (Z.of_N (blen header)) outs /\
  py_get_encrypted_header_size (message header block) = Ok (blen header) /\
  w_get_encrypted_header_size (message header block) = Ok (blen header).
Proof using Type.
  clear HC HPP HW SK. intros L.
  assert (Q : firstn 4 (message header block) = be32 (blen header)) by reflexivity.
  assert (R : from_be (firstn 4 (message header block)) = blen header) by (rewrite Q; apply from_be_be32; unfold u32_modulus; lia).
  assert (L4 : 4 <= blen (message header block)) by (unfold message; rewrite blen_app; change (blen (be32 (blen header))) with 4; lia).
  split; [|split].
  - destruct (C57_header_size outs) as (_ & _ & H & _). rewrite (H (message header block) L4); rewrite R; [reflexivity|exact L].
  - unfold py_get_encrypted_header_size. destruct (N.ltb_spec (blen (message header block)) 4) as [|_]; [lia|]. rewrite R. reflexivity.
  - unfold w_get_encrypted_header_size. destruct (N.ltb_spec (blen (message header block)) 4) as [|_]; [lia|]. rewrite R. reflexivity.
Qed.

Lemma py_dec_layout uk header block : blen header < 2147483648 ->
  py_dec uk (message header block) =
  (let* (key, meta) := py_decrypt_header uk header in
   let* m := meta_from_bytes S meta in
   py_decrypt_hybrid_block S key (uid m) 0 block).
Proof using HPP.
  clear HC HW SK. intros H. destruct (C115_header_size header block [] H) as (_ & Q & _). unfold py_decrypt. rewrite Q. cbn [bind].
  assert (A : usize_add PP 4 (blen header) = Ok (4 + blen header)).
  { unfold usize_add. rewrite wrap_small; [f_equal; lia|lia|].
    unfold usize_modulus. apply N.lt_le_trans with (2 ^ 32); [change (2 ^ 32) with 4294967296; lia|apply N.pow_le_mono_r; [lia|exact HPP]]. }
  rewrite A. cbn [bind].
  assert (Lm : blen (message header block) = 4 + (blen header + blen block)) by (unfold message; rewrite !blen_app; reflexivity).
  assert (E1 : (4 <=? 4 + blen header) && (4 + blen header <=? blen (message header block)) = true).
  { rewrite Lm. apply andb_true_intro. split; apply N.leb_le; lia. }
  rewrite E1. change (skipn 4 (message header block)) with (header ++ block).
  assert (E2 : firstn (N.to_nat (4 + blen header - 4)) (header ++ block) = header).
  { replace (4 + blen header - 4) with (blen header) by lia. unfold blen. rewrite Nat2N.id, firstn_app, Nat.sub_diag, firstn_all, app_nil_r. reflexivity. }
  rewrite E2. cbn [bind]. unfold slice_fromN. change (N.of_nat (length (message header block))) with (blen (message header block)).
  assert (E3 : (4 + blen header <=? blen (message header block)) = true) by (rewrite Lm; apply N.leb_le; lia).
  rewrite E3. cbn [bind].
  replace (N.to_nat (4 + blen header)) with (4 + length header)%nat by (unfold blen; lia).
  change (skipn (4 + length header) (message header block)) with (skipn (length header) (header ++ block)).
  rewrite skipn_app, skipn_all, Nat.sub_diag. reflexivity.
Qed.

(** A message put together from a header of one interface and a block of another one is
    read by Python and, given the uid of the metadata, by WebAssembly programs, exactly
    with the keys that open the header. *)
Theorem C115_messages key u m data b header block number :
  blen header < 2147483648 -> uid m = u -> number = Some 0 \/ number = None -> block_made key u 0 data block ->
  (opened b header key m -> py_dec b (message header block) = Ok data /\
     w_read_message B PW F shake S b (message header block) (Some u) number = Ok data) /\
  (stays_closed b header -> is_err (py_dec b (message header block)) /\
     is_err (w_read_message B PW F shake S b (message header block) (Some u) number)).
Proof using HC HPP HW SL SK.
  intros Lh Hu Hnum Hb. destruct (C115_blocks key u 0 data block Hb) as [(_ & Rp & Rw) _].
  assert (Q : w_read_message B PW F shake S b (message header block) (Some u) number =
    (let* clear := w_decrypt_header b header in w_decrypt_hybrid_block S (fst (cut clear)) (Some u) number block)).
  { apply (read_message B PW F shake S b header block (Some u) number). lia. }
  rewrite Q, (py_dec_layout b header block Lh). split.
  - intros (_ & (mb & Ep & Em) & c & Ew & Ec & _). rewrite Ep, Ew. cbn [bind]. rewrite Em. cbn [bind]. rewrite Hu, Ec. split; [exact Rp|].
    apply Rw; [left; reflexivity|]. destruct Hnum as [-> | ->]; [left; reflexivity|right; split; reflexivity].
  - intros (_ & (e1 & Ep) & e2 & Ew). rewrite Ep, Ew. split; eexists; reflexivity.
Qed.

End Together.

(** ** Examples *)
Local Ltac vmr x := vm_cast_no_check (eq_refl x).
Lemma ran {A} (d : A) (o : outcome A) : match o with Ok _ => true | _ => false end = true -> o = Ok (run d o).
Proof. destruct o; [reflexivity|discriminate|discriminate]. Qed.
Lemma went {A} (f : result A) (v : A) (d : list out_arg) : match f with Go _ o => Nat.eqb (length o) (length d) | _ => false end = true ->
  (forall a : A, a = v) -> exists o, f = Go v o /\ length o = length d /\ outs_of f = o.
Proof.
  intros H Hv. destruct f as [a o|e o|p|]; [|discriminate|discriminate|discriminate]. exists o. rewrite (Hv a). split; [reflexivity|]. split; [|reflexivity].
  apply Nat.eqb_eq. exact H.
Qed.
Lemma good_room n : (N.of_nat n < 2147483648) -> good_out (room_for n).
Proof. intros H. exists (Z.of_nat n). split; [reflexivity|]. split; [lia|]. intros mem Q. assert (mem = repeat xee n) by (cbn in Q; congruence). subst mem. rewrite repeat_length. lia. Qed.

(** Python, on a 64-bit machine, makes the master keys. *)
Definition t_priv := fst (fst py_masters).
Definition t_pub := snd (fst py_masters).
(** WebAssembly, 32 bits, makes a user key, Python delegates it. *)
Definition t_user := bytes_of (w_generate_user_private_key release32 toy_forms py_policy py_access it_rev t_priv "a" [x01] ex_kdraw).
Definition t_narrow := bytes_of (py_generate_delegated_key release64 toy_forms py_policy py_access it_rev (snd py_masters) t_user "b" [x01] ex_draw).
(** C, 64 bits with checks, makes a header and a block. *)
Definition t_sealed (a : byte) :=
  h_aes_encrypt_header pf toy_forms toy_shake toy_sym c_policy c_attrs (Some [x01]) (Some t_pub) (Some [a]) (Some [x01; x02; x03]) (Some [x0a; x0b])
    ex_msg ex_s ex_nonce [room_for 40; room_for 1000].
Definition t_key (a : byte) := read_out (out_n 0 (t_sealed a)).
Definition t_header (a : byte) := read_out (out_n 1 (t_sealed a)).
Definition t_cblock := h_aes_encrypt_block pf toy_sym (Some (t_key x01)) (Some [x01; x02; x03]) 0%Z (Some [x2a; x2b]) ex_nonce [room_for 100].
Definition t_block := read_out (out_n 0 t_cblock).

Example C115_hypotheses_example :
  masters toy toy_forms pf c_policy py_policy pol_a ex_draw t_priv t_pub (Some (snd py_masters)) /\
  issued toy toy_forms pf release64 release32 c_policy c_access py_policy py_access t_priv (Some (snd py_masters)) pol_a ex_ap t_user /\
  issued toy toy_forms pf release64 release32 c_policy c_access py_policy py_access t_priv (Some (snd py_masters)) pol_a ex_ap' t_narrow /\
  sealed toy toy_forms toy_shake toy_sym pf release64 release32 c_policy c_attrs py_policy py_attrs py_meta w_attrs
    t_pub pol_a [dept "HR"; level "Protected"] ex_msg ex_s (mkMeta [x01; x02; x03] (Some [x0a; x0b])) (t_key x01) (t_header x01) /\
  block_made toy_sym pf (t_key x01) [x01; x02; x03] 0 [x2a; x2b] t_block.
Proof.
  assert (H1 : issued toy toy_forms pf release64 release32 c_policy c_access py_policy py_access t_priv (Some (snd py_masters)) pol_a ex_ap t_user).
  { apply issued_w with it_rev "a"%string [x01] ex_kdraw; [exact it_rev_ok|reflexivity|reflexivity|apply (ran []); vmr true|apply N.ltb_lt; vmr true]. }
  split; [|split; [exact H1|split; [|split]]].
  - apply masters_py with [x01]; [reflexivity|]. unfold t_priv, t_pub. rewrite <- !surjective_pairing. apply (ran ([], [], [])). vmr true.
  - apply issued_delegated with it_rev "b"%string ex_ap t_user [x01] (snd py_masters) ex_draw; [exact it_rev_ok|exact H1|reflexivity|reflexivity|discriminate| |reflexivity|apply (ran []); vmr true|apply N.ltb_lt; vmr true].
    apply na_and; [apply na_refl|apply na_or_left].
  - change (mkMeta [x01; x02; x03] (Some [x0a; x0b])) with (meta_of (Some [x01; x02; x03]) (Some [x0a; x0b])).
    destruct (went (t_sealed x01) Datatypes.tt [room_for 40; room_for 1000]) as (o & E & L & Q); [vmr true|intros []; reflexivity|].
    unfold t_key, t_header, out_n. rewrite Q. destruct o as [|ok' [|oh' [|]]]; try discriminate L. cbn [nth].
    apply sealed_c with [x01] [x01] ex_nonce (room_for 40) (room_for 1000); [reflexivity|reflexivity|reflexivity|apply good_room; lia|apply good_room; lia|exact E].
  - destruct (went t_cblock Datatypes.tt [room_for 100]) as (o & E & L & Q); [vmr true|intros []; reflexivity|].
    unfold t_block, out_n. rewrite Q. destruct o as [|o1 [|]]; try discriminate L. cbn [nth].
    apply block_c with (Some [x01; x02; x03]) 0%Z ex_nonce (room_for 100); [reflexivity|unfold i32_range, i32_min, i32_max; lia|reflexivity|reflexivity|apply good_room; lia|exact E].
Qed.

(** What the interfaces make of it. *)
Definition t_open_c (key header : list byte) := h_aes_decrypt_header pf toy_forms toy_shake toy_sym (Some header) (Some key) [room_for 40; room_for 10; room_for 10].
Definition t_open_py (key header : list byte) := py_decrypt_hybrid_header release64 toy_forms toy_shake toy_sym key header.
Definition t_open_w (key header : list byte) := w_decrypt_hybrid_header release32 toy_forms toy_shake toy_sym key header.
Definition key_py (o : outcome (list byte * list byte)) : outcome (list byte) := let* (k, _) := o in Ok k.
Definition key_w (o : outcome (list byte)) : outcome (list byte) := let* c := o in Ok (fst (cut c)).
(** the header of version [x02] made by Python, and one made by WebAssembly *)
Definition t_later := snd (run ([], []) (py_encrypt_hybrid_header release64 toy_forms toy_shake toy_sym py_policy py_attrs py_meta [x01] [x02] [x01] t_pub ex_msg ex_s ex_nonce)).
Definition t_w := bytes_of (w_encrypt_hybrid_header release32 toy_forms toy_shake toy_sym py_policy w_attrs [x01] t_pub "hr" [x07] ex_msg ex_s ex_nonce).

Example C115_example :
  (** the header made by C, with both keys *)
  map read_out (outs_of (t_open_c t_user (t_header x01))) = [t_key x01; [x01; x02; x03]; [x0a; x0b]] /\
  key_py (t_open_py t_narrow (t_header x01)) = Ok (t_key x01) /\ key_w (t_open_w t_narrow (t_header x01)) = Ok (t_key x01) /\
  (** without the security level *)
  code (t_open_c t_user (t_header x02)) = Some 1%Z /\ t_open_py t_user (t_header x02) = Err InvalidEncryptedData /\
  t_open_w t_user (t_header x02) = Err InvalidEncryptedData /\
  (** after the rotation *)
  code (t_open_c t_user t_later) = Some 1%Z /\ t_open_w t_user t_later = Err InvalidEncryptedData /\
  (** the header made by WebAssembly *)
  map read_out (outs_of (t_open_c t_narrow (snd (cut t_w)))) = [fst (cut t_w); [x07]; []] /\
  (** messages, put together by hand and made by Python *)
  py_decrypt release64 toy_forms toy_shake toy_sym t_user (message (t_header x01) t_block) = Ok [x2a; x2b] /\
  w_read_message toy release32 toy_forms toy_shake toy_sym t_user (message (t_header x01) t_block) (Some [x01; x02; x03]) None = Ok [x2a; x2b] /\
  w_read_message toy release32 toy_forms toy_shake toy_sym t_user (py_message [x01] [x01]) (Some (uid ex_meta)) (Some 0) = Ok [x0c; x0d; x0e].
Proof.
  split; [vmr [t_key x01; [x01; x02; x03]; [x0a; x0b]]|]. split; [vmr (@Ok (list byte) (t_key x01))|]. split; [vmr (@Ok (list byte) (t_key x01))|].
  split; [vmr (Some 1%Z)|]. split; [vmr (@Err (list byte * list byte) InvalidEncryptedData)|]. split; [vmr (@Err (list byte) InvalidEncryptedData)|].
  split; [vmr (Some 1%Z)|]. split; [vmr (@Err (list byte) InvalidEncryptedData)|]. split; [vmr [fst (cut t_w); [x07]; []]|].
  split; [vmr (@Ok (list byte) [x2a; x2b])|]. split; [vmr (@Ok (list byte) [x2a; x2b])|]. vmr (@Ok (list byte) [x0c; x0d; x0e]).
Qed.

Print Assumptions C115_older_key.
Print Assumptions C115_newer_key.
Print Assumptions C115_blocks.
Print Assumptions C115_python_messages.
Print Assumptions C115_header_size.
Print Assumptions C115_messages.
