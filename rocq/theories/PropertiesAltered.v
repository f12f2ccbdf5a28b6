(** Headers changed on their way (C118). *)
From Coq Require Import String NArith ZArith Bool Arith Lia Strings.Byte List.
From Verif Require SchemeProofs.
From Verif Require Import Prelude Field Msp Spec MspProofs Bilinear Scheme SchemeSpec SchemeTheorems Zp ExpModel PropertiesScheme
  Codec CodecProofs SchemeCodec SchemeCodecProofs PropertiesCodec
  Policy PolicySpec PolicyProofs Engine EngineSpec EngineProofs PropertiesEngine Hybrid HybridSpec PropertiesHybrid PropertiesVersions Properties32 PropertiesTamper
  Ffi FfiSpec PropertiesFfi Python PropertiesPython Wasm PropertiesWasm PropertiesTogether.
Import ListNotations.
Local Open Scope N_scope.

Section Altered.
Variable B : BilinearMap.
Hypothesis BL : BilinearLaws B.
Local Notation K := (bm_K B).
Variable F : byte_forms B.
Variable fine : Gt B -> Prop.
Hypothesis HF : forms_ok F fine.
Variable shake : list byte -> nat -> list byte.
Variable S : sym_scheme.

(** ** Specification *)
(** The bytes after the encapsulated key, read with the symmetric key [key]: none, or a nonce,
    a size, so many bytes which decrypt to metadata, and anything. *)
Definition metadata_in (key rest : list byte) (meta : metadata) : Prop :=
  (rest = [] /\ meta = mkMeta [] None) \/
  exists nonce em anything mb, rest = nonce ++ be32 (blen em) ++ em ++ anything /\ length nonce = nonce_length S /\ blen em < 4294967296 /\
    sym_decrypt S key em nonce None = Ok mb /\ meta_from_bytes S mb = Ok meta.
(** What the bytes of a header open to. *)
Definition opens (P : platform) (uk : decryption_key B) (bytes key : list byte) (meta : metadata) : Prop :=
  exists sk rest ct msg, bytes = be32 (blen sk) ++ sk ++ rest /\ blen sk < 4294967296 /\
    ct_dec F P sk = Ok ct /\ eng_decrypt ct uk = Ok (Some msg) /\
    key = shake (to_compressed (gt_form B F) msg) (key_length S) /\ length key = key_length S /\ metadata_in key rest meta.
(** The size of the encapsulated key and the encapsulated key. *)
Definition front (header : list byte) : list byte := firstn (4 + N.to_nat (from_be (firstn 4 header))) header.
Definition rest_of (header : list byte) : list byte := skipn (4 + N.to_nat (from_be (firstn 4 header))) header.
(** Bytes put behind the encapsulated key, the announced size changed accordingly. *)
Definition padded (pad header : list byte) : list byte :=
  be32 (from_be (firstn 4 header) + blen pad) ++ skipn 4 (front header) ++ pad ++ rest_of header.

(** ** Proofs *)
Lemma app_eq_length {A} (a b c d : list A) : a ++ b = c ++ d -> length a = length c -> a = c /\ b = d.
Proof using Type.
  revert c. induction a as [|x a IH]; intros [|y c] E L; try discriminate; [auto|]. cbn [app] in E. cbn [length] in L.
  assert (x = y) by congruence. destruct (IH c ltac:(congruence) ltac:(congruence)). split; congruence.
Qed.
Lemma u32_len_ok b : blen b < 4294967296 -> u32_len b = Ok (be32 (blen b)).
Proof using Type. intros H. unfold u32_len. apply N.ltb_lt in H. unfold u32_modulus. rewrite H. reflexivity. Qed.
Lemma front_layout sk tail : blen sk < 4294967296 ->
  front (be32 (blen sk) ++ sk ++ tail) = be32 (blen sk) ++ sk /\ rest_of (be32 (blen sk) ++ sk ++ tail) = tail /\
  from_be (firstn 4 (be32 (blen sk) ++ sk ++ tail)) = blen sk.
Proof using Type.
  intros H. assert (Q : firstn 4 (be32 (blen sk) ++ sk ++ tail) = be32 (blen sk)) by reflexivity.
  assert (Q2 : from_be (be32 (blen sk)) = blen sk) by (apply from_be_be32; exact H).
  unfold front, rest_of. rewrite Q, Q2. assert (L : (4 + N.to_nat (blen sk) = length (be32 (blen sk) ++ sk))%nat) by (rewrite app_length, be32_length; unfold blen; lia).
  rewrite L, app_assoc, firstn_app, skipn_app, Nat.sub_diag, firstn_all, skipn_all, firstn_O, app_nil_r, skipn_O. auto.
Qed.

(** ** C118 *)
(** Exactly these bytes open, and to nothing else. *)
Theorem C118_accepted_exactly P (uk : decryption_key B) bytes key meta :
  decrypt_hybrid_header S F shake P uk bytes = Ok (mkClearHeader key meta) <-> opens P uk bytes key meta.
Proof using Type.
  split.
  - intros E. assert (E0 := E). unfold decrypt_hybrid_header in E0. destruct (N.ltb_spec (blen bytes) 4) as [|_]; [discriminate|].
    apply bind_ok in E0 as ([size r] & Es & E0). apply bind_ok in E0 as ([sk rest] & En & _).
    apply scan_u32_inv in Es as (b4 & -> & L4 & ->). apply scan_next_inv in En as [-> Ls].
    assert (L4' : length b4 = 4%nat) by (unfold blen in L4; lia). pose proof (from_be_range b4 L4') as Hr. unfold u32_modulus in Hr.
    rewrite <- (be32_from_be b4 L4'), <- Ls in E |- *. assert (Lsk : blen sk < u32_modulus) by (rewrite Ls; exact Hr).
    rewrite (decrypt_layout B F shake S) in E by exact Lsk.
    apply bind_ok in E as (skb & Ek & E). apply bind_ok in E as (key' & Ea & E). apply bind_ok in E as (m & Em & E). apply Ok_inj in E.
    assert (key' = key) by congruence. assert (m = meta) by congruence. subst key' m. apply array_from_inv in Ea as [-> Lk].
    unfold decrypt_symmetric_key in Ek. apply bind_ok in Ek as (ct & Ec & Ek). apply bind_ok in Ek as ([msg|] & Ed & Ek); [|discriminate].
    cbn [gt_codec fixed_codec enc bind] in Ek. apply Ok_inj in Ek.
    exists sk, rest, ct, msg. split; [reflexivity|]. split; [exact Lsk|]. split; [exact Ec|]. split; [exact Ed|]. split; [symmetry; exact Ek|]. split; [exact Lk|].
    destruct rest as [|x rest]; [left; split; [reflexivity|]; cbn [has_more] in Em; apply Ok_inj in Em; symmetry; exact Em|]. right.
    cbn [has_more] in Em. apply bind_ok in Em as ([nonce r1] & E1 & Em). apply bind_ok in Em as (nonce' & E2 & Em). apply bind_ok in Em as ([size r2] & E3 & Em).
    apply bind_ok in Em as ([em r3] & E4 & Em). apply bind_ok in Em as (mb & E5 & Em).
    apply scan_next_inv in E1 as [Q1 L1]. apply array_from_inv in E2 as [-> L2]. apply scan_u32_inv in E3 as (c4 & -> & L3 & ->). apply scan_next_inv in E4 as [-> L5].
    assert (L3' : length c4 = 4%nat) by (unfold blen in L3; lia). pose proof (from_be_range c4 L3') as Hr'. unfold u32_modulus in Hr'.
    exists nonce, em, r3, mb. rewrite Q1, L5, (be32_from_be c4 L3'). auto.
  - intros (sk & rest & ct & msg & -> & Ls & Ec & Ed & Ek & Lk & Hm). rewrite (decrypt_layout B F shake S) by exact Ls.
    unfold decrypt_symmetric_key. rewrite Ec. cbn [bind]. rewrite Ed. cbn [bind gt_codec fixed_codec enc]. rewrite <- Ek, array_from_ok by exact Lk. cbn [bind].
    destruct Hm as [[-> ->]|(nonce & em & anything & mb & -> & Ln & Le & E1 & E2)]; [reflexivity|].
    assert (M : has_more (nonce ++ be32 (blen em) ++ em ++ anything) = true) by (destruct nonce; reflexivity). rewrite M.
    rewrite <- Ln at 1. change (N.of_nat (length nonce)) with (blen nonce). rewrite scan_next_app. cbn [bind].
    rewrite array_from_ok by exact Ln. cbn [bind]. rewrite scan_u32_app by exact Le. cbn [bind]. rewrite scan_next_app. cbn [bind]. rewrite E1. cbn [bind]. rewrite E2. reflexivity.
Qed.

(** Whoever opens a header: what another header with the same encapsulated key opens to. *)
Theorem C118_same_front P (uk : decryption_key B) header header' key m key' m' :
  decrypt_hybrid_header S F shake P uk header = Ok (mkClearHeader key m) -> front header' = front header ->
  (decrypt_hybrid_header S F shake P uk header' = Ok (mkClearHeader key' m') <-> key' = key /\ metadata_in key (rest_of header') m').
Proof using Type.
  intros E Hf. apply C118_accepted_exactly in E as (sk & rest & ct & msg & -> & Ls & Ec & Ed & Ek & Lk & Hm).
  destruct (front_layout sk rest Ls) as (F1 & _ & _). rewrite F1 in Hf.
  assert (Q : exists rest', header' = be32 (blen sk) ++ sk ++ rest').
  { exists (rest_of header'). rewrite app_assoc, <- Hf. unfold front, rest_of. symmetry. apply firstn_skipn. }
  destruct Q as (rest' & ->). destruct (front_layout sk rest' Ls) as (_ & R & _). rewrite R. rewrite C118_accepted_exactly. split.
  - intros (sk' & r & ct' & msg' & Eb & Ls' & Ec' & Ed' & Ek' & Lk' & Hm').
    assert (Q4 : be32 (blen sk) = be32 (blen sk')) by (exact (f_equal (firstn 4) Eb)).
    apply be32_inj in Q4; [|exact Ls|exact Ls']. assert (Q5 : sk ++ rest' = sk' ++ r) by (exact (f_equal (skipn 4) Eb)).
    apply app_eq_length in Q5 as [<- <-]; [|unfold blen in Q4; lia]. assert (ct' = ct) by congruence. subst ct'. assert (msg' = msg) by congruence. subst msg'.
    rewrite <- Ek in Ek'. split; [exact Ek'|rewrite <- Ek'; exact Hm'].
  - intros [-> Hm']. exists sk, rest', ct, msg. repeat (split; [assumption || reflexivity|]). exact Hm'.
Qed.

(** Whoever does not know the symmetric key cannot make other metadata than those of the header
    decrypt. Then only removing them goes unnoticed. *)
Theorem C118_outsiders P (uk : decryption_key B) header header' key m nonce em c :
  decrypt_hybrid_header S F shake P uk header = Ok (mkClearHeader key m) ->
  rest_of header = nonce ++ be32 (blen em) ++ em -> length nonce = nonce_length S -> blen em < 4294967296 ->
  (forall nonce' em' any, rest_of header' = nonce' ++ be32 (blen em') ++ em' ++ any -> is_ok (sym_decrypt S key em' nonce' None) ->
     length nonce' = nonce_length S -> blen em' < 4294967296 -> nonce' = nonce /\ em' = em) ->
  front header' = front header -> decrypt_hybrid_header S F shake P uk header' = Ok c ->
  c = mkClearHeader key m \/ (header' = front header /\ c = mkClearHeader key (mkMeta [] None)).
Proof using Type.
  intros E Er Ln Le Hforge Hf E'. destruct c as [key' m'].
  assert (E0 := proj1 (C118_same_front P uk header header key m key m E eq_refl) E).
  destruct E0 as [_ [[Q _]|(n1 & e1 & any & mb & Q1 & L1 & L1' & D1 & M1)]]; [exfalso; rewrite Q in Er; destruct nonce; discriminate|].
  assert (n1 = nonce /\ e1 = em) as [-> ->].
  { rewrite Er in Q1. apply app_eq_length in Q1 as [-> Q1]; [|congruence]. split; [reflexivity|].
    assert (Q4 : be32 (blen em) = be32 (blen e1)) by (exact (f_equal (firstn 4) Q1)). apply be32_inj in Q4; [|exact Le|exact L1'].
    assert (Q5 : em ++ [] = e1 ++ any) by (rewrite app_nil_r; exact (f_equal (skipn 4) Q1)). apply app_eq_length in Q5 as [-> _]; [reflexivity|unfold blen in Q4; lia]. }
  apply (C118_same_front P uk header header' key m key' m' E Hf) in E' as [-> [[Q ->]|(n2 & e2 & any2 & mb2 & Q2 & L2 & L2' & D2 & M2)]].
  - right. split; [|reflexivity]. rewrite <- Hf. unfold front. rewrite <- (firstn_skipn (4 + N.to_nat (from_be (firstn 4 header'))) header') at 1.
    unfold rest_of in Q. rewrite Q. apply app_nil_r.
  - left. destruct (Hforge n2 e2 any2 Q2 ltac:(eexists; exact D2) L2 L2') as [-> ->]. congruence.
Qed.

(** Bytes put behind the encapsulated key change nothing, for any key, where the encapsulated key decodes. *)
Lemma padded_same P sk tail ct pad (uk : decryption_key B) : ct_dec F P sk = Ok ct -> blen sk + blen pad < 4294967296 ->
  decrypt_hybrid_header S F shake P uk (padded pad (be32 (blen sk) ++ sk ++ tail)) = decrypt_hybrid_header S F shake P uk (be32 (blen sk) ++ sk ++ tail).
Proof using HF.
  intros Ec L. assert (Ls : blen sk < 4294967296) by lia. destruct (front_layout sk tail Ls) as (F1 & F2 & F3). unfold padded. rewrite F1, F2, F3.
  change (skipn 4 (be32 (blen sk) ++ sk)) with sk. rewrite <- blen_app, (app_assoc sk pad tail), !(decrypt_layout B F shake S).
  - unfold decrypt_symmetric_key. rewrite Ec, (proj2 (proj2 (proj2 (proj2 (C24_trailing_bytes_ignored B F fine HF P sk pad)))) ct Ec). reflexivity.
  - exact Ls.
  - unfold u32_modulus. rewrite blen_app. exact L.
Qed.

(** A made header with such bytes: another header, of which nobody notices a difference. *)
Theorem C118_padded P n ops p (pk : master_public_key B) l meta random (s : K) nonce h pad :
  32 <= usize_bits P -> n < 524288 -> run_ops ops (new_policy n) = Ok p -> length (pub_t pk) = N.to_nat n -> l <> [] ->
  encrypt_hybrid_header S F shake P p pk l meta random s nonce = Ok h -> blen (eh_bytes h) < 2147483648 ->
  (forall ct, eng_encrypt P p pk l random s = Ok ct -> fine (e_prime ct)) -> blen pad < 2147483648 ->
  (forall uk, decrypt_hybrid_header S F shake P uk (padded pad (eh_bytes h)) = decrypt_hybrid_header S F shake P uk (eh_bytes h)) /\
  blen (padded pad (eh_bytes h)) = blen (eh_bytes h) + blen pad.
Proof using HF.
  intros HP Hn Hp Lk Hl E Lh Hf Lp. destruct (header_layout B F shake S P p pk l meta random s nonce h E) as (sk & tail & Eg & _ & Ls & Eb & _).
  assert (Lsk : blen sk < 2147483648) by (rewrite Eb, !blen_app in Lh; lia).
  assert (M : fits P (n * g2_mem B F)).
  { apply (small_fits P HP). pose proof (fo_g2_mem _ _ HF) as G. apply N.le_lt_trans with (n * 4096); [apply N.mul_le_mono_l; exact G|lia]. }
  destruct (symmetric_key_fits B F fine HF shake P n ops p pk l _ random s _ sk HP ltac:(lia) M Hp Lk Hl Eg (small_fits P HP _ Lsk) Hf) as (ct & _ & Ed & _).
  rewrite Eb. split; [intros uk; apply (padded_same P sk tail ct pad uk Ed); lia|].
  destruct (front_layout sk tail Ls) as (F1 & F2 & F3). unfold padded. rewrite F1, F2, F3. change (skipn 4 (be32 (blen sk) ++ sk)) with sk.
  rewrite !blen_app. change (blen (be32 (blen sk + blen pad))) with 4. change (blen (be32 (blen sk))) with 4. lia.
Qed.

(** Whoever knows the symmetric key can exchange the metadata: the result is the header that the maker would
    have made with the other metadata and nonce. *)
Theorem C118_exchanged P p (pk : master_public_key B) l m random (s : K) nonce h m' nonce' mb em :
  encrypt_hybrid_header S F shake P p pk l (Some m) random s nonce = Ok h ->
  meta_to_bytes S m' = Ok mb -> sym_encrypt S (eh_key h) mb nonce' None = Ok em -> blen em < 4294967296 ->
  encrypt_hybrid_header S F shake P p pk l (Some m') random s nonce' =
    Ok (mkEncHeader (eh_key h) (front (eh_bytes h) ++ nonce' ++ be32 (blen em) ++ em)).
Proof using Type.
  intros E Em Ee Le. destruct (header_layout B F shake S P p pk l (Some m) random s nonce h E) as (sk & tail & Eg & Lk & Ls & Eb & _).
  destruct (front_layout sk tail Ls) as (F1 & _ & _). rewrite Eb, F1. unfold encrypt_hybrid_header. rewrite Eg. cbn [bind].
  rewrite array_from_ok by exact Lk. cbn [bind]. rewrite u32_len_ok by exact Ls. cbn [bind]. rewrite Em. cbn [bind]. rewrite Ee. cbn [bind].
  rewrite u32_len_ok by exact Le. cbn [bind]. rewrite <- !app_assoc. reflexivity.
Qed.
End Altered.

(** ** Through the three interfaces *)
Section Interfaces.
Variable B : BilinearMap.
Hypothesis BL : BilinearLaws B.
Local Notation K := (bm_K B).
Variable F : byte_forms B.
Variable fine : Gt B -> Prop.
Hypothesis HF : forms_ok F fine.
Variable shake : list byte -> nat -> list byte.
Variable S : sym_scheme.
Variable metas : metadata -> Prop.
Hypothesis SL : sym_laws S metas.
Hypothesis SK : key_length S = 32%nat.
(** the machines of the C program, of the Python program and of the browser *)
Variables PC PP PW : platform.
Hypothesis HC : 32 <= usize_bits PC.
Hypothesis HPP : 32 <= usize_bits PP.
Hypothesis HW : 32 <= usize_bits PW.
Local Notation opened := (opened B F shake S PC PP PW).
Local Notation front := front.

(** The key [b] is read and opens the header, on all machines. *)
Definition reader (b : list byte) (uk : decryption_key B) (header key : list byte) (m : metadata) : Prop :=
  forall P, 32 <= usize_bits P -> user_dec F P b = Ok uk /\ decrypt_hybrid_header S F shake P uk header = Ok (mkClearHeader key m).

Lemma reader_opened b uk header key m mb : reader b uk header key m -> metas m -> meta_to_bytes S m = Ok mb -> opened b header key m.
Proof using SL SK HC HPP HW.
  intros R Hm Emb.
  assert (Lkey : length key = key_length S).
  { destruct (R PC HC) as [_ D]. apply C118_accepted_exactly in D as (? & ? & ? & ? & _ & _ & _ & _ & _ & L & _). exact L. }
  assert (Hh : 4 <= blen header).
  { destruct (R PC HC) as [_ D]. unfold decrypt_hybrid_header in D. destruct (N.ltb_spec (blen header) 4) as [|H]; [discriminate|exact H]. }
  assert (Hh' : header <> []) by (intros ->; unfold blen in Hh; cbn [length] in Hh; clear SK HC HPP HW; lia).
  assert (Hb : b <> []) by (intros ->; destruct (R PC HC) as [D _]; unfold user_dec in D; discriminate).
  assert (Nb : is_empty b = false) by (destruct b; [contradiction|reflexivity]).
  split; [|split].
  - destruct (R PC HC) as [D1 D2]. apply (C54_decrypt_header B PC HC F shake S header b uk); try assumption.
    cbn [ch_key]. unfold blen. rewrite Lkey, SK. reflexivity.
  - destruct (R PP HPP) as [D1 D2]. exists mb. unfold py_decrypt_hybrid_header. rewrite D1. cbn [bind]. rewrite D2. cbn [bind ch_meta ch_key]. rewrite Emb. cbn [bind].
    split; [reflexivity|]. exact (law_meta _ _ SL _ _ Hm Emb).
  - destruct (R PW HW) as [D1 D2]. unfold w_decrypt_hybrid_header. rewrite Nb, (proj2 (N.ltb_ge _ _) Hh), D1. cbn [bind]. unfold w_open. rewrite D2. cbn [bind].
    unfold ch_enc. cbn [ch_meta ch_key]. rewrite Emb. cbn [bind]. eexists. split; [reflexivity|].
    assert (Qk : N.of_nat (key_length S) = blen key) by (unfold blen; rewrite Lkey; reflexivity).
    rewrite Qk, cut_app by (unfold blen; rewrite Lkey, SK; reflexivity). cbn [fst snd]. split; [reflexivity|]. exact (law_meta _ _ SL _ _ Hm Emb).
Qed.

(** Anybody can cut the metadata off: all readers then find the same symmetric key and no metadata. *)
Theorem C118_stripped_refuted b uk header key m mb : reader b uk header key m ->
  metas (mkMeta [] None) -> meta_to_bytes S (mkMeta [] None) = Ok mb -> opened b (front header) key (mkMeta [] None).
Proof using SL SK HC HPP HW.
  intros R Hm Emb. apply (reader_opened b uk _ key _ mb); [|exact Hm|exact Emb]. intros P HP. destruct (R P HP) as [D1 D2]. split; [exact D1|].
  assert (E := D2). apply C118_accepted_exactly in E as (sk & rest & ct & msg & Q & Ls & _). subst header. destruct (front_layout sk rest Ls) as (F1 & _ & _).
  destruct (front_layout sk [] Ls) as (F2 & F3 & _). rewrite app_nil_r in F2, F3. rewrite F1.
  apply (C118_same_front B F shake S P uk _ (be32 (blen sk) ++ sk) key m key (mkMeta [] None) D2); [congruence|]. split; [reflexivity|]. left. auto.
Qed.

(** Any reader can exchange the metadata for all readers. *)
Theorem C118_exchanged_refuted b uk header key m m' nonce mb em : reader b uk header key m ->
  metas m' -> meta_to_bytes S m' = Ok mb -> length nonce = nonce_length S -> sym_encrypt S key mb nonce None = Ok em -> blen em < 4294967296 ->
  opened b (front header ++ nonce ++ be32 (blen em) ++ em) key m'.
Proof using SL SK HC HPP HW.
  intros R Hm Emb Ln Eem Lem. apply (reader_opened b uk _ key _ mb); [|exact Hm|exact Emb]. intros P HP. destruct (R P HP) as [D1 D2]. split; [exact D1|].
  assert (E := D2). apply C118_accepted_exactly in E as (sk & rest & ct & msg & Q & Ls & _ & _ & _ & Lk & _). subst header. destruct (front_layout sk rest Ls) as (F1 & _ & _).
  rewrite F1, <- app_assoc. destruct (front_layout sk (nonce ++ be32 (blen em) ++ em) Ls) as (F2 & F3 & _).
  apply (C118_same_front B F shake S P uk _ _ key m key m' D2); [congruence|]. rewrite F3. split; [reflexivity|]. right.
  exists nonce, em, [], mb. rewrite app_nil_r. split; [reflexivity|]. split; [exact Ln|]. split; [exact Lem|].
  split; [exact (law_decrypt _ _ SL _ _ _ _ _ Lk Ln Eem)|exact (law_meta _ _ SL _ _ Hm Emb)].
Qed.

(** The answers to a padded header are those to the header, whatever the key. *)
Theorem C118_padded_refuted n ops p (pk : master_public_key B) l m random (s : K) nonce key header pad b :
  n < 524288 -> run_ops ops (new_policy n) = Ok p -> length (pub_t pk) = N.to_nat n -> l <> [] ->
  encrypt_hybrid_header S F shake PC p pk l m random s nonce = Ok (mkEncHeader key header) -> blen header < 2147483648 ->
  (forall ct, eng_encrypt PC p pk l random s = Ok ct -> fine (e_prime ct)) -> blen pad < 2147483648 -> pad <> [] ->
  padded pad header <> header /\
  (forall outs, h_aes_decrypt_header PC F shake S (Some (padded pad header)) (Some b) outs = h_aes_decrypt_header PC F shake S (Some header) (Some b) outs) /\
  py_decrypt_hybrid_header PP F shake S b (padded pad header) = py_decrypt_hybrid_header PP F shake S b header /\
  w_decrypt_hybrid_header PW F shake S b (padded pad header) = w_decrypt_hybrid_header PW F shake S b header.
Proof using HF HC HPP HW.
  intros Hn Hp Lk Hl E Lh Hf Lp Hpad.
  assert (A : forall P, 32 <= usize_bits P ->
    (forall uk, decrypt_hybrid_header S F shake P uk (padded pad header) = decrypt_hybrid_header S F shake P uk header) /\
    blen (padded pad header) = blen header + blen pad).
  { intros P HP. apply (C118_padded B F fine HF shake S P n ops p pk l m random s nonce (mkEncHeader key header) pad); try assumption.
    - exact (header_any B F shake S PC P _ _ _ _ _ _ _ _ E).
    - intros ct Ect. apply Hf. exact (eng_encrypt_any B P PC p pk l random s ct Ect). }
  destruct (A PC HC) as [_ L].
  destruct (header_layout B F shake S PC p pk l m random s nonce _ E) as (sk & tail & _ & _ & _ & Eb & _). cbn [eh_bytes] in Eb.
  assert (L4 : 4 <= blen header) by (rewrite Eb, blen_app; change (blen (be32 (blen sk))) with 4; clear SK HC HPP HW; lia).
  assert (Lpad : 0 < blen pad) by (destruct pad; [contradiction|]; unfold blen; cbn [length]; clear SK HC HPP HW; lia).
  assert (N1 : header <> []) by (intros ->; cbn in L4; clear SK HC HPP HW; lia).
  assert (N2 : padded pad header <> []) by (discriminate).
  split; [intros Q; rewrite Q in L; clear SK HC HPP HW; lia|]. split; [|split].
  - intros outs. unfold h_aes_decrypt_header, andthen at 1. unfold andthen at 5. destruct (check_out 0 "symmetric key" outs) as [a o|e o|q|]; try reflexivity.
    unfold andthen at 1. rewrite input_go by exact N2. unfold andthen at 4. rewrite input_go by exact N1.
    unfold andthen. destruct (input_bytes (Some b) "user decryption key" o) as [ub o'|e o'|q|]; try reflexivity.
    destruct (unwrap (user_dec F PC ub) o') as [uk o2|e o2|q|]; try reflexivity. rewrite (proj1 (A PC HC)). reflexivity.
  - unfold py_decrypt_hybrid_header. destruct (user_dec F PP b) as [uk|e|q]; cbn [bind]; [|reflexivity|reflexivity]. rewrite (proj1 (A PP HPP)). reflexivity.
  - unfold w_decrypt_hybrid_header. destruct (is_empty b); [reflexivity|]. rewrite (proj2 (N.ltb_ge _ _) L4).
    assert (L4' : 4 <= blen (padded pad header)) by (rewrite L; clear SK HC HPP HW; lia). rewrite (proj2 (N.ltb_ge _ _) L4').
    destruct (user_dec F PW b) as [uk|e|q]; cbn [bind]; [|reflexivity|reflexivity]. unfold w_open. rewrite (proj1 (A PW HW)). reflexivity.
Qed.

(** A Python message whose header lost its metadata: block 0 is read as a block of the resource without
    uid. It is accepted exactly if the block is. *)
Theorem C118_stripped_message b uk header key m mb block : reader b uk header key m -> blen (front header) < 2147483648 ->
  metas (mkMeta [] None) -> meta_to_bytes S (mkMeta [] None) = Ok mb ->
  py_decrypt PP F shake S b (message (front header) block) = py_decrypt_hybrid_block S key [] 0 block.
Proof using SL SK HC HPP HW.
  intros R Lf Hm Emb. destruct (C118_stripped_refuted b uk header key m mb R Hm Emb) as (_ & (mb' & E1 & E2) & _).
  rewrite (py_dec_layout B F shake S PP HPP b (front header) block Lf), E1. cbn [bind]. rewrite E2. reflexivity.
Qed.
(** Any reader can exchange a whole message for all readers. *)
Theorem C118_exchanged_message_refuted b uk header key m m' nonce mb em data block : reader b uk header key m ->
  metas m' -> meta_to_bytes S m' = Ok mb -> length nonce = nonce_length S -> sym_encrypt S key mb nonce None = Ok em ->
  blen em < 4294967296 -> blen (front header ++ nonce ++ be32 (blen em) ++ em) < 2147483648 ->
  block_made S PC key (uid m') 0 data block ->
  py_decrypt PP F shake S b (message (front header ++ nonce ++ be32 (blen em) ++ em) block) = Ok data.
Proof using SL SK HC HPP HW.
  intros R Hm Emb Ln Eem Lem Lh Hb.
  apply (C115_messages B F shake S metas SL SK PC PP PW HC HPP HW key (uid m') m' data b _ block (Some 0) Lh eq_refl (or_introl eq_refl) Hb).
  apply (C118_exchanged_refuted b uk header key m m' nonce mb em); assumption.
Qed.

(** Readers: those entitled by the access policy of a key made, refreshed or delegated by any interface, for
    a header made by any interface. *)
Variable c_policy_from : list byte -> outcome policy.
Variable c_attributes_from : list byte -> outcome (list attribute).
Variable c_access_from : list byte -> outcome access_policy.
Variable policy_from : list byte -> outcome policy.
Variable attributes_from : list byte -> outcome (list attribute).
Variable metadata_from : list byte -> outcome metadata.
Variable access_parse : string -> outcome access_policy.
Variable attributes_parse : string -> outcome (list attribute).
Theorem C118_readers n p0 (mdraw : nat -> K) priv pub del ops1 ops2 p1 p2 ap b l random (s : K) m key header :
  1 <= n < 524288 -> max_attribute_creations p0 = n -> masters B F PC c_policy_from policy_from p0 mdraw priv pub del ->
  (forall mk, eng_master_key p0 mdraw = Ok mk -> fine (pub_y (pub_key mk))) ->
  run_ops ops1 (new_policy n) = Ok p1 -> run_ops ops2 p1 = Ok p2 ->
  issued B F PC PP PW c_policy_from c_access_from policy_from access_parse priv del p2 ap b -> l <> [] -> metas m ->
  sealed B F shake S PC PP PW c_policy_from c_attributes_from policy_from attributes_from metadata_from attributes_parse pub p1 l random s m key header ->
  blen header < 2147483648 ->
  (forall mk ct, eng_master_key p0 mdraw = Ok mk -> eng_encrypt PC p1 (pub_key mk) l random s = Ok ct -> fine (e_prime ct)) ->
  satisfied (ops1 ++ ops2) (fun a => In a l) ap -> exists uk, reader b uk header key m.
Proof using BL HF SL SK HC HPP HW.
  intros Hn Hm0 Hk Hy H1 H2 Hu Hl Hm Hs Lh Hf Hsat.
  destruct (masters_inv B BL F fine HF PC HC c_policy_from policy_from n p0 mdraw priv pub del Hm0 Hn Hk) as (mk & Hmk & E1 & E2 & E3).
  assert (D : forall P, 32 <= usize_bits P -> priv_dec F P priv = Ok (priv_key mk) /\ pub_dec F P pub = Ok (pub_key mk) /\
                (forall dk, del_enc F (del_key mk) = Ok dk -> del_dec F P dk = Ok (del_key mk))).
  { intros P HP. apply (masters_decode B BL F fine HF P n p0 mdraw mk priv pub HP); try assumption. apply Hy. exact Hmk. }
  destruct (issued_sound B BL F fine HF PC PP PW HC HPP HW c_policy_from c_access_from policy_from access_parse n p0 mdraw mk priv del p2 ap b Hm0 (proj2 Hn) Hmk) as (uk & Huk); [| |exact Hu|].
  { intros P HP. exact (proj1 (D P HP)). } { intros P dk HP Q. apply (proj2 (proj2 (D P HP))). exact (E3 dk Q). }
  destruct (sealed_inv B F shake S SK PC PP PW HC HPP HW c_policy_from c_attributes_from policy_from attributes_from metadata_from attributes_parse
    (pub_key mk) pub p1 l random s m key header ltac:(intros P HP; exact (proj1 (proj2 (D P HP)))) Hs) as (nonce & h & Hno & -> & -> & Eh).
  exists uk. intros P HP. destruct (Huk P HP) as [Hkey Du]. split; [exact Du|].
  destruct (header_opened32 B BL F fine HF shake S metas SL P n ops1 p1 (pub_key mk) l (Some m) random s nonce h HP) as (ct & Ect & O); try assumption.
  - clear SK HC HPP HW. lia.
  - apply (small_fits P HP). pose proof (fo_g2_mem _ _ HF) as G. apply N.le_lt_trans with (n * 4096); [apply N.mul_le_mono_l; exact G|clear SK HC HPP HW; lia].
  - exact (pub_slots B BL _ _ _ _ Hm0 Hmk).
  - intros m' Q. assert (m' = m) by congruence. subst m'. exact Hm.
  - exact (Eh P).
  - apply (small_fits P HP). exact Lh.
  - intros ct Ect. apply (Hf mk ct Hmk). exact (eng_encrypt_any B P PC p1 _ l random s ct Ect).
  - destruct (O uk) as [O1 _]. apply O1.
    destruct (C38_refreshed_key B BL P n ops1 ops2 p1 p2 p0 mdraw mk ap uk l random s ct H1 H2 Hmk Hkey Ect) as [[_ Hd]|[Hs' _]]; [exact Hd|contradiction].
Qed.
End Interfaces.

(** ** A concrete case: the header made by C for HR and Protected (see C115), with other bytes *)
Local Ltac vmr x := vm_cast_no_check (eq_refl x).
Definition a_header : list byte := t_header x01.
Definition a_meta : metadata := mkMeta [x01; x02; x03] (Some [x0a; x0b]).
(** the encrypted metadata of another resource, made by a reader *)
Definition a_other : metadata := mkMeta [x55] None.
Definition a_em : list byte := bytes_of (let* mb := meta_to_bytes toy_sym a_other in sym_encrypt toy_sym (t_key x01) mb ex_nonce None).
Definition a_exchanged : list byte := front a_header ++ ex_nonce ++ be32 (blen a_em) ++ a_em.
(** the block made by a reader *)
Definition a_block : list byte := bytes_of (py_encrypt_hybrid_block toy_sym (t_key x01) [x55] 0 [x66] ex_nonce).

(** the key made by WebAssembly reads the header *)
Example C118_reader_example : exists uk, reader toy toy_forms toy_shake toy_sym t_user uk a_header (t_key x01) a_meta.
Proof.
  destruct C115_hypotheses_example as (Hm & Hi & _ & Hs & _).
  apply (C118_readers toy toy_laws toy_forms (fun _ => True) toy_forms_ok toy_shake toy_sym (fun m => additional_data m <> Some []) toy_sym_laws eq_refl
    pf release64 release32 ltac:(discriminate) ltac:(discriminate) ltac:(discriminate) c_policy c_attrs c_access py_policy py_attrs py_meta py_access w_attrs
    10 pol_a ex_draw t_priv t_pub (Some (snd py_masters)) ops_a [] pol_a pol_a ex_ap t_user [dept "HR"; level "Protected"] ex_msg ex_s a_meta (t_key x01) a_header);
    [split; [discriminate|reflexivity]|reflexivity|exact Hm|intros; exact I|reflexivity|reflexivity|exact Hi|discriminate|discriminate|exact Hs|apply N.ltb_lt; vmr true|intros; exact I|].
  rewrite app_nil_r. apply C05_example.
Qed.
Example C118_example :
  (** five more bytes *)
  blen (padded [x01; x02; x03; x04; x05] a_header) = blen a_header + 5 /\
  map read_out (outs_of (t_open_c t_user (padded [x01; x02; x03; x04; x05] a_header))) = [t_key x01; [x01; x02; x03]; [x0a; x0b]] /\
  t_open_py t_user (padded [x01; x02; x03; x04; x05] a_header) = t_open_py t_user a_header /\
  t_open_w t_user (padded [x01; x02; x03; x04; x05] a_header) = t_open_w t_user a_header /\
  (** without metadata *)
  map read_out (outs_of (t_open_c t_user (front a_header))) = [t_key x01; []; []] /\
  key_py (t_open_py t_user (front a_header)) = Ok (t_key x01) /\ key_w (t_open_w t_user (front a_header)) = Ok (t_key x01) /\
  (** with other metadata, and with another block *)
  map read_out (outs_of (t_open_c t_user a_exchanged)) = [t_key x01; [x55]; []] /\
  py_decrypt release64 toy_forms toy_shake toy_sym t_user (message a_exchanged a_block) = Ok [x66] /\
  (** the message with the block of the maker, before and after the loss of the metadata *)
  py_decrypt release64 toy_forms toy_shake toy_sym t_user (message a_header t_block) = Ok [x2a; x2b] /\
  py_decrypt release64 toy_forms toy_shake toy_sym t_user (message (front a_header) t_block) = Err CryptoError.
Proof.
  split; [vmr (blen a_header + 5)|]. split; [vmr [t_key x01; [x01; x02; x03]; [x0a; x0b]]|]. split; [vmr (t_open_py t_user a_header)|]. split; [vmr (t_open_w t_user a_header)|].
  split; [vmr [t_key x01; []; []]|]. split; [vmr (@Ok (list byte) (t_key x01))|]. split; [vmr (@Ok (list byte) (t_key x01))|]. split; [vmr [t_key x01; [x55]; []]|].
  split; [vmr (@Ok (list byte) [x66])|]. split; [vmr (@Ok (list byte) [x2a; x2b])|]. vmr (@Err (list byte) CryptoError).
Qed.

Print Assumptions C118_accepted_exactly.
Print Assumptions C118_same_front.
Print Assumptions C118_outsiders.
Print Assumptions C118_padded.
Print Assumptions C118_exchanged.
Print Assumptions C118_stripped_refuted.
Print Assumptions C118_exchanged_refuted.
Print Assumptions C118_padded_refuted.
Print Assumptions C118_stripped_message.
Print Assumptions C118_exchanged_message_refuted.
Print Assumptions C118_readers.
