(** Correct calls succeed through all three interfaces, on machines of 32 bits too: C129. *)
From Coq Require Import String NArith ZArith Bool Arith Lia Strings.Byte List.
From Verif Require SchemeProofs PropertiesSizes.
From Verif Require Import Prelude Field LinAlg Msp Spec MspProofs Bilinear Scheme SchemeSpec SchemeTheorems
  Zp ExpModel PropertiesScheme Codec CodecProofs SchemeCodec SchemeCodecProofs PropertiesCodec
  Policy PolicySpec PolicyProofs Engine EngineSpec EngineProofs PropertiesEngine Hybrid HybridSpec PropertiesHybrid PropertiesVersions
  Properties32 Ffi FfiSpec PropertiesFfi PropertiesFfiBlocks Python PropertiesPython Wasm PropertiesWasm PropertiesTogether
  HistorySpec PropertiesHistory PropertiesWorking Demo PropertiesDemo PropertiesLive.
Import ListNotations.
Local Open Scope N_scope.

Lemma count_and_leaves f : (count_and f < length (leaves f))%nat.
Proof. induction f; cbn; rewrite ?app_length; lia. Qed.

Section LiveAll.
Variable B : BilinearMap.
Hypothesis BL : BilinearLaws B.
Local Notation K := (bm_K B).
Variable F : byte_forms B.
Variable fine : Gt B -> Prop.
Hypothesis HF : forms_ok F fine.
Variable shake : list byte -> nat -> list byte.
Hypothesis shake_length : forall b n, length (shake b n) = n.
Variable S : sym_scheme.
Variable metas : metadata -> Prop.
Hypothesis SL : sym_laws S metas.
Hypothesis SV : serves S metas.
Hypothesis SK : key_length S = 32%nat.
(** the machines of the C program, of the Python program and of the browser *)
Variables PC PP PW : platform.
Hypothesis HC : 32 <= usize_bits PC.
Hypothesis HPP : 32 <= usize_bits PP.
Hypothesis HW : 32 <= usize_bits PW.
Variable c_policy_from : list byte -> outcome policy.
Variable c_attributes_from : list byte -> outcome (list attribute).
Variable c_access_from : list byte -> outcome access_policy.
Variable policy_from : list byte -> outcome policy.
Variable attributes_from : list byte -> outcome (list attribute).
Variable metadata_from : list byte -> outcome metadata.
Variable access_parse : string -> outcome access_policy.
Variable attributes_parse : string -> outcome (list attribute).

Local Notation c_master_keys := (h_generate_master_keys (B := B) PC F c_policy_from).
Local Notation c_user_key := (h_generate_user_private_key (B := B) PC F c_policy_from c_access_from).
Local Notation c_encrypt_header := (h_aes_encrypt_header PC F shake S c_policy_from c_attributes_from).
Local Notation py_master_keys := (py_generate_master_keys F policy_from).
Local Notation py_user_key := (py_generate_user_private_key PP F policy_from access_parse).
Local Notation py_encrypt_header := (py_encrypt_hybrid_header PP F shake S policy_from attributes_from metadata_from).
Local Notation w_master_keys := (w_generate_master_keys F policy_from).
Local Notation w_user_key := (w_generate_user_private_key PW F policy_from access_parse).
Local Notation w_encrypt_header := (w_encrypt_hybrid_header PW F shake S policy_from attributes_parse).
Local Notation opened := (opened B F shake S PC PP PW).
Local Notation stays_closed := (stays_closed B F shake S PC PP PW).

Variables (n : N) (history : list op) (mdraw : nat -> K).
Hypothesis Hn : 1 <= n <= 1024.
Hypothesis Hprop : proper_axes history.
Hypothesis Hdraw : forall i, (i < N.to_nat n)%nat -> mdraw i <> f0.

(** Master keys: the three interfaces return the same keys, which all machines read. *)
Theorem C129_master_keys i p cpol pol : version n history i p -> c_policy_from cpol = Ok p -> policy_from pol = Ok p ->
  (forall mk, eng_master_key p mdraw = Ok mk -> fine (pub_y (pub_key mk))) ->
  exists mk priv pub del, eng_master_key p mdraw = Ok mk /\ priv <> [] /\ pub <> [] /\
    protocol (be32 (blen priv) ++ priv ++ pub) (c_master_keys (Some cpol) mdraw) /\
    py_master_keys pol mdraw = Ok (priv, pub, del) /\
    w_master_keys pol mdraw = Ok (be32 (blen priv) ++ priv ++ pub) /\
    forall P, 32 <= usize_bits P -> priv_dec F P priv = Ok (priv_key mk) /\ pub_dec F P pub = Ok (pub_key mk) /\ del_dec F P del = Ok (del_key mk).
Proof using BL HF HC Hn Hdraw.
  intros V Ec Ep Hf. clear SL SV SK HPP HW Hprop. pose proof (version_max n history i p V) as Hm.
  destruct (C127_master_keys B BL pf ltac:(cbn; lia) F fine HF policy_from n history mdraw ltac:(lia) Hdraw i p pol V Ep Hf) as (mk & priv & pub & del & Emk & E & _).
  exists mk, priv, pub, del. pose proof E as E'. unfold py_generate_master_keys in E'. rewrite Ep in E'. cbn [bind] in E'. rewrite Emk in E'. cbn [bind] in E'.
  apply bind_ok in E' as (b1 & E1 & E'). apply bind_ok in E' as (b2 & E2 & E'). apply bind_ok in E' as (b3 & E3 & E'). apply Ok_inj in E'.
  assert (b1 = priv /\ b2 = pub /\ b3 = del) as (-> & -> & ->) by (split; [|split]; congruence).
  destruct (PropertiesSizes.C117_master_keys B BL F fine HF p mdraw mk priv pub del Emk ltac:(lia) E1 E2 E3) as (L1 & L2 & _).
  unfold PropertiesSizes.private_key_bytes, PropertiesSizes.public_key_bytes in L1, L2. rewrite Hm in L1, L2.
  split; [exact Emk|]. split; [intros ->; change (blen []) with 0 in L1; lia|]. split; [intros ->; change (blen []) with 0 in L2; lia|]. split.
  { apply (C54_master_keys B PC HC F c_policy_from cpol p mdraw mk priv pub Ec Emk E1 E2). lia. }
  split; [exact E|]. split.
  { unfold w_generate_master_keys. rewrite Ep. cbn [bind]. rewrite Emk. cbn [bind]. rewrite E1. cbn [bind]. rewrite E2. cbn [bind].
    rewrite N.mod_small by (unfold u32_modulus; lia). reflexivity. }
  intros P HP. destruct (masters_decode B BL F fine HF P n p mdraw mk priv pub HP Hm ltac:(lia) Emk (Hf mk Emk) E1 E2) as (D1 & D2 & D3).
  split; [exact D1|]. split; [exact D2|]. exact (D3 del E3).
Qed.

Variables (p0 : policy) (mk : master_key B).
Hypothesis Hmax : max_attribute_creations p0 = n.
Hypothesis Hmk : eng_master_key p0 mdraw = Ok mk.

(** A key in its bytes, on every machine: made for [ap] at version [i]. *)
Definition owned_all (i : nat) (ap : access_policy) (b : list byte) : Prop :=
  exists uk, held_key PC mk n history i ap uk /\ forall P, 32 <= usize_bits P -> user_dec F P b = Ok uk.

Lemma key_made it p ap draw i : version n history i p -> last_attribute_value p < n -> iteration_ok it ->
  (forall a, In a (mentioned ap) -> declared (firstn i history) a) -> ~ all_inside ap -> no_overlap (firstn i history) ap ->
  (ap = AAll -> exists b, declared (firstn i history) b) ->
  exists uk b, blen b < 50000000 /\
    forall P, 32 <= usize_bits P -> eng_user_key P it p (priv_key mk) ap draw = Ok uk /\ user_enc F P uk = Ok b /\ user_dec F P b = Ok uk.
Proof using BL HF Hn Hprop Hdraw Hmax Hmk.
  intros V Hlast Hit Hm Hai Hno Hall. clear SL SV SK HC HPP HW.
  destruct (C05_pipeline B BL pf n (firstn i history) p mdraw draw it ap [] (gt_gen_exp B f0) f0) as (mk' & uk & _ & Emk & Euk & _); auto.
  { exact (proj2 V). } { apply proper_firstn, Hprop. } { intros b []. } { cbn. lia. }
  assert (mk' = mk).
  { unfold eng_master_key in Emk, Hmk. rewrite Hmax in Hmk. rewrite (version_max n history i p V) in Emk. congruence. }
  subst mk'. clear Emk. exists uk.
  pose proof Hmk as Hg. unfold eng_master_key in Hg. rewrite Hmax in Hg.
  assert (Ha : forall P, eng_user_key P it p (priv_key mk) ap draw = Ok uk).
  { intros P. unfold eng_user_key in *. rewrite (program_any it P pf). exact Euk. }
  assert (Hu : user_key pf mk p ap uk) by (apply uk_gen with it draw; assumption).
  destruct (user_key_derived B pf mk p ap uk Hu) as (it' & f & _ & _ & Hd).
  pose proof (derived_leaves B BL pf mk f uk _ mdraw Hg Hd) as Hnd. pose proof (derived_obtained B pf mk f uk Hd) as Ho.
  assert (Hr : forall a, In a (leaves f) -> a < n).
  { destruct (generate_master_key_inv B BL _ _ _ Hg) as (t & y & Q & Ht & Hnz). rewrite Q in Ho.
    destruct (obtained_rep B BL pf t y f uk Hnz Ho) as (m & sg & _ & R & _).
    intros a Ha'. pose proof (SchemeProofs.kr_range _ _ _ _ _ _ R a Ha') as Hr. unfold SchemeProofs.in_range in Hr. lia. }
  assert (L : (length (leaves f) <= N.to_nat n)%nat).
  { rewrite <- (map_length N.to_nat). rewrite <- (seq_length (N.to_nat n) 0). apply NoDup_incl_length.
    - apply FinFun.Injective_map_NoDup; [intros a b E; lia|exact Hnd].
    - intros x Hx. apply in_map_iff in Hx as (a & <- & Ha'). apply in_seq. specialize (Hr a Ha'). lia. }
  pose proof (count_and_leaves f) as Lc.
  assert (Lb : user_key_size (N.of_nat (length (leaves f))) (N.of_nat (count_and f)) < 50000000).
  { unfold user_key_size. assert (N.of_nat (length (leaves f)) * (N.of_nat (count_and f) + 1) <= 1024 * 1024) by (apply N.mul_le_mono; lia). lia. }
  assert (Hpf : 32 <= usize_bits pf) by (cbn; lia).
  destruct (C76_user_key B BL F fine HF pf _ mdraw mk f uk [] Hpf Hg Ho) as (b & Eb & Lbb & _).
  { intros a Ha'. specialize (Hr a Ha'). lia. } { lia. }
  { apply (small_fits pf Hpf). pose proof (fo_g3_mem _ _ HF) as G.
    apply N.le_lt_trans with (N.of_nat (length (leaves f)) * 4096); [apply N.mul_le_mono_l; exact G|lia]. }
  { cbn [blen length]. apply (small_fits pf Hpf). change (blen []) with 0. lia. }
  exists b. assert (Lb' : blen b < 50000000) by (rewrite Lbb; exact Lb). split; [exact Lb'|].
  intros P HP. split; [apply Ha|]. destruct (key_everywhere B BL F fine HF n p0 mdraw mk pf p ap uk b Hmax ltac:(lia) Hmk Hu Eb Lb' P HP) as [_ D].
  split; [|exact D].
  apply (user_enc_any B F fine HF pf P); [|apply (small_fits P HP); lia|exact Eb].
  destruct (generate_master_key_inv B BL _ _ _ Hg) as (t & y & Q & Ht & Hnz). rewrite Q in Ho.
  destruct (obtained_rep B BL pf t y f uk Hnz Ho) as (m & sg & _ & R & _).
  refine (proj1 (rep_key_ok t f m sg uk R _)). apply Forall_forall. intros a Ha'. specialize (Hr a Ha'). unfold u32, u32_modulus. lia.
Qed.

(** User keys: the three interfaces return the same key. *)
Theorem C129_user_key i p cpol pol it access caccess ap priv draw :
  version n history i p -> c_policy_from cpol = Ok p -> policy_from pol = Ok p -> last_attribute_value p < n ->
  priv <> [] -> (forall P, 32 <= usize_bits P -> priv_dec F P priv = Ok (priv_key mk)) -> iteration_ok it ->
  c_access_from caccess = Ok ap -> access_parse access = Ok ap ->
  (forall a, In a (mentioned ap) -> declared (firstn i history) a) -> ~ all_inside ap -> no_overlap (firstn i history) ap ->
  (ap = AAll -> exists b, declared (firstn i history) b) ->
  exists b, protocol b (c_user_key it (Some priv) (Some caccess) (Some cpol) draw) /\
    py_user_key it priv access pol draw = Ok b /\ w_user_key it priv access pol draw = Ok b /\ owned_all i ap b.
Proof using BL HF HC HPP HW Hn Hprop Hdraw Hmax Hmk.
  clear SL SV SK. intros V Ec Ep Hlast Hpr Dp Hit Eca Ea Hm Hai Hno Hall.
  destruct (key_made it p ap draw i V Hlast Hit Hm Hai Hno Hall) as (uk & b & Lb & Hk). exists b.
  destruct (Hk PC HC) as (U1 & W1 & _), (Hk PP HPP) as (U2 & W2 & _), (Hk PW HW) as (U3 & W3 & _).
  split; [apply (C54_user_key B PC HC F c_policy_from c_access_from it priv (priv_key mk) caccess ap cpol p draw uk b Hpr (Dp PC HC) Eca Ec U1 W1); lia|].
  split; [unfold py_generate_user_private_key; rewrite (Dp PP HPP), Ep, Ea; cbn [bind]; rewrite U2; exact W2|].
  split; [unfold w_generate_user_private_key; rewrite (Dp PW HW), Ep, Ea; cbn [bind]; rewrite U3; exact W3|].
  exists uk. split; [exact (hk_gen PC mk n history it i p ap draw uk Hit V U1)|]. intros P HP. apply Hk, HP.
Qed.

(** Headers: the three interfaces return the same header, and all three open it with
    exactly the keys whose access policy is satisfied by the attributes not rotated since. *)
Theorem C129_header k q cpol pol attrs cattrs wattrs l meta m pub random (s : K) nonce :
  version n history k q -> c_policy_from cpol = Ok q -> policy_from pol = Ok q -> last_attribute_value q < n ->
  attributes_from attrs = Ok l -> c_attributes_from cattrs = Ok l -> attributes_parse wattrs = Ok l ->
  l <> [] -> (forall a, In a l -> declared (firstn k history) a) -> N.of_nat (length l) < n ->
  metadata_from meta = Ok m -> metas m -> pub <> [] -> (forall P, 32 <= usize_bits P -> pub_dec F P pub = Ok (pub_key mk)) ->
  length nonce = nonce_length S ->
  (forall ct, eng_encrypt PC q (pub_key mk) l random s = Ok ct -> fine (e_prime ct)) ->
  exists key header,
    (forall u ad, meta_of u ad = m -> encrypt_protocol key header (c_encrypt_header (Some cpol) (Some pub) (Some cattrs) u ad random s nonce)) /\
    py_encrypt_header meta pol attrs pub random s nonce = Ok (key, header) /\
    (pol <> [] -> wattrs <> ""%string -> uid m <> [] -> additional_data m = None ->
       w_encrypt_header pol pub wattrs (uid m) random s nonce = Ok (be32 (blen key) ++ key ++ header)) /\
    forall i ap b, owned_all i ap b ->
    let T := fun a => In a l /\ ~ In (Rotate a) (between history i k) in
    (satisfied (firstn i history) T ap /\ opened b header key m) \/ (~ satisfied (firstn i history) T ap /\ stays_closed b header).
Proof using BL HF shake_length SL SV SK HC HPP HW Hn Hprop Hdraw Hmax Hmk.
  intros V Ec Ep Hlast El Ecl Ewl Hne Hl Hlen Em Hm Hpub Dp Hno Hf.
  destruct (header_made B BL pf ltac:(cbn; lia) F fine HF shake shake_length S metas SV n history mdraw ltac:(lia) Hprop Hdraw p0 mk Hmax Hmk
    k q l m random s nonce V Hlast Hl Hlen Hne Hm Hno) as (h & Eh & Lk & Lh).
  assert (Ea : forall P, encrypt_hybrid_header S F shake P q (pub_key mk) l (Some m) random s nonce = Ok h) by (intros P; exact (header_any B F shake S pf P _ _ _ _ _ _ _ _ Eh)).
  exists (eh_key h), (eh_bytes h).
  assert (Epy : py_encrypt_header meta pol attrs pub random s nonce = Ok (eh_key h, eh_bytes h)).
  { unfold py_encrypt_hybrid_header. rewrite Em, Ep, El, (Dp PP HPP). cbn [bind]. rewrite Ea. reflexivity. }
  assert (Lk' : blen (eh_key h) = 32) by (unfold blen; rewrite Lk, SK; reflexivity).
  split; [|split; [exact Epy|split]].
  - intros u ad Q. apply (C54_encrypt_header B PC HC F shake S c_policy_from c_attributes_from cpol q pub (pub_key mk) cattrs l u ad random s nonce h Hpub Ec (Dp PC HC) Ecl);
      [rewrite Q; apply Ea|lia|lia].
  - intros Hpol Hat Hu Had. unfold w_encrypt_hybrid_header.
    destruct pol as [|x pol']; [contradiction|]. destruct pub as [|y pub']; [contradiction|]. destruct (uid m) as [|z u'] eqn:Qu; [contradiction|].
    destruct (String.eqb_spec wattrs "") as [->|_]; [contradiction|]. cbn [is_empty]. rewrite Ep. cbn [bind]. rewrite (Dp PW HW). cbn [bind].
    unfold w_header. rewrite Ewl. cbn [bind]. replace (mkMeta (z :: u') None) with m by (destruct m; cbn in *; congruence). rewrite Ea. cbn [bind].
    unfold eh_enc. rewrite Lk', SK. reflexivity.
  - intros i ap b (uk & Hk & Du) T.
    destruct (sealed_opened B BL F fine HF shake S metas SL SK PC PP PW HC HPP HW c_policy_from c_attributes_from policy_from attributes_from metadata_from attributes_parse
      n (firstn k history) q (pub_key mk) pub l random s m (eh_key h) (eh_bytes h)) as (_ & ct & Ect & Ho); try assumption; [lia|exact (proj2 V)| | |lia|].
    { exact (pub_slots B BL _ _ _ _ Hmax Hmk). }
    { exact (sealed_py B F shake S PC PP PW c_policy_from c_attributes_from policy_from attributes_from metadata_from attributes_parse pub q l random s meta m pol attrs nonce _ _ Em Ep El Hno Epy). }
    destruct (Ho b uk Du) as [H1 H2].
    destruct (C122_history B BL PC n history p0 mdraw mk i ap uk k q l random s ct Hprop Hmk Hk V Ect) as [[Hs Hd]|[Hs Hd]]; [left|right]; auto.
Qed.
End LiveAll.

(** The calls of a whole program, none of which fails, whichever interface makes each: master
    keys made with one version of the policy, a user key with a second, a header with a third. *)
Section SessionAll.
Variable B : BilinearMap.
Hypothesis BL : BilinearLaws B.
Local Notation K := (bm_K B).
Variable F : byte_forms B.
Variable fine : Gt B -> Prop.
Hypothesis HF : forms_ok F fine.
Variable shake : list byte -> nat -> list byte.
Hypothesis shake_length : forall b n, length (shake b n) = n.
Variable S : sym_scheme.
Variable metas : metadata -> Prop.
Hypothesis SL : sym_laws S metas.
Hypothesis SV : serves S metas.
Hypothesis SK : key_length S = 32%nat.
Variables PC PP PW : platform.
Hypothesis HC : 32 <= usize_bits PC.
Hypothesis HPP : 32 <= usize_bits PP.
Hypothesis HW : 32 <= usize_bits PW.
Variable c_policy_from : list byte -> outcome policy.
Variable c_attributes_from : list byte -> outcome (list attribute).
Variable c_access_from : list byte -> outcome access_policy.
Variable policy_from : list byte -> outcome policy.
Variable attributes_from : list byte -> outcome (list attribute).
Variable metadata_from : list byte -> outcome metadata.
Variable access_parse : string -> outcome access_policy.
Variable attributes_parse : string -> outcome (list attribute).
(** a version of the policy, in the text of the C interface and in that of the others *)
Definition policy_text (p : policy) (cpol pol : list byte) : Prop := c_policy_from cpol = Ok p /\ policy_from pol = Ok p /\ pol <> [].

Theorem C129_session n history i0 p0 cpol0 pol0 i p cpol pol k q cpol' pol' (mdraw : nat -> K) it caccess access ap (kdraw : nat -> K)
    cattrs attrs wattrs l meta m random (s : K) nonce :
  1 <= n <= 1024 -> proper_axes history ->
  version n history i0 p0 -> version n history i p -> version n history k q ->
  policy_text p0 cpol0 pol0 -> policy_text p cpol pol -> policy_text q cpol' pol' ->
  last_attribute_value p < n -> last_attribute_value q < n ->
  (forall j, (j < N.to_nat n)%nat -> mdraw j <> f0) -> iteration_ok it ->
  c_access_from caccess = Ok ap -> access_parse access = Ok ap ->
  (forall a, In a (mentioned ap) -> declared (firstn i history) a) -> ~ all_inside ap ->
  no_overlap (firstn i history) ap -> (ap = AAll -> exists b, declared (firstn i history) b) ->
  c_attributes_from cattrs = Ok l -> attributes_from attrs = Ok l -> attributes_parse wattrs = Ok l -> wattrs <> ""%string ->
  l <> [] -> (forall a, In a l -> declared (firstn k history) a) -> N.of_nat (length l) < n ->
  metadata_from meta = Ok m -> metas m -> length nonce = nonce_length S ->
  (forall mk, eng_master_key p0 mdraw = Ok mk -> fine (pub_y (pub_key mk)) /\
     forall ct, eng_encrypt PC q (pub_key mk) l random s = Ok ct -> fine (e_prime ct)) ->
  exists priv pub del b key header,
    (** master keys *)
    protocol (be32 (blen priv) ++ priv ++ pub) (h_generate_master_keys PC F c_policy_from (Some cpol0) mdraw) /\
    py_generate_master_keys F policy_from pol0 mdraw = Ok (priv, pub, del) /\
    w_generate_master_keys F policy_from pol0 mdraw = Ok (be32 (blen priv) ++ priv ++ pub) /\
    (** a user key *)
    protocol b (h_generate_user_private_key PC F c_policy_from c_access_from it (Some priv) (Some caccess) (Some cpol) kdraw) /\
    py_generate_user_private_key PP F policy_from access_parse it priv access pol kdraw = Ok b /\
    w_generate_user_private_key PW F policy_from access_parse it priv access pol kdraw = Ok b /\
    (** a header *)
    (forall u ad, meta_of u ad = m ->
       encrypt_protocol key header (h_aes_encrypt_header PC F shake S c_policy_from c_attributes_from (Some cpol') (Some pub) (Some cattrs) u ad random s nonce)) /\
    py_encrypt_hybrid_header PP F shake S policy_from attributes_from metadata_from meta pol' attrs pub random s nonce = Ok (key, header) /\
    (uid m <> [] -> additional_data m = None ->
       w_encrypt_hybrid_header PW F shake S policy_from attributes_parse pol' pub wattrs (uid m) random s nonce = Ok (be32 (blen key) ++ key ++ header)) /\
    (** its decryption *)
    let T := fun a => In a l /\ ~ In (Rotate a) (between history i k) in
    (satisfied (firstn i history) T ap /\ opened B F shake S PC PP PW b header key m) \/
    (~ satisfied (firstn i history) T ap /\ stays_closed B F shake S PC PP PW b header).
Proof using BL HF shake_length SL SV SK HC HPP HW.
  intros Hn Hprop V0 V V' (Ec0 & E0 & _) (Ec & E & _) (Ec' & E' & Hpol) Hlast Hlast' Hd Hit Eca Ea Hm Hai Hno Hall Ecl El Ewl Hwa Hne Hl Hlen Em Hmeta Hnonce Hf.
  destruct (C129_master_keys B BL F fine HF PC HC c_policy_from policy_from n history mdraw Hn Hd i0 p0 cpol0 pol0 V0 Ec0 E0)
    as (mk & priv & pub & del & Emk & Hpr & Hpu & M1 & M2 & M3 & D).
  { intros mk Emk. apply Hf, Emk. }
  pose proof (version_max n history i0 p0 V0) as Hmax.
  destruct (C129_user_key B BL F fine HF PC PP PW HC HPP HW c_policy_from c_access_from policy_from access_parse n history mdraw Hn Hprop Hd p0 mk Hmax Emk
    i p cpol pol it access caccess ap priv kdraw V Ec E Hlast Hpr (fun P HP => proj1 (D P HP)) Hit Eca Ea Hm Hai Hno Hall) as (b & U1 & U2 & U3 & Ob).
  destruct (C129_header B BL F fine HF shake shake_length S metas SL SV SK PC PP PW HC HPP HW c_policy_from c_attributes_from policy_from attributes_from
    metadata_from attributes_parse n history mdraw Hn Hprop Hd p0 mk Hmax Emk k q cpol' pol' attrs cattrs wattrs l meta m pub random s nonce
    V' Ec' E' Hlast' El Ecl Ewl Hne Hl Hlen Em Hmeta Hpu (fun P HP => proj1 (proj2 (D P HP))) Hnonce (proj2 (Hf mk Emk))) as (key & header & H1 & H2 & H3 & Ho).
  exists priv, pub, del, b, key, header.
  do 3 (split; [assumption|]). do 3 (split; [assumption|]). split; [exact H1|]. split; [exact H2|]. split; [intros; apply H3; assumption|]. exact (Ho i ap b Ob).
Qed.
End SessionAll.

(** ** Example *)
(** documents for two metadata, the second without additional data *)
Definition all_meta (b : list byte) : outcome metadata :=
  match b with [x01] => Ok ex_meta | [x02] => Ok (mkMeta [x07] None) | _ => Err Utf8Error end.

(** keys of the second state of the policy, a header of the third: the key opens it unless
    it needs the attribute rotated in between *)
Lemma live_all (attrs : list byte) wattrs l : py_attrs attrs = Ok l -> w_attrs wattrs = Ok l -> wattrs <> ""%string ->
  l <> [] -> forallb (fun a => on (covered hist a) a) l = true -> N.of_nat (length l) < 10 ->
  exists priv pub del b key header,
  protocol (be32 (blen priv) ++ priv ++ pub) (h_generate_master_keys debug32 toy_forms py_policy (Some [x01]) ex_draw) /\
  py_generate_master_keys toy_forms py_policy [x01] ex_draw = Ok (priv, pub, del) /\
  w_generate_master_keys toy_forms py_policy [x01] ex_draw = Ok (be32 (blen priv) ++ priv ++ pub) /\
  protocol b (h_generate_user_private_key debug32 toy_forms py_policy c_access it_rev (Some priv) (Some [x01]) (Some [x01]) ex_kdraw) /\
  py_generate_user_private_key pf toy_forms py_policy py_access it_rev priv "a" [x01] ex_kdraw = Ok b /\
  w_generate_user_private_key release32 toy_forms py_policy py_access it_rev priv "a" [x01] ex_kdraw = Ok b /\
  encrypt_protocol key header (h_aes_encrypt_header debug32 toy_forms toy_shake toy_sym py_policy py_attrs (Some [x02]) (Some pub) (Some attrs)
    (Some [x07]) None ex_msg ex_s ex_nonce) /\
  py_encrypt_hybrid_header pf toy_forms toy_shake toy_sym py_policy py_attrs all_meta [x02] [x02] attrs pub ex_msg ex_s ex_nonce = Ok (key, header) /\
  w_encrypt_hybrid_header release32 toy_forms toy_shake toy_sym py_policy w_attrs [x02] pub wattrs [x07] ex_msg ex_s ex_nonce = Ok (be32 (blen key) ++ key ++ header) /\
  if grants ops_a (filter (fun a => negb (attribute_eqb (dept "HR") a)) l) ex_ap
  then opened toy toy_forms toy_shake toy_sym debug32 pf release32 b header key (mkMeta [x07] None)
  else stays_closed toy toy_forms toy_shake toy_sym debug32 pf release32 b header.
Proof.
  intros El Ew Hw Hne Hd Hlen. rewrite forallb_forall in Hd.
  destruct (C129_session toy toy_laws toy_forms (fun _ => True) toy_forms_ok toy_shake toy_shake_length toy_sym short_meta
    toy_short_laws toy_serves eq_refl debug32 pf release32 ltac:(cbn; lia) ltac:(cbn; lia) ltac:(cbn; lia)
    py_policy py_attrs c_access py_policy py_attrs all_meta py_access w_attrs
    10%N hist 2%nat pol_a [x01] [x01] 2%nat pol_a [x01] [x01] 3%nat pol_b [x02] [x02] ex_draw it_rev [x01] "a"%string ex_ap ex_kdraw
    attrs attrs wattrs l [x02] (mkMeta [x07] None) ex_msg ex_s ex_nonce)
    as (priv & pub & del & b & key & header & M1 & M2 & M3 & U1 & U2 & U3 & H1 & H2 & H3 & Q).
  - lia.
  - exact hist_proper.
  - exact hist_two.
  - exact hist_two.
  - exact hist_three.
  - split; [reflexivity|split; [reflexivity|discriminate]].
  - split; [reflexivity|split; [reflexivity|discriminate]].
  - split; [reflexivity|split; [reflexivity|discriminate]].
  - vm_compute. reflexivity.
  - vm_compute. reflexivity.
  - intros j Hj. apply ex_draws. lia.
  - exact it_rev_ok.
  - reflexivity.
  - reflexivity.
  - intros a Ha. apply declared_spec. cbn in Ha. repeat (destruct Ha as [<-|Ha]; [vm_compute; reflexivity|]). destruct Ha.
  - cbn. intuition discriminate.
  - apply apart_spec. vm_compute. reflexivity.
  - discriminate.
  - exact El.
  - exact El.
  - exact Ew.
  - exact Hw.
  - exact Hne.
  - intros a Ha. apply declared_spec. exact (Hd a Ha).
  - exact Hlen.
  - reflexivity.
  - split; [discriminate|]. split; [vm_compute; reflexivity|exact Logic.I].
  - reflexivity.
  - intros mk _. split; [exact Logic.I|]. intros ct _. exact Logic.I.
  - exists priv, pub, del, b, key, header. do 6 (split; [assumption|]). split; [apply H1; reflexivity|]. split; [exact H2|].
    split; [apply H3; [discriminate|reflexivity]|].
    cbv zeta in Q. assert (G := grants_spec (firstn 2 hist) (fun a => In a l /\ ~ In (Rotate a) (between hist 2 3)) (filter (fun a => negb (attribute_eqb (dept "HR") a)) l) ex_ap).
    change (firstn 2 hist) with ops_a in *. change (between hist 2 3) with [Rotate (dept "HR")] in *.
    assert (R : forall a, In a (filter (fun a => negb (attribute_eqb (dept "HR") a)) l) <-> In a l /\ ~ In (Rotate a) [Rotate (dept "HR")]).
    { intros a. rewrite filter_In, negb_true_iff, <- not_true_iff_false, attribute_eqb_spec. simpl.
      split; intros [A1 A2]; (split; [exact A1|]); [intros [E|[]]; apply A2; congruence|intros E; apply A2; left; f_equal; exact E]. }
    destruct (grants _ _ _).
    + destruct Q as [[_ Q]|[Q _]]; [exact Q|]. exfalso. apply Q. apply G; [|reflexivity]. intros a. specialize (R a). tauto.
    + destruct Q as [[Q _]|[_ Q]]; [|exact Q]. exfalso. assert (X : false = true); [|discriminate]. apply G; [|exact Q]. intros a. specialize (R a). tauto.
Qed.

(** for FIN, which is not rotated, and for HR, which is *)
Example C129_example : exists priv pub del b key header,
  py_generate_master_keys toy_forms py_policy [x01] ex_draw = Ok (priv, pub, del) /\
  protocol b (h_generate_user_private_key debug32 toy_forms py_policy c_access it_rev (Some priv) (Some [x01]) (Some [x01]) ex_kdraw) /\
  w_encrypt_hybrid_header release32 toy_forms toy_shake toy_sym py_policy w_attrs [x02] pub "fin" [x07] ex_msg ex_s ex_nonce = Ok (be32 (blen key) ++ key ++ header) /\
  opened toy toy_forms toy_shake toy_sym debug32 pf release32 b header key (mkMeta [x07] None).
Proof.
  destruct (live_all [x02] "fin" [dept "FIN"; level "Protected"]) as (priv & pub & del & b & key & header & _ & H1 & _ & H2 & _ & _ & _ & _ & H3 & H4);
    [reflexivity|reflexivity|discriminate|discriminate|vm_compute; reflexivity|vm_compute; reflexivity|].
  exists priv, pub, del, b, key, header. repeat (split; [assumption|]). exact H4.
Qed.
Example C129_rotated_example : exists priv pub del b key header,
  py_generate_master_keys toy_forms py_policy [x01] ex_draw = Ok (priv, pub, del) /\
  protocol b (h_generate_user_private_key debug32 toy_forms py_policy c_access it_rev (Some priv) (Some [x01]) (Some [x01]) ex_kdraw) /\
  w_encrypt_hybrid_header release32 toy_forms toy_shake toy_sym py_policy w_attrs [x02] pub "hr" [x07] ex_msg ex_s ex_nonce = Ok (be32 (blen key) ++ key ++ header) /\
  stays_closed toy toy_forms toy_shake toy_sym debug32 pf release32 b header.
Proof.
  destruct (live_all [x01] "hr" [dept "HR"; level "Protected"]) as (priv & pub & del & b & key & header & _ & H1 & _ & H2 & _ & _ & _ & _ & H3 & H4);
    [reflexivity|reflexivity|discriminate|discriminate|vm_compute; reflexivity|vm_compute; reflexivity|].
  exists priv, pub, del, b, key, header. repeat (split; [assumption|]). exact H4.
Qed.

Print Assumptions C129_master_keys.
Print Assumptions C129_user_key.
Print Assumptions C129_header.
Print Assumptions C129_session.
