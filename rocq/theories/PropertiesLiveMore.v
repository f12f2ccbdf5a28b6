(** Delegation, blocks and messages through all three interfaces, on machines of 32 bits
    too: C132. *)
From Coq Require Import String NArith ZArith Bool Arith Lia Strings.Byte List.
From Verif Require SchemeProofs.
From Verif Require Import Prelude Field LinAlg Msp Spec MspProofs Bilinear Scheme SchemeSpec SchemeTheorems
  Zp ExpModel PropertiesScheme Codec CodecProofs SchemeCodec SchemeCodecProofs PropertiesCodec
  Policy PolicySpec PolicyProofs Engine EngineSpec EngineProofs PropertiesEngine Hybrid HybridSpec PropertiesHybrid PropertiesVersions
  Properties32 Ffi FfiSpec PropertiesFfi PropertiesFfiBlocks Python PropertiesPython Wasm PropertiesWasm PropertiesTogether
  HistorySpec PropertiesHistory PropertiesWorking Demo PropertiesDemo PropertiesLive PropertiesLiveAll.
Import ListNotations.
Local Open Scope N_scope.

(** ** Blocks *)
Section Blocks.
Variable S : sym_scheme.
Variable metas : metadata -> Prop.
Hypothesis SL : sym_laws S metas.
Hypothesis SV : serves S metas.
Hypothesis SK : key_length S = 32%nat.
Variable PC : platform.
Hypothesis HC : 32 <= usize_bits PC.

(** the ways of giving a block its number and its uid to a function of WebAssembly *)
Definition w_names (u : list byte) (number : N) (ou : option (list byte)) (oi : option N) : Prop :=
  (ou = Some u \/ (ou = None /\ u = [])) /\ (oi = Some number \/ (oi = None /\ number = 0)).

(** All three interfaces return the block [c]. *)
Definition block_returned (key u : list byte) (number : N) (data nonce c : list byte) : Prop :=
  (forall ou z, uid_given ou = u -> i32_range z -> names_block PC z number ->
     protocol_late c (h_aes_encrypt_block PC S (Some key) ou z (Some data) nonce)) /\
  py_encrypt_hybrid_block S key u number data nonce = Ok c /\
  (forall ou oi, w_names u number ou oi -> w_encrypt_hybrid_block S key ou oi data nonce = Ok c).

(** A block of at most 2^30 bytes: the three interfaces return the same one, and all three
    read it. *)
Theorem C132_block key u number data nonce : length key = 32%nat -> length nonce = nonce_length S ->
  data <> [] -> blen data <= 1073741824 ->
  exists c, block_returned key u number data nonce c /\ block_read S PC key u number c data /\ blen c = blen data + overhead S.
Proof using SL SV SK HC.
  intros Lk Ln Hd Ld. destruct (sv_block _ _ SV key u number nonce data) as (c & Ec); [congruence|exact Ln|exact Ld|].
  assert (E : encrypt_hybrid_block S 1073741824 key u number nonce data = Ok c).
  { unfold encrypt_hybrid_block. destruct data; [contradiction|]. destruct (N.ltb_spec 1073741824 (blen (b :: data))); [lia|exact Ec]. }
  assert (Ak : array_from (key_length S) key = Ok key) by (apply array_from_ok; congruence).
  assert (Epy : py_encrypt_hybrid_block S key u number data nonce = Ok c) by (unfold py_encrypt_hybrid_block; rewrite Ak; exact E).
  exists c. split; [split; [|split; [exact Epy|]]|].
  - intros ou z Hu Hz Hz'. assert (Q : number = as_usize PC z) by (eapply names_unique; [exact Hz'|apply names_usize; assumption]).
    apply (C54_encrypt_block_refuted PC HC S key ou z data nonce c); [congruence|destruct key; discriminate|exact Hd|].
    rewrite <- Q. change (optional_bytes ou) with (uid_given ou). rewrite Hu. exact E.
  - intros ou oi [Hu Hi]. unfold w_encrypt_hybrid_block.
    assert (Q : (blen key =? 32) = true) by (apply N.eqb_eq; unfold blen; rewrite Lk; reflexivity). rewrite Q. cbn [negb].
    destruct data; [contradiction|]. cbn [is_empty]. rewrite Ak. cbn [bind].
    assert (Q1 : w_uid ou = u) by (destruct Hu as [->|[-> ->]]; reflexivity).
    assert (Q2 : w_number oi = number) by (destruct Hi as [->|[-> ->]]; reflexivity). rewrite Q1, Q2. exact E.
  - exact (C115_blocks S metas SL SK PC HC key u number data c (block_py S PC key u number data nonce c Ln Epy)).
Qed.

(** A text cut into pieces, each encrypted as the block of its place: any interface may
    make each block and any may read it; the pieces come back in their order. *)
Theorem C132_pieces key u (pieces : list (list byte)) (nonces : nat -> list byte) : length key = 32%nat ->
  (forall j, length (nonces j) = nonce_length S) -> (forall d, In d pieces -> d <> [] /\ blen d <= 1073741824) ->
  exists blocks, length blocks = length pieces /\
    forall j c d, nth_error blocks j = Some c -> nth_error pieces j = Some d ->
      block_returned key u (N.of_nat j) d (nonces j) c /\ block_read S PC key u (N.of_nat j) c d.
Proof using SL SV SK HC.
  intros Lk Ln. revert nonces Ln.
  assert (G : forall i (nonces : nat -> list byte), (forall j, length (nonces j) = nonce_length S) -> (forall d, In d pieces -> d <> [] /\ blen d <= 1073741824) ->
    exists blocks, length blocks = length pieces /\ forall j c d, nth_error blocks j = Some c -> nth_error pieces j = Some d ->
      block_returned key u (N.of_nat (i + j)) d (nonces j) c /\ block_read S PC key u (N.of_nat (i + j)) c d).
  { induction pieces as [|d l IH]; intros i nonces Ln H.
    - exists []. split; [reflexivity|]. intros [|j] c d' Q; discriminate.
    - destruct (IH (i + 1)%nat (fun j => nonces (j + 1)%nat)) as (bs & Lb & Hb); [intros; apply Ln|intros; apply H; right; assumption|].
      destruct (H d (or_introl eq_refl)) as [Hd Ld].
      destruct (C132_block key u (N.of_nat i) d (nonces 0%nat) Lk (Ln _) Hd Ld) as (c & H1 & H2 & _).
      exists (c :: bs). split; [cbn; congruence|]. intros [|j] c' d' Q1 Q2; cbn [nth_error] in Q1, Q2.
      + apply Some_inj in Q1, Q2. subst c' d'. rewrite Nat.add_0_r. auto.
      + specialize (Hb j c' d' Q1 Q2). replace (i + Datatypes.S j)%nat with (i + 1 + j)%nat by lia. replace (Datatypes.S j) with (j + 1)%nat by lia. exact Hb. }
  intros nonces Ln H. exact (G 0%nat nonces Ln H).
Qed.
End Blocks.

(** ** Keys *)
Section Keys.
Variable B : BilinearMap.
Hypothesis BL : BilinearLaws B.
Local Notation K := (bm_K B).
Variable F : byte_forms B.
Variable fine : Gt B -> Prop.
Hypothesis HF : forms_ok F fine.
Variables PC PP : platform.
Hypothesis HC : 32 <= usize_bits PC.
Hypothesis HPP : 32 <= usize_bits PP.
Variable policy_from : list byte -> outcome policy.
Variable access_parse : string -> outcome access_policy.
Local Notation delegated_key := (py_generate_delegated_key PP F policy_from access_parse).
Variables (n : N) (history : list op) (mdraw : nat -> K).
Hypothesis Hn : 1 <= n <= 1024.
Hypothesis Hprop : proper_axes history.
Variables (p0 : policy) (mk : master_key B).
Hypothesis Hmax : max_attribute_creations p0 = n.
Hypothesis Hmk : eng_master_key p0 mdraw = Ok mk.
Local Notation owned_all := (owned_all B F PC n history mk).

Lemma eng_delegate_any P P' it p del (uk : decryption_key B) ap draw : eng_delegate P it p del uk ap draw = eng_delegate P' it p del uk ap draw.
Proof using Type. clear. unfold eng_delegate. rewrite (program_any it P P'). reflexivity. Qed.

Lemma derived_any P P' f (uk : decryption_key B) : derived B P mk f uk -> derived B P' mk f uk.
Proof using Type.
  clear. intros H. induction H as [f m draw uk Em Ek|f uk f' m' draw uk' _ IH Hn Em Ek|f uk draw uk' _ IH Ek].
  - rewrite (to_msp_any P P') in Em. eapply de_gen; eassumption.
  - rewrite (to_msp_any P P') in Em. eapply de_del; eassumption.
  - eapply de_rand; eassumption.
Qed.

(** a key is written to the same bytes on every machine *)
Lemma held_small i ap uk : held_key PC mk n history i ap uk ->
  exists b, blen b < 50000000 /\ forall P, 32 <= usize_bits P -> user_enc F P uk = Ok b /\ user_dec F P b = Ok uk.
Proof using BL HF Hn Hprop Hmax Hmk.
  clear HC HPP. intros Hk. destruct (held_stands B BL PC n history _ mdraw mk Hprop Hmk i ap uk Hk) as (q & it & f & g & _ & _ & _ & _ & _ & Hd).
  pose proof Hmk as Hg. unfold eng_master_key in Hg. rewrite Hmax in Hg.
  pose proof (derived_leaves B BL PC mk f uk _ mdraw Hg Hd) as Hnd. pose proof (derived_obtained B PC mk f uk Hd) as Ho.
  destruct (generate_master_key_inv B BL _ _ _ Hg) as (t & y & Q & Ht & Hnz). assert (Ho' := Ho). rewrite Q in Ho'.
  destruct (obtained_rep B BL PC t y f uk Hnz Ho') as (m & sg & _ & R & _).
  assert (Hr : forall a, In a (leaves f) -> a < n).
  { intros a Ha. pose proof (SchemeProofs.kr_range _ _ _ _ _ _ R a Ha) as Hr. unfold SchemeProofs.in_range in Hr. lia. }
  assert (L : (length (leaves f) <= N.to_nat n)%nat).
  { rewrite <- (map_length N.to_nat). rewrite <- (seq_length (N.to_nat n) 0). apply NoDup_incl_length.
    - apply FinFun.Injective_map_NoDup; [intros a b E; lia|exact Hnd].
    - intros x Hx. apply in_map_iff in Hx as (a & <- & Ha). apply in_seq. specialize (Hr a Ha). lia. }
  pose proof (count_and_leaves f) as Lc.
  assert (Lb : user_key_size (N.of_nat (length (leaves f))) (N.of_nat (count_and f)) < 50000000).
  { unfold user_key_size. assert (N.of_nat (length (leaves f)) * (N.of_nat (count_and f) + 1) <= 1024 * 1024) by (apply N.mul_le_mono; lia). lia. }
  assert (W : forall P, 32 <= usize_bits P -> exists b, user_enc F P uk = Ok b /\ blen b < 50000000 /\ user_dec F P b = Ok uk).
  { intros P HP. assert (HoP : obtained B P mk f uk) by (apply (derived_obtained B P); apply (derived_any PC); exact Hd).
    destruct (C76_user_key B BL F fine HF P _ mdraw mk f uk [] HP Hg HoP) as (b & Eb & Lbb & Db).
    - intros a Ha. specialize (Hr a Ha). lia.
    - lia.
    - apply (small_fits P HP). pose proof (fo_g3_mem _ _ HF) as G.
      apply N.le_lt_trans with (N.of_nat (length (leaves f)) * 4096); [apply N.mul_le_mono_l; exact G|lia].
    - change (blen []) with 0. apply (small_fits P HP). lia.
    - exists b. rewrite app_nil_r in Db. split; [exact Eb|]. split; [rewrite Lbb; exact Lb|exact Db]. }
  assert (Hpf : 32 <= usize_bits pf) by (cbn; lia).
  destruct (W pf Hpf) as (b & Eb & Lbb & _). exists b. split; [exact Lbb|]. intros P HP. destruct (W P HP) as (b' & Eb' & _ & Db').
  assert (E : user_enc F P uk = Ok b).
  { apply (user_enc_any B F fine HF pf P); [|apply (small_fits P HP); lia|exact Eb].
    refine (proj1 (rep_key_ok t f m sg uk R _)). apply Forall_forall. intros a Ha. specialize (Hr a Ha). unfold u32, u32_modulus. lia. }
  split; [exact E|]. assert (b' = b) by congruence. subst b'. exact Db'.
Qed.
Lemma held_everywhere i ap uk : held_key PC mk n history i ap uk ->
  exists b, forall P, 32 <= usize_bits P -> user_enc F P uk = Ok b /\ user_dec F P b = Ok uk.
Proof using BL HF Hn Hprop Hmax Hmk. clear HC HPP. intros Hk. destruct (held_small i ap uk Hk) as (b & _ & H). exists b. exact H. Qed.

(** Refreshing a key, and narrowing it. *)
Theorem C132_refreshed_key i ap b p pol it access del draw :
  owned_all i ap b -> policy_from pol = Ok p -> (forall P, 32 <= usize_bits P -> del_dec F P del = Ok (del_key mk)) -> access_parse access = Ok AAll ->
  exists b', delegated_key it del b access pol draw = Ok b' /\ owned_all i ap b'.
Proof using BL HF HPP Hn Hmax Hmk Hprop.
  intros (uk & Hk & Du) Ep Dd Ea.
  assert (E : exists uk', eng_delegate PC it p (del_key mk) uk AAll draw = Ok uk').
  { destruct (held_stands B BL PC n history _ mdraw mk Hprop Hmk i ap uk Hk) as (q & it0 & f & g & _ & _ & _ & _ & _ & Hd).
    pose proof Hmk as Hmk'. unfold eng_master_key in Hmk'.
    destruct (C12_delegating_to_all_rerandomises B BL PC _ mdraw mk f uk draw Hmk' (derived_obtained B PC mk f uk Hd)) as (uk' & E & _).
    exists uk'. exact E. }
  destruct E as (uk' & E). pose proof (hk_refresh PC mk n history it i ap uk p draw uk' Hk E) as Hk'.
  destruct (held_everywhere i ap uk' Hk') as (b' & Hb). exists b'. split.
  - unfold py_generate_delegated_key. rewrite (Dd PP HPP). cbn [bind]. rewrite (Du PP HPP). cbn [bind]. rewrite Ea. cbn [bind].
    rewrite Ep. cbn [bind]. rewrite (eng_delegate_any PP PC), E. exact (proj1 (Hb PP HPP)).
  - exists uk'. split; [exact Hk'|]. intros P HP. exact (proj2 (Hb P HP)).
Qed.

Theorem C132_delegated_key i ap b j p pol it access ap' del draw :
  owned_all i ap b -> version n history j p -> policy_from pol = Ok p -> (forall P, 32 <= usize_bits P -> del_dec F P del = Ok (del_key mk)) -> iteration_ok it ->
  access_parse access = Ok ap' -> ap' <> AAll -> included (firstn i history) ap' ap ->
  (forall a, In a (mentioned ap') -> declared (firstn j history) a) ->
  (forall a, needed (firstn i history) ap' a -> ~ In (Rotate a) (between history i j)) ->
  exists b', delegated_key it del b access pol draw = Ok b' /\ owned_all (min i j) ap' b'.
Proof using BL HF HPP Hn Hmax Hmk Hprop.
  intros (uk & Hk & Du) V Ep Dd Hit Ea Hne Hin Hm Hr.
  destruct (C122_delegation B BL PC n history p0 mdraw mk i ap uk it j p ap' draw Hprop Hmk Hk Hit V Hne Hin) as [_ H].
  destruct (H (conj Hm Hr)) as (uk' & E).
  pose proof (hk_delegate PC mk n history it i j p ap ap' uk draw uk' Hk Hit V Hne Hin E) as Hk'.
  destruct (held_everywhere (min i j) ap' uk' Hk') as (b' & Hb). exists b'. split.
  - unfold py_generate_delegated_key. rewrite (Dd PP HPP). cbn [bind]. rewrite (Du PP HPP). cbn [bind]. rewrite Ea. cbn [bind].
    rewrite Ep. cbn [bind]. rewrite (eng_delegate_any PP PC), E. exact (proj1 (Hb PP HPP)).
  - exists uk'. split; [exact Hk'|]. intros P HP. exact (proj2 (Hb P HP)).
Qed.
End Keys.

(** ** Messages *)
Section Messages.
Variable B : BilinearMap.
Hypothesis BL : BilinearLaws B.
Local Notation K := (bm_K B).
Variable F : byte_forms B.
Variable fine : Gt B -> Prop.
Hypothesis HF : forms_ok F fine.
Variable shake : list byte -> nat -> list byte.
Hypothesis shake_length : forall b n, length (shake b n) = n.
Variable S : sym_scheme.
Variable metas : metadata -> Prop.
Hypothesis SL : sym_laws S metas.
Hypothesis SV : serves S metas.
Hypothesis SK : key_length S = 32%nat.
(** the machines of the C program, of the Python program and of the browser *)
Variables PC PP PW : platform.
Hypothesis HC : 32 <= usize_bits PC.
Hypothesis HPP : 32 <= usize_bits PP.
Hypothesis HW : 32 <= usize_bits PW.
Variable policy_from : list byte -> outcome policy.
Variable attributes_from : list byte -> outcome (list attribute).
Variable metadata_from : list byte -> outcome metadata.
Variables (n : N) (history : list op) (mdraw : nat -> K).
Hypothesis Hn : 1 <= n <= 1024.
Hypothesis Hprop : proper_axes history.
Hypothesis Hdraw : forall i, (i < N.to_nat n)%nat -> mdraw i <> f0.
Variables (p0 : policy) (mk : master_key B).
Hypothesis Hmax : max_attribute_creations p0 = n.
Hypothesis Hmk : eng_master_key p0 mdraw = Ok mk.

(** A whole message encrypted by Python: the call succeeds, and Python and WebAssembly
    read the message with exactly the keys whose access policy is satisfied by the
    attributes not rotated since. *)
Theorem C132_message k q pol attrs l meta m pub data random (s : K) nonce nonce' :
  version n history k q -> policy_from pol = Ok q -> last_attribute_value q < n ->
  attributes_from attrs = Ok l -> l <> [] -> (forall a, In a l -> declared (firstn k history) a) -> N.of_nat (length l) < n ->
  metadata_from meta = Ok m -> metas m -> pub <> [] -> (forall P, 32 <= usize_bits P -> pub_dec F P pub = Ok (pub_key mk)) ->
  length nonce = nonce_length S -> length nonce' = nonce_length S -> data <> [] -> blen data <= 1073741824 ->
  (forall ct, eng_encrypt PC q (pub_key mk) l random s = Ok ct -> fine (e_prime ct)) ->
  exists c, py_encrypt PP F shake S policy_from attributes_from metadata_from meta pol attrs pub data random s nonce nonce' = Ok c /\
    forall i ap b number, owned_all B F PC n history mk i ap b -> number = Some 0 \/ number = None ->
    let T := fun a => In a l /\ ~ In (Rotate a) (between history i k) in
    (satisfied (firstn i history) T ap /\ py_decrypt PP F shake S b c = Ok data /\ w_read_message B PW F shake S b c (Some (uid m)) number = Ok data) \/
    (~ satisfied (firstn i history) T ap /\ is_err (py_decrypt PP F shake S b c) /\ is_err (w_read_message B PW F shake S b c (Some (uid m)) number)).
Proof using BL HF shake_length SL SV SK HC HPP HW Hn Hprop Hdraw Hmax Hmk.
  intros V Ep Hlast El Hne Hl Hlen Em Hm Hpub Dp Hno Hno' Hd Ld Hf.
  destruct (C129_header B BL F fine HF shake shake_length S metas SL SV SK PC PP PW HC HPP HW (fun _ => Ok q) (fun _ => Ok l) policy_from attributes_from metadata_from (fun _ => Ok l)
    n history mdraw Hn Hprop Hdraw p0 mk Hmax Hmk k q [] pol attrs [] ""%string l meta m pub random s nonce V eq_refl Ep Hlast El eq_refl eq_refl Hne Hl Hlen Em Hm Hpub Dp Hno Hf)
    as (key & header & _ & Eh & _ & Ho).
  destruct (header_made B BL pf ltac:(cbn; lia) F fine HF shake shake_length S metas SV n history mdraw ltac:(lia) Hprop Hdraw p0 mk Hmax Hmk
    k q l m random s nonce V Hlast Hl Hlen Hne Hm Hno) as (h & Ea & Lk & Lh).
  apply (header_any B F shake S pf PP) in Ea.
  assert (Q : eh_key h = key /\ eh_bytes h = header).
  { pose proof Eh as Q. unfold py_encrypt_hybrid_header in Q. rewrite Em, Ep, El, (Dp PP HPP) in Q. cbn [bind] in Q. rewrite Ea in Q. cbn [bind] in Q.
    apply Ok_inj in Q. split; congruence. }
  destruct Q as [<- <-]. rewrite SK in Lk.
  destruct (C132_block S metas SL SV SK PC HC (eh_key h) (uid m) 0 data nonce' Lk Hno' Hd Ld) as (block & (_ & Eb & _) & _ & _).
  exists (message (eh_bytes h) block). split.
  - unfold py_encrypt. rewrite Em. cbn [bind]. rewrite Eh. cbn [bind]. rewrite Eb. cbn [bind].
    rewrite N.mod_small by (unfold u32_modulus; lia). reflexivity.
  - intros i ap b number Hb Hnum T.
    assert (Lh' : blen (eh_bytes h) < 2147483648) by lia.
    destruct (C115_messages B F shake S metas SL SK PC PP PW HC HPP HW (eh_key h) (uid m) m data b (eh_bytes h) block number Lh' eq_refl Hnum
      (block_py S PC (eh_key h) (uid m) 0 data nonce' block Hno' Eb)) as [R1 R2].
    destruct (Ho i ap b Hb) as [[H1 H2]|[H1 H2]]; [left|right]; (split; [exact H1|]); auto.
Qed.
End Messages.

(** ** Examples *)
(** A key of the second state of the policy, refreshed by a 32-bit program, and narrowed
    to FIN under the third state. *)
Definition fin_ap : access_policy := AAnd (AAttr (level "Confidential")) (AAttr (dept "FIN")).
Definition more_access (x : string) : outcome access_policy :=
  if String.eqb x "all" then Ok AAll else if String.eqb x "fin" then Ok fin_ap else py_access x.

Lemma live_more (attrs : list byte) l : py_attrs attrs = Ok l -> l <> [] -> forallb (fun a => on (covered hist a) a) l = true -> N.of_nat (length l) < 10 ->
  exists priv pub del b b1 b2 e,
  py_generate_master_keys toy_forms py_policy [x01] ex_draw = Ok (priv, pub, del) /\
  py_generate_user_private_key debug32 toy_forms py_policy more_access it_rev priv "a" [x01] ex_kdraw = Ok b /\
  py_generate_delegated_key debug32 toy_forms py_policy more_access it_rev del b "all" [x01] ex_kdraw = Ok b1 /\
  py_generate_delegated_key debug32 toy_forms py_policy more_access it_rev del b1 "fin" [x02] ex_draw = Ok b2 /\
  py_encrypt debug32 toy_forms toy_shake toy_sym py_policy py_attrs all_meta [x02] [x02] attrs pub [x0c; x0d; x0e] ex_msg ex_s ex_nonce ex_nonce = Ok e /\
  if grants ops_a (filter (fun a => negb (attribute_eqb (dept "HR") a)) l) fin_ap
  then py_decrypt debug32 toy_forms toy_shake toy_sym b2 e = Ok [x0c; x0d; x0e] /\
       w_read_message toy release32 toy_forms toy_shake toy_sym b2 e (Some [x07]) None = Ok [x0c; x0d; x0e]
  else is_err (py_decrypt debug32 toy_forms toy_shake toy_sym b2 e) /\
       is_err (w_read_message toy release32 toy_forms toy_shake toy_sym b2 e (Some [x07]) None).
Proof.
  intros El Hne Hd Hlen. rewrite forallb_forall in Hd.
  assert (H32 : 32 <= usize_bits debug32) by (cbn; lia). assert (H32' : 32 <= usize_bits release32) by (cbn; lia).
  assert (Hdr : forall i, (i < N.to_nat 10)%nat -> ex_draw i <> f0) by (intros j Hj; apply ex_draws; lia).
  destruct (C129_master_keys toy toy_laws toy_forms (fun _ => True) toy_forms_ok debug32 H32 py_policy py_policy 10%N hist ex_draw ltac:(lia) Hdr
    2%nat pol_a [x01] [x01] hist_two eq_refl eq_refl (fun _ _ => Logic.I)) as (mk & priv & pub & del & Em & Hpr & Hpu & _ & M2 & _ & Dm).
  destruct (C129_user_key toy toy_laws toy_forms (fun _ => True) toy_forms_ok debug32 debug32 release32 H32 H32 H32' py_policy c_access py_policy more_access
    10%N hist ex_draw ltac:(lia) hist_proper Hdr pol_a mk eq_refl Em 2%nat pol_a [x01] [x01] it_rev "a"%string [x01] ex_ap priv ex_kdraw hist_two eq_refl eq_refl)
    as (b & _ & U & _ & O).
  { vm_compute. reflexivity. } { exact Hpr. } { intros P HP. apply Dm, HP. } { exact it_rev_ok. } { reflexivity. } { reflexivity. }
  { intros a Ha. apply declared_spec. cbn in Ha. repeat (destruct Ha as [<-|Ha]; [vm_compute; reflexivity|]). destruct Ha. }
  { cbn. intuition discriminate. } { apply apart_spec. vm_compute. reflexivity. } { discriminate. }
  destruct (C132_refreshed_key toy toy_laws toy_forms (fun _ => True) toy_forms_ok debug32 debug32 H32 py_policy more_access 10%N hist ex_draw ltac:(lia) hist_proper
    pol_a mk eq_refl Em 2%nat ex_ap b pol_a [x01] it_rev "all"%string del ex_kdraw O eq_refl) as (b1 & U1 & O1); [intros P HP; apply Dm, HP|reflexivity|].
  destruct (C132_delegated_key toy toy_laws toy_forms (fun _ => True) toy_forms_ok debug32 debug32 H32 py_policy more_access 10%N hist ex_draw ltac:(lia) hist_proper
    pol_a mk eq_refl Em 2%nat ex_ap b1 3%nat pol_b [x02] it_rev "fin"%string fin_ap del ex_draw O1 hist_three eq_refl) as (b2 & U2 & O2);
    [intros P HP; apply Dm, HP|exact it_rev_ok|reflexivity|discriminate|apply in_and; [apply in_refl|apply in_or_right]| | |].
  { intros a Ha. apply declared_spec. cbn in Ha. repeat (destruct Ha as [<-|Ha]; [vm_compute; reflexivity|]). destruct Ha. }
  { intros a Ha. change (between hist 2 3) with [Rotate (dept "HR")]. intros [Q|[]]. assert (a = dept "HR") by congruence. subst a. apply needed_spec in Ha. vm_compute in Ha. discriminate. }
  destruct (C132_message toy toy_laws toy_forms (fun _ => True) toy_forms_ok toy_shake toy_shake_length toy_sym short_meta toy_short_laws toy_serves eq_refl
    debug32 debug32 release32 H32 H32 H32' py_policy py_attrs all_meta 10%N hist ex_draw ltac:(lia) hist_proper Hdr pol_a mk eq_refl Em
    3%nat pol_b [x02] attrs l [x02] (mkMeta [x07] None) pub [x0c; x0d; x0e] ex_msg ex_s ex_nonce ex_nonce hist_three eq_refl) as (e & Ee & R).
  { vm_compute. reflexivity. } { exact El. } { exact Hne. } { intros a Ha. apply declared_spec. exact (Hd a Ha). } { exact Hlen. } { reflexivity. }
  { split; [discriminate|]. split; [vm_compute; reflexivity|exact Logic.I]. } { exact Hpu. } { intros P HP. apply Dm, HP. } { reflexivity. } { reflexivity. }
  { discriminate. } { vm_compute. discriminate. } { intros ct _. exact Logic.I. }
  exists priv, pub, del, b, b1, b2, e. do 5 (split; [assumption|]).
  specialize (R (min 2 3)%nat fin_ap b2 None O2 (or_intror eq_refl)). cbv zeta in R. change (min 2 3) with 2%nat in R.
  assert (G := grants_spec (firstn 2 hist) (fun a => In a l /\ ~ In (Rotate a) (between hist 2 3)) (filter (fun a => negb (attribute_eqb (dept "HR") a)) l) fin_ap).
  change (firstn 2 hist) with ops_a in *. change (between hist 2 3) with [Rotate (dept "HR")] in *.
  assert (Q : forall a, In a (filter (fun a => negb (attribute_eqb (dept "HR") a)) l) <-> In a l /\ ~ In (Rotate a) [Rotate (dept "HR")]).
  { intros a. rewrite filter_In, negb_true_iff, <- not_true_iff_false, attribute_eqb_spec. simpl.
    split; intros [A1 A2]; (split; [exact A1|]); [intros [E|[]]; apply A2; congruence|intros E; apply A2; left; f_equal; exact E]. }
  destruct (grants _ _ _).
  - destruct R as [[_ R]|[R _]]; [exact R|]. exfalso. apply R. apply G; [|reflexivity]. intros a. specialize (Q a). tauto.
  - destruct R as [[R _]|[_ R]]; [|exact R]. exfalso. assert (X : false = true); [|discriminate]. apply G; [|exact R]. intros a. specialize (Q a). tauto.
Qed.

(** for FIN, which is not rotated, and for HR, which is *)
Example C132_example : exists priv pub del b b1 b2 e,
  py_generate_master_keys toy_forms py_policy [x01] ex_draw = Ok (priv, pub, del) /\
  py_generate_user_private_key debug32 toy_forms py_policy more_access it_rev priv "a" [x01] ex_kdraw = Ok b /\
  py_generate_delegated_key debug32 toy_forms py_policy more_access it_rev del b "all" [x01] ex_kdraw = Ok b1 /\
  py_generate_delegated_key debug32 toy_forms py_policy more_access it_rev del b1 "fin" [x02] ex_draw = Ok b2 /\
  py_encrypt debug32 toy_forms toy_shake toy_sym py_policy py_attrs all_meta [x02] [x02] [x02] pub [x0c; x0d; x0e] ex_msg ex_s ex_nonce ex_nonce = Ok e /\
  py_decrypt debug32 toy_forms toy_shake toy_sym b2 e = Ok [x0c; x0d; x0e] /\
  w_read_message toy release32 toy_forms toy_shake toy_sym b2 e (Some [x07]) None = Ok [x0c; x0d; x0e].
Proof. apply (live_more [x02] [dept "FIN"; level "Protected"]); [reflexivity|discriminate|vm_compute; reflexivity|vm_compute; reflexivity]. Qed.
Example C132_rotated_example : exists priv pub del b b1 b2 e,
  py_generate_master_keys toy_forms py_policy [x01] ex_draw = Ok (priv, pub, del) /\
  py_generate_user_private_key debug32 toy_forms py_policy more_access it_rev priv "a" [x01] ex_kdraw = Ok b /\
  py_generate_delegated_key debug32 toy_forms py_policy more_access it_rev del b "all" [x01] ex_kdraw = Ok b1 /\
  py_generate_delegated_key debug32 toy_forms py_policy more_access it_rev del b1 "fin" [x02] ex_draw = Ok b2 /\
  py_encrypt debug32 toy_forms toy_shake toy_sym py_policy py_attrs all_meta [x02] [x02] [x01] pub [x0c; x0d; x0e] ex_msg ex_s ex_nonce ex_nonce = Ok e /\
  is_err (py_decrypt debug32 toy_forms toy_shake toy_sym b2 e) /\
  is_err (w_read_message toy release32 toy_forms toy_shake toy_sym b2 e (Some [x07]) None).
Proof. apply (live_more [x01] [dept "HR"; level "Protected"]); [reflexivity|discriminate|vm_compute; reflexivity|vm_compute; reflexivity]. Qed.

(** two pieces under one key; the second block is read as block 1 by the three interfaces *)
Example C132_pieces_example : exists c0 c1,
  block_returned toy_sym debug32 (repeat x05 32) [x07] 0 [x0c; x0d] ex_nonce c0 /\
  block_returned toy_sym debug32 (repeat x05 32) [x07] 1 [x0e] ex_nonce c1 /\
  block_read toy_sym debug32 (repeat x05 32) [x07] 1 c1 [x0e].
Proof.
  destruct (C132_pieces toy_sym short_meta toy_short_laws toy_serves eq_refl debug32 ltac:(cbn; lia) (repeat x05 32) [x07] [[x0c; x0d]; [x0e]] (fun _ => ex_nonce))
    as (bs & Lb & H); [reflexivity|reflexivity|intros d [<-|[<-|[]]]; (split; [discriminate|vm_compute; discriminate])|].
  destruct bs as [|c0 [|c1 [|? ?]]]; try discriminate Lb. exists c0, c1.
  destruct (H 0%nat c0 [x0c; x0d] eq_refl eq_refl) as [H0 _]. destruct (H 1%nat c1 [x0e] eq_refl eq_refl) as [H1 H2].
  split; [exact H0|]. split; [exact H1|exact H2].
Qed.

Print Assumptions C132_block.
Print Assumptions C132_pieces.
Print Assumptions C132_refreshed_key.
Print Assumptions C132_delegated_key.
Print Assumptions C132_message.
