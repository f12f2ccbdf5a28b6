(** The tests of the C interface pass whatever is drawn, beside whatever other callers do: C134. *)
From Coq Require Import String NArith ZArith Bool Arith Lia Strings.Byte List.
From Verif Require SchemeProofs.
From Verif Require Import Prelude Field LinAlg Msp Spec MspProofs Bilinear Scheme SchemeSpec SchemeTheorems
  Zp ExpModel PropertiesScheme Parser ParserSpec Codec CodecProofs SchemeCodec SchemeCodecProofs PropertiesCodec
  Policy PolicySpec PolicyProofs Engine EngineSpec EngineProofs PropertiesEngine Hybrid HybridSpec PropertiesHybrid PropertiesVersions
  Properties32 Ffi FfiSpec PropertiesFfi PropertiesFfiBlocks FfiRaw PropertiesFfiRaw FfiCache CacheSpec PropertiesCache PropertiesSizes
  Python PropertiesPython Wasm PropertiesWasm PropertiesTogether
  HistorySpec PropertiesHistory PropertiesWorking Demo PropertiesDemo PropertiesLive PropertiesLiveAll PropertiesLiveMore TestPrograms PropertiesTests FfiTestPrograms.
Import ListNotations.
Local Open Scope N_scope.

Local Ltac vm := vm_compute; reflexivity.

Lemma pointed_stands b : blen b < 2147483648 -> stands_for (pointed b) (Some b).
Proof.
  intros H. unfold stands_for, pointed. cbn [in_mem in_len]. rewrite as_c_int_exact by exact H. unfold blen in *. split; [lia|].
  rewrite <- (firstn_all b) at 1. f_equal. f_equal. lia.
Qed.
Lemma pointed_int b : blen b < 2147483648 -> c_int (in_len (pointed b)).
Proof. intros H. unfold c_int, pointed. cbn [in_len]. rewrite as_c_int_exact by exact H. lia. Qed.
Lemma c_string_spells b c : ~ In x00 b -> c_string_new b = Ok c -> spells (Some c) (Some b).
Proof. unfold c_string_new. intros H. destruct (has_nul b); [discriminate|]. intros E. apply Ok_inj in E. subst c. exists b, []. auto. Qed.
Lemma c_string_made b : ~ In x00 b -> exists c, c_string_new b = Ok c.
Proof.
  intros H. unfold c_string_new. destruct (has_nul b) eqn:E; [|eauto].
  unfold has_nul in E. apply existsb_exists in E as (x & Hx & E). apply Byte.byte_dec_bl in E. subst x. contradiction.
Qed.

Lemma zeroed_len size : size < 2147483648 -> o_len (zeroed size) = Some (Z.of_N size).
Proof. intros H. unfold zeroed. cbn [o_len]. rewrite as_c_int_exact by exact H. reflexivity. Qed.
Lemma zeroed_good size : size < 2147483648 -> good_out (zeroed size).
Proof.
  intros H. exists (Z.of_N size). split; [exact (zeroed_len size H)|]. split; [lia|]. intros mem [= <-]. rewrite repeat_length. lia.
Qed.
Lemma zeroed_offered size : 0 < size -> size < 2147483648 -> offered (zeroed size).
Proof. intros H0 H. exists (Z.of_N size). split; [|lia]. split; [exact (zeroed_good size H)|]. split; [discriminate|exact (zeroed_len size H)]. Qed.
Lemma zeroed_room size d : size < 2147483648 -> blen d <= size -> room d (zeroed size).
Proof. intros H Hd. exists (Z.of_N size). split; [exact (zeroed_len size H)|]. unfold blen in Hd. lia. Qed.

(** what was delivered is read back *)
Lemma delivered_back P outs i d o o' : 32 <= usize_bits P -> nth_error outs i = Some o' -> delivered d o o' -> blen d < 2147483648 -> read_back P outs i = Ok d.
Proof.
  intros HP E (mem & _ & Em & Hl & El) Hd. unfold read_back. rewrite E. destruct o' as [m l]. cbn [o_mem o_len] in Em, El. subst m l.
  rewrite as_usize_exact by (try exact HP; unfold blen in Hd; lia).
  replace (Z.to_N (Z.of_nat (length d))) with (blen d) by (unfold blen; lia).
  destruct (N.leb_spec (blen d) (blen (d ++ skipn (length d) mem))) as [_|X]; [|rewrite blen_app in X; lia].
  f_equal. unfold blen. rewrite Nat2N.id, firstn_app, Nat.sub_diag, firstn_all, firstn_O, app_nil_r. reflexivity.
Qed.

Section Tests.
Variable B : BilinearMap.
Hypothesis BL : BilinearLaws B.
Local Notation K := (bm_K B).
Variable F : byte_forms B.
Variable fine : Gt B -> Prop.
Hypothesis HF : forms_ok F fine.
Variable shake : list byte -> nat -> list byte.
Hypothesis shake_length : forall b n, length (shake b n) = n.
Variable S : sym_scheme.
Variable metas : metadata -> Prop.
Hypothesis SL : sym_laws S metas.
Hypothesis SV : serves S metas.
Hypothesis SK : key_length S = 32%nat.
(** the encrypted metadata are longer than the metadata by a constant (the tag) *)
Variable tag : N.
Hypothesis tagged : forall k m nonce c, sym_encrypt S k m nonce None = Ok c -> blen c = blen m + tag.
Variable P : platform.
Hypothesis HP : 32 <= usize_bits P.
Variable policy_from : list byte -> outcome policy.
Variable attributes_from : list byte -> outcome (list attribute).
Variable policy_json : policy -> list byte.
Variable attributes_json : list attribute -> list byte.

Variables (n : N) (history : list op) (mdraw : nat -> K) (mk : master_key B) (k : nat) (p : policy) (pub_file user_file : list byte).
(** JSON is read as it was written, and has no NUL *)
Hypothesis policy_reads : policy_from (policy_json p) = Ok p /\ ~ In x00 (policy_json p).
Hypothesis attributes_reads : attributes_from (attributes_json fin_top) = Ok fin_top /\ ~ In x00 (attributes_json fin_top).
Hypothesis FL : files B F P n history mdraw mk k p pub_file user_file.
Hypothesis Hy : fine (pub_y (pub_key mk)).
Variables (random : Gt B) (s : K) (nonce : list byte).
Hypothesis Hno : length nonce = nonce_length S.
Hypothesis Hf : forall ct, eng_encrypt P p (pub_key mk) fin_top random s = Ok ct -> fine (e_prime ct).

Lemma public_bytes : exists b, pub_enc F (pub_key mk) = Ok b /\ pub_dec F P b = Ok (pub_key mk) /\ blen b < 2147483648 /\ b <> [].
Proof using BL HF HP FL Hy.
  clear SL SV SK tagged policy_reads attributes_reads Hno Hf.
  destruct FL as [Hn Hprop Hdraw Hmk V _ _ _ _].
  assert (Emk : eng_master_key p mdraw = Ok mk).
  { unfold eng_master_key in *. rewrite (version_max n history k p V). exact Hmk. }
  destruct (C129_master_keys B BL F fine HF P HP (fun _ => Ok p) (fun _ => Ok p) n history mdraw ltac:(lia) Hdraw k p [] [] V eq_refl eq_refl) as (mk' & priv & pub & del & Emk' & _ & Hpub & _ & E & _ & D).
  { intros mk' E. rewrite Emk in E. apply Ok_inj in E. subst mk'. exact Hy. }
  rewrite Emk in Emk'. apply Ok_inj in Emk'. subst mk'.
  unfold py_generate_master_keys in E. cbn [bind] in E. rewrite Emk in E. cbn [bind] in E.
  apply bind_ok in E as (b1 & E1 & E). apply bind_ok in E as (b2 & E2 & E). apply bind_ok in E as (b3 & E3 & E). apply Ok_inj in E.
  assert (b2 = pub) by congruence. subst b2. exists pub. split; [exact E2|]. split; [exact (proj1 (proj2 (D P HP)))|]. split; [|exact Hpub].
  destruct (C117_master_keys B BL F fine HF p mdraw mk b1 pub b3 Emk) as (_ & L & _); try assumption.
  - rewrite (version_max n history k p V). lia.
  - rewrite L, (version_max n history k p V). unfold public_key_bytes. lia.
Qed.

Variables (u ad : list byte).
(** as the C interface takes them: no additional data when they are empty *)
Definition kept : metadata := mkMeta u (match ad with [] => None | _ => Some ad end).
Hypothesis Hm : metas kept.
Hypothesis Hu : blen u <= 4096.
Hypothesis Had : blen ad <= 4096.

(** The header of the tests: [given] is the size of the metadata in the header. *)
Lemma test_header : exists h uk ukb mb,
  encrypt_hybrid_header S F shake P p (pub_key mk) fin_top (Some kept) random s nonce = Ok h /\ length (eh_key h) = 32%nat /\
  user_dec F P user_file = Ok uk /\ user_enc F P uk = Ok ukb /\ user_dec F P ukb = Ok uk /\ blen ukb < 2147483648 /\ ukb <> [] /\
  decrypt_hybrid_header S F shake P uk (eh_bytes h) = Ok (mkClearHeader (eh_key h) kept) /\
  blen (eh_bytes h) < 2147483648 /\ eh_bytes h <> [] /\ meta_to_bytes S kept = Ok mb /\
  blen (eh_bytes h) = 408 + N.of_nat (nonce_length S) + blen mb + tag.
Proof using BL HF shake_length SL SV SK tagged HP FL Hno Hf Hm.
  clear Hy Hu Had.
  destruct (file_header B BL F fine HF shake shake_length S metas SL SV SK P HP n history mdraw mk k p pub_file user_file FL random s nonce Hno Hf kept Hm)
    as (h & uk & Eh & Lk & Lh & Lh4 & Du & _ & Dh & _).
  destruct FL as [Hn Hprop Hdraw Hmk V _ _ _ (i & ap & uk' & Du' & Hk & _)].
  rewrite Du in Du'. apply Ok_inj in Du'. subst uk'.
  destruct (held_small B BL F fine HF P n history mdraw ltac:(lia) Hprop (new_policy n) mk eq_refl Hmk i ap uk Hk) as (ukb & Lukb & Hb).
  destruct (Hb P HP) as [Eu Db].
  destruct (C117_headers B F fine HF shake S tag tagged P p (pub_key mk) fin_top (Some kept) random s nonce h ltac:(discriminate) Hno Eh) as (_ & mb & Emb & L).
  exists h, uk, ukb, mb. split; [exact Eh|]. split; [exact Lk|]. split; [exact Du|]. split; [exact Eu|]. split; [exact Db|]. split; [lia|].
  split; [intros ->; discriminate Db|]. split; [exact Dh|]. split; [lia|]. split; [intros Q; rewrite Q in Lh4; cbn in Lh4; lia|]. split; [exact Emb|].
  rewrite L. unfold header_bytes. cbn [length fin_top]. lia.
Qed.

Local Notation direct := (ffi_hybrid_header P F shake S policy_from attributes_from policy_json attributes_json pub_file user_file p random s nonce (mkMeta u (Some ad))).

(** the header functions of the test end with what the header functions of the library give *)
Lemma meta_kept : meta_of (Some u) (Some ad) = kept.
Proof using Type. clear Had Hm. unfold meta_of, kept. destruct ad; reflexivity. Qed.
Lemma header_written h (f : ffi unit) : encrypt_protocol (eh_key h) (eh_bytes h) f -> length (eh_key h) = 32%nat -> blen (eh_bytes h) < 2147483648 ->
  (blen (eh_bytes h) <= 4096 -> exists outs, checked (f [zeroed 32; zeroed 4096]) = Ok (tt, outs) /\ read_header P S outs = Ok h) /\
  (4096 < blen (eh_bytes h) -> exists e, checked (f [zeroed 32; zeroed 4096]) = Err e).
Proof using SK HP.
  clear Hu Had Hno Hm. intros Q Lk Lh. assert (Lk' : blen (eh_key h) = 32) by (unfold blen; rewrite Lk; reflexivity).
  destruct (Q (zeroed 32) (zeroed 4096) (zeroed_offered 32 ltac:(lia) ltac:(lia)) (zeroed_offered 4096 ltac:(lia) ltac:(lia))) as (Q1 & _ & Q3).
  pose proof (zeroed_room 32 (eh_key h) ltac:(lia) ltac:(lia)) as R. split; intros H.
  - destruct (Q1 R (zeroed_room 4096 _ ltac:(lia) H)) as (ok & oh & E & Dk & Dh). exists [ok; oh]. rewrite E. split; [reflexivity|].
    unfold read_header. rewrite (delivered_back P [ok; oh] 0 _ _ ok HP eq_refl Dk) by lia. cbn [bind].
    rewrite array_from_ok by congruence. cbn [bind]. rewrite (delivered_back P [ok; oh] 1 _ _ oh HP eq_refl Dh) by lia. cbn [bind]. destruct h; reflexivity.
  - destruct (Q3 R) as (e & ok & oh & E & _). { exists 4096%Z. split; [exact (zeroed_len 4096 ltac:(lia))|]. unfold blen in H. lia. }
    rewrite E. eexists. reflexivity.
Qed.
Lemma clear_written key (f : ffi unit) : decrypt_protocol (mkClearHeader key kept) f -> length key = 32%nat ->
  exists outs, checked (f [zeroed 32; zeroed 4096; zeroed 4096]) = Ok (tt, outs) /\ read_clear P S outs = Ok (mkClearHeader key (mkMeta u (Some ad))).
Proof using SK HP Hu Had.
  clear Hno Hm. intros Q Lk. assert (Lk' : blen key = 32) by (unfold blen; rewrite Lk; reflexivity).
  destruct (Q (zeroed 32) (zeroed 4096) (zeroed 4096) (zeroed_offered 32 ltac:(lia) ltac:(lia)) (zeroed_good 4096 ltac:(lia)) (zeroed_good 4096 ltac:(lia))) as (Q1 & _).
  cbn [ch_key ch_meta] in Q1.
  destruct Q1 as (ok & ou & oa & E & Dk & Du & Da).
  - exact (zeroed_room 32 key ltac:(lia) ltac:(lia)).
  - right. right. exact (zeroed_room 4096 u ltac:(lia) Hu).
  - unfold kept. cbn [additional_data]. destruct ad as [|x t] eqn:Qa; [exact Logic.I|]. right. right. rewrite <- Qa in *. exact (zeroed_room 4096 ad ltac:(lia) Had).
  - exists [ok; ou; oa]. rewrite E. split; [reflexivity|]. unfold read_clear.
    rewrite (delivered_back P [ok; ou; oa] 0 _ _ ok HP eq_refl Dk) by lia. cbn [bind]. rewrite array_from_ok by congruence. cbn [bind].
    assert (NL : o_len (zeroed 4096) <> Some 0%Z) by (rewrite (zeroed_len 4096) by lia; discriminate).
    assert (NM : o_mem (zeroed 4096) <> None) by discriminate.
    destruct Du as [_ Du]. specialize (Du NM NL). cbn [kept uid] in Du. rewrite (delivered_back P [ok; ou; oa] 1 _ _ ou HP eq_refl Du) by lia. cbn [bind].
    destruct Da as [_ Da]. specialize (Da NM NL).
    assert (Ra : read_back P [ok; ou; oa] 2 = Ok ad).
    { cbn [kept additional_data] in Da. destruct ad as [|x t] eqn:Qa.
      - destruct Da as [Dm Dl]. unfold read_back. cbn [nth_error]. destruct oa as [m l]. cbn [o_mem o_len] in Dm, Dl. subst m l.
        unfold zeroed. cbn [o_mem]. rewrite as_usize_exact by (try exact HP; lia). reflexivity.
      - rewrite <- Qa in *. exact (delivered_back P [ok; ou; oa] 2 _ _ oa HP eq_refl Da ltac:(lia)). }
    rewrite Ra. reflexivity.
Qed.

(** test_ffi_hybrid_header passes exactly when the header has room in the buffer of the test. *)
Theorem C134_direct_test mb : meta_to_bytes S kept = Ok mb ->
  (passes direct <-> 408 + N.of_nat (nonce_length S) + blen mb + tag <= 4096).
Proof using BL HF shake_length SL SV SK tagged HP policy_reads attributes_reads FL Hy Hno Hf Hm Hu Had.
  intros Emb'. destruct test_header as (h & uk & ukb & mb' & Eh & Lk & Du & Eu & Db & Lu & Nu & Dh & Lh & Nh & Emb & L).
  rewrite Emb in Emb'. apply Ok_inj in Emb'. subst mb'.
  destruct public_bytes as (pkb & Epk & Dpk & Lpk & Npk). pose proof (fl_pub _ _ _ _ _ _ _ _ _ _ _ FL) as Dp.
  destruct policy_reads as [Rp Np]. destruct attributes_reads as [Ra Na].
  destruct (c_string_made _ Np) as (cp & Ecp). destruct (c_string_made _ Na) as (ca & Eca).
  pose proof (c_string_spells _ _ Np Ecp) as Sp. pose proof (c_string_spells _ _ Na Eca) as Sa.
  rewrite <- L. unfold ffi_hybrid_header, test_encrypt_header. rewrite Dp. cbn [bind]. rewrite Ecp. cbn [bind]. rewrite Epk. cbn [bind].
  change file_attrs with fin_top. rewrite Eca. cbn [bind the_additional_data additional_data uid].
  set (f := raw_encrypt_header P F shake S policy_from attributes_from (Some cp) (pointed pkb) (Some ca) (pointed u) (pointed ad) random s nonce).
  assert (Q : encrypt_protocol (eh_key h) (eh_bytes h) f).
  { assert (Q : encrypt_protocol (eh_key h) (eh_bytes h) (h_aes_encrypt_header P F shake S policy_from attributes_from (Some (policy_json p)) (Some pkb) (Some (attributes_json fin_top)) (Some u) (Some ad) random s nonce)).
    { apply (C54_encrypt_header B P HP F shake S policy_from attributes_from (policy_json p) p pkb (pub_key mk) (attributes_json fin_top) fin_top); try assumption.
      - rewrite meta_kept. exact Eh.
      - unfold blen. rewrite Lk. reflexivity. }
    assert (R : forall outs, f outs = h_aes_encrypt_header P F shake S policy_from attributes_from (Some (policy_json p)) (Some pkb) (Some (attributes_json fin_top)) (Some u) (Some ad) random s nonce outs).
    { intros outs. apply (C95_encrypt_header P HP F shake S policy_from attributes_from outs (Some cp) (pointed pkb) (Some ca) (pointed u) (pointed ad)
        (Some (policy_json p)) (Some pkb) (Some (attributes_json fin_top)) (Some u) (Some ad) random s nonce (fun _ => None) 0%Z);
      first [assumption|apply pointed_stands; lia|apply pointed_int; lia]. }
    intros ok oh H1 H2. rewrite R. exact (Q ok oh H1 H2). }
  destruct (header_written h f Q Lk Lh) as [W1 W2]. split.
  - intros Hp. destruct (N.le_gt_cases (blen (eh_bytes h)) 4096) as [H|H]; [exact H|]. destruct (W2 H) as (e & E). rewrite E in Hp. destruct Hp.
  - intros H. destruct (W1 H) as (outs & E & Er). rewrite E. cbn [bind]. rewrite Er. cbn [bind].
    unfold test_decrypt_header. rewrite Du. cbn [bind]. rewrite Eu. cbn [bind].
    set (g := raw_decrypt_header P F shake S (pointed (eh_bytes h)) (pointed ukb)).
    assert (Qg : decrypt_protocol (mkClearHeader (eh_key h) kept) g).
    { assert (Qg : decrypt_protocol (mkClearHeader (eh_key h) kept) (h_aes_decrypt_header P F shake S (Some (eh_bytes h)) (Some ukb))).
      { apply (C54_decrypt_header B P HP F shake S (eh_bytes h) ukb uk); try assumption. cbn [ch_key]. unfold blen. rewrite Lk. reflexivity. }
      assert (R : forall outs, g outs = h_aes_decrypt_header P F shake S (Some (eh_bytes h)) (Some ukb) outs).
      { intros o. apply (C95_decrypt_header P HP F shake S o (pointed (eh_bytes h)) (pointed ukb) (Some (eh_bytes h)) (Some ukb) (fun _ => None) 0%Z);
        first [apply pointed_stands; lia|apply pointed_int; lia]. }
      intros ok ou oa H1 H2 H3. rewrite R. exact (Qg ok ou oa H1 H2 H3). }
    destruct (clear_written (eh_key h) g Qg Lk) as (outs' & E' & Er'). rewrite E'. cbn [bind]. rewrite Er'. cbn [bind passes]. unfold same_clear. cbn [ch_key ch_meta uid additional_data]. auto.
Qed.

(** What the process did with the caches up to the end of the call of thread [t] that
    looked up [h]: the handle is the one that a creation of the same thread gave for [c],
    and nobody destroyed it. *)
Definition held_handle {V} (t : nat) (c : V) (h : Z) (found : option V) : Prop := exists a b st,
  run (a ++ CallUse t h :: b ++ [RetUse t h found]) st /\ few (a ++ CallUse t h :: b ++ [RetUse t h found]) /\ no_call b t /\
  In (RetCreate t c h) a /\ ~ destroy_called (a ++ CallUse t h :: b) h.
Lemma held_found {V} t (c : V) h found : held_handle t c h found -> found = Some c.
Proof using Type. intros (a & b & st & R & Fw & Nc & I & D). exact (C50_live_handle a b t t h c found st R Fw Nc I D). Qed.

(** test_ffi_hybrid_header_using_cache, whatever other threads do with the caches. *)
Theorem C134_cached_test mb t eh dh efound dfound : meta_to_bytes S kept = Ok mb ->
  (forall c, test_encryption_cache P F policy_from policy_json pub_file p = Ok c -> held_handle t c eh efound) ->
  (forall c, test_decryption_cache P F user_file = Ok c -> held_handle t c dh dfound) ->
  (passes (ffi_hybrid_header_cached P F shake S policy_from attributes_from policy_json attributes_json pub_file user_file p random s nonce eh dh efound dfound (mkMeta u (Some ad)))
   <-> 408 + N.of_nat (nonce_length S) + blen mb + tag <= 4096).
Proof using BL HF shake_length SL SV SK tagged HP policy_reads attributes_reads FL Hy Hno Hf Hm Hu Had.
  intros Emb' He Hd. destruct test_header as (h & uk & ukb & mb' & Eh & Lk & Du & Eu & Db & Lu & Nu & Dh & Lh & Nh & Emb & L).
  rewrite Emb in Emb'. apply Ok_inj in Emb'. subst mb'.
  destruct public_bytes as (pkb & Epk & Dpk & Lpk & Npk). pose proof (fl_pub _ _ _ _ _ _ _ _ _ _ _ FL) as Dp.
  destruct policy_reads as [Rp Np]. destruct attributes_reads as [Ra Na].
  destruct (c_string_made _ Np) as (cp & Ecp). destruct (c_string_made _ Na) as (ca & Eca).
  pose proof (c_string_spells _ _ Np Ecp) as Sp. pose proof (c_string_spells _ _ Na Eca) as Sa.
  assert (Ee : test_encryption_cache P F policy_from policy_json pub_file p = Ok (p, pub_key mk)).
  { unfold test_encryption_cache. rewrite Dp. cbn [bind]. rewrite Ecp. cbn [bind]. rewrite Epk. cbn [bind].
    assert (R : raw_create_encryption_cache P F policy_from false (Some cp) (pointed pkb) [] = encryption_cache_of P F policy_from (Some (policy_json p)) (Some pkb) []).
    { apply (C95_encrypt_header P HP F shake S policy_from attributes_from [] (Some cp) (pointed pkb) (Some ca) (pointed u) (pointed ad)
        (Some (policy_json p)) (Some pkb) (Some (attributes_json fin_top)) (Some u) (Some ad) random s nonce (fun _ => None) 0%Z);
      first [assumption|apply pointed_stands; lia|apply pointed_int; lia]. }
    rewrite R. unfold encryption_cache_of, andthen. cbn [not_null ret]. rewrite input_go by exact Npk. unfold unwrap, ret. rewrite Rp, Dpk. reflexivity. }
  assert (Ed : test_decryption_cache P F user_file = Ok uk).
  { unfold test_decryption_cache. rewrite Du. cbn [bind]. rewrite Eu. cbn [bind].
    assert (R : raw_create_decryption_cache P F false (pointed ukb) [] = decryption_cache_of P F (Some ukb) []).
    { apply (C95_decrypt_header P HP F shake S [] (pointed (eh_bytes h)) (pointed ukb) (Some (eh_bytes h)) (Some ukb) (fun _ => None) 0%Z);
      first [apply pointed_stands; lia|apply pointed_int; lia]. }
    rewrite R. unfold decryption_cache_of, andthen. rewrite input_go by exact Nu. unfold unwrap. rewrite Db. reflexivity. }
  pose proof (held_found _ _ _ _ (He _ Ee)) as ->. pose proof (held_found _ _ _ _ (Hd _ Ed)) as ->.
  rewrite <- L. unfold ffi_hybrid_header_cached, test_encrypt_header_cached. rewrite Ee. cbn [bind].
  change file_attrs with fin_top. rewrite Eca. cbn [bind the_additional_data additional_data uid].
  set (f := raw_encrypt_header_using_cache P F shake S attributes_from _ eh (Some ca) (pointed u) (pointed ad) random s nonce).
  assert (Q : encrypt_protocol (eh_key h) (eh_bytes h) f).
  { assert (Q : encrypt_protocol (eh_key h) (eh_bytes h) (h_aes_encrypt_header P F shake S policy_from attributes_from (Some (policy_json p)) (Some pkb) (Some (attributes_json fin_top)) (Some u) (Some ad) random s nonce)).
    { apply (C54_encrypt_header B P HP F shake S policy_from attributes_from (policy_json p) p pkb (pub_key mk) (attributes_json fin_top) fin_top); try assumption.
      - rewrite meta_kept. exact Eh.
      - unfold blen. rewrite Lk. reflexivity. }
    assert (R : forall outs, f outs = h_aes_encrypt_header P F shake S policy_from attributes_from (Some (policy_json p)) (Some pkb) (Some (attributes_json fin_top)) (Some u) (Some ad) random s nonce outs).
    { intros outs. destruct (He _ Ee) as (a & b & st & Run & Fw & Nc & I & D).
      rewrite <- (C52_concurrent_encryption P F shake S policy_from attributes_from (Some (policy_json p)) (Some pkb) p (pub_key mk) [] [] a b t t eh _ st
        (Some (attributes_json fin_top)) (Some u) (Some ad) random s nonce outs Run Fw Nc I D).
      - apply (C95_encrypt_header P HP F shake S policy_from attributes_from outs (Some cp) (pointed pkb) (Some ca) (pointed u) (pointed ad)
          (Some (policy_json p)) (Some pkb) (Some (attributes_json fin_top)) (Some u) (Some ad) random s nonce (fun _ => Some (p, pub_key mk)) eh);
        first [assumption|apply pointed_stands; lia|apply pointed_int; lia].
      - unfold encryption_cache_of, andthen. cbn [not_null ret]. rewrite input_go by exact Npk. unfold unwrap, ret. rewrite Rp, Dpk. reflexivity. }
    intros ok oh H1 H2. rewrite R. exact (Q ok oh H1 H2). }
  destruct (header_written h f Q Lk Lh) as [W1 W2]. split.
  - intros Hp. destruct (N.le_gt_cases (blen (eh_bytes h)) 4096) as [H|H]; [exact H|]. destruct (W2 H) as (e & E). rewrite E in Hp. destruct Hp.
  - intros H. destruct (W1 H) as (outs & E & Er). rewrite E. cbn [bind]. rewrite Er. cbn [bind].
    unfold test_decrypt_header_cached. rewrite Ed. cbn [bind].
    set (g := raw_decrypt_header_using_cache P F shake S _ dh (pointed (eh_bytes h))).
    assert (Qg : decrypt_protocol (mkClearHeader (eh_key h) kept) g).
    { assert (Qg : decrypt_protocol (mkClearHeader (eh_key h) kept) (h_aes_decrypt_header P F shake S (Some (eh_bytes h)) (Some ukb))).
      { apply (C54_decrypt_header B P HP F shake S (eh_bytes h) ukb uk); try assumption. cbn [ch_key]. unfold blen. rewrite Lk. reflexivity. }
      assert (R : forall outs, g outs = h_aes_decrypt_header P F shake S (Some (eh_bytes h)) (Some ukb) outs).
      { intros o. destruct (Hd _ Ed) as (a & b & st & Run & Fw & Nc & I & D).
        rewrite <- (C52_concurrent_decryption P F shake S (Some ukb) uk [] [] a b t t dh _ st (Some (eh_bytes h)) o Run Fw Nc I D).
        - apply (C95_decrypt_header P HP F shake S o (pointed (eh_bytes h)) (pointed ukb) (Some (eh_bytes h)) (Some ukb) (fun _ => Some uk) dh);
          first [apply pointed_stands; lia|apply pointed_int; lia].
        - unfold decryption_cache_of, andthen. rewrite input_go by exact Nu. unfold unwrap. rewrite Db. reflexivity. }
      intros ok ou oa H1 H2 H3. rewrite R. exact (Qg ok ou oa H1 H2 H3). }
    destruct (clear_written (eh_key h) g Qg Lk) as (outs' & E' & Er'). rewrite E'. cbn [bind]. rewrite Er'. cbn [bind passes]. unfold same_clear. cbn [ch_key ch_meta uid additional_data]. auto.
Qed.
End Tests.

(** ** Examples *)
(** A process in which one thread makes a cache and looks it up, while another thread makes
    and destroys one of its own. *)
Lemma process {V} (v w : V) : exists a b st, run (a ++ CallUse 0 0%Z :: b ++ [RetUse 0 0%Z (Some v)]) st /\
  few (a ++ CallUse 0 0%Z :: b ++ [RetUse 0 0%Z (Some v)]) /\ no_call b 0 /\ In (RetCreate 0 v 0%Z) a /\ ~ destroy_called (a ++ CallUse 0 0%Z :: b) 0%Z /\
  In (RetCreate 1 w 1%Z) a /\ In (CallDestroy 1 1%Z) b.
Proof.
  pose proof (@run_start V) as R0.
  fwdv R0 @s_fetch 0%nat v R1. fwdv R1 @s_fetch 1%nat w R2. fwd R2 @s_lock_insert 1%nat R3. fwd R3 @s_insert 1%nat R4. fwd R4 @s_created 1%nat R5.
  fwd R5 @s_lock_insert 0%nat R6. fwd R6 @s_insert 0%nat R7. fwd R7 @s_created 0%nat R8.
  fwdv R8 @s_use 0%nat 0%Z R9. fwdv R9 @s_destroy 1%nat 1%Z R10. fwd R10 @s_lock_remove 1%nat R11. fwd R11 @s_remove 1%nat R12. fwd R12 @s_destroyed 1%nat R13.
  fwd R13 @s_lock_read 0%nat R14. fwd R14 @s_get 0%nat R15. fwd R15 @s_used 0%nat R16.
  exists [CallCreate 0 v; CallCreate 1 w; RetCreate 1 w 1%Z; RetCreate 0 v 0%Z], [CallDestroy 1 1%Z; RetDestroy 1 1%Z]. eexists.
  split; [exact R16|]. split; [cbv; discriminate|]. split; [intros e [<-|[<-|[]]]; [discriminate|exact Logic.I]|]. split; [cbn; tauto|]. split; [|cbn; tauto].
  intros (t & Q). cbn in Q. decompose [or] Q; try discriminate; contradiction.
Qed.

Definition wide_uid : list byte := repeat x2a 3600.
Definition direct_test pub user m : test := ffi_hybrid_header release32 toy_forms toy_shake toy_sym file_from (fun _ => Ok fin_top) (fun _ => [x01]) (fun _ => [x02]) pub user file_state ex_msg ex_s ex_nonce m.
Definition cached_test pub user efound dfound m : test :=
  ffi_hybrid_header_cached release32 toy_forms toy_shake toy_sym file_from (fun _ => Ok fin_top) (fun _ => [x01]) (fun _ => [x02]) pub user file_state ex_msg ex_s ex_nonce 0 0 efound dfound m.
(** Both tests pass with their metadata, the second beside another thread, and the test with a uid
    of 3600 bytes and 200 bytes of additional data, which have room in the buffers, does not: the header has none. *)
Example C134_example : exists pub user efound dfound, passes (direct_test pub user test_meta) /\ passes (cached_test pub user efound dfound test_meta) /\
  ~ passes (direct_test pub user (mkMeta wide_uid (Some (repeat x2b 200)))).
Proof.
  destruct files_made as (mk & pub & b & FL & Hpu & Hb).
  assert (Tg : forall k m no c, sym_encrypt toy_sym k m no None = Ok c -> blen c = blen m + 1).
  { intros kk m no c E. cbn [sym_encrypt toy_sym] in E. unfold toy_encrypt in E. apply Ok_inj in E. subst c. unfold blen. cbn [length]. lia. }
  pose proof (C134_direct_test toy toy_laws toy_forms (fun _ => True) toy_forms_ok toy_shake toy_shake_length toy_sym short_meta toy_short_laws toy_serves eq_refl 1 Tg release32 ltac:(cbn; lia)
    file_from (fun _ => Ok fin_top) (fun _ => [x01]) (fun _ => [x02]) 20 file_ops demo_mdraw mk 2 file_state pub b) as D.
  assert (N1 : ~ In x00 [x01]) by (intros [Q|[]]; discriminate). assert (N2 : ~ In x00 [x02]) by (intros [Q|[]]; discriminate).
  specialize (D (conj eq_refl N1) (conj eq_refl N2) FL Logic.I ex_msg ex_s ex_nonce eq_refl (fun _ _ => Logic.I)).
  pose proof (C134_cached_test toy toy_laws toy_forms (fun _ => True) toy_forms_ok toy_shake toy_shake_length toy_sym short_meta toy_short_laws toy_serves eq_refl 1 Tg release32 ltac:(cbn; lia)
    file_from (fun _ => Ok fin_top) (fun _ => [x01]) (fun _ => [x02]) 20 file_ops demo_mdraw mk 2 file_state pub b
    (conj eq_refl N1) (conj eq_refl N2) FL Logic.I ex_msg ex_s ex_nonce eq_refl (fun _ _ => Logic.I)) as C.
  set (tu := [x01; x02; x03; x04; x05; x06; x07; x08; x09]) in *. set (ta := [x0a; x0b; x0c; x0d; x0e]) in *.
  assert (M1 : short_meta (kept tu ta)) by (split; [discriminate|split; vm]).
  assert (M2 : short_meta (kept wide_uid (repeat x2b 200))) by (split; [discriminate|split; vm]).
  destruct (sv_meta _ _ toy_serves _ M1) as (m1 & E1 & _). destruct (sv_meta _ _ toy_serves _ M2) as (m2 & E2 & _).
  assert (L1 : blen m1 = 18).
  { assert (Q : (let* b := meta_to_bytes toy_sym (kept tu ta) in Ok (blen b)) = Ok 18) by vm. rewrite E1 in Q. apply Ok_inj in Q. exact Q. }
  assert (L2 : blen m2 = 3804).
  { assert (Q : (let* b := meta_to_bytes toy_sym (kept wide_uid (repeat x2b 200)) in Ok (blen b)) = Ok 3804) by vm. rewrite E2 in Q. apply Ok_inj in Q. exact Q. }
  exists pub, b. pose (ec := test_encryption_cache release32 toy_forms file_from (fun _ => [x01]) pub file_state). pose (dc := test_decryption_cache release32 toy_forms b).
  exists (match ec with Ok c => Some c | _ => None end), (match dc with Ok c => Some c | _ => None end). split; [|split].
  - apply (D tu ta M1 ltac:(vm_compute; discriminate) ltac:(vm_compute; discriminate) m1 E1). rewrite L1. vm_compute. discriminate.
  - apply (C tu ta M1 ltac:(vm_compute; discriminate) ltac:(vm_compute; discriminate) m1 0%nat 0%Z 0%Z _ _ E1).
    + intros c Ec. fold ec in Ec. rewrite Ec. destruct (process c c) as (a & l & st & R & Fw & Nc & I & Nd & _). exists a, l, st. exact (conj R (conj Fw (conj Nc (conj I Nd)))).
    + intros c Ec. fold dc in Ec. rewrite Ec. destruct (process c c) as (a & l & st & R & Fw & Nc & I & Nd & _). exists a, l, st. exact (conj R (conj Fw (conj Nc (conj I Nd)))).
    + rewrite L1. vm_compute. discriminate.
  - intros Q. apply (D wide_uid (repeat x2b 200) M2 ltac:(vm_compute; discriminate) ltac:(vm_compute; discriminate) m2 E2) in Q. rewrite L2 in Q. vm_compute in Q. apply Q. reflexivity.
Qed.

Print Assumptions C134_direct_test.
Print Assumptions C134_cached_test.
