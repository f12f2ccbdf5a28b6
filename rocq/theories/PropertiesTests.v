(** The randomised tests of the repository pass whatever is drawn: C133. *)
From Coq Require Import String NArith ZArith Bool Arith Lia Strings.Byte List.
From Verif Require SchemeProofs PropertiesSizes.
From Verif Require Import Prelude Field LinAlg Msp Spec MspProofs Bilinear Scheme SchemeSpec SchemeTheorems
  Zp ExpModel PropertiesScheme Parser ParserSpec Codec CodecProofs SchemeCodec SchemeCodecProofs PropertiesCodec
  Policy PolicySpec PolicyProofs Engine EngineSpec EngineProofs PropertiesEngine Hybrid HybridSpec PropertiesHybrid PropertiesVersions
  Properties32 Ffi FfiSpec PropertiesFfi PropertiesFfiBlocks Python PropertiesPython Wasm PropertiesWasm PropertiesTogether
  HistorySpec PropertiesHistory PropertiesWorking Demo PropertiesDemo PropertiesLive PropertiesLiveAll PropertiesLiveMore TestPrograms.
Import ListNotations.
Local Open Scope N_scope.

Local Ltac vm := vm_compute; reflexivity.

Section Core.
Variable B : BilinearMap.
Hypothesis BL : BilinearLaws B.
Local Notation K := (bm_K B).
Variable P : platform.
Variables (mdraw : nat -> K) (draw : nat -> nat -> K) (s : K).
Hypothesis Hd : forall i, (i < 10)%nat -> mdraw i <> f0.

(** what a key of a formula over the attributes 0 to 9 does with a ciphertext *)
Lemma runs f msg gam j : NoDup (leaves f) -> (forall a, In a (leaves f) -> a < 10) -> (forall a, In a gam -> a < 10) -> (length gam < 10)%nat ->
  exists mk m uk ct, generate_master_key 10 mdraw = Ok mk /\ to_msp P f = Ok m /\ key_generation m (priv_key mk) (draw j) = Ok uk /\
    encrypt P msg gam (pub_key mk) s = Ok ct /\ (holds (attrs gam) f -> decrypt ct uk = Ok (Some msg)) /\
    (~ holds (attrs gam) f -> shares_attr f gam -> decrypt ct uk = Ok None).
Proof using BL Hd.
  intros H1 H2 H3 H4.
  destruct (C01_pipeline B BL P 10 mdraw (draw j) f msg gam s Hd H1) as (mk & m & uk & ct & E1 & E2 & E3 & E4 & Ho).
  { intros a Ha. specialize (H2 a Ha). lia. } { intros a Ha. specialize (H3 a Ha). lia. } { exact H4. }
  exists mk, m, uk, ct. do 4 (split; [assumption|]). split; [exact Ho|].
  intros Hn. exact (proj1 (C02_unauthorised_never_decrypts B BL P 10 mdraw mk f m (draw j) uk msg gam s ct E1 E2 E3 E4 Hn)).
Qed.

Local Ltac small := cbn; intros ? H; repeat (destruct H as [<-|H]; [lia|]); contradiction H.
Local Ltac nodup := cbn; repeat constructor; cbn; intuition discriminate.

(** gpsw_tests.rs: the two tests that decrypt *)
Theorem C133_decrypting_tests msg : msg_to_gt B (list_byte_of_string "test") = Ok msg ->
  passes (encrypt_decrypt P mdraw draw s) /\ passes (multiple_key_pair P mdraw draw s).
Proof using BL Hd.
  intros Em. split.
  - destruct (runs test_formula msg [1; 4] 0) as (mk & m & uk & ct & E1 & E2 & E3 & E4 & Ho & _); [nodup|small|small|cbn; lia|].
    unfold encrypt_decrypt, msg_encode, test_bytes. rewrite E2. cbn [bind]. rewrite E1. cbn [bind]. rewrite E3. cbn [bind]. rewrite Em. cbn [bind]. rewrite E4. cbn [bind].
    rewrite Ho by (cbn; unfold attrs; cbn; auto). cbn [bind expect passes]. reflexivity.
  - destruct (runs (Or (Leaf 1) (Leaf 2)) msg [1; 2] 0) as (mk & m1 & uk1 & ct & E1 & M1 & K1 & E4 & O1 & _); [nodup|small|small|cbn; lia|].
    destruct (runs (And (Leaf 1) (Leaf 2)) msg [1; 2] 1) as (mk' & m2 & uk2 & ct' & E1' & M2 & K2 & E4' & O2 & _); [nodup|small|small|cbn; lia|].
    rewrite E1 in E1'. apply Ok_inj in E1'. subst mk'. rewrite E4 in E4'. apply Ok_inj in E4'. subst ct'.
    destruct (runs (Leaf 1) msg [1; 2] 2) as (mk' & m3 & uk3 & ct' & E1' & M3 & K3 & E4' & O3 & _); [nodup|small|small|cbn; lia|].
    rewrite E1 in E1'. apply Ok_inj in E1'. subst mk'. rewrite E4 in E4'. apply Ok_inj in E4'. subst ct'.
    destruct (runs (And (Leaf 1) (Leaf 3)) msg [1; 2] 3) as (mk' & m4 & uk4 & ct' & E1' & M4 & K4 & E4' & _ & O4); [nodup|small|small|cbn; lia|].
    rewrite E1 in E1'. apply Ok_inj in E1'. subst mk'. rewrite E4 in E4'. apply Ok_inj in E4'. subst ct'.
    destruct (runs (Or (Leaf 1) (Leaf 3)) msg [1; 2] 4) as (mk' & m5 & uk5 & ct' & E1' & M5 & K5 & E4' & O5 & _); [nodup|small|small|cbn; lia|].
    rewrite E1 in E1'. apply Ok_inj in E1'. subst mk'. rewrite E4 in E4'. apply Ok_inj in E4'. subst ct'.
    unfold multiple_key_pair, msg_encode, test_bytes.
    replace (parse P (codes "1 | 2")) with (@Ok node (Or (Leaf 1) (Leaf 2))) by vm.
    replace (parse P (codes "1 & 2")) with (@Ok node (And (Leaf 1) (Leaf 2))) by vm.
    replace (parse P (codes "1")) with (@Ok node (Leaf 1)) by vm.
    replace (parse P (codes "1 & 3")) with (@Ok node (And (Leaf 1) (Leaf 3))) by vm.
    replace (parse P (codes "1 | 3")) with (@Ok node (Or (Leaf 1) (Leaf 3))) by vm.
    cbn [bind]. rewrite M1, M2, M3, M4, M5. cbn [bind]. rewrite E1. cbn [bind]. rewrite K1, K2, K3, K4, K5. cbn [bind]. rewrite Em. cbn [bind]. rewrite E4. cbn [bind].
    rewrite O1, O2, O3, O4, O5; cbn [bind expect passes]; [tauto| | | | | |]; unfold attrs, shares_attr; cbn; auto.
    + intuition discriminate.
    + exists 1. cbn. auto.
Qed.

Variable F : byte_forms B.
Variable fine : Gt B -> Prop.
Hypothesis HF : forms_ok F fine.
Hypothesis HP : 32 <= usize_bits P.

(** gpsw_tests.rs: the five tests that write a value and read it back. What is asked of
    the elements of the last group is that their bytes can be read back. *)
Theorem C133_encoding_tests msg : msg_to_gt B (list_byte_of_string "test") = Ok msg ->
  (forall mk, generate_master_key 10 mdraw = Ok mk -> fine (pub_y (pub_key mk)) /\
     forall ct, encrypt P msg [1; 4] (pub_key mk) s = Ok ct -> fine (e_prime ct)) ->
  passes (user_key_as_bytes P F mdraw draw) /\ passes (ciphertext_as_bytes P F mdraw s) /\ passes (master_public_key_as_bytes P F mdraw) /\
  passes (master_private_key_as_bytes P F mdraw) /\ passes (delegation_key_as_bytes P F mdraw).
Proof using BL Hd HF HP.
  intros Em Hf. destruct (runs test_formula msg [1; 4] 0) as (mk & m & uk & ct & E1 & E2 & E3 & E4 & _); [nodup|small|small|cbn; lia|].
  destruct (Hf mk E1) as [Hy Hc]. specialize (Hc ct E4).
  destruct (generate_master_key_inv B BL _ _ _ E1) as (t & y & Q & Ht & _).
  assert (L1 : length (priv_t (priv_key mk)) = 10%nat) by (rewrite Q; exact Ht).
  assert (L2 : length (pub_t (pub_key mk)) = 10%nat) by (rewrite Q; cbn; unfold SchemeProofs.pub_of; rewrite map_length; exact Ht).
  assert (L3 : length (inv_t (del_key mk)) = 10%nat) by (rewrite Q; cbn; unfold SchemeProofs.inv_of; rewrite !map_length; exact Ht).
  destruct (C16_private_key_roundtrip B F fine HF pf (priv_key mk)) as (b1 & W1 & _ & _); [cbn; lia|lia|lia|].
  destruct (C17_public_key_roundtrip B F fine HF pf (pub_key mk)) as (b2 & W2 & _ & _); [cbn; lia|lia|lia|exact Hy|].
  destruct (C17_delegation_key_roundtrip B F fine HF pf (del_key mk)) as (b3 & W3 & _ & _); [cbn; lia|lia|lia|].
  destruct (masters_decode B BL F fine HF P 10 (new_policy 10) mdraw mk b1 b2 HP eq_refl ltac:(lia) E1 Hy W1 W2) as (D1 & D2 & D3).
  split; [|split; [|split; [|split]]].
  - unfold user_key_as_bytes. rewrite E2. cbn [bind]. rewrite E1. cbn [bind]. rewrite E3. cbn [bind].
    destruct (C76_user_key B BL F fine HF P 10 mdraw mk test_formula uk [] HP E1) as (b & Eb & _ & Db).
    { apply ob_gen with m (draw 0%nat); assumption. }
    { cbn. intros a Ha. repeat (destruct Ha as [<-|Ha]; [lia|]). contradiction. } { cbn. lia. }
    { apply (small_fits P HP). pose proof (fo_g3_mem _ _ HF). cbn [leaves test_formula app length]. lia. }
    { apply (small_fits P HP). vm_compute. reflexivity. }
    rewrite Eb. cbn [bind]. rewrite app_nil_r in Db. rewrite Db. cbn [bind passes]. auto.
  - unfold ciphertext_as_bytes, msg_encode, test_bytes. rewrite E2. cbn [bind]. rewrite E1. cbn [bind]. rewrite Em. cbn [bind]. rewrite E4. cbn [bind].
    destruct (C19_ciphertext_roundtrip B F fine HF pf msg [1; 4] (pub_key mk) s ct) as (b & Eb & Lb & _); [cbn; lia|exact (encrypt_any B P pf _ _ _ _ _ E4)|discriminate|cbn; lia|small|exact Hc|].
    rewrite Eb. cbn [bind].
    assert (Db : ct_dec F P (b ++ []) = Ok ct).
    { apply (C76_ciphertext B F fine HF P msg [1; 4] (pub_key mk) s ct b [] HP E4); [discriminate|cbn; lia|small|exact Hc| |exact Eb|].
      - apply (small_fits P HP). pose proof (fo_g2_mem _ _ HF). cbn [length]. lia.
      - apply (small_fits P HP). rewrite app_nil_r.
        rewrite (C21_announced_length B F fine HF P msg [1; 4] (pub_key mk) s ct b E4); [vm_compute; reflexivity|cbn; lia|exact Eb|discriminate]. }
    rewrite app_nil_r in Db. rewrite Db. cbn [bind passes]. auto.
  - unfold master_public_key_as_bytes. rewrite E2. cbn [bind]. rewrite E1. cbn [bind]. rewrite W2. cbn [bind]. rewrite D2. cbn [bind passes]. auto.
  - unfold master_private_key_as_bytes. rewrite E1. cbn [bind]. rewrite W1. cbn [bind]. rewrite D1. cbn [bind passes]. auto.
  - unfold delegation_key_as_bytes. rewrite E1. cbn [bind]. rewrite W3. cbn [bind]. rewrite (D3 b3 W3). cbn [bind passes]. auto.
Qed.
End Core.

(** engine_tests.rs: the access policy of the text of complex_access_policy_test, the
    countries grouped from the left or from the right *)
Definition country (c : string) : access_policy := AAttr ("Country"%string, c).
Inductive six_countries : access_policy -> Prop :=
| six_left : six_countries (AOr (AOr (AOr (AOr (AOr (country "France") (country "Germany")) (country "Italy")) (country "Hungary")) (country "Spain")) (country "Belgium"))
| six_right : six_countries (AOr (country "France") (AOr (country "Germany") (AOr (country "Italy") (AOr (country "Hungary") (AOr (country "Spain") (country "Belgium")))))).
Definition bank_ops : list op :=
  [AddAxis "Entity" ["BCEF"; "BNPPF"; "CIB"; "CashMgt"] false; AddAxis "Country" ["France"; "Germany"; "Italy"; "Hungary"; "Spain"; "Belgium"] false]%string.
Definition bank_policy : policy := Eval vm_compute in match run_ops bank_ops (new_policy 100) with Ok p => p | _ => new_policy 0 end.

Theorem C133_engine_test B (BL : BilinearLaws B) P (mdraw : nat -> bm_K B) draw (s : bm_K B) it d msg :
  (forall i, (i < 100)%nat -> mdraw i <> f0) -> (forall i, iteration_ok (it i)) -> six_countries d ->
  passes (complex_access_policy P mdraw draw s it (AAnd (AAttr ("Entity", "BNPPF")%string) d) msg).
Proof.
  intros Hd Hit Hsix. set (ap := AAnd _ d). set (l := [("Entity", "BNPPF"); ("Country", "France")]%string).
  assert (Hp : run_ops bank_ops (new_policy 100) = Ok bank_policy) by vm.
  assert (Hprop : proper_axes bank_ops).
  { intros x names h [Q|[Q|[]]]; injection Q as <- <- <-; repeat constructor; cbn; intuition discriminate. }
  assert (X : forallb (fun a => on (covered bank_ops a) a) (mentioned ap) = true /\ ~ all_inside ap /\ apart bank_ops ap = true /\ grants bank_ops l ap = true).
  { destruct Hsix; (split; [vm|]); (split; [cbn; intuition discriminate|]); split; vm. }
  destruct X as (X1 & X2 & X3 & X4). rewrite forallb_forall in X1.
  assert (Hl : forall b, In b l -> declared bank_ops b).
  { intros b Hb. apply declared_spec. cbn in Hb. destruct Hb as [<-|[<-|[]]]; vm. }
  assert (Run : forall j it', iteration_ok it' -> exists mk uk ct, eng_master_key bank_policy mdraw = Ok mk /\ eng_user_key P it' bank_policy (priv_key mk) ap (draw j) = Ok uk /\
    eng_encrypt P bank_policy (pub_key mk) l msg s = Ok ct /\ eng_decrypt ct uk = Ok (Some msg)).
  { intros j it' Hj. destruct (C05_pipeline B BL P 100 bank_ops bank_policy mdraw (draw j) it' ap l msg s Hp Hprop) as (mk & uk & ct & E1 & E2 & E3).
    - reflexivity. - exact Hd. - exact Hj.
    - intros a Ha. apply declared_spec, X1, Ha.
    - exact X2. - apply apart_spec, X3. - discriminate. - exact Hl. - cbn. lia.
    - exists mk, uk, ct. do 3 (split; [assumption|]).
      assert (V : version 100 bank_ops 2 bank_policy) by (split; [cbn; lia|exact Hp]).
      destruct (C122_history B BL P 100 bank_ops bank_policy mdraw mk 2 ap uk 2 bank_policy l msg s ct Hprop E1) as [[_ D]|[Hs _]].
      + apply hk_gen with it' bank_policy (draw j); assumption.
      + exact V.
      + exact E3.
      + exact D.
      + exfalso. apply Hs. change (firstn 2 bank_ops) with bank_ops. change (between bank_ops 2 2) with (@nil op).
        apply (grants_spec bank_ops _ l ap); [|exact X4]. intros b. cbn. tauto. }
  destruct (Run 0%nat (it 1%nat) (Hit _)) as (mk & uk & ct & E1 & E2 & E3 & D). destruct (Run 1%nat (it 2%nat) (Hit _)) as (mk' & uk' & ct' & E1' & E2' & E3' & D').
  rewrite E1 in E1'. apply Ok_inj in E1'. subst mk'. rewrite E3 in E3'. apply Ok_inj in E3'. subst ct'.
  destruct (Run 0%nat (it 0%nat) (Hit _)) as (mk' & uk0 & ct' & E1' & E2'' & _). rewrite E1 in E1'. apply Ok_inj in E1'. subst mk'.
  assert (Hm : exists m, policy_to_msp (it 0%nat) P bank_policy ap = Ok m).
  { unfold eng_user_key in E2''. apply bind_ok in E2'' as (m & Em & _). exists m. exact Em. }
  destruct Hm as (m & Em).
  unfold complex_access_policy.
  assert (Q : (let* p := unwrapped (add_axis (new_policy 100) "Entity" entities false) in unwrapped (add_axis p "Country" countries false)) = Ok bank_policy) by vm.
  destruct (add_axis (new_policy 100) "Entity" entities false) as [p1| |]; try discriminate Q. cbn [unwrapped bind] in Q |- *. rewrite Q. cbn [bind].
  rewrite E1. cbn [unwrapped bind]. rewrite Em. cbn [unwrapped bind]. rewrite E2. cbn [unwrapped bind].
  assert (Bad : exists e, attributes_values bank_policy [("Bad_Entity", "BNPPF"); ("Country", "France")]%string = Err e) by (vm_compute; eexists; reflexivity).
  destruct Bad as (e & Bad). unfold eng_encrypt at 1. rewrite Bad.
  cbn [assert_err bind]. fold l. rewrite E3. cbn [unwrapped bind]. rewrite D. cbn [unwrapped bind expect]. rewrite E2'. cbn [unwrapped bind]. rewrite D'. cbn [unwrapped bind expect passes].
  split; reflexivity.
Qed.

Lemma split_small P key rest : 32 <= usize_bits P -> blen key < 2147483648 -> split_header P (be32 (blen key) ++ key ++ rest) = Ok (key, rest).
Proof.
  intros HP Lk. unfold split_header.
  assert (L : blen (be32 (blen key) ++ key ++ rest) = 4 + blen key + blen rest)
    by (rewrite !blen_app; unfold blen at 1; rewrite be32_length; lia).
  rewrite L. destruct (N.ltb_spec (4 + blen key + blen rest) 4) as [|_]; [lia|].
  rewrite firstn_be32, from_be_be32 by (unfold u32_modulus; lia).
  rewrite usize_add_exact. 2:{ unfold usize_modulus. eapply N.lt_le_trans; [|apply N.pow_le_mono_r; [lia|exact HP]]. change (2 ^ 32) with 4294967296. lia. }
  cbn [bind].
  destruct (N.leb_spec 4 (4 + blen key)) as [_|]; [|lia]. destruct (N.leb_spec (4 + blen key) (4 + blen key + blen rest)) as [_|]; [|lia].
  cbn [andb bind].
  change (blen (be32 (blen key) ++ key ++ rest)) with (N.of_nat (length (be32 (blen key) ++ key ++ rest))) in L.
  rewrite slice_fromN_ok by lia. cbn [bind].
  replace (4 + blen key - 4) with (blen key) by lia. unfold blen. rewrite Nat2N.id.
  change (skipn 4 (be32 (N.of_nat (length key)) ++ key ++ rest)) with (key ++ rest).
  rewrite firstn_app, firstn_all, Nat.sub_diag. cbn [firstn]. rewrite app_nil_r.
  replace (N.to_nat (4 + N.of_nat (length key))) with (length (be32 (N.of_nat (length key)) ++ key)) by (rewrite app_length, be32_length; lia).
  rewrite app_assoc, skipn_app, skipn_all, Nat.sub_diag. reflexivity.
Qed.

(** The tests that read keys from files. *)
Section Files.
Variable B : BilinearMap.
Hypothesis BL : BilinearLaws B.
Local Notation K := (bm_K B).
Variable F : byte_forms B.
Variable fine : Gt B -> Prop.
Hypothesis HF : forms_ok F fine.
Variable shake : list byte -> nat -> list byte.
Hypothesis shake_length : forall b n, length (shake b n) = n.
Variable S : sym_scheme.
Variable metas : metadata -> Prop.
Hypothesis SL : sym_laws S metas.
Hypothesis SV : serves S metas.
Hypothesis SK : key_length S = 32%nat.
Variable P : platform.
Hypothesis HP : 32 <= usize_bits P.
Variable policy_from : list byte -> outcome policy.
Variable attributes_parse : string -> outcome (list attribute).
Variable access_parse : string -> outcome access_policy.

(** FIN and Top Secret *)
Definition fin_top : list attribute := [("Department", "FIN"); ("Security Level", "Top Secret")]%string.

(** The files: a public key, and a key made for some access policy at some state of the
    policy that the two attributes satisfy, with neither rotated since. *)
Record files (n : N) (history : list op) (mdraw : nat -> K) (mk : master_key B) (k : nat) (p : policy) (pub_file user_file : list byte) : Prop := {
  fl_size : 2 < n <= 1024;
  fl_axes : proper_axes history;
  fl_drawn : forall i, (i < N.to_nat n)%nat -> mdraw i <> f0;
  fl_masters : eng_master_key (new_policy n) mdraw = Ok mk;
  fl_policy : version n history k p;
  fl_room : last_attribute_value p < n;
  fl_pub : pub_dec F P pub_file = Ok (pub_key mk);
  fl_declared : forall a, In a fin_top -> declared (firstn k history) a;
  fl_user : exists i ap uk, user_dec F P user_file = Ok uk /\ held_key P mk n history i ap uk /\
    satisfied (firstn i history) (fun a => In a fin_top /\ ~ In (Rotate a) (between history i k)) ap
}.

Section Tests.
Variables (n : N) (history : list op) (mdraw : nat -> K) (mk : master_key B) (k : nat) (p : policy) (pub_file user_file : list byte).
Hypothesis FL : files n history mdraw mk k p pub_file user_file.
Variables (random : Gt B) (s : K) (nonce nonce' : list byte).
Hypothesis Hno : length nonce = nonce_length S.
Hypothesis Hno' : length nonce' = nonce_length S.
Hypothesis Hf : forall ct, eng_encrypt P p (pub_key mk) fin_top random s = Ok ct -> fine (e_prime ct).

Lemma file_header m : metas m -> exists h uk,
  encrypt_hybrid_header S F shake P p (pub_key mk) fin_top (Some m) random s nonce = Ok h /\ length (eh_key h) = 32%nat /\ blen (eh_bytes h) < 2000000000 /\ 4 <= blen (eh_bytes h) /\
  user_dec F P user_file = Ok uk /\ (exists b, user_enc F P uk = Ok b) /\
  decrypt_hybrid_header S F shake P uk (eh_bytes h) = Ok (mkClearHeader (eh_key h) m) /\
  exists sk, generate_symmetric_key P F shake p (pub_key mk) fin_top 32 random s = Ok (eh_key h, sk) /\ decrypt_symmetric_key P F shake uk sk 32 = Ok (eh_key h).
Proof using BL HF shake_length SL SV SK HP FL Hno Hf.
  clear Hno'. intros Hm. destruct FL as [Hn Hprop Hdraw Hmk V Hlast Dp Hl (i & ap & uk & Du & Hk & Hs)].
  destruct (header_made B BL pf ltac:(cbn; lia) F fine HF shake shake_length S metas SV n history mdraw ltac:(lia) Hprop Hdraw (new_policy n) mk eq_refl Hmk
    k p fin_top m random s nonce V Hlast Hl ltac:(cbn; lia) ltac:(discriminate) Hm Hno) as (h & Eh & Lk & Lh).
  pose proof (header_any B F shake S pf P _ _ _ _ _ _ _ _ Eh) as Eh'. clear Eh.
  exists h, uk. split; [exact Eh'|]. split; [congruence|]. split; [exact Lh|].
  assert (Hmem : fits P (n * g2_mem B F)).
  { apply (small_fits P HP). pose proof (fo_g2_mem _ _ HF) as G. apply N.le_lt_trans with (n * 4096); [apply N.mul_le_mono_l; exact G|lia]. }
  assert (Hfit : fits P (blen (eh_bytes h))) by (apply (small_fits P HP); lia).
  assert (Hpk : length (pub_t (pub_key mk)) = N.to_nat n) by exact (pub_slots B BL _ _ _ _ (eq_refl : max_attribute_creations (new_policy n) = n) Hmk).
  destruct (header_opened32 B BL F fine HF shake S metas SL P n (firstn k history) p (pub_key mk) fin_top (Some m) random s nonce h HP ltac:(lia) Hmem (proj2 V) Hpk
    ltac:(discriminate) Hno ltac:(intros ? [= <-]; exact Hm) Eh' Hfit Hf) as (ct & Ect & Ho).
  assert (Hdec : eng_decrypt ct uk = Ok (Some random)).
  { destruct (C122_history B BL P n history (new_policy n) mdraw mk i ap uk k p fin_top random s ct Hprop Hmk Hk V Ect) as [[_ D]|[X _]]; [exact D|contradiction]. }
  destruct (header_layout B F shake S P p (pub_key mk) fin_top (Some m) random s nonce h Eh') as (sk & tail & Eg & _ & Ls & Eb & _).
  split; [rewrite Eb, blen_app; unfold blen at 1; rewrite be32_length; lia|]. split; [exact Du|]. split.
  { destruct (held_everywhere B BL F fine HF P n history mdraw ltac:(lia) Hprop (new_policy n) mk eq_refl Hmk i ap uk Hk) as (b & Hb). exists b. apply Hb, HP. }
  split; [exact (proj1 (Ho uk) Hdec)|]. rewrite SK in Eg. exists sk. split; [exact Eg|].
  assert (Lsk : blen sk < 2147483648) by (rewrite Eb, !blen_app in Lh; lia).
  destruct (symmetric_key_fits B F fine HF shake P n (firstn k history) p (pub_key mk) fin_top 32 random s (eh_key h) sk HP ltac:(lia) Hmem (proj2 V) Hpk
    ltac:(discriminate) Eg (small_fits P HP _ Lsk) Hf) as (ct' & Ect' & Dsk & r & Er & Ek).
  rewrite Ect in Ect'. apply Ok_inj in Ect'. subst ct'. unfold decrypt_symmetric_key. rewrite Dsk. cbn [bind]. rewrite Hdec. cbn [bind]. rewrite Er. cbn [bind]. congruence.
Qed.

(** engine_tests.rs, hybrid_crypto/tests/mod.rs and two of the tests of wasm_bindgen/tests.rs *)
Theorem C133_file_tests pol size : metas test_meta -> metas (mkMeta (js_uid size) None) -> size <> 0 -> pub_file <> [] -> user_file <> [] ->
  policy_from pol = Ok p -> pol <> [] -> attributes_parse "Department::FIN, Security Level::Top Secret" = Ok fin_top ->
  passes (symmetric_key_test P F shake pub_file user_file p random s) /\
  passes (aes_hybrid_encryption P F shake S pub_file user_file p random s nonce nonce') /\
  passes (wasm_decrypt_header P F shake S pub_file user_file p random s nonce attributes_parse) /\
  passes (wasm_encrypt_header P F shake S pub_file user_file random s nonce policy_from attributes_parse size pol).
Proof using BL HF shake_length SL SV SK HP FL Hno Hno' Hf.
  intros Hm Hm' Hsize Hpub Huser Ep Hpol Ea.
  destruct (file_header test_meta Hm) as (h & uk & Eh & Lk & Lh & Lh4 & Du & (ub & Eu) & Dh & sk & Eg & Dg).
  pose proof (fl_pub _ _ _ _ _ _ _ _ FL) as Dp.
  split; [|split; [|split]].
  - unfold symmetric_key_test. rewrite Dp. cbn [unwrapped bind]. rewrite Du. cbn [unwrapped bind]. fold fin_top. change file_attrs with fin_top. rewrite Eg. cbn [unwrapped bind].
    rewrite Dg. cbn [unwrapped bind passes]. auto.
  - unfold aes_hybrid_encryption. rewrite Dp. cbn [bind]. change file_attrs with fin_top. rewrite Eh. cbn [bind].
    set (clear := [x01; x02; x03; x04; x05; x06; x07; x08; x09]).
    destruct (sv_block S metas SV (eh_key h) (uid test_meta) 0 nonce' clear) as (c & Ec); [congruence|exact Hno'|vm_compute; discriminate|].
    assert (Eb : encrypt_hybrid_block S 1073741824 (eh_key h) (uid test_meta) 0 nonce' clear = Ok c) by (unfold encrypt_hybrid_block; exact Ec).
    rewrite Eb. cbn [bind]. rewrite Du. cbn [bind]. rewrite Eu. cbn [bind]. rewrite Dh. cbn [bind ch_key ch_meta].
    destruct (C49_block_roundtrip S metas SL 1073741824 (eh_key h) (uid test_meta) 0 nonce' clear c ltac:(congruence) Hno' Eb) as (Db & Lb & _).
    rewrite Db. cbn [bind passes]. auto.
  - unfold wasm_decrypt_header. rewrite Dp. cbn [unwrapped bind]. rewrite Ea. cbn [unwrapped bind]. rewrite Eh. cbn [unwrapped bind].
    unfold w_decrypt_hybrid_header, w_open. destruct user_file as [|x t] eqn:Qu; [contradiction|]. rewrite <- Qu in *. destruct (N.ltb_spec (blen (eh_bytes h)) 4) as [|_]; [lia|].
    replace (is_empty user_file) with false by (rewrite Qu; reflexivity). rewrite Du. cbn [bind]. rewrite Dh. cbn [bind].
    destruct (sv_meta S metas SV _ Hm) as (mb & Emb & _). unfold ch_enc. cbn [ch_meta ch_key]. rewrite Emb. cbn [bind unwrapped].
    unfold ch_dec. replace (N.of_nat (key_length S)) with (blen (eh_key h)) by (unfold blen; rewrite SK, Lk; reflexivity).
    rewrite split_small by (try exact HP; unfold blen; rewrite Lk; reflexivity). cbn [bind]. rewrite array_from_ok by congruence. cbn [bind].
    rewrite (law_meta _ _ SL _ _ Hm Emb). cbn [bind unwrapped passes]. exact Logic.I.
  - destruct (file_header _ Hm') as (h' & uk' & Eh' & Lk' & Lh' & _ & Du' & _ & Dh' & _). rewrite Du in Du'. apply Ok_inj in Du'. subst uk'.
    unfold wasm_encrypt_header, w_encrypt_hybrid_header, w_header.
    replace (is_empty pol) with false by (destruct pol; [contradiction|reflexivity]).
    replace (is_empty pub_file) with false by (destruct pub_file; [contradiction|reflexivity]).
    replace (is_empty (js_uid size)) with false by (unfold js_uid; destruct (N.to_nat size) eqn:Q; [lia|reflexivity]).
    cbn [String.eqb Ascii.eqb]. rewrite Ep. cbn [bind]. rewrite Dp. cbn [bind]. rewrite Ea. cbn [bind]. rewrite Eh'. cbn [bind eh_enc unwrapped].
    unfold eh_dec. replace (N.of_nat (key_length S)) with (blen (eh_key h')) by (unfold blen; rewrite SK, Lk'; reflexivity).
    rewrite split_small by (try exact HP; unfold blen; rewrite Lk'; reflexivity). cbn [bind]. rewrite array_from_ok by congruence. cbn [bind unwrapped].
    rewrite Du. cbn [unwrapped bind eh_bytes]. rewrite Dh'. cbn [unwrapped bind passes]. exact Logic.I.
Qed.
End Tests.

(** wasm_bindgen/tests.rs: the test of blocks *)
Theorem C133_block_test key u nonce : length key = 32%nat -> length nonce = nonce_length S -> passes (wasm_encrypt_block S nonce key u).
Proof using SL SV SK.
  clear HP. intros Lk Hno. destruct (C132_block S metas SL SV SK pf ltac:(cbn; lia) key u 0 [x01; x02; x03; x04; x05; x06; x07; x08] nonce Lk Hno ltac:(discriminate) ltac:(vm_compute; discriminate))
    as (c & (_ & _ & Hw) & (_ & Hr & _) & _).
  unfold wasm_encrypt_block. rewrite array_from_ok by congruence. cbn [unwrapped bind]. rewrite (Hw (Some u) (Some 0)) by (split; auto). cbn [unwrapped bind].
  unfold py_decrypt_hybrid_block in Hr. rewrite array_from_ok in Hr by congruence. cbn [bind] in Hr. unfold py_max_clear_text in Hr. rewrite Hr. cbn [unwrapped bind passes]. exact Logic.I.
Qed.

(** wasm_bindgen/tests.rs: the test that makes keys. The policy is that of its lines 42-62,
    and the access policy that of its text. *)
Definition wasm_ops : list op :=
  [AddAxis "Security Level" ["Protected"; "Confidential"; "Top Secret"] true; AddAxis "Department" ["R&D"; "HR"; "MKG"; "FIN"] false]%string.
Theorem C133_key_test policy_json it (mdraw kdraw : nat -> K) p : run_ops wasm_ops (new_policy 100) = Ok p -> policy_from policy_json = Ok p ->
  access_parse "Department::FIN && Security Level::Top Secret" = Ok (AAnd (AAttr ("Department", "FIN")) (AAttr ("Security Level", "Top Secret")))%string ->
  iteration_ok it -> (forall i, (i < 100)%nat -> mdraw i <> f0) -> (forall mk, eng_master_key p mdraw = Ok mk -> fine (pub_y (pub_key mk))) ->
  passes (wasm_generate_keys P F policy_from access_parse policy_json it mdraw kdraw).
Proof using BL HF HP.
  clear SL SV SK. intros Hp Ep Ea Hit Hd Hf.
  assert (V : version 100 wasm_ops 2 p) by (split; [cbn; lia|exact Hp]).
  assert (Hprop : proper_axes wasm_ops).
  { intros x names h [Q|[Q|[]]]; injection Q as <- <- <-; repeat constructor; cbn; intuition discriminate. }
  set (ap := AAnd _ _) in Ea.
  destruct (C129_master_keys B BL F fine HF P HP policy_from policy_from 100 wasm_ops mdraw ltac:(lia) Hd 2 p policy_json policy_json V Ep Ep Hf)
    as (mk & priv & pub & del & Emk & Hpr & Hpu & _ & M2 & M3 & D).
  destruct (C129_user_key B BL F fine HF P P P HP HP HP policy_from (fun _ => Ok ap) policy_from access_parse 100 wasm_ops mdraw ltac:(lia) Hprop Hd p mk (version_max _ _ _ _ V) Emk
    2 p policy_json policy_json it "Department::FIN && Security Level::Top Secret"%string [] ap priv kdraw V Ep Ep) as (b & _ & _ & U & _); auto.
  { vm_compute in Hp. apply Ok_inj in Hp. subst p. reflexivity. }
  { intros P' HP'. apply D, HP'. }
  { intros a Ha. apply declared_spec. cbn in Ha. destruct Ha as [<-|[<-|[]]]; vm. }
  { cbn. intuition discriminate. }
  { apply apart_spec. vm. }
  { discriminate. }
  assert (Lp : blen priv < 1000000).
  { unfold py_generate_master_keys in M2. rewrite Ep in M2. cbn [bind] in M2. rewrite Emk in M2. cbn [bind] in M2.
    apply bind_ok in M2 as (b1 & E1 & M2). apply bind_ok in M2 as (b2 & E2 & M2). apply bind_ok in M2 as (b3 & E3 & M2). apply Ok_inj in M2.
    assert (b1 = priv /\ b2 = pub /\ b3 = del) as (-> & -> & ->) by (split; [|split]; congruence).
    destruct (PropertiesSizes.C117_master_keys B BL F fine HF p mdraw mk priv pub del Emk) as (L1 & _); auto.
    { rewrite (version_max _ _ _ _ V). lia. }
    rewrite L1, (version_max _ _ _ _ V). vm_compute. reflexivity. }
  unfold wasm_generate_keys. rewrite M3. cbn [unwrapped bind]. rewrite firstn_be32, from_be_be32 by (unfold u32_modulus; lia).
  destruct (N.leb_spec (4 + blen priv) (blen (be32 (blen priv) ++ priv ++ pub))) as [_|X].
  2:{ exfalso. rewrite !blen_app in X. change (blen (be32 (blen priv))) with 4 in X. lia. }
  cbn [bind]. change (skipn 4 (be32 (blen priv) ++ priv ++ pub)) with (priv ++ pub).
  replace (firstn (N.to_nat (blen priv)) (priv ++ pub)) with priv by (unfold blen; rewrite Nat2N.id, firstn_app, firstn_all, Nat.sub_diag; cbn [firstn]; rewrite app_nil_r; reflexivity).
  replace (skipn (N.to_nat (4 + blen priv)) (be32 (blen priv) ++ priv ++ pub)) with pub.
  2:{ replace (N.to_nat (4 + blen priv)) with (length (be32 (blen priv) ++ priv)) by (unfold blen; rewrite app_length, be32_length; lia).
      rewrite app_assoc, skipn_app, skipn_all, Nat.sub_diag. reflexivity. }
  destruct (D P HP) as (D1 & D2 & _). rewrite D1. cbn [unwrapped bind]. rewrite D2. cbn [unwrapped bind]. rewrite U. cbn [unwrapped bind passes]. exact Logic.I.
Qed.
End Files.

(** ** Examples *)
(** the exponents modulo 101 again, with a message for each text *)
Definition text_toy : BilinearMap := exp_model (zp_ops m101) (fun b => Ok (zmod m101 (Z.of_nat (length b)))).
Lemma text_toy_laws : BilinearLaws text_toy. Proof. apply exp_model_laws. apply zp_laws. exact prime_101. Qed.
Definition text_forms : byte_forms text_toy := mkForms text_toy (form101 32) (form101 48) (form101 96) (form101 288) 104 200 576.
Lemma text_forms_ok : forms_ok text_forms (fun _ => True).
Proof. constructor; try (apply (form101_ok 32) || apply (form101_ok 48) || apply (form101_ok 96) || apply (form101_ok 288); lia); simpl; lia. Qed.
Definition text_draw (i : nat) : bm_K text_toy := ex_draw i.
Definition text_kdraw (j i : nat) : bm_K text_toy := demo_kdraw j i.
Definition text_s : bm_K text_toy := ex_s.

Example C133_example : exists msg, msg_to_gt text_toy (list_byte_of_string "test") = Ok msg /\
  passes (encrypt_decrypt release32 text_draw text_kdraw text_s) /\ passes (multiple_key_pair release32 text_draw text_kdraw text_s) /\
  passes (user_key_as_bytes release32 text_forms text_draw text_kdraw) /\ passes (ciphertext_as_bytes release32 text_forms text_draw text_s) /\
  passes (delegation_key_as_bytes release32 text_forms text_draw).
Proof.
  exists (zmod m101 4 : Gt text_toy). assert (E : msg_to_gt text_toy (list_byte_of_string "test") = Ok (zmod m101 4 : Gt text_toy)) by reflexivity. split; [exact E|].
  destruct (C133_decrypting_tests text_toy text_toy_laws release32 text_draw text_kdraw text_s ex_draws _ E) as [H1 H2].
  destruct (C133_encoding_tests text_toy text_toy_laws release32 text_draw text_kdraw text_s ex_draws text_forms (fun _ => True) text_forms_ok ltac:(cbn; lia) _ E) as (H3 & H4 & _ & _ & H5).
  { intros mk _. split; [exact Logic.I|]. intros ct _. exact Logic.I. }
  exact (conj H1 (conj H2 (conj H3 (conj H4 H5)))).
Qed.

Example C133_engine_example : exists d, six_countries d /\
  passes (complex_access_policy debug64 demo_mdraw demo_kdraw ex_s (fun _ => it_rev) (AAnd (AAttr ("Entity", "BNPPF")%string) d) ex_msg).
Proof.
  exists (AOr (AOr (AOr (AOr (AOr (country "France") (country "Germany")) (country "Italy")) (country "Hungary")) (country "Spain")) (country "Belgium")).
  split; [constructor|]. apply (C133_engine_test toy toy_laws); [exact demo_draws|intros _; exact it_rev_ok|constructor].
Qed.

(** files with the keys of the policy of policy.txt, for 20 values *)
Definition file_ops : list op :=
  [AddAxis "Security Level" ["Protected"; "Low Secret"; "Medium Secret"; "High Secret"; "Top Secret"] true;
   AddAxis "Department" ["R&D"; "HR"; "MKG"; "FIN"] false]%string.
Definition file_state : policy := Eval vm_compute in match run_ops file_ops (new_policy 20) with Ok p => p | _ => new_policy 0 end.
Definition file_access : access_policy := (AAnd (AAttr ("Security Level", "Top Secret")) (AOr (AAttr ("Department", "MKG")) (AAttr ("Department", "FIN"))))%string.
Definition file_from (b : list byte) : outcome policy := match b with [x01] => Ok file_state | _ => Err Utf8Error end.
Definition file_parse (x : string) : outcome (list attribute) :=
  if String.eqb x "Department::FIN, Security Level::Top Secret" then Ok fin_top else Err Utf8Error.
Lemma files_made : exists mk pub_file user_file,
  files toy toy_forms release32 20 file_ops demo_mdraw mk 2 file_state pub_file user_file /\ pub_file <> [] /\ user_file <> [].
Proof.
  assert (V : version 20 file_ops 2 file_state) by (split; [cbn; lia|vm_compute; reflexivity]).
  assert (Hprop : proper_axes file_ops).
  { intros x names h [Q|[Q|[]]]; injection Q as <- <- <-; repeat constructor; cbn; intuition discriminate. }
  assert (Hd : forall i, (i < N.to_nat 20)%nat -> demo_mdraw i <> f0) by (intros i Hi; apply demo_draws; lia).
  destruct (C129_master_keys toy toy_laws toy_forms (fun _ => True) toy_forms_ok release32 ltac:(cbn; lia) file_from file_from 20 file_ops demo_mdraw ltac:(lia) Hd
    2 file_state [x01] [x01] V eq_refl eq_refl (fun _ _ => Logic.I)) as (mk & priv & pub & del & Emk & Hpr & Hpu & _ & _ & _ & D).
  destruct (C129_user_key toy toy_laws toy_forms (fun _ => True) toy_forms_ok release32 release32 release32 ltac:(cbn; lia) ltac:(cbn; lia) ltac:(cbn; lia)
    file_from (fun _ => Ok file_access) file_from (fun _ => Ok file_access) 20 file_ops demo_mdraw ltac:(lia) Hprop Hd file_state mk eq_refl Emk
    2 file_state [x01] [x01] it_rev "x"%string [] file_access priv ex_kdraw V eq_refl eq_refl) as (b & _ & U & _ & (uk & Hk & Du)); auto.
  { reflexivity. }
  { intros P HP. exact (proj1 (D P HP)). }
  { exact it_rev_ok. }
  { intros a Ha. apply declared_spec. cbn in Ha. destruct Ha as [<-|[<-|[<-|[]]]]; vm. }
  { cbn. intuition discriminate. }
  { apply apart_spec. vm. }
  { discriminate. }
  assert (FL : files toy toy_forms release32 20 file_ops demo_mdraw mk 2 file_state pub b).
  { constructor; auto.
    - lia.
    - reflexivity.
    - apply D. cbn. lia.
    - intros a Ha. apply declared_spec. cbn in Ha. destruct Ha as [<-|[<-|[]]]; vm.
    - exists 2%nat, file_access, uk. split; [apply Du; cbn; lia|]. split; [exact Hk|].
      apply (grants_spec _ _ (unrotated (between file_ops 2 2) fin_top) file_access (unrotated_spec (between file_ops 2 2) fin_top)). vm. }
  exists mk, pub, b. split; [exact FL|]. split; [exact Hpu|].
  intros ->. pose proof (Du release32 ltac:(cbn; lia)) as X.
    assert (Y : match user_dec toy_forms release32 [] with Ok _ => false | _ => true end = true) by vmr true. rewrite X in Y. discriminate.
Qed.
Example C133_files_example : exists mk pub_file user_file,
  files toy toy_forms release32 20 file_ops demo_mdraw mk 2 file_state pub_file user_file /\
  passes (symmetric_key_test release32 toy_forms toy_shake pub_file user_file file_state ex_msg ex_s) /\
  passes (aes_hybrid_encryption release32 toy_forms toy_shake toy_sym pub_file user_file file_state ex_msg ex_s ex_nonce ex_nonce) /\
  passes (wasm_decrypt_header release32 toy_forms toy_shake toy_sym pub_file user_file file_state ex_msg ex_s ex_nonce file_parse) /\
  passes (wasm_encrypt_header release32 toy_forms toy_shake toy_sym pub_file user_file ex_msg ex_s ex_nonce file_from file_parse 8 [x01]).
Proof.
  destruct files_made as (mk & pub & b & FL & Hpu & Hb). exists mk, pub, b. split; [exact FL|].
  apply (C133_file_tests toy toy_laws toy_forms (fun _ => True) toy_forms_ok toy_shake toy_shake_length toy_sym short_meta toy_short_laws toy_serves eq_refl release32 ltac:(cbn; lia)
    file_from file_parse 20 file_ops demo_mdraw mk 2 file_state pub b FL ex_msg ex_s ex_nonce ex_nonce eq_refl eq_refl (fun _ _ => Logic.I) [x01] 8).
  - split; [discriminate|]. split; vm_compute; reflexivity.
  - split; [discriminate|]. split; vm_compute; [reflexivity|exact Logic.I].
  - lia.
  - exact Hpu.
  - exact Hb.
  - reflexivity.
  - discriminate.
  - reflexivity.
Qed.

Print Assumptions C133_decrypting_tests.
Print Assumptions C133_encoding_tests.
Print Assumptions C133_engine_test.
Print Assumptions C133_file_tests.
Print Assumptions C133_block_test.
Print Assumptions C133_key_test.
