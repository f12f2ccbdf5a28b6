(** The notebook on access to confidential data, and which errors the refusals of the
    Python interface are: C130. *)
From Coq Require Import String NArith ZArith Bool Arith Lia Strings.Byte List.
From Verif Require Import Prelude Field LinAlg Msp Spec MspProofs Bilinear Scheme SchemeSpec SchemeProofs SchemeTheorems
  Zp ExpModel PropertiesScheme Codec CodecProofs SchemeCodec SchemeCodecProofs PropertiesCodec
  Policy PolicySpec PolicyProofs Engine EngineSpec EngineProofs PropertiesEngine Hybrid HybridSpec PropertiesHybrid
  PropertiesFfi PropertiesVersions Python PropertiesPython HistorySpec PropertiesHistory PropertiesWorking Demo PropertiesDemo PropertiesLive PyDemo PropertiesPyDemo Notebook.
Import ListNotations.
Local Open Scope N_scope.

(** ** Specification *)
Definition no_row : format_err := InternalOperation "empty input matrix".
(** the access policies *)
Definition alice_ap : access_policy := AAnd (AAttr (dep "Marketing")) (AAttr (lev "Medium Secret")).
Definition bob_ap : access_policy := AAnd (AAttr (dep "Marketing")) (AAttr (lev "Top Secret")).
Definition carol_ap : access_policy := AAnd (AAttr (dep "Human Resources")) (AAttr (lev "Medium Secret")).
Definition high_ap : access_policy := AAnd (AOr (AAttr (dep "Finance")) (AAttr (dep "Marketing"))) (AAttr (lev "High Secret")).
Definition user_ap : access_policy := AAnd (AAttr (dep "Marketing")) (AAttr (lev "High Secret")).
Definition hr_ap : access_policy := AAnd (AAttr (dep "Human Resources")) (AAttr (lev "Top Secret")).
(** the four departments, grouped from the left or from the right *)
Inductive four_departments : access_policy -> Prop :=
| four_left : four_departments (AOr (AOr (AOr (AAttr (dep "Finance")) (AAttr (dep "Marketing"))) (AAttr (dep "R&D"))) (AAttr (dep "Human Resources")))
| four_right : four_departments (AOr (AAttr (dep "Finance")) (AOr (AAttr (dep "Marketing")) (AOr (AAttr (dep "R&D")) (AAttr (dep "Human Resources"))))).

(** the policy before and after the rotation *)
Definition nb_ops : list op := [AddAxis "Security Level" demo_levels true; AddAxis "Department" nb_departments false; Rotate (lev "Medium Secret")].
Definition nb_p2 : policy :=
  Eval vm_compute in match run_ops (firstn 2 nb_ops) (new_policy 100) with Ok p => p | _ => new_policy 0 end.
Definition nb_p3 : policy :=
  Eval vm_compute in match run_ops nb_ops (new_policy 100) with Ok p => p | _ => new_policy 0 end.

(** the texts of the four messages *)
Definition said0 : list byte := list_byte_of_string "✅ Marketing message medium secret".
Definition said1 : list byte := list_byte_of_string "✅ Marketing message top_secret".
Definition said2 : list byte := list_byte_of_string "✅ human resources message medium secret".
Definition said3 : list byte := list_byte_of_string "✅ New marketing message medium secret".

(** What is asked of the external crates that read and write the texts of the notebook. *)
Record nb_texts (policy_from : list byte -> outcome policy) (attributes_from : list byte -> outcome (list attribute))
    (axes_from : list byte -> outcome (list policy_axis)) (metadata_from : list byte -> outcome metadata)
    (policy_json : policy -> outcome (list byte)) (access_parse : string -> outcome access_policy)
    (dump_axes : list policy_axis -> list byte) (dump_strings : list string -> list byte) (dump_uid : list N -> list byte) : Prop := {
  nx_axes : axes_from (dump_axes nb_axes) = Ok nb_axes;
  nx_medium_mkg : attributes_from (dump_strings ["Security Level::Medium Secret"; "Department::Marketing"]%string) = Ok [lev "Medium Secret"; dep "Marketing"];
  nx_top_mkg : attributes_from (dump_strings ["Security Level::Top Secret"; "Department::Marketing"]%string) = Ok [lev "Top Secret"; dep "Marketing"];
  nx_medium_hr : attributes_from (dump_strings ["Security Level::Medium Secret"; "Department::Human Resources"]%string) = Ok [lev "Medium Secret"; dep "Human Resources"];
  nx_medium : attributes_from (dump_strings ["Security Level::Medium Secret"]%string) = Ok [lev "Medium Secret"];
  nx_meta : metadata_from (dump_uid pd_uid) = Ok pd_meta;
  nx_alice : access_parse "Department::Marketing && Security Level::Medium Secret"%string = Ok alice_ap;
  nx_bob : access_parse "Department::Marketing && Security Level::Top Secret"%string = Ok bob_ap;
  nx_carol : access_parse "Department::Human Resources && Security Level::Medium Secret"%string = Ok carol_ap;
  nx_super : exists d, four_departments d /\ access_parse "(Department::Finance || Department::Marketing || Department::R&D || Department::Human Resources) && Security Level::Top Secret"%string = Ok (AAnd d (AAttr (lev "Top Secret")));
  nx_high : access_parse "(Department::Finance || Department::Marketing) && Security Level::High Secret"%string = Ok high_ap;
  nx_user : access_parse "Department::Marketing && Security Level::High Secret"%string = Ok user_ap;
  nx_hr : access_parse "Department::Human Resources && Security Level::Top Secret"%string = Ok hr_ap;
  nx_before : exists b, policy_json nb_p2 = Ok b /\ policy_from b = Ok nb_p2;
  nx_after : exists b, policy_json nb_p3 = Ok b /\ policy_from b = Ok nb_p3
}.

(** ** Proofs *)
Lemma nb_two : version 100 nb_ops 2 nb_p2. Proof. split; [simpl; lia|vm_compute; reflexivity]. Qed.
Lemma nb_three : version 100 nb_ops 3 nb_p3. Proof. split; [simpl; lia|vm_compute; reflexivity]. Qed.
Lemma nb_proper : proper_axes nb_ops.
Proof.
  intros x names h [E|[E|[E|[]]]]; try discriminate; injection E as _ <- _; unfold demo_levels, nb_departments;
  repeat constructor; simpl; intuition discriminate.
Qed.

Section Notebook.
Variable B : BilinearMap.
Hypothesis BL : BilinearLaws B.
Local Notation K := (bm_K B).
Variable P : platform.
Hypothesis HP : 64 <= usize_bits P.
Variable F : byte_forms B.
Variable fine : Gt B -> Prop.
Hypothesis HF : forms_ok F fine.
Variable shake : list byte -> nat -> list byte.
Hypothesis shake_length : forall b n, length (shake b n) = n.
Variable S : sym_scheme.
Variable metas : metadata -> Prop.
Hypothesis SL : sym_laws S metas.
Hypothesis SV : serves S metas.
Variable policy_from : list byte -> outcome policy.
Variable attributes_from : list byte -> outcome (list attribute).
Variable axes_from : list byte -> outcome (list policy_axis).
Variable metadata_from : list byte -> outcome metadata.
Variable policy_json : policy -> outcome (list byte).
Variable access_parse : string -> outcome access_policy.
Variable dump_axes : list policy_axis -> list byte.
Variable dump_strings : list string -> list byte.
Variable dump_uid : list N -> list byte.

Local Notation program := (notebook P F shake S policy_from attributes_from axes_from metadata_from policy_json access_parse dump_axes dump_strings dump_uid).
Local Notation encrypt := (py_encrypt P F shake S policy_from attributes_from metadata_from).
Local Notation decrypt := (py_decrypt P F shake S).
Local Notation delegated_key := (py_generate_delegated_key P F policy_from access_parse).

(** which error a key of the scheme that does not suffice gives *)
Lemma py_refused n ops q meta pol attrs pk plaintext random (s : K) nonce nonce' e m l k :
  n < 4294967296 -> run_ops ops (new_policy n) = Ok q -> length (pub_t k) = N.to_nat n -> l <> [] ->
  metadata_from meta = Ok m -> policy_from pol = Ok q -> attributes_from attrs = Ok l -> pub_dec F P pk = Ok k ->
  encrypt meta pol attrs pk plaintext random s nonce nonce' = Ok e -> blen e < 4294967296 ->
  (forall ct, eng_encrypt P q k l random s = Ok ct -> fine (e_prime ct)) ->
  exists ct, eng_encrypt P q k l random s = Ok ct /\ forall b uk, user_dec F P b = Ok uk ->
    (eng_decrypt ct uk = Ok None -> decrypt b e = Err InvalidEncryptedData) /\
    (forall x, eng_decrypt ct uk = Err x -> decrypt b e = Err x).
Proof using BL HP HF.
  intros Hn Hp Hk Hl Em Ep El Ek E He Hf. unfold py_encrypt in E. rewrite Em in E. cbn [bind] in E.
  apply bind_ok in E as ([key header] & Eh & E). apply bind_ok in E as (c & Ec & E). apply Ok_inj in E.
  assert (Lh : blen header < 4294967296) by (subst e; rewrite !blen_app in He; lia).
  unfold u32_modulus in E. rewrite N.mod_small in E by exact Lh. subst e.
  unfold py_encrypt_hybrid_header in Eh. rewrite Em, Ep, El, Ek in Eh. cbn [bind] in Eh. apply bind_ok in Eh as (h & Eh & Q).
  assert (header = eh_bytes h) by congruence. subst header. clear Q.
  destruct (header_layout B F shake S P q k l (Some m) random s nonce h Eh) as (sk & tail & Eg & Lk & Ls & Eb & Et).
  destruct (symmetric_key_inv B F fine HF shake P n ops q _ l _ random s _ sk HP Hn Hp Hk Hl Eg Hf) as (ct & Ect & Ed & r & Er & Ekey).
  exists ct. split; [exact Ect|]. intros b uk Eu. rewrite py_decrypt_layout by assumption.
  unfold py_decrypt_hybrid_header. rewrite Eu. cbn [bind]. rewrite Eb, (decrypt_layout B F shake S) by exact Ls.
  unfold decrypt_symmetric_key. rewrite Ed. cbn [bind]. split; [intros H|intros x H]; rewrite H; reflexivity.
Qed.

Section Refusals.
Variables (n : N) (history : list op) (mdraw : nat -> K).
Hypothesis Hn : 1 <= n <= 16777216.
Hypothesis Hprop : proper_axes history.
Variables (p0 : policy) (mk : master_key B).
Hypothesis Hmax : max_attribute_creations p0 = n.
Hypothesis Hmk : eng_master_key p0 mdraw = Ok mk.

(** A message the key does not suffice for is refused with the error "invalid encrypted
    data" if one of the attributes of the message (not rotated in between) occurs in the
    access policy of the key, expanded by the attributes below the hierarchical ones, and
    with "empty input matrix" otherwise. *)
Theorem C130_refusals i ap b k q meta m pol attrs l pk plaintext random (s : K) nonce nonce' e :
  owned B P F n history mk i ap b -> version n history k q -> policy_from pol = Ok q -> attributes_from attrs = Ok l -> l <> [] ->
  metadata_from meta = Ok m -> pub_dec F P pk = Ok (pub_key mk) ->
  encrypt meta pol attrs pk plaintext random s nonce nonce' = Ok e -> blen e < 4294967296 ->
  (forall ct, eng_encrypt P q (pub_key mk) l random s = Ok ct -> fine (e_prime ct)) ->
  let T := fun a => In a l /\ ~ In (Rotate a) (between history i k) in
  ~ satisfied (firstn i history) T ap ->
  ((exists a, T a /\ needed (firstn i history) ap a) /\ decrypt b e = Err InvalidEncryptedData) \/
  (~ (exists a, T a /\ needed (firstn i history) ap a) /\ decrypt b e = Err no_row).
Proof using BL HP HF Hn Hprop Hmax Hmk.
  intros (uk & Hk & Du) V Ep El Hne Em Dpk E He Hf T Hs.
  destruct (py_refused n (firstn k history) q meta pol attrs pk plaintext random s nonce nonce' e m l (pub_key mk)) as (ct & Ect & Ho); try assumption;
    [lia|exact (proj2 V)|exact (pub_slots B BL _ _ _ _ Hmax Hmk)|].
  destruct (Ho b uk Du) as [H1 H2].
  destruct (C124_refusals B BL P n history p0 mdraw mk i ap uk k q l random s ct Hprop Hmk Hk V Ect Hs) as [[H Q]|[H Q]]; [left|right]; (split; [exact H|]).
  - exact (H1 Q).
  - exact (H2 _ Q).
Qed.
End Refusals.

Hypothesis TX : nb_texts policy_from attributes_from axes_from metadata_from policy_json access_parse dump_axes dump_strings dump_uid.
Local Ltac vm := lazymatch goal with |- ex _ => fail | _ => idtac end; vm_compute; reflexivity.

Section Calls.
Variables (mdraw : nat -> K) (mk : master_key B).
Hypothesis Hd : forall i, (i < 100)%nat -> mdraw i <> f0.
Hypothesis Hmk : eng_master_key nb_p2 mdraw = Ok mk.
Local Notation own := (owned B P F 100 nb_ops mk).

Lemma nb_draw i : (i < N.to_nat 100)%nat -> mdraw i <> f0. Proof using Hd. intros H. apply Hd. exact H. Qed.

Lemma nb_key i q pol it access ap priv draw : version 100 nb_ops i q -> last_attribute_value q < 100 -> policy_from pol = Ok q ->
  priv_dec F P priv = Ok (priv_key mk) -> iteration_ok it ->
  access_parse access = Ok ap -> forallb (fun a => on (covered (firstn i nb_ops) a) a) (mentioned ap) = true -> ~ all_inside ap ->
  apart (firstn i nb_ops) ap = true -> ap <> AAll ->
  exists b, py_generate_user_private_key P F policy_from access_parse it priv access pol draw = Ok b /\ own i ap b.
Proof using BL HP HF Hd Hmk.
  intros V Hl Ep Dp Hit Ea H1 H2 H3 H4. rewrite forallb_forall in H1.
  apply (C127_user_key B BL P HP F fine HF policy_from access_parse 100 nb_ops mdraw ltac:(lia) nb_proper nb_draw nb_p2 mk eq_refl Hmk i q pol it access ap priv draw); auto.
  - intros a Ha. apply declared_spec, H1, Ha.
  - apply apart_spec, H3.
  - intros X. contradiction.
Qed.

(** what abe_decrypt finds, computed *)
Definition verdict (i k : nat) (l : list attribute) (ap : access_policy) (plaintext : list byte) : outcome (list byte) :=
  if grants (firstn i nb_ops) (unrotated (between nb_ops i k) l) ap then Ok plaintext
  else if existsb (on (flat_map (covered (firstn i nb_ops)) (mentioned ap))) (unrotated (between nb_ops i k) l) then Err InvalidEncryptedData
  else Err no_row.

Lemma nb_message k q pol attrs l meta pk plaintext random s nonce nonce' : version 100 nb_ops k q -> last_attribute_value q < 100 ->
  policy_from pol = Ok q -> attributes_from attrs = Ok l ->
  l <> [] -> forallb (fun a => on (covered (firstn k nb_ops) a) a) l = true -> N.of_nat (length l) < 100 ->
  metadata_from meta = Ok pd_meta -> metas pd_meta -> pub_dec F P pk = Ok (pub_key mk) ->
  length nonce = nonce_length S -> length nonce' = nonce_length S -> plaintext <> [] -> blen plaintext <= 1000 ->
  (forall ct, eng_encrypt P q (pub_key mk) l random s = Ok ct -> fine (e_prime ct)) ->
  exists e, encrypt meta pol attrs pk plaintext random s nonce nonce' = Ok e /\
    forall i ap b, own i ap b -> decrypt b e = verdict i k l ap plaintext.
Proof using BL HP HF shake_length SL SV Hd Hmk.
  intros V Hl Ep El Hne H1 Hlen Em Hm Dpk Hno Hno' Hpl Hpl' Hf. rewrite forallb_forall in H1.
  destruct (C127_message B BL P HP F fine HF shake shake_length S metas SL SV policy_from attributes_from metadata_from 100 nb_ops mdraw ltac:(lia) nb_proper nb_draw
    nb_p2 mk eq_refl Hmk k q pol attrs l meta pd_meta pk plaintext random s nonce nonce' V Ep Hl El Hne) as (e & E & Ho); auto.
  - intros a Ha. apply declared_spec, H1, Ha.
  - lia.
  - exists e. split; [exact E|]. intros i ap b Hb. unfold verdict.
    pose proof (unrotated_spec (between nb_ops i k) l) as U.
    pose proof (grants_spec (firstn i nb_ops) _ (unrotated (between nb_ops i k) l) ap U) as G.
    destruct (Ho i ap b Hb) as [[Hs D]|[Hs D]].
    + destruct (grants _ _ _); [exact D|]. exfalso. assert (X : false = true) by (apply G, Hs). discriminate.
    + destruct (grants _ _ _); [exfalso; apply Hs, G; reflexivity|].
      assert (He : blen e < 4294967296).
      { destruct (message_made B BL P HP F fine HF shake shake_length S metas SL SV policy_from attributes_from metadata_from 100 nb_ops mdraw ltac:(lia) nb_proper nb_draw
          nb_p2 mk eq_refl Hmk k q pol attrs l meta pd_meta pk plaintext random s nonce nonce' V Ep Hl El Hne) as (e' & E' & L'); auto;
          [intros a Ha; apply declared_spec, H1, Ha|lia|]. rewrite E in E'. apply Ok_inj in E'. subst e'. exact L'. }
      destruct (C130_refusals 100 nb_ops mdraw ltac:(lia) nb_proper nb_p2 mk eq_refl Hmk i ap b k q meta pd_meta pol attrs l pk plaintext random s nonce nonce' e
        Hb V Ep El Hne Em Dpk E He Hf Hs) as [[(a & Ta & Na) Q]|[Hx Q]].
      * replace (existsb _ _) with true; [exact Q|]. symmetry. apply existsb_exists. exists a. split; [apply U, Ta|]. apply needed_spec in Na. exact Na.
      * destruct (existsb _ _) eqn:X; [|exact Q]. exfalso. apply Hx. apply existsb_exists in X as (a & Ha & Na). exists a. split; [apply U, Ha|].
        apply needed_spec. exact Na.
Qed.

Lemma nb_included ap' a' c ap d e : ap' = AAnd a' c -> ap = AAnd d e -> disjunctive a' -> disjunctive d -> disjunctive c -> disjunctive e ->
  apart (firstn 2 nb_ops) a' = true -> apart (firstn 2 nb_ops) c = true ->
  forallb (fun a => on (covered (firstn 2 nb_ops) a) a) (mentioned ap') = true ->
  forallb (on (flat_map (covered (firstn 2 nb_ops)) (mentioned d))) (flat_map (covered (firstn 2 nb_ops)) (mentioned a')) = true ->
  forallb (on (flat_map (covered (firstn 2 nb_ops)) (mentioned e))) (flat_map (covered (firstn 2 nb_ops)) (mentioned c)) = true ->
  included (firstn 2 nb_ops) ap' ap.
Proof using Type.
  intros -> -> D1 D2 D3 D4 A1 A2 M N1 N2. rewrite forallb_forall in M, N1, N2. cbn [mentioned] in M.
  apply in_and; (apply in_some; [assumption|apply apart_spec; assumption| |right; split; [assumption|]]).
  - intros x Hx. apply declared_spec, M, in_or_app. left. exact Hx.
  - intros b Hb. apply needed_spec. apply needed_spec in Hb. apply N1, on_spec, Hb.
  - intros x Hx. apply declared_spec, M, in_or_app. right. exact Hx.
  - intros b Hb. apply needed_spec. apply needed_spec in Hb. apply N2, on_spec, Hb.
Qed.

Lemma nb_delegated pol it access del b ap ap' draw : policy_from pol = Ok nb_p2 -> del_dec F P del = Ok (del_key mk) -> iteration_ok it ->
  access_parse access = Ok ap' -> ap' <> AAll -> included (firstn 2 nb_ops) ap' ap ->
  forallb (fun a => on (covered (firstn 2 nb_ops) a) a) (mentioned ap') = true -> own 2%nat ap b ->
  exists b', delegated_key it del b access pol draw = Ok b' /\ own 2%nat ap' b'.
Proof using BL HP HF Hmk.
  intros Ep Dd Hit Ea Hne Hi M Hb. rewrite forallb_forall in M.
  apply (C127_delegated_key B BL P HP F fine HF policy_from access_parse 100 nb_ops mdraw ltac:(lia) nb_proper nb_p2 mk eq_refl Hmk
    2 ap b 2 nb_p2 pol it access ap' del draw Hb nb_two Ep Dd Hit Ea Hne Hi).
  - intros a Ha. apply declared_spec, M, Ha.
  - intros a _. rewrite between_nil by lia. intros [].
Qed.

Lemma nb_beyond pol it access del b ap ap' draw x : policy_from pol = Ok nb_p2 -> del_dec F P del = Ok (del_key mk) -> iteration_ok it ->
  access_parse access = Ok ap' -> ap <> AAll -> ap' <> AAll -> own 2%nat ap b ->
  on (flat_map (covered (firstn 2 nb_ops)) (mentioned ap')) x = true -> on (flat_map (covered (firstn 2 nb_ops)) (mentioned ap)) x = false ->
  is_err (delegated_key it del b access pol draw).
Proof using BL Hmk.
  intros Ep Dd Hit Ea Hne Hne' (uk & Hk & Du) N1 N2.
  destruct (C124_beyond B BL P 100 nb_ops nb_p2 mdraw mk 2 ap uk it nb_p2 ap' draw x nb_proper Hmk) as (e & E); auto.
  - vm.
  - exact nb_two.
  - apply needed_spec, N1.
  - intros X. apply needed_spec in X. rewrite N2 in X. discriminate.
  - exists e. unfold py_generate_delegated_key. rewrite Dd, Du, Ea, Ep. cbn [bind]. rewrite E. reflexivity.
Qed.
End Calls.

Lemma nb_line_ok user uk e c : decrypt uk e = Ok c -> nb_decrypt P F shake S user uk e = Ok (Succeeds user c).
Proof using Type. intros H. unfold nb_decrypt. rewrite H. reflexivity. Qed.
Lemma nb_line_err user uk e x : decrypt uk e = Err x -> nb_decrypt P F shake S user uk e = Ok (Fails user x).
Proof using Type. intros H. unfold nb_decrypt. rewrite H. reflexivity. Qed.
Lemma try_all_err {A} (o : outcome A) : is_err o -> py_try_all o = Ok true.
Proof using Type. intros (e & ->). reflexivity. Qed.

(** The cells of the notebook run in their order without an exception, with every random
    choice and every order of iteration; what they print is what the notebook has
    recorded, including which of the two errors each refusal is; the two delegations at
    the end are refused. The two keys made for the marketing user are the same to use:
    they open the first message and none of the others. *)
Theorem C130_notebook it (mdraw : nat -> K) draw random s nonce nonce' :
  (forall i, iteration_ok (it i)) -> (forall i, (i < 100)%nat -> mdraw i <> f0) ->
  metas pd_meta -> (forall i, length (nonce i) = nonce_length S) -> (forall i, length (nonce' i) = nonce_length S) ->
  (forall mk, eng_master_key nb_p2 mdraw = Ok mk -> fine (pub_y (pub_key mk)) /\
     forall q l i ct, eng_encrypt P q (pub_key mk) l (random i) (s i) = Ok ct -> fine (e_prime ct)) ->
  exists r m0 m1 m2 m3, program it mdraw draw random s nonce nonce' = Ok r /\
    nb_lines r = [Succeeds "Alice" said0; Succeeds "Bob" said0; Fails "Carol" InvalidEncryptedData;
                  Fails "Alice" InvalidEncryptedData; Succeeds "Bob" said1; Fails "Carol" no_row;
                  Fails "Alice" InvalidEncryptedData; Fails "Bob" InvalidEncryptedData; Succeeds "Carol" said2;
                  Fails "Alice" InvalidEncryptedData; Succeeds "Alice" said3; Succeeds "Alice" said0] /\
    nb_refused r = [true; true] /\
    nb_messages r = [m0; m1; m2; m3] /\
    (forall b, b = fst (nb_users r) \/ b = snd (nb_users r) ->
       decrypt b m0 = Ok said0 /\ decrypt b m1 = Err InvalidEncryptedData /\ decrypt b m2 = Err InvalidEncryptedData /\ decrypt b m3 = Err InvalidEncryptedData) /\
    decrypt (nb_super r) m0 = Ok said0 /\ decrypt (nb_super r) m1 = Ok said1 /\ decrypt (nb_super r) m2 = Ok said2 /\
    decrypt (nb_super r) m3 = Err InvalidEncryptedData.
Proof using BL HP HF shake_length SL SV TX.
  change said0 with nb_plain0. change said1 with nb_plain1. change said2 with nb_plain2. change said3 with nb_plain3.
  intros Hit Hd Hm Hno Hno' Hf.
  destruct TX as [T1 T2 T3 T4 T5 T6 Ta Tb Tc (d & Hfour & Ts) Th Tu Tr (pol & J2 & R2) (pol' & J3 & R3)]. unfold notebook, nb_medium_mkg, nb_top_mkg, nb_medium_hr.
  assert (Epol : py_generate_policy axes_from policy_json (dump_axes nb_axes) 100 = Ok pol).
  { unfold py_generate_policy. rewrite T1. cbn [bind]. replace (add_axes (new_policy (100 mod u32_modulus)) nb_axes) with (Ok nb_p2) by vm. exact J2. }
  rewrite Epol. cbn [bind].
  destruct (C127_master_keys B BL P HP F fine HF policy_from 100 nb_ops mdraw ltac:(lia) (nb_draw mdraw Hd) 2 nb_p2 pol nb_two R2) as (mk & priv & pub & del & Hmk & Emb & D1 & D2 & D3).
  { intros mk Emk. apply Hf, Emk. }
  destruct (Hf mk Hmk) as [_ Hct]. rewrite Emb. cbn [bind].
  destruct (nb_key mdraw mk Hd Hmk 2 nb_p2 pol (it 0%nat) nb_alice_text alice_ap priv (draw 0%nat) nb_two ltac:(vm) R2 D1 (Hit _) Ta) as (alice & E & Ha); [vm|cbn; intuition discriminate|vm|discriminate|].
  rewrite E; clear E. cbn [bind].
  destruct (nb_key mdraw mk Hd Hmk 2 nb_p2 pol (it 1%nat) nb_bob_text bob_ap priv (draw 1%nat) nb_two ltac:(vm) R2 D1 (Hit _) Tb) as (bob & E & Hb); [vm|cbn; intuition discriminate|vm|discriminate|].
  rewrite E; clear E. cbn [bind].
  destruct (nb_key mdraw mk Hd Hmk 2 nb_p2 pol (it 2%nat) nb_carol_text carol_ap priv (draw 2%nat) nb_two ltac:(vm) R2 D1 (Hit _) Tc) as (carol & E & Hc); [vm|cbn; intuition discriminate|vm|discriminate|].
  rewrite E; clear E. cbn [bind].
  destruct (nb_message mdraw mk Hd Hmk 2 nb_p2 pol _ _ (dump_uid pd_uid) pub nb_plain0 (random 0%nat) (s 0%nat) (nonce 0%nat) (nonce' 0%nat) nb_two ltac:(vm) R2 T2) as (m0 & E & O0); [discriminate|vm|vm|exact T6|exact Hm|exact D2|apply Hno|apply Hno'|discriminate|vm_compute; discriminate|intros ct; apply Hct|].
  rewrite E; clear E. cbn [bind].
  rewrite (nb_line_ok _ _ _ _ (O0 2%nat alice_ap alice Ha)). cbn [bind].
  rewrite (nb_line_ok _ _ _ _ (O0 2%nat bob_ap bob Hb)). cbn [bind].
  rewrite (nb_line_err _ _ _ _ (O0 2%nat carol_ap carol Hc)). cbn [bind].
  destruct (nb_message mdraw mk Hd Hmk 2 nb_p2 pol _ _ (dump_uid pd_uid) pub nb_plain1 (random 1%nat) (s 1%nat) (nonce 1%nat) (nonce' 1%nat) nb_two ltac:(vm) R2 T3) as (m1 & E & O1); [discriminate|vm|vm|exact T6|exact Hm|exact D2|apply Hno|apply Hno'|discriminate|vm_compute; discriminate|intros ct; apply Hct|].
  rewrite E; clear E. cbn [bind].
  rewrite (nb_line_err _ _ _ _ (O1 2%nat alice_ap alice Ha)). cbn [bind].
  rewrite (nb_line_ok _ _ _ _ (O1 2%nat bob_ap bob Hb)). cbn [bind].
  rewrite (nb_line_err _ _ _ _ (O1 2%nat carol_ap carol Hc)). cbn [bind].
  destruct (nb_message mdraw mk Hd Hmk 2 nb_p2 pol _ _ (dump_uid pd_uid) pub nb_plain2 (random 2%nat) (s 2%nat) (nonce 2%nat) (nonce' 2%nat) nb_two ltac:(vm) R2 T4) as (m2 & E & O2); [discriminate|vm|vm|exact T6|exact Hm|exact D2|apply Hno|apply Hno'|discriminate|vm_compute; discriminate|intros ct; apply Hct|].
  rewrite E; clear E. cbn [bind].
  rewrite (nb_line_err _ _ _ _ (O2 2%nat alice_ap alice Ha)). cbn [bind].
  rewrite (nb_line_err _ _ _ _ (O2 2%nat bob_ap bob Hb)). cbn [bind].
  rewrite (nb_line_ok _ _ _ _ (O2 2%nat carol_ap carol Hc)). cbn [bind].
  assert (Erot : py_rotate_attributes policy_from attributes_from policy_json (dump_strings nb_medium) pol = Ok pol').
  { unfold py_rotate_attributes. unfold nb_medium; rewrite T5. cbn [bind]. rewrite R2. cbn [bind]. replace (rotate_each nb_p2 [lev "Medium Secret"]) with (Ok nb_p3) by vm. exact J3. }
  rewrite Erot. cbn [bind].
  destruct (nb_message mdraw mk Hd Hmk 3 nb_p3 pol' _ _ (dump_uid pd_uid) pub nb_plain3 (random 3%nat) (s 3%nat) (nonce 3%nat) (nonce' 3%nat) nb_three ltac:(vm) R3 T2) as (m3 & E & O3); [discriminate|vm|vm|exact T6|exact Hm|exact D2|apply Hno|apply Hno'|discriminate|vm_compute; discriminate|intros ct; apply Hct|].
  rewrite E; clear E. cbn [bind].
  rewrite (nb_line_err _ _ _ _ (O3 2%nat alice_ap alice Ha)). cbn [bind].
  destruct (nb_key mdraw mk Hd Hmk 3 nb_p3 pol' (it 3%nat) nb_alice_text alice_ap priv (draw 3%nat) nb_three ltac:(vm) R3 D1 (Hit _) Ta) as (alice' & E & Ha'); [vm|cbn; intuition discriminate|vm|discriminate|].
  rewrite E; clear E. cbn [bind].
  rewrite (nb_line_ok _ _ _ _ (O3 3%nat alice_ap alice' Ha')). cbn [bind].
  rewrite (nb_line_ok _ _ _ _ (O0 3%nat alice_ap alice' Ha')). cbn [bind].
  destruct (nb_key mdraw mk Hd Hmk 2 nb_p2 pol (it 4%nat) nb_super_text (AAnd d (AAttr (lev "Top Secret"))) priv (draw 4%nat) nb_two ltac:(vm) R2 D1 (Hit _) Ts) as (super & E & Hs);
    [destruct Hfour; vm|destruct Hfour; cbn; intuition discriminate|destruct Hfour; vm|discriminate|].
  rewrite E; clear E. cbn [bind].
  destruct (nb_delegated mdraw mk Hmk pol (it 5%nat) nb_high_text del super (AAnd d (AAttr (lev "Top Secret"))) high_ap (draw 5%nat) R2 D3 (Hit _) Th ltac:(discriminate)) as (high & E & Hh); [|vm|exact Hs|].
  { eapply nb_included; [reflexivity|reflexivity| | | | | | | | |]; destruct Hfour; solve [cbn; tauto|vm]. }
  rewrite E; clear E. cbn [bind].
  destruct (nb_delegated mdraw mk Hmk pol (it 6%nat) nb_user_text del super (AAnd d (AAttr (lev "Top Secret"))) user_ap (draw 6%nat) R2 D3 (Hit _) Tu ltac:(discriminate)) as (user & E & Hu); [|vm|exact Hs|].
  { eapply nb_included; [reflexivity|reflexivity| | | | | | | | |]; destruct Hfour; solve [cbn; tauto|vm]. }
  rewrite E; clear E. cbn [bind].
  destruct (nb_delegated mdraw mk Hmk pol (it 7%nat) nb_user_text del high high_ap user_ap (draw 7%nat) R2 D3 (Hit _) Tu ltac:(discriminate)) as (user' & E & Hu'); [|vm|exact Hh|].
  { eapply nb_included; [reflexivity|reflexivity| | | | | | | | |]; solve [cbn; tauto|vm]. }
  rewrite E; clear E. cbn [bind].
  rewrite (try_err _ (nb_beyond mdraw mk Hmk pol (it 8%nat) nb_bob_text del high high_ap bob_ap (draw 8%nat) (lev "Top Secret") R2 D3 (Hit _) Tb ltac:(discriminate) ltac:(discriminate) Hh ltac:(vm) ltac:(vm))). cbn [bind].
  rewrite (try_all_err _ (nb_beyond mdraw mk Hmk pol (it 9%nat) nb_hr_text del high high_ap hr_ap (draw 9%nat) (lev "Top Secret") R2 D3 (Hit _) Tr ltac:(discriminate) ltac:(discriminate) Hh ltac:(vm) ltac:(vm))). cbn [bind].
  eexists. exists m0, m1, m2, m3. split; [reflexivity|]. cbn [nb_lines nb_refused nb_messages nb_users nb_super fst snd].
  split; [reflexivity|]. split; [reflexivity|]. split; [reflexivity|]. split.
  - intros b [->| ->].
    + split; [exact (O0 2%nat user_ap user Hu)|]. split; [exact (O1 2%nat user_ap user Hu)|]. split; [exact (O2 2%nat user_ap user Hu)|exact (O3 2%nat user_ap user Hu)].
    + split; [exact (O0 2%nat user_ap user' Hu')|]. split; [exact (O1 2%nat user_ap user' Hu')|]. split; [exact (O2 2%nat user_ap user' Hu')|exact (O3 2%nat user_ap user' Hu')].
  - rewrite (O0 2%nat _ super Hs), (O1 2%nat _ super Hs), (O2 2%nat _ super Hs), (O3 2%nat _ super Hs). destruct Hfour; repeat (split; [vm|]); vm.
Qed.
End Notebook.

(** ** Example *)
(** texts with a byte each for the values of the notebook *)
Definition nt_dump_strings (l : list string) : list byte :=
  match l with
  | [_] => [x04]
  | [a; b] => if String.eqb b "Department::Human Resources" then [x03] else if String.eqb a "Security Level::Medium Secret" then [x01] else [x02]
  | _ => []
  end.
Definition nt_attributes (b : list byte) : outcome (list attribute) :=
  match b with
  | [x01] => Ok [lev "Medium Secret"; dep "Marketing"]
  | [x02] => Ok [lev "Top Secret"; dep "Marketing"]
  | [x03] => Ok [lev "Medium Secret"; dep "Human Resources"]
  | [x04] => Ok [lev "Medium Secret"]
  | _ => Err Utf8Error
  end.
Definition nt_axes (b : list byte) : outcome (list policy_axis) := match b with [x01] => Ok nb_axes | _ => Err Utf8Error end.
Definition nt_policy_json (p : policy) : outcome (list byte) := if last_attribute_value p =? last_attribute_value nb_p2 then Ok [x02] else Ok [x03].
Definition nt_policy (b : list byte) : outcome policy := match b with [x02] => Ok nb_p2 | [x03] => Ok nb_p3 | _ => Err Utf8Error end.
Definition nt_access (x : string) : outcome access_policy :=
  if String.eqb x nb_alice_text then Ok alice_ap else if String.eqb x nb_bob_text then Ok bob_ap else if String.eqb x nb_carol_text then Ok carol_ap
  else if String.eqb x nb_super_text
  then Ok (AAnd (AOr (AOr (AOr (AAttr (dep "Finance")) (AAttr (dep "Marketing"))) (AAttr (dep "R&D"))) (AAttr (dep "Human Resources"))) (AAttr (lev "Top Secret")))
  else if String.eqb x nb_high_text then Ok high_ap else if String.eqb x nb_user_text then Ok user_ap else if String.eqb x nb_hr_text then Ok hr_ap
  else Err Utf8Error.
Lemma nt_texts : nb_texts nt_policy nt_attributes nt_axes toy_metadata nt_policy_json nt_access (fun _ => [x01]) nt_dump_strings (fun _ => [x01]).
Proof.
  constructor; try reflexivity.
  - eexists. split; [apply four_left|reflexivity].
  - exists [x02]. split; reflexivity.
  - exists [x03]. split; reflexivity.
Qed.

Example C130_example : exists r m0 m1 m2 m3,
  notebook pf toy_forms toy_shake toy_sym nt_policy nt_attributes nt_axes toy_metadata nt_policy_json nt_access (fun _ => [x01]) nt_dump_strings (fun _ => [x01])
    (fun _ => it_rev) demo_mdraw demo_kdraw demo_msg demo_scalar (fun _ => ex_nonce) (fun _ => ex_nonce) = Ok r /\
  nth 5 (nb_lines r) (Fails "" Utf8Error) = Fails "Carol" no_row /\ nb_refused r = [true; true] /\ nb_messages r = [m0; m1; m2; m3] /\
  py_decrypt pf toy_forms toy_shake toy_sym (snd (nb_users r)) m0 = Ok nb_plain0 /\
  py_decrypt pf toy_forms toy_shake toy_sym (nb_super r) m3 = Err InvalidEncryptedData.
Proof.
  destruct (C130_notebook toy toy_laws pf ltac:(cbn; lia) toy_forms (fun _ => True) toy_forms_ok toy_shake toy_shake_length toy_sym short_meta toy_short_laws toy_serves
    _ _ _ _ _ _ _ _ _ nt_texts (fun _ => it_rev) demo_mdraw demo_kdraw demo_msg demo_scalar (fun _ => ex_nonce) (fun _ => ex_nonce))
    as (r & m0 & m1 & m2 & m3 & E & L & R & M & U & _ & _ & _ & D).
  - intros _. exact it_rev_ok.
  - exact demo_draws.
  - split; [discriminate|]. split; [vm_compute; reflexivity|exact Logic.I].
  - reflexivity.
  - reflexivity.
  - intros mk _. split; [exact Logic.I|]. intros q l i ct _. exact Logic.I.
  - exists r, m0, m1, m2, m3. rewrite L. split; [exact E|]. split; [reflexivity|]. split; [exact R|]. split; [exact M|]. split; [|exact D].
    apply U. right. reflexivity.
Qed.

Print Assumptions C130_refusals.
Print Assumptions C130_notebook.
