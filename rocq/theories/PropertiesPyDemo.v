(** The demonstration program of the Python interface: C128. *)
From Coq Require Import String NArith ZArith Bool Arith Lia Strings.Byte List.
From Verif Require Import Prelude Field LinAlg Msp Spec MspProofs Bilinear Scheme SchemeSpec SchemeProofs SchemeTheorems
  Zp ExpModel PropertiesScheme Codec CodecProofs SchemeCodec SchemeCodecProofs PropertiesCodec
  Policy PolicySpec PolicyProofs Engine EngineSpec EngineProofs PropertiesEngine Hybrid HybridSpec PropertiesHybrid
  PropertiesFfi PropertiesVersions Python PropertiesPython HistorySpec PropertiesHistory PropertiesWorking Demo PropertiesDemo PropertiesLive PyDemo.
Import ListNotations.
Local Open Scope N_scope.

(** ** Specification *)
(** the access policy of the delegated key *)
Definition fin_mkg_medium : access_policy := AAnd (AOr (AAttr (dep "FIN")) (AAttr (dep "MKG"))) (AAttr (lev "Medium Secret")).
Definition pd_meta : metadata := mkMeta [x00; x00; x00; x00; x00; x00; x00; x01] None.

(** the text of the messages *)
Definition secret_data : list byte := list_byte_of_string "My secret data".

(** What is asked of the external crates that read and write the texts of the program. *)
Record texts (policy_from : list byte -> outcome policy) (attributes_from : list byte -> outcome (list attribute))
    (axes_from : list byte -> outcome (list policy_axis)) (metadata_from : list byte -> outcome metadata)
    (policy_json : policy -> outcome (list byte)) (access_parse : string -> outcome access_policy)
    (dump_axes : list policy_axis -> list byte) (dump_strings : list string -> list byte) (dump_uid : list N -> list byte) : Prop := {
  tx_axes : axes_from (dump_axes pd_axes) = Ok pd_axes;
  tx_low_mkg : attributes_from (dump_strings ["Security Level::Low Secret"; "Department::MKG"]%string) = Ok [lev "Low Secret"; dep "MKG"];
  tx_top_mkg : attributes_from (dump_strings ["Security Level::Top Secret"; "Department::MKG"]%string) = Ok [lev "Top Secret"; dep "MKG"];
  tx_low_fin : attributes_from (dump_strings ["Security Level::Low Secret"; "Department::FIN"]%string) = Ok [lev "Low Secret"; dep "FIN"];
  tx_low : attributes_from (dump_strings ["Security Level::Low Secret"]%string) = Ok [lev "Low Secret"];
  tx_meta : metadata_from (dump_uid pd_uid) = Ok pd_meta;
  tx_top : access_parse "Security Level::Top Secret && (Department::MKG || Department::FIN)"%string = Ok top_mkg_fin;
  tx_medium : access_parse "Security Level::Medium Secret && Department::MKG"%string = Ok medium_mkg;
  tx_delegate : access_parse "(Department::FIN || Department::MKG) && Security Level::Medium Secret"%string = Ok fin_mkg_medium;
  tx_before : exists b, policy_json demo_p2 = Ok b /\ policy_from b = Ok demo_p2;
  tx_after : exists b, policy_json demo_p3 = Ok b /\ policy_from b = Ok demo_p3
}.

Section Demo.
Variable B : BilinearMap.
Hypothesis BL : BilinearLaws B.
Local Notation K := (bm_K B).
Variable P : platform.
Hypothesis HP : 64 <= usize_bits P.
Variable F : byte_forms B.
Variable fine : Gt B -> Prop.
Hypothesis HF : forms_ok F fine.
Variable shake : list byte -> nat -> list byte.
Hypothesis shake_length : forall b n, length (shake b n) = n.
Variable S : sym_scheme.
Variable metas : metadata -> Prop.
Hypothesis SL : sym_laws S metas.
Hypothesis SV : serves S metas.
Variable policy_from : list byte -> outcome policy.
Variable attributes_from : list byte -> outcome (list attribute).
Variable axes_from : list byte -> outcome (list policy_axis).
Variable metadata_from : list byte -> outcome metadata.
Variable policy_json : policy -> outcome (list byte).
Variable access_parse : string -> outcome access_policy.
Variable dump_axes : list policy_axis -> list byte.
Variable dump_strings : list string -> list byte.
Variable dump_uid : list N -> list byte.
Hypothesis TX : texts policy_from attributes_from axes_from metadata_from policy_json access_parse dump_axes dump_strings dump_uid.

Local Notation program := (py_demo P F shake S policy_from attributes_from axes_from metadata_from policy_json access_parse dump_axes dump_strings dump_uid).
Local Notation decrypt := (py_decrypt P F shake S).

Local Ltac vm := lazymatch goal with |- ex _ => fail | _ => idtac end; vm_compute; reflexivity.

Section Calls.
Variables (mdraw : nat -> K) (mk : master_key B).
Hypothesis Hd : forall i, (i < 100)%nat -> mdraw i <> f0.
Hypothesis Hmk : eng_master_key demo_p2 mdraw = Ok mk.
Local Notation own := (owned B P F 100 demo_ops mk).

Lemma pd_draw i : (i < N.to_nat 100)%nat -> mdraw i <> f0. Proof using Hd. intros H. apply Hd. exact H. Qed.

Lemma pd_key i q pol it access ap priv draw : demo_version i q -> policy_from pol = Ok q -> priv_dec F P priv = Ok (priv_key mk) -> iteration_ok it ->
  access_parse access = Ok ap -> forallb (fun a => on (covered (firstn i demo_ops) a) a) (mentioned ap) = true -> ~ all_inside ap ->
  apart (firstn i demo_ops) ap = true -> ap <> AAll ->
  exists b, py_generate_user_private_key P F policy_from access_parse it priv access pol draw = Ok b /\ own i ap b.
Proof using BL HP HF Hd Hmk.
  intros (V & Hl & _) Ep Dp Hit Ea H1 H2 H3 H4. rewrite forallb_forall in H1.
  apply (C127_user_key B BL P HP F fine HF policy_from access_parse 100 demo_ops mdraw ltac:(lia) demo_proper pd_draw demo_p2 mk eq_refl Hmk i q pol it access ap priv draw); auto.
  - intros a Ha. apply declared_spec, H1, Ha.
  - apply apart_spec, H3.
  - intros X. contradiction.
Qed.

Lemma pd_message k q pol attrs l meta pk random s nonce nonce' : demo_version k q -> policy_from pol = Ok q -> attributes_from attrs = Ok l ->
  l <> [] -> forallb (fun a => on (covered (firstn k demo_ops) a) a) l = true -> N.of_nat (length l) < 100 ->
  metadata_from meta = Ok pd_meta -> metas pd_meta -> pub_dec F P pk = Ok (pub_key mk) ->
  length nonce = nonce_length S -> length nonce' = nonce_length S ->
  (forall ct, eng_encrypt P q (pub_key mk) l random s = Ok ct -> fine (e_prime ct)) ->
  exists e, py_encrypt P F shake S policy_from attributes_from metadata_from meta pol attrs pk pd_plaintext random s nonce nonce' = Ok e /\
    forall i ap b, own i ap b ->
    if grants (firstn i demo_ops) (unrotated (between demo_ops i k) l) ap then decrypt b e = Ok pd_plaintext else is_err (decrypt b e).
Proof using BL HP HF shake_length SL SV Hd Hmk.
  intros (V & Hl & _) Ep El Hne H1 Hlen Em Hm Dpk Hno Hno' Hf. rewrite forallb_forall in H1.
  destruct (C127_message B BL P HP F fine HF shake shake_length S metas SL SV policy_from attributes_from metadata_from 100 demo_ops mdraw ltac:(lia) demo_proper pd_draw
    demo_p2 mk eq_refl Hmk k q pol attrs l meta pd_meta pk pd_plaintext random s nonce nonce' V Ep Hl El Hne) as (e & E & Ho); auto.
  - intros a Ha. apply declared_spec, H1, Ha.
  - discriminate.
  - vm_compute. discriminate.
  - exists e. split; [exact E|]. intros i ap b Hb.
    pose proof (grants_spec (firstn i demo_ops) _ (unrotated (between demo_ops i k) l) ap (unrotated_spec (between demo_ops i k) l)) as G.
    destruct (Ho i ap b Hb) as [[Hs D]|[Hs D]]; destruct (grants _ _ _); auto.
    + exfalso. assert (X : false = true) by (apply G, Hs). discriminate.
    + exfalso. apply Hs, G. reflexivity.
Qed.

Lemma delegate_included : included (firstn 2 demo_ops) fin_mkg_medium top_mkg_fin.
Proof using Type.
  apply in_trans with (AAnd (AAttr (lev "Medium Secret")) (AOr (AAttr (dep "FIN")) (AAttr (dep "MKG")))); [apply in_and_comm|].
  apply in_and; [|apply in_or_comm]. apply in_some; [exact Logic.I|exact Logic.I| |right; split; [exact Logic.I|]].
  - intros x [<-|[]]. apply declared_spec. vm.
  - intros b Hb. apply needed_spec in Hb. apply needed_spec. apply on_spec. apply on_spec in Hb. vm_compute in Hb |- *. intuition.
Qed.

Lemma pd_delegated pol it access del b draw : policy_from pol = Ok demo_p2 -> del_dec F P del = Ok (del_key mk) -> iteration_ok it ->
  access_parse access = Ok fin_mkg_medium -> own 2%nat top_mkg_fin b ->
  exists b', py_generate_delegated_key P F policy_from access_parse it del b access pol draw = Ok b' /\ own 2%nat fin_mkg_medium b'.
Proof using BL HP HF Hmk.
  intros Ep Dd Hit Ea Hb.
  apply (C127_delegated_key B BL P HP F fine HF policy_from access_parse 100 demo_ops mdraw ltac:(lia) demo_proper demo_p2 mk eq_refl Hmk
    2 top_mkg_fin b 2 demo_p2 pol it access fin_mkg_medium del draw Hb demo_two Ep Dd Hit Ea); [discriminate|exact delegate_included| |].
  - intros a Ha. apply declared_spec. destruct Ha as [<-|[<-|[<-|[]]]]; vm.
  - intros a _. rewrite between_nil by lia. intros [].
Qed.
End Calls.

Lemma assert_true x : py_assert_same x x = Ok Datatypes.tt.
Proof using Type. unfold py_assert_same, same_bytes. destruct (list_eq_dec _ x x); [reflexivity|contradiction]. Qed.
Lemma try_err {A} (o : outcome A) : is_err o -> py_try o = Ok true.
Proof using Type. intros (e & ->). reflexivity. Qed.

(** The program ends without an exception: every call succeeds and every assertion holds,
    with every random choice and every order of iteration. Each of the decryptions it
    expects to fail does raise an exception. The delegated key, which it does not use,
    opens the messages of the levels up to Medium Secret of both departments made before
    the rotation, and no other of its messages. *)
Theorem C128_demo it (mdraw : nat -> K) draw random s nonce nonce' :
  (forall i, iteration_ok (it i)) -> (forall i, (i < 100)%nat -> mdraw i <> f0) ->
  metas pd_meta -> (forall i, length (nonce i) = nonce_length S) -> (forall i, length (nonce' i) = nonce_length S) ->
  (forall mk, eng_master_key demo_p2 mdraw = Ok mk -> fine (pub_y (pub_key mk)) /\
     forall q l i ct, eng_encrypt P q (pub_key mk) l (random i) (s i) = Ok ct -> fine (e_prime ct)) ->
  exists r m0 m1 m2 m3, program it mdraw draw random s nonce nonce' = Ok r /\ pd_refused r = [true; true; true] /\
    pd_messages r = [m0; m1; m2; m3] /\
    decrypt (pd_delegate r) m0 = Ok secret_data /\ is_err (decrypt (pd_delegate r) m1) /\
    decrypt (pd_delegate r) m2 = Ok secret_data /\ is_err (decrypt (pd_delegate r) m3).
Proof using BL HP HF shake_length SL SV TX.
  change secret_data with pd_plaintext. intros Hit Hd Hm Hno Hno' Hf. destruct TX as [T1 T2 T3 T4 T5 T6 T7 T8 T9 (pol & J2 & R2) (pol' & J3 & R3)]. unfold py_demo, pd_low_mkg, pd_top_mkg, pd_low_fin.
  assert (Epol : py_generate_policy axes_from policy_json (dump_axes pd_axes) 100 = Ok pol).
  { unfold py_generate_policy. rewrite T1. cbn [bind]. replace (add_axes (new_policy (100 mod u32_modulus)) pd_axes) with (Ok demo_p2) by vm. exact J2. }
  rewrite Epol. cbn [bind].
  destruct (C127_master_keys B BL P HP F fine HF policy_from 100 demo_ops mdraw ltac:(lia) (pd_draw mdraw Hd) 2 demo_p2 pol demo_two R2) as (mk & priv & pub & del & Hmk & Emb & D1 & D2 & D3).
  { intros mk Emk. apply Hf, Emk. }
  destruct (Hf mk Hmk) as [_ Hct]. rewrite Emb. cbn [bind].
  destruct (pd_key mdraw mk Hd Hmk 2 demo_p2 pol (it 0%nat) pd_top_text top_mkg_fin priv (draw 0%nat) dv2 R2 D1 (Hit _) T7) as (top & E & Htop); [vm|cbn; intuition discriminate|vm|discriminate|].
  rewrite E; clear E. cbn [bind].
  destruct (pd_key mdraw mk Hd Hmk 2 demo_p2 pol (it 1%nat) pd_medium_text medium_mkg priv (draw 1%nat) dv2 R2 D1 (Hit _) T8) as (med & E & Hmed); [vm|cbn; intuition discriminate|vm|discriminate|].
  rewrite E; clear E. cbn [bind].
  destruct (pd_message mdraw mk Hd Hmk 2 demo_p2 pol _ _ (dump_uid pd_uid) pub (random 0%nat) (s 0%nat) (nonce 0%nat) (nonce' 0%nat) dv2 R2 T2) as (m0 & E & O0); [discriminate|vm|vm|exact T6|exact Hm|exact D2|apply Hno|apply Hno'|intros ct; apply Hct|].
  rewrite E; clear E. cbn [bind].
  destruct (pd_message mdraw mk Hd Hmk 2 demo_p2 pol _ _ (dump_uid pd_uid) pub (random 1%nat) (s 1%nat) (nonce 1%nat) (nonce' 1%nat) dv2 R2 T3) as (m1 & E & O1); [discriminate|vm|vm|exact T6|exact Hm|exact D2|apply Hno|apply Hno'|intros ct; apply Hct|].
  rewrite E; clear E. cbn [bind].
  destruct (pd_message mdraw mk Hd Hmk 2 demo_p2 pol _ _ (dump_uid pd_uid) pub (random 2%nat) (s 2%nat) (nonce 2%nat) (nonce' 2%nat) dv2 R2 T4) as (m2 & E & O2); [discriminate|vm|vm|exact T6|exact Hm|exact D2|apply Hno|apply Hno'|intros ct; apply Hct|].
  rewrite E; clear E. cbn [bind].
  assert (Dok : forall (c : bool) b e, c = true -> (if c then decrypt b e = Ok pd_plaintext else is_err (decrypt b e)) -> decrypt b e = Ok pd_plaintext) by (intros c b e -> X; exact X).
  assert (Der : forall (c : bool) b e, c = false -> (if c then decrypt b e = Ok pd_plaintext else is_err (decrypt b e)) -> is_err (decrypt b e)) by (intros c b e -> X; exact X).
  rewrite (Dok _ _ _ ltac:(vm) (O0 2%nat medium_mkg med Hmed)). cbn [bind]. rewrite assert_true. cbn [bind].
  rewrite (try_err _ (Der _ _ _ ltac:(vm) (O1 2%nat medium_mkg med Hmed))). cbn [bind].
  rewrite (try_err _ (Der _ _ _ ltac:(vm) (O2 2%nat medium_mkg med Hmed))). cbn [bind].
  rewrite (Dok _ _ _ ltac:(vm) (O0 2%nat top_mkg_fin top Htop)). cbn [bind]. rewrite assert_true. cbn [bind].
  rewrite (Dok _ _ _ ltac:(vm) (O1 2%nat top_mkg_fin top Htop)). cbn [bind]. rewrite assert_true. cbn [bind].
  rewrite (Dok _ _ _ ltac:(vm) (O2 2%nat top_mkg_fin top Htop)). cbn [bind]. rewrite assert_true. cbn [bind].
  assert (Erot : py_rotate_attributes policy_from attributes_from policy_json (dump_strings pd_low) pol = Ok pol').
  { unfold py_rotate_attributes. unfold pd_low; rewrite T5. cbn [bind]. rewrite R2. cbn [bind]. replace (rotate_each demo_p2 [lev "Low Secret"]) with (Ok demo_p3) by vm. exact J3. }
  rewrite Erot. cbn [bind].
  destruct (pd_message mdraw mk Hd Hmk 3 demo_p3 pol' _ _ (dump_uid pd_uid) pub (random 3%nat) (s 3%nat) (nonce 3%nat) (nonce' 3%nat) dv3 R3 T2) as (m3 & E & O3); [discriminate|vm|vm|exact T6|exact Hm|exact D2|apply Hno|apply Hno'|intros ct; apply Hct|].
  rewrite E; clear E. cbn [bind].
  rewrite (try_err _ (Der _ _ _ ltac:(vm) (O3 2%nat medium_mkg med Hmed))). cbn [bind].
  destruct (pd_key mdraw mk Hd Hmk 3 demo_p3 pol' (it 2%nat) pd_medium_text medium_mkg priv (draw 2%nat) dv3 R3 D1 (Hit _) T8) as (med' & E & Hmed'); [vm|cbn; intuition discriminate|vm|discriminate|].
  rewrite E; clear E. cbn [bind].
  rewrite (Dok _ _ _ ltac:(vm) (O3 3%nat medium_mkg med' Hmed')). cbn [bind]. rewrite assert_true. cbn [bind].
  destruct (pd_delegated mdraw mk Hmk pol (it 3%nat) pd_delegate_text del top (draw 3%nat) R2 D3 (Hit _) T9 Htop) as (dk & E & Hdk).
  rewrite E; clear E. cbn [bind].
  eexists. exists m0, m1, m2, m3. split; [reflexivity|]. cbn [pd_refused pd_messages pd_delegate].
  split; [reflexivity|]. split; [reflexivity|].
  split; [exact (Dok _ _ _ ltac:(vm) (O0 2%nat fin_mkg_medium dk Hdk))|].
  split; [exact (Der _ _ _ ltac:(vm) (O1 2%nat fin_mkg_medium dk Hdk))|].
  split; [exact (Dok _ _ _ ltac:(vm) (O2 2%nat fin_mkg_medium dk Hdk))|].
  exact (Der _ _ _ ltac:(vm) (O3 2%nat fin_mkg_medium dk Hdk)).
Qed.
End Demo.

(** ** Example *)
(** texts with a byte each for the values of the program *)
Definition toy_dump_strings (l : list string) : list byte :=
  match l with
  | [_] => [x04]
  | [a; b] => if String.eqb b "Department::FIN" then [x03] else if String.eqb a "Security Level::Low Secret" then [x01] else [x02]
  | _ => []
  end.
Definition toy_attributes (b : list byte) : outcome (list attribute) :=
  match b with
  | [x01] => Ok [lev "Low Secret"; dep "MKG"]
  | [x02] => Ok [lev "Top Secret"; dep "MKG"]
  | [x03] => Ok [lev "Low Secret"; dep "FIN"]
  | [x04] => Ok [lev "Low Secret"]
  | _ => Err Utf8Error
  end.
Definition toy_axes (b : list byte) : outcome (list policy_axis) := match b with [x01] => Ok pd_axes | _ => Err Utf8Error end.
Definition toy_metadata (b : list byte) : outcome metadata := match b with [x01] => Ok pd_meta | _ => Err Utf8Error end.
Definition toy_policy_json (p : policy) : outcome (list byte) := if last_attribute_value p =? last_attribute_value demo_p2 then Ok [x02] else Ok [x03].
Definition toy_policy (b : list byte) : outcome policy := match b with [x02] => Ok demo_p2 | [x03] => Ok demo_p3 | _ => Err Utf8Error end.
Definition toy_access (x : string) : outcome access_policy :=
  if String.eqb x pd_top_text then Ok top_mkg_fin else if String.eqb x pd_medium_text then Ok medium_mkg
  else if String.eqb x pd_delegate_text then Ok fin_mkg_medium else Err Utf8Error.
Lemma toy_texts : texts toy_policy toy_attributes toy_axes toy_metadata toy_policy_json toy_access (fun _ => [x01]) toy_dump_strings (fun _ => [x01]).
Proof.
  constructor; try reflexivity.
  - exists [x02]. split; reflexivity.
  - exists [x03]. split; reflexivity.
Qed.

Example C128_example : exists r m0 m1 m2 m3,
  py_demo pf toy_forms toy_shake toy_sym toy_policy toy_attributes toy_axes toy_metadata toy_policy_json toy_access (fun _ => [x01]) toy_dump_strings (fun _ => [x01])
    (fun _ => it_rev) demo_mdraw demo_kdraw demo_msg demo_scalar (fun _ => ex_nonce) (fun _ => ex_nonce) = Ok r /\
  pd_refused r = [true; true; true] /\ pd_messages r = [m0; m1; m2; m3] /\
  py_decrypt pf toy_forms toy_shake toy_sym (pd_delegate r) m0 = Ok pd_plaintext /\ is_err (py_decrypt pf toy_forms toy_shake toy_sym (pd_delegate r) m1) /\
  py_decrypt pf toy_forms toy_shake toy_sym (pd_delegate r) m2 = Ok pd_plaintext /\ is_err (py_decrypt pf toy_forms toy_shake toy_sym (pd_delegate r) m3).
Proof.
  apply (C128_demo toy toy_laws pf ltac:(cbn; lia) toy_forms (fun _ => True) toy_forms_ok toy_shake toy_shake_length toy_sym short_meta toy_short_laws toy_serves
    _ _ _ _ _ _ _ _ _ toy_texts).
  - intros _. exact it_rev_ok.
  - exact demo_draws.
  - split; [discriminate|]. split; [vm_compute; reflexivity|exact Logic.I].
  - reflexivity.
  - reflexivity.
  - intros mk _. split; [exact Logic.I|]. intros q l i ct _. exact Logic.I.
Qed.

Print Assumptions C128_demo.
