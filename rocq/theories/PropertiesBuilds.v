(** Builds with and without overflow checks, and machines of different sizes: C121. *)
From Coq Require Import String NArith ZArith Bool Arith Lia Strings.Byte ListDec List.
From Verif Require Import Prelude Field LinAlg Msp Spec MspProofs Bilinear Scheme SchemeSpec SchemeProofs Zp ExpModel PropertiesScheme Codec CodecProofs SchemeCodec SchemeCodecProofs
  PropertiesCodec Parser ParserSpec PropertiesParser Policy PolicySpec Engine EngineSpec PropertiesEngine Hybrid Ffi Python Wasm.
Import ListNotations.
Local Open Scope N_scope.

(** ** What is compared *)
(** The first build checks for overflow, and its machine is not larger. *)
Definition checked_below (P1 P0 : platform) : Prop :=
  overflow_checks P1 = true /\ 32 <= usize_bits P1 /\ usize_bits P1 <= usize_bits P0.
(** Why the first build may stop where the second goes on: an overflow, or, on a smaller machine, a vector that is
    larger than its address space. *)
Definition reason (P1 P0 : platform) (p : panic) : Prop :=
  p = ArithmeticOverflow \/ p = CapacityOverflow /\ usize_bits P1 < usize_bits P0.
(** The first build stops for such a reason, or both do the same. *)
Definition agree (P1 P0 : platform) {A} (x y : outcome A) : Prop := x = y \/ exists p, reason P1 P0 p /\ x = Panic p.
Definition agree_c (P1 P0 : platform) {A} (x y : result A) : Prop := x = y \/ exists p, reason P1 P0 p /\ x = Crash p.

(** A program for the WebAssembly functions: the same results up to the first call that stops in this way. *)
Fixpoint agree_until {C A} (P1 P0 : platform) (l1 l0 : list (C * outcome A)) : Prop :=
  match l1, l0 with
  | [], [] => True
  | (c1, x) :: t1, (c0, y) :: t0 => c1 = c0 /\ (x = y /\ agree_until P1 P0 t1 t0 \/ exists p, reason P1 P0 p /\ x = Panic p)
  | _, _ => False
  end.

(** ** Composition *)
Section Agree.
Variables P1 P0 : platform.
Hypothesis H : checked_below P1 P0.
Local Notation "x ~ y" := (agree P1 P0 x y) (at level 70).

Lemma ag_refl {A} (x : outcome A) : x ~ x.
Proof. left. reflexivity. Qed.
Lemma ag_bind {A C} (x y : outcome A) (k k' : A -> outcome C) : x ~ y -> (forall a, k a ~ k' a) -> bind x k ~ bind y k'.
Proof.
  intros [<- | (p & Hp & ->)] Hk.
  - destruct x as [a|e|p]; [apply Hk|left; reflexivity|left; reflexivity].
  - right. exists p. split; [exact Hp|reflexivity].
Qed.
Lemma ag_mapM {A C} (f g : A -> outcome C) l : (forall a, f a ~ g a) -> mapM f l ~ mapM g l.
Proof.
  intros Hf. induction l as [|a l IH]; [apply ag_refl|]. cbn [mapM]. apply ag_bind; [apply Hf|]. intros b. apply ag_bind; [exact IH|]. intros bs. apply ag_refl.
Qed.
Lemma ag_if {A} (b : bool) (x y x' y' : outcome A) : x ~ x' -> y ~ y' -> (if b then x else y) ~ (if b then x' else y').
Proof. destruct b; trivial. Qed.

Lemma moduli : usize_modulus P1 <= usize_modulus P0.
Proof. destruct H as (_ & _ & L). unfold usize_modulus. apply N.pow_le_mono_r; lia. Qed.
Lemma ag_wrap r : usize_wrap P1 r ~ usize_wrap P0 r.
Proof.
  pose proof moduli as M. destruct H as (C & _ & _). unfold usize_wrap. rewrite C.
  destruct ((0 <=? r) && (r <? Z.of_N (usize_modulus P1)))%Z eqn:E.
  - assert (E' : ((0 <=? r) && (r <? Z.of_N (usize_modulus P0)))%Z = true) by lia. rewrite E'. apply ag_refl.
  - right. exists ArithmeticOverflow. split; [left; reflexivity|reflexivity].
Qed.
Lemma ag_i32 a b : i32_add P1 a b ~ i32_add P0 a b.
Proof.
  destruct H as (C & _ & _). unfold i32_add. rewrite C. destruct ((i32_min <=? a + b) && (a + b <=? i32_max))%Z; [apply ag_refl|].
  right. exists ArithmeticOverflow. split; [left; reflexivity|reflexivity].
Qed.
Lemma same_bits : usize_bits P1 = usize_bits P0 \/ usize_bits P1 < usize_bits P0.
Proof. destruct H as (_ & _ & L). lia. Qed.
Lemma ag_reserve2 n1 n0 : (usize_bits P1 = usize_bits P0 -> n1 = n0) -> (n1 < usize_modulus P1 / 2 -> n0 < usize_modulus P0 / 2) -> reserve P1 n1 ~ reserve P0 n0.
Proof.
  intros E L. unfold reserve. destruct (N.ltb_spec n1 (usize_modulus P1 / 2)) as [G|G].
  - apply L in G. apply N.ltb_lt in G. rewrite G. apply ag_refl.
  - destruct same_bits as [Hb|Hb].
    + rewrite <- (E Hb). unfold usize_modulus. rewrite <- Hb. fold (usize_modulus P1).
      destruct (N.ltb_spec n1 (usize_modulus P1 / 2)); [lia|]. apply ag_refl.
    + right. exists CapacityOverflow. split; [right; split; [reflexivity|exact Hb]|reflexivity].
Qed.
Lemma half_le : usize_modulus P1 / 2 <= usize_modulus P0 / 2.
Proof. apply N.div_le_mono; [lia|apply moduli]. Qed.
Lemma ag_reserve n : reserve P1 n ~ reserve P0 n.
Proof. apply ag_reserve2; [reflexivity|]. pose proof half_le. lia. Qed.

(** tables hold words, which are larger on the larger machine, but so is the address space *)
Lemma words_grow : exists d, usize_modulus P0 / 2 = (usize_modulus P1 / 2) * 2 ^ d /\ word P0 <= word P1 * 2 ^ d.
Proof.
  destruct H as (_ & L32 & L). exists (usize_bits P0 - usize_bits P1). set (d := usize_bits P0 - usize_bits P1). split.
  - unfold usize_modulus. replace (usize_bits P0) with (usize_bits P1 - 1 + 1 + d) by (unfold d; lia).
    replace (usize_bits P1) with (usize_bits P1 - 1 + 1) at 2 by lia.
    rewrite !N.pow_add_r. change (2 ^ 1) with 2. rewrite (N.div_mul _ 2) by lia.
    replace (2 ^ (usize_bits P1 - 1) * 2 * 2 ^ d) with (2 ^ (usize_bits P1 - 1) * 2 ^ d * 2) by lia. apply N.div_mul. lia.
  - unfold word. replace (usize_bits P0) with (usize_bits P1 + d) by (unfold d; lia).
    assert (A : (usize_bits P1 + d) / 8 <= usize_bits P1 / 8 + d + 1).
    { apply N.lt_succ_r. apply N.div_lt_upper_bound; [lia|]. pose proof (N.mul_succ_div_gt (usize_bits P1) 8). lia. }
    assert (W : 4 <= usize_bits P1 / 8) by (apply N.div_le_lower_bound; lia).
    destruct (N.eq_dec d 0) as [->|Hd]; [rewrite N.add_0_r; change (2 ^ 0) with 1; lia|].
    assert (D : d + 1 <= 2 ^ d) by (pose proof (N.pow_gt_lin_r 2 d ltac:(lia)); lia).
    nia.
Qed.
Lemma ag_table n : reserve P1 (table_bytes P1 n) ~ reserve P0 (table_bytes P0 n).
Proof.
  apply ag_reserve2.
  - intros E. unfold table_bytes, word. rewrite E. reflexivity.
  - destruct words_grow as (d & Hd & Hw). rewrite Hd. unfold table_bytes. set (t := 2 ^ N.log2_up (n * 8 / 7)). intros G.
    assert (D : 1 <= 2 ^ d) by (pose proof (N.pow_nonzero 2 d ltac:(lia)); lia).
    apply N.le_lt_trans with ((t * (2 * word P1 + 1) + 16) * 2 ^ d); [nia|]. apply N.mul_lt_mono_pos_r; lia.
Qed.
Lemma ag_words n : reserve P1 (n * (3 * word P1)) ~ reserve P0 (n * (3 * word P0)).
Proof.
  apply ag_reserve2.
  - intros E. unfold word. rewrite E. reflexivity.
  - destruct words_grow as (d & Hd & Hw). rewrite Hd. intros G.
    assert (D : 1 <= 2 ^ d) by (pose proof (N.pow_nonzero 2 d ltac:(lia)); lia).
    apply N.le_lt_trans with ((n * (3 * word P1)) * 2 ^ d); [|apply N.mul_lt_mono_pos_r; lia].
    nia.
Qed.

Ltac ag := repeat lazymatch goal with
  | |- usize_wrap _ _ ~ usize_wrap _ _ => apply ag_wrap
  | |- i32_add _ _ _ ~ i32_add _ _ _ => apply ag_i32
  | |- reserve _ (table_bytes _ _) ~ _ => apply ag_table
  | |- reserve _ (_ * (3 * word _)) ~ _ => apply ag_words
  | |- reserve _ _ ~ _ => apply ag_reserve
  | |- ?x ~ ?x => apply ag_refl
  | |- bind _ _ ~ bind _ _ => apply ag_bind; [|intros ?]
  | |- mapM _ _ ~ mapM _ _ => apply ag_mapM; intros ?
  | |- (if ?b then _ else _) ~ _ => destruct b
  | |- (match ?x with _ => _ end) ~ _ => destruct x
  end.

Lemma ag_vec {A} (c : codec A) bytes : vec_dec P1 c bytes ~ vec_dec P0 c bytes.
Proof using H. unfold vec_dec, usize_sub, usize_mul, usize_add. ag. Qed.
Lemma ag_read_attrs bytes l : forall a2r r2a, read_attrs P1 bytes l a2r r2a ~ read_attrs P0 bytes l a2r r2a.
Proof using H.
  induction l as [|i l IH]; intros; [apply ag_refl|]. cbn [read_attrs]. unfold usize_mul, usize_add. ag. apply IH.
Qed.
Lemma ag_entry {I} (c : codec I) bytes base pos len : read_entry P1 c bytes base pos len ~ read_entry P0 c bytes base pos len.
Proof using H. unfold read_entry, usize_mul, usize_add. ag. Qed.
Lemma ag_msp_dec {I} (c : codec I) bytes : msp_dec P1 c bytes ~ msp_dec P0 c bytes.
Proof using H. unfold msp_dec, usize_mul, usize_add. ag; try apply ag_read_attrs; ag; apply ag_entry. Qed.
Lemma ag_msp_enc {I} (c : codec I) m : msp_enc P1 c m ~ msp_enc P0 c m.
Proof using H. unfold msp_enc, usize_mul, usize_add. ag. Qed.

Lemma ag_to_msp_rows c rows : forall i mat m v, to_msp_rows P1 c i rows mat m v ~ to_msp_rows P0 c i rows mat m v.
Proof using H.
  induction rows as [|(f, w) rows IH]; intros; [apply ag_refl|]. cbn [to_msp_rows]. destruct f; [apply ag_refl|apply ag_refl|].
  apply ag_bind; [unfold add_first_column; ag|]. intros v'. destruct (assoc_get m _); [apply ag_refl|]. apply IH.
Qed.
Lemma ag_to_msp f : to_msp P1 f ~ to_msp P0 f.
Proof using H. unfold to_msp. apply ag_bind; [apply ag_refl|]. intros (c, rows). apply ag_bind; [apply ag_to_msp_rows|]. intros ((mat, m), v). apply ag_refl. Qed.
Lemma ag_find_close s : forall n i, find_close P1 s n i ~ find_close P0 s n i.
Proof using H.
  induction s as [|c s IH]; intros; [apply ag_refl|]. cbn [find_close]. ag. apply IH.
Qed.
Lemma ag_parse_fuel fuel : forall s, parse_fuel fuel P1 s ~ parse_fuel fuel P0 s.
Proof using H.
  induction fuel as [|fuel IH]; intros s; [apply ag_refl|]. cbn [parse_fuel]. apply ag_if; [apply ag_refl|].
  destruct (take_digits _) as (digits, rest). destruct digits.
  - destruct (filter _ s) as [|c t]; [apply ag_refl|]. apply ag_if; [apply ag_refl|]. apply ag_if; [apply ag_refl|].
    apply ag_bind; [apply ag_find_close|]. intros close. ag; apply IH.
  - ag; apply IH.
Qed.
Lemma ag_policy_to_msp it p ap : policy_to_msp it P1 p ap ~ policy_to_msp it P0 p ap.
Proof using H. unfold policy_to_msp. destruct ap; ag; apply ag_to_msp. Qed.

Context {B : BilinearMap}.
Variable F : byte_forms B.
Ltac agc := ag; first [apply ag_vec | apply ag_msp_dec | apply ag_msp_enc | apply ag_policy_to_msp | idtac].

Lemma ag_priv bytes : priv_dec F P1 bytes ~ priv_dec F P0 bytes.
Proof using H. unfold priv_dec. agc. Qed.
Lemma ag_pub bytes : pub_dec F P1 bytes ~ pub_dec F P0 bytes.
Proof using H. unfold pub_dec. agc. Qed.
Lemma ag_del bytes : del_dec F P1 bytes ~ del_dec F P0 bytes.
Proof using H. unfold del_dec. agc. Qed.
Lemma ag_user bytes : user_dec F P1 bytes ~ user_dec F P0 bytes.
Proof using H. unfold user_dec. agc. Qed.
Lemma ag_user_enc (k : decryption_key B) : user_enc F P1 k ~ user_enc F P0 k.
Proof using H. unfold user_enc. agc. Qed.
Lemma ag_ct bytes : ct_dec F P1 bytes ~ ct_dec F P0 bytes.
Proof using H. unfold ct_dec. cbv zeta. agc. Qed.
Lemma ag_user_key it p (priv : master_private_key B) ap draw : eng_user_key P1 it p priv ap draw ~ eng_user_key P0 it p priv ap draw.
Proof using H. unfold eng_user_key. agc. Qed.
Lemma ag_delegate it p (del : delegation_key B) uk ap draw : eng_delegate P1 it p del uk ap draw ~ eng_delegate P0 it p del uk ap draw.
Proof using H. unfold eng_delegate. apply ag_bind; [|intros ?; apply ag_refl]. destruct ap; agc. Qed.
Lemma ag_encrypt p (pk : master_public_key B) l msg s : eng_encrypt P1 p pk l msg s ~ eng_encrypt P0 p pk l msg s.
Proof using H. unfold eng_encrypt, encrypt, usize_sub. agc. Qed.

Variable shake : list byte -> nat -> list byte.
Lemma ag_generate p (pk : master_public_key B) l n random s : generate_symmetric_key P1 F shake p pk l n random s ~ generate_symmetric_key P0 F shake p pk l n random s.
Proof using H. unfold generate_symmetric_key. apply ag_bind; [apply ag_encrypt|]. intros ct. ag. Qed.
Lemma ag_open (uk : decryption_key B) b n : decrypt_symmetric_key P1 F shake uk b n ~ decrypt_symmetric_key P0 F shake uk b n.
Proof using H. unfold decrypt_symmetric_key. apply ag_bind; [apply ag_ct|]. intros ct. ag. Qed.

Variable S : sym_scheme.
Lemma ag_split header : split_header P1 header ~ split_header P0 header.
Proof using H. unfold split_header, usize_add. ag. Qed.
Lemma ag_eh header : eh_dec S P1 header ~ eh_dec S P0 header.
Proof using H. unfold eh_dec. apply ag_bind; [apply ag_split|]. intros (key, rest). ag. Qed.
Lemma ag_ch header : ch_dec S P1 header ~ ch_dec S P0 header.
Proof using H. unfold ch_dec. apply ag_bind; [apply ag_split|]. intros (key, rest). ag. Qed.
Lemma ag_seal p (pk : master_public_key B) l meta random s nonce :
  encrypt_hybrid_header S F shake P1 p pk l meta random s nonce ~ encrypt_hybrid_header S F shake P0 p pk l meta random s nonce.
Proof using H. unfold encrypt_hybrid_header. apply ag_bind; [apply ag_generate|]. intros (k, e). ag. Qed.
Lemma ag_unseal (uk : decryption_key B) header : decrypt_hybrid_header S F shake P1 uk header ~ decrypt_hybrid_header S F shake P0 uk header.
Proof using H.
  unfold decrypt_hybrid_header. apply ag_if; [apply ag_refl|]. apply ag_bind; [apply ag_refl|]. intros (size, r). apply ag_bind; [apply ag_refl|]. intros (e, r').
  apply ag_bind; [apply ag_open|]. intros k. ag.
Qed.

(** ** The library *)
(** C121. The functions of the library do the same in every build, unless the one with overflow checks, or for the smaller
    machine, stops for one of the two reasons. *)
Theorem C121_library :
  (forall s, parse P1 s ~ parse P0 s) /\ (forall f, to_msp P1 f ~ to_msp P0 f) /\
  (forall b, priv_dec F P1 b ~ priv_dec F P0 b) /\ (forall b, pub_dec F P1 b ~ pub_dec F P0 b) /\
  (forall b, del_dec F P1 b ~ del_dec F P0 b) /\ (forall b, user_dec F P1 b ~ user_dec F P0 b) /\
  (forall k : decryption_key B, user_enc F P1 k ~ user_enc F P0 k) /\ (forall b, ct_dec F P1 b ~ ct_dec F P0 b) /\
  (forall it p (priv : master_private_key B) ap draw, eng_user_key P1 it p priv ap draw ~ eng_user_key P0 it p priv ap draw) /\
  (forall it p (del : delegation_key B) uk ap draw, eng_delegate P1 it p del uk ap draw ~ eng_delegate P0 it p del uk ap draw) /\
  (forall p (pk : master_public_key B) l msg s, eng_encrypt P1 p pk l msg s ~ eng_encrypt P0 p pk l msg s) /\
  (forall p (pk : master_public_key B) l n random s,
    generate_symmetric_key P1 F shake p pk l n random s ~ generate_symmetric_key P0 F shake p pk l n random s) /\
  (forall (uk : decryption_key B) b n, decrypt_symmetric_key P1 F shake uk b n ~ decrypt_symmetric_key P0 F shake uk b n) /\
  (forall b, eh_dec S P1 b ~ eh_dec S P0 b) /\ (forall b, ch_dec S P1 b ~ ch_dec S P0 b) /\
  (forall p (pk : master_public_key B) l meta random s nonce,
    encrypt_hybrid_header S F shake P1 p pk l meta random s nonce ~ encrypt_hybrid_header S F shake P0 p pk l meta random s nonce) /\
  (forall (uk : decryption_key B) b, decrypt_hybrid_header S F shake P1 uk b ~ decrypt_hybrid_header S F shake P0 uk b).
Proof using H.
  split; [intros s; apply ag_parse_fuel|]. split; [exact ag_to_msp|]. split; [exact ag_priv|]. split; [exact ag_pub|]. split; [exact ag_del|]. split; [exact ag_user|].
  split; [exact ag_user_enc|]. split; [exact ag_ct|]. split; [exact ag_user_key|]. split; [exact ag_delegate|]. split; [exact ag_encrypt|].
  split; [exact ag_generate|]. split; [exact ag_open|]. split; [exact ag_eh|]. split; [exact ag_ch|]. split; [exact ag_seal|exact ag_unseal].
Qed.

(** ** The Python functions *)
Section Python.
Variable policy_from : list byte -> outcome policy.
Variable attributes_from : list byte -> outcome (list attribute).
Variable metadata_from : list byte -> outcome metadata.
Variable access_parse : string -> outcome access_policy.

Lemma ag_py_seal meta pol attrs pk (random : Gt B) s nonce :
  py_encrypt_hybrid_header P1 F shake S policy_from attributes_from metadata_from meta pol attrs pk random s nonce ~
  py_encrypt_hybrid_header P0 F shake S policy_from attributes_from metadata_from meta pol attrs pk random s nonce.
Proof using H. unfold py_encrypt_hybrid_header. ag; first [apply ag_pub|apply ag_seal]. Qed.
Lemma ag_py_unseal uk header : py_decrypt_hybrid_header P1 F shake S uk header ~ py_decrypt_hybrid_header P0 F shake S uk header.
Proof using H. unfold py_decrypt_hybrid_header. ag; first [apply ag_user|apply ag_unseal]. Qed.

Theorem C121_python :
  (forall it priv access pol draw,
    py_generate_user_private_key P1 F policy_from access_parse it priv access pol draw ~
    py_generate_user_private_key P0 F policy_from access_parse it priv access pol draw) /\
  (forall it del uk access pol draw,
    py_generate_delegated_key P1 F policy_from access_parse it del uk access pol draw ~
    py_generate_delegated_key P0 F policy_from access_parse it del uk access pol draw) /\
  (forall meta pol attrs pk random s nonce,
    py_encrypt_hybrid_header P1 F shake S policy_from attributes_from metadata_from meta pol attrs pk random s nonce ~
    py_encrypt_hybrid_header P0 F shake S policy_from attributes_from metadata_from meta pol attrs pk random s nonce) /\
  (forall uk header, py_decrypt_hybrid_header P1 F shake S uk header ~ py_decrypt_hybrid_header P0 F shake S uk header) /\
  (forall meta pol attrs pk plaintext random s nonce nonce',
    py_encrypt P1 F shake S policy_from attributes_from metadata_from meta pol attrs pk plaintext random s nonce nonce' ~
    py_encrypt P0 F shake S policy_from attributes_from metadata_from meta pol attrs pk plaintext random s nonce nonce') /\
  (forall uk message, py_decrypt P1 F shake S uk message ~ py_decrypt P0 F shake S uk message).
Proof using H.
  split; [intros; unfold py_generate_user_private_key; ag; first [apply ag_priv|apply ag_user_key|apply ag_user_enc]|].
  split; [intros; unfold py_generate_delegated_key; ag; first [apply ag_del|apply ag_user|apply ag_delegate|apply ag_user_enc]|].
  split; [exact ag_py_seal|]. split; [exact ag_py_unseal|].
  split; [intros; unfold py_encrypt; ag; apply ag_py_seal|].
  intros. unfold py_decrypt, usize_add. ag. apply ag_py_unseal.
Qed.
End Python.

(** ** The WebAssembly functions *)
Section Wasm.
Variable policy_from : list byte -> outcome policy.
Variable access_parse : string -> outcome access_policy.
Variable attributes_parse : string -> outcome (list attribute).
Variable sticky : bool.

Lemma ag_w_header p (pk : master_public_key B) attrs u random s nonce :
  w_header P1 F shake S attributes_parse p pk attrs u random s nonce ~ w_header P0 F shake S attributes_parse p pk attrs u random s nonce.
Proof using H. unfold w_header. ag. apply ag_seal. Qed.
Lemma ag_w_open (uk : decryption_key B) header : w_open P1 F shake S uk header ~ w_open P0 F shake S uk header.
Proof using H. unfold w_open. ag. apply ag_unseal. Qed.

Theorem C121_wasm :
  (forall it priv access pol draw,
    w_generate_user_private_key P1 F policy_from access_parse it priv access pol draw ~
    w_generate_user_private_key P0 F policy_from access_parse it priv access pol draw) /\
  (forall pol pk attrs u random s nonce,
    w_encrypt_hybrid_header P1 F shake S policy_from attributes_parse pol pk attrs u random s nonce ~
    w_encrypt_hybrid_header P0 F shake S policy_from attributes_parse pol pk attrs u random s nonce) /\
  (forall uk header, w_decrypt_hybrid_header P1 F shake S uk header ~ w_decrypt_hybrid_header P0 F shake S uk header).
Proof using H.
  split; [intros; unfold w_generate_user_private_key; ag; first [apply ag_priv|apply ag_user_key|apply ag_user_enc]|].
  split; [intros; unfold w_encrypt_hybrid_header; ag; first [apply ag_pub|apply ag_w_header]|].
  intros. unfold w_decrypt_hybrid_header. ag; first [apply ag_user|apply ag_w_open].
Qed.

Lemma create_agree {V} (v1 v0 : outcome V) c : v1 ~ v0 ->
  cache_create sticky v1 c = cache_create sticky v0 c \/ exists p, reason P1 P0 p /\ fst (cache_create sticky v1 c) = Panic p.
Proof. intros [-> | (p & Hp & ->)]; [left; reflexivity|]. right. exists p. split; [exact Hp|reflexivity]. Qed.
Lemma use_agree {V A} h (f1 f0 : V -> outcome A) c : (forall v, f1 v ~ f0 v) ->
  cache_use h f1 c = cache_use h f0 c \/ exists p, reason P1 P0 p /\ fst (cache_use h f1 c) = Panic p.
Proof.
  intros Hf. unfold cache_use. destruct (w_mode c <? 0)%Z; [left; reflexivity|]. destruct (w_map c h) as [v|]; [|left; reflexivity].
  destruct (Hf v) as [-> | (p & Hp & ->)]; [left; reflexivity|]. right. exists p. split; [exact Hp|reflexivity].
Qed.
Lemma exec_agree c st :
  w_exec P1 F shake S policy_from attributes_parse sticky c st = w_exec P0 F shake S policy_from attributes_parse sticky c st \/
  exists p, reason P1 P0 p /\ fst (w_exec P1 F shake S policy_from attributes_parse sticky c st) = Panic p.
Proof using H.
  destruct c as [pol pk|h|h attrs u random s nonce|uk|h|h header]; cbn [w_exec].
  - destruct (create_agree (w_encryption_cache P1 F policy_from pol pk) (w_encryption_cache P0 F policy_from pol pk) (w_enc st)) as [-> | (p & Hp & E)];
      [unfold w_encryption_cache; ag; apply ag_pub|left; reflexivity|]. right. exists p. split; [exact Hp|]. unfold on_enc. cbn [fst]. rewrite E. reflexivity.
  - left. reflexivity.
  - destruct (use_agree h (fun v => w_header P1 F shake S attributes_parse (fst v) (snd v) attrs u random s nonce)
      (fun v => w_header P0 F shake S attributes_parse (fst v) (snd v) attrs u random s nonce) (w_enc st)) as [-> | (p & Hp & E)];
      [intros v; apply ag_w_header|left; reflexivity|]. right. exists p. split; [exact Hp|]. unfold on_enc. cbn [fst]. rewrite E. reflexivity.
  - destruct (create_agree (w_decryption_cache P1 F uk) (w_decryption_cache P0 F uk) (w_dec st)) as [-> | (p & Hp & E)];
      [unfold w_decryption_cache; ag; apply ag_user|left; reflexivity|]. right. exists p. split; [exact Hp|]. unfold on_dec. cbn [fst]. rewrite E. reflexivity.
  - left. reflexivity.
  - destruct (use_agree h (fun k => w_open P1 F shake S k header) (fun k => w_open P0 F shake S k header) (w_dec st)) as [-> | (p & Hp & E)];
      [intros v; apply ag_w_open|left; reflexivity|]. right. exists p. split; [exact Hp|]. unfold on_dec. cbn [fst]. rewrite E. reflexivity.
Qed.
Theorem C121_wasm_caches cs : forall st,
  agree_until P1 P0 (fst (w_run P1 F shake S policy_from attributes_parse sticky cs st)) (fst (w_run P0 F shake S policy_from attributes_parse sticky cs st)).
Proof using H.
  induction cs as [|c cs IH]; intros st; [exact I|]. cbn [w_run].
  pose proof (exec_agree c st) as E.
  destruct (w_exec P1 F shake S policy_from attributes_parse sticky c st) as (r1, s1). destruct (w_exec P0 F shake S policy_from attributes_parse sticky c st) as (r0, s0).
  specialize (IH s0). cbn [fst] in E.
  destruct (w_run P1 F shake S policy_from attributes_parse sticky cs s1) as (t1, e1) eqn:R1.
  destruct (w_run P0 F shake S policy_from attributes_parse sticky cs s0) as (t0, e0) eqn:R0.
  cbn [fst agree_until]. split; [reflexivity|]. destruct E as [E | E]; [|right; exact E]. left. injection E as -> ->. split; [reflexivity|].
  rewrite R1 in IH. exact IH.
Qed.
End Wasm.

(** ** The C functions *)
(** Here the two machines have words of the same size: announced lengths and block numbers are converted to them. *)
Section C.
Hypothesis W : usize_bits P1 = usize_bits P0.
Variable policy_from : list byte -> outcome policy.
Variable attributes_from : list byte -> outcome (list attribute).
Variable access_from : list byte -> outcome access_policy.

Lemma agc_refl {A} (x : result A) : agree_c P1 P0 x x.
Proof. left. reflexivity. Qed.
Lemma agc_then {A C} (x y : ffi A) (k k' : A -> ffi C) outs :
  agree_c P1 P0 (x outs) (y outs) -> (forall a outs, agree_c P1 P0 (k a outs) (k' a outs)) -> agree_c P1 P0 (andthen x k outs) (andthen y k' outs).
Proof.
  intros [E | (p & Hp & E)] Hk; unfold andthen; rewrite E.
  - destruct (y outs); [apply Hk|left; reflexivity|left; reflexivity|left; reflexivity].
  - right. exists p. split; [exact Hp|reflexivity].
Qed.
Lemma agc_unwrap {A} (x y : outcome A) outs : x ~ y -> agree_c P1 P0 (unwrap x outs) (unwrap y outs).
Proof. intros [-> | (p & Hp & ->)]; [apply agc_refl|]. right. exists p. split; [exact Hp|reflexivity]. Qed.
Lemma as_usize_same z : as_usize P1 z = as_usize P0 z.
Proof. unfold as_usize, usize_modulus. rewrite W. reflexivity. Qed.
Lemma deliver_same i d outs : deliver P1 i d outs = deliver P0 i d outs.
Proof. unfold deliver. destruct (nth_error outs i) as [([mem|], [len|])|]; try reflexivity. rewrite as_usize_same. reflexivity. Qed.
Lemma deliver_late_same i d outs : deliver_late P1 i d outs = deliver_late P0 i d outs.
Proof. unfold deliver_late. destruct (nth_error outs i) as [([mem|], [len|])|]; try reflexivity. rewrite as_usize_same. reflexivity. Qed.
Lemma deliver_expected_same i d outs : deliver_expected P1 i d outs = deliver_expected P0 i d outs.
Proof.
  unfold deliver_expected. destruct (nth_error outs i) as [o|]; [|reflexivity]. destruct (o_mem o); [|reflexivity]. destruct (o_len o); [|reflexivity].
  destruct (0 <? z)%Z; [|reflexivity]. destruct d; [apply deliver_same|reflexivity].
Qed.

Ltac agf := repeat lazymatch goal with
  | |- agree_c _ _ (deliver _ _ _ _) _ => rewrite deliver_same; apply agc_refl
  | |- agree_c _ _ (deliver_late _ _ _ _) _ => rewrite deliver_late_same; apply agc_refl
  | |- agree_c _ _ (deliver_expected _ _ _ _) _ => rewrite deliver_expected_same; apply agc_refl
  | |- agree_c _ _ ?x ?x => apply agc_refl
  | |- agree_c _ _ (andthen _ _ _) _ => apply agc_then; [|intros ? ?]
  | |- agree_c _ _ (unwrap _ _) _ => apply agc_unwrap
  end.

Theorem C121_c :
  (forall pol pk attrs u ad random s nonce outs, agree_c P1 P0
    (h_aes_encrypt_header P1 F shake S policy_from attributes_from pol pk attrs u ad random s nonce outs)
    (h_aes_encrypt_header P0 F shake S policy_from attributes_from pol pk attrs u ad random s nonce outs)) /\
  (forall header uk outs, agree_c P1 P0 (h_aes_decrypt_header P1 F shake S header uk outs) (h_aes_decrypt_header P0 F shake S header uk outs)) /\
  (forall pol pk outs, agree_c P1 P0 (encryption_cache_of P1 F policy_from pol pk outs) (encryption_cache_of P0 F policy_from pol pk outs)) /\
  (forall uk outs, agree_c P1 P0 (decryption_cache_of P1 F uk outs) (decryption_cache_of P0 F uk outs)) /\
  (forall (cache : Z -> option (policy * master_public_key B)) handle attrs u ad random s nonce outs, agree_c P1 P0
    (h_aes_encrypt_header_using_cache P1 F shake S attributes_from cache handle attrs u ad random s nonce outs)
    (h_aes_encrypt_header_using_cache P0 F shake S attributes_from cache handle attrs u ad random s nonce outs)) /\
  (forall cache handle header outs, agree_c P1 P0
    (h_aes_decrypt_header_using_cache P1 F shake S cache handle header outs) (h_aes_decrypt_header_using_cache P0 F shake S cache handle header outs)) /\
  (forall key u number data nonce outs,
    h_aes_encrypt_block P1 S key u number data nonce outs = h_aes_encrypt_block P0 S key u number data nonce outs) /\
  (forall key u number data outs, h_aes_decrypt_block P1 S key u number data outs = h_aes_decrypt_block P0 S key u number data outs) /\
  (forall it priv access pol draw outs, agree_c P1 P0
    (h_generate_user_private_key P1 F policy_from access_from it priv access pol draw outs)
    (h_generate_user_private_key P0 F policy_from access_from it priv access pol draw outs)).
Proof using H W.
  assert (D : forall h outs, agree_c P1 P0 (deliver_header P1 h outs) (deliver_header P0 h outs)) by (intros; unfold deliver_header; agf).
  assert (E : forall c outs, agree_c P1 P0 (deliver_clear P1 c outs) (deliver_clear P0 c outs)) by (intros; unfold deliver_clear; agf).
  split; [intros; unfold h_aes_encrypt_header; agf; first [apply ag_pub|apply ag_seal|apply D]|].
  split; [intros; unfold h_aes_decrypt_header; agf; first [apply ag_user|apply ag_unseal|apply E]|].
  split; [intros; unfold encryption_cache_of; agf; apply ag_pub|].
  split; [intros; unfold decryption_cache_of; agf; apply ag_user|].
  split; [intros; unfold h_aes_encrypt_header_using_cache; agf; destruct (cache handle) as [(p, pk)|]; agf; first [apply ag_seal|apply D]|].
  split; [intros; unfold h_aes_decrypt_header_using_cache; agf; destruct (cache handle) as [uk|]; agf; first [apply ag_unseal|apply E]|].
  assert (A : forall x y : result unit, agree_c P1 P0 x y -> (forall p, x <> Crash p) -> x = y) by (intros x y [-> | (p & _ & ->)] N; [reflexivity|destruct (N p eq_refl)]).
  split; [intros; unfold h_aes_encrypt_block; rewrite as_usize_same; unfold andthen|].
  { destruct (check_out _ _ _); try reflexivity. destruct (input_bytes key _ _); try reflexivity. destruct (input_bytes data _ _); try reflexivity.
    destruct (unwrap _ _); try reflexivity. destruct (unwrap _ _); try reflexivity. apply deliver_late_same. }
  split; [intros; unfold h_aes_decrypt_block; rewrite as_usize_same; unfold andthen|].
  { destruct (check_out _ _ _); try reflexivity. destruct (input_bytes key _ _); try reflexivity. destruct (input_bytes data _ _); try reflexivity.
    destruct (unwrap _ _); try reflexivity. destruct (unwrap _ _); try reflexivity. apply deliver_late_same. }
  intros. unfold h_generate_user_private_key. agf; first [apply ag_priv|apply ag_user_key|apply ag_user_enc].
Qed.
End C.
End Agree.

(** ** Where nothing can differ *)
Lemma agree_ok {A} P1 P0 (x y : outcome A) : agree P1 P0 x y -> is_ok x \/ is_err x -> x = y.
Proof. intros [E | (p & _ & ->)] [(a & K) | (e & K)]; try exact E; discriminate. Qed.

(** Formulas, programs, keys and ciphertexts made by the engine are the same on every machine and in every build; texts
    of formulas are parsed to the same if they have less than 2^31 characters, and encryption is the same if the public
    key has a slot. *)
Theorem C121_no_difference {B : BilinearMap} P Q :
  (forall s, below_2GiB s -> parse P s = parse Q s) /\
  (forall f, to_msp P f = to_msp Q f) /\ (forall it p ap, policy_to_msp it P p ap = policy_to_msp it Q p ap) /\
  (forall it p (priv : master_private_key B) ap draw, eng_user_key P it p priv ap draw = eng_user_key Q it p priv ap draw) /\
  (forall it p (del : delegation_key B) uk ap draw, eng_delegate P it p del uk ap draw = eng_delegate Q it p del uk ap draw) /\
  (forall p (pk : master_public_key B) l msg s, pub_t pk <> [] -> N.of_nat (length (pub_t pk)) < usize_modulus P ->
    N.of_nat (length (pub_t pk)) < usize_modulus Q -> eng_encrypt P p pk l msg s = eng_encrypt Q p pk l msg s).
Proof.
  assert (T : forall f, to_msp P f = to_msp Q f).
  { intros f. destruct (ListDec.NoDup_dec N.eq_dec (leaves f)) as [N | N].
    - destruct (to_msp_ok P f N) as (r1 & R1 & ->). destruct (to_msp_ok Q f N) as (r0 & R0 & ->).
      destruct R1 as (E1 & _). destruct R0 as (E0 & _). rewrite E1 in E0. apply Ok_inj in E0. injection E0 as <-. reflexivity.
    - rewrite (to_msp_dup P f N), (to_msp_dup Q f N). reflexivity. }
  assert (T' : forall it p ap, policy_to_msp it P p ap = policy_to_msp it Q p ap).
  { intros it p ap. unfold policy_to_msp. destruct ap; try (destruct (policy_to_formula _ _ _); [cbn [bind]; apply T|reflexivity|reflexivity]).
    destruct (reduce_or _); [apply T|reflexivity]. }
  split.
  { intros s Hs. set (R := mkPlatform 32 true).
    assert (A : forall X, parse R s = parse X s).
    { intros X. destruct (N.le_gt_cases 32 (usize_bits X)) as [L|L].
      - apply (agree_ok R X); [|apply C32_parser_never_panics, Hs]. apply ag_parse_fuel. split; [reflexivity|]. split; [cbn; lia|exact L].
      - set (Y := mkPlatform 64 (overflow_checks X)). transitivity (parse Y s).
        + apply (agree_ok R Y); [|apply C32_parser_never_panics, Hs]. apply ag_parse_fuel. split; [reflexivity|]. split; cbn; lia.
        + assert (I : forall a b, i32_add Y a b = i32_add X a b) by reflexivity.
          assert (J : forall t n i, find_close Y t n i = find_close X t n i).
          { induction t as [|c t IH]; intros n i; [reflexivity|]. cbn [find_close]. rewrite !I.
            destruct (if c =? ch_open then _ else _); cbn [bind]; [|reflexivity|reflexivity]. rewrite IH. reflexivity. }
          assert (G : forall fuel t, parse_fuel fuel Y t = parse_fuel fuel X t); [|apply G].
          induction fuel as [|fuel IH]; intros t; [reflexivity|]. cbn [parse_fuel].
          destruct (_ || _); [reflexivity|]. destruct (take_digits _) as (ds, rest). destruct ds.
          * destruct (filter _ t); [reflexivity|]. destruct (negb _); [reflexivity|]. destruct (negb _); [reflexivity|]. rewrite J.
            destruct (find_close X l 0 0); cbn [bind]; [|reflexivity|reflexivity]. destruct (slice l 0 _); cbn [bind]; [|reflexivity|reflexivity].
            destruct (slice_from l _); cbn [bind]; [|reflexivity|reflexivity]. destruct (slice_from _ _) as [[|c t']| |]; cbn [bind]; rewrite ?IH; reflexivity.
          * destruct (parse_u32 _); cbn [bind]; [|reflexivity|reflexivity]. destruct rest; [reflexivity|]. rewrite IH. reflexivity. }
    rewrite <- (A P). apply A. }
  split; [exact T|]. split; [exact T'|].
  split; [intros; unfold eng_user_key; rewrite T'; reflexivity|].
  split; [intros; unfold eng_delegate; destruct ap; rewrite ?T'; reflexivity|].
  intros p pk l msg s N0 L1 L0. unfold eng_encrypt. destruct (attributes_values p l) as [vals| |]; cbn [bind]; [|reflexivity|reflexivity].
  unfold encrypt. destruct (Nat.leb _ _); [|reflexivity]. destruct (pub_t pk) as [|t ts]; [contradiction|].
  rewrite !usize_sub_exact; try assumption; [reflexivity|cbn [length]; lia|cbn [length]; lia].
Qed.

(** Decoding on 64 bits: the same in both builds if the announced numbers of elements are not zero. *)
Section Decoders.
Context {B : BilinearMap}.
Variable F : byte_forms B.
Variables P Q : platform.
Hypothesis HP : 64 <= usize_bits P.
Hypothesis W : usize_bits P = usize_bits Q.

Lemma modulus_64 : usize_modulus Q = usize_modulus P /\ 18446744073709551616 <= usize_modulus P.
Proof using HP W.
  unfold usize_modulus. rewrite <- W. split; [reflexivity|]. change 18446744073709551616 with (2 ^ 64). apply N.pow_le_mono_r; lia.
Qed.
Lemma reserve_same n : reserve P n = reserve Q n.
Proof using W. unfold reserve, usize_modulus. rewrite W. reflexivity. Qed.
Lemma add_same a b : a + b < 18446744073709551616 -> usize_add P a b = Ok (a + b) /\ usize_add Q a b = Ok (a + b).
Proof using HP W. intros L. destruct modulus_64 as (E & G). split; apply usize_add_exact; lia. Qed.
Lemma mul_same a b : a * b < 18446744073709551616 -> usize_mul P a b = Ok (a * b) /\ usize_mul Q a b = Ok (a * b).
Proof using HP W. intros L. destruct modulus_64 as (E & G). split; apply usize_mul_exact; lia. Qed.

Lemma vec_same {A} (c : codec A) bytes : (forall a, clen c a <= 288) -> from_be (firstn 4 bytes) <> 0 -> vec_dec P c bytes = vec_dec Q c bytes.
Proof using HP W.
  intros Hc Hn. destruct modulus_64 as (E & G). unfold vec_dec. destruct bytes as [|b0 bt]; [reflexivity|]. remember (b0 :: bt) as bytes eqn:Eb. clear b0 bt Eb.
  destruct (blen bytes <=? 4); [reflexivity|]. set (n := from_be (firstn 4 bytes)) in *.
  destruct (N.leb_spec u32_MAX n) as [|Ln]; [reflexivity|]. unfold u32_MAX in Ln.
  destruct (slice_fromN bytes 4); cbn [bind]; [|reflexivity|reflexivity]. destruct (dec c a) as [r0| |]; cbn [bind]; [|reflexivity|reflexivity].
  specialize (Hc r0). set (k := clen c r0) in *.
  rewrite !usize_sub_exact by lia. cbn [bind]. destruct (mul_same (n - 1) k) as (-> & ->); [nia|]. cbn [bind].
  destruct (add_same 4 ((n - 1) * k)) as (-> & ->); [nia|]. cbn [bind]. destruct (_ <=? _); [reflexivity|]. rewrite reserve_same.
  destruct (reserve Q _); cbn [bind]; [|reflexivity|reflexivity].
  erewrite mapM_ext; [reflexivity|]. intros i Hi. unfold range in Hi. apply in_map_iff in Hi as (j & <- & Hj). apply in_seq in Hj.
  destruct (mul_same (N.of_nat j) k) as (-> & ->); [nia|]. cbn [bind]. destruct (add_same 4 (N.of_nat j * k)) as (-> & ->); [nia|]. reflexivity.
Qed.

Lemma attrs_same bytes l : Forall (fun i => i < 4294967296) l -> forall a2r r2a, read_attrs P bytes l a2r r2a = read_attrs Q bytes l a2r r2a.
Proof using HP W.
  induction l as [|i l IH]; intros Hl a2r r2a; [reflexivity|]. apply Forall_cons_iff in Hl as (Hi & Hl). cbn [read_attrs].
  destruct (mul_same i 4) as (-> & ->); [lia|]. cbn [bind]. destruct (add_same 8 (i * 4)) as (-> & ->); [lia|]. cbn [bind].
  destruct (add_same 12 (i * 4)) as (-> & ->); [lia|]. cbn [bind]. destruct (slice_fromN bytes _); cbn [bind]; [|reflexivity|reflexivity].
  destruct (slice a 0 _); cbn [bind]; [|reflexivity|reflexivity]. destruct (assoc_get a2r _); [reflexivity|]. apply IH, Hl.
Qed.
Lemma in_range a n i : In i (range a n) -> a <= i < n.
Proof. unfold range. intros Hi. apply in_map_iff in Hi as (j & <- & Hj). apply in_seq in Hj. lia. Qed.
Lemma count_bound b : from_be (firstn 4 b) < 4294967296 \/ blen b < 4.
Proof.
  destruct (N.lt_ge_cases (blen b) 4) as [L|L]; [right; exact L|]. left. apply from_be_range. apply firstn_length_le. unfold blen in L. lia.
Qed.

(** Programs that take less than 2^28 bytes. *)
Lemma msp_same (bytes : list byte) : blen bytes < 268435456 -> msp_dec P (scalar_codec F) bytes = msp_dec Q (scalar_codec F) bytes.
Proof using HP W.
  intros Hb. unfold msp_dec. destruct (N.ltb_spec (blen bytes) 8) as [|H8]; [reflexivity|].
  assert (Lr : from_be (firstn 4 bytes) < 4294967296) by (destruct (count_bound bytes); [assumption|lia]).
  assert (Lc : from_be (firstn 4 (skipn 4 bytes)) < 4294967296).
  { destruct (count_bound (skipn 4 bytes)) as [|L]; [assumption|]. unfold blen in L, H8. rewrite skipn_length in L. lia. }
  set (nr := from_be (firstn 4 bytes)) in *. set (nc := from_be (firstn 4 (skipn 4 bytes))) in *.
  destruct (mul_same 4 nr) as (-> & ->); [lia|]. cbn [bind]. destruct (add_same 8 (4 * nr)) as (-> & ->); [lia|]. cbn [bind].
  destruct (N.ltb_spec (blen bytes) (8 + 4 * nr)) as [|Hr]; [reflexivity|].
  rewrite (reserve_same (nr * 4)). destruct (reserve Q _); cbn [bind]; [|reflexivity|reflexivity].
  replace (table_bytes P nr) with (table_bytes Q nr) by (unfold table_bytes, word; rewrite W; reflexivity).
  rewrite (reserve_same (table_bytes Q nr)). destruct (reserve Q (table_bytes _ _)); cbn [bind]; [|reflexivity|reflexivity].
  rewrite attrs_same; [|apply Forall_forall; intros i Hi; apply in_range in Hi; lia].
  destruct (read_attrs Q bytes _ _ _) as [(a2r, r2a)| |]; cbn [bind]; [|reflexivity|reflexivity].
  replace (word P) with (word Q) by (unfold word; rewrite W; reflexivity).
  rewrite (reserve_same (nr * (3 * word Q))). destruct (reserve Q (nr * (3 * word Q))); cbn [bind]; [|reflexivity|reflexivity].
  rewrite (reserve_same (nc * _)). destruct (reserve Q (nc * _)); cbn [bind]; [|reflexivity|reflexivity].
  destruct (slice_fromN bytes _) as [t| |]; cbn [bind]; [|reflexivity|reflexivity]. destruct (dec (scalar_codec F) t) as [x0| |]; cbn [bind]; [|reflexivity|reflexivity].
  change (clen (scalar_codec F) x0) with 32.
  assert (M : nr * nc < 288230376151711744) by nia.
  destruct (mul_same nr nc) as (-> & ->); [lia|]. cbn [bind]. destruct (mul_same (nr * nc) 32) as (-> & ->); [lia|]. cbn [bind].
  destruct (add_same (8 + 4 * nr) (nr * nc * 32)) as (-> & ->); [lia|]. cbn [bind]. destruct (_ <? _); [reflexivity|].
  assert (RE : forall pos, pos < nr * nc + nc -> read_entry P (scalar_codec F) bytes (8 + 4 * nr) pos 32 = read_entry Q (scalar_codec F) bytes (8 + 4 * nr) pos 32).
  { intros pos Hp. unfold read_entry. destruct (mul_same pos 32) as (-> & ->); [lia|]. cbn [bind].
    destruct (add_same (8 + 4 * nr) (pos * 32)) as (-> & ->); [lia|]. reflexivity. }
  rewrite (mapM_ext (fun col => read_entry P (scalar_codec F) bytes (8 + 4 * nr) col 32) (fun col => read_entry Q (scalar_codec F) bytes (8 + 4 * nr) col 32));
    [|intros i Hi; apply in_range in Hi; apply RE; nia].
  destruct (mapM _ (range 1 nc)); cbn [bind]; [|reflexivity|reflexivity].
  erewrite mapM_ext; [reflexivity|]. intros r Hr'. apply in_range in Hr'. apply mapM_ext. intros col Hcol. apply in_range in Hcol.
  destruct (mul_same r nc) as (-> & ->); [nia|]. cbn [bind]. destruct (add_same (r * nc) col) as (-> & ->); [nia|]. cbn [bind]. apply RE. nia.
Qed.

Definition announced (bytes : list byte) : N := from_be (firstn 4 bytes).
Theorem C121_decoders bytes : announced bytes <> 0 ->
  priv_dec F P bytes = priv_dec F Q bytes /\ pub_dec F P bytes = pub_dec F Q bytes /\ del_dec F P bytes = del_dec F Q bytes /\
  (blen bytes < 268435456 -> user_dec F P bytes = user_dec F Q bytes) /\
  (announced (skipn (N.to_nat (4 + 4 * announced bytes)) bytes) <> 0 -> ct_dec F P bytes = ct_dec F Q bytes).
Proof using HP W.
  intros Hn. assert (K : forall a : bm_K B, clen (scalar_codec F) a <= 288) by (intros; cbn; lia).
  assert (K2 : forall a, clen (g2_codec F) a <= 288) by (intros; cbn; lia). assert (K3 : forall a, clen (g3_codec F) a <= 288) by (intros; cbn; lia).
  split; [unfold priv_dec; rewrite (vec_same _ _ K Hn); reflexivity|]. split; [unfold pub_dec; rewrite (vec_same _ _ K2 Hn); reflexivity|].
  split; [unfold del_dec; rewrite (vec_same _ _ K3 Hn); reflexivity|]. split.
  - intros Hb. unfold user_dec. destruct bytes as [|b0 bt]; [reflexivity|]. rewrite (vec_same _ _ K3 Hn).
    destruct (vec_dec Q _ _); cbn [bind]; [|reflexivity|reflexivity]. destruct (slice_fromN _ _) eqn:Es; cbn [bind]; [|reflexivity|reflexivity].
    rewrite msp_same; [reflexivity|]. unfold slice_fromN in Es. destruct (_ <=? _); [|discriminate]. apply Ok_inj in Es. subst. unfold blen in *. rewrite skipn_length. lia.
  - intros Hn2. unfold ct_dec. rewrite (vec_same u32_codec); [|intros; cbn; lia|exact Hn].
    destruct (vec_dec Q u32_codec bytes) as [g| |] eqn:Eg; cbn [bind]; [|reflexivity|reflexivity].
    destruct (slice_fromN bytes (vec_len u32_codec g)) as [r| |] eqn:Es; cbn [bind]; [|reflexivity|reflexivity].
    rewrite (vec_same _ _ K2); [reflexivity|].
    assert (Lg : vec_len u32_codec g = 4 + 4 * announced bytes \/ bytes = []).
    { unfold vec_dec in Eg. destruct bytes as [|b0 bt]; [right; reflexivity|]. left. remember (b0 :: bt) as bytes eqn:Eb. clear b0 bt Eb.
      fold (announced bytes) in Eg. destruct (_ <=? _); [discriminate|]. destruct (_ <=? _); [discriminate|].
      apply bind_ok in Eg as (t & _ & Eg). apply bind_ok in Eg as (r0 & _ & Eg). cbv zeta in Eg. apply bind_ok in Eg as (? & _ & Eg). apply bind_ok in Eg as (? & _ & Eg).
      apply bind_ok in Eg as (? & _ & Eg). destruct (_ <=? _); [discriminate|]. apply bind_ok in Eg as (? & _ & Eg). apply bind_ok in Eg as (rest & Er & Eg).
      apply Ok_inj in Eg. subst g. apply mapM_length in Er. unfold range in Er. rewrite map_length, seq_length in Er.
      unfold vec_len. change (clen u32_codec r0) with 4. cbn [length]. rewrite Er. unfold announced in *. lia. }
    destruct Lg as [Lg | ->]; [|destruct Hn; reflexivity]. rewrite Lg in Es. unfold slice_fromN in Es. destruct (_ <=? _); [|discriminate]. apply Ok_inj in Es. subst r. exact Hn2.
Qed.
End Decoders.

Local Ltac vmr x := vm_cast_no_check (eq_refl x).
Definition debug32 : platform := mkPlatform 32 true.

(** The builds do differ: a ciphertext whose number of attributes was changed from 1 to 0 stops the one with overflow
    checks and is opened by the other. *)
Theorem C121_refuted : exists bytes ct, checked_below debug64 release64 /\
  ct_dec toy_forms debug64 bytes = Panic ArithmeticOverflow /\ ct_dec toy_forms release64 bytes = Ok ct /\ decrypt ct ex_uk = decrypt (ex_ct [4]) ex_uk.
Proof.
  exists ex_altered, (ex_ct [4]). split; [split; [reflexivity|split; cbn; lia]|]. split; [vmr (@Panic (ciphertext toy) ArithmeticOverflow)|].
  split; [vmr (@Ok (ciphertext toy) (ex_ct [4]))|reflexivity].
Qed.

(** A program that announces one row of 2^26 entries. *)
Definition wide_program : list byte := be32 1 ++ be32 67108864 ++ be32 1 ++ repeat x00 32.
Definition c121_key : list byte := bytes_of (user_enc toy_forms pf ex_uk).
Example C121_example :
  checked_below debug64 release64 /\ checked_below debug32 debug64 /\ checked_below debug32 release64 /\
  user_dec toy_forms debug32 c121_key = Ok ex_uk /\ user_dec toy_forms debug64 c121_key = Ok ex_uk /\ user_dec toy_forms release64 c121_key = Ok ex_uk /\
  announced c121_key = 4 /\ blen c121_key < 268435456 /\
  (exists p, msp_dec debug32 (scalar_codec toy_forms) wide_program = Panic p /\ reason debug32 debug64 p) /\
  is_err (msp_dec debug64 (scalar_codec toy_forms) wide_program).
Proof.
  split; [split; [reflexivity|split; cbn; lia]|]. split; [split; [reflexivity|split; cbn; lia]|]. split; [split; [reflexivity|split; cbn; lia]|].
  split; [vmr (@Ok (decryption_key toy) ex_uk)|]. split; [vmr (@Ok (decryption_key toy) ex_uk)|]. split; [vmr (@Ok (decryption_key toy) ex_uk)|].
  split; [vm_compute; reflexivity|]. split; [vm_compute; reflexivity|]. split.
  - exists CapacityOverflow. split; [vmr (@Panic (msp (bm_K toy)) CapacityOverflow)|]. right. split; [reflexivity|cbn; lia].
  - exists (InvalidSize "invalid matrix size read from bytes"). vmr (@Err (msp (bm_K toy)) (InvalidSize "invalid matrix size read from bytes")).
Qed.

Print Assumptions C121_library.
Print Assumptions C121_python.
Print Assumptions C121_wasm.
Print Assumptions C121_wasm_caches.
Print Assumptions C121_c.
Print Assumptions C121_no_difference.
Print Assumptions C121_decoders.
Print Assumptions C121_refuted.
