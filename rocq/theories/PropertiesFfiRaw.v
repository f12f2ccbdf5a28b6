(** Inputs of the C functions: C95. *)
From Coq Require Import String NArith ZArith Bool Lia Strings.Byte List.
From Verif Require Import Prelude Field Bilinear Msp Scheme Codec SchemeCodec SchemeCodecProofs Policy Engine Hybrid HybridSpec Ffi FfiErrors PropertiesErrors FfiRaw
  FfiSpec Zp ExpModel PropertiesScheme PropertiesCodec PropertiesEngine PropertiesHybrid PropertiesFfi PropertiesFfiBlocks.
Import ListNotations.
Local Open Scope N_scope.

(** ** Specification *)
(** the argument stands for [v]: nothing for a null pointer, otherwise the announced
    number of bytes, which the memory has *)
Definition stands_for (x : raw_in) (v : option (list byte)) : Prop :=
  match in_mem x with
  | None => v = None
  | Some mem => (0 <= in_len x <= Z.of_nat (length mem))%Z /\ v = Some (firstn (Z.to_nat (in_len x)) mem)
  end.

(** the pointer stands for the text [v], which ends with the first NUL *)
Definition spells (x : option (list byte)) (v : option (list byte)) : Prop :=
  match x with
  | None => v = None
  | Some mem => exists s rest, mem = s ++ x00 :: rest /\ ~ In x00 s /\ v = Some s
  end.

Definition c_int (z : Z) : Prop := (-2147483648 <= z < 2147483648)%Z.

Section Raw.
Context {B : BilinearMap}.
Variable P : platform.
Hypothesis H32 : 32 <= usize_bits P.
Variable F : byte_forms B.
Variable shake : list byte -> nat -> list byte.
Variable S : sym_scheme.
Variable policy_from : list byte -> outcome policy.
Variable attributes_from : list byte -> outcome (list attribute).
Variable access_from : list byte -> outcome access_policy.
Variable policy_text : policy -> list byte.

Lemma usize_big : (4294967296 <= Z.of_N (usize_modulus P))%Z.
Proof using H32.
  unfold usize_modulus. change 4294967296%Z with (Z.of_N (2 ^ 32)). apply N2Z.inj_le. apply N.pow_le_mono_r; [lia|exact H32].
Qed.

Lemma as_usize_nonneg z : (0 <= z)%Z -> c_int z -> as_usize P z = Z.to_N z.
Proof using H32. intros H R. pose proof usize_big. unfold c_int in R. unfold as_usize. rewrite Z.mod_small by lia. reflexivity. Qed.

Lemma bytes_cases x v : stands_for x v -> c_int (in_len x) ->
  (in_mem x = None /\ v = None) \/
  (exists mem, in_mem x = Some mem /\ in_len x = 0%Z /\ v = Some []) \/
  (exists mem c t, in_mem x = Some mem /\ (in_len x =? 0)%Z = false /\ (0 <? in_len x)%Z = true /\ v = Some (c :: t) /\
     from_raw_parts P mem (in_len x) = ret (c :: t)).
Proof using H32.
  unfold stands_for. intros H R. destruct (in_mem x) as [mem|]; [|left; auto]. right. destruct H as [L ->].
  destruct (Z.eqb_spec (in_len x) 0) as [Z0|Z0]; [left; exists mem; rewrite Z0; auto|]. right.
  destruct (firstn (Z.to_nat (in_len x)) mem) as [|c t] eqn:E.
  { exfalso. apply (f_equal (@length byte)) in E. rewrite firstn_length in E. cbn in E. lia. }
  exists mem, c, t. split; [reflexivity|]. split; [reflexivity|]. split; [apply Z.ltb_lt; lia|]. split; [reflexivity|].
  unfold from_raw_parts. rewrite as_usize_nonneg by (auto; lia).
  replace (Z.to_N (in_len x) <=? blen mem) with true by (symmetry; apply N.leb_le; unfold blen; lia).
  rewrite <- E. f_equal. f_equal. lia.
Qed.

Lemma text_cases x v : spells x v ->
  (x = None /\ v = None) \/ (exists mem s, x = Some mem /\ v = Some s /\ c_string mem = ret s).
Proof.
  intros H. unfold spells in H. destruct x as [mem|]; [|left; auto]. right. destruct H as (s & rest & -> & Hn & ->).
  exists (s ++ x00 :: rest), s. split; [reflexivity|]. split; [reflexivity|]. unfold c_string. rewrite c_str_app by exact Hn. reflexivity.
Qed.

Lemma slice_or_none_ok x v outs : stands_for x v -> c_int (in_len x) ->
  slice_or_none P x outs = Go (match optional_bytes v with [] => None | b => Some b end) outs.
Proof using H32.
  intros H R. unfold slice_or_none. destruct (bytes_cases x v H R) as [[-> ->]|[(m & -> & -> & ->)|(m & c & t & -> & E1 & _ & -> & E)]];
    [reflexivity|reflexivity|]. rewrite E1. unfold andthen. rewrite E. reflexivity.
Qed.

Lemma raw_meta_ok u ad uv adv outs : stands_for u uv -> stands_for ad adv -> c_int (in_len u) -> c_int (in_len ad) ->
  raw_meta P u ad outs = Go (meta_arg uv adv) outs.
Proof using H32.
  intros Hu Ha R1 R2. unfold raw_meta, andthen. rewrite (slice_or_none_ok u uv outs Hu R1), (slice_or_none_ok ad adv outs Ha R2).
  unfold ret, meta_arg. f_equal. f_equal. destruct (optional_bytes uv); reflexivity.
Qed.

Lemma slice_if_positive_ok x v outs : stands_for x v -> c_int (in_len x) -> slice_if_positive P x outs = Go (optional_bytes v) outs.
Proof using H32.
  intros H R. unfold slice_if_positive. destruct (bytes_cases x v H R) as [[-> ->]|[(m & -> & -> & ->)|(m & c & t & -> & _ & E1 & -> & E)]];
    [reflexivity|reflexivity|]. rewrite E1, E. reflexivity.
Qed.

Ltac cases := repeat match goal with
  | H : spells ?x ?v |- _ => apply text_cases in H as [[-> ->]|(? & ? & -> & -> & ?)]
  | H : stands_for ?x ?v, R : c_int (in_len ?x) |- _ =>
      destruct (bytes_cases x v H R) as [[? ->]|[(? & ? & ? & ->)|(? & ? & ? & ? & ? & ? & -> & ?)]]; clear H R
  end.
Ltac red_ffi := cbv beta iota delta [andthen given not_null input_bytes ret bail unwrap].
Ltac follow := repeat (red_ffi; try reflexivity;
  match goal with
  | H : ?a = ?b |- context [?a] => rewrite H
  | M : forall o, ?f o = _ |- context [?f ?o] => rewrite (M o)
  | |- context [match ?m with _ => _ end] =>
      lazymatch m with context [match _ with _ => _ end] => fail | _ => destruct m end
  end).
Ltac go := cases; follow.

(** ** C95 *)
(** The functions give the results described in Ffi.v for the announced bytes and the
    texts before the first NUL, whatever the memory holds after them. *)
Theorem C95_encrypt_header outs pol pk attrs u ad polv pkv attrsv uv adv random (s : bm_K B) nonce cache handle :
  spells pol polv -> stands_for pk pkv -> spells attrs attrsv -> stands_for u uv -> stands_for ad adv ->
  c_int (in_len pk) -> c_int (in_len u) -> c_int (in_len ad) ->
  raw_encrypt_header P F shake S policy_from attributes_from pol pk attrs u ad random s nonce outs =
    h_aes_encrypt_header P F shake S policy_from attributes_from polv pkv attrsv uv adv random s nonce outs /\
  raw_encrypt_header_using_cache P F shake S attributes_from cache handle attrs u ad random s nonce outs =
    h_aes_encrypt_header_using_cache P F shake S attributes_from cache handle attrsv uv adv random s nonce outs /\
  raw_create_encryption_cache P F policy_from false pol pk outs = encryption_cache_of P F policy_from polv pkv outs.
Proof using H32.
  intros Hpol Hpk Hat Hu Had R1 R2 R3. pose proof (fun o => raw_meta_ok u ad uv adv o Hu Had R2 R3) as M. clear Hu Had R2 R3.
  split; [|split].
  - unfold raw_encrypt_header, h_aes_encrypt_header. go.
  - unfold raw_encrypt_header_using_cache, h_aes_encrypt_header_using_cache. clear Hpol Hpk R1. destruct (cache handle) as [[p k]|]; go.
  - unfold raw_create_encryption_cache, encryption_cache_of. clear Hat M. go.
Qed.

Theorem C95_decrypt_header outs header uk headerv ukv cache handle :
  stands_for header headerv -> stands_for uk ukv -> c_int (in_len header) -> c_int (in_len uk) ->
  raw_decrypt_header P F shake S header uk outs = h_aes_decrypt_header P F shake S headerv ukv outs /\
  raw_decrypt_header_using_cache P F shake S cache handle header outs =
    h_aes_decrypt_header_using_cache P F shake S cache handle headerv outs /\
  raw_create_decryption_cache P F false uk outs = decryption_cache_of P F ukv outs /\
  raw_get_encrypted_header_size P header outs = h_get_encrypted_header_size headerv outs.
Proof using H32.
  intros Hh Huk R1 R2. split; [|split; [|split]].
  - unfold raw_decrypt_header, h_aes_decrypt_header. go.
  - unfold raw_decrypt_header_using_cache, h_aes_decrypt_header_using_cache. clear Huk R2. destruct (cache handle); go.
  - unfold raw_create_decryption_cache, decryption_cache_of. clear Hh R1. go.
  - unfold raw_get_encrypted_header_size, h_get_encrypted_header_size. clear Huk R2. go.
Qed.

(** For blocks, a negative length of the uid stands for an empty uid. *)
Definition uid_stands_for (x : raw_in) (v : option (list byte)) : Prop :=
  stands_for x v \/ ((in_len x < 0)%Z /\ v = None).

Theorem C95_blocks outs key u number data keyv uv datav nonce :
  stands_for key keyv -> uid_stands_for u uv -> stands_for data datav ->
  c_int (in_len key) -> c_int (in_len u) -> c_int (in_len data) ->
  raw_encrypt_block P S key u number data nonce outs = h_aes_encrypt_block P S keyv uv number datav nonce outs /\
  raw_decrypt_block P S key u number data outs = h_aes_decrypt_block P S keyv uv number datav outs.
Proof using H32.
  intros Hk Hu Hd R1 R2 R3.
  assert (M : forall o, slice_if_positive P u o = Go (optional_bytes uv) o).
  { intros o. destruct Hu as [Hu|[Hn ->]]; [exact (slice_if_positive_ok u uv o Hu R2)|]. unfold slice_if_positive.
    replace (0 <? in_len u)%Z with false by (symmetry; apply Z.ltb_ge; lia). destruct (in_mem u); reflexivity. }
  clear Hu R2. split.
  - unfold raw_encrypt_block, h_aes_encrypt_block. go.
  - unfold raw_decrypt_block, h_aes_decrypt_block. go.
Qed.

Theorem C95_keys outs it priv access pol attrs privv accessv polv attrsv (draw : nat -> bm_K B) :
  stands_for priv privv -> spells access accessv -> spells pol polv -> spells attrs attrsv -> c_int (in_len priv) ->
  raw_generate_master_keys P F policy_from pol draw outs = h_generate_master_keys P F policy_from polv draw outs /\
  raw_generate_user_private_key P F policy_from access_from it priv access pol draw outs =
    h_generate_user_private_key P F policy_from access_from it privv accessv polv draw outs /\
  raw_rotate_attributes P policy_from attributes_from policy_text attrs pol outs =
    h_rotate_attributes P policy_from attributes_from policy_text attrsv polv outs.
Proof using H32.
  intros Hp Ha Hpol Hat R. split; [|split].
  - unfold raw_generate_master_keys, h_generate_master_keys. clear Hp Ha Hat R. go.
  - unfold raw_generate_user_private_key, h_generate_user_private_key. clear Hat. go.
  - unfold raw_rotate_attributes, h_rotate_attributes. clear Hp Ha R. go.
Qed.

(** A negative length: the function goes on to a slice that no memory can hold. *)
Definition negative (x : raw_in) : Prop :=
  exists mem, in_mem x = Some mem /\ (-2147483648 <= in_len x < 0)%Z /\ blen mem < 2 ^ (usize_bits P - 1).
(** an output argument with room *)
Definition ready (outs : list out_arg) (i : nat) : Prop := exists m l, nth_error outs i = Some (mkOut (Some m) (Some l)) /\ l <> 0%Z.

Lemma negative_slice x : negative x -> exists mem, in_mem x = Some mem /\ (in_len x =? 0)%Z = false /\ from_raw_parts P mem (in_len x) = undefined.
Proof using H32.
  intros (mem & E & R & L). exists mem. split; [exact E|]. split; [apply Z.eqb_neq; lia|]. unfold from_raw_parts.
  assert (Q : blen mem < as_usize P (in_len x)).
  { assert (E2 : usize_modulus P = 2 * 2 ^ (usize_bits P - 1)).
    { unfold usize_modulus. rewrite <- N.pow_succ_r'. f_equal. lia. }
    assert (G : 2 ^ 31 <= 2 ^ (usize_bits P - 1)) by (apply N.pow_le_mono_r; lia). change (2 ^ 31) with 2147483648 in G.
    unfold as_usize. rewrite E2. rewrite <- (Z.mod_add _ 1) by lia. rewrite Z.mod_small by lia. lia. }
  replace (as_usize P (in_len x) <=? blen mem) with false by (symmetry; apply N.leb_gt; exact Q). reflexivity.
Qed.

Lemma ready_check outs i what : ready outs i -> check_out i what outs = Go tt outs.
Proof. intros (m & l & E & N). unfold check_out. rewrite E. cbn [o_mem o_len]. destruct l; [contradiction|reflexivity|reflexivity]. Qed.

Theorem C95_negative_length_refuted outs (header : raw_in) uk key u data priv access pol number nonce it (draw : nat -> bm_K B) cache handle :
  (negative header -> raw_get_encrypted_header_size P header outs = Undefined) /\
  (negative uk -> raw_create_decryption_cache P F false uk outs = Undefined) /\
  (ready outs 0 -> negative header ->
     raw_decrypt_header_using_cache P F shake S cache handle header outs = Undefined /\
     (forall b, stands_for uk (Some b) -> c_int (in_len uk) -> b <> [] -> raw_decrypt_header P F shake S header uk outs = Undefined)) /\
  (ready outs 0 -> negative uk -> forall b, stands_for header (Some b) -> c_int (in_len header) -> b <> [] ->
     raw_decrypt_header P F shake S header uk outs = Undefined) /\
  (ready outs 0 -> negative key -> raw_encrypt_block P S key u number data nonce outs = Undefined /\
                                   raw_decrypt_block P S key u number data outs = Undefined) /\
  (ready outs 0 -> negative priv -> access <> None -> pol <> None ->
     raw_generate_user_private_key P F policy_from access_from it priv access pol draw outs = Undefined).
Proof using H32.
  assert (G : forall o i, ready o i -> forall w, check_out i w o = Go tt o) by (intros; apply ready_check; assumption).
  split; [|split; [|split; [|split; [|split]]]].
  - intros H. destruct (negative_slice _ H) as (m & E1 & E2 & E3). unfold raw_get_encrypted_header_size. follow.
  - intros H. destruct (negative_slice _ H) as (m & E1 & E2 & E3). unfold raw_create_decryption_cache. follow.
  - intros Hr H. destruct (negative_slice _ H) as (m & E1 & E2 & E3). split.
    + unfold raw_decrypt_header_using_cache. red_ffi. rewrite (G _ _ Hr). follow.
    + intros b Hb R Hne. destruct (bytes_cases uk _ Hb R) as [[_ Q]|[(m' & _ & _ & Q)|(m' & c & t & Q1 & Q2 & _ & _ & Q3)]];
        [discriminate|congruence|]. unfold raw_decrypt_header. red_ffi. rewrite (G _ _ Hr). follow.
  - intros Hr H b Hb R Hne. destruct (negative_slice _ H) as (m & E1 & E2 & E3).
    destruct (bytes_cases header _ Hb R) as [[_ Q]|[(m' & _ & _ & Q)|(m' & c & t & Q1 & Q2 & _ & _ & Q3)]];
        [discriminate|congruence|]. unfold raw_decrypt_header. red_ffi. rewrite (G _ _ Hr). follow.
  - intros Hr H. destruct (negative_slice _ H) as (m & E1 & E2 & E3). split.
    + unfold raw_encrypt_block. red_ffi. rewrite (G _ _ Hr). follow.
    + unfold raw_decrypt_block. red_ffi. rewrite (G _ _ Hr). follow.
  - intros Hr H Ha Hp. destruct (negative_slice _ H) as (m & E1 & E2 & E3). destruct access as [access|]; [|contradiction].
    destruct pol as [pol|]; [|contradiction]. unfold raw_generate_user_private_key. red_ffi. rewrite (G _ _ Hr). follow.
Qed.

(** the same for the uid and the additional data of a header, when the other arguments are good *)
Theorem C95_negative_uid_refuted outs pol pk attrs u ad polb p pkb k attrsb l random (s : bm_K B) nonce :
  ready outs 0 -> ready outs 1 -> spells pol (Some polb) -> policy_from polb = Ok p -> stands_for pk (Some pkb) -> c_int (in_len pk) ->
  pkb <> [] -> pub_dec F P pkb = Ok k -> spells attrs (Some attrsb) -> attributes_from attrsb = Ok l ->
  negative u \/ (negative ad /\ in_mem u = None) ->
  raw_encrypt_header P F shake S policy_from attributes_from pol pk attrs u ad random s nonce outs = Undefined.
Proof using H32.
  intros R0 R1 Hp Ep Hk Ck Nk Ek Ha Ea H.
  assert (G : forall o i, ready o i -> forall w, check_out i w o = Go tt o) by (intros; apply ready_check; assumption).
  apply text_cases in Hp as [[_ Q]|(pm & pb & -> & Q & Hp)]; [discriminate|]. assert (polb = pb) by congruence. subst pb.
  apply text_cases in Ha as [[_ Q2]|(am & ab & -> & Q2 & Ha)]; [discriminate|]. assert (attrsb = ab) by congruence. subst ab.
  destruct (bytes_cases pk _ Hk Ck) as [[_ Q3]|[(m' & _ & _ & Q3)|(m' & c & t & Q4 & Q5 & _ & Q3 & Q6)]]; [discriminate|congruence|].
  assert (E : pkb = c :: t) by congruence. subst pkb. clear Q Q2 Q3 Nk.
  unfold raw_encrypt_header. red_ffi. rewrite (G _ _ R0), (G _ _ R1), Q4, Q5, Hp. red_ffi. rewrite Ep, Q6. red_ffi.
  rewrite Ek, Ha. red_ffi. rewrite Ea. unfold raw_meta, slice_or_none. red_ffi.
  destruct H as [H|[H Hu]]; destruct (negative_slice _ H) as (m & E1 & E2 & E3).
  - rewrite E1, E2, E3. reflexivity.
  - rewrite Hu, E1, E2, E3. reflexivity.
Qed.

(** and for the content of a block *)
Theorem C95_negative_data_refuted outs key keyb u uv number data nonce :
  ready outs 0 -> stands_for key (Some keyb) -> c_int (in_len key) -> keyb <> [] -> uid_stands_for u uv -> c_int (in_len u) -> negative data ->
  raw_encrypt_block P S key u number data nonce outs = Undefined /\ raw_decrypt_block P S key u number data outs = Undefined.
Proof using H32.
  intros R0 Hk Ck Nk Hu Cu H. destruct (negative_slice _ H) as (m & E1 & E2 & E3).
  assert (G : forall o i, ready o i -> forall w, check_out i w o = Go tt o) by (intros; apply ready_check; assumption).
  assert (M : forall o, slice_if_positive P u o = Go (optional_bytes uv) o).
  { intros o. destruct Hu as [Hu|[Hn ->]]; [exact (slice_if_positive_ok u uv o Hu Cu)|]. unfold slice_if_positive.
    replace (0 <? in_len u)%Z with false by (symmetry; apply Z.ltb_ge; lia). destruct (in_mem u); reflexivity. }
  destruct (bytes_cases key _ Hk Ck) as [[_ Q3]|[(m' & _ & _ & Q3)|(m' & c & t & Q4 & Q5 & _ & Q3 & Q6)]]; [discriminate|congruence|].
  unfold raw_encrypt_block, raw_decrypt_block. split; red_ffi; rewrite (G _ _ R0), Q4, Q5, Q6; red_ffi; rewrite M; red_ffi; rewrite E1, E2, E3; reflexivity.
Qed.

(** A null pointer for the handle is not reported either. *)
Theorem C95_null_handle_refuted outs outs' pol pk uk c k :
  (raw_create_encryption_cache P F policy_from false pol pk outs = Go c outs' ->
   raw_create_encryption_cache P F policy_from true pol pk outs = Undefined) /\
  (raw_create_decryption_cache P F false uk outs = Go k outs' ->
   raw_create_decryption_cache P F true uk outs = Undefined).
Proof.
  split; intros H.
  - unfold raw_create_encryption_cache in *. revert H. follow; intros; try discriminate; congruence.
  - unfold raw_create_decryption_cache in *. revert H. follow; intros; try discriminate; congruence.
Qed.
End Raw.

(** ** Examples *)
(** bytes behind the announced ones and behind the NUL change nothing; a negative length of the
    data is not reported, a negative length of the uid is that of an absent uid *)
Definition raw_key : raw_in := mkIn (Some (repeat x05 32 ++ [xaa; xbb])) 32.
Example C95_example :
  raw_encrypt_block pf toy_sym raw_key (mkIn None 0) 4 (mkIn (Some [x01; x02; x03]) 2) ex_nonce [room_for 40]
    = h_aes_encrypt_block pf toy_sym (Some (repeat x05 32)) None 4 (Some [x01; x02]) ex_nonce [room_for 40] /\
  read_out (out_n 0 (raw_encrypt_block pf toy_sym raw_key (mkIn None 0) 4 (mkIn (Some [x01; x02; x03]) 2) ex_nonce [room_for 40])) = c_block 4 /\
  raw_encrypt_block pf toy_sym raw_key (mkIn (Some [x01]) (-1)) 4 (mkIn (Some [x01; x02; x03]) 2) ex_nonce [room_for 40]
    = raw_encrypt_block pf toy_sym raw_key (mkIn None 0) 4 (mkIn (Some [x01; x02; x03]) 2) ex_nonce [room_for 40] /\
  raw_encrypt_block pf toy_sym raw_key (mkIn None 0) 4 (mkIn (Some [x01; x02; x03]) (-1)) ex_nonce [room_for 40] = Undefined /\
  code (raw_generate_master_keys pf toy_forms c_policy (Some [x01; x00; x07]) ex_draw [room_for 3000]) = Some 0%Z /\
  stands_for raw_key (Some (repeat x05 32)) /\ spells (Some [x01; x00; x07]) (Some [x01]) /\ ready [room_for 40] 0.
Proof.
  split; [reflexivity|]. split; [reflexivity|]. split; [reflexivity|]. split; [reflexivity|]. split; [vmr (Some 0%Z)|].
  split; [split; [cbn; lia|reflexivity]|]. split.
  - exists [x01], [x07]. split; [reflexivity|]. split; [|reflexivity]. intros [Q|[]]. discriminate.
  - exists (repeat xee 40), 40%Z. split; [reflexivity|lia].
Qed.
(** the user key of the example is stored, but not if the handle has no place *)
Example C95_handle_example :
  let uk := read_out (out_n 0 (c_user [room_for 3000])) in
  code (raw_create_decryption_cache pf toy_forms false (mkIn (Some uk) (Z.of_nat (length uk))) []) = Some 0%Z /\
  code (raw_create_decryption_cache pf toy_forms true (mkIn (Some uk) (Z.of_nat (length uk))) []) = None.
Proof. split; [vmr (Some 0%Z)|vmr (@None Z)]. Qed.

Print Assumptions C95_encrypt_header.
Print Assumptions C95_decrypt_header.
Print Assumptions C95_blocks.
Print Assumptions C95_keys.
Print Assumptions C95_negative_length_refuted.
Print Assumptions C95_negative_uid_refuted.
Print Assumptions C95_negative_data_refuted.
Print Assumptions C95_null_handle_refuted.
