(** The texts of the errors: C131. *)
From Coq Require Import String NArith ZArith Bool Arith Lia Strings.Byte List.
From Verif Require SchemeProofs.
From Verif Require Import FfiErrors PropertiesErrors ErrorTexts.
From Verif Require Import Prelude Field LinAlg Msp Spec MspProofs Bilinear Scheme SchemeSpec SchemeTheorems
  Zp ExpModel PropertiesScheme Codec CodecProofs SchemeCodec SchemeCodecProofs PropertiesCodec
  Policy PolicySpec PolicyProofs Engine EngineSpec EngineProofs PropertiesEngine Hybrid HybridSpec PropertiesHybrid PropertiesVersions
  Properties32 Ffi FfiSpec PropertiesFfi PropertiesFfiBlocks Python PropertiesPython Wasm PropertiesWasm PropertiesTogether
  HistorySpec PropertiesHistory PropertiesWorking Demo PropertiesDemo PropertiesLive PropertiesLiveAll.
Import ListNotations.
Local Open Scope N_scope.

(** ** The calls with texts are the calls of the other files *)
Definition agrees {A} (t : told A) (o : outcome A) : Prop :=
  match t, o with
  | Returned a, Ok b => a = b
  | Raised _, Err _ => True
  | Trapped p, Panic q => p = q
  | _, _ => False
  end.

Lemma agrees_raising other {A} prefix (o : outcome A) : agrees (raising other prefix o) o.
Proof. destruct o; cbn; auto. Qed.
Lemma agrees_bind {A C} (t : told A) (o : outcome A) (k : A -> told C) (f : A -> outcome C) :
  agrees t o -> (forall a, agrees (k a) (f a)) -> agrees (and_then t k) (bind o f).
Proof. intros H Hk. destruct t as [a| |], o as [b| |]; cbn in *; try contradiction; auto. subst b. apply Hk. Qed.

Section Same.
Variable other : format_err -> string.
Context {B : BilinearMap}.
Variable P : platform.
Variable F : byte_forms B.
Variable shake : list byte -> nat -> list byte.
Variable S : sym_scheme.

Local Ltac go := repeat (apply agrees_bind; [apply agrees_raising|intros]); try apply agrees_raising; try (cbn; reflexivity); try exact I.

Lemma same_py_header uk header : agrees (py_header_told other P F shake S uk header) (py_decrypt_hybrid_header P F shake S uk header).
Proof using Type. unfold py_header_told, py_decrypt_hybrid_header. go. Qed.
Lemma same_py_block key u number e : agrees (py_block_told other S key u number e) (py_decrypt_hybrid_block S key u number e).
Proof using Type. unfold py_block_told, py_decrypt_hybrid_block. go. Qed.

(** Whether a call returns, raises or traps, and what it returns, is as in the models of
    the interfaces: only the texts are new. *)
Theorem C131_same_calls uk header encrypted key u number ou onumber h c :
  agrees (py_header_told other P F shake S uk header) (py_decrypt_hybrid_header P F shake S uk header) /\
  agrees (py_block_told other S key u number encrypted) (py_decrypt_hybrid_block S key u number encrypted) /\
  agrees (py_decrypt_told other P F shake S uk encrypted) (py_decrypt P F shake S uk encrypted) /\
  agrees (w_header_told other P F shake S uk header) (w_decrypt_hybrid_header P F shake S uk header) /\
  agrees (w_cached_told other P F shake S h header c) (fst (cache_use h (fun k => w_open P F shake S k header) c)) /\
  agrees (w_block_told other S key ou onumber encrypted) (w_decrypt_hybrid_block S key ou onumber encrypted).
Proof using Type.
  assert (W : forall k, agrees (w_open_told other P F shake S k header) (w_open P F shake S k header)) by (intros; unfold w_open_told, w_open; go).
  split; [apply same_py_header|]. split; [apply same_py_block|]. split; [|split; [|split]].
  - unfold py_decrypt_told, py_decrypt. apply agrees_bind.
    { unfold py_header_size_told, py_get_encrypted_header_size. destruct (blen encrypted <? 4); [exact I|reflexivity]. }
    intros size. apply agrees_bind; [apply agrees_raising|]. intros stop. apply agrees_bind; [apply agrees_raising|]. intros hd.
    apply agrees_bind; [apply agrees_raising|]. intros ci. apply agrees_bind; [apply same_py_header|]. intros [k m]. cbn [fst snd].
    apply agrees_bind; [apply agrees_raising|]. intros m'. apply same_py_block.
  - unfold w_header_told, w_decrypt_hybrid_header. destruct (is_empty uk); [exact I|]. destruct (blen header <? 4); [exact I|].
    apply agrees_bind; [apply agrees_raising|exact W].
  - unfold w_cached_told, cache_use. destruct (w_mode c <? 0)%Z; [reflexivity|]. destruct (w_map c h) as [k|]; [|reflexivity].
    specialize (W k). destruct (w_open P F shake S k header); cbn [fst]; exact W.
  - unfold w_block_told, w_decrypt_hybrid_block. destruct (negb (blen key =? 32)); [exact I|]. destruct (is_empty encrypted); [exact I|]. go.
Qed.

(** The texts are not always right: what Python raises when a block cannot be decrypted
    speaks of encryption. *)
Theorem C131_block_text_refuted key u number : length key = key_length S ->
  py_block_told other S key u number [] = Raised "Error encrypting block: Empty ciphertext".
Proof using Type. intros H. unfold py_block_told. rewrite array_from_ok by exact H. reflexivity. Qed.
End Same.

(** ** C: what the caller learns *)
(** The call fails with code 1, writes nothing, and leaves an error of which
    get_last_error delivers the text [t], given room for it and the final zero. *)
Definition c_tells other abbreviated nul_text (f : ffi unit) (t : string) : Prop :=
  forall ok ou oa last, offered ok -> exists err,
  c_call other abbreviated f [ok; ou; oa] last = Some (1%Z, [ok; ou; oa], Some err) /\
  forall mem len, (Z.of_nat (length (text t)) < len)%Z -> (len <= Z.of_nat (length mem))%Z ->
    exists mem', read_error nul_text (Some mem) (Some len) (Some err) = Some (0%Z, Some mem', Some (Z.of_nat (length (text t))), None) /\
      firstn (length (text t)) mem' = text t /\ nth_error mem' (length (text t)) = Some x00.

Lemma text_app a b : text (a ++ b) = (text a ++ text b)%list.
Proof. unfold text, list_byte_of_string. rewrite <- map_app. f_equal. induction a as [|x a IH]; [reflexivity|]. cbn [String.append list_ascii_of_string app]. f_equal. exact IH. Qed.

Lemma c_tells_bail other abbreviated nul_text f e t :
  (forall ok ou oa, offered ok -> f [ok; ou; oa] = Bail (Wrapped e) [ok; ou; oa]) ->
  fixed_text e = Some t -> utf8 (text t) = true -> ~ In x00 (text t) -> c_tells other abbreviated nul_text f ("FFI error: " ++ t).
Proof.
  intros Hf He Hu Hz ok ou oa last Ho. exists (GenericErr (text t)). split.
  - unfold c_call. rewrite (Hf ok ou oa Ho). cbn [thread_error_of]. unfold format_text. rewrite He. reflexivity.
  - intros mem len H1 H2. rewrite text_app in *.
    destruct (C91_message_comes_back nul_text (fun _ => None) 0%nat (text t) [] [] (with_error (fun _ => None) 0%nat (Some (GenericErr (text t))))
                (with_error (fun _ => None) 0%nat (Some (GenericErr (text t)))) mem len Hz Hu) as [_ Q]; try assumption.
    + unfold step, set_error. rewrite c_str_app by exact Hz. rewrite Hu. reflexivity.
    + reflexivity.
    + intros u c [].
Qed.

Section Texts.
Variable other : format_err -> string.
Variable abbreviated : string -> list byte.
Variable nul_text : list byte -> list byte.
Variable B : BilinearMap.
Hypothesis BL : BilinearLaws B.
Local Notation K := (bm_K B).
Variable F : byte_forms B.
Variable fine : Gt B -> Prop.
Hypothesis HF : forms_ok F fine.
Variable shake : list byte -> nat -> list byte.
Variable S : sym_scheme.
Hypothesis SK : key_length S = 32%nat.
Variables PC PP PW : platform.
Hypothesis HC : 32 <= usize_bits PC.
Hypothesis HPP : 32 <= usize_bits PP.
Hypothesis HW : 32 <= usize_bits PW.
Variable c_policy_from : list byte -> outcome policy.
Variable c_attributes_from : list byte -> outcome (list attribute).
Variable policy_from : list byte -> outcome policy.
Variable attributes_from : list byte -> outcome (list attribute).
Variable metadata_from : list byte -> outcome metadata.
Variable attributes_parse : string -> outcome (list attribute).
Local Notation sealed := (sealed B F shake S PC PP PW c_policy_from c_attributes_from policy_from attributes_from metadata_from attributes_parse).
Local Notation c_tells := (c_tells other abbreviated nul_text).

(** *** Specification *)
(** Through every interface, with the key given in its bytes or kept in a cache, the call
    that opens the header fails, and the caller reads the text [t] after the words of the
    interface. *)
Record refused_with (b header : list byte) (t : string) : Prop := {
  rw_c : c_tells (h_aes_decrypt_header PC F shake S (Some header) (Some b)) ("FFI error: " ++ t);
  rw_c_cached : forall cache h uk, cache h = Some uk -> user_dec F PC b = Ok uk ->
    c_tells (h_aes_decrypt_header_using_cache PC F shake S cache h (Some header)) ("FFI error: " ++ t);
  rw_py : py_header_told other PP F shake S b header = Raised ("Error decrypting header: " ++ t);
  rw_py_message : forall block, py_decrypt_told other PP F shake S b (message header block) = Raised ("Error decrypting header: " ++ t);
  rw_w : w_header_told other PW F shake S b header = Raised ("Error decrypting hybrid header: " ++ t);
  rw_w_cached : forall c h uk, w_map c h = Some uk -> user_dec F PW b = Ok uk -> (0 <= w_mode c)%Z ->
    w_cached_told other PW F shake S h header c = Raised ("Error decrypting hybrid header: " ++ t) }.

Lemma check_three w ok ou oa : offered ok -> check_out 0 w [ok; ou; oa] = Go Datatypes.tt [ok; ou; oa].
Proof using Type.
  clear. intros (len & (_ & Hm & El) & H1). unfold check_out. cbn [nth_error]. destruct (o_mem ok); [|contradiction]. rewrite El. destruct len; [lia|reflexivity|lia].
Qed.

Lemma py_told_layout uk header block : blen header < 2147483648 ->
  py_decrypt_told other PP F shake S uk (message header block) =
  and_then (py_header_told other PP F shake S uk header) (fun r =>
  and_then (raising other "Error deserializing metadata: " (meta_from_bytes S (snd r))) (fun m =>
  py_block_told other S (fst r) (uid m) 0 block)).
Proof using HPP.
  clear HC HW SK. intros H. unfold py_decrypt_told.
  assert (Q : py_header_size_told (message header block) = Returned (blen header)).
  { destruct (C115_header_size header block [] H) as (_ & Q & _). unfold py_get_encrypted_header_size in Q. unfold py_header_size_told.
    destruct (blen (message header block) <? 4); [discriminate|]. apply Ok_inj in Q. rewrite Q. reflexivity. }
  rewrite Q. cbn [and_then].
  assert (A : usize_add PP 4 (blen header) = Ok (4 + blen header)).
  { unfold usize_add. rewrite wrap_small; [f_equal; lia|lia|].
    unfold usize_modulus. apply N.lt_le_trans with (2 ^ 32); [change (2 ^ 32) with 4294967296; lia|apply N.pow_le_mono_r; [lia|exact HPP]]. }
  rewrite A. cbn [and_then raising].
  assert (Lm : blen (message header block) = 4 + (blen header + blen block)) by (unfold message; rewrite !blen_app; reflexivity).
  assert (E1 : (4 <=? 4 + blen header) && (4 + blen header <=? blen (message header block)) = true).
  { rewrite Lm. apply andb_true_intro. split; apply N.leb_le; lia. }
  rewrite E1. change (skipn 4 (message header block)) with (header ++ block)%list.
  assert (E2 : firstn (N.to_nat (4 + blen header - 4)) (header ++ block) = header).
  { replace (4 + blen header - 4) with (blen header) by lia. unfold blen. rewrite Nat2N.id, firstn_app, Nat.sub_diag, firstn_all, app_nil_r. reflexivity. }
  rewrite E2. cbn [and_then raising]. unfold slice_fromN. change (N.of_nat (length (message header block))) with (blen (message header block)).
  assert (E3 : (4 + blen header <=? blen (message header block)) = true) by (rewrite Lm; apply N.leb_le; lia).
  rewrite E3. cbn [and_then raising].
  replace (N.to_nat (4 + blen header)) with (4 + length header)%nat by (unfold blen; lia).
  change (skipn (4 + length header) (message header block)) with (skipn (length header) (header ++ block)).
  rewrite skipn_app, skipn_all, Nat.sub_diag. reflexivity.
Qed.

(** an error of the decryption of the header, in all six calls *)
Lemma refused_everywhere b header uk e t : (forall P, 32 <= usize_bits P -> user_dec F P b = Ok uk) ->
  header <> [] -> 4 <= blen header -> blen header < 2147483648 ->
  (forall P, 32 <= usize_bits P -> decrypt_hybrid_header S F shake P uk header = Err e) ->
  fixed_text e = Some t -> utf8 (text t) = true -> ~ In x00 (text t) -> refused_with b header t.
Proof using HC HPP HW.
  clear SK HF BL. intros Du Hh L4 Lh De Et Hu Hz. pose proof (Du PC HC) as DC. pose proof (Du PP HPP) as DP. pose proof (Du PW HW) as DW.
  assert (Hb : b <> []) by (intros ->; unfold user_dec in DC; discriminate).
  assert (Nb : is_empty b = false) by (destruct b; [contradiction|reflexivity]).
  assert (Lb : (blen header <? 4) = false) by (apply N.ltb_ge; exact L4).
  assert (T : format_text other e = t) by (unfold format_text; rewrite Et; reflexivity).
  assert (Y : py_header_told other PP F shake S b header = Raised ("Error decrypting header: " ++ t)).
  { unfold py_header_told. rewrite DP. cbn [and_then raising]. rewrite (De PP HPP). cbn [and_then raising]. rewrite T. reflexivity. }
  assert (W : w_open_told other PW F shake S uk header = Raised ("Error decrypting hybrid header: " ++ t)).
  { unfold w_open_told. rewrite (De PW HW). cbn [and_then raising]. rewrite T. reflexivity. }
  constructor.
  - apply c_tells_bail with e; try assumption. intros ok ou oa Ho. unfold h_aes_decrypt_header. rewrite then_assoc_check, (check_three _ _ _ _ Ho).
    unfold andthen at 1. rewrite input_go by exact Hh. unfold andthen at 1. rewrite input_go by exact Hb. unfold andthen, unwrap. rewrite DC, (De PC HC). reflexivity.
  - intros cache h uk' Hc Hu'. assert (uk' = uk) by (apply Ok_inj; rewrite <- Hu'; exact DC). subst uk'.
    apply c_tells_bail with e; try assumption. intros ok ou oa Ho. unfold h_aes_decrypt_header_using_cache. rewrite then_assoc_check, (check_three _ _ _ _ Ho).
    unfold andthen at 1. rewrite input_go by exact Hh. rewrite Hc. unfold andthen, unwrap. rewrite (De PC HC). reflexivity.
  - exact Y.
  - intros block. rewrite py_told_layout by exact Lh. rewrite Y. reflexivity.
  - unfold w_header_told. rewrite Nb, Lb, DW. cbn [and_then raising]. exact W.
  - intros c h uk' Hc Hu' Hm. assert (uk' = uk) by (apply Ok_inj; rewrite <- Hu'; exact DW). subst uk'.
    unfold w_cached_told. rewrite Hc. destruct (Z.ltb_spec (w_mode c) 0); [lia|]. exact W.
Qed.

(** A header the key does not suffice for: the text is "invalid encrypted data" if one of
    the attributes of the header, not rotated in between, occurs in the access policy of
    the key (expanded by the attributes below the hierarchical ones), and "empty input
    matrix" otherwise. The interfaces add the same words before it in both cases. *)
Theorem C131_texts n history p0 (mdraw : nat -> K) mk i ap b k q l pub random (s : K) m key header :
  1 <= n < 524288 -> proper_axes history -> max_attribute_creations p0 = n -> eng_master_key p0 mdraw = Ok mk ->
  owned_all B F PC n history mk i ap b -> version n history k q -> l <> [] ->
  (forall P, 32 <= usize_bits P -> pub_dec F P pub = Ok (pub_key mk)) ->
  sealed pub q l random s m key header -> blen header < 2147483648 ->
  (forall ct, eng_encrypt PC q (pub_key mk) l random s = Ok ct -> fine (e_prime ct)) ->
  let T := fun a => In a l /\ ~ In (Rotate a) (between history i k) in
  ~ satisfied (firstn i history) T ap ->
  ((exists a, T a /\ needed (firstn i history) ap a) /\ refused_with b header "invalid encrypted data") \/
  (~ (exists a, T a /\ needed (firstn i history) ap a) /\ refused_with b header "empty input matrix").
Proof using BL HF SK HC HPP HW.
  intros Hn Hprop Hmax Hmk (uk & Hk & Du) V Hl Dq Hse Lh Hf T Hs.
  pose proof (pub_slots B BL _ _ _ _ Hmax Hmk) as Lk.
  destruct (sealed_inv B F shake S SK PC PP PW HC HPP HW c_policy_from c_attributes_from policy_from attributes_from metadata_from attributes_parse
              (pub_key mk) pub q l random s m key header Dq Hse) as (nonce & h & Hno & -> & -> & Eh).
  assert (O : forall P, 32 <= usize_bits P -> exists ct, eng_encrypt P q (pub_key mk) l random s = Ok ct /\ 4 <= blen (eh_bytes h) /\
    (eng_decrypt ct uk = Ok None -> decrypt_hybrid_header S F shake P uk (eh_bytes h) = Err InvalidEncryptedData) /\
    (forall x, eng_decrypt ct uk = Err x -> decrypt_hybrid_header S F shake P uk (eh_bytes h) = Err x)).
  { intros P HP. destruct (header_layout B F shake S P q (pub_key mk) l (Some m) random s nonce h (Eh P)) as (sk & tail & Eg & Lkey & Ls & Eb & Et).
    assert (F1 : fits P (n * g2_mem B F)).
    { apply (small_fits P HP). pose proof (fo_g2_mem _ _ HF) as G. apply N.le_lt_trans with (n * 4096); [apply N.mul_le_mono_l; exact G|lia]. }
    assert (F2 : fits P (blen sk)) by (apply (small_fits P HP); apply N.le_lt_trans with (blen (eh_bytes h)); [rewrite Eb, !blen_app; lia|exact Lh]).
    destruct (symmetric_key_fits B F fine HF shake P n (firstn k history) q _ l _ random s _ sk HP ltac:(lia) F1 (proj2 V) Lk Hl Eg F2
                (fun ct Ect => Hf ct (eng_encrypt_any B P PC q _ l random s ct Ect))) as (ct & Ect & Ed & r & Er & Ekey).
    exists ct. split; [exact Ect|]. split; [rewrite Eb, blen_app; change (blen (be32 (blen sk))) with 4; lia|].
    rewrite Eb, (decrypt_layout B F shake S) by exact Ls. unfold decrypt_symmetric_key. rewrite Ed. cbn [bind].
    split; [intros H|intros x H]; rewrite H; reflexivity. }
  destruct (O PC HC) as (ct & Ect & L4 & _).
  assert (Hh : eh_bytes h <> []) by (intros Q; rewrite Q in L4; change (blen []) with 0 in L4; lia).
  assert (O' : forall P, 32 <= usize_bits P ->
    (eng_decrypt ct uk = Ok None -> decrypt_hybrid_header S F shake P uk (eh_bytes h) = Err InvalidEncryptedData) /\
    (forall x, eng_decrypt ct uk = Err x -> decrypt_hybrid_header S F shake P uk (eh_bytes h) = Err x)).
  { intros P HP. destruct (O P HP) as (ct' & Ect' & _ & Q). apply (eng_encrypt_any B P PC) in Ect'. assert (ct' = ct) by congruence. subst ct'. exact Q. }
  destruct (C124_refusals B BL PC n history p0 mdraw mk i ap uk k q l random s ct Hprop Hmk Hk V Ect Hs) as [[H Q]|[H Q]]; [left|right]; (split; [exact H|]).
  - apply (refused_everywhere b (eh_bytes h) uk InvalidEncryptedData); try assumption; try reflexivity.
    + intros P HP. exact (proj1 (O' P HP) Q).
    + vm_compute. intuition discriminate.
  - apply (refused_everywhere b (eh_bytes h) uk (InternalOperation "empty input matrix")); try assumption; try reflexivity.
    + intros P HP. exact (proj2 (O' P HP) _ Q).
    + vm_compute. intuition discriminate.
Qed.
End Texts.

(** ** Examples *)
Lemma satisfied_mono ops (T T' : attribute -> Prop) ap : (forall a, T a -> T' a) -> satisfied ops T ap -> satisfied ops T' ap.
Proof.
  intros H. induction ap as [a|a IHa b IHb|a IHa b IHb|]; cbn [satisfied].
  - intros (b & H1 & H2). exists b. split; [exact (H b H1)|exact H2].
  - intros [H1 H2]. auto.
  - intros [H1|H1]; auto.
  - intros (b & H1 & H2). exists b. split; [exact (H b H1)|exact H2].
Qed.

(** a key of the second state of the policy; headers of the third, in which HR has been
    rotated *)
Lemma texts_toy (l : list attribute) : l <> [] -> forallb (fun a => on (covered hist a) a) l = true -> N.of_nat (length l) < 10 ->
  (forall a, In a l -> In a [dept "HR"; level "Protected"]) ->
  exists priv pub del b key header,
  py_generate_master_keys toy_forms py_policy [x01] ex_draw = Ok (priv, pub, del) /\
  py_generate_user_private_key pf toy_forms py_policy py_access it_rev priv "a" [x01] ex_kdraw = Ok b /\
  py_encrypt_hybrid_header pf toy_forms toy_shake toy_sym py_policy (fun _ => Ok l) all_meta [x02] [x02] [] pub ex_msg ex_s ex_nonce = Ok (key, header) /\
  refused_with (fun _ => ""%string) text (fun b => b) toy toy_forms toy_shake toy_sym debug32 pf release32 b header
    (if existsb (attribute_eqb (level "Protected")) l then "invalid encrypted data" else "empty input matrix").
Proof.
  intros Hne Hd Hlen Hin. rewrite forallb_forall in Hd.
  destruct (C129_master_keys toy toy_laws toy_forms (fun _ => True) toy_forms_ok debug32 ltac:(cbn; lia) py_policy py_policy 10%N hist ex_draw ltac:(lia)
    (fun j Hj => ex_draws j ltac:(lia)) 2%nat pol_a [x01] [x01] hist_two eq_refl eq_refl (fun _ _ => Logic.I)) as (mk & priv & pub & del & Emk & Np & Nq & _ & M & _ & D).
  destruct (C129_user_key toy toy_laws toy_forms (fun _ => True) toy_forms_ok debug32 pf release32 ltac:(cbn; lia) ltac:(cbn; lia) ltac:(cbn; lia)
    py_policy c_access py_policy py_access 10%N hist ex_draw ltac:(lia) hist_proper (fun j Hj => ex_draws j ltac:(lia)) pol_a mk eq_refl Emk
    2%nat pol_a [x01] [x01] it_rev "a"%string [x01] ex_ap priv ex_kdraw) as (b & _ & U & _ & O).
  - exact hist_two.
  - reflexivity.
  - reflexivity.
  - vm_compute. reflexivity.
  - exact Np.
  - intros P HP. apply (D P HP).
  - exact it_rev_ok.
  - reflexivity.
  - reflexivity.
  - intros a Ha. apply declared_spec. cbn in Ha. repeat (destruct Ha as [<-|Ha]; [vm_compute; reflexivity|]). destruct Ha.
  - cbn. intuition discriminate.
  - apply apart_spec. vm_compute. reflexivity.
  - discriminate.
  - destruct (header_made toy toy_laws pf ltac:(cbn; lia) toy_forms (fun _ => True) toy_forms_ok toy_shake toy_shake_length toy_sym short_meta toy_serves 10%N hist ex_draw
      ltac:(lia) hist_proper (fun j Hj => ex_draws j ltac:(lia)) pol_a mk eq_refl Emk 3%nat pol_b l (mkMeta [x07] None) ex_msg ex_s ex_nonce hist_three
      ltac:(vm_compute; reflexivity) (fun a Ha => proj2 (declared_spec _ a) (Hd a Ha)) Hlen Hne) as (h & Eh & _ & Lh).
    { split; [discriminate|]. split; [vm_compute; reflexivity|exact Logic.I]. }
    { reflexivity. }
    assert (E : py_encrypt_hybrid_header pf toy_forms toy_shake toy_sym py_policy (fun _ => Ok l) all_meta [x02] [x02] [] pub ex_msg ex_s ex_nonce = Ok (eh_key h, eh_bytes h)).
    { unfold py_encrypt_hybrid_header. change (all_meta [x02]) with (Ok (mkMeta [x07] None)). change (py_policy [x02]) with (Ok pol_b). cbn [bind].
      rewrite (proj1 (proj2 (D pf ltac:(cbn; lia)))). cbn [bind]. rewrite Eh. reflexivity. }
    exists priv, pub, del, b, (eh_key h), (eh_bytes h). split; [exact M|]. split; [exact U|]. split; [exact E|].
    assert (R : forall a, In a l /\ ~ In (Rotate a) (between hist 2 3) -> a = level "Protected" /\ In a l).
    { intros a [Ha Hr]. split; [|exact Ha]. destruct (Hin a Ha) as [<-|[<-|[]]]; [|reflexivity]. exfalso. apply Hr. left. reflexivity. }
    assert (R2 : forall a, In a (filter (attribute_eqb (level "Protected")) l) <-> In a l /\ ~ In (Rotate a) (between hist 2 3)).
    { intros a. rewrite filter_In, attribute_eqb_spec. split; [intros [A <-]; split; [exact A|vm_compute; intuition discriminate]|].
      intros A. destruct (R a A) as [-> A']. auto. }
    destruct (C131_texts (fun _ => ""%string) text (fun b => b) toy toy_laws toy_forms (fun _ => True) toy_forms_ok toy_shake toy_sym eq_refl debug32 pf release32
      ltac:(cbn; lia) ltac:(cbn; lia) ltac:(cbn; lia) py_policy py_attrs py_policy (fun _ => Ok l) all_meta w_attrs
      10%N hist pol_a ex_draw mk 2%nat ex_ap b 3%nat pol_b l pub ex_msg ex_s (mkMeta [x07] None) (eh_key h) (eh_bytes h)) as [[H Q]|[H Q]].
    + lia.
    + exact hist_proper.
    + reflexivity.
    + exact Emk.
    + exact O.
    + exact hist_three.
    + exact Hne.
    + intros P HP. apply (D P HP).
    + apply sealed_py with [x02] [x02] [] ex_nonce; [reflexivity|reflexivity|reflexivity|reflexivity|exact E].
    + lia.
    + intros ct _. exact Logic.I.
    + intros Q.
      assert (G' : grants (firstn 2 hist) [level "Protected"] ex_ap = true).
      { destruct (grants_spec (firstn 2 hist) (fun a => a = level "Protected") [level "Protected"] ex_ap) as [G2 _]; [intros a; cbn; intuition congruence|].
        apply G2. apply (satisfied_mono (firstn 2 hist) (fun a => In a l /\ ~ In (Rotate a) (between hist 2 3))); [|exact Q]. intros a A. apply (R a A). }
      vm_compute in G'. discriminate.
    + destruct H as (a & Ha & _). destruct (R a Ha) as [-> A].
      destruct (existsb (attribute_eqb (level "Protected")) l) eqn:X; [exact Q|]. exfalso. apply not_true_iff_false in X. apply X.
      apply existsb_exists. exists (level "Protected"). split; [exact A|apply attribute_eqb_spec; reflexivity].
    + destruct (existsb (attribute_eqb (level "Protected")) l) eqn:X; [|exact Q]. exfalso. apply H.
      apply existsb_exists in X as (a & A & Y). apply attribute_eqb_spec in Y. subst a. exists (level "Protected").
      split; [apply R2; apply filter_In; split; [exact A|apply attribute_eqb_spec; reflexivity]|].
      apply needed_spec. vm_compute. reflexivity.
Qed.

(** the key lacks the department: the security level is in common *)
Example C131_example : exists b header,
  refused_with (fun _ => ""%string) text (fun b => b) toy toy_forms toy_shake toy_sym debug32 pf release32 b header "invalid encrypted data".
Proof.
  destruct (texts_toy [dept "HR"; level "Protected"]) as (priv & pub & del & b & key & header & _ & _ & _ & Q);
    [discriminate|vm_compute; reflexivity|vm_compute; reflexivity|auto|]. exists b, header. exact Q.
Qed.
(** nothing in common *)
Example C131_nothing_example : exists b header,
  refused_with (fun _ => ""%string) text (fun b => b) toy toy_forms toy_shake toy_sym debug32 pf release32 b header "empty input matrix".
Proof.
  destruct (texts_toy [dept "HR"]) as (priv & pub & del & b & key & header & _ & _ & _ & Q);
    [discriminate|vm_compute; reflexivity|vm_compute; reflexivity|intros a [<-|[]]; left; reflexivity|]. exists b, header. exact Q.
Qed.
(** a block that is empty, and a key of the wrong length, through Python and WebAssembly *)
Example C131_blocks_example : let other (_ : format_err) := "?"%string in
  py_block_told other toy_sym (repeat x05 32) [] 0 [] = Raised "Error encrypting block: Empty ciphertext" /\
  w_block_told other toy_sym (repeat x05 32) None None [] = Raised "Encrypted value is empty" /\
  py_block_told other toy_sym (repeat x05 31) [] 0 [x01] = Raised "Deserialize symmetric key failed: ?" /\
  w_block_told other toy_sym (repeat x05 31) None None [x01] = Raised "Symmetric key must be 32-bytes long".
Proof. vm_compute. repeat split. Qed.

Print Assumptions C131_same_calls.
Print Assumptions C131_block_text_refuted.
Print Assumptions C131_texts.
