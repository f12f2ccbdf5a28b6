(** The sizes of keys and headers (C117). *)
From Coq Require Import String NArith ZArith Bool Arith Lia Permutation Strings.Byte List.
From Verif Require SchemeProofs.
From Verif Require Import Prelude Field Msp Spec MspProofs Bilinear Scheme SchemeSpec SchemeTheorems Zp ExpModel PropertiesScheme
  Codec CodecProofs SchemeCodec SchemeCodecProofs PropertiesCodec
  Policy PolicySpec PolicyProofs Engine EngineSpec EngineProofs PropertiesEngine Hybrid HybridSpec PropertiesHybrid
  CopiesSpec PropertiesCopies Ffi FfiSpec PropertiesFfi PropertiesDraws Python PropertiesPython Wasm PropertiesWasm Properties32 PropertiesTogether PropertiesDepth.
Import ListNotations.
Local Open Scope N_scope.

(** ** Specification *)
(** The number of values that the attributes of the list ever got. *)
Definition values_of (ops : list op) (bs : list attribute) : nat :=
  fold_right (fun b n => (Datatypes.S (rotations ops b) + n)%nat) 0%nat bs.
(** The bytes of the keys of a master key for at most [n] values. *)
Definition private_key_bytes (n : N) : N := 36 + 32 * n.
Definition public_key_bytes (n : N) : N := 292 + 48 * n.
Definition delegation_key_bytes (n : N) : N := 4 + 96 * n.
(** The bytes of a user key with [v] values and [c] conjunctions. *)
Definition user_key_bytes (v c : nat) : N := 12 + 100 * N.of_nat v + 32 * N.of_nat v * N.of_nat (c + 1).
(** The bytes of a header without metadata for [a] attributes. *)
Definition header_bytes (a : nat) : N := 300 + 52 * N.of_nat a.

(** ** Proofs *)
Lemma positions_filter (q : attribute -> bool) l : forall k,
  length (filter (fun i => match nth_error l (i - k) with Some b => q b | None => false end) (seq k (length l))) = length (filter q l).
Proof.
  induction l as [|b l IH]; intros k; [reflexivity|]. cbn [length seq filter]. rewrite Nat.sub_diag. cbn [nth_error].
  assert (Q : length (filter (fun i => match nth_error (b :: l) (i - k) with Some b0 => q b0 | None => false end) (seq (Datatypes.S k) (length l)))
    = length (filter q l)).
  { rewrite <- (IH (Datatypes.S k)). f_equal. apply filter_ext_in. intros i Hi. apply in_seq in Hi. replace (i - k)%nat with (Datatypes.S (i - Datatypes.S k)) by lia. reflexivity. }
  destruct (q b); cbn [length]; rewrite Q; reflexivity.
Qed.
Lemma count_filter (l bs : list attribute) : NoDup bs ->
  length (filter (fun b => if in_dec attribute_dec b bs then true else false) l) = fold_right (fun b n => (count_occ attribute_dec l b + n)%nat) 0%nat bs.
Proof.
  induction l as [|x l IH]; intros Hn.
  - cbn [filter length]. symmetry. clear Hn. induction bs as [|b bs IHb]; [reflexivity|exact IHb].
  - cbn [filter]. specialize (IH Hn).
    assert (G : forall cs, NoDup cs -> fold_right (fun b n => (count_occ attribute_dec (x :: l) b + n)%nat) 0%nat cs =
      ((if in_dec attribute_dec x cs then 1 else 0) + fold_right (fun b n => (count_occ attribute_dec l b + n)%nat) 0%nat cs)%nat).
    { clear. induction cs as [|c cs IHc]; intros Hn; [reflexivity|]. inversion Hn as [|? ? Hc Hcs]; subst. cbn [fold_right]. rewrite (IHc Hcs).
      cbn [count_occ]. destruct (attribute_dec x c) as [->|Hx].
      - destruct (in_dec attribute_dec c cs) as [H|_]; [contradiction|]. destruct (in_dec attribute_dec c (c :: cs)) as [_|H]; [lia|exfalso; apply H; left; reflexivity].
      - destruct (in_dec attribute_dec x cs) as [H|H]; destruct (in_dec attribute_dec x (c :: cs)) as [H'|H']; try lia.
        + exfalso. apply H'. right. exact H.
        + destruct H' as [H'|H']; [congruence|contradiction]. }
    rewrite (G bs Hn), <- IH. destruct (in_dec attribute_dec x bs); reflexivity.
Qed.

(** an axis is added once *)
Lemma axis_new n pre x names h post p : run_ops (pre ++ AddAxis x names h :: post) (new_policy n) = Ok p ->
  forall names' h', ~ In (AddAxis x names' h') pre.
Proof.
  intros E names' h' H. assert (exists p1, run_ops pre (new_policy n) = Ok p1) as (p1 & E1).
  { clear H. revert E. generalize (new_policy n). induction pre as [|o pre IH]; intros q E; [eexists; reflexivity|].
    cbn [app run_ops] in *. apply bind_ok in E as (q1 & Eq & E). rewrite Eq. cbn [bind]. eapply IH, E. }
  rewrite (run_app _ _ _ _ E1) in E. cbn [run_ops apply_op] in E. apply bind_ok in E as (p2 & E2 & _).
  apply add_axis_inv in E2 as (_ & E2 & _). apply (i_axes _ _ (inv_history _ _ _ E1)) in H. congruence.
Qed.
Lemma count_other ops b : (forall names h, ~ In (AddAxis (fst b) names h) ops) -> count_occ attribute_dec (numbering ops) b = rotations ops b.
Proof.
  induction ops as [|[x names h|a] ops IH]; intros H; [reflexivity| |].
  - change (numbering (AddAxis x names h :: ops)) with (@app attribute (map (pair x) names) (numbering ops)).
    change (rotations (AddAxis x names h :: ops) b) with (rotations ops b). rewrite count_occ_app, IH by (intros nm hh Hi; apply (H nm hh); right; exact Hi).
    enough (count_occ attribute_dec (map (pair x) names) b = 0%nat) by lia. apply count_occ_not_In. intros Hi. apply in_map_iff in Hi as (e & <- & _).
    apply (H names h). left. reflexivity.
  - change (numbering (Rotate a :: ops)) with (a :: numbering ops). unfold rotations in *. cbn [filter count_occ].
    specialize (IH (fun nm hh Hi => H nm hh (or_intror Hi))).
    destruct (attribute_dec a b) as [->|Hab].
    + rewrite (proj2 (attribute_eqb_spec b b) eq_refl). cbn [length]. lia.
    + destruct (attribute_eqb a b) eqn:Q; [apply attribute_eqb_spec in Q; contradiction|]. exact IH.
Qed.
Lemma count_values n ops p b : run_ops ops (new_policy n) = Ok p -> proper_axes ops -> declared ops b ->
  count_occ attribute_dec (numbering ops) b = Datatypes.S (rotations ops b).
Proof.
  intros E Hp (names & h & Hin & Hnm). pose proof (Hp _ _ _ Hin) as Hnd. apply in_split in Hin as (pre & post & ->).
  pose proof (axis_new _ _ _ _ _ _ _ E) as N1.
  assert (N2 : forall names' h', ~ In (AddAxis (fst b) names' h') post).
  { intros names' h' H. apply in_split in H as (p1 & p2 & ->).
    change (pre ++ AddAxis (fst b) names h :: p1 ++ AddAxis (fst b) names' h' :: p2) with (pre ++ (AddAxis (fst b) names h :: p1) ++ AddAxis (fst b) names' h' :: p2) in E.
    rewrite app_assoc in E. apply (axis_new _ _ _ _ _ _ _ E names h). apply in_or_app. right. left. reflexivity. }
  rewrite numbering_app, count_occ_app, (count_other pre b N1).
  change (numbering (AddAxis (fst b) names h :: post)) with (@app attribute (map (pair (fst b)) names) (numbering post)). rewrite count_occ_app, (count_other post b N2).
  assert (Q : count_occ attribute_dec (map (pair (fst b)) names) b = 1%nat).
  { apply NoDup_count_occ'; [apply FinFun.Injective_map_NoDup; [intros u v Q; congruence|exact Hnd]|]. apply in_map_iff. exists (snd b). split; [destruct b; reflexivity|exact Hnm]. }
  rewrite Q. unfold rotations. rewrite filter_app, app_length. cbn [filter]. lia.
Qed.

(** the number of rows of a key *)
Lemma leaves_count it n ops p ap f bs : run_ops ops (new_policy n) = Ok p -> proper_axes ops -> iteration_ok it -> key_formula it p ap = Ok f ->
  NoDup (leaves f) -> NoDup bs -> (forall b, In b bs <-> needed ops ap b) -> length (leaves f) = values_of ops bs.
Proof.
  intros E Hp Hit Ef Hn Hb Hbs.
  assert (V : values_of ops bs = fold_right (fun b k => (count_occ attribute_dec (numbering ops) b + k)%nat) 0%nat bs).
  { assert (D : forall b, In b bs -> declared ops b).
    { intros b Hi. apply Hbs in Hi. destruct ap; cbn [needed] in Hi; try exact Hi; destruct Hi as (? & _ & Hc); exact (covers_declared _ _ _ Hc). }
    clear Hb Hbs. unfold values_of. induction bs as [|b bs IH]; [reflexivity|]. cbn [fold_right]. rewrite IH by (intros c Hc; apply D; right; exact Hc).
    rewrite (count_values n ops p b E Hp) by (apply D; left; reflexivity). reflexivity. }
  rewrite V, <- (count_filter _ _ Hb), <- (positions_filter _ _ 0), <- (map_length (fun i => N.of_nat (Datatypes.S i))).
  apply Permutation_length, NoDup_Permutation.
  - exact Hn.
  - apply FinFun.Injective_map_NoDup; [intros i j H; lia|]. apply NoDup_filter, seq_NoDup.
  - intros v. rewrite (key_numbers it n ops p ap f E Hp Hit Ef v), in_map_iff. split.
    + intros (c & i & Hc & Hi & ->). exists i. split; [reflexivity|]. apply filter_In. rewrite Nat.sub_0_r, Hi. split.
      * apply in_seq. assert (i < length (numbering ops))%nat by (apply nth_error_Some; congruence). lia.
      * destruct (in_dec attribute_dec c bs) as [_|H]; [reflexivity|]. exfalso. apply H, Hbs, Hc.
    + intros (i & <- & Hi). apply filter_In in Hi as (_ & Hi). rewrite Nat.sub_0_r in Hi. destruct (nth_error (numbering ops) i) as [c|] eqn:Ec; [|discriminate].
      destruct (in_dec attribute_dec c bs) as [H|]; [|discriminate]. exists c, i. split; [apply Hbs, H|]. split; [exact Ec|reflexivity].
Qed.

Section Sizes.
Variable B : BilinearMap.
Hypothesis BL : BilinearLaws B.
Local Notation K := (bm_K B).
Variable F : byte_forms B.
Variable fine : Gt B -> Prop.
Hypothesis HF : forms_ok F fine.

(** ** C117 *)
(** The three master keys. *)
Theorem C117_master_keys p (mdraw : nat -> K) mk priv pub del : eng_master_key p mdraw = Ok mk -> 1 <= max_attribute_creations p ->
  priv_enc F (priv_key mk) = Ok priv -> pub_enc F (pub_key mk) = Ok pub -> del_enc F (del_key mk) = Ok del ->
  blen priv = private_key_bytes (max_attribute_creations p) /\ blen pub = public_key_bytes (max_attribute_creations p) /\
  blen del = delegation_key_bytes (max_attribute_creations p).
Proof.
  intros Hmk Hn E1 E2 E3. destruct (generate_master_key_inv B BL _ _ _ Hmk) as (t & y & -> & Ht & _).
  unfold priv_enc in E1. apply bind_ok in E1 as (b1 & V1 & E1). cbn [scalar_codec fixed_codec enc bind] in E1. apply Ok_inj in E1. subst priv.
  unfold pub_enc in E2. apply bind_ok in E2 as (b2 & V2 & E2). cbn [gt_codec fixed_codec enc bind] in E2. apply Ok_inj in E2. subst pub.
  unfold del_enc in E3. rewrite !blen_app, (scalar_blen F fine HF), (gt_blen F fine HF).
  rewrite (vec_enc_len _ 32 _ (scalar_ok F fine HF) _ _ (vec_enc_count _ _ _ V1) V1).
  rewrite (vec_enc_len _ 48 _ (g2_ok F fine HF) _ _ (vec_enc_count _ _ _ V2) V2).
  rewrite (vec_enc_len _ 96 _ (g3_ok F fine HF) _ _ (vec_enc_count _ _ _ E3) E3).
  unfold master_of, SchemeProofs.pub_of, SchemeProofs.inv_of. cbn [priv_key pub_key del_key priv_t pub_t inv_t].
  destruct t as [|x t]; [exfalso; cbn [length] in Ht; lia|].
  unfold private_key_bytes, public_key_bytes, delegation_key_bytes, vec_len. cbn [map clen scalar_codec g2_codec g3_codec fixed_codec].
  cbn [length] in *. rewrite ?map_length. lia.
Qed.

(** A key for a formula, however it was obtained. *)
Lemma user_key_size P t y f uk d : N.of_nat (length t) < 4294967296 -> (forall x, In x t -> x <> f0) ->
  obtained B P (master_of B t y) f uk -> user_enc F P uk = Ok d -> blen d = user_key_bytes (length (leaves f)) (count_and f).
Proof.
  intros Ht Hnz Ho E. destruct (obtained_rep B BL P t y f uk Hnz Ho) as (m & sg & _ & R & _).
  assert (Hu : Forall u32 (leaves f)).
  { apply Forall_forall. intros a Ha. pose proof (SchemeProofs.kr_range _ _ _ _ _ _ R a Ha) as Hr. unfold SchemeProofs.in_range in Hr. unfold u32, u32_modulus. lia. }
  destruct (rep_key_ok t f m sg uk R Hu) as (Hk & Hr & Hc). assert (Hl : (length (raw_d uk) = nb_row (dk_msp uk))%nat) by apply Hk.
  unfold user_enc in E. apply bind_ok in E as (rb & Er & E). apply bind_ok in E as (mb & Em & E). apply Ok_inj in E. subst d. rewrite blen_app.
  rewrite (vec_enc_len _ 96 _ (g3_ok F fine HF) _ _ (vec_enc_count _ _ _ Er) Er). rewrite (msp_enc_len _ _ _ (scalar_ok F fine HF) P _ _ (proj1 Hk) Em).
  assert (0 < length (leaves f))%nat by (pose proof (height_leaves f); lia).
  destruct (raw_d uk) as [|x l]; [cbn [length] in Hl; lia|]. unfold vec_len. cbn [clen g3_codec fixed_codec]. rewrite Hl, Hr, Hc.
  unfold user_key_bytes. lia.
Qed.

(** User keys: the number of values and the number of conjunctions of the access policy decide. A key
    delegated from any other has the size of a generated one, a refreshed key keeps its size. *)
Theorem C117_user_keys P n ops p p0 (mdraw : nat -> K) mk it ap (kdraw : nat -> K) uk bs d :
  run_ops ops (new_policy n) = Ok p -> proper_axes ops -> iteration_ok it ->
  eng_master_key p0 mdraw = Ok mk -> max_attribute_creations p0 < 4294967296 ->
  (eng_user_key P it p (priv_key mk) ap kdraw = Ok uk \/
   (ap <> AAll /\ exists f0 uk0, obtained B P mk f0 uk0 /\ eng_delegate P it p (del_key mk) uk0 ap kdraw = Ok uk)) ->
  user_enc F P uk = Ok d -> NoDup bs -> (forall b, In b bs <-> needed ops ap b) ->
  blen d = user_key_bytes (values_of ops bs) (conjunctions ap).
Proof.
  intros E Hp Hit Hmk Hn Hk Ed Hb Hbs. destruct (generate_master_key_inv B BL _ _ _ Hmk) as (t & y & -> & Ht & Hnz).
  assert (exists f, key_formula it p ap = Ok f /\ is_ok (to_msp P f) /\ obtained B P (master_of B t y) f uk) as (f & Ef & Em & Ho).
  { destruct Hk as [Hk|(Hne & f1 & uk0 & H0 & Hk)].
    - unfold eng_user_key in Hk. apply bind_ok in Hk as (m & Em & Hk). rewrite policy_to_msp_formula in Em. apply bind_ok in Em as (f & Ef & Em).
      exists f. split; [exact Ef|]. split; [exists m; exact Em|]. eapply ob_gen; eassumption.
    - unfold eng_delegate in Hk. apply bind_ok in Hk as (m & Em & Hk). assert (exists m', policy_to_msp it P p ap = Ok m' /\ m = Some m') as (m' & Em' & ->).
      { destruct ap; try contradiction; apply bind_ok in Em as (m' & Em & Q); exists m'; (split; [exact Em|congruence]). }
      rewrite policy_to_msp_formula in Em'. apply bind_ok in Em' as (f & Ef & Em'). exists f. split; [exact Ef|]. split; [exists m'; exact Em'|]. eapply ob_del; eassumption. }
  rewrite (user_key_size P t y f uk d) by (try assumption; lia). rewrite (key_formula_count _ _ _ _ Ef).
  rewrite (leaves_count it n ops p ap f bs E Hp Hit Ef); [reflexivity| |exact Hb|exact Hbs]. apply (C34_compiles_iff_distinct P f). exact Em.
Qed.
Theorem C117_refreshed_keys P it p p0 (mdraw kdraw : nat -> K) mk f uk uk' d d' :
  eng_master_key p0 mdraw = Ok mk -> max_attribute_creations p0 < 4294967296 -> obtained B P mk f uk ->
  eng_delegate P it p (del_key mk) uk AAll kdraw = Ok uk' -> user_enc F P uk = Ok d -> user_enc F P uk' = Ok d' -> blen d' = blen d.
Proof.
  intros Hmk Hn Ho Hd E E'. destruct (generate_master_key_inv B BL _ _ _ Hmk) as (t & y & -> & Ht & Hnz). unfold eng_delegate in Hd. cbn [bind] in Hd.
  rewrite (user_key_size P t y f uk d), (user_key_size P t y f uk' d'); try assumption; try lia. eapply ob_rand; eassumption.
Qed.

(** However often the key was refreshed and delegated. *)
Lemma user_key_formula P mk p ap (uk : decryption_key B) : user_key P mk p ap uk ->
  exists it f, iteration_ok it /\ key_formula it p ap = Ok f /\ is_ok (to_msp P f) /\ obtained B P mk f uk.
Proof using Type.
  intros H. induction H as [it ap draw uk Hit E|it ap uk draw uk' _ IH E|it ap ap' uk draw uk' Hit _ IH Ha Hn E].
  - unfold eng_user_key in E. apply bind_ok in E as (m & Em & E). rewrite policy_to_msp_formula in Em. apply bind_ok in Em as (f & Ef & Em).
    exists it, f. split; [exact Hit|]. split; [exact Ef|]. split; [exists m; exact Em|]. eapply ob_gen; eassumption.
  - destruct IH as (it' & f & Hit & Ef & Em & Ho). exists it', f. split; [exact Hit|]. split; [exact Ef|]. split; [exact Em|].
    unfold eng_delegate in E. cbn [bind] in E. eapply ob_rand; eassumption.
  - destruct IH as (_ & f1 & _ & _ & _ & Ho). unfold eng_delegate in E. apply bind_ok in E as (m & Em & E).
    assert (exists m', policy_to_msp it P p ap' = Ok m' /\ m = Some m') as (m' & Em' & ->).
    { destruct ap'; try contradiction; apply bind_ok in Em as (m' & Em & Q); exists m'; (split; [exact Em|congruence]). }
    rewrite policy_to_msp_formula in Em'. apply bind_ok in Em' as (f & Ef & Em'). exists it, f. split; [exact Hit|]. split; [exact Ef|].
    split; [exists m'; exact Em'|]. eapply ob_del; eassumption.
Qed.
Theorem C117_any_user_key P n ops p p0 (mdraw : nat -> K) mk ap uk bs d :
  run_ops ops (new_policy n) = Ok p -> proper_axes ops -> eng_master_key p0 mdraw = Ok mk -> max_attribute_creations p0 < 4294967296 ->
  user_key P mk p ap uk -> user_enc F P uk = Ok d -> NoDup bs -> (forall b, In b bs <-> needed ops ap b) ->
  blen d = user_key_bytes (values_of ops bs) (conjunctions ap).
Proof.
  intros E Hp Hmk Hn Hk Ed Hb Hbs. destruct (user_key_formula P mk p ap uk Hk) as (it & f & Hit & Ef & Em & Ho).
  destruct (generate_master_key_inv B BL _ _ _ Hmk) as (t & y & -> & Ht & Hnz).
  rewrite (user_key_size P t y f uk d) by (try assumption; lia). rewrite (key_formula_count _ _ _ _ Ef).
  rewrite (leaves_count it n ops p ap f bs E Hp Hit Ef); [reflexivity| |exact Hb|exact Hbs]. apply (C34_compiles_iff_distinct P f). exact Em.
Qed.

Variable shake : list byte -> nat -> list byte.
Variable S : sym_scheme.
(** the encrypted metadata are longer than the metadata by a constant (the tag) *)
Variable tag : N.
Hypothesis tagged : forall k m nonce c, sym_encrypt S k m nonce None = Ok c -> blen c = blen m + tag.

(** Headers: the number of attributes, repetitions counted, and the size of the metadata decide. *)
Theorem C117_headers P p pk l meta random (s : K) nonce h : l <> [] -> length nonce = nonce_length S ->
  encrypt_hybrid_header S F shake P p pk l meta random s nonce = Ok h ->
  length (eh_key h) = key_length S /\
  match meta with
  | None => blen (eh_bytes h) = header_bytes (length l)
  | Some m => exists b, meta_to_bytes S m = Ok b /\
      blen (eh_bytes h) = header_bytes (length l) + N.of_nat (nonce_length S) + 4 + blen b + tag
  end.
Proof using HF tagged.
  intros Hl Hno E. destruct (header_layout B F shake S P p pk l meta random s nonce h E) as (sk & tail & Eg & Lk & Ls & Eb & Et). split; [exact Lk|].
  assert (Lsk : blen sk = 296 + 52 * N.of_nat (length l)).
  { unfold generate_symmetric_key in Eg. apply bind_ok in Eg as (ct & Ec & Eg). apply bind_ok in Eg as (e & Ee & Eg). cbn [gt_codec fixed_codec enc bind] in Eg.
    assert (e = sk) as -> by congruence. unfold eng_encrypt in Ec. apply bind_ok in Ec as (vals & Ev & Ec). pose proof (Forall2_length_eq _ _ _ (attributes_values_inv _ _ _ Ev)) as Lv.
    destruct (encrypt_parts B _ _ _ _ _ _ Ec) as [Eg' Le].
    assert (C : N.of_nat (length vals) < 4294967296).
    { unfold ct_enc in Ee. apply bind_ok in Ee as (bg & Hbg & _). rewrite Eg' in Hbg. pose proof (vec_enc_count _ _ _ Hbg) as Q. unfold u32_modulus in Q. exact Q. }
    rewrite (C21_announced_length B F fine HF P random vals pk s ct sk Ec C Ee); [unfold ciphertext_len; lia|]. intros ->. destruct l; [contradiction|discriminate]. }
  destruct meta as [m|].
  - destruct Et as (mb & em & Em & Es & Lem & ->). exists mb. split; [exact Em|]. rewrite Eb, !blen_app, (tagged _ _ _ _ Es).
    change (blen (be32 (blen sk))) with 4. change (blen (be32 (blen mb + tag))) with 4. unfold blen at 2. rewrite Hno. unfold header_bytes. lia.
  - rewrite Eb, Et, app_nil_r, blen_app. change (blen (be32 (blen sk))) with 4. unfold header_bytes. lia.
Qed.
End Sizes.

(** ** Through the three interfaces *)
Section Interfaces.
Variable B : BilinearMap.
Hypothesis BL : BilinearLaws B.
Local Notation K := (bm_K B).
Variable F : byte_forms B.
Variable fine : Gt B -> Prop.
Hypothesis HF : forms_ok F fine.
Variable shake : list byte -> nat -> list byte.
Variable S : sym_scheme.
Hypothesis SK : key_length S = 32%nat.
Variable tag : N.
Hypothesis tagged : forall k m nonce c, sym_encrypt S k m nonce None = Ok c -> blen c = blen m + tag.
(** the machines of the C program, of the Python program and of the browser *)
Variables PC PP PW : platform.
Hypothesis HC : 32 <= usize_bits PC.
Hypothesis HPP : 32 <= usize_bits PP.
Hypothesis HW : 32 <= usize_bits PW.
Variable c_policy_from : list byte -> outcome policy.
Variable c_attributes_from : list byte -> outcome (list attribute).
Variable c_access_from : list byte -> outcome access_policy.
Variable policy_from : list byte -> outcome policy.
Variable attributes_from : list byte -> outcome (list attribute).
Variable metadata_from : list byte -> outcome metadata.
Variable access_parse : string -> outcome access_policy.
Variable attributes_parse : string -> outcome (list attribute).
Local Notation masters := (masters B F PC c_policy_from policy_from).
Local Notation issued := (issued B F PC PP PW c_policy_from c_access_from policy_from access_parse).
Local Notation sealed := (sealed B F shake S PC PP PW c_policy_from c_attributes_from policy_from attributes_from metadata_from attributes_parse).
Local Notation c_user_key := (h_generate_user_private_key (B := B) PC F c_policy_from c_access_from).

(** Master keys made by any of the interfaces. *)
Theorem C117_made_masters p (d : nat -> K) priv pub del : 1 <= max_attribute_creations p < 524288 -> masters p d priv pub del ->
  blen priv = private_key_bytes (max_attribute_creations p) /\ blen pub = public_key_bytes (max_attribute_creations p) /\
  (forall dk, del = Some dk -> blen dk = delegation_key_bytes (max_attribute_creations p)).
Proof using BL HF HC.
  intros Hn H. destruct (masters_inv B BL F fine HF PC HC c_policy_from policy_from _ p d priv pub del eq_refl Hn H) as (mk & Hmk & E1 & E2 & E3).
  destruct (generate_master_key_inv B BL _ _ _ Hmk) as (t & y & Q & Ht & _).
  assert (exists dk, del_enc F (del_key mk) = Ok dk) as (dk & Ed).
  { destruct (vec_enc_ok (g3_codec F) 96 _ (g3_ok F fine HF) (inv_t (del_key mk))) as (bs & _ & _ & _ & E); [|eexists; exact E].
    subst mk. unfold master_of, SchemeProofs.inv_of. cbn [del_key inv_t]. rewrite ?map_length. unfold u32_modulus. clear SK HPP HW HC. lia. }
  destruct (C117_master_keys B BL F fine HF p d mk priv pub dk Hmk (proj1 Hn) E1 E2 Ed) as (A1 & A2 & A3).
  split; [exact A1|]. split; [exact A2|]. intros dk' Q'. specialize (E3 _ Q'). congruence.
Qed.

Local Ltac step E := apply then_go in E; let a := fresh "a" in let o1 := fresh "o" in let E1 := fresh "E" in destruct E as (a & o1 & E1 & E).
Lemma issued_encodes n p0 (mdraw : nat -> K) mk priv del p ap b :
  max_attribute_creations p0 = n -> n < 524288 -> eng_master_key p0 mdraw = Ok mk ->
  (forall P, 32 <= usize_bits P -> priv_dec F P priv = Ok (priv_key mk)) ->
  (forall P dk, 32 <= usize_bits P -> del = Some dk -> del_dec F P dk = Ok (del_key mk)) ->
  issued priv del p ap b -> exists P uk, user_key P mk p ap uk /\ user_enc F P uk = Ok b.
Proof using BL HF HC HPP HW.
  intros Hm Hn Hmk Dp Dd H.
  destruct H as [it access ap pol draw o o1 Hit Ea Ep G E Lb|it access ap pol draw b Hit Ea Ep E Lb|it access ap pol draw b Hit Ea Ep E Lb
                 |it access ap b pol dk draw b' H Ed Ea Ep E Lb|it access ap ap' b pol dk draw b' Hit H Ed Ea Hne Hna Ep E Lb].
  - step E. step E. step E. step E. step E. step E. step E. step E. step E.
    apply check_go in E0 as [-> _]. apply input_go_inv in E1 as (Q1 & _ & ->). apply null_go in E2 as [Q2 ->]. apply null_go in E3 as [Q3 ->].
    apply unwrap_go in E4 as [Q4 ->]. apply unwrap_go in E5 as [Q5 ->]. apply unwrap_go in E6 as [Q6 ->]. apply unwrap_go in E7 as [Q7 ->].
    apply unwrap_go in E8 as [Q8 ->]. pose proof (Dp PC HC) as Dc.
    assert (a0 = priv) by congruence. subst a0. assert (a3 = priv_key mk) by congruence. subst a3.
    assert (a1 = access) by congruence. subst a1. assert (a4 = ap) by congruence. subst a4. assert (a2 = pol) by congruence. subst a2.
    assert (a5 = p) by congruence. subst a5.
    apply (deliver_go PC HC 0 a7 [o] Datatypes.tt [o1] o eq_refl G) in E as (o' & Eo & D & L). cbn [set_out] in Eo. assert (o1 = o') by congruence. subst o'.
    rewrite (delivered_read _ _ _ D) in *.
    exists PC, a6. split; [|assumption]. apply uk_gen with it draw; assumption.
  - unfold py_generate_user_private_key in E. rewrite (Dp PP HPP), Ep, Ea in E. cbn [bind] in E. apply bind_ok in E as (uk & Eu & E).
    exists PP, uk. split; [|exact E]. apply uk_gen with it draw; assumption.
  - unfold w_generate_user_private_key in E. rewrite (Dp PW HW), Ep, Ea in E. cbn [bind] in E. apply bind_ok in E as (uk & Eu & E).
    exists PW, uk. split; [|exact E]. apply uk_gen with it draw; assumption.
  - destruct (issued_sound B BL F fine HF PC PP PW HC HPP HW _ _ _ _ _ p0 mdraw mk _ _ _ _ _ Hm Hn Hmk Dp Dd H) as (uk & Hu).
    destruct (Hu PP HPP) as [Hk Du]. unfold py_generate_delegated_key in E. rewrite (Dd PP dk HPP Ed), Du, Ea, Ep in E. cbn [bind] in E.
    apply bind_ok in E as (uk' & Eu & E). exists PP, uk'. split; [|exact E]. apply uk_refresh with it uk draw; assumption.
  - destruct (issued_sound B BL F fine HF PC PP PW HC HPP HW _ _ _ _ _ p0 mdraw mk _ _ _ _ _ Hm Hn Hmk Dp Dd H) as (uk & Hu).
    destruct (Hu PP HPP) as [Hk Du]. unfold py_generate_delegated_key in E. rewrite (Dd PP dk HPP Ed), Du, Ea, Ep in E. cbn [bind] in E.
    apply bind_ok in E as (uk' & Eu & E). exists PP, uk'. split; [|exact E]. apply uk_delegate with it ap uk draw; assumption.
Qed.

(** User keys made by any of the interfaces, refreshed and delegated by Python. *)
Theorem C117_made_user_keys n p0 (mdraw : nat -> K) priv pub del ops p ap b bs :
  1 <= n < 524288 -> max_attribute_creations p0 = n -> masters p0 mdraw priv pub del ->
  (forall mk, eng_master_key p0 mdraw = Ok mk -> fine (pub_y (pub_key mk))) ->
  run_ops ops (new_policy n) = Ok p -> proper_axes ops -> issued priv del p ap b ->
  NoDup bs -> (forall x, In x bs <-> needed ops ap x) ->
  blen b = user_key_bytes (values_of ops bs) (conjunctions ap).
Proof using BL HF HC HPP HW.
  intros Hn Hm H Hf E Hp Hi Hb Hbs.
  destruct (masters_inv B BL F fine HF PC HC c_policy_from policy_from _ p0 mdraw priv pub del Hm Hn H) as (mk & Hmk & E1 & E2 & E3).
  assert (D : forall P, 32 <= usize_bits P -> priv_dec F P priv = Ok (priv_key mk) /\ (forall dk, del_enc F (del_key mk) = Ok dk -> del_dec F P dk = Ok (del_key mk))).
  { intros P HP. destruct (masters_decode B BL F fine HF P n p0 mdraw mk priv pub HP Hm Hn Hmk (Hf _ Hmk) E1 E2) as (A & _ & C). split; [exact A|exact C]. }
  destruct (issued_encodes n p0 mdraw mk priv del p ap b Hm (proj2 Hn) Hmk) as (P & uk & Hk & Ek); [intros P HP; apply (D P HP)| |exact Hi|].
  { intros P dk HP Ed. apply (D P HP), E3, Ed. }
  apply (C117_any_user_key B BL F fine HF P n ops p p0 mdraw mk ap uk bs b); try assumption. clear SK HC HPP HW. lia.
Qed.

(** A C program can offer a buffer of this size at once: the call fills it. With a smaller one, it
    asks for this size. *)
Theorem C117_c_room n p0 (mdraw : nat -> K) mk priv ops p it access ap pol draw uk d bs :
  run_ops ops (new_policy n) = Ok p -> proper_axes ops -> iteration_ok it ->
  max_attribute_creations p0 < 4294967296 -> eng_master_key p0 mdraw = Ok mk -> priv <> [] -> priv_dec F PC priv = Ok (priv_key mk) ->
  c_access_from access = Ok ap -> c_policy_from pol = Ok p -> eng_user_key PC it p (priv_key mk) ap draw = Ok uk -> user_enc F PC uk = Ok d ->
  NoDup bs -> (forall x, In x bs <-> needed ops ap x) -> user_key_bytes (values_of ops bs) (conjunctions ap) < 2147483648 ->
  forall o mem, good_out o -> o_mem o = Some mem ->
  (o_len o = Some (Z.of_N (user_key_bytes (values_of ops bs) (conjunctions ap))) ->
     exists o', c_user_key it (Some priv) (Some access) (Some pol) draw [o] = Go Datatypes.tt [o'] /\ delivered d o o') /\
  (forall len, o_len o = Some len -> (1 <= len < Z.of_N (user_key_bytes (values_of ops bs) (conjunctions ap)))%Z ->
     exists e o', c_user_key it (Some priv) (Some access) (Some pol) draw [o] = Bail e [o'] /\
       asks_for (user_key_bytes (values_of ops bs) (conjunctions ap)) o o').
Proof using BL HF HC.
  intros E Hp Hit Hn Hmk Hpr Dp Ea Epol Ek Ed Hb Hbs Hs o mem G Em.
  assert (Q : blen d = user_key_bytes (values_of ops bs) (conjunctions ap)).
  { apply (C117_any_user_key B BL F fine HF PC n ops p p0 mdraw mk ap uk bs d); try assumption. apply uk_gen with it draw; assumption. }
  rewrite <- Q in *. assert (Q2 : Z.of_N (blen d) = Z.of_nat (length d)) by (unfold blen; apply nat_N_Z). rewrite Q2.
  pose proof (C54_user_key B PC HC F c_policy_from c_access_from it priv (priv_key mk) access ap pol p draw uk d Hpr Dp Ea Epol Ek Ed Hs) as H.
  assert (1 <= blen d) by (rewrite Q; unfold user_key_bytes; clear SK HC HPP HW; lia). unfold blen in *. clear SK HC HPP HW. split.
  - intros L. destruct (H o mem _ G Em L) as [H1 _]; [lia|]. apply H1. lia.
  - intros len L Hlen. destruct (H o mem _ G Em L) as [_ H2]; [lia|]. apply H2. lia.
Qed.

(** Headers made by any of the interfaces. All of them put metadata into the header. *)
Theorem C117_made_headers n p0 (mdraw : nat -> K) priv pub del p l random (s : K) m key header :
  1 <= n < 524288 -> max_attribute_creations p0 = n -> masters p0 mdraw priv pub del ->
  (forall mk, eng_master_key p0 mdraw = Ok mk -> fine (pub_y (pub_key mk))) ->
  l <> [] -> sealed pub p l random s m key header ->
  length key = 32%nat /\
  exists b, meta_to_bytes S m = Ok b /\ blen header = header_bytes (length l) + N.of_nat (nonce_length S) + 4 + blen b + tag.
Proof using BL HF HC HPP HW SK tagged.
  intros Hn Hm H Hf Hl Hs.
  destruct (masters_inv B BL F fine HF PC HC c_policy_from policy_from _ p0 mdraw priv pub del Hm Hn H) as (mk & Hmk & E1 & E2 & _).
  destruct (sealed_inv B F shake S SK PC PP PW HC HPP HW c_policy_from c_attributes_from policy_from attributes_from metadata_from attributes_parse
    (pub_key mk) pub p l random s m key header) as (nonce & h & Ln & -> & -> & E); [|exact Hs|].
  { intros P HP. apply (masters_decode B BL F fine HF P n p0 mdraw mk priv pub HP Hm Hn Hmk (Hf _ Hmk) E1 E2). }
  destruct (C117_headers B F fine HF shake S tag tagged PC p (pub_key mk) l (Some m) random s nonce h Hl Ln (E PC)) as (A & C).
  split; [rewrite A; exact SK|exact C].
Qed.
End Interfaces.

(** ** A concrete case *)
Local Ltac vmr x := vm_cast_no_check (eq_refl x).
(** The attributes needed by "Confidential && (HR || FIN)", before and after the rotation of HR. *)
Definition ex_needed : list attribute := [level "Protected"; level "Confidential"; dept "HR"; dept "FIN"].
Lemma ex_needed_ok ops : ops = [] \/ ops = ops_b -> NoDup ex_needed /\ forall b, In b ex_needed <-> needed (ops_a ++ ops) ex_ap b.
Proof.
  intros Ho. split; [repeat constructor; simpl; intuition discriminate|]. intros b.
  assert (A : forall x names h, In (AddAxis x names h) (ops_a ++ ops) <-> In (AddAxis x names h) ops_a).
  { intros x names h. rewrite in_app_iff. destruct Ho as [-> | ->]; cbn [In ops_b]; intuition discriminate. }
  cbn [needed ex_ap]. split.
  - assert (L : In (AddAxis "Security Level" ["Protected"; "Confidential"; "Top Secret"]%string true) (ops_a ++ ops)) by (apply A; left; reflexivity).
    assert (D : In (AddAxis "Department" ["R&D"; "HR"; "MKG"; "FIN"]%string false) (ops_a ++ ops)) by (apply A; right; left; reflexivity).
    intros [<-|[<-|[<-|[<-|[]]]]].
    + exists (level "Confidential"). split; [left; reflexivity|]. eexists _, _. split; [exact L|]. split; [right; left; reflexivity|]. right.
      split; [reflexivity|]. split; [reflexivity|]. exists ["Protected"%string], ["Top Secret"%string]. split; [reflexivity|]. split; [intros [H|[]]; discriminate|left; reflexivity].
    + exists (level "Confidential"). split; [left; reflexivity|]. eexists _, _. split; [exact L|]. split; [right; left; reflexivity|]. left. reflexivity.
    + exists (dept "HR"). split; [right; left; reflexivity|]. eexists _, _. split; [exact D|]. split; [right; left; reflexivity|]. left. reflexivity.
    + exists (dept "FIN"). split; [right; right; left; reflexivity|]. eexists _, _. split; [exact D|]. split; [do 3 right; left; reflexivity|]. left. reflexivity.
  - intros (a & Ha & names & h & Hx & Hn & Hb). apply A in Hx.
    destruct Ha as [<-|[<-|[<-|[]]]]; cbn [fst snd level dept] in *; (destruct Hx as [Hx|[Hx|[]]]; inversion Hx; subst names h; clear Hx).
    + destruct Hb as [-> |(_ & Hf & l1 & l2 & Hl & Hy & Hin)]; [right; left; reflexivity|]. left. destruct b as [x v]. cbn [fst snd] in *. subst x.
      destruct l1 as [|y1 [|y2 l1]]; cbn [app] in Hl; inversion Hl; subst.
      * destruct Hin as [<-|[]]. reflexivity.
      * exfalso. apply Hy. right. left. reflexivity.
    + destruct Hb as [-> |(Hh & _)]; [right; right; left; reflexivity|discriminate].
    + destruct Hb as [-> |(Hh & _)]; [do 3 right; left; reflexivity|discriminate].
Qed.
Example C117_example :
  (** ten attribute values at most *)
  eng_master_key pol_a ex_draw = Ok ex_mk /\ max_attribute_creations pol_a = 10 /\
  blen (fst (fst py_masters)) = 356 /\ blen (snd (fst py_masters)) = 772 /\ blen (snd py_masters) = 964 /\
  private_key_bytes 10 = 356 /\ public_key_bytes 10 = 772 /\ delegation_key_bytes 10 = 964 /\
  (** a user key, before and after the rotation, and delegated *)
  values_of (ops_a ++ []) ex_needed = 4%nat /\ values_of (ops_a ++ ops_b) ex_needed = 5%nat /\ conjunctions ex_ap = 1%nat /\
  user_key_bytes 4 1 = 668 /\ user_key_bytes 5 1 = 832 /\
  blen (bytes_of (user_enc toy_forms pf (ekey pol_a ex_ap))) = 668 /\ blen (bytes_of (user_enc toy_forms pf (ekey pol_b ex_ap))) = 832 /\ blen t_user = 668 /\ user_key_bytes 3 1 = 504 /\ blen t_narrow = 504 /\
  (** a header for two attributes; the metadata take 4 bytes for a size, 3 for the uid and 2 for the data *)
  (forall k m nonce c, sym_encrypt toy_sym k m nonce None = Ok c -> blen c = blen m + 1) /\
  blen (t_header x01) = 430 /\ header_bytes 2 = 404 /\ 430 = 404 + 12 + 4 + (4 + 3 + 2) + 1 /\
  (** /repo/README.md, Benchmarks: 404 bytes for two attributes ("1 partition"), 508 for four ("3 partitions") *)
  header_bytes 4 = 508.
Proof.
  assert (T : forall k m nonce c, sym_encrypt toy_sym k m nonce None = Ok c -> blen c = blen m + 1).
  { intros k m nonce c H. apply Ok_inj in H. subst c. unfold blen. cbn [length]. lia. }
  split; [vmr (Ok ex_mk)|]. split; [reflexivity|].
  split; [vmr 356|]. split; [vmr 772|]. split; [vmr 964|]. do 8 (split; [reflexivity|]). split; [vmr 668|]. split; [vmr 832|]. split; [vmr 668|].
  split; [reflexivity|]. split; [vmr 504|]. split; [exact T|]. split; [vmr 430|]. do 2 (split; [reflexivity|]). reflexivity.
Qed.

Print Assumptions C117_master_keys.
Print Assumptions C117_user_keys.
Print Assumptions C117_refreshed_keys.
Print Assumptions C117_any_user_key.
Print Assumptions C117_headers.
Print Assumptions C117_made_masters.
Print Assumptions C117_made_user_keys.
Print Assumptions C117_c_room.
Print Assumptions C117_made_headers.
