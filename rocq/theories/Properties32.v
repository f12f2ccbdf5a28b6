(** Encodings and headers on machines of 32 bits and more: C76, C77. *)
From Coq Require Import String NArith ZArith Bool Arith Lia Strings.Byte List.
From Verif Require Import Prelude Field LinAlg Msp Spec MspProofs Bilinear Scheme SchemeSpec SchemeProofs SchemeTheorems
  Zp ExpModel PropertiesScheme Codec CodecProofs SchemeCodec SchemeCodecProofs PropertiesCodec
  Policy PolicySpec PolicyProofs Engine EngineSpec EngineProofs PropertiesEngine Hybrid HybridSpec PropertiesHybrid PropertiesVersions.
Import ListNotations.
Local Open Scope N_scope.

(** a Rust object has at most isize::MAX bytes *)
Definition fits (P : platform) (size : N) : Prop := size < usize_modulus P / 2.

Lemma fits_modulus P n : fits P n -> n < usize_modulus P.
Proof.
  unfold fits. intros H. eapply N.lt_le_trans; [exact H|]. apply N.div_le_upper_bound; [lia|]. lia.
Qed.
Lemma fits_le P a b : a <= b -> fits P b -> fits P a.
Proof. unfold fits. apply N.le_lt_trans. Qed.

Section Encodings.
Variable B : BilinearMap.
Variable F : byte_forms B.
Variable fine : Gt B -> Prop.
Hypothesis HF : forms_ok F fine.
Implicit Types P : platform.

Lemma vec_fits {A} P (c : codec A) k V l b rest : 32 <= usize_bits P -> codec_ok c k V -> countable l -> Forall V l ->
  fits P (N.of_nat (length l) * msize c) -> vec_enc c l = Ok b -> fits P (blen (b ++ rest)) ->
  blen b = vec_len c l /\ vec_dec P c (b ++ rest) = Ok l.
Proof.
  intros HP C [Hne Hl] HV Hm E Hb.
  assert (Hl' : N.of_nat (length l) < u32_modulus) by (unfold u32_MAX in Hl; unfold u32_modulus; lia).
  split; [exact (vec_enc_len c k V C l b Hl' E)|].
  apply (vec_rt c k V C P HP); try assumption. apply fits_modulus. exact Hb.
Qed.

(** the encoding of a vector is at least as long as [k] bytes per element *)
Lemma vec_size {A} (c : codec A) k V l b : codec_ok c k V -> N.of_nat (length l) < u32_modulus -> vec_enc c l = Ok b ->
  N.of_nat (length l) * k <= blen b.
Proof.
  intros C Hl E. rewrite (vec_enc_len c k V C l b Hl E). destruct l as [|x l]; [cbn; lia|].
  unfold vec_len. rewrite (ok_len _ _ _ C). lia.
Qed.
Lemma countable_u32 {A} (l : list A) : countable l -> N.of_nat (length l) < u32_modulus.
Proof. intros [_ H]. unfold u32_MAX in H. unfold u32_modulus. lia. Qed.

(** ** C76 *)
(** A value whose vectors fit in memory is read back from its bytes, whatever
    follows them. *)
Theorem C76_private_key P (k : master_private_key B) b rest : 32 <= usize_bits P -> countable (priv_t k) ->
  priv_enc F k = Ok b -> fits P (blen (b ++ rest)) -> priv_dec F P (b ++ rest) = Ok k.
Proof using HF.
  intros HP Hc E Hb. unfold priv_enc in E. apply bind_ok in E as (tb & Et & E). cbn [scalar_codec fixed_codec enc bind] in E.
  apply Ok_inj in E. subst b. rewrite <- app_assoc in *.
  destruct (vec_fits P (scalar_codec F) 32 _ (priv_t k) tb (to_compressed (scalar_form B F) (priv_y k) ++ rest) HP (scalar_ok F fine HF) Hc
     (Forall_true _)) as [L D]; [|exact Et|exact Hb|].
  - pose proof (vec_size _ _ _ _ _ (scalar_ok F fine HF) (countable_u32 _ Hc) Et) as S. change (msize (scalar_codec F)) with 32.
    eapply fits_le; [|exact Hb]. rewrite blen_app. lia.
  - unfold priv_dec. rewrite D. cbn [bind]. rewrite <- L, slice_after. cbn [bind].
    rewrite (scalar_rt F fine HF). cbn [bind]. destruct k; reflexivity.
Qed.

Theorem C76_public_key P (k : master_public_key B) b rest : 32 <= usize_bits P -> countable (pub_t k) -> fine (pub_y k) ->
  fits P (N.of_nat (length (pub_t k)) * g2_mem B F) ->
  pub_enc F k = Ok b -> fits P (blen (b ++ rest)) -> pub_dec F P (b ++ rest) = Ok k.
Proof using HF.
  intros HP Hc Hy Hm E Hb. unfold pub_enc in E. apply bind_ok in E as (tb & Et & E). cbn [gt_codec fixed_codec enc bind] in E.
  apply Ok_inj in E. subst b. rewrite <- app_assoc in *.
  destruct (vec_fits P (g2_codec F) 48 _ (pub_t k) tb (to_compressed (gt_form B F) (pub_y k) ++ rest) HP (g2_ok F fine HF) Hc
     (Forall_true _)) as [L D]; [exact Hm|exact Et|exact Hb|].
  unfold pub_dec. rewrite D. cbn [bind]. rewrite <- L, slice_after. cbn [bind].
  rewrite (gt_rt F fine HF) by exact Hy. cbn [bind]. destruct k; reflexivity.
Qed.

Theorem C76_delegation_key P (k : delegation_key B) b rest : 32 <= usize_bits P -> countable (inv_t k) ->
  fits P (N.of_nat (length (inv_t k)) * g3_mem B F) ->
  del_enc F k = Ok b -> fits P (blen (b ++ rest)) -> del_dec F P (b ++ rest) = Ok k.
Proof using HF.
  intros HP Hc Hm E Hb. unfold del_enc in E.
  destruct (vec_fits P (g3_codec F) 96 _ (inv_t k) b rest HP (g3_ok F fine HF) Hc (Forall_true _)) as [L D]; [exact Hm|exact E|exact Hb|].
  unfold del_dec. rewrite D. destruct k; reflexivity.
Qed.

Theorem C76_ciphertext P msg gam (pk : master_public_key B) s ct b rest : 32 <= usize_bits P ->
  encrypt P msg gam pk s = Ok ct -> gam <> [] -> N.of_nat (length gam) <= 4294967294 ->
  (forall a, In a gam -> a < 4294967296) -> fine (e_prime ct) -> fits P (N.of_nat (length gam) * g2_mem B F) ->
  ct_enc F ct = Ok b -> fits P (blen (b ++ rest)) -> ct_dec F P (b ++ rest) = Ok ct.
Proof using HF.
  intros HP He Hne Hl Hu Hf Hm E Hb. destruct (encrypt_parts _ _ _ _ _ _ _ He) as [Eg El]. rewrite <- Eg in *. clear gam Eg He.
  assert (Hg : countable (gamma ct)) by (split; [exact Hne|unfold u32_MAX; lia]).
  assert (Hi : countable (e_i ct)).
  { split; [|rewrite El; unfold u32_MAX; lia]. intros Q. rewrite Q in El. destruct (gamma ct); [congruence|discriminate]. }
  unfold ct_enc in E. apply bind_ok in E as (g & Egb & E). cbn [gt_codec fixed_codec enc bind] in E.
  apply bind_ok in E as (ei & Eei & E). apply Ok_inj in E. subst b. set (gt := to_compressed (gt_form B F) (e_prime ct)) in *.
  rewrite <- !app_assoc in *.
  destruct (vec_fits P u32_codec 4 _ (gamma ct) g (ei ++ gt ++ rest) HP u32_codec_ok Hg) as [L D]; [apply Forall_forall; exact Hu| |exact Egb|exact Hb|].
  { pose proof (vec_size _ _ _ _ _ u32_codec_ok (countable_u32 _ Hg) Egb) as S. change (msize u32_codec) with 4.
    eapply fits_le; [|exact Hb]. rewrite blen_app. lia. }
  destruct (vec_fits P (g2_codec F) 48 _ (e_i ct) ei (gt ++ rest) HP (g2_ok F fine HF) Hi (Forall_true _)) as [L2 D2].
  { rewrite El. exact Hm. }
  { exact Eei. }
  { eapply fits_le; [|exact Hb]. rewrite (blen_app g). lia. }
  unfold ct_dec. rewrite D. cbn [bind]. rewrite <- L, slice_after. cbn [bind]. rewrite D2. cbn [bind].
  rewrite <- L2, <- blen_app. rewrite app_assoc, slice_after. cbn [bind]. unfold gt. rewrite (gt_rt F fine HF) by exact Hf.
  cbn [bind]. destruct ct; reflexivity.
Qed.

Lemma user_fits P (k : decryption_key B) b rest : 32 <= usize_bits P -> key_ok k ->
  N.of_nat (length (raw_d k)) < u32_MAX -> fits P (N.of_nat (length (raw_d k)) * g3_mem B F) ->
  user_enc F P k = Ok b -> fits P (blen (b ++ rest)) -> user_dec F P (b ++ rest) = Ok k.
Proof using HF.
  intros HP (Hm & Hl & Hd) Hlen Hmem E Hb.
  assert (Hc : countable (raw_d k)).
  { split; [|exact Hlen]. intros Q. rewrite Q in Hl. pose proof (pg_rows _ _ Hm). simpl in Hl. lia. }
  unfold user_enc in E. apply bind_ok in E as (d & Ed & E). apply bind_ok in E as (m & Em & E). apply Ok_inj in E. subst b. rewrite <- app_assoc in *.
  destruct (vec_fits P (g3_codec F) 96 _ (raw_d k) d (m ++ rest) HP (g3_ok F fine HF) Hc (Forall_true _)) as [L D]; [exact Hmem|exact Ed|exact Hb|].
  unfold user_dec. destruct (d ++ m ++ rest) as [|x0 t0] eqn:Eb.
  { apply app_eq_nil in Eb as [Eb _]. subst d. destruct Hc as [Hne _]. destruct (raw_d k) as [|x l]; [congruence|].
    pose proof (vec_size _ _ _ _ _ (g3_ok F fine HF) (countable_u32 _ ltac:(split; [discriminate|exact Hlen])) Ed) as S.
    rewrite blen_nil in S. cbn [length] in S. lia. }
  rewrite <- Eb in *. clear x0 t0 Eb. rewrite D. cbn [bind]. rewrite <- L, slice_after. cbn [bind].
  pose proof (msp_enc_len (scalar_codec F) 32 _ (scalar_ok F fine HF) P (dk_msp k) m Hm Em) as Lm.
  rewrite (msp_rt (scalar_codec F) 32 _ (scalar_ok F fine HF) P (dk_msp k) m rest Hm); [| | |exact Em|].
  - cbn [bind]. rewrite <- Hd. destruct k; reflexivity.
  - apply rows_fit32; [exact HP|rewrite <- Hl; apply countable_u32; exact Hc|].
    eapply (fits_le P); [|exact Hb]. rewrite !blen_app, Lm, <- Hl.
    pose proof (vec_size _ _ _ _ _ (g3_ok F fine HF) (countable_u32 _ Hc) Ed) as Sd.
    assert (1 <= length (raw_d k))%nat by (rewrite Hl; apply Hm). lia.
  - change (msize (scalar_codec F)) with 32. eapply fits_le; [|exact Hb]. rewrite !blen_app, Lm.
    pose proof (pg_rows _ _ Hm) as Hr. assert (N.of_nat (nb_col (dk_msp k)) * 32 <= N.of_nat (nb_row (dk_msp k)) * N.of_nat (nb_col (dk_msp k)) * 32); [|lia].
    apply N.mul_le_mono_r. transitivity (1 * N.of_nat (nb_col (dk_msp k))); [lia|]. apply N.mul_le_mono_r. lia.
  - apply fits_modulus. eapply fits_le; [|exact Hb]. rewrite (blen_app d). lia.
Qed.
End Encodings.

Section Keys.
Variable B : BilinearMap.
Hypothesis BL : BilinearLaws B.
Local Notation K := (bm_K B).
Variable F : byte_forms B.
Variable fine : Gt B -> Prop.
Hypothesis HF : forms_ok F fine.
Implicit Types P : platform.

(** the size of a user key for an access formula with [n] leaves and [a] And nodes *)
Definition user_key_size (n a : N) : N := 12 + n * 100 + n * (a + 1) * 32.

(** Every key that can be had, generated or delegated, for a formula whose key fits
    in memory, can be written and read back, and has the expected size. *)
Theorem C76_user_key P size (mdraw : nat -> K) mk f uk rest : 32 <= usize_bits P ->
  generate_master_key size mdraw = Ok mk -> obtained B P mk f uk ->
  (forall a, In a (leaves f) -> a < 4294967296) -> N.of_nat (length (leaves f)) < 4294967295 ->
  fits P (N.of_nat (length (leaves f)) * g3_mem B F) ->
  let n := user_key_size (N.of_nat (length (leaves f))) (N.of_nat (count_and f)) in
  fits P (n + blen rest) ->
  exists b, user_enc F P uk = Ok b /\ blen b = n /\ user_dec F P (b ++ rest) = Ok uk.
Proof using BL HF.
  intros HP Hmk Ho Hu Hlt Hmem n Hb. destruct (generate_master_key_inv B BL _ _ _ Hmk) as (t & y & -> & _ & Hnz).
  destruct (obtained_rep B BL P t y f uk Hnz Ho) as (m & sg & _ & R & _).
  assert (Hu' : Forall u32 (leaves f)) by (apply Forall_forall; exact Hu).
  destruct (rep_key_ok t f m sg uk R Hu') as (Hk & Hr & Hc). pose proof Hk as (Hm & Hl & _). pose proof (count_and_leaves f) as Hca.
  assert (Hlu : N.of_nat (length (raw_d uk)) < u32_modulus) by (rewrite Hl, Hr; unfold u32_modulus; lia).
  destruct (vec_enc_ok (g3_codec F) 96 _ (g3_ok F fine HF) (raw_d uk) Hlu) as (bs & _ & _ & _ & Ed).
  match type of Ed with _ = Ok ?x => set (d := x) in Ed; clearbody d end.
  assert (Ld : blen d = 4 + N.of_nat (length (leaves f)) * 96).
  { rewrite (vec_enc_len _ _ _ (g3_ok F fine HF) _ _ Hlu Ed). rewrite <- Hr, <- Hl.
    destruct (raw_d uk) as [|x l] eqn:Q; [exfalso; pose proof (pg_rows _ _ Hm); cbn in Hl; lia|].
    unfold vec_len. rewrite (ok_len _ _ _ (g3_ok F fine HF)). reflexivity. }
  assert (Hn : n = 12 + N.of_nat (length (leaves f)) * 100 + N.of_nat (length (leaves f)) * (N.of_nat (count_and f) + 1) * 32) by reflexivity.
  assert (Q : 8 + (N.of_nat (nb_row (dk_msp uk)) * N.of_nat (nb_col (dk_msp uk)) * 32) + (N.of_nat (nb_row (dk_msp uk)) * 4) + blen d = n).
  { rewrite Hr, Hc, Ld, Hn. rewrite Nat2N.inj_succ. lia. }
  destruct (msp_enc_ok (scalar_codec F) 32 _ (scalar_ok F fine HF) P (dk_msp uk) Hm) as (bm & Em).
  { rewrite Hr. unfold u32_modulus. lia. }
  { rewrite Hc. unfold u32_modulus. lia. }
  { eapply fits_le; [|exact Hb]. lia. }
  pose proof (msp_enc_len (scalar_codec F) 32 _ (scalar_ok F fine HF) P (dk_msp uk) bm Hm Em) as Lm.
  assert (E : user_enc F P uk = Ok (d ++ bm)) by (unfold user_enc; rewrite Ed; cbn [bind]; rewrite Em; reflexivity).
  exists (d ++ bm). split; [exact E|]. assert (Lb : blen (d ++ bm) = n) by (rewrite blen_app, Lm; lia). split; [exact Lb|].
  apply (user_fits B F fine HF P uk (d ++ bm) rest HP Hk); [rewrite Hl, Hr; unfold u32_MAX; lia|rewrite Hl, Hr; exact Hmem|exact E|].
  rewrite blen_app, Lb. exact Hb.
Qed.

Variable shake : list byte -> nat -> list byte.
Variable S : sym_scheme.
Variable metas : metadata -> Prop.
Hypothesis SL : sym_laws S metas.

Lemma symmetric_key_fits P n ops p (pk : master_public_key B) l len random (s : K) key bytes :
  32 <= usize_bits P -> n < 4294967296 -> fits P (n * g2_mem B F) ->
  run_ops ops (new_policy n) = Ok p -> length (pub_t pk) = N.to_nat n -> l <> [] ->
  generate_symmetric_key P F shake p pk l len random s = Ok (key, bytes) -> fits P (blen bytes) ->
  (forall ct, eng_encrypt P p pk l random s = Ok ct -> fine (e_prime ct)) ->
  exists ct, eng_encrypt P p pk l random s = Ok ct /\ ct_dec F P bytes = Ok ct /\
    exists r, enc (gt_codec F) random = Ok r /\ key = shake r len.
Proof using HF.
  intros HP Hn Hmem Hp Hpk Hl H Hb Hf. pose proof (inv_history n ops p Hp) as I.
  assert (Hmax : max_attribute_creations p = n) by (rewrite (run_max _ _ _ Hp); reflexivity).
  unfold generate_symmetric_key in H. apply bind_ok in H as (ct & Ect & H). apply bind_ok in H as (b & Eb & H).
  apply bind_ok in H as (r & Er & H). assert (b = bytes /\ key = shake r len) as [-> ->] by (split; congruence).
  exists ct. split; [exact Ect|]. specialize (Hf ct Ect). split; [|eauto].
  unfold eng_encrypt in Ect. apply bind_ok in Ect as (gam & Eg & Ect).
  destruct (proj2 (C42_too_many_attributes_refused B P random gam pk s) ct Ect) as (Hlen & _ & _).
  pose proof (attributes_values_inv _ _ _ Eg) as Fg. rewrite Hpk in Hlen.
  rewrite <- (app_nil_r bytes) in *.
  apply (C76_ciphertext B F fine HF P random gam pk s ct bytes [] HP Ect); try assumption.
  - intros ->. inversion Fg; subst. contradiction.
  - lia.
  - intros v Hv. destruct (Forall2_in_r _ _ _ _ Fg Hv) as (c & _ & h & Eh & Hvh & _).
    destruct (i_heap _ _ I c h Eh) as (_ & _ & Hr). specialize (Hr v Hvh). pose proof (i_last _ _ I). lia.
  - eapply fits_le; [|exact Hmem]. apply N.mul_le_mono_r. lia.
  - rewrite app_nil_r in Eb. exact Eb.
Qed.

(** a header is opened by exactly the keys that decrypt its ciphertext *)
Lemma header_opened32 P n ops p (pk : master_public_key B) l meta random (s : K) nonce h :
  32 <= usize_bits P -> n < 4294967296 -> fits P (n * g2_mem B F) ->
  run_ops ops (new_policy n) = Ok p -> length (pub_t pk) = N.to_nat n -> l <> [] ->
  length nonce = nonce_length S -> (forall m, meta = Some m -> metas m) ->
  encrypt_hybrid_header S F shake P p pk l meta random s nonce = Ok h -> fits P (blen (eh_bytes h)) ->
  (forall ct, eng_encrypt P p pk l random s = Ok ct -> fine (e_prime ct)) ->
  exists ct, eng_encrypt P p pk l random s = Ok ct /\ forall uk,
    (eng_decrypt ct uk = Ok (Some random) -> decrypt_hybrid_header S F shake P uk (eh_bytes h) =
       Ok (mkClearHeader (eh_key h) match meta with Some m => m | None => mkMeta [] None end)) /\
    (refused (eng_decrypt ct uk) -> is_err (decrypt_hybrid_header S F shake P uk (eh_bytes h))).
Proof using BL HF SL.
  intros HP Hn Hmem Hp Hpk Hl Hno Hm He Hb Hf.
  destruct (header_layout B F shake S P p pk l meta random s nonce h He) as (sk & tail & Eg & Lk & Ls & Eb & Et).
  destruct (symmetric_key_fits P n ops p _ l _ random s _ sk HP Hn Hmem Hp Hpk Hl Eg) as (ct & Ect & Ed & r & Er & Ekey); [|exact Hf|].
  { eapply fits_le; [|exact Hb]. rewrite Eb, !blen_app. lia. }
  exists ct. split; [exact Ect|]. intros uk. rewrite Eb, (decrypt_layout B F shake S) by exact Ls.
  unfold decrypt_symmetric_key. rewrite Ed. cbn [bind]. split.
  - intros H. rewrite H. cbn [bind]. rewrite Er. cbn [bind]. rewrite <- Ekey. rewrite array_from_ok by exact Lk. cbn [bind].
    destruct meta as [m|].
    + destruct Et as (mb & em & Em & Ee & Le & ->).
      assert (M : has_more (nonce ++ be32 (blen em) ++ em) = true) by (destruct nonce; reflexivity).
      rewrite M. rewrite <- Hno at 1. change (N.of_nat (length nonce)) with (blen nonce). rewrite scan_next_app. cbn [bind].
      rewrite array_from_ok by exact Hno. cbn [bind]. rewrite scan_u32_app by exact Le. cbn [bind].
      rewrite <- (app_nil_r em) at 2. rewrite scan_next_app. cbn [bind].
      rewrite (law_decrypt _ _ SL _ _ _ _ _ Lk Hno Ee). cbn [bind].
      rewrite (law_meta _ _ SL m mb (Hm m eq_refl) Em). reflexivity.
    + rewrite Et. reflexivity.
  - intros [H|H]; rewrite H; eexists; reflexivity.
Qed.

(** A header is opened by the keys whose access policy its attributes satisfy, and
    refused by the others. *)
Theorem C76_header P n ops p (mdraw : nat -> K) mk ap uk l meta random (s : K) nonce h :
  32 <= usize_bits P -> n < 4294967296 -> fits P (n * g2_mem B F) ->
  run_ops ops (new_policy n) = Ok p -> eng_master_key p mdraw = Ok mk ->
  user_key P mk p ap uk -> l <> [] ->
  length nonce = nonce_length S -> (forall m, meta = Some m -> metas m) ->
  encrypt_hybrid_header S F shake P p (pub_key mk) l meta random s nonce = Ok h -> fits P (blen (eh_bytes h)) ->
  (forall ct, eng_encrypt P p (pub_key mk) l random s = Ok ct -> fine (e_prime ct)) ->
  (satisfied ops (fun b => In b l) ap /\ decrypt_hybrid_header S F shake P uk (eh_bytes h) =
    Ok (mkClearHeader (eh_key h) match meta with Some m => m | None => mkMeta [] None end)) \/
  (~ satisfied ops (fun b => In b l) ap /\ is_err (decrypt_hybrid_header S F shake P uk (eh_bytes h))).
Proof using BL HF SL.
  intros HP Hn Hmem Hp Hmk Hk Hl Hno Hm He Hb Hf. pose proof (run_max _ _ _ Hp) as Hmax.
  change (max_attribute_creations (new_policy n)) with n in Hmax.
  destruct (header_opened32 P n ops p (pub_key mk) l meta random s nonce h HP Hn Hmem Hp (pub_slots B BL _ _ _ _ Hmax Hmk) Hl Hno Hm He Hb Hf)
    as (ct & Ect & Ho). destruct (Ho uk) as [Ho1 Ho2].
  destruct (C38_refreshed_key B BL P n ops [] p p p mdraw mk ap uk l random s ct Hp eq_refl Hmk Hk Ect) as [[Hs Hd]|[Hs Hd]];
    rewrite app_nil_r in Hs; [left|right]; auto.
Qed.
End Keys.

(** ** C77 *)
Section Hostile.
Variable B : BilinearMap.
Variable F : byte_forms B.
Variable fine : Gt B -> Prop.
Hypothesis HF : forms_ok F fine.
Implicit Types P : platform.

Lemma reserve_tame P n : tame True P (reserve P n).
Proof. destruct (reserve_cases P n) as [[_ R]|[_ R]]; rewrite R; intros p H; [discriminate|left; split; [exact I|congruence]]. Qed.

Lemma vec_tame {A} P (c : codec A) k V bytes : 32 <= usize_bits P -> codec_ok c k V -> blen bytes < usize_modulus P ->
  tame True P (vec_dec P c bytes).
Proof.
  intros HP C Hfit. unfold vec_dec. destruct bytes as [|b0 bt]; [apply tame_ok|].
  remember (b0 :: bt) as bytes eqn:Eb. clear b0 bt Eb.
  destruct (N.leb_spec (blen bytes) 4) as [|Hl]; [apply tame_err|].
  set (n := from_be (firstn 4 bytes)) in *. destruct (N.leb_spec u32_MAX n) as [|Hn]; [apply tame_err|].
  rewrite slice_fromN_ok by (unfold blen in Hl; lia). cbn [bind].
  apply tame_bind; [apply safe_tame, no_panic_safe, (ok_np _ _ _ C)|]. intros r0 Hr0. rewrite (ok_len _ _ _ C).
  apply tame_bind; [apply safe_tame, safe_wrap|]. intros n1 _. apply tame_bind; [apply safe_tame, safe_wrap|]. intros m _.
  apply tame_bind; [apply safe_tame, safe_wrap|]. intros lim _.
  destruct (N.leb_spec (blen bytes) lim) as [|Hlt]; [apply tame_err|].
  apply tame_bind; [apply reserve_tame|]. intros [] _.
  pose proof (ok_dec_len _ _ _ _ _ C Hr0) as L0. unfold blen in L0. rewrite skipn_len in L0.
  assert (L1 : 4 + 1 * k <= blen bytes) by (revert L0 Hl; unfold blen; clear; intros L0 Hl; lia).
  destruct (vec_reader c k P bytes k Hfit) as [R|]; [|congruence].
  destruct (seq_read c k V C bytes 4 _ R (N.to_nat n - 1) 1 L1) as [Hs _].
  apply tame_bind; [apply safe_tame, no_panic_safe; exact Hs|]. intros; apply tame_ok.
Qed.

Lemma after_vec32 {A C} P (c : codec A) k V bytes l (g : list byte -> outcome C) : 32 <= usize_bits P -> codec_ok c k V ->
  blen bytes < usize_modulus P -> vec_dec P c bytes = Ok l -> (forall r, blen r <= blen bytes -> tame True P (g r)) ->
  tame True P (let* r := slice_fromN bytes (vec_len c l) in g r).
Proof.
  intros HP Cc Hf E Hg. pose proof (vec_dec_bound c k V Cc P bytes l Hf E) as Hb.
  rewrite slice_fromN_ok by exact Hb. cbn [bind]. apply Hg. unfold blen. rewrite skipn_len. lia.
Qed.
Ltac np := apply safe_tame, no_panic_safe, fixed_np.

(** On any machine, reading bytes panics only when a vector is announced that cannot
    exist in memory, or by an overflow when overflows are checked. *)
Theorem C77_only_capacity_panics P bytes p : 32 <= usize_bits P -> blen bytes < usize_modulus P ->
  priv_dec F P bytes = Panic p \/ pub_dec F P bytes = Panic p \/ del_dec F P bytes = Panic p \/
  user_dec F P bytes = Panic p \/ ct_dec F P bytes = Panic p ->
  p = CapacityOverflow \/ (overflow_checks P = true /\ p = ArithmeticOverflow).
Proof using HF.
  intros HP Hf.
  assert (D : forall A (o : outcome A), tame True P o -> o = Panic p -> p = CapacityOverflow \/ (overflow_checks P = true /\ p = ArithmeticOverflow)).
  { intros A o T E. destruct (T p E) as [[_ H]|H]; auto. }
  assert (T1 : tame True P (priv_dec F P bytes)).
  { unfold priv_dec. apply tame_bind; [apply (vec_tame P _ 32 _ bytes HP (scalar_ok F fine HF) Hf)|].
    intros t Et. apply (after_vec32 P (scalar_codec F) 32 _ bytes t _ HP (scalar_ok F fine HF) Hf Et). intros r _.
    apply tame_bind; [np|]. intros; apply tame_ok. }
  assert (T2 : tame True P (pub_dec F P bytes)).
  { unfold pub_dec. apply tame_bind; [apply (vec_tame P _ 48 _ bytes HP (g2_ok F fine HF) Hf)|].
    intros t Et. apply (after_vec32 P (g2_codec F) 48 _ bytes t _ HP (g2_ok F fine HF) Hf Et). intros r _.
    apply tame_bind; [np|]. intros; apply tame_ok. }
  assert (T3 : tame True P (del_dec F P bytes)).
  { unfold del_dec. apply tame_bind; [apply (vec_tame P _ 96 _ bytes HP (g3_ok F fine HF) Hf)|]. intros; apply tame_ok. }
  assert (T4 : tame True P (user_dec F P bytes)).
  { unfold user_dec. destruct bytes as [|b0 bt]; [apply tame_err|]. remember (b0 :: bt) as bytes eqn:Eb. clear b0 bt Eb.
    apply tame_bind; [apply (vec_tame P _ 96 _ bytes HP (g3_ok F fine HF) Hf)|].
    intros t Et. apply (after_vec32 P (g3_codec F) 96 _ bytes t _ HP (g3_ok F fine HF) Hf Et). intros r Hr.
    apply tame_bind; [|intros; apply tame_ok].
    destruct (msp_dec_tame (scalar_codec F) 32 _ (scalar_ok F fine HF) P True r HP ltac:(lia) (or_introl I)) as [T _]. exact T. }
  assert (T5 : tame True P (ct_dec F P bytes)).
  { unfold ct_dec. apply tame_bind; [apply (vec_tame P _ 4 _ bytes HP u32_codec_ok Hf)|]. intros g Eg.
    pose proof (vec_dec_bound u32_codec 4 _ u32_codec_ok P bytes g Hf Eg) as Hb. rewrite slice_fromN_ok by exact Hb. cbn [bind].
    set (r := skipn (N.to_nat (vec_len u32_codec g)) bytes).
    assert (Hr : blen r = blen bytes - vec_len u32_codec g) by (unfold r, blen; rewrite skipn_len; lia).
    assert (Hr' : blen r < usize_modulus P) by lia.
    apply tame_bind; [apply (vec_tame P _ 48 _ r HP (g2_ok F fine HF) Hr')|]. intros ei Eei.
    pose proof (vec_dec_bound (g2_codec F) 48 _ (g2_ok F fine HF) P r ei Hr' Eei) as Hb2.
    rewrite slice_fromN_ok by (unfold blen in *; lia). cbn [bind]. apply tame_bind; [np|]. intros; apply tame_ok. }
  intros [E|[E|[E|[E|E]]]]; [exact (D _ _ T1 E)|exact (D _ _ T2 E)|exact (D _ _ T3 E)|exact (D _ _ T4 E)|exact (D _ _ T5 E)].
Qed.

(** Such announcements exist on machines of 32 bits, in checked and unchecked builds:
    a header of twelve bytes panics with every key, and 108 bytes panic when read as
    a user key. *)
Definition bad_header : list byte := be32 8 ++ be32 1073741825 ++ be32 0.
Definition bad_key (g : G3 B) : list byte := be32 1 ++ to_compressed (g3_form B F) g ++ be32 0 ++ be32 67108864.

Lemma wraps P n : usize_bits P = 32 -> overflow_checks P = false -> usize_wrap P (Z.of_N n) = Ok (n mod 4294967296).
Proof.
  intros Hb Ho. unfold usize_wrap, usize_modulus. rewrite Hb, Ho. change (Z.of_N (2 ^ 32)) with 4294967296%Z.
  destruct ((0 <=? Z.of_N n)%Z && (Z.of_N n <? 4294967296)%Z) eqn:E; f_equal.
  - apply andb_true_iff in E as [_ E]. apply Z.ltb_lt in E. rewrite N.mod_small by lia. lia.
  - change 4294967296%Z with (Z.of_N 4294967296). rewrite <- N2Z.inj_mod, N2Z.id. reflexivity.
Qed.

Lemma half32 P : usize_bits P = 32 -> usize_modulus P / 2 = 2147483648.
Proof. intros H. unfold usize_modulus. rewrite H. reflexivity. Qed.

Lemma bad_count_panics P : usize_bits P = 32 ->
  vec_dec P u32_codec (be32 1073741825 ++ be32 0) = Panic (if overflow_checks P then ArithmeticOverflow else CapacityOverflow).
Proof.
  intros Hb. change (be32 1073741825 ++ be32 0) with [x40; x00; x00; x01; x00; x00; x00; x00].
  unfold vec_dec. change (blen [x40; x00; x00; x01; x00; x00; x00; x00] <=? 4) with false.
  change (from_be (firstn 4 [x40; x00; x00; x01; x00; x00; x00; x00])) with 1073741825.
  change (u32_MAX <=? 1073741825) with false. cbv iota.
  change (slice_fromN [x40; x00; x00; x01; x00; x00; x00; x00] 4) with (Ok [x00; x00; x00; x00]). cbn [bind].
  change (dec u32_codec [x00; x00; x00; x00]) with (@Ok N 0). cbn [bind]. change (clen u32_codec 0) with 4.
  assert (Hm : usize_modulus P = 4294967296) by (unfold usize_modulus; rewrite Hb; reflexivity).
  rewrite usize_sub_exact by lia. cbn [bind]. change (1073741825 - 1) with 1073741824.
  destruct (overflow_checks P) eqn:Ho.
  - unfold usize_mul, usize_wrap. rewrite Hm, Ho. reflexivity.
  - unfold usize_mul. rewrite <- N2Z.inj_mul, wraps by assumption. cbn [bind].
    change (1073741824 * 4 mod 4294967296) with 0. rewrite usize_add_exact by lia. cbn [bind].
    change (blen [x40; x00; x00; x01; x00; x00; x00; x00] <=? 4 + 0) with false. cbv iota.
    unfold reserve. rewrite half32 by exact Hb. reflexivity.
Qed.

Theorem C77_header_refuted P shake S : usize_bits P = 32 ->
  blen bad_header = 12 /\ forall uk : decryption_key B, exists p, decrypt_hybrid_header S F shake P uk bad_header = Panic p.
Proof using Type.
  intros Hb. split; [reflexivity|]. intros uk. unfold bad_header.
  assert (E : decrypt_hybrid_header S F shake P uk (be32 (blen (be32 1073741825 ++ be32 0)) ++ (be32 1073741825 ++ be32 0) ++ []) =
    Panic (if overflow_checks P then ArithmeticOverflow else CapacityOverflow)).
  { rewrite decrypt_layout by reflexivity. unfold decrypt_symmetric_key, ct_dec. rewrite bad_count_panics by exact Hb. reflexivity. }
  eexists. exact E.
Qed.

Theorem C77_user_key_refuted P g : usize_bits P = 32 -> blen (bad_key g) = 108 /\ user_dec F P (bad_key g) = Panic CapacityOverflow.
Proof using HF.
  intros Hb. unfold bad_key.
  assert (Lg : blen (to_compressed (g3_form B F) g) = 96) by apply (fo_g3 _ _ HF).
  split; [rewrite !blen_app, Lg; reflexivity|].
  assert (Hm : usize_modulus P = 4294967296) by (unfold usize_modulus; rewrite Hb; reflexivity).
  assert (D : vec_dec P (g3_codec F) ((be32 1 ++ to_compressed (g3_form B F) g) ++ be32 0 ++ be32 67108864) = Ok [g]).
  { apply (vec_fits P (g3_codec F) 96 (fun _ => True) [g] (be32 1 ++ to_compressed (g3_form B F) g) (be32 0 ++ be32 67108864)).
    - rewrite Hb. discriminate.
    - exact (g3_ok F fine HF).
    - split; [discriminate|reflexivity].
    - repeat constructor.
    - unfold fits. rewrite half32 by exact Hb. change (msize (g3_codec F)) with (g3_mem B F).
      pose proof (fo_g3_mem _ _ HF). cbn [length N.of_nat Pos.of_succ_nat]. lia.
    - unfold vec_enc. change (u32_bytes (N.of_nat (length [g]))) with (Ok (be32 1)). cbn [bind mapM g3_codec fixed_codec enc concat]. rewrite app_nil_r. reflexivity.
    - unfold fits. rewrite half32 by exact Hb. rewrite !blen_app, Lg. reflexivity. }
  unfold user_dec. rewrite <- app_assoc in D. rewrite D. change (be32 1 ++ to_compressed (g3_form B F) g ++ be32 0 ++ be32 67108864) with
    (x00 :: (x00 :: x00 :: x01 :: to_compressed (g3_form B F) g ++ be32 0 ++ be32 67108864)) at 1. cbv iota. cbn [bind].
  change (vec_len (g3_codec F) [g]) with (4 + 1 * 96).
  assert (Q : 4 + 1 * 96 = blen (be32 1 ++ to_compressed (g3_form B F) g)) by (rewrite blen_app, Lg; reflexivity).
  rewrite Q, app_assoc, slice_after. cbn [bind]. unfold msp_dec.
  change (blen (be32 0 ++ be32 67108864) <? 8) with false. cbv iota.
  change (from_be (firstn 4 (be32 0 ++ be32 67108864))) with 0. change (from_be (firstn 4 (skipn 4 (be32 0 ++ be32 67108864)))) with 67108864.
  rewrite usize_mul_exact by lia. cbn [bind]. rewrite usize_add_exact by lia. cbn [bind].
  change (blen (be32 0 ++ be32 67108864) <? 8 + 4 * 0) with false. cbv iota.
  destruct (rows_fit32 P 0) as (R1 & R2 & R3); [rewrite Hb; discriminate|reflexivity|rewrite half32 by exact Hb; reflexivity|].
  rewrite (reserve_ok P _ R1), (reserve_ok P _ R2). cbn [bind]. change (range 0 0) with (@nil N). cbn [read_attrs bind].
  rewrite (reserve_ok P _ R3). cbn [bind]. unfold reserve. rewrite half32 by exact Hb. reflexivity.
Qed.

(** On machines of 32 bits, at most 117440512 rows of a program can be announced: with more rows the table
    of the attributes cannot exist in memory. With fewer, only an overflow or the number of columns
    can cause a panic. *)
Theorem C77_most_rows {A} P (c : codec A) k V bytes : codec_ok c k V -> usize_bits P = 32 -> 8 + 4 * from_be (firstn 4 bytes) <= blen bytes < 2147483648 ->
  (117440512 < from_be (firstn 4 bytes) -> msp_dec P c bytes = Panic CapacityOverflow) /\
  (from_be (firstn 4 bytes) <= 117440512 -> from_be (firstn 4 (skipn 4 bytes)) * msize c < 2147483648 -> msp_dec P c bytes <> Panic CapacityOverflow).
Proof using Type.
  intros C Hb Hl. assert (Hm : usize_modulus P = 4294967296) by (unfold usize_modulus; rewrite Hb; reflexivity).
  pose proof (half32 P Hb) as Hh. assert (HP : 32 <= usize_bits P) by (rewrite Hb; discriminate).
  assert (W : word P = 4) by (unfold word; rewrite Hb; reflexivity).
  split.
  - intros Hr. unfold msp_dec. destruct (N.ltb_spec (blen bytes) 8) as [X|_]; [lia|].
    rewrite usize_mul_exact by lia. cbn [bind]. rewrite usize_add_exact by lia. cbn [bind].
    destruct (N.ltb_spec (blen bytes) (8 + 4 * from_be (firstn 4 bytes))) as [X|_]; [lia|]. rewrite reserve_ok by lia. cbn [bind].
    unfold reserve at 1. rewrite Hh. destruct (N.ltb_spec (table_bytes P (from_be (firstn 4 bytes))) 2147483648) as [X|_]; [exfalso|reflexivity].
    unfold table_bytes in X. rewrite W in X.
    assert (L : 28 <= N.log2_up (from_be (firstn 4 bytes) * 8 / 7)).
    { assert (Q : 134217729 <= from_be (firstn 4 bytes) * 8 / 7) by (apply N.div_le_lower_bound; lia).
      apply N.log2_up_le_mono in Q. exact Q. }
    assert (E : 2 ^ 28 <= 2 ^ N.log2_up (from_be (firstn 4 bytes) * 8 / 7)) by (apply N.pow_le_mono_r; [discriminate|exact L]).
    change (2 ^ 28) with 268435456 in E. lia.
  - intros Hr Hc E. destruct (msp_dec_tame_at c k V C P False bytes HP ltac:(lia)) as [T _].
    + right. rewrite Hh. split; [|exact Hc]. unfold rows_fit. rewrite Hh, W. split; [lia|split; [|lia]]. unfold table_bytes. rewrite W.
      assert (L : N.log2_up (from_be (firstn 4 bytes) * 8 / 7) <= 27).
      { assert (Q : from_be (firstn 4 bytes) * 8 / 7 <= 134217728) by (apply N.lt_succ_r, N.div_lt_upper_bound; lia).
        apply N.log2_up_le_mono in Q. exact Q. }
      assert (E' : 2 ^ N.log2_up (from_be (firstn 4 bytes) * 8 / 7) <= 2 ^ 27) by (apply N.pow_le_mono_r; [discriminate|exact L]).
      change (2 ^ 27) with 134217728 in E'. lia.
    + destruct (T _ E) as [[[] _]|X]. destruct X; discriminate.
Qed.
(** Bytes with one row too many. *)
Definition too_many_rows : list byte := be32 117440513 ++ be32 1 ++ repeat x00 (N.to_nat 469762052).
Theorem C77_too_many_rows_refuted P : usize_bits P = 32 -> blen too_many_rows = 469762060 /\ msp_dec P (scalar_codec F) too_many_rows = Panic CapacityOverflow.
Proof using HF.
  intros Hb. assert (L : blen too_many_rows = 469762060).
  { unfold too_many_rows. rewrite !blen_app. assert (R : forall n, blen (repeat x00 n) = N.of_nat n) by (intros n; unfold blen; rewrite repeat_length; reflexivity).
    rewrite R, N2Nat.id. reflexivity. }
  split; [exact L|]. assert (Q : from_be (firstn 4 too_many_rows) = 117440513).
  { unfold too_many_rows. generalize (N.to_nat 469762052). intros n. reflexivity. }
  apply (C77_most_rows P (scalar_codec F) 32 _ too_many_rows (scalar_ok F fine HF) Hb); rewrite Q; [|reflexivity]. rewrite L. split; [discriminate|reflexivity].
Qed.
End Hostile.

(** ** Examples *)
Definition debug32 : platform := mkPlatform 32 true.
Definition release32 : platform := mkPlatform 32 false.
Definition header32 : outcome encrypted_header :=
  encrypt_hybrid_header toy_sym toy_forms toy_shake release32 pol_a (pub_key ex_mk) [dept "HR"; level "Protected"] (Some ex_meta) ex_msg ex_s ex_nonce.

Example C76_example :
  priv_dec toy_forms debug32 (bytes_of (priv_enc toy_forms ex_priv)) = Ok ex_priv /\
  pub_dec toy_forms release32 (bytes_of (pub_enc toy_forms ex_pub) ++ [x01]) = Ok ex_pub /\
  del_dec toy_forms release32 (bytes_of (del_enc toy_forms ex_del)) = Ok ex_del /\
  user_dec toy_forms release32 (bytes_of (user_enc toy_forms release32 ex_uk)) = Ok ex_uk /\
  N.of_nat (length (bytes_of (user_enc toy_forms release32 ex_uk))) = user_key_size 4 2 /\
  ct_dec toy_forms debug32 (bytes_of (ct_enc toy_forms (ex_ct [1; 4]))) = Ok (ex_ct [1; 4]) /\
  header32 = Ok (run empty_header header32) /\
  decrypt_hybrid_header toy_sym toy_forms toy_shake release32 (ekey pol_a ex_ap) (eh_bytes (run empty_header header32))
    = Ok (mkClearHeader (eh_key (run empty_header header32)) ex_meta).
Proof.
  split; [vmr (@Ok (master_private_key toy) ex_priv)|]. split; [vmr (@Ok (master_public_key toy) ex_pub)|].
  split; [vmr (@Ok (delegation_key toy) ex_del)|]. split; [vmr (@Ok (decryption_key toy) ex_uk)|].
  split; [vm_compute; reflexivity|]. split; [vmr (@Ok (ciphertext toy) (ex_ct [1; 4]))|].
  split; [vmr (@Ok encrypted_header (run empty_header header32))|].
  vmr (@Ok clear_header (mkClearHeader (eh_key (run empty_header header32)) ex_meta)).
Qed.

(** the same twelve bytes are an error on 64 bits *)
Example C77_example :
  decrypt_hybrid_header toy_sym toy_forms toy_shake release32 (ekey pol_a ex_ap) bad_header = Panic CapacityOverflow /\
  decrypt_hybrid_header toy_sym toy_forms toy_shake debug32 (ekey pol_a ex_ap) bad_header = Panic ArithmeticOverflow /\
  is_err (decrypt_hybrid_header toy_sym toy_forms toy_shake release64 (ekey pol_a ex_ap) bad_header) /\
  user_dec toy_forms release32 (bad_key toy toy_forms (g3_gen_exp toy ex_s)) = Panic CapacityOverflow.
Proof.
  split; [vmr (@Panic clear_header CapacityOverflow)|]. split; [vmr (@Panic clear_header ArithmeticOverflow)|].
  split; [eexists; vm_compute; reflexivity|]. vmr (@Panic (decryption_key toy) CapacityOverflow).
Qed.

Print Assumptions C76_private_key.
Print Assumptions C76_public_key.
Print Assumptions C76_delegation_key.
Print Assumptions C76_ciphertext.
Print Assumptions C76_user_key.
Print Assumptions C76_header.
Print Assumptions C77_only_capacity_panics.
Print Assumptions C77_header_refuted.
Print Assumptions C77_user_key_refuted.
Print Assumptions C77_most_rows.
Print Assumptions C77_too_many_rows_refuted.
