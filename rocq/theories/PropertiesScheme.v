(** Theorems about the scheme: C01-C04, C06-C08, C10-C15, C34, C42, C43, C59.
    Every theorem is followed by an example meeting its hypotheses, computed in
    the group of order 101 (ExpModel.v). *)
From Coq Require Import String NArith ZArith Bool Lia List.
From Verif Require Import Prelude Field LinAlg Msp Spec MspProofs Minimal Gauss GaussProofs Bilinear Scheme
  SchemeSpec SchemeProofs SchemeTheorems MspTheorems Zp ExpModel.
Import ListNotations.

(** ** Material for the examples *)
Definition pf : platform := mkPlatform 64 true.
Definition f101 (z : Z) : bm_K toy := zmod m101 z.
(** 1 & (4 | (2 & 3)), the formula of the tests of the repository *)
Definition ex_f : node := And (Leaf 1) (Or (Leaf 4) (And (Leaf 2) (Leaf 3))).
(** some draws: 7, 8, 9, ... *)
Definition ex_draw (i : nat) : bm_K toy := f101 (7 + Z.of_nat i).
Definition ex_kdraw (i : nat) : bm_K toy := f101 (20 + 13 * Z.of_nat i).
Definition run {A} (d : A) (o : outcome A) : A := match o with Ok x => x | _ => d end.
Definition empty_master : master_key toy := @mkMaster toy (@mkPriv toy [] (f101 0)) (@mkPub toy [] (f101 0)) (@mkDel toy []).
Definition empty_msp : msp Z := mkMsp 0 0 [] [] [].
Definition empty_key : decryption_key toy := @mkDec toy [] [] (mkMsp 0 0 [] [] []).
Definition empty_ct : ciphertext toy := @mkCt toy [] (f101 0) [].
Definition ex_mk : master_key toy := run empty_master (generate_master_key 10 ex_draw).
Definition ex_m : msp Z := run empty_msp (to_msp pf ex_f).
Definition ex_uk : decryption_key toy := run empty_key (key_generation ex_m (priv_key ex_mk) ex_kdraw).
Definition ex_msg : Gt toy := f101 77.
Definition ex_s : bm_K toy := f101 35.
Definition ex_ct (gam : list N) : ciphertext toy := run empty_ct (encrypt pf ex_msg gam (pub_key ex_mk) ex_s).

Example ex_setup :
  generate_master_key 10 ex_draw = Ok ex_mk /\ to_msp pf ex_f = Ok ex_m /\
  key_generation ex_m (priv_key ex_mk) ex_kdraw = Ok ex_uk /\
  encrypt pf ex_msg [1; 4]%N (pub_key ex_mk) ex_s = Ok (ex_ct [1; 4]%N).
Proof.
  split; [|split; [|split]].
  - vm_cast_no_check (@eq_refl (outcome (master_key toy)) (Ok ex_mk)).
  - vm_cast_no_check (@eq_refl (outcome (msp Z)) (Ok ex_m)).
  - vm_cast_no_check (@eq_refl (outcome (decryption_key toy)) (Ok ex_uk)).
  - vm_cast_no_check (@eq_refl (outcome (ciphertext toy)) (Ok (ex_ct [1; 4]%N))).
Qed.

Lemma ex_derived : derived toy pf ex_mk ex_f ex_uk.
Proof. destruct ex_setup as (_ & H1 & H2 & _). exact (de_gen toy pf ex_mk ex_f ex_m ex_kdraw ex_uk H1 H2). Qed.

Section Properties.
Variable B : BilinearMap.
Hypothesis BL : BilinearLaws B.
Implicit Types (P : platform) (mk : master_key B) (f : node) (gam : list N).
Local Notation K := (bm_K B).

(** ** C01 *)
Theorem C01_authorised_decrypts P size (mdraw : nat -> K) mk f m (kdraw : nat -> K) uk msg gam (s : K) ct :
  generate_master_key size mdraw = Ok mk ->
  to_msp P f = Ok m ->
  key_generation m (priv_key mk) kdraw = Ok uk ->
  encrypt P msg gam (pub_key mk) s = Ok ct ->
  holds (attrs gam) f ->
  decrypt ct uk = Ok (Some msg).
Proof.
  intros Hmk Hm Hk He Hh. destruct (generate_master_key_inv B BL _ _ _ Hmk) as (t & y & -> & _ & Hnz).
  destruct (derived_decrypt B BL P t y f uk msg gam s ct Hnz) as [[_ H]|[[H _]|[H _]]]; try contradiction; try assumption.
  eapply de_gen; eauto.
Qed.

(** all steps succeed, so the hypotheses above are met whenever no attribute
    secret is zero and the attributes are within the key *)
Theorem C01_pipeline P size (mdraw kdraw : nat -> K) f msg gam (s : K) :
  (forall i, i < size -> mdraw i <> f0) ->
  NoDup (leaves f) ->
  (forall a, In a (leaves f) -> N.to_nat a < size) ->
  (forall a, In a gam -> N.to_nat a < size) ->
  length gam < size ->
  exists mk m uk ct,
    generate_master_key size mdraw = Ok mk /\ to_msp P f = Ok m /\
    key_generation m (priv_key mk) kdraw = Ok uk /\ encrypt P msg gam (pub_key mk) s = Ok ct /\
    (holds (attrs gam) f -> decrypt ct uk = Ok (Some msg)).
Proof.
  intros Hd Hnd Hl Hg Hlen. pose proof (generate_master_key_ok B BL size mdraw Hd) as Emk.
  destruct (generate_master_key_inv B BL _ _ _ Emk) as (t & y & E & Ht & Hnz). rewrite E in Emk.
  destruct (to_msp_ok P f Hnd) as (rows & _ & Em).
  match type of Em with _ = Ok ?x => set (m := x) in * end.
  pose proof (to_msp_msp_of K (bl_field B BL) P f m Em) as M.
  destruct (key_generation_total B BL f m t y kdraw M) as (uk & Hk).
  { intros a Ha. assert (R : in_range B t a) by (unfold in_range; rewrite Ht; apply Hl, Ha).
    split; [exact R|]. apply tt_nonzero; assumption. }
  destruct (bl_gt_surj B BL msg) as [mu ->].
  pose proof (encrypt_run B BL P mu gam t y s) as He. rewrite Ht in He. specialize (He Hlen).
  assert (Hr : forall a, In a gam -> in_range B t a) by (intros a Ha; unfold in_range; rewrite Ht; apply Hg, Ha).
  specialize (He Hr). eexists _, m, uk, _. split; [exact Emk|]. split; [exact Em|]. split; [exact Hk|]. split; [exact He|].
  intros Hh. eapply C01_authorised_decrypts; eauto.
Qed.

(** ** C02 *)
Theorem C02_unauthorised_never_decrypts P size (mdraw : nat -> K) mk f m (kdraw : nat -> K) uk msg gam (s : K) ct :
  generate_master_key size mdraw = Ok mk ->
  to_msp P f = Ok m ->
  key_generation m (priv_key mk) kdraw = Ok uk ->
  encrypt P msg gam (pub_key mk) s = Ok ct ->
  ~ holds (attrs gam) f ->
  (shares_attr f gam -> decrypt ct uk = Ok None) /\
  (~ shares_attr f gam -> decrypt ct uk = Err (InternalOperation "empty input matrix")).
Proof.
  intros Hmk Hm Hk He Hh. destruct (generate_master_key_inv B BL _ _ _ Hmk) as (t & y & -> & _ & Hnz).
  destruct (derived_decrypt B BL P t y f uk msg gam s ct Hnz) as [[H _]|[[_ H]|[_ H]]]; try contradiction; try tauto.
  eapply de_gen; eauto.
Qed.

(** ** C06 *)
Theorem C06_more_attributes_keep_access P size (mdraw : nat -> K) mk f uk msg gam1 gam2 (s1 s2 : K) ct1 ct2 :
  generate_master_key size mdraw = Ok mk ->
  derived B P mk f uk ->
  encrypt P msg gam1 (pub_key mk) s1 = Ok ct1 ->
  encrypt P msg gam2 (pub_key mk) s2 = Ok ct2 ->
  incl gam1 gam2 ->
  decrypt ct1 uk = Ok (Some msg) -> decrypt ct2 uk = Ok (Some msg).
Proof.
  intros Hmk Hd H1 H2 Hi D. destruct (generate_master_key_inv B BL _ _ _ Hmk) as (t & y & -> & _ & Hnz).
  assert (Hh : holds (attrs gam1) f).
  { destruct (derived_decrypt B BL P t y f uk msg gam1 s1 ct1 Hnz Hd H1) as [[H _]|[(_ & _ & E)|(_ & _ & E)]]; [exact H|congruence|congruence]. }
  destruct (derived_decrypt B BL P t y f uk msg gam2 s2 ct2 Hnz Hd H2) as [[_ E]|[(H & _)|(H & _)]]; [exact E| |];
    exfalso; apply H; (eapply holds_mono; [|exact Hh]); intros a _ Ha; apply Hi; exact Ha.
Qed.

(** ** C07 *)
Theorem C07_order_and_repetition_irrelevant P size (mdraw : nat -> K) mk f uk msg gam1 gam2 (s1 s2 : K) ct1 ct2 :
  generate_master_key size mdraw = Ok mk ->
  derived B P mk f uk ->
  encrypt P msg gam1 (pub_key mk) s1 = Ok ct1 ->
  encrypt P msg gam2 (pub_key mk) s2 = Ok ct2 ->
  (forall a, In a gam1 <-> In a gam2) ->
  decrypt ct1 uk = decrypt ct2 uk.
Proof.
  intros Hmk Hd H1 H2 Hi. destruct (generate_master_key_inv B BL _ _ _ Hmk) as (t & y & -> & _ & Hnz).
  assert (Hh : holds (attrs gam1) f <-> holds (attrs gam2) f).
  { split; apply holds_mono; intros a _ Ha; apply Hi; exact Ha. }
  assert (Hs : shares_attr f gam1 <-> shares_attr f gam2).
  { split; intros (a & Ha & Hl); exists a; (split; [apply Hi; exact Ha|exact Hl]). }
  destruct (derived_decrypt B BL P t y f uk msg gam1 s1 ct1 Hnz Hd H1) as [[? E1]|[(? & ? & E1)|(? & ? & E1)]];
  destruct (derived_decrypt B BL P t y f uk msg gam2 s2 ct2 Hnz Hd H2) as [[? E2]|[(? & ? & E2)|(? & ? & E2)]];
  rewrite E1, E2; try reflexivity; tauto.
Qed.

(** ** C08: for every other secret [y2], one fixed offset of the draws turns
    every key for [y] into a key for [y2] with the same elements on [gam]. *)
Theorem C08_unsatisfying_shares_hide_secret P f m (t : list K) (y y2 : K) gam :
  to_msp P f = Ok m ->
  ~ holds (attrs gam) f ->
  exists delta : nat -> K, forall draw uk,
    key_generation m (mkPriv t y) draw = Ok uk ->
    exists uk2, key_generation m (mkPriv t y2) (shift draw delta) = Ok uk2 /\
      dk_msp uk2 = dk_msp uk /\ (forall a, In a gam -> element uk2 a = element uk a).
Proof. intros Hm. exact (shares_hide B BL f m t y y2 gam (to_msp_msp_of K (bl_field B BL) P f m Hm)). Qed.

(** ** C10 *)
Theorem C10_delegation_to_restriction P size (mdraw : nat -> K) mk f f' m uk m' (kdraw ddraw : nat -> K) :
  generate_master_key size mdraw = Ok mk ->
  to_msp P f = Ok m -> key_generation m (priv_key mk) kdraw = Ok uk ->
  restricts f' f -> to_msp P f' = Ok m' ->
  exists uk', abe_key_delegation (Some m') uk (del_key mk) ddraw = Ok uk' /\
    forall msg gam (s : K) ct, encrypt P msg gam (pub_key mk) s = Ok ct ->
      (holds (attrs gam) f' /\ decrypt ct uk' = Ok (Some msg)) \/
      (~ holds (attrs gam) f' /\ forall x, decrypt ct uk' <> Ok (Some x)).
Proof.
  intros Hmk Hm Hk Hr Hm'. destruct (generate_master_key_inv B BL _ _ _ Hmk) as (t & y & -> & _ & Hnz).
  assert (D : derived B P (master_of B t y) f uk) by (eapply de_gen; eauto).
  destruct (delegate_total B BL P t y f uk f' m' ddraw Hnz (derived_obtained B P _ f uk D) Hm') as (uk' & Hd).
  { apply restricts_leaves; assumption. }
  exists uk'. split; [exact Hd|]. intros msg gam s ct He.
  assert (D' : derived B P (master_of B t y) f' uk') by (eapply de_del; eauto).
  destruct (derived_decrypt B BL P t y f' uk' msg gam s ct Hnz D' He) as [[? E]|[(? & ? & E)|(? & ? & E)]].
  - left; auto.
  - right. split; [assumption|]. intros x. rewrite E. discriminate.
  - right. split; [assumption|]. intros x. rewrite E. discriminate.
Qed.

(** ** C11: delegation from Or to And divides the message by Y^s, so it gives
    another message as soon as the mask is not trivial. *)
Theorem C11_or_to_and_gives_wrong_message P size (mdraw : nat -> K) mk a b m uk m' uk' (kdraw ddraw : nat -> K) msg gam (s : K) ct :
  generate_master_key size mdraw = Ok mk -> a <> b ->
  to_msp P (Or (Leaf a) (Leaf b)) = Ok m -> key_generation m (priv_key mk) kdraw = Ok uk ->
  to_msp P (And (Leaf a) (Leaf b)) = Ok m' ->
  abe_key_delegation (Some m') uk (del_key mk) ddraw = Ok uk' ->
  encrypt P msg gam (pub_key mk) s = Ok ct -> In a gam -> In b gam ->
  priv_y (priv_key mk) <> f0 -> s <> f0 ->
  decrypt ct uk' = Ok (Some (gt_div B msg (gt_exp B (pub_y (pub_key mk)) s))) /\
  gt_div B msg (gt_exp B (pub_y (pub_key mk)) s) <> msg.
Proof.
  intros Hmk Hab Hm Hk Hm' Hd He Ha Hb Hy Hs. destruct (generate_master_key_inv B BL _ _ _ Hmk) as (t & y & -> & _ & Hnz).
  split; [eapply (or_to_and B BL P t y); eauto|].
  destruct (bl_gt_surj B BL msg) as [mu ->]. simpl in *. rewrite (bl_gt_exp B BL), (bl_gt_div B BL). intros E.
  apply (bl_gt_inj B BL) in E.
  destruct (fmul_zero K (bl_field B BL) y s) as [E0|E0]; [|contradiction|contradiction].
  rewrite <- (mask_trivial B BL mu (fmul y s) E). reflexivity.
Qed.

(** ** C12 *)
Theorem C12_delegating_to_all_rerandomises P size (mdraw : nat -> K) mk f uk (draw : nat -> K) :
  generate_master_key size mdraw = Ok mk ->
  obtained B P mk f uk ->
  exists uk', abe_key_delegation None uk (del_key mk) draw = Ok uk' /\ dk_msp uk' = dk_msp uk /\
    forall msg gam (s : K) ct, encrypt P msg gam (pub_key mk) s = Ok ct -> decrypt ct uk' = decrypt ct uk.
Proof.
  intros Hmk Ho. destruct (generate_master_key_inv B BL _ _ _ Hmk) as (t & y & -> & _ & Hnz).
  destruct (randomise_total B BL P t y f uk draw Hnz Ho) as (uk' & Hd). exists uk'. split; [exact Hd|].
  split; [eapply randomise_msp; eauto|]. intros msg gam s ct He.
  exact (proj2 (randomise_same B BL P t y f uk draw uk' msg gam s ct Hnz Ho Hd He)).
Qed.

(** ** C13 *)
Theorem C13_no_new_attribute P size (mdraw : nat -> K) mk f uk f' m' (draw : nat -> K) a :
  generate_master_key size mdraw = Ok mk ->
  obtained B P mk f uk ->
  to_msp P f' = Ok m' ->
  In a (leaves f') -> ~ In a (leaves f) ->
  (forall uk', abe_key_delegation (Some m') uk (del_key mk) draw <> Ok uk') /\
  ((forall b, In b (leaves f') -> N.to_nat b < size) ->
   abe_key_delegation (Some m') uk (del_key mk) draw = Err (InternalOperation "new attribute is not allowed")).
Proof.
  intros Hmk Ho Hm Ha Hn. destruct (generate_master_key_inv B BL _ _ _ Hmk) as (t & y & -> & Ht & Hnz). split.
  - intros uk'. eapply (delegate_new_never_ok B BL P t y); eauto.
  - intros Hr. rewrite <- Ht in Hr. eapply (delegate_new B BL P t y); eauto.
Qed.

(** ** C14 *)
Theorem C14_delegation_chains_stay_exact P size (mdraw : nat -> K) mk f uk msg gam (s : K) ct :
  generate_master_key size mdraw = Ok mk ->
  derived B P mk f uk ->
  encrypt P msg gam (pub_key mk) s = Ok ct ->
  (holds (attrs gam) f /\ decrypt ct uk = Ok (Some msg)) \/
  (~ holds (attrs gam) f /\ shares_attr f gam /\ decrypt ct uk = Ok None) \/
  (~ holds (attrs gam) f /\ ~ shares_attr f gam /\ decrypt ct uk = Err (InternalOperation "empty input matrix")).
Proof.
  intros Hmk Hd He. destruct (generate_master_key_inv B BL _ _ _ Hmk) as (t & y & -> & Ht & Hnz).
  exact (derived_decrypt B BL P t y f uk msg gam s ct Hnz Hd He).
Qed.

(** no step of a chain can fail: delegation to narrower policies and
    randomisation always succeed on derived keys *)
Theorem C14_chain_steps_succeed P size (mdraw : nat -> K) mk f uk (draw : nat -> K) :
  generate_master_key size mdraw = Ok mk ->
  derived B P mk f uk ->
  is_ok (abe_key_delegation None uk (del_key mk) draw) /\
  forall f' m', narrows f' f \/ restricts f' f -> to_msp P f' = Ok m' ->
    is_ok (abe_key_delegation (Some m') uk (del_key mk) draw).
Proof.
  intros Hmk Hd. destruct (generate_master_key_inv B BL _ _ _ Hmk) as (t & y & -> & Ht & Hnz).
  pose proof (derived_obtained B P _ f uk Hd) as Ho. split.
  - destruct (randomise_total B BL P t y f uk draw Hnz Ho) as (uk' & E). exists uk'; exact E.
  - intros f' m' Hr Hm.
    destruct (delegate_total B BL P t y f uk f' m' draw Hnz Ho Hm) as (uk' & E).
    + destruct Hr as [Hr|Hr]; [apply narrows_leaves; [|exact Hr]|apply restricts_leaves; exact Hr].
      apply (mo_nodup K f' m'). apply (to_msp_msp_of K (bl_field B BL) P f' m' Hm).
    + exists uk'; exact E.
Qed.

(** ** C15: for ciphertext attributes that do not satisfy the source formula,
    along one fixed direction of the draws of the source key at most one draw
    gives a delegated key that returns the message. *)
Theorem C15_delegation_gives_no_access P size (mdraw : nat -> K) mk f m f' m' gam (s : K) :
  generate_master_key size mdraw = Ok mk -> priv_y (priv_key mk) <> f0 -> s <> f0 ->
  to_msp P f = Ok m -> to_msp P f' = Ok m' -> ~ holds (attrs gam) f ->
  exists delta : nat -> K, forall draw ddraw k1 k2 uk1 uk2 uk1' uk2' msg ct,
    k1 <> k2 ->
    key_generation m (priv_key mk) (shift draw (fun i => fmul k1 (delta i))) = Ok uk1 ->
    key_generation m (priv_key mk) (shift draw (fun i => fmul k2 (delta i))) = Ok uk2 ->
    abe_key_delegation (Some m') uk1 (del_key mk) ddraw = Ok uk1' ->
    abe_key_delegation (Some m') uk2 (del_key mk) ddraw = Ok uk2' ->
    encrypt P msg gam (pub_key mk) s = Ok ct ->
    ~ (decrypt ct uk1' = Ok (Some msg) /\ decrypt ct uk2' = Ok (Some msg)).
Proof.
  intros Hmk Hy Hs Hm Hm' Hn. destruct (generate_master_key_inv B BL _ _ _ Hmk) as (t & y & -> & Ht & Hnz).
  exact (delegated_no_gain B BL P f m t y s f' m' gam Hnz Hm Hm' Hn Hy Hs).
Qed.

(** ** C42 *)
Theorem C42_too_many_attributes_refused P msg gam (pk : master_public_key B) (s : K) :
  (fits P (length (pub_t pk)) -> 1 <= length (pub_t pk) <= length gam -> is_err (encrypt P msg gam pk s)) /\
  (forall ct, encrypt P msg gam pk s = Ok ct ->
     length gam < length (pub_t pk) /\ (forall a, In a gam -> N.to_nat a < length (pub_t pk)) /\ gamma ct = gam).
Proof. exact (encrypt_bounds B P msg gam pk s). Qed.

(** ** C43 *)
Theorem C43_master_key_generation P size (mdraw : nat -> K) :
  ((forall i, i < size -> mdraw i <> f0) ->
   exists mk, generate_master_key size mdraw = Ok mk /\
     length (priv_t (priv_key mk)) = size /\ length (pub_t (pub_key mk)) = size /\ length (inv_t (del_key mk)) = size) /\
  ((exists i, i < size /\ mdraw i = f0) -> generate_master_key size mdraw = Panic DivisionByZero).
Proof.
  split.
  - intros H. eexists. split; [exact (generate_master_key_ok B BL size mdraw H)|].
    unfold master_of, pub_of, inv_of, draws; cbn [priv_key pub_key del_key priv_t pub_t inv_t];
      rewrite ?map_length, ?seq_length; auto.
  - intros (i & Hi & E). exact (generate_master_key_panic B BL size mdraw i Hi E).
Qed.

(** ** C59 *)
Theorem C59_recovery_uses_minimal_subset P size (mdraw : nat -> K) mk f uk msg gam (s : K) ct :
  generate_master_key size mdraw = Ok mk ->
  derived B P mk f uk ->
  encrypt P msg gam (pub_key mk) s = Ok ct ->
  holds (attrs gam) f ->
  exists sel a, select_rows ct uk = Ok sel /\
    span_coefs (map (fun x => fst (fst x)) sel) = Ok (Some a) /\
    length a = length (known f gam) /\ length sel = length (known f gam) /\
    (forall x, In x a -> x = f0 \/ x = f1) /\
    let used := map snd (filter (fun p => negb (feqb (fst p) f0)) (combine a (known f gam))) in
    NoDup used /\ minimal f used.
Proof.
  intros Hmk Hd He Hh. destruct (generate_master_key_inv B BL _ _ _ Hmk) as (t & y & -> & Ht & Hnz).
  destruct (derived_good B BL P t y f uk Hnz Hd) as (G & _ & _).
  destruct (encrypt_honest B BL P msg gam t y s ct He) as (mu & -> & ->).
  exact (recovery_minimal B BL t y f uk gam mu s G Hh).
Qed.

End Properties.

(** ** C03: over every field, for every set of attributes *)
Theorem C03_span_program_computes_formula (K : FieldOps) (KL : FieldLaws K) P f m (S : N -> Prop) :
  to_msp P f = Ok m -> (spans K m S <-> holds S f).
Proof. exact (spans_iff K KL P f m S). Qed.

(** ** C04 *)
Theorem C04_span_solver (K : FieldOps) (KL : FieldLaws K) (rows : list (list K)) n :
  rows <> [] -> 1 <= n -> (forall r, In r rows -> length r = n) ->
  (exists sol, span_coefs rows = Ok (Some sol) /\ length sol = length rows /\ gives_ones sol rows n) \/
  (span_coefs rows = Ok None /\ forall sol, length sol = length rows -> ~ gives_ones sol rows n).
Proof. exact (span_coefs_full K KL rows n). Qed.

(** the remaining inputs without rows or without columns are errors *)
Theorem C04_empty_matrix_is_an_error (K : FieldOps) (rows : list (list K)) :
  rows = [] \/ (exists rest, rows = [] :: rest) -> is_err (span_coefs rows).
Proof. intros [->|(rest & ->)]; eexists; reflexivity. Qed.

(** ** C34 *)
Theorem C34_compiles_iff_distinct P f :
  (NoDup (leaves f) <-> is_ok (to_msp P f)) /\
  (~ NoDup (leaves f) -> to_msp P f = Err (Deserialization "error deserializing MSP, leaf already inserted")) /\
  (forall m, to_msp P f = Ok m ->
     Permutation.Permutation (row_to_attr m) (leaves f) /\
     nb_row m = length (leaves f) /\ nb_col m = S (count_and f) /\
     length (matrix m) = length (leaves f) /\ (forall r, In r (matrix m) -> length r = S (count_and f)) /\
     (forall r x, In r (matrix m) -> In x r -> In x [-1; 0; 1; 2]%Z) /\
     (forall a i, get_row_from_attr m a = Some i <-> nth_error (row_to_attr m) i = Some a)).
Proof.
  assert (KL : FieldLaws (zp_ops m101)) by (apply zp_laws; exact prime_101).
  split; [split|split].
  - intros H. destruct (to_msp_ok P f H) as (rows & _ & E). eexists; exact E.
  - intros [m E]. exact (mo_nodup _ f m (to_msp_msp_of _ KL P f m E)).
  - exact (to_msp_dup P f).
  - intros m E. pose proof (to_msp_msp_of _ KL P f m E) as M.
    assert (L : length (row_to_attr m) = length (leaves f)) by (apply Permutation.Permutation_length, (mo_perm _ f m M)).
    split; [exact (mo_perm _ f m M)|]. split; [rewrite (mo_rows _ f m M); exact L|]. split; [exact (mo_cols _ f m M)|].
    split; [rewrite (mo_mat _ f m M); exact L|]. split; [intros r Hr; rewrite <- (mo_cols _ f m M); exact (mo_width _ f m M r Hr)|].
    split.
    + intros r x Hr Hx. pose proof (mo_entries _ f m M r x Hr Hx) as [H1 H2].
      assert (H : (x = -1 \/ x = 0 \/ x = 1 \/ x = 2)%Z) by lia. simpl. intuition lia.
    + intros a i. unfold get_row_from_attr. rewrite (mo_map _ f m M).
      apply assoc_combine_seq. apply (Permutation.Permutation_NoDup (Permutation.Permutation_sym (mo_perm _ f m M))).
      exact (mo_nodup _ f m M).
Qed.

(** ** Examples *)
Local Ltac vmr x := vm_cast_no_check (eq_refl x).

Example C01_example :
  holds (attrs [1; 4]%N) ex_f /\ decrypt (ex_ct [1; 4]%N) ex_uk = Ok (Some ex_msg).
Proof. split; [simpl; tauto|]. vmr (@Ok (option (Gt toy)) (Some ex_msg)). Qed.

(** the theorem itself applied to it *)
Example C01_example_by_theorem : decrypt (ex_ct [1; 4]%N) ex_uk = Ok (Some ex_msg).
Proof.
  destruct ex_setup as (H1 & H2 & H3 & H4).
  exact (C01_authorised_decrypts toy toy_laws pf 10 ex_draw ex_mk ex_f ex_m ex_kdraw ex_uk ex_msg [1; 4]%N ex_s _
           H1 H2 H3 H4 (proj1 C01_example)).
Qed.

Lemma ex_draw_nonzero : forall i, i < 10 -> ex_draw i <> f0.
Proof.
  intros i Hi E. apply (f_equal zval) in E.
  do 10 (destruct i as [|i]; [vm_compute in E; discriminate|]). lia.
Qed.

Example C01_pipeline_example :
  (forall i, i < 10 -> ex_draw i <> f0) /\ NoDup (leaves ex_f) /\
  (forall a, In a (leaves ex_f) -> N.to_nat a < 10) /\ (forall a, In a [1; 4; 9]%N -> N.to_nat a < 10).
Proof.
  split; [exact ex_draw_nonzero|]. split; [|split].
  - apply (proj2 (proj1 (C34_compiles_iff_distinct pf ex_f))). destruct ex_setup as (_ & H & _). eexists; exact H.
  - intros a Ha. simpl in Ha. intuition (subst; compute; lia).
  - intros a Ha. simpl in Ha. intuition (subst; compute; lia).
Qed.

Example C02_example :
  ~ holds (attrs [1; 2]%N) ex_f /\ shares_attr ex_f [1; 2]%N /\
  encrypt pf ex_msg [1; 2]%N (pub_key ex_mk) ex_s = Ok (ex_ct [1; 2]%N) /\
  decrypt (ex_ct [1; 2]%N) ex_uk = Ok None /\
  encrypt pf ex_msg [7; 8]%N (pub_key ex_mk) ex_s = Ok (ex_ct [7; 8]%N) /\
  decrypt (ex_ct [7; 8]%N) ex_uk = Err (InternalOperation "empty input matrix").
Proof.
  split; [unfold attrs; simpl; intuition discriminate|]. split; [exists 1%N; simpl; tauto|].
  split; [vmr (@Ok (ciphertext toy) (ex_ct [1; 2]%N))|]. split; [vmr (@Ok (option (Gt toy)) None)|].
  split; [vmr (@Ok (ciphertext toy) (ex_ct [7; 8]%N))|].
  vmr (@Err (option (Gt toy)) (InternalOperation "empty input matrix")).
Qed.

Example C03_example : (* characteristic 101; 1 & (4 | (2 & 3)) on {1,2,3} and on {1,2} *)
  spans (zp_ops m101) ex_m (attrs [1; 2; 3]%N) /\ ~ spans (zp_ops m101) ex_m (attrs [1; 2]%N).
Proof.
  assert (KL : FieldLaws (zp_ops m101)) by (apply zp_laws; exact prime_101).
  destruct ex_setup as (_ & H & _). rewrite !(C03_span_program_computes_formula _ KL pf ex_f ex_m _ H).
  unfold attrs; simpl; intuition discriminate.
Qed.

Example C04_example :
  span_coefs [[f101 1; f101 2]; [f101 0; f101 5]; [f101 3; f101 1]] = Ok (Some [f101 1; f101 20; f101 0]) /\
  span_coefs [[f101 1; f101 2]; [f101 2; f101 4]] = Ok None.
Proof.
  split; [vmr (@Ok (option (list (zp_ops m101))) (Some [f101 1; f101 20; f101 0]))|vmr (@Ok (option (list (zp_ops m101))) None)].
Qed.

Example C06_C07_example :
  incl [1; 4]%N [2; 1; 4; 9; 1]%N /\
  decrypt (run empty_ct (encrypt pf ex_msg [2; 1; 4; 9; 1]%N (pub_key ex_mk) (f101 3))) ex_uk = Ok (Some ex_msg) /\
  decrypt (run empty_ct (encrypt pf ex_msg [4; 1; 1; 4; 1]%N (pub_key ex_mk) (f101 3))) ex_uk = Ok (Some ex_msg).
Proof.
  split; [intros a; simpl; tauto|].
  split; vmr (@Ok (option (Gt toy)) (Some ex_msg)).
Qed.

Example C08_example :
  exists delta, forall draw uk, key_generation ex_m (priv_key ex_mk) draw = Ok uk ->
    exists uk2, key_generation ex_m (mkPriv (priv_t (priv_key ex_mk)) (f101 3)) (shift draw delta) = Ok uk2 /\
      dk_msp uk2 = dk_msp uk /\ (forall a, In a [2; 3; 4]%N -> element uk2 a = element uk a).
Proof.
  destruct ex_setup as (_ & H & _).
  apply (C08_unsatisfying_shares_hide_secret toy toy_laws pf ex_f ex_m (priv_t (priv_key ex_mk))
           (priv_y (priv_key ex_mk)) (f101 3) [2; 3; 4]%N H).
  unfold attrs; simpl; intuition discriminate.
Qed.

Definition ex_f' : node := And (Leaf 4) (Leaf 1).
Lemma ex_restricts : restricts ex_f' ex_f.
Proof. eapply rs_trans; [apply rs_and_comm|]. apply rs_and; [apply rs_refl|apply rs_or_left]. Qed.
Definition ex_m' : msp Z := run empty_msp (to_msp pf ex_f').
Definition ex_uk' : decryption_key toy := run empty_key (abe_key_delegation (Some ex_m') ex_uk (del_key ex_mk) ex_draw).
Lemma ex_delegated : to_msp pf ex_f' = Ok ex_m' /\ abe_key_delegation (Some ex_m') ex_uk (del_key ex_mk) ex_draw = Ok ex_uk'.
Proof. split; [vmr (@Ok (msp Z) ex_m')|vmr (@Ok (decryption_key toy) ex_uk')]. Qed.

Example C10_example :
  decrypt (ex_ct [1; 4]%N) ex_uk' = Ok (Some ex_msg) /\ decrypt (ex_ct [1; 2; 3]%N) ex_uk' = Ok None /\
  decrypt (ex_ct [1; 2; 3]%N) ex_uk = Ok (Some ex_msg).
Proof.
  split; [vmr (@Ok (option (Gt toy)) (Some ex_msg))|]. split; [vmr (@Ok (option (Gt toy)) None)|].
  vmr (@Ok (option (Gt toy)) (Some ex_msg)).
Qed.

(** C11 as documented is false. *)
Definition or12 : node := Or (Leaf 1) (Leaf 2).
Definition and12 : node := And (Leaf 1) (Leaf 2).
Definition or_m := run empty_msp (to_msp pf or12).
Definition and_m := run empty_msp (to_msp pf and12).
Definition or_uk := run empty_key (key_generation or_m (priv_key ex_mk) ex_kdraw).
Definition and_uk := run empty_key (abe_key_delegation (Some and_m) or_uk (del_key ex_mk) ex_draw).

Lemma or_to_and_setup :
  to_msp pf or12 = Ok or_m /\ key_generation or_m (priv_key ex_mk) ex_kdraw = Ok or_uk /\
  to_msp pf and12 = Ok and_m /\ abe_key_delegation (Some and_m) or_uk (del_key ex_mk) ex_draw = Ok and_uk /\
  encrypt pf ex_msg [1; 2]%N (pub_key ex_mk) ex_s = Ok (ex_ct [1; 2]%N).
Proof.
  split; [vmr (@Ok (msp Z) or_m)|]. split; [vmr (@Ok (decryption_key toy) or_uk)|].
  split; [vmr (@Ok (msp Z) and_m)|]. split; [vmr (@Ok (decryption_key toy) and_uk)|].
  vmr (@Ok (ciphertext toy) (ex_ct [1; 2]%N)).
Qed.

Theorem C11_or_to_and_refuted :
  ~ (forall (B : BilinearMap), BilinearLaws B ->
      forall P size (mdraw : nat -> bm_K B) mk a b m uk m' uk' (kdraw ddraw : nat -> bm_K B) msg gam s ct,
      generate_master_key size mdraw = Ok mk ->
      to_msp P (Or (Leaf a) (Leaf b)) = Ok m -> key_generation m (priv_key mk) kdraw = Ok uk ->
      to_msp P (And (Leaf a) (Leaf b)) = Ok m' ->
      abe_key_delegation (Some m') uk (del_key mk) ddraw = Ok uk' ->
      encrypt P msg gam (pub_key mk) s = Ok ct -> In a gam -> In b gam ->
      decrypt ct uk' = Ok (Some msg)).
Proof.
  intros H. destruct ex_setup as (H1 & _). destruct or_to_and_setup as (G1 & G2 & G3 & G4 & G5).
  specialize (H toy toy_laws pf 10 ex_draw ex_mk 1%N 2%N or_m or_uk and_m and_uk ex_kdraw ex_draw ex_msg [1; 2]%N ex_s _
    H1 G1 G2 G3 G4 G5 (or_introl eq_refl) (or_intror (or_introl eq_refl))).
  assert (E : match decrypt (ex_ct [1; 2]%N) and_uk with Ok (Some x) => zval x | _ => 0%Z end = 77%Z)
    by (rewrite H; reflexivity).
  vm_compute in E. discriminate.
Qed.

Example C12_example : (* a key delegated from Or to And, which is not good for decryption, is randomised *)
  obtained toy pf ex_mk and12 and_uk /\
  let uk2 := run empty_key (abe_key_delegation None and_uk (del_key ex_mk) ex_kdraw) in
  decrypt (ex_ct [1; 2]%N) uk2 = decrypt (ex_ct [1; 2]%N) and_uk /\ is_ok (decrypt (ex_ct [1; 2]%N) uk2).
Proof.
  destruct or_to_and_setup as (G1 & G2 & G3 & G4 & G5). split.
  - exact (ob_del toy pf ex_mk or12 or_uk and12 and_m ex_draw and_uk (ob_gen toy pf ex_mk or12 or_m ex_kdraw or_uk G1 G2) G3 G4).
  - split.
    + vm_cast_no_check (eq_refl (decrypt (ex_ct [1; 2]%N) and_uk)).
    + eexists (run None (decrypt (ex_ct [1; 2]%N) and_uk)). vm_cast_no_check (eq_refl (decrypt (ex_ct [1; 2]%N) and_uk)).
Qed.

Example C13_example :
  In 9%N (leaves (And (Leaf 1) (Leaf 9))) /\ ~ In 9%N (leaves ex_f) /\
  abe_key_delegation (Some (run empty_msp (to_msp pf (And (Leaf 1) (Leaf 9))))) ex_uk (del_key ex_mk) ex_draw
    = Err (InternalOperation "new attribute is not allowed").
Proof.
  split; [simpl; tauto|]. split; [simpl; intuition discriminate|].
  vmr (@Err (decryption_key toy) (InternalOperation "new attribute is not allowed")).
Qed.

Example C14_example : (* generate, delegate to 4 & 1, randomise *)
  exists uk'', derived toy pf ex_mk ex_f' uk'' /\ decrypt (ex_ct [1; 4]%N) uk'' = Ok (Some ex_msg).
Proof.
  set (uk2 := run empty_key (abe_key_delegation None ex_uk' (del_key ex_mk) ex_kdraw)).
  exists uk2. split.
  - apply (de_rand toy pf ex_mk ex_f' ex_uk' ex_kdraw uk2).
    + eapply de_del; [exact ex_derived|right; exact ex_restricts|exact (proj1 ex_delegated)|exact (proj2 ex_delegated)].
    + vmr (@Ok (decryption_key toy) uk2).
  - vmr (@Ok (option (Gt toy)) (Some ex_msg)).
Qed.

Example C15_example : (* source 1 & (4 | (2 & 3)), target 2 | 3, ciphertext attributes {2, 3}: the delegated
                         key gives a result, and it is not the message *)
  let tm := run empty_msp (to_msp pf (Or (Leaf 2) (Leaf 3))) in
  let k := run empty_key (abe_key_delegation (Some tm) ex_uk (del_key ex_mk) ex_draw) in
  ~ holds (attrs [2; 3]%N) ex_f /\ priv_y (priv_key ex_mk) <> f0 /\ ex_s <> f0 /\
  exists x, decrypt (ex_ct [2; 3]%N) k = Ok (Some x) /\ x <> ex_msg.
Proof.
  split; [unfold attrs; simpl; intuition discriminate|].
  split; [intros E; apply (f_equal zval) in E; vm_compute in E; discriminate|].
  split; [intros E; apply (f_equal zval) in E; vm_compute in E; discriminate|].
  set (r := decrypt _ _). exists (match r with Ok (Some x) => x | _ => f101 0 end). split.
  - vm_cast_no_check (eq_refl r).
  - intros E; apply (f_equal zval) in E; vm_compute in E; discriminate.
Qed.

Example C34_example : (* one row per leaf, one column plus one per And *)
  matrix ex_m = [[1; 2; 1]; [0; -1; 0]; [0; -1; 1]; [0; 0; -1]]%Z /\ row_to_attr ex_m = [1; 4; 2; 3]%N /\
  to_msp pf (And (Leaf 3) (Or (Leaf 4) (And (Leaf 2) (Leaf 3)))) =
    Err (Deserialization "error deserializing MSP, leaf already inserted").
Proof. vm_compute. repeat split; reflexivity. Qed.

Example C42_example :
  encrypt pf ex_msg [1; 2; 3; 4; 5; 6; 7; 8; 9; 1]%N (pub_key ex_mk) ex_s =
    Err (InternalOperation "invalid attributes: gamma value incorrect") /\ fits pf 10.
Proof.
  split; [vmr (@Err (ciphertext toy) (InternalOperation "invalid attributes: gamma value incorrect"))|].
  vm_compute. reflexivity.
Qed.

(** with no slot at all the error message itself panics when arithmetic overflow
    is checked *)
Theorem C42_no_slot_refuted :
  ~ (forall (B : BilinearMap) P msg gam (pk : master_public_key B) s,
      length (pub_t pk) <= length gam -> is_err (encrypt P msg gam pk s)).
Proof.
  intros H. destruct (H toy pf ex_msg [] (@mkPub toy [] (f101 0)) ex_s (le_n 0)) as [e E].
  assert (F : match encrypt pf ex_msg [] (@mkPub toy [] (f101 0)) ex_s with Err _ => true | _ => false end = true)
    by (rewrite E; reflexivity).
  vm_compute in F. discriminate.
Qed.

Example C43_example :
  (forall i, i < 10 -> ex_draw i <> f0) /\
  (exists i, i < 100 /\ ex_draw i = f0) /\ generate_master_key 100 ex_draw = Panic DivisionByZero.
Proof.
  split; [exact ex_draw_nonzero|]. split; [exists 94; split; [lia|vmr (f101 0)]|].
  vmr (@Panic (master_key toy) DivisionByZero).
Qed.

Example C59_example : (* of 2, 3, 4, 1 only 4 and 1 are used *)
  span_coefs (map (fun x => fst (fst x)) (run [] (select_rows (ex_ct [2; 4; 9; 1]%N) ex_uk)))
  = Ok (Some [f101 0; f101 1; f101 1]) /\ known ex_f [2; 4; 9; 1]%N = [2; 4; 1]%N.
Proof. split; [vmr (@Ok (option (list toy)) (Some [f101 0; f101 1; f101 1]))|reflexivity]. Qed.

Print Assumptions C01_authorised_decrypts.
Print Assumptions C01_pipeline.
Print Assumptions C02_unauthorised_never_decrypts.
Print Assumptions C03_span_program_computes_formula.
Print Assumptions C04_span_solver.
Print Assumptions C06_more_attributes_keep_access.
Print Assumptions C07_order_and_repetition_irrelevant.
Print Assumptions C08_unsatisfying_shares_hide_secret.
Print Assumptions C10_delegation_to_restriction.
Print Assumptions C11_or_to_and_gives_wrong_message.
Print Assumptions C11_or_to_and_refuted.
Print Assumptions C12_delegating_to_all_rerandomises.
Print Assumptions C13_no_new_attribute.
Print Assumptions C14_delegation_chains_stay_exact.
Print Assumptions C15_delegation_gives_no_access.
Print Assumptions C34_compiles_iff_distinct.
Print Assumptions C42_too_many_attributes_refused.
Print Assumptions C43_master_key_generation.
Print Assumptions C59_recovery_uses_minimal_subset.
