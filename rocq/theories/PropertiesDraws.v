(** Nothing that is drawn is ignored: C114. Examples are computed in the group of order 101
    (ExpModel.v). *)
From Coq Require Import String NArith ZArith Bool Arith Lia Strings.Byte Field_theory Field List.
From Verif Require SchemeProofs.
From Verif Require Import Prelude Field LinAlg Msp Spec MspProofs Bilinear Scheme SchemeSpec SchemeTheorems
  Zp ExpModel PropertiesScheme Codec CodecProofs SchemeCodec SchemeCodecProofs PropertiesCodec
  Policy PolicySpec PolicyProofs Engine EngineSpec EngineProofs PropertiesEngine Hybrid HybridSpec PropertiesHybrid PropertiesTamper
  PropertiesDelegation PropertiesPersonal Ffi FfiSpec PropertiesFfi PropertiesFfiBlocks
  PropertiesVersions Properties32 Python PropertiesPython Wasm PropertiesWasm.
Import ListNotations.
Local Open Scope N_scope.

(** ** Specification *)
(** the number of conjunctions of an access policy *)
Fixpoint conjunctions (ap : access_policy) : nat :=
  match ap with
  | AAttr _ => 0
  | AAnd a b => Datatypes.S (conjunctions a + conjunctions b)
  | AOr a b => conjunctions a + conjunctions b
  | AAll => 0
  end.

(** An encrypted block starts with its nonce. *)
Definition shows_nonce (S : sym_scheme) : Prop := forall k u i n m c,
  length k = key_length S -> length n = nonce_length S -> block_encrypt S k u i n m = Ok c -> firstn (nonce_length S) c = n.

(** ** Formulas *)
Lemma reduce_or_count l f : reduce_or l = Some f -> count_and f = 0%nat.
Proof.
  destruct l as [|x t]; [discriminate|]. cbn [reduce_or]. intros H. assert (E : f = fold_left (fun acc x => Or acc (Leaf x)) t (Leaf x)) by congruence.
  subst f. clear H. assert (G : forall t acc, count_and acc = 0%nat -> count_and (fold_left (fun acc x => Or acc (Leaf x)) t acc) = 0%nat).
  { clear. induction t as [|y t IH]; intros acc H; [exact H|]. cbn [fold_left]. apply IH. cbn [count_and]. lia. }
  apply G. reflexivity.
Qed.

Lemma attribute_node_count it p a f : attribute_node it p a = Ok f -> count_and f = 0%nat.
Proof.
  unfold attribute_node. destruct (heap_get p a) as [h|]; [|discriminate]. destruct (reduce_or _) as [x|] eqn:E; [|discriminate].
  intros H. assert (x = f) by congruence. subst x. exact (reduce_or_count _ _ E).
Qed.

Lemma add_lower_count it p x l : forall v f, add_lower it p x l v = Ok f -> count_and v = 0%nat -> count_and f = 0%nat.
Proof.
  induction l as [|e l IH]; intros v f H Hv; cbn [add_lower] in H; [congruence|]. apply bind_ok in H as (n & En & H).
  apply (IH _ _ H). cbn [count_and]. rewrite Hv, (attribute_node_count _ _ _ _ En). reflexivity.
Qed.

Lemma formula_count it p ap : forall f, policy_to_formula it p ap = Ok f -> count_and f = conjunctions ap.
Proof.
  induction ap as [a|a IHa b IHb|a IHa b IHb|]; intros f H.
  - cbn [policy_to_formula] in H. unfold policy_to_node in H. destruct (axis_get p (fst a)) as [[names h]|]; [|discriminate].
    destruct (position names (snd a)) as [i|]; [|discriminate]. apply bind_ok in H as (v & Ev & H). apply attribute_node_count in Ev.
    destruct h; [exact (add_lower_count _ _ _ _ _ _ H Ev)|]. assert (v = f) by congruence. subst v. exact Ev.
  - apply pf_and in H as (x & y & Ex & Ey & ->). cbn [count_and conjunctions]. rewrite (IHa _ Ex), (IHb _ Ey). reflexivity.
  - apply pf_or in H as (x & y & Ex & Ey & ->). cbn [count_and conjunctions]. rewrite (IHa _ Ex), (IHb _ Ey). reflexivity.
  - discriminate.
Qed.

Lemma key_formula_count it p ap f : key_formula it p ap = Ok f -> count_and f = conjunctions ap.
Proof.
  destruct ap; intros H; try (rewrite key_formula_other in H by discriminate; exact (formula_count _ _ _ _ H)).
  unfold key_formula in H. destruct (reduce_or _) as [x|] eqn:E; [|discriminate]. assert (x = f) by congruence. subst x. exact (reduce_or_count _ _ E).
Qed.

Section Core.
Variable B : BilinearMap.
Hypothesis BL : BilinearLaws B.
Local Notation K := (bm_K B).
Implicit Types (P : platform) (mk : master_key B).
Add Field KF28 : (fl_field K (bl_field B BL)).

Lemma draws_eq (d d' : nat -> K) n : draws d 0 n = draws d' 0 n -> forall i, (i < n)%nat -> d i = d' i.
Proof.
  unfold draws. intros H i Hi. assert (E : nth_error (map d (seq 0 n)) i = nth_error (map d' (seq 0 n)) i) by (rewrite H; reflexivity).
  rewrite !nth_error_map in E. rewrite (nth_error_nth' _ 0%nat) in E by (rewrite seq_length; exact Hi). rewrite seq_nth in E by exact Hi. cbn in E. congruence.
Qed.

Lemma master_draws size (d : nat -> K) mk : generate_master_key size d = Ok mk -> mk = master_of B (draws d 0 size) (d size).
Proof.
  intros H. destruct (nonzero_dec B BL size d) as [Hn|(i & Hi & Hz)].
  - rewrite (generate_master_key_ok B BL _ _ Hn) in H. congruence.
  - rewrite (generate_master_key_panic B BL _ _ i Hi Hz) in H. discriminate.
Qed.

(** ** C114 *)
(** Master keys: all draws are seen in the private key, and in the public key. *)
Theorem C114_master_keys p p' (d d' : nat -> K) mk mk' :
  max_attribute_creations p' = max_attribute_creations p ->
  eng_master_key p d = Ok mk -> eng_master_key p' d' = Ok mk' ->
  (priv_key mk = priv_key mk' \/ pub_key mk = pub_key mk' ->
     forall i, (i <= N.to_nat (max_attribute_creations p))%nat -> d i = d' i) /\
  (del_key mk = del_key mk' -> forall i, (i < N.to_nat (max_attribute_creations p))%nat -> d i = d' i).
Proof using BL.
  unfold eng_master_key. intros Q H H'. rewrite Q in H'. set (n := N.to_nat (max_attribute_creations p)) in *. clearbody n.
  assert (I3 : forall l l' : list K, map (fun x => g3_gen_exp B (fmul f1 (finv x))) l = map (fun x => g3_gen_exp B (fmul f1 (finv x))) l' ->
             (forall x, In x l -> x <> f0) -> (forall x, In x l' -> x <> f0) -> l = l').
  { induction l as [|x l IH]; intros [|x' l'] E N1 N2; try discriminate; [reflexivity|]. cbn [map] in E. injection E as E1 E2.
    apply (bl_g3_inj B BL) in E1. f_equal; [|apply IH; [exact E2| |]; intros z Hz; [apply N1|apply N2]; right; exact Hz].
    assert (Hx : x <> f0) by (apply N1; left; reflexivity). assert (Hx' : x' <> f0) by (apply N2; left; reflexivity).
    assert (Q1 : finv x = finv x') by (replace (finv x) with (fmul f1 (finv x)) by ring; rewrite E1; ring).
    replace x with (fmul x (fmul (finv x') x')) by (field; exact Hx'). rewrite <- Q1. field. exact Hx. }
  destruct (generate_master_key_inv B BL _ _ _ H) as (t & y & E & Lt & Hnz). destruct (generate_master_key_inv B BL _ _ _ H') as (t' & y' & E' & Lt' & Hnz').
  pose proof (master_draws _ _ _ H) as M. pose proof (master_draws _ _ _ H') as M'. rewrite E in M. rewrite E' in M'.
  assert (Qt : t = draws d 0 n /\ y = d n) by (injection M; intros; split; congruence).
  assert (Qt' : t' = draws d' 0 n /\ y' = d' n) by (injection M'; intros; split; congruence).
  destruct Qt as [-> ->], Qt' as [-> ->]. subst mk mk'.
  assert (G : draws d 0 n = draws d' 0 n -> d n = d' n -> forall i, (i <= n)%nat -> d i = d' i).
  { intros Q1 Q2 i Hi. destruct (Nat.eq_dec i n) as [->|Hne]; [exact Q2|]. apply (draws_eq d d' n Q1). lia. }
  split; [intros [R|R]|intros R].
  - injection R as R1 R2. apply G; assumption.
  - injection R as R1 R2. apply G; [|exact (bl_gt_inj B BL _ _ R2)]. revert R1. generalize (draws d 0 n) (draws d' 0 n). clear - BL.
    induction l as [|x l IH]; intros [|x' l'] E; try discriminate; [reflexivity|]. cbn [map] in E. injection E as E1 E2.
    f_equal; [exact (bl_g2_inj B BL _ _ E1)|apply IH; exact E2].
  - apply draws_eq. apply I3; try assumption. injection R as R. unfold SchemeProofs.inv_of in R. exact R.
Qed.

(** User keys: as many draws are seen as the access policy has conjunctions, the others
    are not used. *)
Theorem C114_user_keys P p0 p (mdraw : nat -> K) mk it ap (d d' : nat -> K) uk uk' :
  eng_master_key p0 mdraw = Ok mk ->
  eng_user_key P it p (priv_key mk) ap d = Ok uk -> eng_user_key P it p (priv_key mk) ap d' = Ok uk' ->
  uk = uk' <-> (forall i, (i < conjunctions ap)%nat -> d i = d' i).
Proof using BL.
  intros Hmk H H'. unfold eng_user_key in H, H'. rewrite policy_to_msp_formula in H, H'.
  apply bind_ok in H as (m & Em & H). apply bind_ok in Em as (f & Ef & Em).
  apply bind_ok in H' as (m' & Em' & H'). apply bind_ok in Em' as (f' & Ef' & Em').
  assert (f' = f) by congruence. subst f'. assert (m' = m) by congruence. subst m'.
  rewrite <- (key_formula_count _ _ _ _ Ef). exact (C97_equal_keys B BL P _ mdraw mk f m d d' uk uk' Hmk Em H H').
Qed.

(** The same for refreshed keys, and for delegated ones. *)
Theorem C114_refreshed_keys P p0 p (mdraw : nat -> K) mk it it' ap uk0 (d d' : nat -> K) uk uk' :
  eng_master_key p0 mdraw = Ok mk -> user_key P mk p ap uk0 ->
  eng_delegate P it p (del_key mk) uk0 AAll d = Ok uk -> eng_delegate P it' p (del_key mk) uk0 AAll d' = Ok uk' ->
  uk = uk' <-> (forall i, (i < conjunctions ap)%nat -> d i = d' i).
Proof using BL.
  intros Hmk Hk H H'. unfold eng_delegate in H, H'. cbn [bind] in H, H'.
  destruct (user_key_derived B P mk p ap uk0 Hk) as (it0 & f & _ & Ef & Hd).
  rewrite <- (key_formula_count _ _ _ _ Ef). exact (proj1 (C97_refreshed_keys B BL P _ mdraw mk f uk0 d d' uk uk' Hmk Hd H H')).
Qed.

Theorem C114_delegated_keys P p0 p (mdraw : nat -> K) mk it ap ap' uk0 (d d' : nat -> K) uk uk' :
  iteration_ok it -> eng_master_key p0 mdraw = Ok mk -> user_key P mk p ap uk0 -> ap' <> AAll -> narrower ap' ap ->
  eng_delegate P it p (del_key mk) uk0 ap' d = Ok uk -> eng_delegate P it p (del_key mk) uk0 ap' d' = Ok uk' ->
  uk = uk' <-> (forall i, (i < conjunctions ap')%nat -> d i = d' i).
Proof using BL.
  intros Hit Hmk Hk Hne Hn H H'. destruct (user_key_derived B P mk p ap uk0 Hk) as (it0 & f & Hit0 & Ef & Hd).
  assert (Hne' : ap <> AAll) by (intros ->; apply narrower_all in Hn; contradiction).
  rewrite (key_formula_other _ _ _ Hne') in Ef.
  assert (D : forall d uk, eng_delegate P it p (del_key mk) uk0 ap' d = Ok uk -> exists f' m', policy_to_formula it p ap' = Ok f' /\ to_msp P f' = Ok m' /\
             abe_key_delegation (Some m') uk0 (del_key mk) d = Ok uk).
  { clear H H'. intros e v H. unfold eng_delegate in H. destruct ap'; try contradiction;
      (rewrite policy_to_msp_formula, key_formula_other in H by discriminate;
       apply bind_ok in H as (om & Em & H); apply bind_ok in Em as (m & Em & Eo);
       apply bind_ok in Em as (f' & Ef' & Em); exists f', m; split; [exact Ef'|]; split; [exact Em|];
       assert (Some m = om) by congruence; subst om; exact H). }
  apply D in H as (f1 & m1 & E1 & M1 & H). apply D in H' as (f2 & m2 & E2 & M2 & H').
  assert (f2 = f1) by congruence. subst f2. assert (m2 = m1) by congruence. subst m2.
  destruct (narrower_restricts it0 p ap' ap f Hn Ef) as (f2 & Ef2 & R2).
  pose proof (policy_to_formula_same it it0 Hit Hit0 p ap' f1 f2 E1 Ef2) as [R1 _].
  assert (R : narrows f1 f \/ restricts f1 f) by (right; eapply rs_trans; [exact R1|exact R2]).
  destruct (C75_delegated_as_fresh B BL P _ mdraw mk f uk0 f1 m1 Hmk Hd R M1) as (delta & Hd').
  destruct (Hd' d) as (v1 & A1 & G1). destruct (Hd' d') as (v2 & A2 & G2).
  assert (v1 = uk) by congruence. assert (v2 = uk') by congruence. subst v1 v2.
  rewrite <- (formula_count _ _ _ _ E1). rewrite (C97_equal_keys B BL P _ mdraw mk f1 m1 _ _ uk uk' Hmk M1 G1 G2). split; intros Q i Hi; specialize (Q i Hi); cbn beta in Q |- *.
  - replace (d i) with (fsub (fadd (d i) (delta i)) (delta i)) by ring. rewrite Q. ring.
  - rewrite Q. reflexivity.
Qed.

Variable F : byte_forms B.
Variable fine : Gt B -> Prop.
Hypothesis HF : forms_ok F fine.
Variable shake : list byte -> nat -> list byte.
Variable S : sym_scheme.

Lemma ct_readable P n ops p p0 (mdraw : nat -> K) mk l len random (s : K) key bytes :
  n < 4294967296 -> run_ops ops (new_policy n) = Ok p -> max_attribute_creations p0 = n -> eng_master_key p0 mdraw = Ok mk -> l <> [] ->
  generate_symmetric_key P F shake p (pub_key mk) l len random s = Ok (key, bytes) ->
  (forall ct, eng_encrypt P p (pub_key mk) l random s = Ok ct -> fine (e_prime ct)) ->
  exists ct gam, gam <> [] /\ encrypt P random gam (pub_key mk) s = Ok ct /\ ct_dec F release64 bytes = Ok ct.
Proof using HF BL.
  intros Hn Hp Hm0 Hmk Hl H Hf. pose proof (inv_history n ops p Hp) as I.
  assert (Hmax : max_attribute_creations p = n) by (rewrite (run_max _ _ _ Hp); reflexivity).
  unfold generate_symmetric_key in H. apply bind_ok in H as (ct & Ect & H). apply bind_ok in H as (b & Eb & H).
  apply bind_ok in H as (r & Er & H). assert (b = bytes) by congruence. subst b. specialize (Hf ct Ect).
  unfold eng_encrypt in Ect. apply bind_ok in Ect as (gam & Eg & Ect). exists ct, gam.
  pose proof (attributes_values_inv _ _ _ Eg) as Fg.
  assert (Hg : gam <> []) by (intros ->; inversion Fg; subst; contradiction).
  split; [exact Hg|]. split; [exact Ect|].
  unfold eng_master_key in Hmk. rewrite Hm0 in Hmk. destruct (generate_master_key_inv B BL _ _ _ Hmk) as (t & y & -> & Lt & Hnz).
  destruct (encrypt_honest B BL _ _ _ _ _ _ _ Ect) as (mu & -> & Q). destruct (SchemeProofs.encrypt_inv B BL _ _ _ _ _ _ _ Ect) as (Hlen & _ & _).
  assert (Qg : gamma ct = gam) by (rewrite Q; reflexivity). assert (Qe : length (e_i ct) = length (gamma ct)) by (rewrite Q; cbn; apply map_length).
  destruct (ct_round F fine HF release64 ltac:(cbn; lia) ct []) as (b' & Eb' & _ & D).
  - rewrite Qg. split; [exact Hg|unfold u32_MAX; lia].
  - rewrite Qg. apply Forall_forall. intros v Hv. destruct (Forall2_in_r _ _ _ _ Fg Hv) as (c & _ & h & Eh & Hvh & _).
    destruct (i_heap _ _ I c h Eh) as (_ & _ & Hr). specialize (Hr v Hvh). pose proof (i_last _ _ I). unfold u32, u32_modulus. lia.
  - exact Qe.
  - exact Hf.
  - reflexivity.
  - rewrite app_nil_r in D. assert (b' = bytes) by congruence. subst. exact D.
Qed.

(** Headers: two headers are the same bytes only if the drawn element, the drawn scalar and
    the nonce of the metadata are the same, whatever they were made for. *)
Theorem C114_headers P n ops p p0 (mdraw : nat -> K) mk l l' meta meta' random random' (s s' : K) nonce nonce' h h' :
  n < 4294967296 -> run_ops ops (new_policy n) = Ok p -> max_attribute_creations p0 = n -> eng_master_key p0 mdraw = Ok mk ->
  l <> [] -> l' <> [] -> length nonce = nonce_length S -> length nonce' = nonce_length S ->
  encrypt_hybrid_header S F shake P p (pub_key mk) l meta random s nonce = Ok h ->
  encrypt_hybrid_header S F shake P p (pub_key mk) l' meta' random' s' nonce' = Ok h' ->
  (forall ct, eng_encrypt P p (pub_key mk) l random s = Ok ct -> fine (e_prime ct)) ->
  (forall ct, eng_encrypt P p (pub_key mk) l' random' s' = Ok ct -> fine (e_prime ct)) ->
  eh_bytes h = eh_bytes h' -> random = random' /\ s = s' /\ (meta <> None -> nonce = nonce').
Proof using HF BL.
  intros Hn Hp Hm0 Hmk Hl Hl' Ln Ln' H H' Hf Hf' E.
  destruct (header_layout B F shake S P p _ l meta random s nonce h H) as (sk & tail & G & _ & Ls & Eb & T).
  destruct (header_layout B F shake S P p _ l' meta' random' s' nonce' h' H') as (sk' & tail' & G' & _ & Ls' & Eb' & T').
  rewrite Eb, Eb' in E. apply app_inj_len in E as [E1 E2]; [|reflexivity]. apply be32_inj in E1; try assumption.
  apply app_inj_len in E2 as [E2 E3]; [|unfold blen in E1; lia]. subst sk' tail'.
  destruct (ct_readable P n ops p p0 mdraw mk l _ random s _ sk Hn Hp Hm0 Hmk Hl G Hf) as (ct & gam & Ng & Ec & D).
  destruct (ct_readable P n ops p p0 mdraw mk l' _ random' s' _ sk Hn Hp Hm0 Hmk Hl' G' Hf') as (ct' & gam' & _ & Ec' & D').
  assert (ct' = ct) by congruence. subst ct'.
  destruct (C86_one_message B BL P _ mdraw mk _ gam s _ gam' s' ct Hmk Ec Ec' Ng) as (R1 & _ & R2). split; [exact R1|]. split; [exact R2|].
  intros Hm. destruct meta as [m|]; [|contradiction]. destruct T as (mb & em & _ & _ & _ & T). destruct meta' as [m'|].
  - destruct T' as (mb' & em' & _ & _ & _ & T'). rewrite T in T'. apply app_inj_len in T' as [T' _]; [exact T'|congruence].
  - rewrite T' in T. destruct nonce; discriminate.
Qed.

(** Blocks. *)
Theorem C114_blocks max max' key key' u u' number number' nonce nonce' m m' c :
  shows_nonce S -> length key = key_length S -> length key' = key_length S -> length nonce = nonce_length S -> length nonce' = nonce_length S ->
  encrypt_hybrid_block S max key u number nonce m = Ok c -> encrypt_hybrid_block S max' key' u' number' nonce' m' = Ok c -> nonce = nonce'.
Proof using Type.
  intros SN Lk Lk' Ln Ln' H H'. unfold encrypt_hybrid_block in H, H'. destruct m as [|x m]; [discriminate|]. destruct m' as [|x' m']; [discriminate|].
  destruct (_ <? _); [discriminate|]. destruct (_ <? _); [discriminate|].
  rewrite <- (SN _ _ _ _ _ _ Lk Ln H). exact (SN _ _ _ _ _ _ Lk' Ln' H').
Qed.
End Core.

(** ** The C interface *)
Section C.
Variable B : BilinearMap.
Hypothesis BL : BilinearLaws B.
Local Notation K := (bm_K B).
Variable P : platform.
Hypothesis HP : 64 <= usize_bits P.
Variable F : byte_forms B.
Variable fine : Gt B -> Prop.
Hypothesis HF : forms_ok F fine.
Variable shake : list byte -> nat -> list byte.
Variable S : sym_scheme.
Variable policy_from : list byte -> outcome policy.
Variable attributes_from : list byte -> outcome (list attribute).
Variable access_from : list byte -> outcome access_policy.
Local Notation encrypt_header := (h_aes_encrypt_header P F shake S policy_from attributes_from).
Local Notation encrypt_header_cached := (h_aes_encrypt_header_using_cache P F shake S attributes_from).
Local Notation encrypt_block := (h_aes_encrypt_block P S).
Local Notation master_keys := (h_generate_master_keys (B := B) P F policy_from).
Local Notation user_private_key := (h_generate_user_private_key (B := B) P F policy_from access_from).

Local Ltac step E := apply then_go in E; let a := fresh "a" in let o1 := fresh "o" in let E1 := fresh "E" in destruct E as (a & o1 & E1 & E).
Let HP32 : 32 <= usize_bits P.
Proof using HP. lia. Qed.

Lemma c_header_inv p k pol pk attrs l u ad random (s : K) nonce ok oh ok' oh' :
  policy_from pol = Ok p -> pub_dec F P pk = Ok k -> attributes_from attrs = Ok l -> good_out ok -> good_out oh ->
  encrypt_header (Some pol) (Some pk) (Some attrs) u ad random s nonce [ok; oh] = Go Datatypes.tt [ok'; oh'] ->
  exists h m, encrypt_hybrid_header S F shake P p k l (Some m) random s nonce = Ok h /\ read_out oh' = eh_bytes h.
Proof using HP.
  intros Ep Ek El Gk Gh E. step E. step E. step E. step E. step E. step E. step E. step E. step E. step E.
  apply check_go in E0 as [-> _]. apply check_go in E1 as [-> _]. apply null_go in E2 as [Q1 ->]. apply input_go_inv in E3 as (Q2 & _ & ->).
  apply null_go in E4 as [Q3 ->]. apply unwrap_go in E5 as [Q4 ->]. apply unwrap_go in E6 as [Q5 ->]. apply unwrap_go in E7 as [Q6 ->].
  apply unwrap_go in E8 as [Q7 ->].
  assert (a1 = pol) by congruence. subst a1. assert (a4 = p) by congruence. subst a4.
  assert (a2 = pk) by congruence. subst a2. assert (a5 = k) by congruence. subst a5.
  assert (a3 = attrs) by congruence. subst a3. assert (a6 = l) by congruence. subst a6.
  exists a7, (meta_arg u ad). split; [exact Q7|].
  apply (deliver_go P HP32 0 (eh_key a7) [ok; oh] a8 _ ok eq_refl Gk) in E9 as (x1 & -> & D1 & L1). cbn [set_out] in E.
  apply (deliver_go P HP32 1 (eh_bytes a7) [x1; oh] Datatypes.tt [ok'; oh'] oh eq_refl Gh) in E as (x2 & Eo & D2 & L2). cbn [set_out] in Eo.
  assert (oh' = x2) by congruence. subst x2. exact (delivered_read _ _ _ D2).
Qed.

Lemma c_cached_inv cache handle p k attrs l u ad random (s : K) nonce ok oh ok' oh' :
  cache handle = Some (p, k) -> attributes_from attrs = Ok l -> good_out ok -> good_out oh ->
  encrypt_header_cached cache handle (Some attrs) u ad random s nonce [ok; oh] = Go Datatypes.tt [ok'; oh'] ->
  exists h m, encrypt_hybrid_header S F shake P p k l (Some m) random s nonce = Ok h /\ read_out oh' = eh_bytes h.
Proof using HP.
  intros Ec El Gk Gh E. step E. step E. step E. rewrite Ec in E. step E. step E. step E.
  apply check_go in E0 as [-> _]. apply check_go in E1 as [-> _]. apply null_go in E2 as [Q1 ->]. apply unwrap_go in E3 as [Q2 ->]. apply unwrap_go in E4 as [Q3 ->].
  assert (a1 = attrs) by congruence. subst a1. assert (a2 = l) by congruence. subst a2.
  exists a3, (meta_arg u ad). split; [exact Q3|].
  apply (deliver_go P HP32 0 (eh_key a3) [ok; oh] a4 _ ok eq_refl Gk) in E5 as (x1 & -> & D1 & L1). cbn [set_out] in E.
  apply (deliver_go P HP32 1 (eh_bytes a3) [x1; oh] Datatypes.tt [ok'; oh'] oh eq_refl Gh) in E as (x2 & Eo & D2 & L2). cbn [set_out] in Eo.
  assert (oh' = x2) by congruence. subst x2. exact (delivered_read _ _ _ D2).
Qed.

(** Two headers made for anything with one public key, the first given, the second in a cache or given. *)
Theorem C114_c_headers n ops p p0 (mdraw : nat -> K) mk pol pk attrs attrs' l l' u u' ad ad' random random' (s s' : K) nonce nonce' ok oh ok1 oh1 ok' oh' ok1' oh1' cache handle :
  n < 4294967296 -> run_ops ops (new_policy n) = Ok p -> max_attribute_creations p0 = n -> eng_master_key p0 mdraw = Ok mk ->
  policy_from pol = Ok p -> pub_dec F P pk = Ok (pub_key mk) -> cache handle = Some (p, pub_key mk) ->
  attributes_from attrs = Ok l -> attributes_from attrs' = Ok l' -> l <> [] -> l' <> [] ->
  length nonce = nonce_length S -> length nonce' = nonce_length S ->
  good_out ok -> good_out oh -> good_out ok' -> good_out oh' ->
  let first := encrypt_header (Some pol) (Some pk) (Some attrs) u ad random s nonce in
  let first_cached := encrypt_header_cached cache handle (Some attrs) u ad random s nonce in
  let second := encrypt_header (Some pol) (Some pk) (Some attrs') u' ad' random' s' nonce' in
  let second_cached := encrypt_header_cached cache handle (Some attrs') u' ad' random' s' nonce' in
  first [ok; oh] = Go Datatypes.tt [ok1; oh1] \/ first_cached [ok; oh] = Go Datatypes.tt [ok1; oh1] ->
  second [ok'; oh'] = Go Datatypes.tt [ok1'; oh1'] \/ second_cached [ok'; oh'] = Go Datatypes.tt [ok1'; oh1'] ->
  (forall ct, eng_encrypt P p (pub_key mk) l random s = Ok ct -> fine (e_prime ct)) ->
  (forall ct, eng_encrypt P p (pub_key mk) l' random' s' = Ok ct -> fine (e_prime ct)) ->
  read_out oh1 = read_out oh1' -> random = random' /\ s = s' /\ nonce = nonce'.
Proof using BL HP HF.
  intros Hn Hp Hm0 Hmk Ep Ek Ec El El' Hl Hl' Ln Ln' Gk Gh Gk' Gh' first first_cached second second_cached H H' Hf Hf' E.
  assert (I : exists h m, encrypt_hybrid_header S F shake P p (pub_key mk) l (Some m) random s nonce = Ok h /\ read_out oh1 = eh_bytes h).
  { destruct H as [H|H]; [exact (c_header_inv _ _ _ _ _ _ _ _ _ _ _ _ _ _ _ Ep Ek El Gk Gh H)|exact (c_cached_inv _ _ _ _ _ _ _ _ _ _ _ _ _ _ _ Ec El Gk Gh H)]. }
  assert (I' : exists h m, encrypt_hybrid_header S F shake P p (pub_key mk) l' (Some m) random' s' nonce' = Ok h /\ read_out oh1' = eh_bytes h).
  { destruct H' as [H'|H']; [exact (c_header_inv _ _ _ _ _ _ _ _ _ _ _ _ _ _ _ Ep Ek El' Gk' Gh' H')|exact (c_cached_inv _ _ _ _ _ _ _ _ _ _ _ _ _ _ _ Ec El' Gk' Gh' H')]. }
  destruct I as (h & m & Eh & Q). destruct I' as (h' & m' & Eh' & Q').
  destruct (C114_headers B BL F fine HF shake S P n ops p p0 mdraw mk l l' (Some m) (Some m') random random' s s' nonce nonce' h h')
    as (R1 & R2 & R3); try assumption; [congruence|].
  split; [exact R1|]. split; [exact R2|]. apply R3. discriminate.
Qed.

Theorem C114_c_blocks key key' u u' number number' data data' nonce nonce' o o1 o' o1' :
  shows_nonce S -> length nonce = nonce_length S -> length nonce' = nonce_length S ->
  i32_range number -> i32_range number' -> good_out o -> good_out o' ->
  encrypt_block key u number data nonce [o] = Go Datatypes.tt [o1] -> encrypt_block key' u' number' data' nonce' [o'] = Go Datatypes.tt [o1'] ->
  read_out o1 = read_out o1' -> nonce = nonce'.
Proof using HP.
  intros SN Ln Ln' Hi Hi' G G' H H' E.
  destruct (encrypt_block_inv P HP32 S key u number data nonce o o1 G Hi H) as (k & m & i & _ & _ & Lk & _ & _ & _ & Q).
  destruct (encrypt_block_inv P HP32 S key' u' number' data' nonce' o' o1' G' Hi' H') as (k' & m' & i' & _ & _ & Lk' & _ & _ & _ & Q').
  rewrite E in Q. exact (C114_blocks S _ _ k k' _ _ _ _ nonce nonce' m m' _ SN Lk Lk' Ln Ln' Q Q').
Qed.

Theorem C114_c_master_keys pol p (d d' : nat -> K) o o1 o' o1' :
  policy_from pol = Ok p -> 1 <= max_attribute_creations p -> good_out o -> good_out o' ->
  master_keys (Some pol) d [o] = Go Datatypes.tt [o1] -> master_keys (Some pol) d' [o'] = Go Datatypes.tt [o1'] ->
  (forall mk, eng_master_key p d = Ok mk \/ eng_master_key p d' = Ok mk -> fine (pub_y (pub_key mk))) ->
  read_out o1 = read_out o1' -> forall i, (i <= N.to_nat (max_attribute_creations p))%nat -> d i = d' i.
Proof using BL HP HF.
  intros Ep Hn G G' H H' Hf E.
  assert (M : forall e o o1, master_keys (Some pol) e [o] = Go Datatypes.tt [o1] -> exists mk, eng_master_key p e = Ok mk).
  { clear - Ep. intros e o o1 E. step E. step E. step E. step E. apply null_go in E1 as [Q _]. apply unwrap_go in E2 as [Ep2 _].
    apply unwrap_go in E3 as [Ep' _]. exists a2. congruence. }
  destruct (M _ _ _ H) as (mk & Emk). destruct (M _ _ _ H') as (mk' & Emk').
  destruct (C56_master_keys_split B P HP32 F policy_from fine HF BL pol p d mk o o1 HP Ep Hn Emk (Hf _ (or_introl Emk)) G H) as [D _].
  destruct (C56_master_keys_split B P HP32 F policy_from fine HF BL pol p d' mk' o' o1' HP Ep Hn Emk' (Hf _ (or_intror Emk')) G' H') as [D' _].
  rewrite <- E in D'. apply (proj1 (C114_master_keys B BL p p d d' mk mk' eq_refl Emk Emk')). left. congruence.
Qed.

Theorem C114_c_user_keys p0 (mdraw : nat -> K) mk it priv access ap pol p (d d' : nat -> K) o o1 o' o1' :
  max_attribute_creations p0 < 4294967296 -> eng_master_key p0 mdraw = Ok mk -> priv_dec F P priv = Ok (priv_key mk) ->
  access_from access = Ok ap -> policy_from pol = Ok p -> good_out o -> good_out o' ->
  user_private_key it (Some priv) (Some access) (Some pol) d [o] = Go Datatypes.tt [o1] ->
  user_private_key it (Some priv) (Some access) (Some pol) d' [o'] = Go Datatypes.tt [o1'] ->
  read_out o1 = read_out o1' <-> (forall i, (i < conjunctions ap)%nat -> d i = d' i).
Proof using BL HP HF.
  intros Hn Hmk Dp Ea Ep G G' H H'.
  assert (I : forall e o o1, good_out o -> user_private_key it (Some priv) (Some access) (Some pol) e [o] = Go Datatypes.tt [o1] ->
            exists uk, eng_user_key P it p (priv_key mk) ap e = Ok uk /\ user_enc F P uk = Ok (read_out o1) /\ user_dec F P (read_out o1) = Ok uk).
  { clear - Hn Hmk Dp Ea Ep HP BL HF HP32. intros e o o1 G E. step E. step E. step E. step E. step E. step E. step E. step E. step E.
    apply check_go in E0 as [-> _]. apply input_go_inv in E1 as (Q1 & _ & ->). apply null_go in E2 as [Q2 ->]. apply null_go in E3 as [Q3 ->].
    apply unwrap_go in E4 as [Q4 ->]. apply unwrap_go in E5 as [Q5 ->]. apply unwrap_go in E6 as [Q6 ->]. apply unwrap_go in E7 as [Q7 ->].
    apply unwrap_go in E8 as [Q8 ->].
    assert (a0 = priv) by congruence. subst a0. assert (a3 = priv_key mk) by congruence. subst a3.
    assert (a1 = access) by congruence. subst a1. assert (a4 = ap) by congruence. subst a4. assert (a2 = pol) by congruence. subst a2.
    assert (a5 = p) by congruence. subst a5.
    apply (deliver_go P HP32 0 a7 [o] Datatypes.tt [o1] o eq_refl G) in E as (o' & Eo & D & L). cbn [set_out] in Eo. assert (o1 = o') by congruence. subst o'.
    rewrite (delivered_read _ _ _ D). exists a6. split; [exact Q7|]. split; [exact Q8|].
    unfold eng_master_key in Hmk. destruct (generate_master_key_inv B BL _ _ _ Hmk) as (t & y & -> & Ht & Hnz).
    unfold eng_user_key in Q7. rewrite policy_to_msp_formula in Q7. apply bind_ok in Q7 as (m & Q & Ek).
    apply bind_ok in Q as (f & Ef & Q). apply (user_key_reads_back B P HP32 F fine HF BL t y f a6 a7 HP); try assumption.
    - lia.
    - apply ob_gen with m e; assumption. }
  destruct (I _ _ _ G H) as (uk & Eu & En & De). destruct (I _ _ _ G' H') as (uk' & Eu' & En' & De').
  rewrite <- (C114_user_keys B BL P p0 p mdraw mk it ap d d' uk uk' Hmk Eu Eu'). split; intros Q; [rewrite Q in De|rewrite Q in En]; congruence.
Qed.
End C.

(** ** The Python interface *)
Section Py.
Variable B : BilinearMap.
Hypothesis BL : BilinearLaws B.
Local Notation K := (bm_K B).
Variable P : platform.
Hypothesis HP : 64 <= usize_bits P.
Variable F : byte_forms B.
Variable fine : Gt B -> Prop.
Hypothesis HF : forms_ok F fine.
Variable shake : list byte -> nat -> list byte.
Variable S : sym_scheme.
Variable policy_from : list byte -> outcome policy.
Variable attributes_from : list byte -> outcome (list attribute).
Variable metadata_from : list byte -> outcome metadata.
Variable access_parse : string -> outcome access_policy.
Local Notation generate_master_keys := (py_generate_master_keys F policy_from).
Local Notation generate_user_private_key := (py_generate_user_private_key P F policy_from access_parse).
Local Notation generate_delegated_key := (py_generate_delegated_key P F policy_from access_parse).
Local Notation encrypt_header := (py_encrypt_hybrid_header P F shake S policy_from attributes_from metadata_from).
Local Notation py_enc := (py_encrypt P F shake S policy_from attributes_from metadata_from).

Lemma py_header_made meta pol attrs pk random (s : K) nonce key header p l k :
  policy_from pol = Ok p -> attributes_from attrs = Ok l -> pub_dec F P pk = Ok k ->
  encrypt_header meta pol attrs pk random s nonce = Ok (key, header) ->
  exists h m, encrypt_hybrid_header S F shake P p k l (Some m) random s nonce = Ok h /\ key = eh_key h /\ header = eh_bytes h.
Proof using Type.
  intros Ep El Ek E. assert (exists m, metadata_from meta = Ok m) as (m & Em).
  { unfold py_encrypt_hybrid_header in E. apply bind_ok in E as (m & Em & _). eauto. }
  destruct (header_inv B P F shake S policy_from attributes_from metadata_from _ _ _ _ _ _ _ _ _ _ _ _ _ Em Ep El Ek E) as (h & Eh & Q). exists h, m. tauto.
Qed.

Theorem C114_py_headers n ops p p0 (mdraw : nat -> K) mk meta meta' pol pk attrs attrs' l l' random random' (s s' : K) nonce nonce' key key' header :
  n < 4294967296 -> run_ops ops (new_policy n) = Ok p -> max_attribute_creations p0 = n -> eng_master_key p0 mdraw = Ok mk ->
  policy_from pol = Ok p -> pub_dec F P pk = Ok (pub_key mk) ->
  attributes_from attrs = Ok l -> attributes_from attrs' = Ok l' -> l <> [] -> l' <> [] ->
  length nonce = nonce_length S -> length nonce' = nonce_length S ->
  encrypt_header meta pol attrs pk random s nonce = Ok (key, header) ->
  encrypt_header meta' pol attrs' pk random' s' nonce' = Ok (key', header) ->
  (forall ct, eng_encrypt P p (pub_key mk) l random s = Ok ct -> fine (e_prime ct)) ->
  (forall ct, eng_encrypt P p (pub_key mk) l' random' s' = Ok ct -> fine (e_prime ct)) ->
  random = random' /\ s = s' /\ nonce = nonce'.
Proof using BL HF.
  clear HP. intros Hn Hp Hm0 Hmk Ep Ek El El' Hl Hl' Ln Ln' H H' Hf Hf'.
  destruct (py_header_made _ _ _ _ _ _ _ _ _ _ _ _ Ep El Ek H) as (h & m & Eh & _ & Q).
  destruct (py_header_made _ _ _ _ _ _ _ _ _ _ _ _ Ep El' Ek H') as (h' & m' & Eh' & _ & Q').
  destruct (C114_headers B BL F fine HF shake S P n ops p p0 mdraw mk l l' (Some m) (Some m') random random' s s' nonce nonce' h h')
    as (R1 & R2 & R3); try assumption; [congruence|].
  split; [exact R1|]. split; [exact R2|]. apply R3. discriminate.
Qed.

Theorem C114_py_blocks key key' u u' number number' m m' nonce nonce' c :
  shows_nonce S -> length nonce = nonce_length S -> length nonce' = nonce_length S ->
  py_encrypt_hybrid_block S key u number m nonce = Ok c -> py_encrypt_hybrid_block S key' u' number' m' nonce' = Ok c -> nonce = nonce'.
Proof using Type.
  clear HP HF. intros SN Ln Ln' H H'. unfold py_encrypt_hybrid_block in H, H'. apply bind_ok in H as (k & Ek & H). apply bind_ok in H' as (k' & Ek' & H').
  apply array_from_inv in Ek as [-> Lk]. apply array_from_inv in Ek' as [-> Lk']. exact (C114_blocks S _ _ key key' _ _ _ _ nonce nonce' m m' c SN Lk Lk' Ln Ln' H H').
Qed.

(** Whole messages: the nonce of the metadata and that of the block are both drawn. *)
Theorem C114_py_messages n ops p p0 (mdraw : nat -> K) mk meta meta' pol pk attrs attrs' l l' m m' random random' (s s' : K) nonce1 nonce1' nonce2 nonce2' e :
  n < 4294967296 -> run_ops ops (new_policy n) = Ok p -> max_attribute_creations p0 = n -> eng_master_key p0 mdraw = Ok mk ->
  policy_from pol = Ok p -> pub_dec F P pk = Ok (pub_key mk) ->
  attributes_from attrs = Ok l -> attributes_from attrs' = Ok l' -> l <> [] -> l' <> [] -> shows_nonce S ->
  length nonce1 = nonce_length S -> length nonce1' = nonce_length S -> length nonce2 = nonce_length S -> length nonce2' = nonce_length S ->
  py_enc meta pol attrs pk m random s nonce1 nonce2 = Ok e -> py_enc meta' pol attrs' pk m' random' s' nonce1' nonce2' = Ok e ->
  blen e < 4294967296 ->
  (forall ct, eng_encrypt P p (pub_key mk) l random s = Ok ct -> fine (e_prime ct)) ->
  (forall ct, eng_encrypt P p (pub_key mk) l' random' s' = Ok ct -> fine (e_prime ct)) ->
  random = random' /\ s = s' /\ nonce1 = nonce1' /\ nonce2 = nonce2'.
Proof using BL HF.
  clear HP. intros Hn Hp Hm0 Hmk Ep Ek El El' Hl Hl' SN L1 L1' L2 L2' H H' He Hf Hf'. unfold py_encrypt in H, H'.
  apply bind_ok in H as (md & _ & H). apply bind_ok in H as ([key header] & Eh & H). apply bind_ok in H as (c & Ec & H). apply Ok_inj in H.
  apply bind_ok in H' as (md' & _ & H'). apply bind_ok in H' as ([key' header'] & Eh' & H'). apply bind_ok in H' as (c' & Ec' & H'). apply Ok_inj in H'.
  assert (Lh : blen header < 4294967296) by (subst e; rewrite !blen_app in He; lia).
  assert (Lh' : blen header' < 4294967296) by (rewrite <- H' in He; rewrite !blen_app in He; lia).
  rewrite <- H in H'. unfold u32_modulus in H'. rewrite !N.mod_small in H' by assumption.
  apply app_inj_len in H' as [Q1 Q2]; [|reflexivity]. apply be32_inj in Q1; [|exact Lh'|exact Lh].
  apply app_inj_len in Q2 as [Q2 Q3]; [|unfold blen in Q1; lia]. subst header' c'.
  destruct (C114_py_headers n ops p p0 mdraw mk meta meta' pol pk attrs attrs' l l' random random' s s' nonce1 nonce1' key key' header) as (R1 & R2 & R3); try assumption.
  split; [exact R1|]. split; [exact R2|]. split; [exact R3|].
  exact (C114_py_blocks _ _ _ _ _ _ _ _ _ _ _ SN L2 L2' Ec Ec').
Qed.

Theorem C114_py_master_keys pol p (d d' : nat -> K) priv pub del priv' pub' del' :
  policy_from pol = Ok p -> 1 <= max_attribute_creations p < 4294967295 ->
  generate_master_keys pol d = Ok (priv, pub, del) -> generate_master_keys pol d' = Ok (priv', pub', del') ->
  (forall mk, eng_master_key p d = Ok mk \/ eng_master_key p d' = Ok mk -> fine (pub_y (pub_key mk))) ->
  (priv = priv' \/ pub = pub' -> forall i, (i <= N.to_nat (max_attribute_creations p))%nat -> d i = d' i) /\
  (del = del' -> forall i, (i < N.to_nat (max_attribute_creations p))%nat -> d i = d' i).
Proof using BL HP HF.
  intros Ep Hn H H' Hf.
  destruct (py_master_keys B BL P HP F fine HF policy_from _ p pol d priv pub del Ep eq_refl Hn H ltac:(auto)) as (mk & Emk & D1 & D2 & D3).
  destruct (py_master_keys B BL P HP F fine HF policy_from _ p pol d' priv' pub' del' Ep eq_refl Hn H' ltac:(auto)) as (mk' & Emk' & D1' & D2' & D3').
  destruct (C114_master_keys B BL p p d d' mk mk' eq_refl Emk Emk') as [R1 R2].
  split; [intros [Q|Q]; subst; apply R1; [left|right]; congruence|intros Q; subst; apply R2; congruence].
Qed.

Lemma py_reads_back p0 (mdraw : nat -> K) mk p ap uk b : max_attribute_creations p0 < 4294967296 -> eng_master_key p0 mdraw = Ok mk ->
  user_key P mk p ap uk -> user_enc F P uk = Ok b -> blen b < 2147483648 -> user_dec F P b = Ok uk.
Proof using BL HP HF.
  intros Hn Hmk Hk Eb Lb. destruct (user_key_derived B P mk p ap uk Hk) as (it & f & _ & _ & Hd). apply (derived_obtained B) in Hd.
  unfold eng_master_key in Hmk. destruct (generate_master_key_inv B BL _ _ _ Hmk) as (t & y & -> & Ht & Hnz).
  apply (user_key_reads_back B P ltac:(lia) F fine HF BL t y f uk b HP); try assumption. lia.
Qed.

Theorem C114_py_user_keys p0 (mdraw : nat -> K) mk it priv access ap pol p (d d' : nat -> K) b b' :
  iteration_ok it -> max_attribute_creations p0 < 4294967296 -> eng_master_key p0 mdraw = Ok mk -> priv_dec F P priv = Ok (priv_key mk) ->
  access_parse access = Ok ap -> policy_from pol = Ok p ->
  generate_user_private_key it priv access pol d = Ok b -> generate_user_private_key it priv access pol d' = Ok b' -> blen b < 2147483648 ->
  b = b' <-> (forall i, (i < conjunctions ap)%nat -> d i = d' i).
Proof using BL HP HF.
  intros Hit Hn Hmk Dp Ea Ep H H' Lb. unfold py_generate_user_private_key in H, H'. rewrite Dp, Ep, Ea in H, H'. cbn [bind] in H, H'.
  apply bind_ok in H as (uk & Eu & H). apply bind_ok in H' as (uk' & Eu' & H').
  rewrite <- (C114_user_keys B BL P p0 p mdraw mk it ap d d' uk uk' Hmk Eu Eu'). split; intros Q; [subst b'|congruence].
  assert (D : user_dec F P b = Ok uk) by (apply (py_reads_back p0 mdraw mk p ap uk b Hn Hmk); [apply uk_gen with it d; assumption|exact H|exact Lb]).
  assert (D' : user_dec F P b = Ok uk') by (apply (py_reads_back p0 mdraw mk p ap uk' b Hn Hmk); [apply uk_gen with it d'; assumption|exact H'|exact Lb]).
  congruence.
Qed.

(** Delegated keys: the draws are those of the key that is made, which has the
    access policy of the source if All was asked for. *)
Theorem C114_py_delegated_keys p0 (mdraw : nat -> K) mk it del source access ap ap' pol p uk0 (d d' : nat -> K) b b' :
  iteration_ok it -> max_attribute_creations p0 < 4294967296 -> eng_master_key p0 mdraw = Ok mk -> del_dec F P del = Ok (del_key mk) ->
  access_parse access = Ok ap' -> policy_from pol = Ok p -> user_key P mk p ap uk0 -> user_dec F P source = Ok uk0 ->
  ap' = AAll \/ narrower ap' ap ->
  generate_delegated_key it del source access pol d = Ok b -> generate_delegated_key it del source access pol d' = Ok b' -> blen b < 2147483648 ->
  b = b' <-> (forall i, (i < conjunctions (match ap' with AAll => ap | _ => ap' end))%nat -> d i = d' i).
Proof using BL HP HF.
  intros Hit Hn Hmk Dd Ea Ep Hk Ds Hna H H' Lb. unfold py_generate_delegated_key in H, H'. rewrite Dd, Ds, Ea, Ep in H, H'. cbn [bind] in H, H'.
  apply bind_ok in H as (uk & Eu & H). apply bind_ok in H' as (uk' & Eu' & H').
  assert (E : b = b' <-> uk = uk').
  { assert (U : forall e v, eng_delegate P it p (del_key mk) uk0 ap' e = Ok v -> exists ap1, user_key P mk p ap1 v).
    { intros e v Ev. destruct (match ap' as a return {a = AAll} + {a <> AAll} with AAll => left eq_refl | _ => ltac:(right; discriminate) end) as [Q|Q].
      - subst ap'. exists ap. apply uk_refresh with it uk0 e; assumption.
      - destruct Hna as [Hna|Hna]; [contradiction|]. exists ap'. apply uk_delegate with it ap uk0 e; assumption. }
    destruct (U _ _ Eu) as (a1 & K1). destruct (U _ _ Eu') as (a2 & K2). split; intros Q; [subst b'|congruence].
    pose proof (py_reads_back p0 mdraw mk p a1 uk b Hn Hmk K1 H Lb). pose proof (py_reads_back p0 mdraw mk p a2 uk' b Hn Hmk K2 H' Lb). congruence. }
  rewrite E. destruct ap'; try (destruct Hna as [Hna|Hna]; [discriminate|];
    eapply (C114_delegated_keys B BL P p0 p mdraw mk it ap); try eassumption; discriminate).
  exact (C114_refreshed_keys B BL P p0 p mdraw mk it it ap uk0 d d' uk uk' Hmk Hk Eu Eu').
Qed.
End Py.

(** ** The WebAssembly interface *)
Section W.
Variable B : BilinearMap.
Hypothesis BL : BilinearLaws B.
Local Notation K := (bm_K B).
Variable P : platform.
Hypothesis HP : 32 <= usize_bits P.
Variable F : byte_forms B.
Variable fine : Gt B -> Prop.
Hypothesis HF : forms_ok F fine.
Variable shake : list byte -> nat -> list byte.
Variable S : sym_scheme.
Variable policy_from : list byte -> outcome policy.
Variable access_parse : string -> outcome access_policy.
Variable attributes_parse : string -> outcome (list attribute).
Local Notation generate_master_keys := (w_generate_master_keys F policy_from).
Local Notation generate_user_private_key := (w_generate_user_private_key P F policy_from access_parse).
Local Notation encrypt_header := (w_encrypt_hybrid_header P F shake S policy_from attributes_parse).
Local Notation header_cached := (w_header P F shake S attributes_parse).

(** [header_cached] is what the call with a cache does with the policy and the key of the cache. *)
Theorem C114_w_headers n ops p p0 (mdraw : nat -> K) mk pol pk attrs attrs' l l' u u' random random' (s s' : K) nonce nonce' e :
  n < 4294967296 -> run_ops ops (new_policy n) = Ok p -> max_attribute_creations p0 = n -> eng_master_key p0 mdraw = Ok mk ->
  policy_from pol = Ok p -> pub_dec F P pk = Ok (pub_key mk) ->
  attributes_parse attrs = Ok l -> attributes_parse attrs' = Ok l' -> l <> [] -> l' <> [] ->
  length nonce = nonce_length S -> length nonce' = nonce_length S ->
  encrypt_header pol pk attrs u random s nonce = Ok e \/ header_cached p (pub_key mk) attrs u random s nonce = Ok e ->
  encrypt_header pol pk attrs' u' random' s' nonce' = Ok e \/ header_cached p (pub_key mk) attrs' u' random' s' nonce' = Ok e ->
  (forall ct, eng_encrypt P p (pub_key mk) l random s = Ok ct -> fine (e_prime ct)) ->
  (forall ct, eng_encrypt P p (pub_key mk) l' random' s' = Ok ct -> fine (e_prime ct)) ->
  random = random' /\ s = s' /\ nonce = nonce'.
Proof using BL HF.
  clear HP. intros Hn Hp Hm0 Hmk Ep Ek El El' Hl Hl' Ln Ln' H H' Hf Hf'.
  assert (I : forall at0 u0 r0 s0 n0 l0, attributes_parse at0 = Ok l0 ->
      encrypt_header pol pk at0 u0 r0 s0 n0 = Ok e \/ header_cached p (pub_key mk) at0 u0 r0 s0 n0 = Ok e ->
      exists h m, encrypt_hybrid_header S F shake P p (pub_key mk) l0 (Some m) r0 s0 n0 = Ok h /\ length (eh_key h) = key_length S /\
        e = be32 (N.of_nat (key_length S)) ++ eh_key h ++ eh_bytes h).
  { clear - Ep Ek. intros at0 u0 r0 s0 n0 l0 Ea H. assert (Q : header_cached p (pub_key mk) at0 u0 r0 s0 n0 = Ok e).
    { destruct H as [H|H]; [|exact H]. unfold w_encrypt_hybrid_header in H. destruct (is_empty pol); [discriminate|]. destruct (is_empty pk); [discriminate|].
      destruct (is_empty u0); [discriminate|]. destruct (String.eqb at0 ""); [discriminate|]. rewrite Ep in H. cbn [bind] in H. rewrite Ek in H. exact H. }
    clear H. unfold w_header in Q. rewrite Ea in Q. cbn [bind] in Q. apply bind_ok in Q as (h & Eh & Q). unfold eh_enc in Q. apply Ok_inj in Q.
    destruct (header_layout B F shake S P p _ l0 _ r0 s0 n0 h Eh) as (sk & tail & _ & Lh & _). eexists h, _. split; [exact Eh|]. split; [exact Lh|]. congruence. }
  destruct (I _ _ _ _ _ _ El H) as (h & m & Eh & Lh & Q). destruct (I _ _ _ _ _ _ El' H') as (h' & m' & Eh' & Lh' & Q').
  rewrite Q in Q'. apply app_inv_head in Q'. apply app_inj_len in Q' as [_ Q']; [|congruence].
  destruct (C114_headers B BL F fine HF shake S P n ops p p0 mdraw mk l l' (Some m) (Some m') random random' s s' nonce nonce' h h')
    as (R1 & R2 & R3); try assumption.
  split; [exact R1|]. split; [exact R2|]. apply R3. discriminate.
Qed.

Theorem C114_w_blocks key key' u u' number number' m m' nonce nonce' c :
  shows_nonce S -> length nonce = nonce_length S -> length nonce' = nonce_length S ->
  w_encrypt_hybrid_block S key u number m nonce = Ok c -> w_encrypt_hybrid_block S key' u' number' m' nonce' = Ok c -> nonce = nonce'.
Proof using Type.
  clear HP HF. intros SN Ln Ln' H H'. unfold w_encrypt_hybrid_block in H, H'. destruct (negb _); [discriminate|]. destruct (is_empty m); [discriminate|].
  destruct (negb _); [discriminate|]. destruct (is_empty m'); [discriminate|]. apply bind_ok in H as (k & Ek & H). apply bind_ok in H' as (k' & Ek' & H').
  apply array_from_inv in Ek as [-> Lk]. apply array_from_inv in Ek' as [-> Lk']. exact (C114_blocks S _ _ key key' _ _ _ _ nonce nonce' m m' c SN Lk Lk' Ln Ln' H H').
Qed.

Theorem C114_w_master_keys pol p (d d' : nat -> K) keys :
  policy_from pol = Ok p -> 1 <= max_attribute_creations p < 524288 ->
  generate_master_keys pol d = Ok keys -> generate_master_keys pol d' = Ok keys ->
  (forall mk, eng_master_key p d = Ok mk \/ eng_master_key p d' = Ok mk -> fine (pub_y (pub_key mk))) ->
  forall i, (i <= N.to_nat (max_attribute_creations p))%nat -> d i = d' i.
Proof using BL HP HF.
  intros Ep Hn H H' Hf.
  destruct (C78_master_keys B BL P HP F fine HF policy_from _ p pol d keys Ep eq_refl Hn H ltac:(auto)) as (mk & Emk & D & _).
  destruct (C78_master_keys B BL P HP F fine HF policy_from _ p pol d' keys Ep eq_refl Hn H' ltac:(auto)) as (mk' & Emk' & D' & _).
  apply (proj1 (C114_master_keys B BL p p d d' mk mk' eq_refl Emk Emk')). left. congruence.
Qed.

Theorem C114_w_user_keys p0 (mdraw : nat -> K) mk it priv access ap pol p (d d' : nat -> K) b b' :
  iteration_ok it -> max_attribute_creations p0 < 524288 -> eng_master_key p0 mdraw = Ok mk -> priv_dec F P priv = Ok (priv_key mk) ->
  access_parse access = Ok ap -> policy_from pol = Ok p ->
  generate_user_private_key it priv access pol d = Ok b -> generate_user_private_key it priv access pol d' = Ok b' -> blen b < 50000000 ->
  b = b' <-> (forall i, (i < conjunctions ap)%nat -> d i = d' i).
Proof using BL HP HF.
  intros Hit Hn Hmk Dp Ea Ep H H' Lb.
  assert (I : forall e c, generate_user_private_key it priv access pol e = Ok c -> exists uk, eng_user_key P it p (priv_key mk) ap e = Ok uk /\ user_enc F P uk = Ok c).
  { intros e c Q. unfold w_generate_user_private_key in Q. rewrite Dp, Ep, Ea in Q. cbn [bind] in Q. apply bind_ok in Q as (uk & Q1 & Q2). eauto. }
  destruct (I _ _ H) as (uk & Eu & En). destruct (I _ _ H') as (uk' & Eu' & En').
  rewrite <- (C114_user_keys B BL P p0 p mdraw mk it ap d d' uk uk' Hmk Eu Eu'). split; intros Q; [subst b'|congruence].
  assert (R : forall e v, eng_user_key P it p (priv_key mk) ap e = Ok v -> user_enc F P v = Ok b -> user_dec F P b = Ok v).
  { intros e v Ev Eb. apply (w_reads_back B BL P HP F fine HF _ p0 mdraw mk p ap v b eq_refl Hn Hmk); [apply uk_gen with it e; assumption|exact Eb|exact Lb]. }
  pose proof (R _ _ Eu En). pose proof (R _ _ Eu' En'). congruence.
Qed.
End W.

(** ** Examples *)
Local Ltac vmr x := vm_cast_no_check (eq_refl x).
Definition same_bytes (a b : list byte) : bool := if list_eq_dec Byte.byte_eq_dec a b then true else false.

Lemma toy_shows_nonce : shows_nonce toy_sym.
Proof.
  intros k u i n m c _ Ln E. cbn [block_encrypt toy_sym] in E. unfold toy_encrypt in E. cbn [bind] in E. apply Ok_inj in E. subst c.
  cbn [nonce_length toy_sym] in *. rewrite <- Ln, firstn_app, firstn_all, Nat.sub_diag. apply app_nil_r.
Qed.

(** another value for draw [j] *)
Definition other_draw (j : nat) (i : nat) : bm_K toy := if Nat.eqb i j then f101 99 else ex_kdraw i.
Definition c114_key (d : nat -> bm_K toy) : list byte :=
  bytes_of (py_generate_user_private_key pf toy_forms py_policy py_access it_rev (fst (fst py_masters)) "a" [x01] d).
Definition c114_message (random : Gt toy) (s : bm_K toy) (nonce nonce' : list byte) : list byte :=
  bytes_of (py_encrypt pf toy_forms toy_shake toy_sym py_policy py_attrs py_meta [x01] [x01] [x01] (snd (fst py_masters)) [x0c; x0d; x0e] random s nonce nonce').

(** The access policy has one conjunction: the first draw is seen, the second is not. *)
Example C114_keys_example :
  conjunctions ex_ap = 1%nat /\ is_empty (c114_key ex_kdraw) = false /\
  same_bytes (c114_key ex_kdraw) (c114_key (other_draw 0)) = false /\
  same_bytes (c114_key ex_kdraw) (c114_key (other_draw 1)) = true.
Proof. split; [reflexivity|]. split; [vmr false|]. split; [vmr false|]. vmr true. Qed.

(** Each of the four draws of a message is seen. *)
Example C114_messages_example :
  shows_nonce toy_sym /\ is_empty (c114_message ex_msg ex_s ex_nonce ex_nonce) = false /\
  same_bytes (c114_message ex_msg ex_s ex_nonce ex_nonce) (c114_message (f101 78) ex_s ex_nonce ex_nonce) = false /\
  same_bytes (c114_message ex_msg ex_s ex_nonce ex_nonce) (c114_message ex_msg (f101 36) ex_nonce ex_nonce) = false /\
  same_bytes (c114_message ex_msg ex_s ex_nonce ex_nonce) (c114_message ex_msg ex_s (repeat x08 12) ex_nonce) = false /\
  same_bytes (c114_message ex_msg ex_s ex_nonce ex_nonce) (c114_message ex_msg ex_s ex_nonce (repeat x08 12)) = false.
Proof.
  split; [exact toy_shows_nonce|]. split; [vmr false|]. split; [vmr false|]. split; [vmr false|]. split; vmr false.
Qed.

(** A header delivered to a C caller: good buffers, the call succeeds, another scalar gives another header. *)
Definition c114_header (s : bm_K toy) :=
  h_aes_encrypt_header pf toy_forms toy_shake toy_sym c_policy c_attrs (Some [x01]) (Some (snd c_keys)) (Some [x01]) (Some [x01; x02; x03]) (Some [x0a; x0b])
    ex_msg s ex_nonce [room_for 40; room_for 1000].
Example C114_c_example :
  code (c114_header ex_s) = Some 0%Z /\ code (c114_header (f101 36)) = Some 0%Z /\
  same_bytes (read_out (out_n 1 (c114_header ex_s))) (read_out (out_n 1 (c114_header (f101 36)))) = false.
Proof. split; [vmr (Some 0%Z)|]. split; [vmr (Some 0%Z)|]. vmr false. Qed.

(** ** Every function that draws, with one draw changed at a time *)
(** [x] and the elements of [l] are not empty, and none of [l] is [x] *)
Definition differs (x : list byte) (l : list (list byte)) : bool :=
  negb (is_empty x) && forallb (fun y => negb (is_empty y) && negb (same_bytes x y)) l.
Definition good_bytes {A} (i : nat) (r : result A) : list byte := match code r with Some 0%Z => read_out (out_n i r) | _ => [] end.
Definition other_master (j : nat) (i : nat) : bm_K toy := if Nat.eqb i j then f101 99 else ex_draw i.
Definition size_a : nat := N.to_nat (max_attribute_creations pol_a).

Definition c114_c_header random s nonce := good_bytes 1
  (h_aes_encrypt_header pf toy_forms toy_shake toy_sym c_policy c_attrs (Some [x01]) (Some (snd c_keys)) (Some [x01]) (Some [x01; x02; x03]) (Some [x0a; x0b])
    random s nonce [room_for 40; room_for 1000]).
Definition c114_cache (_ : Z) : option (policy * master_public_key toy) :=
  match pub_dec toy_forms pf (snd c_keys) with Ok k => Some (pol_a, k) | _ => None end.
Definition c114_c_cached random s nonce := good_bytes 1
  (h_aes_encrypt_header_using_cache pf toy_forms toy_shake toy_sym c_attrs c114_cache 0%Z (Some [x01]) (Some [x01; x02; x03]) (Some [x0a; x0b])
    random s nonce [room_for 40; room_for 1000]).
Definition c114_c_block nonce := good_bytes 0
  (h_aes_encrypt_block pf toy_sym (Some (repeat x05 32)) (Some [x01]) 3%Z (Some [x0a; x0b]) nonce [room_for 1000]).
Definition c114_c_masters d := good_bytes 0 (h_generate_master_keys pf toy_forms c_policy (Some [x01]) d [room_for 3000]).
Definition c114_c_user d := good_bytes 0
  (h_generate_user_private_key pf toy_forms c_policy c_access it_rev (Some (fst c_keys)) (Some [x01]) (Some [x01]) d [room_for 3000]).
Example C114_c_functions_example :
  differs (c114_c_header ex_msg ex_s ex_nonce)
    [c114_c_header (f101 78) ex_s ex_nonce; c114_c_header ex_msg (f101 36) ex_nonce; c114_c_header ex_msg ex_s (repeat x08 12)] = true /\
  differs (c114_c_cached ex_msg ex_s ex_nonce)
    [c114_c_cached (f101 78) ex_s ex_nonce; c114_c_cached ex_msg (f101 36) ex_nonce; c114_c_cached ex_msg ex_s (repeat x08 12)] = true /\
  differs (c114_c_block ex_nonce) [c114_c_block (repeat x08 12)] = true /\
  differs (c114_c_masters ex_draw) [c114_c_masters (other_master 0); c114_c_masters (other_master size_a)] = true /\
  differs (c114_c_user ex_kdraw) [c114_c_user (other_draw 0)] = true.
Proof. split; [vmr true|]. split; [vmr true|]. split; [vmr true|]. split; vmr true. Qed.

Definition c114_py_header random s nonce := snd (run ([], [])
  (py_encrypt_hybrid_header pf toy_forms toy_shake toy_sym py_policy py_attrs py_meta [x01] [x01] [x01] (snd (fst py_masters)) random s nonce)).
Definition c114_py_block nonce := bytes_of (py_encrypt_hybrid_block toy_sym (repeat x05 32) [x01] 3 [x0a; x0b] nonce).
Definition c114_py_masters d := fst (fst (run ([], [], []) (py_generate_master_keys toy_forms py_policy [x01] d))).
Definition c114_py_delegated d := bytes_of
  (py_generate_delegated_key pf toy_forms py_policy py_access it_rev (snd py_masters) (py_user [x01]) "b" [x01] d).
Example C114_py_functions_example :
  differs (c114_py_header ex_msg ex_s ex_nonce)
    [c114_py_header (f101 78) ex_s ex_nonce; c114_py_header ex_msg (f101 36) ex_nonce; c114_py_header ex_msg ex_s (repeat x08 12)] = true /\
  differs (c114_py_block ex_nonce) [c114_py_block (repeat x08 12)] = true /\
  differs (c114_py_masters ex_draw) [c114_py_masters (other_master 0); c114_py_masters (other_master size_a)] = true /\
  differs (c114_key ex_kdraw) [c114_key (other_draw 0)] = true /\
  (0 < conjunctions ex_ap')%nat /\
  differs (c114_py_delegated ex_kdraw) [c114_py_delegated (other_draw 0)] = true.
Proof. split; [vmr true|]. split; [vmr true|]. split; [vmr true|]. split; [vmr true|]. split; [cbn; lia|]. vmr true. Qed.

Definition c114_w_header random s nonce := bytes_of
  (w_encrypt_hybrid_header release32 toy_forms toy_shake toy_sym py_policy w_attrs [x01] (snd (cut w_masters)) "hr" [x07] random s nonce).
Definition c114_w_block nonce := bytes_of (w_encrypt_hybrid_block toy_sym (repeat x05 32) (Some [x01]) (Some 3) [x0a; x0b] nonce).
Definition c114_w_masters d := bytes_of (w_generate_master_keys toy_forms py_policy [x01] d).
Definition c114_w_user d := bytes_of
  (w_generate_user_private_key release32 toy_forms py_policy py_access it_rev (fst (cut w_masters)) "a" [x01] d).
Example C114_w_functions_example :
  differs (c114_w_header ex_msg ex_s ex_nonce)
    [c114_w_header (f101 78) ex_s ex_nonce; c114_w_header ex_msg (f101 36) ex_nonce; c114_w_header ex_msg ex_s (repeat x08 12)] = true /\
  differs (c114_w_block ex_nonce) [c114_w_block (repeat x08 12)] = true /\
  differs (c114_w_masters ex_draw) [c114_w_masters (other_master 0); c114_w_masters (other_master size_a)] = true /\
  differs (c114_w_user ex_kdraw) [c114_w_user (other_draw 0)] = true.
Proof. split; [vmr true|]. split; [vmr true|]. split; vmr true. Qed.

Print Assumptions C114_master_keys.
Print Assumptions C114_user_keys.
Print Assumptions C114_refreshed_keys.
Print Assumptions C114_delegated_keys.
Print Assumptions C114_headers.
Print Assumptions C114_blocks.
Print Assumptions C114_c_headers.
Print Assumptions C114_c_blocks.
Print Assumptions C114_c_master_keys.
Print Assumptions C114_c_user_keys.
Print Assumptions C114_py_headers.
Print Assumptions C114_py_blocks.
Print Assumptions C114_py_messages.
Print Assumptions C114_py_master_keys.
Print Assumptions C114_py_user_keys.
Print Assumptions C114_py_delegated_keys.
Print Assumptions C114_w_headers.
Print Assumptions C114_w_blocks.
Print Assumptions C114_w_master_keys.
Print Assumptions C114_w_user_keys.
