(** Theorems about policies and the engine: C05, C35-C41, C44, C45, C60, C62, C63.
    Every theorem is followed, at the end of the file, by an example meeting its
    hypotheses, computed with the group of order 101 (ExpModel.v). *)
From Coq Require Import String NArith ZArith Bool Arith Lia Permutation ListDec Strings.Byte List.
From Verif Require Import Prelude Field LinAlg Msp Spec MspProofs Bilinear Scheme SchemeSpec SchemeProofs SchemeTheorems
  Zp ExpModel PropertiesScheme Codec CodecProofs SchemeCodec SchemeCodecProofs PropertiesCodec
  Policy PolicySpec PolicyProofs Engine EngineSpec EngineProofs.
Import ListNotations.
Local Open Scope N_scope.

Section Properties.
Variable B : BilinearMap.
Hypothesis BL : BilinearLaws B.
Local Notation K := (bm_K B).
Implicit Types P : platform.

(** ** C05: exact access control at the level of policies *)
Theorem C05_policy_access_control P n ops p p0 (mdraw : nat -> K) mk it ap (kdraw : nat -> K) uk l msg (s : K) ct :
  run_ops ops (new_policy n) = Ok p ->
  eng_master_key p0 mdraw = Ok mk ->
  iteration_ok it -> eng_user_key P it p (priv_key mk) ap kdraw = Ok uk ->
  eng_encrypt P p (pub_key mk) l msg s = Ok ct ->
  (satisfied ops (fun b => In b l) ap /\ eng_decrypt ct uk = Ok (Some msg)) \/
  (~ satisfied ops (fun b => In b l) ap /\ refused (eng_decrypt ct uk)).
Proof.
  intros Hp Hmk Hit Hk He. pose proof (inv_history n ops p Hp) as I.
  eapply (engine_exact B BL P); [exact Hmk|exact I|eapply uk_gen; eauto|exact He|].
  intros gam b Hg D. apply (hits_later ops [] p p l gam b I eq_refl Hg).
Qed.

Lemma formula_nodup it ops p ap : iteration_ok it -> inv ops p -> proper_axes ops ->
  (forall a, In a (mentioned ap) -> declared ops a) -> ap <> AAll -> ~ all_inside ap -> no_overlap ops ap ->
  exists f, key_formula it p ap = Ok f /\ NoDup (leaves f).
Proof.
  intros Hit I Hprop Hm Hne Hai Hno. destruct (policy_to_formula_ok it ops p ap Hit I Hm Hne Hai) as (f & Ef).
  exists f. rewrite key_formula_other by exact Hne. split; [exact Ef|].
  apply (policy_to_formula_nodup it ops p ap f Hit I Hprop Ef). exact Hno.
Qed.

(** when the policy has a value left, every step succeeds *)
Theorem C05_pipeline P n ops p (mdraw kdraw : nat -> K) it ap l msg (s : K) :
  run_ops ops (new_policy n) = Ok p -> proper_axes ops -> last_attribute_value p < n ->
  (forall i, (i < N.to_nat n)%nat -> mdraw i <> f0) -> iteration_ok it ->
  (forall a, In a (mentioned ap) -> declared ops a) -> ~ all_inside ap -> no_overlap ops ap ->
  (ap = AAll -> exists b, declared ops b) ->
  (forall b, In b l -> declared ops b) -> N.of_nat (length l) < n ->
  exists mk uk ct, eng_master_key p mdraw = Ok mk /\ eng_user_key P it p (priv_key mk) ap kdraw = Ok uk /\
    eng_encrypt P p (pub_key mk) l msg s = Ok ct.
Proof.
  intros Hp Hprop Hlast Hd Hit Hm Hai Hno Hall Hl Hlen. pose proof (inv_history n ops p Hp) as I.
  assert (Hmax : max_attribute_creations p = n) by (rewrite (run_max _ _ _ Hp); reflexivity).
  pose proof (generate_master_key_ok B BL (N.to_nat n) mdraw Hd) as Emk.
  destruct (generate_master_key_inv B BL _ _ _ Emk) as (t & y & E & Ht & Hnz). rewrite E in Emk.
  assert (Hf : exists f, key_formula it p ap = Ok f /\ NoDup (leaves f)).
  { destruct ap as [a|a b|a b|].
    4: { destruct (proj1 (key_formula_all it ops p Hit I) (Hall eq_refl)) as (f & Ef & Hnd & _). eauto. }
    all: eapply formula_nodup; eauto; discriminate. }
  destruct Hf as (f & Ef & Hnd).
  assert (Hval : forall v, (exists b, value_of p b v) -> in_range B t v).
  { intros v (b & h & Eh & Hv). destruct (i_heap _ _ I b h Eh) as (_ & _ & Hr). specialize (Hr v Hv).
    unfold in_range. rewrite Ht. lia. }
  assert (Hlv : forall v, In v (leaves f) -> in_range B t v).
  { intros v Hv. apply Hval. destruct ap as [a|a b|a b|].
    4: { destruct (proj1 (key_formula_all it ops p Hit I) (Hall eq_refl)) as (f' & Ef' & _ & Hin).
         assert (f' = f) by congruence. subst. apply Hin; exact Hv. }
    all: apply (policy_to_formula_values it ops p _ f Hit I Ef) in Hv as (a' & b' & _ & _ & Hv); eauto. }
  destruct (to_msp_ok P f Hnd) as (rows & _ & Em). match type of Em with _ = Ok ?x => set (m := x) in * end.
  destruct (key_generation_total B BL f m t y kdraw (to_msp_msp_of K (bl_field B BL) P f m Em)) as (uk & Hk).
  { intros a Ha. split; [apply Hlv, Ha|]. apply tt_nonzero; auto. }
  destruct (attributes_values_ok ops p l I Hl) as (gam & Eg & Lg).
  destruct (bl_gt_surj B BL msg) as [mu ->].
  pose proof (encrypt_run B BL P mu gam t y s) as He. rewrite Ht, Lg in He.
  specialize (He ltac:(lia)).
  assert (Hr : forall a, In a gam -> in_range B t a).
  { intros a Ha. apply Hval. pose proof (attributes_values_inv _ _ _ Eg) as F.
    destruct (Forall2_in_r _ _ _ _ F Ha) as (b & _ & h & Eh & Hv & _). exists b, h; auto. }
  specialize (He Hr). eexists (master_of B t y), uk, _. split; [|split].
  - unfold eng_master_key. rewrite Hmax. exact Emk.
  - unfold eng_user_key. rewrite policy_to_msp_formula, Ef. cbn [bind]. rewrite Em. cbn [bind]. exact Hk.
  - unfold eng_encrypt. rewrite Eg. cbn [bind]. exact He.
Qed.

(** ** C60: the same for keys delegated and refreshed at the level of policies *)
Theorem C60_delegated_policy_keys P n ops p p0 (mdraw : nat -> K) mk ap uk l msg (s : K) ct :
  run_ops ops (new_policy n) = Ok p ->
  eng_master_key p0 mdraw = Ok mk ->
  user_key P mk p ap uk ->
  eng_encrypt P p (pub_key mk) l msg s = Ok ct ->
  (satisfied ops (fun b => In b l) ap /\ eng_decrypt ct uk = Ok (Some msg)) \/
  (~ satisfied ops (fun b => In b l) ap /\ refused (eng_decrypt ct uk)).
Proof.
  intros Hp Hmk Hk He. pose proof (inv_history n ops p Hp) as I.
  eapply (engine_exact B BL P); [exact Hmk|exact I|exact Hk|exact He|].
  intros gam b Hg D. apply (hits_later ops [] p p l gam b I eq_refl Hg).
Qed.

(** ** C35 *)
Theorem C35_unknown_attributes_refused P n ops p (priv : master_private_key B) (pk : master_public_key B) it ap (draw : nat -> K) l msg (s : K) a :
  run_ops ops (new_policy n) = Ok p -> iteration_ok it -> ~ declared ops a ->
  (In a (mentioned ap) -> is_err (eng_user_key P it p priv ap draw)) /\
  (In a l -> is_err (eng_encrypt P p pk l msg s)).
Proof.
  intros Hp Hit Hd. pose proof (inv_history n ops p Hp) as I. split; intros Hin.
  - pose proof (key_formula_unknown it ops p ap a I Hin Hd) as Hno.
    pose proof (key_formula_no_panic it ops p ap Hit I) as Hnp. apply no_panic_cases in Hnp as [Hok|[e E]]; [contradiction|].
    unfold eng_user_key. rewrite policy_to_msp_formula, E. exists e; reflexivity.
  - unfold eng_encrypt.
    assert (Hnp : no_panic (attributes_values p l)).
    { apply mapM_no_panic. intros b _. destruct (heap_get p b) as [h|]; [|apply no_panic_err].
      destruct (heap_peek h); [apply no_panic_ok|apply no_panic_err]. }
    apply no_panic_cases in Hnp as [[gam E]|[e E]].
    + exfalso. apply Hd. eapply attributes_values_declared; eauto.
    + rewrite E. exists e; reflexivity.
Qed.

(** ** C36: on any policy, even one not made by the operations *)
Theorem C36_all_inside_formula_refused P p (priv : master_private_key B) (del : delegation_key B) it ap (draw : nat -> K) uk0 uk :
  all_inside ap -> eng_user_key P it p priv ap draw <> Ok uk /\ eng_delegate P it p del uk0 ap draw <> Ok uk.
Proof.
  intros Hall. destruct (formula_no_all it p ap) as [H|[_ H]]; [|contradiction].
  assert (Hne : ap <> AAll) by (intros ->; destruct Hall).
  split; intros E.
  - unfold eng_user_key in E. rewrite policy_to_msp_formula, key_formula_other in E by exact Hne.
    apply bind_ok in E as (m & E & _). apply bind_ok in E as (f & Ef & _). apply H. exists f; exact Ef.
  - unfold eng_delegate in E. destruct ap; try contradiction;
    (rewrite policy_to_msp_formula, key_formula_other in E by exact Hne; apply bind_ok in E as (om & E & _);
     apply bind_ok in E as (m & E & _); apply bind_ok in E as (f & Ef & _); apply H; exists f; exact Ef).
Qed.

Theorem C36_all_inside_formula_error P n ops p (priv : master_private_key B) it ap (draw : nat -> K) :
  run_ops ops (new_policy n) = Ok p -> iteration_ok it -> all_inside ap -> is_err (eng_user_key P it p priv ap draw).
Proof.
  intros Hp Hit Hall. pose proof (inv_history n ops p Hp) as I.
  pose proof (key_formula_no_panic it ops p ap Hit I) as Hnp. apply no_panic_cases in Hnp as [[f Ef]|[e E]].
  - exfalso. destruct (formula_no_all it p ap) as [H|[_ H]]; [|contradiction].
    assert (Hne : ap <> AAll) by (intros ->; destruct Hall). rewrite key_formula_other in Ef by exact Hne.
    apply H. exists f; exact Ef.
  - unfold eng_user_key. rewrite policy_to_msp_formula, E. exists e; reflexivity.
Qed.

(** ** C37: the key is older than the ciphertext *)
Theorem C37_rotation_revokes P n ops1 ops2 p1 p2 p0 (mdraw : nat -> K) mk ap uk l msg (s : K) ct :
  run_ops ops1 (new_policy n) = Ok p1 -> run_ops ops2 p1 = Ok p2 ->
  eng_master_key p0 mdraw = Ok mk ->
  user_key P mk p1 ap uk ->
  eng_encrypt P p2 (pub_key mk) l msg s = Ok ct ->
  (satisfied ops1 (fun b => In b l /\ ~ In (Rotate b) ops2) ap /\ eng_decrypt ct uk = Ok (Some msg)) \/
  (~ satisfied ops1 (fun b => In b l /\ ~ In (Rotate b) ops2) ap /\ refused (eng_decrypt ct uk)).
Proof.
  intros Hp Hr Hmk Hk He. pose proof (inv_history n ops1 p1 Hp) as I.
  eapply (engine_exact B BL P); [exact Hmk|exact I|exact Hk|exact He|].
  intros gam b Hg D. apply (hits_earlier ops1 ops2 p1 p2 l gam b I Hr Hg D).
Qed.

(** ** C38: the key is newer than the ciphertext *)
Theorem C38_refreshed_key P n ops1 ops2 p1 p2 p0 (mdraw : nat -> K) mk ap uk l msg (s : K) ct :
  run_ops ops1 (new_policy n) = Ok p1 -> run_ops ops2 p1 = Ok p2 ->
  eng_master_key p0 mdraw = Ok mk ->
  user_key P mk p2 ap uk ->
  eng_encrypt P p1 (pub_key mk) l msg s = Ok ct ->
  (satisfied (ops1 ++ ops2) (fun b => In b l) ap /\ eng_decrypt ct uk = Ok (Some msg)) \/
  (~ satisfied (ops1 ++ ops2) (fun b => In b l) ap /\ refused (eng_decrypt ct uk)).
Proof.
  intros Hp Hr Hmk Hk He. pose proof (inv_history n ops1 p1 Hp) as I.
  eapply (engine_exact B BL P); [exact Hmk|exact (inv_run ops2 ops1 p1 p2 I Hr)|exact Hk|exact He|].
  intros gam b Hg D. apply (hits_later ops1 ops2 p1 p2 l gam b I Hr Hg).
Qed.

(** ** C39 *)
Theorem C39_all_key_decrypts P n ops1 ops2 p1 p2 p0 (mdraw : nat -> K) mk uk l msg (s : K) ct :
  run_ops ops1 (new_policy n) = Ok p1 -> run_ops ops2 p1 = Ok p2 ->
  eng_master_key p0 mdraw = Ok mk ->
  user_key P mk p2 AAll uk ->
  eng_encrypt P p1 (pub_key mk) l msg s = Ok ct -> l <> [] ->
  eng_decrypt ct uk = Ok (Some msg).
Proof.
  intros Hp Hr Hmk Hk He Hl. pose proof (inv_history n ops1 p1 Hp) as I.
  destruct (C38_refreshed_key P n ops1 ops2 p1 p2 p0 mdraw mk AAll uk l msg s ct Hp Hr Hmk Hk He) as [[_ H]|[H _]]; [exact H|].
  exfalso. apply H. destruct l as [|b t]; [contradiction|]. exists b. split; [left; reflexivity|].
  unfold eng_encrypt in He. apply bind_ok in He as (gam & Eg & _).
  pose proof (attributes_values_declared ops1 p1 _ gam I Eg b (or_introl eq_refl)) as (names & h & Hin & Hn).
  exists names, h. split; [apply in_or_app; left; exact Hin|exact Hn].
Qed.

(** ** C40: false, a rotation revokes keys for All like any other *)
Theorem C40_all_key_revoked P n ops1 ops2 p1 p2 p0 (mdraw : nat -> K) mk uk l msg (s : K) ct :
  run_ops ops1 (new_policy n) = Ok p1 -> run_ops ops2 p1 = Ok p2 ->
  eng_master_key p0 mdraw = Ok mk ->
  user_key P mk p1 AAll uk ->
  eng_encrypt P p2 (pub_key mk) l msg s = Ok ct ->
  (forall b, In b l -> In (Rotate b) ops2) ->
  refused (eng_decrypt ct uk).
Proof.
  intros Hp Hr Hmk Hk He Hl.
  destruct (C37_rotation_revokes P n ops1 ops2 p1 p2 p0 mdraw mk AAll uk l msg s ct Hp Hr Hmk Hk He) as [[(b & [H1 H2] & _) _]|[_ H]]; [|exact H].
  exfalso. apply H2. apply Hl. exact H1.
Qed.

(** exactly: it still decrypts what names an attribute it knows and that was not rotated *)
Theorem C40_all_key_exact P n ops1 ops2 p1 p2 p0 (mdraw : nat -> K) mk uk l msg (s : K) ct :
  run_ops ops1 (new_policy n) = Ok p1 -> run_ops ops2 p1 = Ok p2 ->
  eng_master_key p0 mdraw = Ok mk ->
  user_key P mk p1 AAll uk ->
  eng_encrypt P p2 (pub_key mk) l msg s = Ok ct ->
  (eng_decrypt ct uk = Ok (Some msg) <-> exists b, In b l /\ declared ops1 b /\ ~ In (Rotate b) ops2).
Proof.
  intros Hp Hr Hmk Hk He.
  destruct (C37_rotation_revokes P n ops1 ops2 p1 p2 p0 mdraw mk AAll uk l msg s ct Hp Hr Hmk Hk He) as [[(b & [H1 H2] & H3) H]|[H0 H]].
  - split; [intros _; exists b; auto|intros _; exact H].
  - split.
    + intros E. rewrite E in H. destruct H; discriminate.
    + intros (b & H1 & H2 & H3). exfalso. apply H0. exists b. auto.
Qed.

(** ** C41: values below the limit are usable, the value at the limit is not *)

Lemma last_value_used n ops p : run_ops ops (new_policy n) = Ok p -> 1 <= last_attribute_value p ->
  exists b, declared ops b /\ value_of p b (last_attribute_value p).
Proof.
  intros Hp Hl. pose proof (inv_history n ops p Hp) as I.
  assert (G : exists b, value_of p b (last_attribute_value p)).
  { clear I. revert p Hp Hl. induction ops as [|o ops IH] using rev_ind; intros p Hp Hl.
    - simpl in Hp. assert (p = new_policy n) by congruence. subst. simpl in Hl. lia.
    - assert (Hq : exists q, run_ops ops (new_policy n) = Ok q /\ apply_op q o = Ok p).
      { clear IH. revert Hp. generalize (new_policy n). induction ops as [|a t IHt]; intros q Hp; simpl in Hp.
        - apply bind_ok in Hp as (r & Hr & Hp). assert (r = p) by congruence. subst. exists q. auto.
        - apply bind_ok in Hp as (r & Hr & Hp). destruct (IHt r Hp) as (r' & H1 & H2). exists r'. simpl. rewrite Hr. auto. }
      destruct Hq as (q & Hq & Ho). pose proof (inv_history n ops q Hq) as I. destruct o as [x names h|a]; simpl in Ho.
      + apply add_axis_inv in Ho as (_ & Hax & ->). cbn [last_attribute_value] in *.
        destruct names as [|e t] eqn:En.
        * cbn [length N.of_nat] in *. rewrite N.add_0_r in *. destruct (IH q Hq Hl) as (b & h' & Eh & Hv). exists b, h'.
          split; [exact Eh|exact Hv].
        * rewrite <- En. set (z := List.last names ""%string).
          assert (G : forall l last m, l <> [] ->
             map_get attribute_eqb (snd (insert_values x l last m)) (x, List.last l ""%string) = Some [last + N.of_nat (length l)]).
          { induction l as [|e' t' IHl]; intros last m Hne; [contradiction|]. destruct t' as [|e2 t2].
            - cbn [insert_values List.last length snd]. rewrite heap_get_set.
              rewrite (proj2 (attribute_eqb_spec _ _) eq_refl). repeat f_equal; lia.
            - cbn [insert_values] in *. change (List.last (e' :: e2 :: t2) ""%string) with (List.last (e2 :: t2) ""%string).
              rewrite IHl by discriminate. f_equal. f_equal. cbn [length]. lia. }
          exists (x, z). eexists. split; [unfold heap_get; cbn [attribute_to_int]; apply G; rewrite En; discriminate|left; reflexivity].
      + apply rotate_inv in Ho as (h & Eh & _ & ->). cbn [last_attribute_value].
        exists a, ((last_attribute_value q + 1) :: h). split; [|left; reflexivity].
        unfold heap_get; cbn [attribute_to_int]. rewrite heap_get_set, (proj2 (attribute_eqb_spec _ _) eq_refl). reflexivity. }
  destruct G as (b & h & Eh & Hv). exists b. split; [apply (i_decl _ _ I); eauto|exists h; auto].
Qed.

(** with a policy filled to its limit, an attribute exists for which no key can be
    made and encryption panics *)
Theorem C41_full_policy_refuted P n ops p (mdraw kdraw : nat -> K) mk it msg (s : K) :
  run_ops ops (new_policy n) = Ok p -> last_attribute_value p = n -> 2 <= n -> proper_axes ops -> iteration_ok it ->
  eng_master_key p mdraw = Ok mk ->
  exists b, declared ops b /\
    eng_user_key P it p (priv_key mk) (AAttr b) kdraw =
      Err (InternalOperation "Monotone Span Program is invalid: msp-row larger than private-key-t_i") /\
    eng_user_key P it p (priv_key mk) AAll kdraw =
      Err (InternalOperation "Monotone Span Program is invalid: msp-row larger than private-key-t_i") /\
    eng_encrypt P p (pub_key mk) [b] msg s = Panic IndexOutOfBounds.
Proof.
  intros Hp Hl Hn Hprop Hit Hmk. pose proof (inv_history n ops p Hp) as I.
  destruct (last_value_used n ops p Hp) as (b & D & Hv); [lia|]. rewrite Hl in Hv. exists b. split; [exact D|].
  assert (Hmax : max_attribute_creations p = n) by (rewrite (run_max _ _ _ Hp); reflexivity).
  unfold eng_master_key in Hmk. rewrite Hmax in Hmk.
  destruct (generate_master_key_inv B BL _ _ _ Hmk) as (t & y & -> & Ht & Hnz).
  assert (Hout : ~ in_range B t n) by (unfold in_range; rewrite Ht; lia).
  split; [|split].
  - destruct (policy_to_formula_ok it ops p (AAttr b) Hit I) as (f & Ef).
    { intros a [<-|[]]; exact D. } { discriminate. } { intros []. }
    assert (Hnd : NoDup (leaves f)) by (apply (policy_to_formula_nodup it ops p _ f Hit I Hprop Ef); exact Logic.I).
    destruct (to_msp_ok P f Hnd) as (rows & _ & Em). match type of Em with _ = Ok ?x => set (m := x) in * end.
    unfold eng_user_key. rewrite policy_to_msp_formula. cbn [key_formula]. rewrite Ef. cbn [bind]. rewrite Em. cbn [bind].
    apply (key_generation_out_of_range B BL f m t y kdraw n (to_msp_msp_of K (bl_field B BL) P f m Em) Hnz); [|exact Hout].
    apply (policy_to_formula_values it ops p (AAttr b) f Hit I Ef). exists b, b. split; [left; reflexivity|]. split; [|exact Hv].
    destruct D as (names & h & Hin & Hn'). exists names, h. auto.
  - destruct (proj1 (key_formula_all it ops p Hit I) (ex_intro _ b D)) as (f & Ef & Hnd & Hin).
    destruct (to_msp_ok P f Hnd) as (rows & _ & Em). match type of Em with _ = Ok ?x => set (m := x) in * end.
    unfold eng_user_key. rewrite policy_to_msp_formula, Ef. cbn [bind]. rewrite Em. cbn [bind].
    apply (key_generation_out_of_range B BL f m t y kdraw n (to_msp_msp_of K (bl_field B BL) P f m Em) Hnz); [|exact Hout].
    apply Hin. eauto.
  - destruct (attributes_values_ok ops p [b] I) as (gam & Eg & Lg); [intros c [<-|[]]; exact D|].
    pose proof (attributes_values_inv _ _ _ Eg) as F. inversion F as [|? v ? gam' (h & Eh & Hvh & Hmx) F']; subst.
    inversion F'; subst. destruct Hv as (h' & Eh' & Hv'). assert (h' = h) by congruence. subst h'.
    destruct (i_heap _ _ I b h Eh) as (_ & _ & Hr). pose proof (Hr v Hvh). pose proof (Hmx _ Hv').
    assert (v = last_attribute_value p) by lia. subst v.
    unfold eng_encrypt. rewrite Eg. cbn [bind]. unfold encrypt.
    assert (Lp : length (pub_t (pub_of B t y)) = length t) by (unfold pub_of; simpl; apply map_length).
    unfold master_of; cbn [pub_key]. rewrite Lp, Ht. cbn [length].
    destruct (Nat.leb_spec (N.to_nat (last_attribute_value p)) 1) as [Hle|_]; [lia|].
    cbn [mapM]. unfold indexN. rewrite Lp, Ht, N2Nat.id, N.ltb_irrefl. reflexivity.
Qed.

(** below the limit every attribute is usable *)
Theorem C41_every_attribute_usable_below P n ops p (mdraw kdraw : nat -> K) it b msg (s : K) :
  run_ops ops (new_policy n) = Ok p -> proper_axes ops -> last_attribute_value p < n -> iteration_ok it ->
  (forall i, (i < N.to_nat n)%nat -> mdraw i <> f0) -> declared ops b ->
  exists mk uk ct, eng_master_key p mdraw = Ok mk /\ eng_user_key P it p (priv_key mk) (AAttr b) kdraw = Ok uk /\
    eng_encrypt P p (pub_key mk) [b] msg s = Ok ct /\ eng_decrypt ct uk = Ok (Some msg).
Proof.
  intros Hp Hprop Hl Hit Hd D. pose proof (inv_history n ops p Hp) as I.
  assert (Hn : 1 < n).
  { destruct (value_of_some ops p b I D) as (v & h & Eh & Hv). destruct (i_heap _ _ I b h Eh) as (_ & _ & Hr).
    specialize (Hr v Hv). lia. }
  destruct (C05_pipeline P n ops p mdraw kdraw it (AAttr b) [b] msg s) as (mk & uk & ct & E1 & E2 & E3); auto.
  - intros a [<-|[]]; exact D.
  - exact Logic.I.
  - discriminate.
  - intros a [<-|[]]; exact D.
  - exists mk, uk, ct. split; [exact E1|]. split; [exact E2|]. split; [exact E3|].
    destruct (C05_policy_access_control P n ops p p mdraw mk it (AAttr b) kdraw uk [b] msg s ct Hp E1 Hit E2 E3) as [[_ H]|[H _]]; [exact H|].
    exfalso. apply H. exists b. split; [left; reflexivity|]. destruct D as (names & h & Hin & Hn'). exists names, h. auto.
Qed.

(** ** C62: which access policies have keys *)
Theorem C62_key_exists_iff P n ops p ap it :
  run_ops ops (new_policy n) = Ok p -> proper_axes ops -> iteration_ok it -> ap <> AAll ->
  (is_ok (policy_to_msp it P p ap) <->
   (forall a, In a (mentioned ap) -> declared ops a) /\ ~ all_inside ap /\ no_overlap ops ap) /\
  ((forall a, In a (mentioned ap) -> declared ops a) -> ~ all_inside ap -> ~ no_overlap ops ap ->
   policy_to_msp it P p ap = Err (Deserialization "error deserializing MSP, leaf already inserted")).
Proof.
  intros Hp Hprop Hit Hne. pose proof (inv_history n ops p Hp) as I. rewrite policy_to_msp_formula, key_formula_other by exact Hne.
  split; [split|].
  - intros [m E]. apply bind_ok in E as (f & Ef & Em). split; [|split].
    + intros a Ha. destruct (in_dec attribute_dec a (map fst (attribute_to_int p))) as [Hk|Hk].
      * apply (i_decl _ _ I). apply in_map_iff in Hk as ((a', h) & E & Hk). simpl in E; subst a'.
        apply (map_get_in attribute_eqb attribute_eqb_spec _ _ _ (i_keys _ _ I)) in Hk. exists h; exact Hk.
      * exfalso. assert (Hnd : ~ declared ops a).
        { intros D. apply (i_decl _ _ I) in D as (h & Eh).
          apply (map_get_in attribute_eqb attribute_eqb_spec _ _ _ (i_keys _ _ I)) in Eh.
          apply Hk. apply in_map_iff. exists (a, h). auto. }
        pose proof (key_formula_unknown it ops p ap a I Ha Hnd) as Hno. rewrite key_formula_other in Hno by exact Hne.
        apply Hno. exists f; exact Ef.
    + destruct (formula_no_all it p ap) as [H|[_ H]]; [exfalso; apply H; exists f; exact Ef|exact H].
    + apply (policy_to_formula_nodup it ops p ap f Hit I Hprop Ef).
      apply (proj1 (C34_compiles_iff_distinct P f)). exists m; exact Em.
  - intros (Hd & Ha & Ho). destruct (policy_to_formula_ok it ops p ap Hit I Hd Hne Ha) as (f & Ef). rewrite Ef. cbn [bind].
    apply (proj1 (C34_compiles_iff_distinct P f)). apply (policy_to_formula_nodup it ops p ap f Hit I Hprop Ef). exact Ho.
  - intros Hd Ha Ho. destruct (policy_to_formula_ok it ops p ap Hit I Hd Hne Ha) as (f & Ef). rewrite Ef. cbn [bind].
    apply to_msp_dup. intros Hn. apply Ho. apply (policy_to_formula_nodup it ops p ap f Hit I Hprop Ef). exact Hn.
Qed.

(** ** C63, the part that holds: policies made by the operations *)
Theorem C63_made_policies_never_panic P n ops p size (mdraw : nat -> K) mk it ap (draw : nat -> K) :
  run_ops ops (new_policy n) = Ok p -> iteration_ok it -> generate_master_key size mdraw = Ok mk ->
  no_panic (eng_user_key P it p (priv_key mk) ap draw).
Proof.
  intros Hp Hit Hmk. pose proof (inv_history n ops p Hp) as I.
  destruct (generate_master_key_inv B BL _ _ _ Hmk) as (t & y & -> & Ht & Hnz).
  unfold eng_user_key. rewrite policy_to_msp_formula.
  pose proof (key_formula_no_panic it ops p ap Hit I) as Hnp. apply no_panic_cases in Hnp as [[f Ef]|[e E]].
  2: { rewrite E. apply no_panic_err. }
  rewrite Ef. cbn [bind]. destruct (ListDec.NoDup_dec N.eq_dec (leaves f)) as [Hnd|Hnd].
  2: { rewrite (to_msp_dup P f Hnd). apply no_panic_err. }
  destruct (to_msp_ok P f Hnd) as (rows & _ & Em). match type of Em with _ = Ok ?x => set (m := x) in * end.
  rewrite Em. cbn [bind]. pose proof (to_msp_msp_of K (bl_field B BL) P f m Em) as M.
  destruct (Forall_Exists_dec (in_range B t) (fun a => lt_dec _ _) (leaves f)) as [Hr|Hr].
  - rewrite Forall_forall in Hr. destruct (key_generation_total B BL f m t y draw M) as (uk & E).
    + intros a Ha. split; [apply Hr, Ha|]. apply tt_nonzero; auto.
    + cbn [priv_key master_of]. rewrite E. apply no_panic_ok.
  - apply Exists_exists in Hr as (a & Ha & Hr).
    cbn [priv_key master_of]. rewrite (key_generation_out_of_range B BL f m t y draw a M Hnz Ha Hr). apply no_panic_err.
Qed.

(** ** C44, C45: symmetric keys *)
Section Symmetric.
Variable F : byte_forms B.
Variable fine : Gt B -> Prop.
Hypothesis HF : forms_ok F fine.
Variable shake : list byte -> nat -> list byte.
Hypothesis shake_length : forall b n, length (shake b n) = n.

Lemma symmetric_key_inv P n ops p (pk : master_public_key B) l len random (s : K) key bytes :
  64 <= usize_bits P -> n < 4294967296 ->
  run_ops ops (new_policy n) = Ok p -> length (pub_t pk) = N.to_nat n -> l <> [] ->
  generate_symmetric_key P F shake p pk l len random s = Ok (key, bytes) ->
  (forall ct, eng_encrypt P p pk l random s = Ok ct -> fine (e_prime ct)) ->
  exists ct, eng_encrypt P p pk l random s = Ok ct /\ ct_dec F P bytes = Ok ct /\
    exists r, enc (gt_codec F) random = Ok r /\ key = shake r len.
Proof using HF.
  intros HP Hn Hp Hpk Hl H Hf. pose proof (inv_history n ops p Hp) as I.
  assert (Hmax : max_attribute_creations p = n) by (rewrite (run_max _ _ _ Hp); reflexivity).
  unfold generate_symmetric_key in H. apply bind_ok in H as (ct & Ect & H). apply bind_ok in H as (b & Eb & H).
  apply bind_ok in H as (r & Er & H). assert (b = bytes /\ key = shake r len) as [-> ->] by (split; congruence).
  exists ct. split; [exact Ect|]. specialize (Hf ct Ect). split; [|eauto].
  unfold eng_encrypt in Ect. apply bind_ok in Ect as (gam & Eg & Ect).
  destruct (proj2 (C42_too_many_attributes_refused B P random gam pk s) ct Ect) as (Hlen & _ & _).
  pose proof (attributes_values_inv _ _ _ Eg) as Fg.
  destruct (C19_ciphertext_roundtrip B F fine HF P random gam pk s ct HP Ect) as (b' & Eb' & _ & D).
  - intros ->. inversion Fg; subst. contradiction.
  - rewrite Hpk in Hlen. lia.
  - intros v Hv. destruct (Forall2_in_r _ _ _ _ Fg Hv) as (c & _ & h & Eh & Hvh & _).
    destruct (i_heap _ _ I c h Eh) as (_ & _ & Hr). specialize (Hr v Hvh). pose proof (i_last _ _ I). lia.
  - exact Hf.
  - assert (b' = bytes) by congruence. subst. exact D.
Qed.

Theorem C44_symmetric_key_roundtrip P n ops p (mdraw : nat -> K) mk ap uk l len random (s : K) key bytes :
  64 <= usize_bits P -> n < 4294967296 ->
  run_ops ops (new_policy n) = Ok p -> eng_master_key p mdraw = Ok mk ->
  user_key P mk p ap uk -> l <> [] -> satisfied ops (fun b => In b l) ap ->
  generate_symmetric_key P F shake p (pub_key mk) l len random s = Ok (key, bytes) ->
  (forall ct, eng_encrypt P p (pub_key mk) l random s = Ok ct -> fine (e_prime ct)) ->
  decrypt_symmetric_key P F shake uk bytes len = Ok key /\ length key = len.
Proof using BL HF shake_length.
  intros HP Hn Hp Hmk Hk Hl Hs Hg Hf.
  assert (Hpk : length (pub_t (pub_key mk)) = N.to_nat n).
  { pose proof (run_max _ _ _ Hp) as Hmax. unfold eng_master_key in Hmk. rewrite Hmax in Hmk.
    destruct (generate_master_key_inv B BL _ _ _ Hmk) as (t & y & -> & Ht & _). simpl. rewrite map_length. exact Ht. }
  destruct (symmetric_key_inv P n ops p _ l len random s key bytes HP Hn Hp Hpk Hl Hg Hf) as (ct & Ect & Ed & r & Er & ->).
  split; [|apply shake_length]. unfold decrypt_symmetric_key. rewrite Ed. cbn [bind].
  destruct (C60_delegated_policy_keys P n ops p p mdraw mk ap uk l random s ct Hp Hmk Hk Ect) as [[_ H]|[H _]]; [|contradiction].
  rewrite H. cbn [bind]. rewrite Er. reflexivity.
Qed.

(** two symmetric keys are the same only if the hash of the drawn elements is: the
    key is a function of the drawn element alone *)
Theorem C44_key_depends_on_drawn_element P p p' (pk pk' : master_public_key B) l l' len random (s s' : K) key bytes key' bytes' :
  generate_symmetric_key P F shake p pk l len random s = Ok (key, bytes) ->
  generate_symmetric_key P F shake p' pk' l' len random s' = Ok (key', bytes') -> key = key'.
Proof using Type.
  unfold generate_symmetric_key. intros H H'.
  apply bind_ok in H as (ct & _ & H). apply bind_ok in H as (b & _ & H). apply bind_ok in H as (r & Er & H).
  apply bind_ok in H' as (ct' & _ & H'). apply bind_ok in H' as (b' & _ & H'). apply bind_ok in H' as (r' & Er' & H').
  assert (r = r') by congruence. congruence.
Qed.

Theorem C45_unauthorised_symmetric_key P n ops p (mdraw : nat -> K) mk ap uk l len len' random (s : K) key bytes :
  64 <= usize_bits P -> n < 4294967296 ->
  run_ops ops (new_policy n) = Ok p -> eng_master_key p mdraw = Ok mk ->
  user_key P mk p ap uk -> l <> [] -> ~ satisfied ops (fun b => In b l) ap ->
  generate_symmetric_key P F shake p (pub_key mk) l len random s = Ok (key, bytes) ->
  (forall ct, eng_encrypt P p (pub_key mk) l random s = Ok ct -> fine (e_prime ct)) ->
  decrypt_symmetric_key P F shake uk bytes len' = Err InvalidEncryptedData \/
  decrypt_symmetric_key P F shake uk bytes len' = Err (InternalOperation "empty input matrix").
Proof using BL HF.
  intros HP Hn Hp Hmk Hk Hl Hs Hg Hf.
  assert (Hpk : length (pub_t (pub_key mk)) = N.to_nat n).
  { pose proof (run_max _ _ _ Hp) as Hmax. unfold eng_master_key in Hmk. rewrite Hmax in Hmk.
    destruct (generate_master_key_inv B BL _ _ _ Hmk) as (t & y & -> & Ht & _). simpl. rewrite map_length. exact Ht. }
  destruct (symmetric_key_inv P n ops p _ l len random s key bytes HP Hn Hp Hpk Hl Hg Hf) as (ct & Ect & Ed & r & Er & ->).
  unfold decrypt_symmetric_key. rewrite Ed. cbn [bind].
  destruct (C60_delegated_policy_keys P n ops p p mdraw mk ap uk l random s ct Hp Hmk Hk Ect) as [[H _]|[_ [H|H]]]; [contradiction| |].
  - rewrite H. left; reflexivity.
  - rewrite H. right; reflexivity.
Qed.
End Symmetric.
End Properties.

(** ** Examples and witnesses *)

Lemma panic_not_ok {A} p (x : A) : Panic p = Ok x -> False. Proof. discriminate. Qed.
Lemma err_not_ok {A} e (x : A) : Err e = Ok x -> False. Proof. discriminate. Qed.

(** The policy of the README: a hierarchical axis and a flat one, ten values. *)
Local Open Scope string_scope.
Definition ops_a : list op :=
  [AddAxis "Security Level" ["Protected"; "Confidential"; "Top Secret"] true;
   AddAxis "Department" ["R&D"; "HR"; "MKG"; "FIN"] false].
Definition ops_b : list op := [Rotate ("Department", "HR")].
Definition level (x : string) : attribute := ("Security Level", x).
Definition dept (x : string) : attribute := ("Department", x).
Definition pol_a : policy := run (new_policy 0) (run_ops ops_a (new_policy 10)).
Definition pol_b : policy := run (new_policy 0) (run_ops ops_b pol_a).
(** one order of iteration: reversed *)
Definition it_rev : iteration := mkIteration (@rev N) (@rev (attribute * list N)).
Lemma it_rev_ok : iteration_ok it_rev.
Proof. split; intros; apply Permutation_sym, Permutation_rev. Qed.

Definition ex_ap : access_policy := AAnd (AAttr (level "Confidential")) (AOr (AAttr (dept "HR")) (AAttr (dept "FIN"))).
Definition ekey (p : policy) (ap : access_policy) : decryption_key toy :=
  run empty_key (@eng_user_key toy pf it_rev p (priv_key ex_mk) ap ex_kdraw).
Definition ect (p : policy) (l : list attribute) : ciphertext toy :=
  run empty_ct (@eng_encrypt toy pf p (pub_key ex_mk) l ex_msg ex_s).

Lemma ops_a_proper : proper_axes ops_a.
Proof.
  intros x names h [E|[E|[]]]; inversion E; subst; repeat constructor; simpl; intuition discriminate.
Qed.

Lemma ex_policies : run_ops ops_a (new_policy 10) = Ok pol_a /\ run_ops ops_b pol_a = Ok pol_b /\
  last_attribute_value pol_a = 7 /\ attributes_values pol_b [dept "HR"; level "Protected"] = Ok [8; 1] /\
  heap_get pol_b (dept "HR") = Some [8; 5].
Proof. repeat split. Qed.

Lemma ex_engine_setup :
  @eng_master_key toy pol_a ex_draw = Ok ex_mk /\
  @eng_user_key toy pf it_rev pol_a (priv_key ex_mk) ex_ap ex_kdraw = Ok (ekey pol_a ex_ap) /\
  @eng_user_key toy pf it_rev pol_b (priv_key ex_mk) ex_ap ex_kdraw = Ok (ekey pol_b ex_ap) /\
  @eng_user_key toy pf it_rev pol_a (priv_key ex_mk) AAll ex_kdraw = Ok (ekey pol_a AAll).
Proof.
  split; [vmr (@Ok (master_key toy) ex_mk)|]. split; [vmr (@Ok (decryption_key toy) (ekey pol_a ex_ap))|].
  split; [vmr (@Ok (decryption_key toy) (ekey pol_b ex_ap))|vmr (@Ok (decryption_key toy) (ekey pol_a AAll))].
Qed.

(** a lower level attribute satisfies the requirement, a higher one does not *)
Example C05_example :
  satisfied ops_a (fun b => In b [dept "HR"; level "Protected"]) ex_ap /\
  eng_encrypt pf pol_a (pub_key ex_mk) [dept "HR"; level "Protected"] ex_msg ex_s = Ok (ect pol_a [dept "HR"; level "Protected"]) /\
  eng_decrypt (ect pol_a [dept "HR"; level "Protected"]) (ekey pol_a ex_ap) = Ok (Some ex_msg) /\
  eng_decrypt (ect pol_a [dept "HR"; level "Top Secret"]) (ekey pol_a ex_ap) = Ok None /\
  eng_decrypt (ect pol_a [dept "MKG"]) (ekey pol_a ex_ap) = Err (InternalOperation "empty input matrix").
Proof.
  split.
  - split.
    + exists (level "Protected"). split; [simpl; tauto|]. eexists _, true. split; [left; reflexivity|]. split; [simpl; tauto|].
      right. split; [reflexivity|]. split; [reflexivity|]. exists ["Protected"], ["Top Secret"].
      split; [reflexivity|]. split; simpl; intuition discriminate.
    + left. exists (dept "HR"). split; [simpl; tauto|]. eexists _, false. split; [right; left; reflexivity|]. split; [simpl; tauto|auto].
  - split; [vmr (@Ok (ciphertext toy) (ect pol_a [dept "HR"; level "Protected"]))|].
    split; [vmr (@Ok (option (Gt toy)) (Some ex_msg))|]. split; [vmr (@Ok (option (Gt toy)) None)|].
    vmr (@Err (option (Gt toy)) (InternalOperation "empty input matrix")).
Qed.

Example C05_pipeline_example :
  proper_axes ops_a /\ last_attribute_value pol_a < 10 /\ (forall a, In a (mentioned ex_ap) -> declared ops_a a) /\
  ~ all_inside ex_ap /\ no_overlap ops_a ex_ap.
Proof.
  split; [exact ops_a_proper|]. split; [reflexivity|]. split; [|split].
  - intros a Ha. simpl in Ha. destruct Ha as [<-|[<-|[<-|[]]]]; eexists _, _;
      (split; [first [left; reflexivity|right; left; reflexivity]|simpl; tauto]).
  - simpl. intuition discriminate.
  - assert (C : forall x c, covers ops_a x c -> fst c = fst x).
    { intros x c (names & h & _ & _ & [->|(_ & E & _)]); auto. }
    assert (D : forall x c, covers ops_a x c -> fst x = "Department" -> c = x).
    { intros x c (names & h & Hin & _ & [->|(-> & _ & _)]) E; [reflexivity|]. rewrite E in Hin.
      destruct Hin as [Hin|[Hin|[]]]; discriminate. }
    split; [exact Logic.I|]. split; [split; [exact Logic.I|split; [exact Logic.I|]]|].
    + intros x y c [<-|[]] [<-|[]] H1 H2. apply D in H1; [|reflexivity]. apply D in H2; [|reflexivity]. rewrite H1 in H2. discriminate H2.
    + intros x y c [<-|[]] Hy H1 H2. apply C in H1. apply C in H2. rewrite H1 in H2. simpl in Hy. destruct Hy as [<-|[<-|[]]]; discriminate H2.
Qed.

(** delegation to Confidential and HR *)
Definition ex_ap' : access_policy := AAnd (AAttr (level "Confidential")) (AAttr (dept "HR")).
Definition edel : decryption_key toy :=
  run empty_key (@eng_delegate toy pf it_rev pol_a (del_key ex_mk) (ekey pol_a ex_ap) ex_ap' ex_draw).
Example C60_example :
  user_key pf ex_mk pol_a ex_ap' edel /\
  eng_decrypt (ect pol_a [dept "HR"; level "Protected"]) edel = Ok (Some ex_msg) /\
  eng_decrypt (ect pol_a [dept "FIN"; level "Protected"]) edel = Ok None /\
  eng_decrypt (ect pol_a [dept "FIN"; level "Protected"]) (ekey pol_a ex_ap) = Ok (Some ex_msg).
Proof.
  destruct ex_engine_setup as (_ & H & _). split.
  - eapply uk_delegate; [exact it_rev_ok|eapply uk_gen; [exact it_rev_ok|exact H]|discriminate| |].
    + apply na_and; [apply na_refl|apply na_or_left].
    + instantiate (1 := ex_draw). vmr (@Ok (decryption_key toy) edel).
  - split; [vmr (@Ok (option (Gt toy)) (Some ex_msg))|]. split; [vmr (@Ok (option (Gt toy)) None)|].
    vmr (@Ok (option (Gt toy)) (Some ex_msg)).
Qed.

Example C35_example :
  ~ declared ops_a (dept "IT") /\
  eng_user_key pf it_rev pol_a (priv_key ex_mk) (AOr ex_ap (AAttr (dept "IT"))) ex_kdraw = Err (MissingAttribute (Some "IT") (Some "Department")) /\
  eng_user_key pf it_rev pol_a (priv_key ex_mk) (AAttr ("Country", "FR")) ex_kdraw = Err (MissingAxis "Country") /\
  eng_encrypt pf pol_a (pub_key ex_mk) [dept "HR"; dept "IT"] ex_msg ex_s = Err (PolicyError PolicyAttributeNotFound).
Proof.
  split; [intros (names & h & [E|[E|[]]] & H); inversion E; subst; simpl in H; intuition discriminate|].
  split; [vmr (@Err (decryption_key toy) (MissingAttribute (Some "IT") (Some "Department")))|].
  split; [vmr (@Err (decryption_key toy) (MissingAxis "Country"))|].
  vmr (@Err (ciphertext toy) (PolicyError PolicyAttributeNotFound)).
Qed.

Example C36_example :
  all_inside (AOr (AAttr (dept "HR")) (AAnd (AAttr (dept "FIN")) AAll)) /\
  eng_user_key pf it_rev pol_a (priv_key ex_mk) (AOr (AAttr (dept "HR")) (AAnd (AAttr (dept "FIN")) AAll)) ex_kdraw =
    Err (InvalidFormula "`All` is not authorized inside a formula").
Proof.
  split; [simpl; tauto|].
  vmr (@Err (decryption_key toy) (InvalidFormula "`All` is not authorized inside a formula")).
Qed.

(** old key, new ciphertext for the rotated attribute: refused, but FIN is unaffected *)
Example C37_example :
  ~ satisfied ops_a (fun b => In b [dept "HR"; level "Protected"] /\ ~ In (Rotate b) ops_b) ex_ap /\
  eng_encrypt pf pol_b (pub_key ex_mk) [dept "HR"; level "Protected"] ex_msg ex_s = Ok (ect pol_b [dept "HR"; level "Protected"]) /\
  eng_decrypt (ect pol_b [dept "HR"; level "Protected"]) (ekey pol_a ex_ap) = Ok None /\
  eng_decrypt (ect pol_b [dept "FIN"; level "Protected"]) (ekey pol_a ex_ap) = Ok (Some ex_msg).
Proof.
  split.
  - assert (D : forall x c, covers ops_a x c -> fst x = "Department" -> c = x).
    { intros x c (names & h & Hin & _ & [->|(-> & _ & _)]) E; [reflexivity|]. rewrite E in Hin.
      destruct Hin as [Hin|[Hin|[]]]; discriminate. }
    intros [_ [(b & (Hin & Hr) & Hc)|(b & (Hin & Hr) & Hc)]]; apply D in Hc; try reflexivity; subst b; simpl in Hin, Hr.
    + apply Hr. left; reflexivity.
    + intuition discriminate.
  - split; [vmr (@Ok (ciphertext toy) (ect pol_b [dept "HR"; level "Protected"]))|].
    split; [vmr (@Ok (option (Gt toy)) None)|vmr (@Ok (option (Gt toy)) (Some ex_msg))].
Qed.

Example C38_C39_example :
  eng_decrypt (ect pol_a [dept "HR"; level "Protected"]) (ekey pol_b ex_ap) = Ok (Some ex_msg) /\
  eng_decrypt (ect pol_b [dept "HR"; level "Protected"]) (ekey pol_b ex_ap) = Ok (Some ex_msg) /\
  eng_decrypt (ect pol_a [dept "MKG"]) (ekey pol_b AAll) = Ok (Some ex_msg).
Proof. split; [|split]; vmr (@Ok (option (Gt toy)) (Some ex_msg)). Qed.

(** C40 as the demo states it *)
Theorem C40_refuted :
  ~ (forall (B : BilinearMap) P n ops1 ops2 p1 p2 mdraw mk uk l msg s ct,
      BilinearLaws B -> run_ops ops1 (new_policy n) = Ok p1 -> run_ops ops2 p1 = Ok p2 ->
      @eng_master_key B p1 mdraw = Ok mk -> user_key P mk p1 AAll uk ->
      eng_encrypt P p2 (pub_key mk) l msg s = Ok ct -> l <> [] -> eng_decrypt ct uk = Ok (Some msg)).
Proof.
  intros H. destruct ex_policies as (Ha & Hb & _). destruct ex_engine_setup as (Hm & _ & _ & Hk).
  specialize (H toy pf 10 ops_a ops_b pol_a pol_b ex_draw ex_mk (ekey pol_a AAll) [dept "HR"] ex_msg ex_s (ect pol_b [dept "HR"])
    toy_laws Ha Hb Hm (uk_gen _ _ _ it_rev AAll ex_kdraw _ it_rev_ok Hk)).
  assert (He : eng_encrypt pf pol_b (pub_key ex_mk) [dept "HR"] ex_msg ex_s = Ok (ect pol_b [dept "HR"]))
    by vmr (@Ok (ciphertext toy) (ect pol_b [dept "HR"])).
  specialize (H He ltac:(discriminate)).
  assert (E : eng_decrypt (ect pol_b [dept "HR"]) (ekey pol_a AAll) = Err (InternalOperation "empty input matrix"))
    by vmr (@Err (option (Gt toy)) (InternalOperation "empty input matrix")).
  exact (err_not_ok _ _ (eq_trans (eq_sym E) H)).
Qed.

(** C41 as a user would read it: seven attributes in a policy for seven *)
Definition pol_full : policy := run (new_policy 0) (run_ops ops_a (new_policy 7)).
Definition mk_full : master_key toy := run empty_master (eng_master_key pol_full ex_draw).
Theorem C41_refuted :
  ~ (forall (B : BilinearMap) P n ops p mdraw mk b msg s,
      BilinearLaws B -> run_ops ops (new_policy n) = Ok p -> @eng_master_key B p mdraw = Ok mk -> declared ops b ->
      is_ok (eng_encrypt P p (pub_key mk) [b] msg s)).
Proof.
  intros H. destruct (H toy pf 7 ops_a pol_full ex_draw mk_full (dept "FIN") ex_msg ex_s toy_laws eq_refl) as (ct & E).
  - vmr (@Ok (master_key toy) mk_full).
  - eexists _, false. split; [right; left; reflexivity|simpl; tauto].
  - assert (E' : eng_encrypt pf pol_full (pub_key mk_full) [dept "FIN"] ex_msg ex_s = Panic IndexOutOfBounds)
      by vmr (@Panic (ciphertext toy) IndexOutOfBounds).
    exact (panic_not_ok _ _ (eq_trans (eq_sym E') E)).
Qed.

Example C41_example :
  last_attribute_value pol_full = 7 /\ run_ops ops_a (new_policy 7) = Ok pol_full /\
  eng_master_key pol_full ex_draw = Ok mk_full /\
  eng_user_key pf it_rev pol_full (priv_key mk_full) (AAttr (dept "FIN")) ex_kdraw =
    Err (InternalOperation "Monotone Span Program is invalid: msp-row larger than private-key-t_i").
Proof.
  split; [reflexivity|]. split; [reflexivity|]. split; [vmr (@Ok (master_key toy) mk_full)|].
  vmr (@Err (decryption_key toy) (InternalOperation "Monotone Span Program is invalid: msp-row larger than private-key-t_i")).
Qed.

(** a toy extendable output function *)
Definition toy_shake (b : list byte) (n : nat) : list byte := resize b n x00.
Lemma toy_shake_length b n : length (toy_shake b n) = n. Proof. apply resize_length. Qed.
Definition ex_sym (l : list attribute) : list byte * list byte :=
  run ([], []) (generate_symmetric_key pf toy_forms toy_shake pol_a (pub_key ex_mk) l 32 ex_msg ex_s).
Example C44_C45_example :
  generate_symmetric_key pf toy_forms toy_shake pol_a (pub_key ex_mk) [dept "HR"; level "Protected"] 32 ex_msg ex_s =
    Ok (ex_sym [dept "HR"; level "Protected"]) /\
  decrypt_symmetric_key pf toy_forms toy_shake (ekey pol_a ex_ap) (snd (ex_sym [dept "HR"; level "Protected"])) 32 =
    Ok (fst (ex_sym [dept "HR"; level "Protected"])) /\
  length (fst (ex_sym [dept "HR"; level "Protected"])) = 32%nat /\
  decrypt_symmetric_key pf toy_forms toy_shake (ekey pol_a ex_ap) (snd (ex_sym [dept "HR"])) 32 = Err InvalidEncryptedData.
Proof.
  split; [vmr (@Ok (list byte * list byte) (ex_sym [dept "HR"; level "Protected"]))|].
  split; [vmr (@Ok (list byte) (fst (ex_sym [dept "HR"; level "Protected"])))|].
  split; [vm_compute; reflexivity|vmr (@Err (list byte) InvalidEncryptedData)].
Qed.

(** two mentions of one attribute, and two attributes of one hierarchical axis *)
Example C62_example :
  ~ no_overlap ops_a (AOr (AAttr (level "Protected")) (AAttr (level "Top Secret"))) /\
  policy_to_msp it_rev pf pol_a (AOr (AAttr (level "Protected")) (AAttr (level "Top Secret"))) =
    Err (Deserialization "error deserializing MSP, leaf already inserted") /\
  is_ok (policy_to_msp it_rev pf pol_a ex_ap).
Proof.
  split; [|split; [reflexivity|eexists; reflexivity]].
  intros (_ & _ & H). apply (H (level "Protected") (level "Top Secret") (level "Protected")); try (left; reflexivity).
  - eexists _, true. split; [left; reflexivity|]. split; [simpl; tauto|auto].
  - eexists _, true. split; [left; reflexivity|]. split; [simpl; tauto|]. right. split; [reflexivity|]. split; [reflexivity|].
    exists ["Protected"; "Confidential"], []. split; [reflexivity|]. split; simpl; intuition discriminate.
Qed.

(** ** C63: key generation from a policy read from a file. A policy whose axes name
    an attribute that has no value panics. *)
Definition crafted : policy := mkPolicy 1 10 [("A", (["x"; "y"], true))] [(("A", "y"), [1])].
Theorem C63_crafted_policy_refuted :
  ~ (forall (B : BilinearMap) P it p (priv : master_private_key B) ap draw,
      BilinearLaws B -> iteration_ok it -> no_panic (eng_user_key P it p priv ap draw)).
Proof.
  intros H. apply (H toy pf it_rev crafted (priv_key ex_mk) (AAttr ("A", "x")) ex_kdraw toy_laws it_rev_ok MissingMapKey).
  vmr (@Panic (decryption_key toy) MissingMapKey).
Qed.
(** hierarchical axes reach the missing attribute through another one *)
Example C63_example :
  eng_user_key pf it_rev crafted (priv_key ex_mk) (AAttr ("A", "y")) ex_kdraw = Panic MissingMapKey.
Proof. vmr (@Panic (decryption_key toy) MissingMapKey). Qed.

Print Assumptions C05_policy_access_control.
Print Assumptions C05_pipeline.
Print Assumptions C37_rotation_revokes.
Print Assumptions C38_refreshed_key.
Print Assumptions C40_refuted.
Print Assumptions C41_full_policy_refuted.
Print Assumptions C44_symmetric_key_roundtrip.
Print Assumptions C45_unauthorised_symmetric_key.
Print Assumptions C62_key_exists_iff.
Print Assumptions C63_crafted_policy_refuted.
