(** Operations with keys that were read from bytes and need not come from the library: C102, C103. *)
From Coq Require Import String NArith ZArith Bool Lia Strings.Byte List.
From Verif Require Import Prelude Field LinAlg Msp Spec MspProofs Bilinear Scheme SchemeSpec SchemeProofs SchemeTheorems
  Policy PolicySpec PolicyProofs Engine EngineSpec EngineProofs Zp ExpModel PropertiesScheme PropertiesEngine
  Codec CodecProofs SchemeCodec SchemeCodecProofs PropertiesCodec CopiesSpec PropertiesCopies.
Import ListNotations.
Local Open Scope N_scope.

Section Hostile.
Variable B : BilinearMap.
Variable BL : BilinearLaws B.
Notation K := (bm_K B).

Lemma mapM_stops {A C} (F : A -> outcome C) q l : (forall x, In x l -> is_ok (F x) \/ F x = Panic q) ->
  (exists x, In x l /\ F x = Panic q) -> mapM F l = Panic q.
Proof using Type. clear B BL. exact (panics_somewhere F q l). Qed.
Lemma mapM_calm {A C} (F : A -> outcome C) l : (forall x, In x l -> is_ok (F x)) -> is_ok (mapM F l).
Proof using Type.
  clear B BL. intros H. induction l as [|x l IH]; [exists []; reflexivity|]. cbn [mapM]. destruct (H x (or_introl eq_refl)) as (y & E). rewrite E. cbn [bind].
  destruct IH as (ys & E2); [intros w Hw; apply H; right; exact Hw|]. rewrite E2. eexists. reflexivity.
Qed.

(** ** C102 *)
Lemma secret_at (t : list K) i : (S i < length t)%nat -> nth_error t (S i) = Some (tt B t (N.of_nat (S i))).
Proof using Type. intros H. unfold tt. rewrite Nat2N.id. apply nth_error_nth'. exact H. Qed.

Lemma gen_one_zero (t u : list K) a row : in_range B t a -> tt B t a = f0 -> gen_one B t u a row = Panic DivisionByZero.
Proof using BL.
  intros Hr E. unfold gen_one. unfold in_range in Hr. destruct (N.leb_spec (N.of_nat (length t)) a); [lia|].
  rewrite (indexN_ok t a f0) by exact Hr. cbn [bind]. unfold tt in E. rewrite E. unfold sdiv.
  rewrite (proj2 (fl_eqb K (bl_field B BL) f0 f0) eq_refl). reflexivity.
Qed.

(** Key generation panics only because of a secret that is zero, *)
Theorem C102_only_zero_secrets P n ops p (k : master_private_key B) it ap (draw : nat -> K) :
  run_ops ops (new_policy n) = Ok p -> proper_axes ops -> iteration_ok it ->
  (forall c i, needed ops ap c -> nth_error (numbering ops) i = Some c -> nth_error (priv_t k) (S i) <> Some f0) ->
  no_panic (eng_user_key P it p k ap draw).
Proof using BL.
  intros Hp Hpr Hit Hz. pose proof (inv_history n ops p Hp) as I. destruct k as [t y]. cbn [priv_t] in Hz.
  unfold eng_user_key. rewrite policy_to_msp_formula.
  pose proof (key_formula_no_panic it ops p ap Hit I) as Hnp. apply no_panic_cases in Hnp as [[f Ef]|[e E]].
  2: { rewrite E. apply no_panic_err. }
  rewrite Ef. cbn [bind]. destruct (ListDec.NoDup_dec N.eq_dec (leaves f)) as [Hnd|Hnd].
  2: { rewrite (to_msp_dup P f Hnd). apply no_panic_err. }
  destruct (to_msp_ok P f Hnd) as (rows & _ & Em). match type of Em with _ = Ok ?x => set (m := x) in * end.
  rewrite Em. cbn [bind]. pose proof (to_msp_msp_of K (bl_field B BL) P f m Em) as M.
  rewrite (key_generation_eq B f) by exact M.
  destruct (sharing_vector_total B (nb_col m) draw y) as [u Hu]; [rewrite (mo_cols K f m M); lia|]. rewrite Hu. cbn [bind].
  assert (Q : no_panic (mapM (fun q => gen_one B t u (fst q) (snd q)) (labelled m))).
  { apply mapM_no_panic. intros q Hq. destruct (row_of_labelled B f m q M Hq) as [Ha _].
    apply (key_numbers it n ops p ap f Hp Hpr Hit Ef) in Ha as (c & i & Hc & Hi & E).
    destruct (Nat.lt_ge_cases (S i) (length t)) as [L|L].
    - rewrite (gen_one_run B BL); [apply no_panic_ok|rewrite E; unfold in_range; lia|]. rewrite E. intros E0.
      apply (Hz c i Hc Hi). rewrite (secret_at t i L), E0. reflexivity.
    - unfold gen_one. rewrite E. destruct (N.leb_spec (N.of_nat (length t)) (N.of_nat (S i))); [apply no_panic_err|lia]. }
  apply no_panic_cases in Q as [[big E]|[e E]]; rewrite E; [apply no_panic_ok|apply no_panic_err].
Qed.

(** and it does if a needed secret is zero and none is missing. *)
Theorem C102_zero_secret_refuted P n ops p (k k' : master_private_key B) it ap (draw : nat -> K) :
  run_ops ops (new_policy n) = Ok p -> proper_axes ops -> iteration_ok it ->
  length (priv_t k') = length (priv_t k) -> is_ok (eng_user_key P it p k' ap draw) ->
  (exists c i, needed ops ap c /\ nth_error (numbering ops) i = Some c /\ nth_error (priv_t k) (S i) = Some f0) ->
  eng_user_key P it p k ap draw = Panic DivisionByZero.
Proof using BL.
  intros Hp Hpr Hit Hl (uk & Hok) (c & i & Hc & Hi & H0). destruct k as [t y], k' as [t' y']. cbn [priv_t] in *.
  unfold eng_user_key in *. rewrite policy_to_msp_formula in *. apply bind_ok in Hok as (m & Em & Hok). apply bind_ok in Em as (f & Ef & Em).
  rewrite Ef. cbn [bind]. rewrite Em. cbn [bind]. pose proof (to_msp_msp_of K (bl_field B BL) P f m Em) as M.
  destruct (key_generation_rep B BL f m t' y' draw uk M Hok) as (u' & _ & R & _).
  rewrite (key_generation_eq B f) by exact M.
  destruct (sharing_vector_total B (nb_col m) draw y) as [u Hu]; [rewrite (mo_cols K f m M); lia|]. rewrite Hu. cbn [bind].
  rewrite (mapM_stops _ DivisionByZero); [reflexivity| |].
  - intros q Hq. destruct (row_of_labelled B f m q M Hq) as [Ha _]. pose proof (kr_range _ _ _ _ _ _ R _ Ha) as Hr. unfold in_range in Hr.
    assert (Hr' : in_range B t (fst q)) by (unfold in_range; lia).
    destruct (K_eq_dec K (bl_field B BL) (tt B t (fst q)) f0) as [E|E]; [right; apply gen_one_zero; assumption|left].
    rewrite (gen_one_run B BL) by assumption. eexists. reflexivity.
  - assert (Hv : In (N.of_nat (S i)) (leaves f)) by (apply (key_numbers it n ops p ap f Hp Hpr Hit Ef); exists c, i; auto).
    exists (N.of_nat (S i), row_of m (N.of_nat (S i))). split; [exact (leaves_labelled B f m _ M Hv)|]. cbn [fst snd].
    assert (L : (S i < length t)%nat) by (apply nth_error_Some; rewrite H0; discriminate).
    apply gen_one_zero; [unfold in_range; lia|]. rewrite (secret_at t i L) in H0. congruence.
Qed.

(** ** C103 *)
Section Decoded.
Variable F : byte_forms B.
Variable fine : Gt B -> Prop.
Hypothesis HF : forms_ok F fine.

Lemma decoded_user_shape P kbytes uk : 64 <= usize_bits P -> blen kbytes < 9223372036854775808 -> user_dec F P kbytes = Ok uk ->
  decoded_shape (fun _ => True) (dk_msp uk).
Proof using HF.
  intros HP Hf Hk. unfold user_dec in Hk. destruct kbytes as [|b0 bt]; [discriminate|]. remember (b0 :: bt) as kb eqn:Eb.
  apply bind_ok in Hk as (d & Hd & Hk). apply bind_ok in Hk as (r & Hrr & Hk). apply bind_ok in Hk as (m & Hm & Hk).
  apply Ok_inj in Hk. subst uk. cbn [dk_msp raw_d] in *.
  apply slice_fromN_inv in Hrr as [Hle Hrr].
  assert (Lr : in_memory r) by (unfold in_memory; subst r; unfold blen in *; rewrite skipn_len; lia).
  exact (proj2 (msp_spec64 F fine HF P HP r Lr) m Hm).
Qed.

(** The outcome of refreshing a user key that was read from bytes, with any delegation key. *)
Theorem C103_refresh P it p kbytes uk (del : delegation_key B) (draw : nat -> K) :
  64 <= usize_bits P -> blen kbytes < 9223372036854775808 -> user_dec F P kbytes = Ok uk ->
  let attrs := row_to_attr (dk_msp uk) in
  (nb_col (dk_msp uk) = 0%nat -> is_err (eng_delegate P it p del uk AAll draw)) /\
  ((1 <= nb_col (dk_msp uk))%nat ->
    (attrs = [] \/ (exists i a, nth_error attrs i = Some a /\ (N.of_nat (length (inv_t del)) <= a \/ (length (raw_d uk) <= i)%nat)) ->
      eng_delegate P it p del uk AAll draw = Panic IndexOutOfBounds) /\
    (attrs <> [] -> (forall i a, nth_error attrs i = Some a -> a < N.of_nat (length (inv_t del)) /\ (i < length (raw_d uk))%nat) ->
      is_ok (eng_delegate P it p del uk AAll draw))).
Proof using HF.
  intros HP Hf Hk. pose proof (decoded_user_shape P kbytes uk HP Hf Hk) as D. cbv zeta. set (m := dk_msp uk) in *.
  unfold eng_delegate. cbn [bind]. unfold abe_key_delegation, key_randomization. fold m. split.
  - intros E. rewrite E. eexists. reflexivity.
  - intros Hc. destruct (zero_sharing_vector_total B (nb_col m) draw Hc) as (u & Eu). rewrite Eu. cbn [bind].
    destruct (Nat.eq_dec (nb_row m) 0) as [E0|E0].
    + assert (Ea : row_to_attr m = []) by (apply length_zero_iff_nil; rewrite (ds_labels _ _ D); exact E0). split; [intros _|contradiction].
      destruct (ds_matrix _ _ D) as (r0 & rows & Em & _ & Lr & _). unfold rerandomised_shares. rewrite Em. unfold enumerate. cbn [combine seq length mapM].
      unfold get_attr_from_row. rewrite Ea. reflexivity.
    + pose proof (decoded_shape_ok _ _ D ltac:(lia) Hc) as G. assert (Hl : length (row_to_attr m) = length (matrix m)) by (rewrite (pg_labels _ _ G), (pg_height _ _ G); reflexivity).
      rewrite (rerandomised_eq B) by exact Hl.
      assert (Lab : forall q, In q (labelled m) -> exists i, nth_error (row_to_attr m) i = Some (fst q)).
      { intros [a row] Hq. cbn [fst]. apply In_nth_error. unfold labelled in Hq. exact (in_combine_l _ _ _ _ Hq). }
      assert (One : forall q i, In q (labelled m) -> nth_error (row_to_attr m) i = Some (fst q) ->
         (fst q < N.of_nat (length (inv_t del)) /\ (i < length (raw_d uk))%nat /\ is_ok (deleg_one B uk del (fun x => x) u (fst q) (snd q))) \/
         ((N.of_nat (length (inv_t del)) <= fst q \/ (length (raw_d uk) <= i)%nat) /\ deleg_one B uk del (fun x => x) u (fst q) (snd q) = Panic IndexOutOfBounds)).
      { intros [a row] i _ Hi. cbn [fst snd] in *. unfold deleg_one. destruct (indexN_cases (inv_t del) a) as [[L [g E]]|[L E]]; rewrite E; cbn [bind].
        2: { right. split; [left; lia|reflexivity]. }
        unfold get_row_from_attr. fold m. rewrite (pg_index _ _ G).
        assert (Eg : assoc_get (combine (row_to_attr m) (seq 0 (nb_row m))) a = Some i).
        { rewrite <- (pg_labels _ _ G). rewrite (assoc_get_combine_nodup (row_to_attr m) 0 i a (pg_distinct _ _ G) Hi). reflexivity. }
        rewrite Eg. unfold index. destruct (nth_error (raw_d uk) i) as [x|] eqn:Ex.
        - left. split; [lia|]. split; [apply nth_error_Some; rewrite Ex; discriminate|eexists; reflexivity].
        - right. split; [right; apply nth_error_None; exact Ex|reflexivity]. }
      assert (Ne : row_to_attr m <> []) by (intros E; apply E0; rewrite <- (pg_labels _ _ G), E; reflexivity).
      split.
      * intros [E|(i & a & Hi & Hbad)]; [contradiction|]. rewrite (mapM_stops _ IndexOutOfBounds); [reflexivity| |].
        -- intros q Hq. destruct (Lab q Hq) as (j & Hj). destruct (One q j Hq Hj) as [(_ & _ & H)|[_ H]]; [left; exact H|right; exact H].
        -- assert (Hm : exists row, nth_error (matrix m) i = Some row).
           { destruct (nth_error (matrix m) i) as [row|] eqn:E; [exists row; reflexivity|]. apply nth_error_None in E.
             assert (i < length (row_to_attr m))%nat by (apply nth_error_Some; rewrite Hi; discriminate). lia. }
           destruct Hm as (row & Hm). exists (a, row). assert (Hq : In (a, row) (labelled m)).
           { unfold labelled. eapply nth_in_combine; eauto. }
           split; [exact Hq|]. destruct (One (a, row) i Hq Hi) as [(L1 & L2 & _)|[_ H]]; [cbn [fst] in L1; lia|exact H].
      * intros _ Hok. destruct (mapM_calm (fun q => deleg_one B uk del (fun x => x) u (fst q) (snd q)) (labelled m)) as (big & E).
        { intros q Hq. destruct (Lab q Hq) as (j & Hj). destruct (Hok j _ Hj) as [L1 L2]. destruct (One q j Hq Hj) as [(_ & _ & H)|[[H|H] _]]; [exact H|lia|lia]. }
        rewrite E. eexists. reflexivity.
Qed.

(** Delegating from a user key read from bytes never panics if the delegation key has the needed
    values and the user key has a part for each of its rows. *)
Theorem C103_delegation P n ops p kbytes uk (del : delegation_key B) it ap (draw : nat -> K) :
  64 <= usize_bits P -> blen kbytes < 9223372036854775808 -> user_dec F P kbytes = Ok uk ->
  run_ops ops (new_policy n) = Ok p -> proper_axes ops -> iteration_ok it -> ap <> AAll ->
  (forall c i, needed ops ap c -> nth_error (numbering ops) i = Some c -> (S i < length (inv_t del))%nat) ->
  (nb_row (dk_msp uk) <= length (raw_d uk))%nat ->
  no_panic (eng_delegate P it p del uk ap draw).
Proof using HF BL.
  intros HP Hf Hk Hp Hpr Hit Ha Hs Hr. pose proof (decoded_user_shape P kbytes uk HP Hf Hk) as D. pose proof (inv_history n ops p Hp) as I.
  assert (E : eng_delegate P it p del uk ap draw = (let* m := policy_to_msp it P p ap in key_delegation m uk del draw)).
  { unfold eng_delegate. destruct ap; try contradiction; destruct (policy_to_msp it P p _); reflexivity. }
  rewrite E. clear E. rewrite policy_to_msp_formula.
  pose proof (key_formula_no_panic it ops p ap Hit I) as Hnp. apply no_panic_cases in Hnp as [[f Ef]|[e E]].
  2: { rewrite E. apply no_panic_err. }
  rewrite Ef. cbn [bind]. destruct (ListDec.NoDup_dec N.eq_dec (leaves f)) as [Hnd|Hnd].
  2: { rewrite (to_msp_dup P f Hnd). apply no_panic_err. }
  destruct (to_msp_ok P f Hnd) as (rows & _ & Em). match type of Em with _ = Ok ?x => set (m := x) in * end.
  rewrite Em. cbn [bind]. pose proof (to_msp_msp_of K (bl_field B BL) P f m Em) as M.
  unfold key_delegation. destruct (zero_sharing_vector_total B (nb_col m) draw) as (u & Eu); [rewrite (mo_cols K f m M); lia|]. rewrite Eu. cbn [bind].
  rewrite (rerandomised_eq B) by (symmetry; apply (mo_mat K f m M)).
  assert (Q : no_panic (mapM (fun q => deleg_one B uk del of_i32 u (fst q) (snd q)) (labelled m))).
  { apply mapM_no_panic. intros q Hq. destruct (row_of_labelled B f m q M Hq) as [Hin _].
    apply (key_numbers it n ops p ap f Hp Hpr Hit Ef) in Hin as (c & i & Hc & Hi & E). pose proof (Hs c i Hc Hi) as L.
    unfold deleg_one. rewrite E. destruct (indexN_cases (inv_t del) (N.of_nat (S i))) as [[_ [g Eg]]|[L' _]]; [|lia]. rewrite Eg. cbn [bind].
    unfold get_row_from_attr. destruct (assoc_get (attr_to_row (dk_msp uk)) (N.of_nat (S i))) as [r|] eqn:Er; [|apply no_panic_err].
    rewrite (ds_index _ _ D) in Er. apply assoc_get_range in Er. unfold index. destruct (nth_error (raw_d uk) r) as [x|] eqn:Ex; [apply no_panic_ok|].
    apply nth_error_None in Ex. lia. }
  apply no_panic_cases in Q as [[big E]|[e E]]; rewrite E; [apply no_panic_ok|apply no_panic_err].
Qed.
End Decoded.
End Hostile.

(** ** Examples and witnesses *)
Local Open Scope string_scope.
Local Ltac vmr x := vm_cast_no_check (eq_refl x).
(** The private key of the examples with a zero in place of the secret of HR. *)
Definition zero_priv : master_private_key toy :=
  @mkPriv toy (firstn 5 (priv_t (priv_key ex_mk)) ++ f101 0 :: skipn 6 (priv_t (priv_key ex_mk))) (priv_y (priv_key ex_mk)).
Definition zero_bytes : list byte := bytes_of (priv_enc toy_forms zero_priv).
Example C102_example :
  priv_dec toy_forms release64 zero_bytes = Ok zero_priv /\ nth_error (numbering ops_a) 4 = Some (dept "HR") /\
  nth_error (priv_t zero_priv) 5 = Some f0 /\ needed ops_a (AAttr (dept "HR")) (dept "HR") /\
  length (priv_t (priv_key ex_mk)) = length (priv_t zero_priv) /\
  is_ok (eng_user_key release64 it_rev pol_a (priv_key ex_mk) (AAttr (dept "HR")) ex_kdraw) /\
  is_ok (eng_user_key release64 it_rev pol_a zero_priv (AAttr (dept "FIN")) ex_kdraw).
Proof.
  split; [vmr (@Ok (master_private_key toy) zero_priv)|]. split; [reflexivity|]. split; [vmr (@Some (zp m101) (f101 0))|].
  split; [exists (dept "HR"); split; [left; reflexivity|]; eexists _, false; split; [right; left; reflexivity|]; split; [simpl; tauto|left; reflexivity]|].
  split; [vm_compute; reflexivity|].
  split; [exists (run empty_key (@eng_user_key toy release64 it_rev pol_a (priv_key ex_mk) (AAttr (dept "HR")) ex_kdraw));
    vmr (@Ok (decryption_key toy) (run empty_key (@eng_user_key toy release64 it_rev pol_a (priv_key ex_mk) (AAttr (dept "HR")) ex_kdraw)))|].
  exists (run empty_key (@eng_user_key toy release64 it_rev pol_a zero_priv (AAttr (dept "FIN")) ex_kdraw));
    vmr (@Ok (decryption_key toy) (run empty_key (@eng_user_key toy release64 it_rev pol_a zero_priv (AAttr (dept "FIN")) ex_kdraw))).
Qed.

Theorem C102_refuted : exists bytes k, priv_dec toy_forms release64 bytes = Ok k /\
  eng_user_key release64 it_rev pol_a k (AAttr (dept "HR")) ex_kdraw = Panic DivisionByZero.
Proof.
  exists zero_bytes, zero_priv. destruct C102_example as (H1 & H2 & H3 & H4 & H5 & H6 & _). split; [exact H1|].
  apply (C102_zero_secret_refuted toy toy_laws release64 10 ops_a pol_a zero_priv (priv_key ex_mk) it_rev (AAttr (dept "HR")) ex_kdraw);
    [reflexivity|exact ops_a_proper|exact it_rev_ok|symmetry; exact H5 || exact H5|exact H6|].
  exists (dept "HR"), 4%nat. split; [exact H4|split; [exact H2|exact H3]].
Qed.

(** The key of the examples without its last part. *)
Definition cut_key : decryption_key toy := @mkDec toy (firstn 3 (raw_d ex_uk)) (firstn 3 (d_i ex_uk)) (dk_msp ex_uk).
Definition cut_bytes : list byte := bytes_of (user_enc toy_forms release64 cut_key).
Example C103_example :
  user_dec toy_forms release64 cut_bytes = Ok cut_key /\ N.ltb (blen cut_bytes) 9223372036854775808 = true /\
  nb_col (dk_msp cut_key) = 3%nat /\ length (row_to_attr (dk_msp cut_key)) = 4%nat /\
  is_ok (eng_delegate release64 it_rev pol_a (del_key ex_mk) ex_uk AAll ex_draw).
Proof.
  split; [vmr (@Ok (decryption_key toy) cut_key)|]. split; [vm_compute; reflexivity|]. split; [vm_compute; reflexivity|].
  split; [vm_compute; reflexivity|].
  exists (run empty_key (@eng_delegate toy release64 it_rev pol_a (del_key ex_mk) ex_uk AAll ex_draw)).
  vmr (@Ok (decryption_key toy) (run empty_key (@eng_delegate toy release64 it_rev pol_a (del_key ex_mk) ex_uk AAll ex_draw))).
Qed.

Theorem C103_refuted : exists bytes uk, user_dec toy_forms release64 bytes = Ok uk /\
  eng_delegate release64 it_rev pol_a (del_key ex_mk) uk AAll ex_draw = Panic IndexOutOfBounds.
Proof.
  exists cut_bytes, cut_key. destruct C103_example as (H1 & _). split; [exact H1|]. vmr (@Panic (decryption_key toy) IndexOutOfBounds).
Qed.

Print Assumptions C102_only_zero_secrets.
Print Assumptions C102_zero_secret_refuted.
Print Assumptions C102_refuted.
Print Assumptions C103_refresh.
Print Assumptions C103_delegation.
Print Assumptions C103_refuted.
