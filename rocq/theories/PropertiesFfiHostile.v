(** Which inputs make the C functions crash: C106. *)
From Coq Require Import String NArith ZArith Bool Lia Strings.Byte List.
From Verif Require Import Prelude Field LinAlg Msp Spec MspProofs Gauss GaussProofs MspTheorems Bilinear Scheme SchemeSpec SchemeProofs SchemeTheorems
  Zp ExpModel PropertiesScheme Codec CodecProofs SchemeCodec SchemeCodecProofs PropertiesCodec
  Policy PolicySpec PolicyProofs Engine EngineSpec EngineProofs PropertiesEngine CopiesSpec PropertiesCopies PropertiesHostileKeys
  Hybrid HybridSpec PropertiesHybrid Ffi FfiSpec PropertiesFfi PropertiesHostileDecrypt.
Import ListNotations.
Local Open Scope N_scope.

(** The caller offers a buffer and announces a length other than 0. *)
Definition offered (o : out_arg) : Prop := exists mem len, o_mem o = Some mem /\ o_len o = Some len /\ len <> 0%Z.

(** ** Where a crash comes from *)
Lemma then_crash {A C} (m : ffi A) (k : A -> ffi C) outs q :
  andthen m k outs = Crash q <-> m outs = Crash q \/ exists a outs', m outs = Go a outs' /\ k a outs' = Crash q.
Proof.
  unfold andthen. destruct (m outs) as [a o|e o|p|]; split; intros H; try discriminate; try (destruct H as [H|(a' & o' & H & H')]; congruence).
  - right. exists a, o. split; [reflexivity|exact H].
  - left. congruence.
Qed.
Lemma check_crash i w outs q : check_out i w outs <> Crash q.
Proof. unfold check_out. destruct (nth_error outs i) as [o|]; [|discriminate]. destruct (o_mem o); [|discriminate]. destruct (o_len o) as [[| |]|]; discriminate. Qed.
Lemma check_offered i w outs o : nth_error outs i = Some o -> (offered o <-> check_out i w outs = Go Datatypes.tt outs).
Proof.
  intros E. unfold check_out, offered. rewrite E. destruct (o_mem o) as [mem|]; [|split; [intros (? & ? & H & _); discriminate|discriminate]].
  destruct (o_len o) as [len|]; [|split; [intros (? & ? & _ & H & _); discriminate|discriminate]].
  split; [intros (? & ? & _ & H & Hn); destruct len; [congruence|reflexivity|reflexivity]|].
  intros H. exists mem, len. split; [reflexivity|]. split; [reflexivity|]. intros ->. discriminate.
Qed.
Lemma check_got i w outs u outs' : check_out i w outs = Go u outs' -> outs' = outs /\ exists o, nth_error outs i = Some o /\ offered o.
Proof. intros H. apply check_go in H as [-> (o & mem & len & H)]. split; [reflexivity|]. exists o. split; [apply H|]. exists mem, len. apply H. Qed.
Lemma unwrap_crash {A} (o : outcome A) outs q : unwrap o outs = Crash q <-> o = Panic q.
Proof. unfold unwrap. destruct o; split; intros H; congruence. Qed.
Lemma unwrap_go {A} (o : outcome A) outs a outs' : unwrap o outs = Go a outs' <-> o = Ok a /\ outs' = outs.
Proof. unfold unwrap. destruct o; split; intros H; try discriminate; try (destruct H; congruence). split; congruence. Qed.
Lemma null_crash {A} (x : option A) w outs q : not_null x w outs <> Crash q.
Proof. destruct x; discriminate. Qed.
Lemma null_go {A} (x : option A) w outs a outs' : not_null x w outs = Go a outs' <-> x = Some a /\ outs' = outs.
Proof. destruct x; cbn; unfold ret, bail; split; intros H; try discriminate; try (destruct H; congruence). split; congruence. Qed.
Lemma input_crash x w outs q : input_bytes x w outs <> Crash q.
Proof. destruct x as [[|? ?]|]; discriminate. Qed.
Lemma input_go x w outs a outs' : input_bytes x w outs = Go a outs' <-> x = Some a /\ a <> [] /\ outs' = outs.
Proof.
  unfold input_bytes, andthen. destruct x as [[|b l]|]; cbn; unfold ret, bail; split; intros H; try discriminate; try (destruct H as (? & ? & ?); congruence).
  split; [congruence|]. split; [|congruence]. injection H as <- _. discriminate.
Qed.
Lemma deliver_crash P i d outs q : deliver P i d outs <> Crash q.
Proof.
  unfold deliver. destruct (nth_error outs i) as [[[mem|] [len|]]|]; try discriminate. destruct (_ <? _); [discriminate|]. destruct (copy_out mem d); discriminate.
Qed.
Lemma deliver_late_crash P i d outs q : deliver_late P i d outs <> Crash q.
Proof.
  unfold deliver_late. destruct (nth_error outs i) as [[[mem|] [len|]]|]; try discriminate. destruct (_ <? _); [discriminate|]. destruct (copy_out mem d); discriminate.
Qed.
Lemma deliver_expected_crash P i d outs q : deliver_expected P i d outs <> Crash q.
Proof.
  unfold deliver_expected. destruct (nth_error outs i) as [o|]; [|discriminate]. destruct (o_mem o); [|discriminate]. destruct (o_len o) as [len|]; [|discriminate].
  destruct (0 <? len)%Z; [|discriminate]. destruct d; [apply deliver_crash|discriminate].
Qed.

(** Encoding what the library computed does not panic. *)
Lemma vec_enc_np {A} (c : codec A) k V l : codec_ok c k V -> no_panic (vec_enc c l).
Proof.
  intros C. unfold vec_enc. destruct l as [|x l]; [apply no_panic_ok|]. apply no_panic_bind; [unfold u32_bytes; destruct (_ <? _); [apply no_panic_ok|apply no_panic_err]|].
  intros n _. apply no_panic_bind; [|intros; apply no_panic_ok]. apply mapM_no_panic. intros a _. destruct (ok_enc _ _ _ C a) as (b & E & _). rewrite E. apply no_panic_ok.
Qed.

Section FfiHostile.
Variable B : BilinearMap.
Hypothesis BL : BilinearLaws B.
Notation K := (bm_K B).
Variable P : platform.
Variable F : byte_forms B.
Variable fine : Gt B -> Prop.
Hypothesis HF : forms_ok F fine.
Variable shake : list byte -> nat -> list byte.
Variable S : sym_scheme.
Variable policy_from : list byte -> outcome policy.
Variable attributes_from : list byte -> outcome (list attribute).
Variable access_from : list byte -> outcome access_policy.
Variable policy_text : policy -> list byte.
(** a release build for a machine with 64 bits *)
Hypothesis HP : 64 <= usize_bits P.
Hypothesis Ho : overflow_checks P = false.
(** the external functions return errors *)
Hypothesis T : sym_total S.
Hypothesis T1 : forall k m n a p, sym_encrypt S k m n a <> Panic p.
Hypothesis T2 : forall m p, meta_to_bytes S m <> Panic p.
Hypothesis T3 : forall k u i n m p, block_encrypt S k u i n m <> Panic p.
Hypothesis J1 : forall t p, policy_from t <> Panic p.
Hypothesis J2 : forall t p, attributes_from t <> Panic p.
Hypothesis J3 : forall t p, access_from t <> Panic p.

Local Notation encrypt_header := (h_aes_encrypt_header P F shake S policy_from attributes_from).
Local Notation decrypt_header := (h_aes_decrypt_header P F shake S).
Local Notation encrypt_block := (h_aes_encrypt_block P S).
Local Notation decrypt_block := (h_aes_decrypt_block P S).
Local Notation master_keys := (h_generate_master_keys (B := B) P F policy_from).
Local Notation user_private_key := (h_generate_user_private_key (B := B) P F policy_from access_from).
Local Notation rotate_attributes := (h_rotate_attributes P policy_from attributes_from policy_text).

Ltac step H := apply then_crash in H as [H|(? & ? & ? & H)]; [exfalso; first [exact (check_crash _ _ _ _ H)|exact (null_crash _ _ _ _ H)|exact (input_crash _ _ _ _ H)]|].
Ltac clean := repeat match goal with
  | H : not_null _ _ _ = Go _ _ |- _ => apply null_go in H as [H ->]
  | H : input_bytes _ _ _ = Go _ _ |- _ => apply input_go in H as (H & ? & ->)
  | H : unwrap _ _ = Go _ _ |- _ => apply unwrap_go in H as [H ->]
  | H : check_out _ _ _ = Go _ _ |- _ => apply check_got in H as [-> (? & ? & ?)]
  end.

(** Blocks and rotations never crash. *)
Theorem C106_never_crash q :
  (forall key u number data nonce outs, encrypt_block key u number data nonce outs <> Crash q) /\
  (forall key u number data outs, decrypt_block key u number data outs <> Crash q) /\
  (forall attrs pol outs, rotate_attributes attrs pol outs <> Crash q).
Proof using T T3 J1 J2.
  assert (A : forall n k, array_from n k <> Panic q) by (intros n k; unfold array_from; destruct (Nat.eqb _ _); discriminate).
  split; [|split]; intros.
  - intros H. unfold h_aes_encrypt_block in H. do 3 step H. apply then_crash in H as [H|(? & ? & _ & H)]; [apply unwrap_crash in H; exact (A _ _ H)|].
    apply then_crash in H as [H|(? & ? & _ & H)]; [|exact (deliver_late_crash _ _ _ _ _ H)]. apply unwrap_crash in H. revert H. unfold encrypt_hybrid_block.
    match goal with |- context [match ?d with [] => _ | _ :: _ => _ end] => destruct d; [discriminate|] end. destruct (_ <? _); [discriminate|apply T3].
  - intros H. unfold h_aes_decrypt_block in H. do 3 step H. apply then_crash in H as [H|(? & ? & _ & H)]; [apply unwrap_crash in H; exact (A _ _ H)|].
    apply then_crash in H as [H|(? & ? & _ & H)]; [|exact (deliver_late_crash _ _ _ _ _ H)]. apply unwrap_crash in H. revert H. unfold decrypt_hybrid_block.
    match goal with |- context [match ?d with [] => _ | _ :: _ => _ end] => destruct d; [discriminate|] end. destruct (_ <? _); [discriminate|apply T].
  - intros H. unfold h_rotate_attributes in H. do 3 step H. apply then_crash in H as [H|(l & ? & _ & H)]; [apply unwrap_crash in H; exact (J2 _ _ H)|].
    apply then_crash in H as [H|(p & ? & _ & H)]; [apply unwrap_crash in H; exact (J1 _ _ H)|].
    apply then_crash in H as [H|(? & ? & _ & H)]; [|exact (deliver_crash _ _ _ _ _ H)]. apply unwrap_crash in H. revert p H.
    induction l as [|a l IH]; intros p H; [discriminate|]. cbn [rotate_all] in H. apply bind_panic in H as [H|(p' & _ & H)]; [|exact (IH p' H)].
    revert H. unfold rotate. destruct (_ =? _); [discriminate|]. destruct (heap_get p a); discriminate.
Qed.

(** Master keys: only a secret that was drawn as zero. *)
Theorem C106_master_keys pol draw o q : master_keys pol draw [o] = Crash q <->
  q = DivisionByZero /\ offered o /\ exists t p i, pol = Some t /\ policy_from t = Ok p /\ (i < N.to_nat (max_attribute_creations p))%nat /\ draw i = @f0 K.
Proof using BL HF J1.
  split.
  - intros H. unfold h_generate_master_keys in H. do 2 step H. clean.
    apply then_crash in H as [H|(p & ? & Ep & H)]; [apply unwrap_crash in H; destruct (J1 _ _ H)|]. clean.
    apply then_crash in H as [H|(mk & ? & Emk & H)].
    + apply unwrap_crash in H. unfold eng_master_key in H. destruct (C43_master_key_generation B BL P (N.to_nat (max_attribute_creations p)) draw) as [X Y].
      assert (Z : (exists i, (i < N.to_nat (max_attribute_creations p))%nat /\ draw i = f0) \/ forall i, (i < N.to_nat (max_attribute_creations p))%nat -> draw i <> f0).
      { clear - BL. induction (N.to_nat (max_attribute_creations p)) as [|n IH]; [right; lia|]. destruct IH as [(i & L & E)|IH]; [left; exists i; split; [lia|exact E]|].
        destruct (K_eq_dec K (bl_field B BL) (draw n) f0) as [E|E]; [left; exists n; split; [lia|exact E]|right]. intros i L. destruct (Nat.eq_dec i n) as [->|]; [exact E|apply IH; lia]. }
      destruct Z as [(i & L & E)|Z]; [|destruct (X Z) as (mk & E & _); congruence]. specialize (Y (ex_intro _ i (conj L E))).
      split; [congruence|]. split; [match goal with H : nth_error [o] 0 = Some ?x |- _ => injection H as <-; assumption end|].
      eexists _, p, i. eauto.
    + exfalso. clean. apply then_crash in H as [H|(? & ? & _ & H)].
      { apply unwrap_crash in H. revert H. unfold priv_enc. apply no_panic_bind; [apply (vec_enc_np _ _ _ _ (scalar_ok F fine HF))|]. intros. apply no_panic_ok. }
      apply then_crash in H as [H|(? & ? & _ & H)]; [|exact (deliver_crash _ _ _ _ _ H)].
      apply unwrap_crash in H. revert H. unfold pub_enc. apply no_panic_bind; [apply (vec_enc_np _ _ _ _ (g2_ok F fine HF))|]. intros. apply no_panic_ok.
  - intros (-> & Hof & t & p & i & -> & Ep & L & E). unfold h_generate_master_keys. apply (check_offered 0 "master keys" [o] o eq_refl) in Hof.
    unfold andthen at 1. rewrite Hof. unfold andthen at 1. cbn [not_null ret]. unfold andthen at 1. rewrite Ep. cbn [unwrap]. unfold andthen at 1.
    unfold eng_master_key. rewrite (proj2 (C43_master_key_generation B BL P (N.to_nat (max_attribute_creations p)) draw) (ex_intro _ i (conj L E))). reflexivity.
Qed.

(** Header decryption: exactly the ciphertexts on which decryption stops. *)
Theorem C106_decrypt_header header uk o o1 o2 q :
  (forall b, header = Some b -> blen b < 9223372036854775808) -> (forall b, uk = Some b -> blen b < 9223372036854775808) ->
  (decrypt_header header uk [o; o1; o2] = Crash q <->
   q = IndexOutOfBounds /\ offered o /\ exists b kbytes k ct, header = Some b /\ uk = Some kbytes /\ user_dec F P kbytes = Ok k /\
     4 <= blen b /\ 4 + from_be (firstn 4 b) <= blen b /\
     ct_dec F P (firstn (N.to_nat (from_be (firstn 4 b))) (skipn 4 b)) = Ok ct /\
     stops (gamma ct) (length (e_i ct)) (row_to_attr (dk_msp k)) (length (raw_d k)) (nb_col (dk_msp k))).
Proof using BL HF HP Ho T.
  intros Lh Lk. split.
  - intros H. unfold h_aes_decrypt_header in H. do 3 step H. clean.
    match goal with H1 : header = Some ?h, H2 : uk = Some ?k |- _ => rename h into b, k into kbytes, H1 into Eh, H2 into Euk end.
    apply then_crash in H as [H|(k & ? & Ek & H)].
    { apply unwrap_crash in H. destruct (C22_decoding_never_panics B F fine HF P kbytes HP Ho (Lk _ Euk)) as (_ & _ & _ & N & _). destruct (N q H). }
    clean. apply then_crash in H as [H|(c & ? & _ & H)].
    + apply unwrap_crash in H. apply (C105_headers B BL F fine HF shake S P kbytes k b q T HP Ho (Lk _ Euk) (Lh _ Eh) Ek) in H as (-> & L4 & Ls & ct & Ec & Hs).
      split; [reflexivity|]. split; [match goal with H : nth_error [o; o1; o2] 0 = Some ?x |- _ => injection H as <-; assumption end|].
      exists b, kbytes, k, ct. auto 10.
    + exfalso. unfold deliver_clear in H. apply then_crash in H as [H|(? & ? & _ & H)]; [exact (deliver_crash _ _ _ _ _ H)|].
      apply then_crash in H as [H|(? & ? & _ & H)]; exact (deliver_expected_crash _ _ _ _ _ H).
  - intros (-> & Hof & b & kbytes & k & ct & -> & -> & Ek & L4 & Ls & Ec & Hs). unfold h_aes_decrypt_header.
    apply (check_offered 0 "symmetric key" [o; o1; o2] o eq_refl) in Hof. unfold andthen at 1. rewrite Hof.
    assert (E1 : input_bytes (Some b) "encrypted header" [o; o1; o2] = Go b [o; o1; o2]) by (apply input_go; split; [reflexivity|]; split; [intros ->; cbn in L4; lia|reflexivity]).
    assert (E2 : input_bytes (Some kbytes) "user decryption key" [o; o1; o2] = Go kbytes [o; o1; o2]) by (apply input_go; split; [reflexivity|]; split; [intros ->; discriminate Ek|reflexivity]).
    unfold andthen at 1. rewrite E1. unfold andthen at 1. rewrite E2. unfold andthen at 1. rewrite Ek. cbn [unwrap]. unfold andthen at 1.
    assert (E3 : decrypt_hybrid_header S F shake P k b = Panic IndexOutOfBounds).
    { apply (C105_headers B BL F fine HF shake S P kbytes k b _ T HP Ho (Lk _ eq_refl) (Lh _ eq_refl) Ek). split; [reflexivity|]. split; [exact L4|]. split; [exact Ls|]. exists ct. split; assumption. }
    rewrite E3. reflexivity.
Qed.

(** User keys: only private keys with a needed secret that is zero, *)
Lemma few_numbers (l : list N) n : NoDup l -> (forall a, In a l -> a < N.of_nat n) -> (length l <= n)%nat.
Proof using Type.
  clear. intros Hnd H. rewrite <- (seq_length n 0), <- (map_length N.of_nat). apply NoDup_incl_length; [exact Hnd|]. intros a Ha. apply in_map_iff.
  exists (N.to_nat a). specialize (H a Ha). split; [lia|]. apply in_seq. lia.
Qed.

Lemma priv_slots bytes k : blen bytes < 4294967296 -> priv_dec F P bytes = Ok k -> N.of_nat (length (priv_t k)) <= 134217728.
Proof using HF HP.
  intros Hb E. unfold priv_dec in E. apply bind_ok in E as (t & Et & E). apply bind_ok in E as (r & _ & E). apply bind_ok in E as (y & _ & E). apply Ok_inj in E. subst k. cbn [priv_t].
  destruct (vec_dec_inv (scalar_codec F) 32 _ (scalar_ok F fine HF) P bytes t) as [[_ ->]|(_ & L & _)]; [|exact Et|cbn; lia|lia].
  apply in_memory_fits; [exact HP|]. unfold in_memory. lia.
Qed.

Lemma user_key_panics it n ops p t y ap draw q : run_ops ops (new_policy n) = Ok p -> proper_axes ops -> iteration_ok it ->
  eng_user_key P it p (mkPriv t y) ap draw = Panic q ->
  q = DivisionByZero /\ exists c i, needed ops ap c /\ nth_error (numbering ops) i = Some c /\ nth_error t (Datatypes.S i) = Some (@f0 K).
Proof using BL.
  clear HP. intros Hp Hpr Hit H.
    assert (Z : (exists i c, needed ops ap c /\ nth_error (numbering ops) i = Some c /\ nth_error t (Datatypes.S i) = Some f0) \/
                forall c i, needed ops ap c -> nth_error (numbering ops) i = Some c -> nth_error t (Datatypes.S i) <> Some f0).
    { (* the numbers are those of a formula, which can be searched *)
      unfold eng_user_key in H. rewrite policy_to_msp_formula in H. destruct (key_formula it p ap) as [f|e|q'] eqn:Ef; [|discriminate H|].
      - clear H. assert (D : (exists v, In v (leaves f) /\ nth_error t (N.to_nat v) = Some f0) \/ forall v, In v (leaves f) -> nth_error t (N.to_nat v) <> Some f0).
        { clear - BL. induction (leaves f) as [|v l IH]; [right; intros ? []|]. destruct IH as [(w & Hw & E)|IH]; [left; exists w; split; [right; exact Hw|exact E]|].
          destruct (nth_error t (N.to_nat v)) as [x|] eqn:E.
          - destruct (K_eq_dec K (bl_field B BL) x f0) as [->|Hx]; [left; exists v; split; [left; reflexivity|exact E]|]. right. intros w [<-|Hw]; [rewrite E; congruence|apply IH; exact Hw].
          - right. intros w [<-|Hw]; [rewrite E; discriminate|apply IH; exact Hw]. }
        destruct D as [(v & Hv & E)|D].
        + left. apply (key_numbers it n ops p ap f Hp Hpr Hit Ef) in Hv as (c & i & Hc & Hi & ->). rewrite Nat2N.id in E. exists i, c. auto.
        + right. intros c i Hc Hi E. apply (D (N.of_nat (Datatypes.S i))); [apply (key_numbers it n ops p ap f Hp Hpr Hit Ef); exists c, i; auto|]. rewrite Nat2N.id. exact E.
      - exfalso. exact (key_formula_no_panic it ops p ap Hit (inv_history n ops p Hp) q' Ef). }
    destruct Z as [(i & c & Hc & Hi & Hzero)|Z]; [|destruct (C102_only_zero_secrets B BL P n ops p (mkPriv t y) it ap draw Hp Hpr Hit Z q H)].
    split; [|exists c, i; auto 8].
    (* the only panic of the generation is the division *)
    unfold eng_user_key in H. rewrite policy_to_msp_formula in H. apply bind_panic in H as [H|(m & Em & H)].
    { exfalso. apply bind_panic in H as [H|(f & Ef & H)]; [exact (key_formula_no_panic it ops p ap Hit (inv_history n ops p Hp) q H)|].
      destruct (ListDec.NoDup_dec N.eq_dec (leaves f)) as [Hnd|Hnd]; [destruct (to_msp_ok P f Hnd) as (rows & _ & E); congruence|rewrite (to_msp_dup P f Hnd) in H; discriminate]. }
    apply bind_ok in Em as (f & Ef & Em). pose proof (to_msp_msp_of K (bl_field B BL) P f m Em) as M. rewrite (key_generation_eq B f) in H by exact M.
    apply bind_panic in H as [H|(u & Hu & H)]; [destruct (sharing_vector_total B (nb_col m) draw y) as [u Hu]; [rewrite (mo_cols K f m M); lia|congruence]|].
    apply bind_panic in H as [H|(big & _ & H)]; [|discriminate H].
    assert (X : exists a row, In (a, row) (labelled m) /\ gen_one B t u a row = Panic q).
    { revert H. generalize (labelled m). induction l as [|[a row] l IH]; [discriminate|]. cbn [mapM fst snd]. intros H.
      apply bind_panic in H as [H|(xa & _ & H)]; [exists a, row; split; [left; reflexivity|exact H]|]. apply bind_panic in H as [H|(xs & _ & H)]; [|discriminate].
      destruct (IH H) as (a' & row' & Hin & E). exists a', row'. split; [right; exact Hin|exact E]. }
    destruct X as (a & row & _ & X). revert X. unfold gen_one. destruct (N.leb_spec (N.of_nat (length t)) a) as [|L]; [discriminate|].
    rewrite (indexN_ok t a f0) by lia. cbn [bind]. unfold sdiv. destruct (feqb _ _); cbn [bind]; congruence.
Qed.
Lemma user_key_encoded it p t y ap draw uk q : N.of_nat (length t) <= 134217728 -> eng_user_key P it p (mkPriv t y) ap draw = Ok uk -> user_enc F P uk <> Panic q.
Proof using BL HF HP.
  intros Ls Eu H.
    unfold eng_user_key in Eu. rewrite policy_to_msp_formula in Eu. apply bind_ok in Eu as (m & Em & Eu). apply bind_ok in Em as (f & Ef & Em).
    pose proof (to_msp_msp_of K (bl_field B BL) P f m Em) as M. destruct (key_generation_rep B BL f m t y draw uk M Eu) as (u & _ & R & _).
    assert (Hin : forall a, In a (leaves f) -> a < N.of_nat (length t)) by (intros a Ha; pose proof (kr_range _ _ _ _ _ _ R a Ha) as X; unfold in_range in X; lia).
    destruct (rep_key_ok t f m (share B m u) uk R) as (Hk & Hr & Hc); [apply Forall_forall; intros a Ha; specialize (Hin a Ha); unfold u32, u32_modulus; lia|].
    pose proof (few_numbers (leaves f) (length t) (mo_nodup K f m M) Hin) as Hl. pose proof (count_and_leaves f) as Hca.
    destruct (user_round F fine HF P HP uk [] Hk) as (b & E & _ & _); [lia|lia|reflexivity|]. congruence.
Qed.

Theorem C106_user_key it n ops p priv access pol draw o q :
  policy_from pol = Ok p -> run_ops ops (new_policy n) = Ok p -> proper_axes ops -> iteration_ok it -> blen priv < 4294967296 ->
  user_private_key it (Some priv) (Some access) (Some pol) draw [o] = Crash q ->
  q = DivisionByZero /\ exists k ap c i, priv_dec F P priv = Ok k /\ access_from access = Ok ap /\
    needed ops ap c /\ nth_error (numbering ops) i = Some c /\ nth_error (priv_t k) (Datatypes.S i) = Some f0.
Proof using BL HF HP Ho J3.
  intros Ep Hp Hpr Hit Lp H. unfold h_generate_user_private_key in H. do 4 step H. clean.
  repeat match goal with H : Some _ = Some _ |- _ => injection H as <- end.
  apply then_crash in H as [H|(k & ? & Ek & H)].
  { apply unwrap_crash in H. destruct (C22_decoding_never_panics B F fine HF P priv HP Ho ltac:(lia)) as (N & _). destruct (N q H). }
  clean. apply then_crash in H as [H|(ap & ? & Ea & H)]; [apply unwrap_crash in H; destruct (J3 _ _ H)|]. clean.
  apply then_crash in H as [H|(p' & ? & Ep' & H)]; [apply unwrap_crash in H; congruence|]. clean. assert (p' = p) by congruence. subst p'.
  pose proof (priv_slots priv k Lp Ek) as Ls. destruct k as [t y]. cbn [priv_t] in Ls.
  apply then_crash in H as [H|(uk & ? & Eu & H)].
  - apply unwrap_crash in H. destruct (user_key_panics it n ops p t y ap draw q Hp Hpr Hit H) as (-> & c & i & Q1 & Q2 & Q3). split; [reflexivity|]. exists (mkPriv t y), ap, c, i. auto 8.
  - exfalso. clean. apply then_crash in H as [H|(? & ? & _ & H)]; [|exact (deliver_crash _ _ _ _ _ H)]. apply unwrap_crash in H. exact (user_key_encoded it p t y ap draw uk q Ls Eu H).
Qed.

(** and the function crashes on these whenever it gives a key for a private key of the same size. *)
Theorem C106_user_key_crashes it n ops p priv access pol draw k k' ap uk o :
  policy_from pol = Ok p -> run_ops ops (new_policy n) = Ok p -> proper_axes ops -> iteration_ok it -> offered o ->
  priv_dec F P priv = Ok k -> access_from access = Ok ap ->
  length (priv_t k') = length (priv_t k) -> eng_user_key P it p k' ap draw = Ok uk ->
  (exists c i, needed ops ap c /\ nth_error (numbering ops) i = Some c /\ nth_error (priv_t k) (Datatypes.S i) = Some f0) ->
  user_private_key it (Some priv) (Some access) (Some pol) draw [o] = Crash DivisionByZero.
Proof using BL.
  intros Ep Hp Hpr Hit Hof Ek Ea Hl Eu Hz. unfold h_generate_user_private_key. apply (check_offered 0 "user private key" [o] o eq_refl) in Hof.
  unfold andthen at 1. rewrite Hof.
  assert (E1 : input_bytes (Some priv) "master private key" [o] = Go priv [o]) by (apply input_go; split; [reflexivity|]; split; [intros ->; discriminate Ek|reflexivity]).
  unfold andthen at 1. rewrite E1. unfold andthen at 1. cbn [not_null ret]. unfold andthen at 1. cbn [not_null ret].
  unfold andthen at 1. rewrite Ek. cbn [unwrap]. unfold andthen at 1. rewrite Ea. cbn [unwrap]. unfold andthen at 1. rewrite Ep. cbn [unwrap]. unfold andthen at 1.
  rewrite (C102_zero_secret_refuted B BL P n ops p k k' it ap draw Hp Hpr Hit Hl (ex_intro _ uk Eu) Hz). reflexivity.
Qed.

Lemma any_header_panics n ops p pk k l meta random (s : K) nonce q :
  run_ops ops (new_policy n) = Ok p -> proper_axes ops -> blen pk < usize_modulus P -> pub_dec F P pk = Ok k ->
  (encrypt_hybrid_header S F shake P p k l meta random s nonce = Panic q <->
   q = IndexOutOfBounds /\ (length l < length (pub_t k))%nat /\ (forall b, In b l -> declared ops b) /\
     exists b i, In b l /\ last_place (numbering ops) b i /\ (length (pub_t k) <= Datatypes.S i)%nat).
Proof using HF T1 T2.
  clear HP. intros Hp Hpr Hin Ek.
  assert (Pk : forall k, pub_dec F P pk = Ok k -> (0 < length (pub_t k))%nat /\ fits P (length (pub_t k))).
  { clear k Ek. intros k E. unfold pub_dec in E. apply bind_ok in E as (t & Et & E). apply bind_ok in E as (r & Er & E). apply bind_ok in E as (y & Ey & E). apply Ok_inj in E. subst k. cbn [pub_t].
    destruct (vec_dec_inv (g2_codec F) 48 _ (g2_ok F fine HF) P pk t Hin Et) as [[-> ->]|(Ne & L & _)].
    - exfalso. cbn in Er. assert (r = []) by congruence. subst r. discriminate Ey.
    - split; [destruct t; [contradiction|cbn; lia]|]. unfold fits. lia. }
  split.
  - intros H. unfold encrypt_hybrid_header in H.
    assert (A : forall n k, array_from n k <> Panic q) by (intros n' k'; unfold array_from; destruct (Nat.eqb _ _); discriminate).
    assert (U : forall b, u32_len b <> Panic q) by (intros b'; unfold u32_len; destruct (_ <? _); discriminate).
    assert (E : eng_encrypt P p k l random s = Panic q).
    { apply bind_panic in H as [H|([sk esk] & _ & H)].
      - unfold generate_symmetric_key in H. apply bind_panic in H as [H|(ct & _ & H)]; [exact H|]. exfalso. apply bind_panic in H as [H|(? & _ & H)].
        + revert H. unfold ct_enc. apply no_panic_bind; [apply (vec_enc_np _ _ _ _ u32_codec_ok)|]. intros. apply no_panic_bind; [apply no_panic_ok|]. intros.
          apply no_panic_bind; [apply (vec_enc_np _ _ _ _ (g2_ok F fine HF))|]. intros. apply no_panic_ok.
        + apply bind_panic in H as [H|(? & _ & H)]; discriminate H.
      - exfalso. apply bind_panic in H as [H|(? & _ & H)]; [exact (A _ _ H)|]. apply bind_panic in H as [H|(? & _ & H)]; [exact (U _ H)|].
        apply bind_panic in H as [H|(? & _ & H)]; [|discriminate H]. destruct meta as [meta|]; [|discriminate H]. apply bind_panic in H as [H|(? & _ & H)]; [exact (T2 _ _ H)|].
        apply bind_panic in H as [H|(? & _ & H)]; [exact (T1 _ _ _ _ _ H)|]. apply bind_panic in H as [H|(? & _ & H)]; [exact (U _ H)|discriminate H]. }
    clear H. destruct (Pk k Ek) as [K1 K2]. destruct (C101_encryption B P n ops p k l random s Hp Hpr K1 K2) as [X Y].
    assert (D : forall b, In b l -> declared ops b).
    { intros b Hb. destruct (heap_get p b) as [h|] eqn:Eh.
      - apply (i_decl ops p (inv_history n ops p Hp)). exists h. exact Eh.
      - exfalso. assert (X' : exists b, In b l /\ ~ declared ops b).
        { exists b. split; [exact Hb|]. intros Hd. apply (i_decl ops p (inv_history n ops p Hp)) in Hd as (h & Eh'). congruence. }
        destruct (X X') as [e Ee]. congruence. }
    destruct (Y D) as [Y1 Y2]. destruct (le_lt_dec (length (pub_t k)) (length l)) as [L|L]; [destruct (Y1 L); congruence|]. destruct (Y2 L) as [Z1 Z2].
    assert (Q : (exists b i, In b l /\ last_place (numbering ops) b i /\ (length (pub_t k) <= Datatypes.S i)%nat) \/
                forall b i, In b l -> last_place (numbering ops) b i -> (Datatypes.S i < length (pub_t k))%nat).
    { assert (V : forall b, In b l -> exists i, last_place (numbering ops) b i).
      { intros b Hb. destruct (attributes_values_ok ops p l (inv_history n ops p Hp) D) as (gam & Eg & _).
        destruct (Forall2_in_l _ _ _ _ (attributes_values_inv p l gam Eg) Hb) as (v & _ & Hc). destruct (current_place n ops p b v Hp Hpr Hc) as (i & _ & Hi). exists i. exact Hi. }
      clear - V. induction l as [|b l IH]; [right; intros ? ? []|]. destruct IH as [(b' & i & Hb & H)|IH]; [intros b' Hb; apply V; right; exact Hb|left; exists b', i; split; [right; exact Hb|exact H]|].
      destruct (V b (or_introl eq_refl)) as (i & Hi). destruct (le_lt_dec (length (pub_t k)) (Datatypes.S i)) as [L|L]; [left; exists b, i; split; [left; reflexivity|split; assumption]|].
      right. intros b' j [<-|Hb] Hj; [|apply (IH b' j Hb Hj)]. pose proof (last_place_le _ _ _ _ Hj (proj1 Hi)). pose proof (last_place_le _ _ _ _ Hi (proj1 Hj)). lia. }
    destruct Q as [Q|Q]; [|destruct (Z2 Q); congruence]. split; [rewrite (Z1 Q) in E; congruence|].
    auto 8.
  - intros (-> & L & D & Q). destruct (Pk k Ek) as [K1 K2].
    destruct (C101_encryption B P n ops p k l random s Hp Hpr K1 K2) as [_ Y]. destruct (Y D) as [_ Y2]. destruct (Y2 L) as [Z1 _].
    unfold encrypt_hybrid_header, generate_symmetric_key. rewrite (Z1 Q). reflexivity.
Qed.
Lemma header_panics n ops p pk k l meta random (s : K) nonce q :
  run_ops ops (new_policy n) = Ok p -> proper_axes ops -> blen pk < 9223372036854775808 -> pub_dec F P pk = Ok k ->
  (encrypt_hybrid_header S F shake P p k l meta random s nonce = Panic q <->
   q = IndexOutOfBounds /\ (length l < length (pub_t k))%nat /\ (forall b, In b l -> declared ops b) /\
     exists b i, In b l /\ last_place (numbering ops) b i /\ (length (pub_t k) <= Datatypes.S i)%nat).
Proof using HF HP T1 T2.
  intros Hp Hpr Lpk. apply (any_header_panics n ops p pk k l meta random s nonce q Hp Hpr). apply in_memory_fits; [exact HP|exact Lpk].
Qed.

(** Header encryption: exactly the public keys that are too small for an attribute, but not for the list. *)
Theorem C106_encrypt_header n ops p pol pk attrs u ad random (s : K) nonce o o1 q :
  policy_from pol = Ok p -> run_ops ops (new_policy n) = Ok p -> proper_axes ops -> blen pk < 9223372036854775808 ->
  (encrypt_header (Some pol) (Some pk) (Some attrs) u ad random s nonce [o; o1] = Crash q <->
   q = IndexOutOfBounds /\ offered o /\ offered o1 /\ exists k l, pub_dec F P pk = Ok k /\ attributes_from attrs = Ok l /\
     (length l < length (pub_t k))%nat /\ (forall b, In b l -> declared ops b) /\
     exists b i, In b l /\ last_place (numbering ops) b i /\ (length (pub_t k) <= Datatypes.S i)%nat).
Proof using HF HP Ho T1 T2 J2.
  intros Ep Hp Hpr Lpk.
  split.
  - intros H. unfold h_aes_encrypt_header in H. do 5 step H. clean.
    repeat match goal with H : Some _ = Some _ |- _ => injection H as <- end.
    apply then_crash in H as [H|(p' & ? & Ep' & H)]; [apply unwrap_crash in H; congruence|]. clean. assert (p' = p) by congruence. subst p'.
    apply then_crash in H as [H|(k & ? & Ek & H)].
    { apply unwrap_crash in H. destruct (C22_decoding_never_panics B F fine HF P pk HP Ho Lpk) as (_ & N & _). destruct (N q H). }
    clean. apply then_crash in H as [H|(l & ? & El & H)]; [apply unwrap_crash in H; destruct (J2 _ _ H)|]. clean.
    apply then_crash in H as [H|(h & ? & _ & H)].
    2: { exfalso. unfold deliver_header in H. apply then_crash in H as [H|(? & ? & _ & H)]; exact (deliver_crash _ _ _ _ _ H). }
    apply unwrap_crash in H. apply (header_panics n ops p pk k l _ random s nonce q Hp Hpr Lpk Ek) in H as (-> & L & D & Q). split; [reflexivity|].
    repeat match goal with H : nth_error [o; o1] _ = Some _ |- _ => injection H as <- end. split; [assumption|]. split; [assumption|]. exists k, l. auto 8.
  - intros (-> & Ho0 & Ho1 & k & l & Ek & El & L & D & Q). unfold h_aes_encrypt_header.
    apply (check_offered 0 "symmetric key" [o; o1] o eq_refl) in Ho0. apply (check_offered 1 "header bytes" [o; o1] o1 eq_refl) in Ho1.
    assert (E1 : input_bytes (Some pk) "public key" [o; o1] = Go pk [o; o1]) by (apply input_go; split; [reflexivity|]; split; [intros ->; discriminate Ek|reflexivity]).
    unfold andthen at 1. rewrite Ho0. unfold andthen at 1. rewrite Ho1. unfold andthen at 1. cbn [not_null ret]. unfold andthen at 1. rewrite E1.
    unfold andthen at 1. cbn [not_null ret]. unfold andthen at 1. rewrite Ep. cbn [unwrap]. unfold andthen at 1. rewrite Ek. cbn [unwrap].
    unfold andthen at 1. rewrite El. cbn [unwrap]. unfold andthen at 1.
    match goal with |- context [encrypt_hybrid_header S F shake P p k l ?m random s nonce] => assert (E : encrypt_hybrid_header S F shake P p k l m random s nonce = Panic IndexOutOfBounds) by (apply (header_panics n ops p pk k l m random s nonce _ Hp Hpr Lpk Ek); auto) end.
    rewrite E. reflexivity.
Qed.
End FfiHostile.

(** ** Examples: crashes in a program that uses the C interface with hostile bytes *)
Local Ltac vmr x := vm_cast_no_check (eq_refl x).
Definition h_access (b : list byte) : outcome access_policy := match b with [x01] => Ok (AAttr (dept "HR")) | [x02] => Ok (AAttr (dept "FIN")) | _ => Err Utf8Error end.
(** a public key for two attributes only *)
Definition short_pub : master_public_key toy := @mkPub toy (firstn 3 (pub_t (pub_key ex_mk))) (pub_y (pub_key ex_mk)).
Definition short_bytes : list byte := bytes_of (pub_enc toy_forms short_pub).
(** a header around a ciphertext for the attributes 1 and 3 *)
Definition hostile_header : list byte := let b := bytes_of (ct_enc toy_forms (ex_ct [1; 3])) in be32 (blen b) ++ b.
Definition try_user (priv : list byte) (a : byte) := h_generate_user_private_key (B := toy) release64 toy_forms c_policy h_access it_rev (Some priv) (Some [a]) (Some [x01]) ex_kdraw [room_for 3000].
Definition try_header (pk : list byte) (a : byte) :=
  h_aes_encrypt_header release64 toy_forms toy_shake toy_sym c_policy c_attrs (Some [x01]) (Some pk) (Some [a]) None None ex_msg (f101 7) (repeat x05 12) [room_for 40; room_for 1000].
Definition try_open (header key : list byte) := h_aes_decrypt_header release64 toy_forms toy_shake toy_sym (Some header) (Some key) [room_for 40; room_for 10; room_for 10].

Theorem C106_refuted :
  h_generate_master_keys (B := toy) release64 toy_forms c_policy (Some [x01]) (fun i => f101 (3 - Z.of_nat i)) [room_for 3000] = Crash DivisionByZero /\
  try_user zero_bytes x01 = Crash DivisionByZero /\
  try_header short_bytes x02 = Crash IndexOutOfBounds /\
  try_open hostile_header cut_bytes = Crash IndexOutOfBounds.
Proof.
  split; [vmr (@Crash Datatypes.unit DivisionByZero)|]. split; [vmr (@Crash Datatypes.unit DivisionByZero)|].
  split; [vmr (@Crash Datatypes.unit IndexOutOfBounds)|vmr (@Crash Datatypes.unit IndexOutOfBounds)].
Qed.

(** The same calls with other bytes, or for other attributes, do not crash. *)
Example C106_example :
  offered (room_for 40) /\ sym_total toy_sym /\
  code (try_user zero_bytes x02) = Some 0%Z /\
  code (try_header (bytes_of (pub_enc toy_forms (pub_key ex_mk))) x02) = Some 0%Z /\
  code (try_open hostile_header (bytes_of (user_enc toy_forms release64 ex_uk))) = Some 1%Z.
Proof.
  split; [eexists _, _; split; [reflexivity|]; split; [reflexivity|discriminate]|]. split; [exact toy_sym_total|].
  split; [vmr (Some 0%Z)|]. split; [vmr (Some 0%Z)|vmr (Some 1%Z)].
Qed.

Print Assumptions C106_never_crash.
Print Assumptions C106_master_keys.
Print Assumptions C106_user_key.
Print Assumptions C106_user_key_crashes.
Print Assumptions C106_encrypt_header.
Print Assumptions C106_decrypt_header.
Print Assumptions C106_refuted.
