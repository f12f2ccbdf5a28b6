(** Theorems about ciphertexts that are not what they should be: C85-C88.
    Examples are computed in the group of order 101 (ExpModel.v). *)
From Coq Require Import String NArith ZArith Bool Lia Field_theory Field Strings.Byte List.
From Verif Require Import Prelude Field LinAlg Msp Spec MspProofs Minimal Gauss GaussProofs Bilinear Scheme
  SchemeSpec SchemeProofs SchemeTheorems Zp ExpModel PropertiesScheme
  Codec CodecProofs SchemeCodec SchemeCodecProofs PropertiesCodec
  Policy PolicySpec PolicyProofs Engine EngineSpec EngineProofs PropertiesEngine Hybrid HybridSpec PropertiesHybrid.
Import ListNotations.

Section Tamper.
Variable B : BilinearMap.
Hypothesis BL : BilinearLaws B.
Implicit Types (P : platform) (mk : master_key B) (f : node) (gam : list N).
Local Notation K := (bm_K B).
Local Notation KL := (bl_field B BL).

Declare Scope fld.
Local Notation "0" := (@f0 K) : fld.
Local Notation "1" := (@f1 K) : fld.
Local Infix "+" := (@fadd K) : fld.
Local Infix "*" := (@fmul K) : fld.
Local Infix "-" := (@fsub K) : fld.
Local Notation "- x" := (@fneg K x) : fld.
Delimit Scope fld with fld.
Add Field KFtam : (fl_field K (bl_field B BL)).

Local Notation g3 := (g3_gen_exp B).
Local Notation g2 := (g2_gen_exp B).
Local Notation gt := (gt_gen_exp B).
Local Notation to1 := (g3_to_g1 B).

(** ** Arithmetic of the field *)
Lemma mul_zero (a b : K) : (a * b)%fld = 0%fld -> a = 0%fld \/ b = 0%fld.
Proof.
  intros E. destruct (feqb a 0%fld) eqn:Ea; [left; apply (fl_eqb K KL); exact Ea|right].
  apply (feqb_false K KL) in Ea. replace b with (finv a * (a * b))%fld by (field; exact Ea). rewrite E. ring.
Qed.

Lemma mul_cancel (a b c : K) : a <> 0%fld -> (a * b)%fld = (a * c)%fld -> b = c.
Proof.
  intros Ha E. replace b with (finv a * (a * b))%fld by (field; exact Ha). rewrite E. field. exact Ha.
Qed.

Lemma add_same (a b : K) : (a + b)%fld = a -> b = 0%fld.
Proof. intros E. replace b with ((a + b) - a)%fld by ring. rewrite E. ring. Qed.

(** ** C85: the element of the ciphertext that carries the message *)
Theorem C85_clear_exactly_when_zero P size (mdraw : nat -> K) mk msg gam (s : K) ct :
  generate_master_key size mdraw = Ok mk -> encrypt P msg gam (pub_key mk) s = Ok ct ->
  (e_prime ct = msg <-> mdraw size = f0 \/ s = f0).
Proof.
  intros Hmk He.
  destruct (nonzero_dec B BL size mdraw) as [Hn|(i & Hi & Hz)];
    [|rewrite (generate_master_key_panic B BL _ _ i Hi Hz) in Hmk; discriminate].
  rewrite (generate_master_key_ok B BL _ _ Hn) in Hmk. assert (mk = master_of B (draws mdraw 0 size) (mdraw size)) by congruence.
  subst mk. destruct (encrypt_honest B BL _ _ _ _ _ _ _ He) as (mu & -> & ->). unfold honest_ct. cbn [e_prime].
  split.
  - intros E. apply (bl_gt_inj B BL) in E. apply add_same in E. apply mul_zero. exact E.
  - intros E. f_equal. destruct E as [-> | ->]; ring.
Qed.

(** key generation accepts draws under which every message travels in clear *)
Theorem C85_message_in_clear_refuted P size : size <> O ->
  exists (mdraw : nat -> K) mk, generate_master_key size mdraw = Ok mk /\
    forall msg gam (s : K) ct, encrypt P msg gam (pub_key mk) s = Ok ct -> e_prime ct = msg.
Proof.
  intros Hs. pose (d := fun i : nat => if Nat.eqb i size then @f0 K else f1).
  assert (Hd : forall i, (i < size)%nat -> d i <> f0).
  { intros i Hi. unfold d. destruct (Nat.eqb_spec i size); [lia|]. apply (K_1_neq_0 K KL). }
  assert (E : generate_master_key size d = Ok (master_of B (draws d 0 size) (d size))) by (apply (generate_master_key_ok B BL); exact Hd).
  exists d, (master_of B (draws d 0 size) (d size)). split; [exact E|].
  intros msg gam s ct He. apply (C85_clear_exactly_when_zero P size d _ msg gam s ct E He).
  left. unfold d. rewrite Nat.eqb_refl. reflexivity.
Qed.

(** ** C86: what a ciphertext commits to *)
Theorem C86_one_message P size (mdraw : nat -> K) mk msg1 gam1 (s1 : K) msg2 gam2 (s2 : K) ct :
  generate_master_key size mdraw = Ok mk ->
  encrypt P msg1 gam1 (pub_key mk) s1 = Ok ct -> encrypt P msg2 gam2 (pub_key mk) s2 = Ok ct ->
  gam1 <> [] -> msg1 = msg2 /\ gam1 = gam2 /\ s1 = s2.
Proof.
  intros Hmk He1 He2 Hne. destruct (generate_master_key_inv B BL _ _ _ Hmk) as (t & y & -> & Lt & Hnz).
  destruct (encrypt_honest B BL _ _ _ _ _ _ _ He1) as (mu1 & -> & E1).
  destruct (encrypt_honest B BL _ _ _ _ _ _ _ He2) as (mu2 & -> & E2).
  destruct (encrypt_inv B BL _ _ _ _ _ _ _ He1) as (_ & Hr & _).
  rewrite E1 in E2. unfold honest_ct in E2. injection E2 as Eg Ep Ee. subst gam2.
  destruct gam1 as [|a g]; [contradiction|]. cbn [map] in Ee. injection Ee as Ee _.
  apply (bl_g2_inj B BL) in Ee. apply mul_cancel in Ee; [|apply (tt_nonzero B); [exact Hnz|apply Hr; left; reflexivity]].
  subst s2. apply (bl_gt_inj B BL) in Ep. split; [|auto]. f_equal.
  replace mu1 with ((mu1 + y * s1) - y * s1)%fld by ring. rewrite Ep. ring.
Qed.

(** without attributes a ciphertext is an encryption of any message *)
Theorem C86_one_message_refuted P size (mdraw : nat -> K) mk msg1 msg2 (s1 : K) ct :
  generate_master_key size mdraw = Ok mk -> mdraw size <> f0 ->
  encrypt P msg1 [] (pub_key mk) s1 = Ok ct -> exists s2, encrypt P msg2 [] (pub_key mk) s2 = Ok ct.
Proof.
  intros Hmk Hy He.
  destruct (nonzero_dec B BL size mdraw) as [Hn|(i & Hi & Hz)];
    [|rewrite (generate_master_key_panic B BL _ _ i Hi Hz) in Hmk; discriminate].
  rewrite (generate_master_key_ok B BL _ _ Hn) in Hmk. assert (mk = master_of B (draws mdraw 0 size) (mdraw size)) by congruence.
  subst mk. destruct (bl_gt_surj B BL msg1) as (mu1 & ->). destruct (bl_gt_surj B BL msg2) as (mu2 & ->).
  destruct (encrypt_inv B BL _ _ _ _ _ _ _ He) as (Hl & _ & ->).
  exists ((mu1 + mdraw size * s1 - mu2) * finv (mdraw size))%fld.
  unfold master_of. cbn [pub_key]. rewrite (encrypt_run B BL) by (exact Hl || intros a []). cbn [map]. do 3 f_equal.
  field. exact Hy.
Qed.

(** ** C87: modified ciphertexts *)

(** multiplying the element that carries the message multiplies what any key
    gets from any ciphertext, and changes nothing else *)
Theorem C87_message_can_be_changed (ct : ciphertext B) uk (d : Gt B) :
  decrypt (mkCt (gamma ct) (gt_mul B (e_prime ct) d) (e_i ct)) uk =
  match decrypt ct uk with
  | Ok (Some m) => Ok (Some (gt_mul B m d))
  | o => o
  end.
Proof.
  unfold decrypt. change (select_rows (mkCt (gamma ct) (gt_mul B (e_prime ct) d) (e_i ct)) uk) with (select_rows ct uk).
  destruct (select_rows ct uk) as [sel|e|p]; cbn [bind]; [|reflexivity|reflexivity].
  destruct (span_coefs (map (fun x => fst (fst x)) sel)) as [[a|]|e|p]; cbn [bind]; try reflexivity.
  destruct (keep_nonzero a (map (fun x => snd (fst x)) sel)) as [dd|e|p]; cbn [bind]; [|reflexivity|reflexivity].
  destruct (keep_nonzero a (map snd sel)) as [ee|e|p]; cbn [bind]; [|reflexivity|reflexivity].
  cbn [e_prime].
  destruct (bl_gt_surj B BL (e_prime ct)) as (x & ->). destruct (bl_gt_surj B BL d) as (z & ->).
  destruct (bl_gt_surj B BL (prod_gt_exp B dd ee (filter (fun ai => negb (feqb ai f0)) a))) as (w & ->).
  rewrite (bl_gt_mul B BL), !(bl_gt_div B BL), (bl_gt_mul B BL). do 3 f_equal. ring.
Qed.

(** attributes can be taken away from a ciphertext: what is left is the
    encryption of the same message for the attributes that are left *)
Definition only (keep : N -> bool) (ct : ciphertext B) : ciphertext B :=
  mkCt (filter keep (gamma ct)) (e_prime ct)
       (map snd (filter (fun p => keep (fst p)) (combine (gamma ct) (e_i ct)))).

Theorem C87_attributes_can_be_removed P size (mdraw : nat -> K) mk msg gam (s : K) ct keep :
  generate_master_key size mdraw = Ok mk -> encrypt P msg gam (pub_key mk) s = Ok ct ->
  encrypt P msg (filter keep gam) (pub_key mk) s = Ok (only keep ct).
Proof.
  intros Hmk He. destruct (generate_master_key_inv B BL _ _ _ Hmk) as (t & y & -> & Lt & Hnz).
  destruct (bl_gt_surj B BL msg) as (mu & ->).
  destruct (encrypt_inv B BL _ _ _ _ _ _ _ He) as (Hl & Hr & ->).
  unfold master_of. cbn [pub_key]. rewrite (encrypt_run B BL).
  - unfold only. cbn [gamma e_prime e_i]. do 2 f_equal.
    clear. induction gam as [|a g IH]; [reflexivity|]. cbn [filter map combine].
    cbn [fst]. destruct (keep a); cbn [map snd]; [f_equal|]; exact IH.
  - assert (Hf : (length (filter keep gam) <= length gam)%nat).
    { clear. induction gam as [|a g IH]; [auto|]. cbn [filter]. destruct (keep a); cbn [length]; lia. }
    lia.
  - intros a Ha. apply filter_In in Ha as [Ha _]. apply Hr. exact Ha.
Qed.

(** any element can be put in: decryption does not notice *)
Theorem C87_modified_not_detected_refuted P size (mdraw : nat -> K) mk f uk msg gam (s : K) ct :
  generate_master_key size mdraw = Ok mk -> derived B P mk f uk -> encrypt P msg gam (pub_key mk) s = Ok ct ->
  holds (attrs gam) f -> forall other, exists ct', gamma ct' = gam /\ e_i ct' = e_i ct /\
    decrypt ct' uk = Ok (Some other).
Proof.
  intros Hmk Hd He Hh other. destruct (generate_master_key_inv B BL _ _ _ Hmk) as (t & y & -> & Lt & Hnz).
  destruct (derived_decrypt B BL P t y f uk msg gam s ct Hnz Hd He) as [[_ H]|[[H _]|[H _]]]; try contradiction.
  destruct (bl_gt_surj B BL other) as (o & ->). destruct (bl_gt_surj B BL msg) as (mu & ->).
  exists (mkCt (gamma ct) (gt_mul B (e_prime ct) (gt (o - mu)%fld)) (e_i ct)). split; [|split; [reflexivity|]].
  - destruct (encrypt_inv B BL _ _ _ _ _ _ _ He) as (_ & _ & ->). reflexivity.
  - rewrite C87_message_can_be_changed, H, (bl_gt_mul B BL). do 3 f_equal. ring.
Qed.

(** ** C88: keys of another authority *)

(** A key of the authority with secrets [t2] is a key for the secrets [t1], with
    other shares. *)
Lemma foreign_rep t1 t2 f m sg uk :
  key_rep B t2 f m sg uk -> (forall x, In x t1 -> x <> 0%fld) ->
  exists t sg', key_rep B t f m sg' uk /\ (forall a, In a (leaves f) -> tt B t a <> 0%fld) /\
    (forall a, in_range B t1 a -> tt B t a = tt B t1 a) /\
    (forall a, In a (leaves f) -> sg' a = (sg a * finv (tt B t2 a) * tt B t a)%fld).
Proof.
  intros [M Hdk Hraw Hd Hr] Hnz. pose (t := t1 ++ repeat 1%fld (length t2)).
  assert (Hlow : forall a, in_range B t1 a -> tt B t a = tt B t1 a).
  { intros a Ha. unfold tt, t. apply app_nth1. exact Ha. }
  assert (Hall : forall x, In x t -> x <> 0%fld).
  { intros x Hx. unfold t in Hx. apply in_app_or in Hx as [Hx|Hx]; [apply Hnz; exact Hx|].
    apply repeat_spec in Hx. subst x. apply (K_1_neq_0 K KL). }
  assert (Hrange : forall a, In a (leaves f) -> in_range B t a).
  { intros a Ha. unfold in_range, t. rewrite app_length, repeat_length. specialize (Hr a Ha). unfold in_range in Hr. lia. }
  assert (Htt : forall a, In a (leaves f) -> tt B t a <> 0%fld).
  { intros a Ha. apply (tt_nonzero B); [exact Hall|apply Hrange; exact Ha]. }
  exists t, (fun a => sg a * finv (tt B t2 a) * tt B t a)%fld.
  assert (Hlabel : forall a, In a (row_to_attr m) -> In a (leaves f)).
  { intros a Ha. apply In_nth_error in Ha as (i & Hi). 
    destruct (in_dec N.eq_dec a (leaves f)) as [|Hn]; [assumption|].
    pose proof (mo_get B f m a i M Hi) as E. rewrite (mo_get_notin B f m a M Hn) in E. discriminate. }
  split; [|split; [exact Htt|split; [exact Hlow|reflexivity]]].
  constructor; [exact M|exact Hdk| | |exact Hrange].
  - rewrite Hraw. apply map_ext_in. intros a Ha. f_equal. generalize (finv (tt B t2 a)); intros q. field. apply Htt, Hlabel, Ha.
  - rewrite Hd. apply map_ext_in. intros a Ha. do 2 f_equal. generalize (finv (tt B t2 a)); intros q. field. apply Htt, Hlabel, Ha.
Qed.

Lemma foreign_decrypt P t1 y1 t2 f m sg uk msg gam (s : K) ct :
  (forall x, In x t1 -> x <> 0%fld) -> key_rep B t2 f m sg uk -> encrypt P msg gam (pub_of B t1 y1) s = Ok ct ->
  (holds (attrs gam) f /\ exists T, minimal f T /\ incl T gam /\
     decrypt ct uk = Ok (Some (gt_mul B msg (gt ((y1 - suml (fun a => ind K T a * (sg a * finv (tt B t2 a) * tt B t1 a)) (leaves f)) * s)%fld)))) \/
  (~ holds (attrs gam) f /\ shares_attr f gam /\ decrypt ct uk = Ok None) \/
  (~ holds (attrs gam) f /\ ~ shares_attr f gam /\ decrypt ct uk = Err (InternalOperation "empty input matrix")).
Proof.
  intros Hn1 R He.
  destruct (foreign_rep t1 t2 f m sg uk R Hn1) as (t & sg' & R' & Ht & Hlow & Hsg).
  destruct (bl_gt_surj B BL msg) as (mu & ->).
  destruct (encrypt_inv B BL _ _ _ _ _ _ _ He) as (_ & Hr & E).
  assert (Ect : ct = honest_ct B t y1 gam mu s).
  { rewrite E. unfold honest_ct. f_equal. apply map_ext_in. intros a Ha. rewrite (Hlow a (Hr a Ha)). reflexivity. }
  rewrite Ect. destruct (decrypt_rep B BL f m gam (kr_msp B _ _ _ _ _ R)) as [(Hs & Hh & H)|[(Hs & Hh & H)|(Hs & Hh & T & HM & HT & H)]].
  - right. right. split; [exact Hh|]. split; [apply selected_nil; exact Hs|]. apply (H t sg'); exact R'.
  - right. left. split; [exact Hh|]. split; [|apply (H t sg'); exact R'].
    destruct (selected f gam) as [|a l] eqn:El; [contradiction|]. exists a.
    assert (Ha : In a (selected f gam)) by (rewrite El; left; reflexivity). apply selected_in in Ha. tauto.
  - left. split; [exact Hh|]. exists T. split; [exact HM|]. split.
    + intros a Ha. specialize (HT a Ha). apply selected_in in HT. tauto.
    + rewrite (H t sg' uk mu y1 s R' Ht), (bl_gt_mul B BL).
      assert (Es : suml (fun a => ind K T a * sg' a)%fld (leaves f) =
                   suml (fun a => ind K T a * (sg a * finv (tt B t2 a) * tt B t1 a))%fld (leaves f)).
      { apply suml_ext. intros a Ha. rewrite (Hsg a Ha). destruct (in_dec N.eq_dec a T) as [Hi|Hi].
        - rewrite (Hlow a); [reflexivity|]. apply Hr. specialize (HT a Hi). apply selected_in in HT. tauto.
        - rewrite (ind_out K T a Hi). ring. }
      rewrite Es. reflexivity.
Qed.

Lemma master_draws n (d : nat -> K) mk : generate_master_key n d = Ok mk ->
  (forall x, In x (draws d 0 n) -> x <> 0%fld) /\ mk = master_of B (draws d 0 n) (d n).
Proof.
  intros E. destruct (nonzero_dec B BL n d) as [Hn|(i & Hi & Hz)];
    [|rewrite (generate_master_key_panic B BL _ _ i Hi Hz) in E; discriminate].
  rewrite (generate_master_key_ok B BL _ _ Hn) in E. split; [|congruence].
  intros x Hx. unfold draws in Hx. apply in_map_iff in Hx as (i & <- & Hi). apply Hn. apply in_seq in Hi. lia.
Qed.

(** Decryption with a key of another authority has the outcome (a message, None
    or an error) of a key of the right authority. *)
Theorem C88_same_outcome P size1 size2 (d1 d2 : nat -> K) mk1 mk2 f uk msg gam (s : K) ct :
  generate_master_key size1 d1 = Ok mk1 -> generate_master_key size2 d2 = Ok mk2 ->
  obtained B P mk2 f uk -> encrypt P msg gam (pub_key mk1) s = Ok ct ->
  (holds (attrs gam) f -> exists x, decrypt ct uk = Ok (Some x)) /\
  (~ holds (attrs gam) f -> shares_attr f gam -> decrypt ct uk = Ok None) /\
  (~ holds (attrs gam) f -> ~ shares_attr f gam -> is_err (decrypt ct uk)).
Proof.
  intros H1 H2 Ho He. destruct (generate_master_key_inv B BL _ _ _ H1) as (t1 & y1 & -> & _ & Hn1).
  destruct (generate_master_key_inv B BL _ _ _ H2) as (t2 & y2 & -> & _ & Hn2).
  destruct (obtained_rep B BL P t2 y2 f uk Hn2 Ho) as (m & sg & _ & R & _).
  destruct (foreign_decrypt P t1 y1 t2 f m sg uk msg gam s ct Hn1 R He)
    as [(Hh & T & _ & _ & E)|[(Hh & Hs & E)|(Hh & Hs & E)]].
  - split; [eauto|]. split; intros; contradiction.
  - split; [intros; contradiction|]. split; [auto|intros; contradiction].
  - split; [intros; contradiction|]. split; [intros; contradiction|]. intros _ _. rewrite E. eexists. reflexivity.
Qed.

(** Of two authorities that differ only in the master secret, at most one can
    have its ciphertexts read by a given key, whatever that key is. *)
Theorem C88_at_most_one P size1 (d1 d1' : nat -> K) mk1 mk1' uk msg gam (s : K) ct ct' :
  generate_master_key size1 d1 = Ok mk1 -> generate_master_key size1 d1' = Ok mk1' ->
  (forall i, (i < size1)%nat -> d1 i = d1' i) -> d1 size1 <> d1' size1 ->
  encrypt P msg gam (pub_key mk1) s = Ok ct -> encrypt P msg gam (pub_key mk1') s = Ok ct' -> s <> f0 ->
  ~ (decrypt ct uk = Ok (Some msg) /\ decrypt ct' uk = Ok (Some msg)).
Proof.
  intros H1 H1' Hsame Hy He He' Hs [Hd Hd'].
  destruct (master_draws _ d1 mk1 H1) as [Hn1 ->]. destruct (master_draws _ d1' mk1' H1') as [_ ->].
  assert (Et : draws d1' 0 size1 = draws d1 0 size1).
  { unfold draws. apply map_ext_in. intros i Hi. apply in_seq in Hi. symmetry. apply Hsame. lia. }
  rewrite Et in He'. cbn [pub_key master_of] in He, He'.
  set (t1 := draws d1 0 size1) in *. set (y := d1 size1) in *. set (y' := d1' size1) in *.
  destruct (bl_gt_surj B BL msg) as (mu & ->).
  destruct (encrypt_inv B BL _ _ _ _ _ _ _ He) as (_ & _ & E). destruct (encrypt_inv B BL _ _ _ _ _ _ _ He') as (_ & _ & E').
  assert (Ec : ct' = mkCt (gamma ct) (gt_mul B (e_prime ct) (gt ((y' - y) * s)%fld)) (e_i ct)).
  { rewrite E, E'. cbn [gamma e_prime e_i]. rewrite (bl_gt_mul B BL). do 2 f_equal. ring. }
  rewrite Ec, C87_message_can_be_changed, Hd, (bl_gt_mul B BL) in Hd'. injection Hd' as Hd'.
  apply (bl_gt_inj B BL) in Hd'. apply add_same in Hd'. apply mul_zero in Hd' as [Hd'|Hd']; [|contradiction].
  apply Hy. replace y with (y' - (y' - y))%fld by ring. rewrite Hd'. ring.
Qed.

(** For one attribute: the wrong message is returned unless the secrets of the
    two authorities are proportional. *)
Theorem C88_one_attribute P size1 size2 (d1 d2 : nat -> K) mk1 mk2 a m (kdraw : nat -> K) uk msg gam (s : K) ct :
  generate_master_key size1 d1 = Ok mk1 -> generate_master_key size2 d2 = Ok mk2 ->
  to_msp P (Leaf a) = Ok m -> key_generation m (priv_key mk2) kdraw = Ok uk ->
  encrypt P msg gam (pub_key mk1) s = Ok ct -> In a gam ->
  exists x, decrypt ct uk = Ok (Some x) /\
    (x = msg <-> s = f0 \/ fmul (d1 size1) (d2 (N.to_nat a)) = fmul (d2 size2) (d1 (N.to_nat a))).
Proof.
  intros H1 H2 Hm Hk He Ha.
  destruct (master_draws _ d1 mk1 H1) as [Hn1 ->]. destruct (master_draws _ d2 mk2 H2) as [Hn2 ->].
  assert (Hnth : forall n d, in_range B (draws d 0 n) a -> tt B (draws d 0 n) a = d (N.to_nat a)).
  { intros n d Hi. unfold in_range in Hi. unfold tt, draws in *. rewrite map_length, seq_length in Hi.
    rewrite (nth_indep _ 0%fld (d O)) by (rewrite map_length, seq_length; exact Hi).
    rewrite map_nth, seq_nth by exact Hi. reflexivity. }
  assert (Hg : derived B P (master_of B (draws d2 0 size2) (d2 size2)) (Leaf a) uk) by (eapply de_gen; eauto).
  destruct (derived_good B BL P _ _ _ _ Hn2 Hg) as ((m' & sg & R & Hsh) & Hz2 & _).
  assert (Hr2 : in_range B (draws d2 0 size2) a) by (apply (kr_range B _ _ _ _ _ R); left; reflexivity).
  specialize (Hz2 a ltac:(left; reflexivity)). rewrite (Hnth _ _ Hr2) in Hz2.
  assert (Esg : sg a = d2 size2).
  { specialize (Hsh (fun _ => 1%fld) 1%fld eq_refl). cbn in Hsh.
    replace (sg a) with (1 * sg a + 0)%fld by ring. rewrite Hsh. ring. }
  destruct (foreign_decrypt P _ (d1 size1) _ _ _ _ uk msg gam s ct Hn1 R He)
    as [(Hh & T & HM & HT & E)|[(Hh & _)|(Hh & _)]];
    [|exfalso; apply Hh; exact Ha|exfalso; apply Hh; exact Ha].
  assert (HaT : In a T) by (destruct HM as [HM _]; exact HM).
  destruct (bl_gt_surj B BL msg) as (mu & ->).
  destruct (encrypt_inv B BL _ _ _ _ _ _ _ He) as (_ & Hr & _).
  eexists. split; [exact E|]. rewrite (bl_gt_mul B BL).
  change (leaves (Leaf a)) with [a]. cbn [suml fold_right]. rewrite (ind_in K T a HaT), Esg, (Hnth _ _ Hr2), (Hnth _ _ (Hr a Ha)).
  set (y1 := d1 size1). set (y2 := d2 size2). set (u2 := d2 (N.to_nat a)) in *. set (u1 := d1 (N.to_nat a)).
  split.
  - intros Eq. apply (bl_gt_inj B BL) in Eq. apply add_same in Eq. apply mul_zero in Eq as [Eq|Eq]; [right|left; exact Eq].
    replace (y1 * u2)%fld with ((y1 - (1 * (y2 * finv u2 * u1) + 0)) * u2 + y2 * u1)%fld by (field; exact Hz2).
    rewrite Eq. ring.
  - intros [-> |Eq]; f_equal; [ring|].
    replace y1 with (y1 * u2 * finv u2)%fld by (field; exact Hz2). rewrite Eq. field. exact Hz2.
Qed.

(** decryption with the key of another authority can return a wrong message *)
Theorem C88_wrong_message_refuted P size a msg (s : K) : (N.to_nat a < size)%nat -> (1 < size)%nat -> s <> f0 ->
  exists (d1 d2 kdraw : nat -> K) mk1 mk2 m uk ct x,
    generate_master_key size d1 = Ok mk1 /\ generate_master_key size d2 = Ok mk2 /\
    to_msp P (Leaf a) = Ok m /\ key_generation m (priv_key mk2) kdraw = Ok uk /\
    encrypt P msg [a] (pub_key mk1) s = Ok ct /\ decrypt ct uk = Ok (Some x) /\ x <> msg.
Proof.
  intros Ha Hsize Hs. pose (d1 := fun _ : nat => @f1 K). pose (d2 := fun i : nat => if Nat.eqb i size then @f0 K else f1).
  assert (H2 : forall i, (i < size)%nat -> d2 i <> f0).
  { intros i Hi. unfold d2. destruct (Nat.eqb_spec i size); [lia|]. apply (K_1_neq_0 K KL). }
  destruct (C01_pipeline B BL P size d1 d1 (Leaf a) msg [a] s) as (mk1 & m & _ & ct & E1 & Em & _ & Ec & _).
  { intros i _. apply (K_1_neq_0 K KL). }
  { cbn. constructor; [intros []|constructor]. }
  { cbn. intros b [<-|[]]. exact Ha. }
  { cbn. intros b [<-|[]]. exact Ha. }
  { exact Hsize. }
  destruct (C01_pipeline B BL P size d2 d1 (Leaf a) msg [a] s) as (mk2 & m' & uk & _ & E2 & Em' & Ek & _ & _).
  { exact H2. }
  { cbn. constructor; [intros []|constructor]. }
  { cbn. intros b [<-|[]]. exact Ha. }
  { cbn. intros b [<-|[]]. exact Ha. }
  { exact Hsize. }
  assert (m' = m) by congruence. subst m'.
  destruct (C88_one_attribute P size size d1 d2 mk1 mk2 a m d1 uk msg [a] s ct E1 E2 Em Ek Ec (or_introl eq_refl)) as (x & Ex & Hx).
  exists d1, d2, d1, mk1, mk2, m, uk, ct, x. repeat (split; [assumption|]).
  intros E. apply Hx in E as [E|E]; [contradiction|]. unfold d1, d2 in E. rewrite Nat.eqb_refl in E.
  destruct (Nat.eqb_spec (N.to_nat a) size); [lia|]. apply (K_1_neq_0 K KL).
  replace (@f1 K) with (f1 * f1)%fld by ring. rewrite E. ring.
Qed.

(** ** Headers *)
Variable F : byte_forms B.
Variable fine : Gt B -> Prop.
Hypothesis HF : forms_ok F fine.
Variable shake : list byte -> nat -> list byte.
Hypothesis shake_length : forall b n, length (shake b n) = n.
Variable S : sym_scheme.
Variable metas : metadata -> Prop.
Hypothesis SL : sym_laws S metas.
Local Open Scope N_scope.

(** The element that carries the drawn value ends a header without metadata.
    Multiplying it gives a header that every authorised key accepts, with the
    symmetric key of the multiplied value. *)
Theorem C87_bare_header_refuted P n ops p (mdraw : nat -> K) mk ap uk l random (s : K) nonce h d :
  64 <= usize_bits P -> n < 4294967296 ->
  run_ops ops (new_policy n) = Ok p -> eng_master_key p mdraw = Ok mk ->
  user_key P mk p ap uk -> l <> [] -> satisfied ops (fun b => In b l) ap ->
  length nonce = nonce_length S ->
  encrypt_hybrid_header S F shake P p (pub_key mk) l None random s nonce = Ok h ->
  exists front x, eh_bytes h = front ++ to_compressed (gt_form B F) x /\
    (fine (gt_mul B x d) ->
     decrypt_hybrid_header S F shake P uk (front ++ to_compressed (gt_form B F) (gt_mul B x d)) =
     Ok (mkClearHeader (shake (to_compressed (gt_form B F) (gt_mul B random d)) (key_length S)) (mkMeta [] None))).
Proof using BL HF shake_length SL.
  intros HP Hn Hp Hmk Hk Hl Hs Hno He.
  destruct (header_layout B F shake S _ _ _ _ _ _ _ _ _ He) as (sk & tail & Eg & Lk & Ls & Eb & Et).
  rewrite Et, app_nil_r in Eb. pose proof Eg as Eg0.
  unfold generate_symmetric_key, eng_encrypt in Eg. apply bind_ok in Eg as (ct & Ee & Eg).
  pose proof Ee as Ee0. apply bind_ok in Ee as (gam & Ev & Ee). apply bind_ok in Eg as (b & Ec & Eg).
  apply bind_ok in Eg as (r & Er & Eg). assert (b = sk) by congruence. subst b.
  pose proof Ec as Ec0. unfold ct_enc in Ec. apply bind_ok in Ec as (bg & Ebg & Ec). apply bind_ok in Ec as (bp & Ebp & Ec).
  apply bind_ok in Ec as (bi & Ebi & Ec). apply Ok_inj in Ec.
  assert (Hbp : bp = to_compressed (gt_form B F) (e_prime ct)) by (cbn [enc gt_codec fixed_codec] in Ebp; congruence).
  exists (be32 (blen sk) ++ bg ++ bi), (e_prime ct). split.
  { rewrite Eb, <- Ec, Hbp, <- !app_assoc. reflexivity. }
  intros Hf.
  set (ct' := mkCt (gamma ct) (gt_mul B (e_prime ct) d) (e_i ct)).
  (* the modified ciphertext is the encryption of the multiplied value *)
  assert (Hmk' := Hmk). unfold eng_master_key in Hmk'.
  destruct (master_draws _ _ _ Hmk') as [Hnz Emk].
  assert (Ee' : encrypt P (gt_mul B random d) gam (pub_key mk) s = Ok ct').
  { rewrite Emk in Ee |- *. cbn [pub_key master_of] in Ee |- *.
    destruct (bl_gt_surj B BL random) as (x & ->). destruct (bl_gt_surj B BL d) as (z & Ez).
    unfold ct'. rewrite Ez, (bl_gt_mul B BL). destruct (encrypt_inv B BL _ _ _ _ _ _ _ Ee) as (H1 & H2 & ->).
    rewrite (encrypt_run B BL) by assumption. cbn [gamma e_prime e_i]. rewrite (bl_gt_mul B BL). do 3 f_equal. ring. }
  set (bp' := to_compressed (gt_form B F) (gt_mul B (e_prime ct) d)).
  assert (Ec' : ct_enc F ct' = Ok (bg ++ bi ++ bp')).
  { unfold ct_enc, ct'. cbn [gamma e_prime e_i]. rewrite Ebg. cbn [bind]. cbn [enc gt_codec fixed_codec bind]. rewrite Ebi. reflexivity. }
  assert (Lbp : forall x, length (to_compressed (gt_form B F) x) = 288%nat).
  { intros x. destruct (fo_gt _ _ HF) as [Hg _]. specialize (Hg x). unfold blen in Hg. lia. }
  assert (Esz : blen (bg ++ bi ++ bp') = blen sk).
  { rewrite <- Ec, Hbp. unfold blen, bp'. rewrite !app_length, !Lbp. reflexivity. }
  pose (key' := shake (to_compressed (gt_form B F) (gt_mul B random d)) (key_length S)).
  pose (h' := mkEncHeader key' (be32 (blen sk) ++ bg ++ bi ++ bp')).
  assert (Eh' : encrypt_hybrid_header S F shake P p (pub_key mk) l None (gt_mul B random d) s nonce = Ok h').
  { unfold encrypt_hybrid_header, generate_symmetric_key, eng_encrypt. rewrite Ev. cbn [bind]. rewrite Ee'. cbn [bind].
    rewrite Ec'. cbn [bind]. cbn [enc gt_codec fixed_codec bind]. rewrite array_from_ok by apply shake_length. cbn [bind].
    unfold u32_len. rewrite Esz. destruct (N.ltb_spec (blen sk) u32_modulus) as [_|H]; [|lia]. cbn [bind]. reflexivity. }
  pose proof (C46_header_roundtrip B BL F fine HF shake shake_length S metas SL P n ops p mdraw mk ap uk l None (gt_mul B random d) s nonce h'
    HP Hn Hp Hmk Hk Hl Hs Hno ltac:(discriminate) Eh') as R.
  unfold h' in R at 2. cbn [eh_bytes eh_key h'] in R. rewrite <- !app_assoc. apply R.
  intros ct2 E2. unfold eng_encrypt in E2. rewrite Ev in E2. cbn [bind] in E2. rewrite Ee' in E2.
  assert (ct2 = ct') by congruence. subst ct2. exact Hf.
Qed.

(** With metadata, whatever takes the place of the encapsulated key, the header is
    refused or gives the original key and metadata, provided that the encrypted
    metadata does not decrypt under another symmetric key. *)
Theorem C87_metadata_protects P p (pk : master_public_key B) l m random (s : K) nonce h sk' (uk : decryption_key B) c :
  length nonce = nonce_length S -> metas m -> blen sk' < 4294967296 ->
  encrypt_hybrid_header S F shake P p pk l (Some m) random s nonce = Ok h ->
  (forall mb em k', meta_to_bytes S m = Ok mb -> sym_encrypt S (eh_key h) mb nonce None = Ok em -> k' <> eh_key h ->
     is_err (sym_decrypt S k' em nonce None)) ->
  let tail := skipn (N.to_nat (4 + from_be (firstn 4 (eh_bytes h)))) (eh_bytes h) in
  decrypt_hybrid_header S F shake P uk (be32 (blen sk') ++ sk' ++ tail) = Ok c ->
  c = mkClearHeader (eh_key h) m.
Proof using SL.
  intros Hno Hm Hsk He Hrej tail Hd.
  destruct (header_layout B F shake S _ _ _ _ _ _ _ _ _ He) as (sk & tl & Eg & Lk & Ls & Eb & (mb & em & Emb & Eem & Lem & Etl)).
  assert (Et : tail = tl).
  { unfold tail. rewrite Eb, firstn_be32, from_be_be32 by exact Ls.
    rewrite app_assoc. rewrite skipn_app.
    replace (N.to_nat (4 + blen sk)) with (length (be32 (blen sk) ++ sk))
      by (rewrite app_length; unfold blen; cbn [length be32]; lia).
    rewrite skipn_all, Nat.sub_diag. reflexivity. }
  rewrite Et, Etl in Hd. rewrite decrypt_layout in Hd by exact Hsk.
  apply bind_ok in Hd as (kb & _ & Hd). apply bind_ok in Hd as (k & Ek & Hd). apply array_from_inv in Ek as [-> Lkb].
  assert (M : has_more (nonce ++ be32 (blen em) ++ em) = true) by (destruct nonce; reflexivity).
  rewrite M in Hd. rewrite <- Hno in Hd at 1. change (N.of_nat (length nonce)) with (blen nonce) in Hd.
  rewrite scan_next_app in Hd. cbn [bind] in Hd.
  rewrite array_from_ok in Hd by exact Hno. cbn [bind] in Hd. rewrite scan_u32_app in Hd by exact Lem. cbn [bind] in Hd.
  rewrite <- (app_nil_r em) in Hd at 2. rewrite scan_next_app in Hd. cbn [bind] in Hd.
  destruct (list_eq_dec Byte.byte_eq_dec kb (eh_key h)) as [->|Hk].
  - rewrite (law_decrypt _ _ SL _ _ _ _ _ Lk Hno Eem) in Hd. cbn [bind] in Hd.
    rewrite (law_meta _ _ SL m mb Hm Emb) in Hd. cbn [bind] in Hd. congruence.
  - destruct (Hrej mb em kb Emb Eem Hk) as (e & Ee). rewrite Ee in Hd. discriminate.
Qed.

(** A header without metadata opens with every key of another authority whose
    access policy is satisfied. *)
Theorem C88_bare_header_refuted P n ops p (d1 d2 : nat -> K) mk1 mk2 ap uk l random (s : K) nonce h :
  64 <= usize_bits P -> n < 4294967296 ->
  run_ops ops (new_policy n) = Ok p -> eng_master_key p d1 = Ok mk1 -> eng_master_key p d2 = Ok mk2 ->
  user_key P mk2 p ap uk -> l <> [] -> satisfied ops (fun b => In b l) ap ->
  encrypt_hybrid_header S F shake P p (pub_key mk1) l None random s nonce = Ok h ->
  (forall ct, eng_encrypt P p (pub_key mk1) l random s = Ok ct -> fine (e_prime ct)) ->
  exists key, decrypt_hybrid_header S F shake P uk (eh_bytes h) = Ok (mkClearHeader key (mkMeta [] None)).
Proof using BL HF shake_length.
  intros HP Hn Hp H1 H2 Hk Hl Hs He Hf.
  destruct (header_layout B F shake S _ _ _ _ _ _ _ _ _ He) as (sk & tail & Eg & Lk & Ls & Eb & Et).
  rewrite Et in Eb. rewrite Eb, decrypt_layout by exact Ls.
  pose proof (run_max _ _ _ Hp) as Hmax.
  assert (Hpk : length (pub_t (pub_key mk1)) = N.to_nat n).
  { unfold eng_master_key in H1. rewrite Hmax in H1.
    destruct (generate_master_key_inv B BL _ _ _ H1) as (t & y & -> & Ht & _). simpl. rewrite map_length. exact Ht. }
  destruct (symmetric_key_inv B F fine HF shake P n ops p _ l _ random s _ sk HP Hn Hp Hpk Hl Eg Hf)
    as (ct & Ect & Ed & _).
  unfold decrypt_symmetric_key. rewrite Ed. cbn [bind].
  destruct (user_key_derived B P mk2 p ap uk Hk) as (it & f & Hit & Ef & Hder).
  pose proof (inv_history n ops p Hp) as I.
  pose proof Ect as Ect0. unfold eng_encrypt in Ect. apply bind_ok in Ect as (gam & Ev & Ect).
  assert (Hh : holds (attrs gam) f).
  { apply (key_formula_holds it ops p ap f (attrs gam) Hit I Ef).
    apply (satisfied_ext ops (hits p (attrs gam)) (fun b => In b l)); [|exact Hs].
    intros b _. apply (hits_later ops [] p p l gam b I eq_refl Ev). }
  destruct (C88_same_outcome P _ _ d1 d2 mk1 mk2 f uk random gam s ct H1 H2 (derived_obtained B P mk2 f uk Hder) Ect) as [Hsome _].
  destruct (Hsome Hh) as (x & Ex). unfold eng_decrypt. rewrite Ex. cbn [bind enc gt_codec fixed_codec].
  rewrite array_from_ok by apply shake_length. cbn [bind has_more]. eexists. reflexivity.
Qed.
End Tamper.

(** ** Examples *)
Local Open Scope N_scope.

(** the hypotheses of C85 and C86, and a changed and a narrowed ciphertext *)
Example C85_C86_example :
  encrypt pf ex_msg [1; 4] (pub_key ex_mk) ex_s = Ok (ex_ct [1; 4]) /\
  e_prime (ex_ct [1; 4]) <> ex_msg /\ ex_draw 10 <> f101 0 /\ ex_s <> f101 0.
Proof.
  split; [exact (proj2 (proj2 (proj2 ex_setup)))|]. split; [|split].
  - intros E. apply (f_equal (@zval m101)) in E. vm_compute in E. discriminate.
  - intros E. apply (f_equal (@zval m101)) in E. vm_compute in E. discriminate.
  - intros E. apply (f_equal (@zval m101)) in E. vm_compute in E. discriminate.
Qed.

(** a master key with a zero secret: the message 77 is the element of the ciphertext *)
Definition zero_draw (i : nat) : bm_K toy := if Nat.eqb i 10 then f101 0 else f101 5.
Definition zero_mk : master_key toy := run empty_master (generate_master_key 10 zero_draw).
Example C85_zero_example :
  generate_master_key 10 zero_draw = Ok zero_mk /\
  e_prime (run empty_ct (encrypt pf ex_msg [1; 4] (pub_key zero_mk) ex_s)) = ex_msg.
Proof.
  split.
  - vmr (@Ok (master_key toy) zero_mk).
  - vmr (ex_msg : Gt toy).
Qed.

(** message 77 multiplied by 3 (exponents are added) and attribute 4 taken away *)
Example C87_example :
  decrypt (mkCt [1; 4] (gt_mul toy (e_prime (ex_ct [1; 4])) (f101 3)) (e_i (ex_ct [1; 4]))) ex_uk = Ok (Some (f101 80)) /\
  encrypt pf ex_msg [1] (pub_key ex_mk) ex_s = Ok (only toy (fun a => negb (a =? 4)) (ex_ct [1; 4])) /\
  decrypt (only toy (fun a => negb (a =? 4)) (ex_ct [1; 4])) ex_uk = Ok None.
Proof.
  split; [|split].
  - vmr (@Ok (option (Gt toy)) (Some (f101 80))).
  - vmr (@Ok (ciphertext toy) (only toy (fun a => negb (a =? 4)) (ex_ct [1; 4]))).
  - vmr (@Ok (option (Gt toy)) None).
Qed.

(** another authority, with the draws 33, 46, 59, ...: its key returns 58 instead of 77 *)
Definition other_mk : master_key toy := run empty_master (generate_master_key 10 (fun i => ex_kdraw (i + 1))).
Definition other_key : decryption_key toy := run empty_key (key_generation ex_m (priv_key other_mk) ex_kdraw).
Example C88_example :
  generate_master_key 10 (fun i => ex_kdraw (i + 1)) = Ok other_mk /\
  key_generation ex_m (priv_key other_mk) ex_kdraw = Ok other_key /\
  decrypt (ex_ct [1; 4]) other_key = Ok (Some (f101 58)) /\
  decrypt (ex_ct [1]) other_key = Ok None /\ is_err (decrypt (ex_ct [5]) other_key).
Proof.
  split; [|split; [|split; [|split]]].
  - vmr (@Ok (master_key toy) other_mk).
  - vmr (@Ok (decryption_key toy) other_key).
  - vmr (@Ok (option (Gt toy)) (Some (f101 58))).
  - vmr (@Ok (option (Gt toy)) None).
  - exists (InternalOperation "empty input matrix"). vmr (@Err (option (Gt toy)) (InternalOperation "empty input matrix")).
Qed.

(** headers for an authorised list: the element multiplied by 3 in a header without
    metadata and in one with metadata; opened with a key of the other authority *)
Definition hr : list attribute := [dept "HR"; level "Protected"].
Definition multiplied (meta : option metadata) : list byte :=
  let b := eh_bytes (ex_header hr meta) in
  let stop := (4 + N.to_nat (from_be (firstn 4 b)))%nat in
  let e := run (f101 0) (dec (gt_codec toy_forms) (skipn (stop - 288) b)) in
  firstn (stop - 288) b ++ bytes_of (enc (gt_codec toy_forms) (gt_mul toy e (f101 3))) ++ skipn stop b.
Definition other_policy_key : decryption_key toy :=
  run empty_key (@eng_user_key toy pf it_rev pol_a (priv_key other_mk) ex_ap ex_kdraw).
Definition other_opened : clear_header :=
  run (mkClearHeader [] meta_default) (decrypt_hybrid_header toy_sym toy_forms toy_shake pf other_policy_key (eh_bytes (ex_header hr None))).
Example C87_C88_header_example :
  decrypt_hybrid_header toy_sym toy_forms toy_shake pf (ekey pol_a ex_ap) (multiplied None) =
    Ok (mkClearHeader (toy_shake (bytes_of (enc (gt_codec toy_forms) (f101 80))) 32) (mkMeta [] None)) /\
  decrypt_hybrid_header toy_sym toy_forms toy_shake pf (ekey pol_a ex_ap) (multiplied (Some ex_meta)) = Err CryptoError /\
  @eng_user_key toy pf it_rev pol_a (priv_key other_mk) ex_ap ex_kdraw = Ok other_policy_key /\
  is_ok (decrypt_hybrid_header toy_sym toy_forms toy_shake pf other_policy_key (eh_bytes (ex_header hr None))) /\
  ch_key other_opened <> eh_key (ex_header hr None) /\
  decrypt_hybrid_header toy_sym toy_forms toy_shake pf other_policy_key (eh_bytes (ex_header hr (Some ex_meta))) = Err CryptoError.
Proof.
  split; [|split; [|split; [|split; [|split]]]].
  - vmr (@Ok clear_header (mkClearHeader (toy_shake (bytes_of (enc (gt_codec toy_forms) (f101 80))) 32) (mkMeta [] None))).
  - vmr (@Err clear_header CryptoError).
  - vmr (@Ok (decryption_key toy) other_policy_key).
  - exists other_opened. vmr (@Ok clear_header other_opened).
  - intros E. apply (f_equal (fun b => firstn 1 b)) in E. vm_compute in E. discriminate.
  - vmr (@Err clear_header CryptoError).
Qed.
