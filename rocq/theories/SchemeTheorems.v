(** Consequences of SchemeProofs for generated and delegated keys. *)
From Coq Require Import String NArith ZArith Bool Lia Permutation Field_theory Field List.
From Verif Require Import Prelude Field LinAlg Msp Spec MspProofs Minimal Gauss GaussProofs Bilinear Scheme SchemeSpec SchemeProofs.
Import ListNotations.

Section SchemeTheorems.
Variable B : BilinearMap.
Variable BL : BilinearLaws B.
Local Notation K := (bm_K B).
Local Notation KL := (bl_field B BL).

Declare Scope fld.
Local Notation "0" := (@f0 K) : fld.
Local Notation "1" := (@f1 K) : fld.
Local Infix "+" := (@fadd K) : fld.
Local Infix "*" := (@fmul K) : fld.
Local Infix "-" := (@fsub K) : fld.
Local Notation "- x" := (@fneg K x) : fld.
Local Open Scope fld.
Add Field KF7 : (fl_field K (bl_field B BL)).

Local Notation g3 := (g3_gen_exp B).
Local Notation g2 := (g2_gen_exp B).
Local Notation gt := (gt_gen_exp B).
Local Notation to1 := (g3_to_g1 B).

(** ** Master key *)
Definition master_of (t : list K) (y : K) : master_key B :=
  mkMaster (mkPriv t y) (pub_of B t y) (mkDel (inv_of B t)).

Lemma generate_master_key_ok size (draw : nat -> K) :
  (forall i, (i < size)%nat -> draw i <> 0) ->
  generate_master_key size draw = Ok (master_of (draws draw 0 size) (draw size)).
Proof.
  intros H. unfold generate_master_key.
  rewrite (mapM_ok_map _ (fun ti => 1 * finv ti)).
  - cbn [bind]. unfold master_of, pub_of, inv_of. rewrite map_map. reflexivity.
  - intros x Hx. unfold draws in Hx. apply in_map_iff in Hx as (i & <- & Hi). apply in_seq in Hi.
    apply sdiv_ok; [exact BL|]. apply H. lia.
Qed.

Lemma generate_master_key_panic size (draw : nat -> K) i :
  (i < size)%nat -> draw i = 0 -> generate_master_key size draw = Panic DivisionByZero.
Proof.
  intros Hi Hz. unfold generate_master_key.
  assert (E : mapM (fun ti => sdiv f1 ti) (draws draw 0 size) = Panic DivisionByZero).
  { unfold draws. assert (Hin : In i (seq 0 size)) by (apply in_seq; lia).
    clear Hi. induction (seq 0 size) as [|j l IH]; [destruct Hin|]. simpl.
    unfold sdiv at 1. destruct (feqb (draw j) f0) eqn:E; [reflexivity|]. simpl.
    destruct Hin as [->|Hin].
    - rewrite Hz, (feqb_refl K KL) in E. discriminate.
    - rewrite IH by exact Hin. reflexivity. }
  rewrite E. reflexivity.
Qed.

Lemma nonzero_dec size (draw : nat -> K) :
  (forall i, (i < size)%nat -> draw i <> 0) \/ (exists i, (i < size)%nat /\ draw i = 0).
Proof.
  induction size as [|n [IH|(i & Hi & E)]].
  - left. intros; lia.
  - destruct (K_eq_dec K KL (draw n) 0) as [E|E].
    + right. exists n. split; [lia|exact E].
    + left. intros i Hi. destruct (Nat.eq_dec i n) as [->|]; [exact E|]. apply IH. lia.
  - right. exists i. split; [lia|exact E].
Qed.

Lemma generate_master_key_inv size (draw : nat -> K) mk :
  generate_master_key size draw = Ok mk ->
  exists t y, mk = master_of t y /\ length t = size /\ (forall x, In x t -> x <> 0).
Proof.
  intros H. destruct (nonzero_dec size draw) as [Hn|(i & Hi & E)].
  - rewrite generate_master_key_ok in H by exact Hn. injection H as <-.
    exists (draws draw 0 size), (draw size). split; [reflexivity|]. split.
    + unfold draws. rewrite map_length, seq_length. reflexivity.
    + intros x Hx. unfold draws in Hx. apply in_map_iff in Hx as (i & <- & Hi). apply in_seq in Hi. apply Hn; lia.
  - rewrite (generate_master_key_panic size draw i) in H by assumption. discriminate.
Qed.

Lemma tt_nonzero (t : list K) a : (forall x, In x t -> x <> 0) -> in_range B t a -> tt B t a <> 0.
Proof. intros H Hr. apply H. apply nth_In. exact Hr. Qed.

(** ** Keys obtained from a master key *)

Lemma obtained_rep P t y f uk : (forall x, In x t -> x <> 0) -> obtained B P (master_of t y) f uk ->
  exists m sg, to_msp P f = Ok m /\ key_rep B t f m sg uk /\ (forall a, In a (leaves f) -> tt B t a <> 0).
Proof.
  intros Hnz H. induction H as [f m draw uk Hm Hk|f uk f' m' draw uk' Ho IH Hm Hd|f uk draw uk' Ho IH Hd].
  - pose proof (to_msp_msp_of K KL P f m Hm) as M.
    destruct (key_generation_rep B BL f m t y draw uk M Hk) as (u & _ & R & Hn). eauto.
  - destruct IH as (m & sg & E & R & Hn).
    pose proof (to_msp_msp_of K KL P f' m' Hm) as M'.
    destruct (key_delegation_rep B BL t f m sg uk f' m' draw uk' R M' Hd) as (u & _ & Hi & R').
    exists m', (fun a => sg a + share B m' u a). split; [exact Hm|]. split; [exact R'|]. auto.
  - destruct IH as (m & sg & E & R & Hn). simpl in Hd.
    rewrite (key_randomization_eq B BL t f m sg uk _ draw R) in Hd.
    pose proof (kr_msp _ _ _ _ _ _ R) as M.
    destruct (key_delegation_rep B BL t f m sg uk f m draw uk' R M Hd) as (u & _ & _ & R'). eauto.
Qed.

Lemma suml_extend (g : N -> K) L L' : NoDup L -> NoDup L' -> incl L' L -> (forall a, In a L -> ~ In a L' -> g a = 0) ->
  suml g L' = suml g L.
Proof.
  intros H H' Hi Hz. transitivity (suml g (filter (fun a => inb a L') L)).
  - apply suml_perm; [exact KL|]. apply NoDup_Permutation; [exact H'|apply NoDup_filter; exact H|].
    intros a. rewrite filter_In, inb_spec. split; [|tauto]. intros Ha. split; [apply Hi|]; exact Ha.
  - apply suml_filter; [exact KL|]. intros a Ha E. apply Hz; [exact Ha|].
    intros Hin. apply inb_spec in Hin. congruence.
Qed.

Lemma shares_sub f f' y sg : NoDup (leaves f) -> NoDup (leaves f') -> incl (leaves f') (leaves f) ->
  sub_wt K f' f -> shares_of B y f sg -> shares_of B y f' sg.
Proof.
  intros Hnd Hnd' Hi Hs H al c Hw.
  rewrite (suml_ext K _ (fun a => on K (leaves f') al a * sg a)) by (intros a Ha; rewrite on_in by exact Ha; reflexivity).
  rewrite (suml_extend _ (leaves f) (leaves f') Hnd Hnd' Hi).
  - apply H. apply Hs.
    + intros v _ Hv. apply on_out; exact Hv.
    + eapply wt_ext; [|exact Hw]. intros v Hv. rewrite on_in by exact Hv. reflexivity.
  - intros a _ Ha. rewrite on_out by exact Ha. ring.
Qed.

Lemma shares_add f y z sg sg' : shares_of B y f sg -> shares_of B z f sg' ->
  shares_of B (y + z) f (fun a => sg a + sg' a).
Proof.
  intros H1 H2 al c Hw.
  rewrite (suml_ext K _ (fun a => al a * sg a + al a * sg' a)) by (intros; ring).
  rewrite suml_add by exact KL. rewrite (H1 al c Hw), (H2 al c Hw). ring.
Qed.

Lemma key_delegation_good P t y f uk f' m' draw uk' :
  good_key B t y f uk -> narrows f' f \/ restricts f' f -> to_msp P f' = Ok m' ->
  key_delegation m' uk (mkDel (inv_of B t)) draw = Ok uk' -> good_key B t y f' uk'.
Proof.
  intros (m & sg & R & Hs) Hr Hm Hd.
  pose proof (to_msp_msp_of K KL P f' m' Hm) as M'. pose proof (kr_msp _ _ _ _ _ _ R) as M.
  destruct (key_delegation_rep B BL t f m sg uk f' m' draw uk' R M' Hd) as (u & Hu & Hi & R').
  exists m', (fun a => sg a + share B m' u a). split; [exact R'|].
  pose proof (mo_nodup K f m M) as Hnd. pose proof (mo_nodup K f' m' M') as Hnd'.
  apply (zero_sharing_vector_inv B BL) in Hu as [_ Hu].
  assert (E : y = y + 0) by ring. rewrite E. apply shares_add.
  - apply (shares_sub f f'); try assumption.
    destruct Hr as [Hr|Hr]; [apply narrows_sub_wt|apply restricts_sub_wt]; assumption || exact KL.
  - apply share_shares; assumption.
Qed.

Lemma derived_good P t y f uk : (forall x, In x t -> x <> 0) -> derived B P (master_of t y) f uk ->
  good_key B t y f uk /\ (forall a, In a (leaves f) -> tt B t a <> 0) /\ exists m, to_msp P f = Ok m.
Proof.
  intros Hnz H. induction H as [f m draw uk Hm Hk|f uk f' m' draw uk' Ho IH Hn Hm Hd|f uk draw uk' Ho IH Hd].
  - pose proof (to_msp_msp_of K KL P f m Hm) as M.
    destruct (key_generation_rep B BL f m t y draw uk M Hk) as (u & Hu & R & Hn).
    split; [|split; [exact Hn|eauto]]. exists m, (share B m u). split; [exact R|]. apply share_shares; [exact BL|exact M|].
    apply (sharing_vector_inv B BL) in Hu. tauto.
  - destruct IH as (G & Hne & _). simpl in Hd.
    pose proof (key_delegation_good P t y f uk f' m' draw uk' G Hn Hm Hd) as G'.
    split; [exact G'|]. split; [|eauto]. destruct G' as (m2 & sg2 & R2 & _).
    intros a Ha. apply tt_nonzero; [exact Hnz|]. apply (kr_range _ _ _ _ _ _ R2 a Ha).
  - destruct IH as (G & Hne & (m0 & Hm0)). pose proof G as (m & sg & R & Hs). simpl in Hd.
    rewrite (key_randomization_eq B BL t f m sg uk _ draw R) in Hd. pose proof (kr_msp _ _ _ _ _ _ R) as M.
    destruct (key_delegation_rep B BL t f m sg uk f m draw uk' R M Hd) as (u & Hu & _ & R').
    split; [|split; [exact Hne|eauto]]. exists m, (fun a => sg a + share B m u a). split; [exact R'|].
    apply (zero_sharing_vector_inv B BL) in Hu as [_ Hu].
    assert (E : y = y + 0) by ring. rewrite E. apply shares_add; [exact Hs|]. apply share_shares; assumption.
Qed.

(** ** Decryption by good keys *)
Lemma good_key_value f m T y sg : msp_of K f m -> minimal f T -> shares_of B y f sg ->
  suml (fun a => ind K T a * sg a) (leaves f) = y.
Proof.
  intros M HM Hs. rewrite (Hs (ind K T) 1).
  - ring.
  - apply minimal_wt; [exact KL|apply (mo_nodup K f m M)|exact HM].
Qed.

Lemma selected_nil f gam : selected f gam = [] <-> ~ shares_attr f gam.
Proof.
  split.
  - intros E (a & H1 & H2). assert (In a (selected f gam)) by (apply selected_in; auto). rewrite E in H; destruct H.
  - intros H. destruct (selected f gam) as [|a l] eqn:E; [reflexivity|]. exfalso. apply H. exists a.
    apply selected_in. rewrite E. left; reflexivity.
Qed.

(** the three outcomes of decryption by a good key *)
Lemma decrypt_good t y f uk gam mu s :
  good_key B t y f uk -> (forall a, In a (leaves f) -> tt B t a <> 0) ->
  (holds (attrs gam) f /\ decrypt (honest_ct B t y gam mu s) uk = Ok (Some (gt mu))) \/
  (~ holds (attrs gam) f /\ shares_attr f gam /\ decrypt (honest_ct B t y gam mu s) uk = Ok None) \/
  (~ holds (attrs gam) f /\ ~ shares_attr f gam /\
   decrypt (honest_ct B t y gam mu s) uk = Err (InternalOperation "empty input matrix")).
Proof.
  intros (m & sg & R & Hs) Hnz. pose proof (kr_msp _ _ _ _ _ _ R) as M.
  destruct (decrypt_rep B BL f m gam M) as [(E & Hn & H)|[(E & Hn & H)|(E & Hh & T & HM & HT & H)]].
  - right; right. split; [exact Hn|]. split; [apply selected_nil; exact E|]. eapply H; eauto.
  - right; left. split; [exact Hn|]. split; [|eapply H; eauto].
    destruct (selected f gam) as [|a l] eqn:Es; [contradiction|]. exists a. apply selected_in. rewrite Es. left; reflexivity.
  - left. split; [exact Hh|]. rewrite (H t sg uk mu y s R Hnz). rewrite (good_key_value f m T y sg M HM Hs).
    do 3 f_equal. ring.
Qed.

Lemma encrypt_honest P msg gam t y s ct :
  encrypt P msg gam (pub_of B t y) s = Ok ct -> exists mu, msg = gt mu /\ ct = honest_ct B t y gam mu s.
Proof.
  intros H. destruct (bl_gt_surj B BL msg) as [mu ->]. exists mu. split; [reflexivity|].
  apply (encrypt_inv B BL) in H as (_ & _ & ->). reflexivity.
Qed.

Lemma derived_decrypt P t y f uk msg gam s ct :
  (forall x, In x t -> x <> 0) -> derived B P (master_of t y) f uk -> encrypt P msg gam (pub_of B t y) s = Ok ct ->
  (holds (attrs gam) f /\ decrypt ct uk = Ok (Some msg)) \/
  (~ holds (attrs gam) f /\ shares_attr f gam /\ decrypt ct uk = Ok None) \/
  (~ holds (attrs gam) f /\ ~ shares_attr f gam /\ decrypt ct uk = Err (InternalOperation "empty input matrix")).
Proof.
  intros Hnz Hd He. destruct (derived_good P t y f uk Hnz Hd) as (G & Hn & _).
  destruct (encrypt_honest P msg gam t y s ct He) as (mu & -> & ->). apply decrypt_good; assumption.
Qed.

(** ** Randomisation of any obtained key *)
Lemma randomise_same P t y f uk draw uk' msg gam s ct :
  (forall x, In x t -> x <> 0) -> obtained B P (master_of t y) f uk ->
  abe_key_delegation None uk (mkDel (inv_of B t)) draw = Ok uk' ->
  encrypt P msg gam (pub_of B t y) s = Ok ct ->
  dk_msp uk' = dk_msp uk /\ decrypt ct uk' = decrypt ct uk.
Proof.
  intros Hnz Ho Hd He. destruct (obtained_rep P t y f uk Hnz Ho) as (m & sg & Hm & R & Hn).
  destruct (encrypt_honest P msg gam t y s ct He) as (mu & -> & ->). simpl in Hd.
  rewrite (key_randomization_eq B BL t f m sg uk _ draw R) in Hd. pose proof (kr_msp _ _ _ _ _ _ R) as M.
  destruct (key_delegation_rep B BL t f m sg uk f m draw uk' R M Hd) as (u & Hu & _ & R').
  split; [rewrite (kr_dk _ _ _ _ _ _ R), (kr_dk _ _ _ _ _ _ R'); reflexivity|].
  apply (zero_sharing_vector_inv B BL) in Hu as [_ Hu].
  destruct (decrypt_rep B BL f m gam M) as [(E & Hn' & H)|[(E & Hn' & H)|(E & Hh & T & HM & HT & H)]].
  - rewrite (H t sg uk mu y s R), (H t _ uk' mu y s R'). reflexivity.
  - rewrite (H t sg uk mu y s R), (H t _ uk' mu y s R'). reflexivity.
  - rewrite (H t sg uk mu y s R Hn), (H t _ uk' mu y s R' Hn). do 3 f_equal.
    rewrite (suml_ext K (fun a => ind K T a * (sg a + share B m u a)) (fun a => ind K T a * sg a + ind K T a * share B m u a))
      by (intros; ring).
    rewrite suml_add by exact KL.
    rewrite (good_key_value f m T 0 (share B m u) M HM) by (apply share_shares; assumption). ring.
Qed.

Lemma randomise_total P t y f uk draw :
  (forall x, In x t -> x <> 0) -> obtained B P (master_of t y) f uk ->
  exists uk', abe_key_delegation None uk (mkDel (inv_of B t)) draw = Ok uk'.
Proof.
  intros Hnz Ho. destruct (obtained_rep P t y f uk Hnz Ho) as (m & sg & Hm & R & Hn). simpl.
  rewrite (key_randomization_eq B BL t f m sg uk _ draw R).
  apply (key_delegation_total B BL t f m sg uk f m draw R (kr_msp _ _ _ _ _ _ R)). apply incl_refl.
Qed.

Lemma derived_obtained P mk f uk : derived B P mk f uk -> obtained B P mk f uk.
Proof.
  induction 1; [eapply ob_gen; eauto|eapply ob_del; eauto|eapply ob_rand; eauto].
Qed.

(** delegation succeeds exactly when no attribute is added *)
Lemma delegate_total P t y f uk f' m' draw :
  (forall x, In x t -> x <> 0) -> obtained B P (master_of t y) f uk -> to_msp P f' = Ok m' ->
  incl (leaves f') (leaves f) ->
  exists uk', abe_key_delegation (Some m') uk (mkDel (inv_of B t)) draw = Ok uk'.
Proof.
  intros Hnz Ho Hm Hi. destruct (obtained_rep P t y f uk Hnz Ho) as (m & sg & _ & R & Hn). simpl.
  apply (key_delegation_total B BL t f m sg uk f' m' draw R); [|exact Hi].
  apply (to_msp_msp_of K KL P f' m' Hm).
Qed.

Lemma delegate_new P t y f uk f' m' draw a :
  (forall x, In x t -> x <> 0) -> obtained B P (master_of t y) f uk -> to_msp P f' = Ok m' ->
  (forall b, In b (leaves f') -> (N.to_nat b < length t)%nat) -> In a (leaves f') -> ~ In a (leaves f) ->
  abe_key_delegation (Some m') uk (mkDel (inv_of B t)) draw = Err (InternalOperation "new attribute is not allowed").
Proof.
  intros Hnz Ho Hm Hr Ha Hna. destruct (obtained_rep P t y f uk Hnz Ho) as (m & sg & _ & R & Hn). simpl.
  apply (key_delegation_new B BL t f m sg uk f' m' draw R).
  - apply (to_msp_msp_of K KL P f' m' Hm).
  - exact Hr.
  - intros Hi. apply Hna, Hi, Ha.
Qed.

Lemma delegate_new_never_ok P t y f uk f' m' draw uk' a :
  (forall x, In x t -> x <> 0) -> obtained B P (master_of t y) f uk -> to_msp P f' = Ok m' ->
  In a (leaves f') -> ~ In a (leaves f) ->
  abe_key_delegation (Some m') uk (mkDel (inv_of B t)) draw <> Ok uk'.
Proof.
  intros Hnz Ho Hm Ha Hna H. destruct (obtained_rep P t y f uk Hnz Ho) as (m & sg & _ & R & Hn). simpl in H.
  destruct (key_delegation_rep B BL t f m sg uk f' m' draw uk' R (to_msp_msp_of K KL P f' m' Hm) H) as (u & _ & Hi & _).
  apply Hna, Hi, Ha.
Qed.

(** ** Shifting the draws *)
Lemma draws_add (d e : nat -> K) n : forall from,
  suml (fun x => x) (draws (fun i => d i + e i) from n) = suml (fun x => x) (draws d from n) + suml (fun x => x) (draws e from n).
Proof. intros from. unfold draws. rewrite !suml_map. apply suml_add. exact KL. Qed.

Lemma sharing_vector_shift cols (draw : nat -> K) (y y2 : K) u w :
  (1 <= cols)%nat -> sharing_vector cols draw y = Ok u -> suml w (seq 0 cols) = y2 - y ->
  exists u2, sharing_vector cols (shift draw w) y2 = Ok u2 /\ (forall j, (j < cols)%nat -> vec u2 j = vec u j + w j).
Proof.
  intros Hc Hu Hw. destruct cols as [|[|n]]; [lia| |]; cbn [sharing_vector] in *.
  - injection Hu as <-. exists [y2]. split; [reflexivity|]. intros j Hj. replace j with 0%nat by lia.
    simpl in Hw. unfold vec; simpl.
    transitivity (y + (y2 - y)); [ring|]. rewrite <- Hw. ring.
  - assert (Eu : u = draws draw 0 (S n) ++ [y - fold_left fadd (draws draw 0 (S n)) 0]) by congruence.
    clear Hu. subst u. eexists. split; [reflexivity|]. intros j Hj.
    assert (L : forall d : nat -> K, length (draws d 0 (S n)) = S n) by (intros; unfold draws; rewrite map_length, seq_length; reflexivity).
    unfold vec. destruct (Nat.eq_dec j (S n)) as [->|Hne].
    + rewrite !app_nth2 by (rewrite L; lia). rewrite !L, Nat.sub_diag. cbn [nth].
      rewrite !fold_left_add by exact BL.
      assert (E : seq 0 (S (S n)) = seq 0 (S n) ++ [S n]) by (apply (seq_S (S n) 0)).
      rewrite E, suml_app in Hw by exact KL. rewrite suml_cons in Hw. change (suml w []) with (@f0 K) in Hw.
      unfold shift. rewrite draws_add.
      assert (Ew : suml (fun x => x) (draws w 0 (S n)) = suml w (seq 0 (S n))) by (unfold draws; rewrite suml_map; reflexivity).
      rewrite Ew.
      transitivity (y + (y2 - y) - (0 + (suml (fun x => x) (draws draw 0 (S n)) + suml w (seq 0 (S n))))); [ring|].
      rewrite <- Hw. ring.
    + rewrite !app_nth1 by (rewrite L; lia). unfold draws.
      rewrite !(nth_indep _ 0 (draw O)) by (rewrite map_length, seq_length; lia).
      rewrite (nth_indep _ (draw O) (shift draw w O)) by (rewrite map_length, seq_length; lia).
      rewrite (map_nth (shift draw w)), seq_nth by lia. 
      rewrite (map_nth draw), seq_nth by lia. reflexivity.
Qed.

Lemma share_vec f m u u2 (w : nat -> K) a : msp_of K f m -> In a (leaves f) ->
  (forall j, (j < nb_col m)%nat -> vec u2 j = vec u j + w j) ->
  share B m u2 a = share B m u a + dotZ K (row_of m a) w.
Proof.
  intros M Ha H. unfold share, dotZ. rewrite <- dot_add by exact KL. apply dot_ext.
  intros i Hi. rewrite map_length, (row_of_width B f m a M Ha) in Hi. apply H; exact Hi.
Qed.

Lemma element_rep t f m sg uk a : key_rep B t f m sg uk -> In a (leaves f) ->
  element uk a = Some (g3 (sg a * finv (tt B t a)), to1 (g3 (sg a * finv (tt B t a)))).
Proof.
  intros R Ha. pose proof (kr_msp _ _ _ _ _ _ R) as M. unfold element, get_row_from_attr.
  rewrite (kr_dk _ _ _ _ _ _ R). simpl attr_to_row.
  destruct (mo_get_in B f m a M Ha) as (i & Hg & Hi & _ & _). rewrite Hg.
  rewrite (kr_raw _ _ _ _ _ _ R), (kr_d _ _ _ _ _ _ R), !nth_error_map, Hi. reflexivity.
Qed.

Lemma element_none t f m sg uk a : key_rep B t f m sg uk -> ~ In a (leaves f) -> element uk a = None.
Proof.
  intros R Ha. pose proof (kr_msp _ _ _ _ _ _ R) as M. unfold element, get_row_from_attr.
  rewrite (kr_dk _ _ _ _ _ _ R). simpl attr_to_row. rewrite (mo_get_notin B f m a M Ha). reflexivity.
Qed.

(** C08 *)
Lemma shares_hide f m (t : list K) (y y2 : K) gam :
  msp_of K f m -> ~ holds (attrs gam) f ->
  exists delta : nat -> K, forall draw uk,
    key_generation m (mkPriv t y) draw = Ok uk ->
    exists uk2, key_generation m (mkPriv t y2) (shift draw delta) = Ok uk2 /\
      dk_msp uk2 = dk_msp uk /\ (forall a, In a gam -> element uk2 a = element uk a).
Proof.
  intros M Hn. destruct (mo_sep K f m M (attrs gam) (attrs_dec gam) Hn) as (w & Hw & Ho).
  exists (fun j => (y2 - y) * w j). intros draw uk Hk.
  destruct (key_generation_rep B BL f m t y draw uk M Hk) as (u & Hu & R & Hnz).
  assert (Hc : (1 <= nb_col m)%nat) by (rewrite (mo_cols K f m M); lia).
  destruct (sharing_vector_shift (nb_col m) draw y y2 u (fun j => (y2 - y) * w j) Hc Hu) as (u2 & Hu2 & Hv).
  { rewrite suml_scal by exact KL. rewrite Hw. ring. }
  destruct (key_generation_total B BL f m t y2 (shift draw (fun j => (y2 - y) * w j)) M) as (uk2 & Hk2).
  { intros a Ha. split; [apply (kr_range _ _ _ _ _ _ R a Ha)|apply Hnz; exact Ha]. }
  exists uk2. split; [exact Hk2|].
  destruct (key_generation_rep B BL f m t y2 _ uk2 M Hk2) as (u2' & Hu2' & R2 & _).
  assert (u2' = u2) by congruence. subst u2'.
  split; [rewrite (kr_dk _ _ _ _ _ _ R), (kr_dk _ _ _ _ _ _ R2); reflexivity|].
  intros a Ha. destruct (in_dec N.eq_dec a (leaves f)) as [Hl|Hl].
  - rewrite (element_rep t f m _ uk a R Hl), (element_rep t f m _ uk2 a R2 Hl).
    rewrite (share_vec f m u u2 _ a M Hl Hv).
    assert (E : dotZ K (row_of m a) (fun j => (y2 - y) * w j) = 0).
    { unfold dotZ. rewrite dot_scal by exact KL.
      pose proof (Ho (a, row_of m a) (leaves_labelled B f m a M Hl) Ha) as H0. cbn [snd] in H0.
      unfold dotZ in H0. rewrite H0. ring. }
    rewrite E. replace (share B m u a + 0) with (share B m u a) by ring. reflexivity.
  - rewrite (element_none t f m _ uk a R Hl), (element_none t f m _ uk2 a R2 Hl). reflexivity.
Qed.

(** C15 *)
Lemma all_equal_dec n (v : nat -> K) : (forall j, (j < n)%nat -> v j = v O) \/ (exists j, (0 < j < n)%nat /\ v j <> v O).
Proof.
  induction n as [|n [IH|(j & Hj & H)]].
  - left; intros; lia.
  - destruct (K_eq_dec K KL (v n) (v O)) as [E|E].
    + left. intros j Hj. destruct (Nat.eq_dec j n) as [->|]; [exact E|apply IH; lia].
    + right. exists n. split; [|exact E]. destruct n; [exfalso; apply E; reflexivity|lia].
  - right. exists j. split; [lia|exact H].
Qed.

(** either the attributes of T determine nothing about y, or their shares sum to zero *)
Lemma unsat_direction f m T : msp_of K f m -> incl T (leaves f) -> ~ holds (attrs T) f ->
  (exists w, suml w (seq 0 (nb_col m)) = 0 /\ suml (fun a => ind K T a * dotZ K (row_of m a) w) (leaves f) = 1) \/
  (forall u, suml (fun a => ind K T a * dotZ K (row_of m a) u) (leaves f) = 0).
Proof.
  intros M Hi Hn.
  set (v := fun j => suml (fun a => ind K T a * dotZ K (row_of m a) (basis j)) (leaves f)).
  assert (Hlin : forall u, suml (fun a => ind K T a * dotZ K (row_of m a) u) (leaves f) = suml (fun j => v j * u j) (seq 0 (nb_col m))).
  { intros u. unfold v.
    rewrite (suml_ext K (fun j => suml (fun a => ind K T a * dotZ K (row_of m a) (basis j)) (leaves f) * u j)
       (fun j => suml (fun a => ind K T a * dotZ K (row_of m a) (basis j) * u j) (leaves f)))
      by (intros j _; rewrite suml_scal_r by exact KL; reflexivity).
    rewrite suml_swap by exact KL. apply suml_ext. intros a Ha.
    unfold dotZ at 1. rewrite dot_sum by exact KL. rewrite map_length, (row_of_width B f m a M Ha).
    rewrite <- suml_scal by exact KL. apply suml_ext. intros j _. unfold dotZ. rewrite dot_basis by exact KL. ring. }
  destruct (all_equal_dec (nb_col m) v) as [He|(j & Hj & Hne)].
  - right.
    assert (Hw : wt K (ind K T) f (v O)).
    { apply (wt_comb B BL f m _ _ M). intros u. rewrite Hlin, <- suml_scal by exact KL. apply suml_ext.
      intros j Hj. apply in_seq in Hj. rewrite He by lia. reflexivity. }
    assert (E : v O = 0).
    { destruct (K_eq_dec K KL (v O) 0) as [E|E]; [exact E|]. exfalso. apply Hn.
      apply (wt_holds K KL (ind K T) f (v O) (attrs T) (attrs_dec T) Hw E). intros a _ Ha. apply ind_out; exact Ha. }
    intros u. rewrite Hlin. apply suml_zero; [exact KL|]. intros j Hj. apply in_seq in Hj. rewrite He by lia. rewrite E. ring.
  - left. set (c := finv (v j - v O)).
    assert (Hd : v j - v O <> 0) by (intros E; apply Hne; apply (fsub_zero K KL); exact E).
    exists (fun i => c * (basis j i - basis O i)). 
    assert (S1 : forall g k, (k < nb_col m)%nat -> suml (fun i => g i * basis k i) (seq 0 (nb_col m)) = g k).
    { intros g k Hk. rewrite (suml_single K KL _ _ k).
      - unfold basis. rewrite Nat.eqb_refl. ring.
      - apply Nat.eq_dec.
      - apply seq_NoDup.
      - apply in_seq; lia.
      - intros i _ Hik. unfold basis. destruct (Nat.eqb_spec k i); [congruence|ring]. }
    split.
    + rewrite (suml_ext K _ (fun i => c * basis j i - c * basis O i)) by (intros; ring).
      rewrite suml_sub by exact KL. rewrite (S1 (fun _ => c) j), (S1 (fun _ => c) O) by lia. ring.
    + rewrite Hlin. rewrite (suml_ext K _ (fun i => c * v i * basis j i - c * v i * basis O i)) by (intros; ring).
      rewrite suml_sub by exact KL. rewrite (S1 (fun i => c * v i) j), (S1 (fun i => c * v i) O) by lia.
      unfold c. field. exact Hd.
Qed.

Lemma delegated_no_gain P f m (t : list K) (y s : K) f' m' gam :
  (forall x, In x t -> x <> 0) -> to_msp P f = Ok m -> to_msp P f' = Ok m' -> ~ holds (attrs gam) f -> y <> 0 -> s <> 0 ->
  exists delta : nat -> K, forall draw ddraw k1 k2 uk1 uk2 uk1' uk2' msg ct,
    k1 <> k2 ->
    key_generation m (mkPriv t y) (shift draw (fun i => k1 * delta i)) = Ok uk1 ->
    key_generation m (mkPriv t y) (shift draw (fun i => k2 * delta i)) = Ok uk2 ->
    key_delegation m' uk1 (mkDel (inv_of B t)) ddraw = Ok uk1' ->
    key_delegation m' uk2 (mkDel (inv_of B t)) ddraw = Ok uk2' ->
    encrypt P msg gam (pub_of B t y) s = Ok ct ->
    ~ (decrypt ct uk1' = Ok (Some msg) /\ decrypt ct uk2' = Ok (Some msg)).
Proof.
  intros Hnz Hm Hm' Hn Hy Hs. pose proof (to_msp_msp_of K KL P f m Hm) as M. pose proof (to_msp_msp_of K KL P f' m' Hm') as M'.
  destruct (decrypt_rep B BL f' m' gam M') as [(E & Hn' & H)|[(E & Hn' & H)|(E & Hh & T & HM & HT & H)]].
  - exists (fun _ => 0). intros draw ddraw k1 k2 uk1 uk2 uk1' uk2' msg ct _ G1 _ D1 _ He [F1 _].
    destruct (encrypt_honest P msg gam t y s ct He) as (mu & -> & ->).
    destruct (key_generation_rep B BL f m t y _ uk1 M G1) as (u & _ & R & _).
    destruct (key_delegation_rep B BL t f m _ uk1 f' m' ddraw uk1' R M' D1) as (u' & _ & _ & R').
    rewrite (H _ _ _ _ _ _ R') in F1. discriminate.
  - exists (fun _ => 0). intros draw ddraw k1 k2 uk1 uk2 uk1' uk2' msg ct _ G1 _ D1 _ He [F1 _].
    destruct (encrypt_honest P msg gam t y s ct He) as (mu & -> & ->).
    destruct (key_generation_rep B BL f m t y _ uk1 M G1) as (u & _ & R & _).
    destruct (key_delegation_rep B BL t f m _ uk1 f' m' ddraw uk1' R M' D1) as (u' & _ & _ & R').
    rewrite (H _ _ _ _ _ _ R') in F1. discriminate.
  - assert (HTg : incl T gam) by (intros a Ha; apply HT, selected_in in Ha; tauto).
    assert (HnT : ~ holds (attrs T) f).
    { intros Hx. apply Hn. eapply holds_mono; [|exact Hx]. intros a _ Ha. apply HTg; exact Ha. }
    destruct (list_eq_dec N.eq_dec (filter (fun a => negb (inb a (leaves f))) (leaves f')) []) as [Ein|Hin].
    2:{ (* no delegation can succeed *)
      exists (fun _ => 0). intros draw ddraw k1 k2 uk1 uk2 uk1' uk2' msg ct _ G1 _ D1 _ He _. apply Hin.
      destruct (key_generation_rep B BL f m t y _ uk1 M G1) as (u & _ & R & _).
      destruct (key_delegation_rep B BL t f m _ uk1 f' m' ddraw uk1' R M' D1) as (u' & _ & Hi & _).
      clear -Hi. induction (leaves f') as [|a l IH]; [reflexivity|]. simpl.
      assert (Ha : inb a (leaves f) = true) by (apply inb_spec, Hi; left; reflexivity).
      rewrite Ha. simpl. apply IH. intros x Hx. apply Hi; right; exact Hx. }
    assert (Hil : incl (leaves f') (leaves f)).
    { intros a Ha. destruct (inb a (leaves f)) eqn:Eb; [apply inb_spec; exact Eb|].
      assert (Hc : In a (filter (fun a => negb (inb a (leaves f))) (leaves f'))) by (apply filter_In; rewrite Eb; auto).
      rewrite Ein in Hc; destruct Hc. }
    assert (HTl : incl T (leaves f)) by (intros a Ha; apply Hil; apply (minimal_leaves f' T HM); exact Ha).
    (* value found by the delegated key *)
    assert (Hval : forall draw ddraw uk uk' mu, 
       key_generation m (mkPriv t y) draw = Ok uk -> key_delegation m' uk (mkDel (inv_of B t)) ddraw = Ok uk' ->
       exists u, sharing_vector (nb_col m) draw y = Ok u /\
       decrypt (honest_ct B t y gam mu s) uk' =
       Ok (Some (gt (mu + (y - suml (fun a => ind K T a * dotZ K (row_of m a) (vec u)) (leaves f)) * s)))).
    { intros draw ddraw uk uk' mu G D.
      destruct (key_generation_rep B BL f m t y _ uk M G) as (u & Hu & R & Hne).
      destruct (key_delegation_rep B BL t f m _ uk f' m' ddraw uk' R M' D) as (u' & Hu' & _ & R').
      exists u. split; [exact Hu|]. rewrite (H t _ uk' mu y s R') by (intros a Ha; apply Hne, Hil, Ha).
      do 3 f_equal. f_equal. f_equal.
      apply (zero_sharing_vector_inv B BL) in Hu' as [_ Hu'].
      rewrite (suml_ext K (fun a => ind K T a * (share B m u a + share B m' u' a))
        (fun a => ind K T a * share B m u a + ind K T a * share B m' u' a)) by (intros; ring).
      rewrite suml_add by exact KL.
      rewrite (good_key_value f' m' T 0 (share B m' u') M' HM) by (apply share_shares; assumption).
      rewrite (suml_extend (fun a => ind K T a * share B m u a) (leaves f) (leaves f')
          (mo_nodup K f m M) (mo_nodup K f' m' M') Hil).
      - unfold share. ring.
      - intros a _ Ha. rewrite ind_out; [ring|]. intros Hin. apply Ha. apply (minimal_leaves f' T HM). exact Hin. }
    destruct (unsat_direction f m T M HTl HnT) as [(w & Hw0 & Hw1)|Hz].
    + exists w. intros draw ddraw k1 k2 uk1 uk2 uk1' uk2' msg ct Hk G1 G2 D1 D2 He [F1 F2].
      destruct (encrypt_honest P msg gam t y s ct He) as (mu & -> & ->).
      destruct (Hval _ _ _ _ mu G1 D1) as (u1 & Hu1 & V1). destruct (Hval _ _ _ _ mu G2 D2) as (u2 & Hu2 & V2).
      rewrite V1 in F1. rewrite V2 in F2. injection F1 as F1. injection F2 as F2.
      apply (bl_gt_inj B BL) in F1, F2.
      assert (Hc : (1 <= nb_col m)%nat) by (rewrite (mo_cols K f m M); lia).
      destruct (sharing_vector_total B (nb_col m) draw y Hc) as (u & Hu).
      assert (Hsh : forall k uk, sharing_vector (nb_col m) (shift draw (fun i => k * w i)) y = Ok uk ->
         suml (fun a => ind K T a * dotZ K (row_of m a) (vec uk)) (leaves f)
         = suml (fun a => ind K T a * dotZ K (row_of m a) (vec u)) (leaves f) + k).
      { intros k uk Huk.
        destruct (sharing_vector_shift (nb_col m) draw y y u (fun i => k * w i) Hc Hu) as (uk' & Huk' & Hv).
        { rewrite suml_scal by exact KL. rewrite Hw0. ring. }
        assert (uk' = uk) by congruence. subst uk'.
        rewrite (suml_ext K _ (fun a => ind K T a * dotZ K (row_of m a) (vec u) + k * (ind K T a * dotZ K (row_of m a) w))).
        - rewrite suml_add by exact KL. rewrite suml_scal by exact KL. rewrite Hw1. ring.
        - intros a Ha. pose proof (share_vec f m u uk _ a M Ha Hv) as E1. unfold share in E1. rewrite E1.
          unfold dotZ. rewrite dot_scal by exact KL. ring. }
      rewrite (Hsh k1 u1 Hu1) in F1. rewrite (Hsh k2 u2 Hu2) in F2.
      set (S0 := suml (fun a => ind K T a * dotZ K (row_of m a) (vec u)) (leaves f)) in *.
      apply Hk. apply (fmul_cancel K KL k1 k2 s Hs).
      transitivity (mu - (mu + (y - (S0 + k1)) * s) + (y - S0) * s); [ring|]. rewrite F1.
      transitivity (mu - (mu + (y - (S0 + k2)) * s) + (y - S0) * s); [rewrite F2; ring|ring].
    + exists (fun _ => 0). intros draw ddraw k1 k2 uk1 uk2 uk1' uk2' msg ct Hk G1 G2 D1 D2 He [F1 _].
      destruct (encrypt_honest P msg gam t y s ct He) as (mu & -> & ->).
      destruct (Hval _ _ _ _ mu G1 D1) as (u1 & Hu1 & V1). rewrite V1 in F1. injection F1 as F1.
      apply (bl_gt_inj B BL) in F1. rewrite Hz in F1.
      destruct (fmul_zero K KL y s) as [E0|E0]; [|contradiction|contradiction].
      transitivity (mu + (y - 0) * s - mu); [ring|]. rewrite F1. ring.
Qed.


(** ** C11: from Or to And *)
Lemma or_to_and P (t : list K) (y : K) a b m draw uk m' ddraw uk' msg gam s ct :
  (forall x, In x t -> x <> 0) -> a <> b ->
  to_msp P (Or (Leaf a) (Leaf b)) = Ok m -> key_generation m (mkPriv t y) draw = Ok uk ->
  to_msp P (And (Leaf a) (Leaf b)) = Ok m' -> key_delegation m' uk (mkDel (inv_of B t)) ddraw = Ok uk' ->
  encrypt P msg gam (pub_of B t y) s = Ok ct -> In a gam -> In b gam ->
  decrypt ct uk' = Ok (Some (gt_div B msg (gt_exp B (gt y) s))).
Proof.
  intros Hnz Hab Hm Hk Hm' Hd He Ha Hb.
  pose proof (to_msp_msp_of K KL P _ m Hm) as M. pose proof (to_msp_msp_of K KL P _ m' Hm') as M'.
  destruct (key_generation_rep B BL _ m t y draw uk M Hk) as (u & Hu & R & Hne).
  destruct (key_delegation_rep B BL t _ m _ uk _ m' ddraw uk' R M' Hd) as (u' & Hu' & _ & R').
  destruct (encrypt_honest P msg gam t y s ct He) as (mu & -> & ->).
  apply (sharing_vector_inv B BL) in Hu as [_ Hu]. apply (zero_sharing_vector_inv B BL) in Hu' as [_ Hu'].
  assert (Sh : forall c, c = a \/ c = b -> share B m u c = y).
  { intros c Hc. pose proof (share_shares B BL _ m u y M Hu) as Hs.
    specialize (Hs (ind K [c]) 1).
    assert (Hw : wt K (ind K [c]) (Or (Leaf a) (Leaf b)) 1).
    { apply (minimal_wt K KL); [apply (mo_nodup K _ m M)|]. split.
      - simpl. unfold attrs. simpl. destruct Hc as [->| ->]; auto.
      - intros T' Hi Hh. intros x [<-|[]]. simpl in Hh. unfold attrs in Hh.
        destruct Hh as [Hh|Hh]; pose proof (Hi _ Hh) as [E|[]]; subst; exact Hh. }
    specialize (Hs Hw). cbn [leaves app] in Hs. rewrite !suml_cons in Hs. change (suml _ []) with (@f0 K) in Hs.
    destruct Hc as [->| ->].
    - rewrite (ind_in K [a] a) in Hs by (left; reflexivity).
      rewrite (ind_out K [a] b) in Hs by (intros [E|[]]; congruence).
      transitivity (1 * share B m u a + (0 * share B m u b + 0)); [ring|]. rewrite Hs. ring.
    - rewrite (ind_out K [b] a) in Hs by (intros [E|[]]; congruence).
      rewrite (ind_in K [b] b) in Hs by (left; reflexivity).
      transitivity (0 * share B m u a + (1 * share B m u b + 0)); [ring|]. rewrite Hs. ring. }
  destruct (decrypt_rep B BL _ m' gam M') as [(E & Hn' & _)|[(E & Hn' & _)|(E & Hh & T & HM & HT & H)]].
  - exfalso. apply Hn'. simpl. auto.
  - exfalso. apply Hn'. simpl. auto.
  - rewrite (H t _ uk' mu y s R') by exact Hne.
    rewrite (bl_gt_exp B BL), (bl_gt_div B BL). do 3 f_equal.
    destruct HM as [[HaT HbT] HM']. unfold attrs in HaT, HbT. simpl in HaT, HbT.
    rewrite (suml_ext K (fun c => ind K T c * (share B m u c + share B m' u' c))
       (fun c => ind K T c * share B m u c + ind K T c * share B m' u' c)) by (intros; ring).
    rewrite suml_add by exact KL.
    rewrite (good_key_value (And (Leaf a) (Leaf b)) m' T 0 (share B m' u') M')
      by (first [split; [split; assumption|exact HM']|apply share_shares; assumption]).
    cbn [leaves app]. rewrite !suml_cons. change (suml _ []) with (@f0 K).
    rewrite (ind_in K T a), (ind_in K T b) by assumption. rewrite !Sh by auto. ring.
Qed.

(** ** C59 *)
Lemma suml_single_map (l : list (K * N)) (a : N) (q : K * N) :
  NoDup (map snd l) -> In q l ->
  suml (fun p => if N.eqb (snd p) (snd q) then fst p else 0) l = fst q.
Proof.
  intros Hnd Hin. clear a. induction l as [|x l IH]; [destruct Hin|]. inversion Hnd as [|? ? Hx Hl]; subst.
  rewrite suml_cons. destruct Hin as [->|Hin].
  - rewrite N.eqb_refl. rewrite suml_zero; [ring|exact KL|]. intros p Hp.
    destruct (N.eqb_spec (snd p) (snd q)) as [E|]; [|reflexivity]. exfalso. apply Hx. rewrite <- E. apply in_map. exact Hp.
  - rewrite IH by assumption. destruct (N.eqb_spec (snd x) (snd q)) as [E|]; [|ring].
    exfalso. apply Hx. rewrite E. apply in_map. exact Hin.
Qed.

Lemma recovery_minimal t y f uk gam mu s :
  good_key B t y f uk -> holds (attrs gam) f ->
  exists sel a, select_rows (honest_ct B t y gam mu s) uk = Ok sel /\
    span_coefs (map (fun x => fst (fst x)) sel) = Ok (Some a) /\
    length a = length (known f gam) /\ length sel = length (known f gam) /\
    (forall x, In x a -> x = 0 \/ x = 1) /\
    let used := map snd (filter (fun p => negb (feqb (fst p) 0)) (combine a (known f gam))) in
    NoDup used /\ minimal f used.
Proof.
  intros (m & sg & R & Hs) Hh. pose proof (kr_msp _ _ _ _ _ _ R) as M.
  assert (Hh' : holds (attrs (selected f gam)) f).
  { eapply holds_mono; [|exact Hh]. intros a Hl Ha. apply selected_in. split; [exact Ha|exact Hl]. }
  eexists. 
  destruct (span_selected B BL f m (selected f gam) M) as [[_ Hn]|(_ & sol & T & Hsol & Hlen & HM & HT & Hc & H01 & Hnd)].
  - intros a Ha. apply selected_in in Ha. tauto.
  - intros E. rewrite E in Hh'. destruct (holds_some _ _ Hh') as (a & Ha & Hx). destruct Hx.
  - contradiction.
  - exists sol. unfold honest_ct. split; [apply (select_rows_eq B t f m sg uk gam _ s R)|].
    rewrite map_map. cbn [fst]. split; [exact Hsol|]. split; [exact Hlen|]. split; [rewrite map_length; reflexivity|].
    split; [exact H01|]. cbn zeta. split; [exact Hnd|].
    assert (Eq : forall a, In a (map snd (filter (fun p : K * N => negb (feqb (fst p) 0)) (combine sol (selected f gam)))) <-> In a T).
    { set (ps := combine sol (selected f gam)) in *. intros a. split.
      - intros Ha. destruct (in_dec N.eq_dec a T) as [|HnT]; [assumption|]. exfalso.
        pose proof (Hc a) as E. rewrite ind_out in E by exact HnT. unfold coef in E.
        assert (E2 : suml (fun p : K * N => if N.eqb (snd p) a then fst p else 0) ps
           = suml (fun p : K * N => if N.eqb (snd p) a then fst p else 0) (filter (fun p : K * N => negb (feqb (fst p) 0)) ps)).
        { symmetry. apply suml_filter; [exact KL|]. intros p _ Hp. apply negb_false_iff in Hp.
          apply (fl_eqb K KL) in Hp. rewrite Hp. destruct (N.eqb (snd p) a); reflexivity. }
        rewrite E2 in E. apply in_map_iff in Ha as ([x b] & Eb & Hp). cbn [snd] in Eb. subst b.
        pose proof (suml_single_map _ a (x, a) Hnd Hp) as E3. cbn [snd fst] in E3. rewrite E3 in E.
        apply filter_In in Hp as [_ Hp]. cbn [fst] in Hp. rewrite E, (feqb_refl K KL) in Hp. discriminate.
      - intros Ha. pose proof (Hc a) as E. rewrite ind_in in E by exact Ha.
        destruct (in_dec N.eq_dec a (map snd (filter (fun p : K * N => negb (feqb (fst p) 0)) ps))) as [|Hn]; [assumption|].
        exfalso. unfold coef in E. rewrite suml_zero in E; [|exact KL|].
        + apply (K_1_neq_0 K KL). symmetry; exact E.
        + intros [x b] Hp. cbn [snd fst]. destruct (N.eqb_spec b a) as [->|]; [|reflexivity].
          destruct (K_eq_dec K KL x 0) as [|Hx]; [assumption|]. exfalso. apply Hn.
          apply in_map_iff. exists (x, a). split; [reflexivity|]. apply filter_In. split; [exact Hp|].
          cbn [fst]. apply negb_true_iff. apply (feqb_false K KL). exact Hx. }
    destruct HM as [HM1 HM2]. split.
    + eapply holds_mono; [|exact HM1]. intros a _ Ha. apply Eq. exact Ha.
    + intros T' Hi HT'. intros a Ha. apply Eq in Ha. refine (HM2 T' _ HT' a Ha).
      intros b Hb. apply Eq. apply Hi. exact Hb.
Qed.

Lemma mask_trivial (mu d : K) : mu - d = mu -> 0 = d.
Proof. intros E. transitivity (mu - (mu - d)); [rewrite E; ring|ring]. Qed.

Lemma randomise_msp P t y f uk draw uk' :
  (forall x, In x t -> x <> 0) -> obtained B P (master_of t y) f uk ->
  abe_key_delegation None uk (mkDel (inv_of B t)) draw = Ok uk' -> dk_msp uk' = dk_msp uk.
Proof.
  intros Hnz Ho Hd. destruct (obtained_rep P t y f uk Hnz Ho) as (m & sg & Hm & R & Hn). simpl in Hd.
  rewrite (key_randomization_eq B BL t f m sg uk _ draw R) in Hd. pose proof (kr_msp _ _ _ _ _ _ R) as M.
  destruct (key_delegation_rep B BL t f m sg uk f m draw uk' R M Hd) as (u & Hu & _ & R').
  rewrite (kr_dk _ _ _ _ _ _ R), (kr_dk _ _ _ _ _ _ R'). reflexivity.
Qed.

Lemma encrypt_bounds P msg gam (pk : master_public_key B) (s : K) :
  (fits P (length (pub_t pk)) -> (1 <= length (pub_t pk) <= length gam)%nat -> is_err (encrypt P msg gam pk s)) /\
  (forall ct, encrypt P msg gam pk s = Ok ct ->
     (length gam < length (pub_t pk))%nat /\ (forall a, In a gam -> (N.to_nat a < length (pub_t pk))%nat) /\ gamma ct = gam).
Proof.
  unfold encrypt. destruct (Nat.leb_spec (length (pub_t pk)) (length gam)) as [Hl|Hl]; split.
  - intros Hf [H1 _]. unfold usize_sub, usize_wrap, fits in *.
    assert (E : ((0 <=? Z.of_N (N.of_nat (length (pub_t pk))) - Z.of_N 1) &&
                 (Z.of_N (N.of_nat (length (pub_t pk))) - Z.of_N 1 <? Z.of_N (usize_modulus P)))%Z = true).
    { apply andb_true_intro. split; [apply Z.leb_le|apply Z.ltb_lt]; lia. }
    rewrite E. eexists; reflexivity.
  - intros ct H. apply bind_ok in H as (x & _ & H). discriminate.
  - lia.
  - intros ct H. apply bind_ok in H as (ei & Hei & H). injection H as <-. split; [exact Hl|]. split; [|reflexivity].
    intros a Ha. apply mapM_ok_inv in Hei. clear -Hei Ha. induction Hei as [|x y l l' Hxy _ IH]; [destruct Ha|].
    destruct Ha as [->|Ha]; [|apply IH; exact Ha].
    apply bind_ok in Hxy as (g & Hg & _). apply (indexN_inv _ _ _ g) in Hg. tauto.
Qed.

End SchemeTheorems.
