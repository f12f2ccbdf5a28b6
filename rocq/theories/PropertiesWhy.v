(** How making and delegating a key and encrypting end, and with which error: C137. *)
From Coq Require Import String NArith ZArith Bool Arith Lia Strings.Byte List Permutation.
From Verif Require SchemeProofs.
From Verif Require Import Prelude Field LinAlg Msp Spec MspProofs Minimal Bilinear Scheme SchemeSpec SchemeTheorems
  Zp ExpModel PropertiesScheme Codec CodecProofs SchemeCodec SchemeCodecProofs PropertiesCodec
  Policy PolicySpec PolicyProofs Engine EngineSpec EngineProofs PropertiesEngine Hybrid HybridSpec PropertiesHybrid PropertiesVersions
  Properties32 Ffi FfiSpec PropertiesFfi PropertiesFfiBlocks Python PropertiesPython Wasm PropertiesWasm PropertiesTogether HistorySpec PropertiesHistory PropertiesWorking Demo PropertiesDemo PropertiesLive PropertiesLiveAll PropertiesLiveMore.
Import ListNotations.
Local Open Scope N_scope.

(** ** Specification *)
(** The requirements of an access policy from left to right, [None] for All. *)
Fixpoint parts (ap : access_policy) : list (option attribute) :=
  match ap with
  | AAttr a => [Some a]
  | AAnd a b | AOr a b => parts a ++ parts b
  | AAll => [None]
  end.
Definition known_axis (ops : list op) (x : string) : Prop := exists names h, In (AddAxis x names h) ops.
(** What is wrong with one requirement. *)
Inductive complaint (ops : list op) : option attribute -> format_err -> Prop :=
| all_within : complaint ops None (InvalidFormula "`All` is not authorized inside a formula")
| no_axis a : ~ known_axis ops (fst a) -> complaint ops (Some a) (MissingAxis (fst a))
| no_name a : known_axis ops (fst a) -> ~ declared ops a -> complaint ops (Some a) (MissingAttribute (Some (snd a)) (Some (fst a))).
(** The first requirement that something is wrong with. *)
Definition first_complaint (ops : list op) (ap : access_policy) (e : format_err) : Prop :=
  exists before x after, parts ap = before ++ x :: after /\ complaint ops x e /\
    forall y, In y before -> exists a, y = Some a /\ declared ops a.
Definition unobjectionable (ops : list op) (ap : access_policy) : Prop :=
  forall y, In y (parts ap) -> exists a, y = Some a /\ declared ops a.
(** The attributes a key for [ap] has. *)
Definition in_key (ops : list op) (ap : access_policy) (b : attribute) : Prop :=
  match ap with AAll => declared ops b | _ => needed ops ap b end.

Definition twice : format_err := Deserialization "error deserializing MSP, leaf already inserted".
Definition new_attribute : format_err := InternalOperation "new attribute is not allowed".

(** ** Proofs *)
Lemma complaint_unique ops x e e' : complaint ops x e -> complaint ops x e' -> e = e'.
Proof. intros C C'. destruct C; inversion C'; subst; try reflexivity; contradiction. Qed.
Lemma complaint_not_declared ops x e a : complaint ops x e -> x = Some a -> ~ declared ops a.
Proof.
  intros C ->. inversion C as [|a' Hk|a' Hk Hd]; subst; [|exact Hd]. intros (names & h & Hop & _). apply Hk. exists names, h. exact Hop.
Qed.
Lemma unobjectionable_meaning ops ap : unobjectionable ops ap <->
  (forall a, In a (mentioned ap) -> declared ops a) /\ ap <> AAll /\ ~ all_inside ap.
Proof.
  unfold unobjectionable. induction ap as [a|x IHx y IHy|x IHx y IHy|]; cbn [parts mentioned all_inside].
  - split.
    + intros H. split; [|split; [discriminate|intros []]]. intros a' [<-|[]]. destruct (H (Some a) (or_introl eq_refl)) as (a' & E & D). congruence.
    + intros (H & _) y [<-|[]]. exists a. split; [reflexivity|]. apply H. left. reflexivity.
  - split.
    + intros H. destruct (proj1 IHx) as (A1 & A2 & A3); [intros z Hz; apply H, in_or_app; auto|]. destruct (proj1 IHy) as (B1 & B2 & B3); [intros z Hz; apply H, in_or_app; auto|].
      split; [|split; [discriminate|tauto]]. intros a Ha. apply in_app_or in Ha as [Ha|Ha]; auto.
    + intros (H & _ & N) z Hz. apply in_app_or in Hz as [Hz|Hz]; [apply IHx|apply IHy]; auto; split; try (split; tauto); intros a Ha; apply H, in_or_app; auto.
  - split.
    + intros H. destruct (proj1 IHx) as (A1 & A2 & A3); [intros z Hz; apply H, in_or_app; auto|]. destruct (proj1 IHy) as (B1 & B2 & B3); [intros z Hz; apply H, in_or_app; auto|].
      split; [|split; [discriminate|tauto]]. intros a Ha. apply in_app_or in Ha as [Ha|Ha]; auto.
    + intros (H & _ & N) z Hz. apply in_app_or in Hz as [Hz|Hz]; [apply IHx|apply IHy]; auto; split; try (split; tauto); intros a Ha; apply H, in_or_app; auto.
  - split; [|intros (_ & H & _); contradiction]. intros H. destruct (H None (or_introl eq_refl)) as (a & E & _). discriminate.
Qed.

Lemma node_complaint it ops p a : iteration_ok it -> inv ops p ->
  declared ops a \/ exists e, complaint ops (Some a) e /\ policy_to_node it p a = Err e.
Proof.
  intros Hit I. unfold policy_to_node. destruct (axis_get p (fst a)) as [[names h]|] eqn:Ea.
  - apply (i_axes _ _ I) in Ea. destruct (position names (snd a)) as [r|] eqn:Ep.
    + left. exists names, h. split; [exact Ea|]. destruct (position_spec _ _ _ Ep) as (l2 & El & _). rewrite El. apply in_or_app. right. left. reflexivity.
    + right. eexists. split; [|reflexivity]. apply no_name; [exists names, h; exact Ea|].
      intros (names' & h' & Hop & Hin). apply (i_axes _ _ I) in Hop. apply (i_axes _ _ I) in Ea. rewrite Ea in Hop.
      assert (names' = names) by congruence. subst names'. apply position_none in Ep. contradiction.
  - right. eexists. split; [|reflexivity]. apply no_axis. intros (names & h & Hop). apply (i_axes _ _ I) in Hop. congruence.
Qed.
Lemma translation it ops p ap : iteration_ok it -> inv ops p ->
  (unobjectionable ops ap /\ exists f, policy_to_formula it p ap = Ok f) \/
  (exists e, first_complaint ops ap e /\ policy_to_formula it p ap = Err e).
Proof.
  intros Hit I. induction ap as [a|x IHx y IHy|x IHx y IHy|]; cbn [policy_to_formula].
  - destruct (node_complaint it ops p a Hit I) as [D|(e & C & E)].
    + left. split; [|exact (policy_to_node_ok it ops p a Hit I D)]. intros z [<-|[]]. eauto.
    + right. exists e. split; [|exact E]. exists [], (Some a), []. split; [reflexivity|]. split; [exact C|]. intros z [].
  - destruct IHx as [[Ux (f & Ef)]|(e & (b & z & c & Q & C & D) & E)].
    2:{ right. exists e. split; [|rewrite E; reflexivity]. exists b, z, (c ++ parts y). split; [cbn [parts]; rewrite Q, <- app_assoc; reflexivity|]. split; assumption. }
    rewrite Ef. cbn [bind]. destruct IHy as [[Uy (g & Eg)]|(e & (b & z & c & Q & C & D) & E)].
    + left. split; [|rewrite Eg; eexists; reflexivity]. intros w Hw. apply in_app_or in Hw as [Hw|Hw]; auto.
    + right. exists e. split; [|rewrite E; reflexivity]. exists (parts x ++ b), z, c. split; [cbn [parts]; rewrite Q, <- app_assoc; reflexivity|]. split; [exact C|].
      intros w Hw. apply in_app_or in Hw as [Hw|Hw]; auto.
  - destruct IHx as [[Ux (f & Ef)]|(e & (b & z & c & Q & C & D) & E)].
    2:{ right. exists e. split; [|rewrite E; reflexivity]. exists b, z, (c ++ parts y). split; [cbn [parts]; rewrite Q, <- app_assoc; reflexivity|]. split; assumption. }
    rewrite Ef. cbn [bind]. destruct IHy as [[Uy (g & Eg)]|(e & (b & z & c & Q & C & D) & E)].
    + left. split; [|rewrite Eg; eexists; reflexivity]. intros w Hw. apply in_app_or in Hw as [Hw|Hw]; auto.
    + right. exists e. split; [|rewrite E; reflexivity]. exists (parts x ++ b), z, c. split; [cbn [parts]; rewrite Q, <- app_assoc; reflexivity|]. split; [exact C|].
      intros w Hw. apply in_app_or in Hw as [Hw|Hw]; auto.
  - right. eexists. split; [|reflexivity]. exists [], None, []. split; [reflexivity|]. split; [constructor|]. intros z [].
Qed.
(** there is at most one first complaint *)
Lemma first_complaint_excludes ops ap e : first_complaint ops ap e -> ~ unobjectionable ops ap.
Proof.
  intros (b & x & c & Q & C & _) U. destruct (U x) as (a & -> & D); [rewrite Q; apply in_or_app; right; left; reflexivity|].
  exact (complaint_not_declared ops (Some a) e a C eq_refl D).
Qed.

Lemma parts_first ops l : forall b b' x x' c c' e e', l = b ++ x :: c -> l = b' ++ x' :: c' -> complaint ops x e -> complaint ops x' e' ->
  (forall y, In y b -> exists a, y = Some a /\ declared ops a) -> (forall y, In y b' -> exists a, y = Some a /\ declared ops a) -> x = x'.
Proof.
  induction l as [|z l IH]; intros b b' x x' c c' e e' E E' C C' H H'; [destruct b; discriminate|].
  destruct b as [|y b], b' as [|y' b']; cbn [app] in E, E'.
  - congruence.
  - exfalso. assert (x = y') by congruence. subst y'. destruct (H' x (or_introl eq_refl)) as (a & -> & D). exact (complaint_not_declared ops _ e a C eq_refl D).
  - exfalso. assert (x' = y) by congruence. subst y. destruct (H x' (or_introl eq_refl)) as (a & -> & D). exact (complaint_not_declared ops _ e' a C' eq_refl D).
  - apply (IH b b' x x' c c' e e'); try assumption; try congruence; [intros w Hw; apply H|intros w Hw; apply H']; right; exact Hw.
Qed.
Lemma first_complaint_unique ops ap e e' : first_complaint ops ap e -> first_complaint ops ap e' -> e = e'.
Proof.
  intros (b & x & c & Q & C & H) (b' & x' & c' & Q' & C' & H').
  assert (x = x') by exact (parts_first ops _ b b' x x' c c' e e' Q Q' C C' H H'). subst x'. exact (complaint_unique ops x e e' C C').
Qed.

Lemma key_values it ops p ap g : iteration_ok it -> inv ops p -> key_formula it p ap = Ok g ->
  forall v, In v (leaves g) <-> exists b, in_key ops ap b /\ value_of p b v.
Proof.
  intros Hit I E v. destruct (eq_all ap) as [->|Hne].
  - cbn [in_key]. assert (D : exists b, declared ops b).
    { destruct (key_formula_all it ops p Hit I) as [_ H]. destruct (leaves g) as [|w l] eqn:El.
      - exfalso. clear - El. induction g; cbn [leaves] in El; try discriminate; apply app_eq_nil in El as [E1 E2]; auto.
      - cbn [key_formula] in E. destruct (reduce_or _) as [f|] eqn:Er; [|discriminate]. apply Ok_inj in E. subst f.
        pose proof (reduce_or_leaves _ _ Er) as L. assert (Hw : In w (leaves g)) by (rewrite El; left; reflexivity). rewrite L in Hw.
        apply (all_values_in it p w Hit) in Hw as (b & h & H1 & H2). exists b. apply (i_decl _ _ I). exists h.
        apply (map_get_in attribute_eqb attribute_eqb_spec _ _ _ (i_keys _ _ I)). exact H1. }
    destruct (proj1 (key_formula_all it ops p Hit I) D) as (f & Ef & _ & Hv). rewrite E in Ef. apply Ok_inj in Ef. subst f. rewrite Hv. split.
    + intros (b & h & Hh & Hb). exists b. split; [|exists h; auto]. apply (i_decl _ _ I). eauto.
    + intros (b & _ & Hb). eauto.
  - apply key_formula_not_all in E; [|exact Hne]. rewrite (policy_to_formula_values it ops p ap g Hit I E v).
    assert (Q : forall b, in_key ops ap b <-> needed ops ap b) by (intros b; destruct ap; try contradiction; reflexivity).
    split.
    + intros (a & b & H1 & H2 & H3). exists b. split; [apply Q; exists a; auto|exact H3].
    + intros (b & H1 & H3). apply Q in H1 as (a & H1 & H2). eauto.
Qed.
Lemma value_some ops p b : inv ops p -> declared ops b -> exists v, value_of p b v.
Proof.
  intros I D. apply (i_decl _ _ I) in D as (h & Eh). destruct (i_heap _ _ I b h Eh) as (Hne & _). destruct h as [|v h]; [contradiction|].
  exists v, (v :: h). split; [exact Eh|left; reflexivity].
Qed.
Lemma value_same ops p a b v : inv ops p -> value_of p a v -> value_of p b v -> a = b.
Proof. intros I (h & E & H) (h' & E' & H'). exact (i_dist _ _ I a b h h' v E E' H H'). Qed.
Lemma covers_declared n H i p a b : version n H i p -> covers (firstn i H) a b -> declared (firstn i H) b.
Proof.
  intros _ (names & h & Hop & Hin & [->|(_ & E & l1 & l2 & -> & _ & Hb)]).
  - exists names, h. auto.
  - exists (l1 ++ snd a :: l2), h. rewrite E. split; [exact Hop|]. apply in_or_app. left. exact Hb.
Qed.
Lemma in_key_declared n H i p ap b : version n H i p -> in_key (firstn i H) ap b -> declared (firstn i H) b.
Proof.
  intros V Hb. destruct ap; cbn [in_key] in Hb; try exact Hb; destruct Hb as (a' & _ & Hc); exact (covers_declared n H i p a' b V Hc).
Qed.

(** the values asked for are in the key exactly if the attributes are, and were not
    rotated since *)
Lemma values_in_key n H i j q p it0 it ap ap' g f' : version n H i q -> version n H j p -> iteration_ok it0 -> iteration_ok it ->
  key_formula it0 q ap = Ok g -> policy_to_formula it p ap' = Ok f' ->
  (incl (leaves f') (leaves g) <->
   forall b, needed (firstn j H) ap' b -> in_key (firstn i H) ap b /\ ~ In (Rotate b) (between H i j)).
Proof.
  intros V V' Hit0 Hit Eg Ef'. pose proof (version_inv _ _ _ _ V) as I. pose proof (version_inv _ _ _ _ V') as I'.
  pose proof (key_values it0 _ q ap g Hit0 I Eg) as Kg. pose proof (policy_to_formula_values it _ p ap' f' Hit I' Ef') as Kf. split.
  - intros Hi b (a & Ha & Hc). pose proof (covers_declared n H j p a b V' Hc) as Db. destruct (value_some _ p b I' Db) as (v & Hv).
    assert (Hin : forall w, value_of p b w -> exists b', in_key (firstn i H) ap b' /\ value_of q b' w).
    { intros w Hw. apply Kg, Hi, Kf. exists a, b. auto. }
    destruct (Hin v Hv) as (b' & Hb' & Hv'). destruct (le_lt_dec i j) as [L|L].
    + pose proof (value_later n H i j q p b' v L V V' Hv') as Hv2. pose proof (value_same _ p b b' v I' Hv Hv2). subst b'. split; [exact Hb'|].
      intros Hr. destruct (value_rotated n H i j q p b L V V' (in_key_declared n H i q ap b V Hb') Hr) as (w & Hw & Hno).
      destruct (Hin w Hw) as (b' & _ & Hw'). exact (Hno b' Hw').
    + pose proof (value_later n H j i p q b v (Nat.lt_le_incl _ _ L) V' V Hv) as Hv2. pose proof (value_same _ q b b' v I Hv2 Hv'). subst b'. split; [exact Hb'|].
      rewrite between_nil by lia. intros [].
  - intros Hn v Hv. apply Kf in Hv as (a & b & Ha & Hc & Hv). destruct (Hn b) as [Hb Hr]; [exists a; auto|]. apply Kg. exists b. split; [exact Hb|].
    destruct (le_lt_dec i j) as [L|L].
    + exact (value_unrotated n H i j q p b v L V V' (in_key_declared n H i q ap b V Hb) Hr Hv).
    + exact (value_later n H j i p q b v (Nat.lt_le_incl _ _ L) V' V Hv).
Qed.

Lemma to_msp_cases P f : (NoDup (leaves f) /\ exists m, to_msp P f = Ok m) \/ (~ NoDup (leaves f) /\ to_msp P f = Err twice).
Proof.
  destruct (ListDec.NoDup_dec N.eq_dec (leaves f)) as [H|H]; [left|right; split; [exact H|exact (to_msp_dup P f H)]].
  split; [exact H|]. destruct (to_msp_ok P f H) as (rows & _ & E). eexists. exact E.
Qed.

Section Why.
Variable B : BilinearMap.
Hypothesis BL : BilinearLaws B.
Local Notation K := (bm_K B).
Implicit Types P : platform.

(** ** C137 *)
(** Delegation of a key made for [ap] at version [i], with version [j] of the policy, to
    any access policy: exactly one of four things happens. *)
Theorem C137_delegation P n history p0 (mdraw : nat -> K) mk i ap uk it j p ap' (draw : nat -> K) :
  proper_axes history -> eng_master_key p0 mdraw = Ok mk -> held_key P mk n history i ap uk ->
  iteration_ok it -> version n history j p -> last_attribute_value p < max_attribute_creations p0 -> ap' <> AAll ->
  let ops := firstn j history in
  let allowed := forall b, needed ops ap' b -> in_key (firstn i history) ap b /\ ~ In (Rotate b) (between history i j) in
  let r := eng_delegate P it p (del_key mk) uk ap' draw in
  (exists e, first_complaint ops ap' e /\ r = Err e) \/
  (unobjectionable ops ap' /\ ~ no_overlap ops ap' /\ r = Err twice) \/
  (unobjectionable ops ap' /\ no_overlap ops ap' /\ ~ allowed /\ r = Err new_attribute) \/
  (unobjectionable ops ap' /\ no_overlap ops ap' /\ allowed /\ exists uk', r = Ok uk').
Proof using BL.
  intros Hprop Hmk Hk Hit V' Hlast Hne ops allowed r.
  destruct (held_stands B BL P n history _ mdraw mk Hprop Hmk i ap uk Hk) as (q & it0 & f & g & V & Hit0 & Eg & [Sfg Sgf] & Hn & Hd).
  pose proof (version_inv _ _ _ _ V') as I'.
  unfold r. rewrite eng_delegate_steps by exact Hne.
  destruct (translation it ops p ap' Hit I') as [[U (f' & Ef')]|(e & C & E)].
  2:{ left. exists e. split; [exact C|]. rewrite E. reflexivity. }
  right. rewrite Ef'. cbn [bind].
  pose proof (policy_to_formula_nodup it _ p ap' f' Hit I' (proper_firstn history j Hprop) Ef') as Nd. fold ops in Nd.
  destruct (to_msp_cases P f') as [[Hnd (m & Em)]|[Hnd Em]].
  2:{ left. split; [exact U|]. split; [rewrite <- Nd; exact Hnd|]. rewrite Em. reflexivity. }
  right. rewrite Em. cbn [bind]. apply Nd in Hnd.
  assert (Fg : forall v, In v (leaves f) <-> In v (leaves g)) by (intros v; split; [apply (restricts_leaves _ _ Sfg)|apply (restricts_leaves _ _ Sgf)]).
  pose proof (values_in_key n history i j q p it0 it ap ap' g f' V V' Hit0 Hit Eg Ef') as Q. fold ops in Q. fold allowed in Q.
  destruct (generate_master_key_inv B BL _ _ _ Hmk) as (t & y & E & Ht & Hnz). pose proof (derived_obtained B P _ f uk Hd) as Ho. rewrite E in *.
  destruct (ListDec.incl_dec N.eq_dec (leaves f') (leaves g)) as [Hi|Hi].
  - right. split; [exact U|]. split; [exact Hnd|]. split; [apply Q, Hi|].
    apply (delegate_total B BL P t y f uk f' m draw Hnz Ho Em). intros v Hv. apply Fg, Hi, Hv.
  - left. split; [exact U|]. split; [exact Hnd|]. split; [rewrite <- Q; exact Hi|].
    assert (X : exists v, In v (leaves f') /\ ~ In v (leaves f)).
    { destruct (Exists_dec (fun v => ~ In v (leaves f)) (leaves f')) as [X|X].
      - intros v. destruct (in_dec N.eq_dec v (leaves f)); [right; tauto|left; assumption].
      - apply Exists_exists in X as (v & Hv & Hnv). eauto.
      - exfalso. apply Hi. intros v Hv. apply Fg. destruct (in_dec N.eq_dec v (leaves f)) as [Y|Y]; [exact Y|]. exfalso. apply X, Exists_exists. eauto. }
    destruct X as (v & Hv & Hnv). apply (delegate_new B BL P t y f uk f' m draw v Hnz Ho Em); [|exact Hv|exact Hnv].
    intros w Hw. apply (policy_to_formula_values it _ p ap' f' Hit I' Ef') in Hw as (_ & b' & _ & _ & h & Eh & Hw).
    destruct (i_heap _ _ I' b' h Eh) as (_ & _ & Hr'). specialize (Hr' w Hw). rewrite Ht. lia.
Qed.

(** Key generation: exactly one of three things happens. *)
Theorem C137_user_key P n history p0 (mdraw : nat -> K) mk it j p ap (draw : nat -> K) :
  proper_axes history -> eng_master_key p0 mdraw = Ok mk ->
  iteration_ok it -> version n history j p -> last_attribute_value p < max_attribute_creations p0 -> ap <> AAll ->
  let ops := firstn j history in
  let r := eng_user_key P it p (priv_key mk) ap draw in
  (exists e, first_complaint ops ap e /\ r = Err e) \/
  (unobjectionable ops ap /\ ~ no_overlap ops ap /\ r = Err twice) \/
  (unobjectionable ops ap /\ no_overlap ops ap /\ exists uk, r = Ok uk).
Proof using BL.
  intros Hprop Hmk Hit V Hlast Hne ops r. pose proof (version_inv _ _ _ _ V) as I.
  unfold r, eng_user_key. rewrite policy_to_msp_formula, key_formula_other by exact Hne.
  destruct (translation it ops p ap Hit I) as [[U (f & Ef)]|(e & C & E)].
  2:{ left. exists e. split; [exact C|]. rewrite E. reflexivity. }
  right. rewrite Ef. cbn [bind].
  pose proof (policy_to_formula_nodup it _ p ap f Hit I (proper_firstn history j Hprop) Ef) as Nd. fold ops in Nd.
  destruct (to_msp_cases P f) as [[Hnd (m & Em)]|[Hnd Em]].
  2:{ left. split; [exact U|]. split; [rewrite <- Nd; exact Hnd|]. rewrite Em. reflexivity. }
  right. split; [exact U|]. split; [apply Nd, Hnd|]. rewrite Em. cbn [bind].
  destruct (generate_master_key_inv B BL _ _ _ Hmk) as (t & y & E & Ht & Hnz). rewrite E.
  apply (SchemeProofs.key_generation_total B BL f m t y draw (to_msp_msp_of K (bl_field B BL) P f m Em)).
  intros v Hv. assert (R : SchemeProofs.in_range B t v).
  { apply (policy_to_formula_values it _ p ap f Hit I Ef) in Hv as (_ & b' & _ & _ & h & Eh & Hw).
    destruct (i_heap _ _ I b' h Eh) as (_ & _ & Hr'). specialize (Hr' v Hw). unfold SchemeProofs.in_range. rewrite Ht. lia. }
  split; [exact R|]. apply tt_nonzero; auto.
Qed.
(** and for All *)
Theorem C137_key_for_all P n history p0 (mdraw : nat -> K) mk it j p (draw : nat -> K) :
  eng_master_key p0 mdraw = Ok mk ->
  iteration_ok it -> version n history j p -> last_attribute_value p < max_attribute_creations p0 ->
  ((exists b, declared (firstn j history) b) -> exists uk, eng_user_key P it p (priv_key mk) AAll draw = Ok uk) /\
  (~ (exists b, declared (firstn j history) b) -> eng_user_key P it p (priv_key mk) AAll draw = Err (MissingAttribute None None)).
Proof using BL.
  intros Hmk Hit V Hlast. pose proof (version_inv _ _ _ _ V) as I. unfold eng_user_key. rewrite policy_to_msp_formula.
  destruct (key_formula_all it _ p Hit I) as [K1 K2]. split; intros D.
  - destruct (K1 D) as (f & Ef & Hnd & Hv). rewrite Ef. cbn [bind]. destruct (to_msp_cases P f) as [[_ (m & Em)]|[X _]]; [|contradiction]. rewrite Em. cbn [bind].
    destruct (generate_master_key_inv B BL _ _ _ Hmk) as (t & y & E & Ht & Hnz). rewrite E.
    apply (SchemeProofs.key_generation_total B BL f m t y draw (to_msp_msp_of K (bl_field B BL) P f m Em)).
    intros v Hw. assert (R : SchemeProofs.in_range B t v).
    { apply Hv in Hw as (b & h & Eh & Hw). destruct (i_heap _ _ I b h Eh) as (_ & _ & Hr'). specialize (Hr' v Hw). unfold SchemeProofs.in_range. rewrite Ht. lia. }
    split; [exact R|]. apply tt_nonzero; auto.
  - rewrite (K2 D). reflexivity.
Qed.

Lemma mapM_one {X Y} (f : X -> outcome Y) e l : (forall x, (exists y, f x = Ok y) \/ f x = Err e) -> (exists ys, mapM f l = Ok ys) \/ mapM f l = Err e.
Proof using Type.
  intros H. induction l as [|x l IH]; [left; exists []; reflexivity|]. cbn [mapM]. destruct (H x) as [(y & E)|E]; rewrite E; cbn [bind]; [|right; reflexivity].
  destruct IH as [(ys & E')|E']; rewrite E'; cbn [bind]; [left; eexists; reflexivity|right; reflexivity].
Qed.
(** Encryption: exactly one of three things happens. *)
Theorem C137_encryption P n history p0 (mdraw : nat -> K) mk j p l msg (s : K) :
  eng_master_key p0 mdraw = Ok mk -> version n history j p ->
  last_attribute_value p < max_attribute_creations p0 < usize_modulus P ->
  let ops := firstn j history in
  let r := eng_encrypt P p (pub_key mk) l msg s in
  ((exists b, In b l /\ ~ declared ops b) /\ r = Err (PolicyError PolicyAttributeNotFound)) \/
  ((forall b, In b l -> declared ops b) /\ max_attribute_creations p0 <= N.of_nat (length l) /\
   r = Err (InternalOperation "invalid attributes: gamma value incorrect")) \/
  ((forall b, In b l -> declared ops b) /\ N.of_nat (length l) < max_attribute_creations p0 /\ exists ct, r = Ok ct).
Proof using BL.
  intros Hmk V [Hlast Hfit] ops r. pose proof (version_inv _ _ _ _ V) as I. unfold r, eng_encrypt.
  destruct (mapM_one (fun a => match heap_get p a with
                 | Some h => match heap_peek h with Some v => Ok v | None => Err (PolicyError PolicyAttributeNotFound) end
                 | None => Err (PolicyError PolicyAttributeNotFound)
                 end) (PolicyError PolicyAttributeNotFound) l) as [(gam & Eg)|Eg].
  { intros a. destruct (heap_get p a) as [h|]; [|right; reflexivity]. destruct (heap_peek h); [left; eexists; reflexivity|right; reflexivity]. }
  2:{ left. change (attributes_values p l = Err (PolicyError PolicyAttributeNotFound)) in Eg. split; [|rewrite Eg; reflexivity].
      destruct (Exists_dec (fun b => forall h, heap_get p b <> Some h) l) as [X|X].
      - intros b. destruct (heap_get p b) as [h|]; [right; intros X; exact (X h eq_refl)|left; discriminate].
      - apply Exists_exists in X as (b & Hb & Hn). exists b. split; [exact Hb|]. intros D. apply (i_decl _ _ I) in D as (h & Eh). exact (Hn h Eh).
      - exfalso. destruct (attributes_values_ok ops p l I) as (gam & E & _); [|congruence]. intros b Hb. apply (i_decl _ _ I).
        destruct (heap_get p b) as [h|] eqn:Eh; [eauto|]. exfalso. apply X, Exists_exists. exists b. split; [exact Hb|]. congruence. }
  right. change (attributes_values p l = Ok gam) in Eg. pose proof (attributes_values_declared ops p l gam I Eg) as D.
  destruct (attributes_values_ok ops p l I D) as (gam' & Eg' & Lg). assert (gam' = gam) by congruence. subst gam'. rewrite Eg. cbn [bind].
  destruct (generate_master_key_inv B BL _ _ _ Hmk) as (t & y & -> & Ht & _).
  assert (Lp : length (pub_t (pub_key (master_of B t y))) = N.to_nat (max_attribute_creations p0)) by (cbn; rewrite map_length; exact Ht).
  unfold encrypt. rewrite Lp, Lg. destruct (Nat.leb_spec (N.to_nat (max_attribute_creations p0)) (length l)) as [Q|Q].
  - left. split; [exact D|]. split; [lia|]. rewrite usize_sub_exact by lia. reflexivity.
  - right. split; [exact D|]. split; [lia|].
    assert (E : exists ei, mapM (fun i => let* t := indexN (pub_t (pub_key (master_of B t y))) i in Ok (g2_exp B t s)) gam = Ok ei).
    { assert (Hv : forall v, In v gam -> exists x, indexN (pub_t (pub_key (master_of B t y))) v = Ok x).
      { intros v Hv. destruct (Forall2_in_r _ _ _ _ (attributes_values_inv p l gam Eg) Hv) as (b & Hb & h & Eh & Hin & _).
        destruct (i_heap _ _ I b h Eh) as (_ & _ & Hr). specialize (Hr v Hin).
        unfold indexN. destruct (N.ltb_spec v (N.of_nat (length (pub_t (pub_key (master_of B t y)))))) as [L|L]; [|lia].
        unfold index. destruct (nth_error (pub_t (pub_key (master_of B t y))) (N.to_nat v)) as [x|] eqn:En; [exists x; reflexivity|].
        apply nth_error_None in En. lia. }
      clear - Hv. induction gam as [|v gam IH]; [exists []; reflexivity|]. cbn [mapM]. destruct (Hv v (or_introl eq_refl)) as (x & E). rewrite E. cbn [bind].
      destruct IH as (ei & Ei); [intros w Hw; apply Hv; right; exact Hw|]. rewrite Ei. eexists. reflexivity. }
    destruct E as (ei & E). rewrite E. eexists. reflexivity.
Qed.
End Why.

(** ** From Python *)
Section Told.
Variable B : BilinearMap.
Hypothesis BL : BilinearLaws B.
Local Notation K := (bm_K B).
Variable F : byte_forms B.
Variables PC PP : platform.
Hypothesis HPP : 32 <= usize_bits PP.
Variable policy_from : list byte -> outcome policy.
Variable access_parse : string -> outcome access_policy.
Local Notation delegated_key := (py_generate_delegated_key PP F policy_from access_parse).

(** A key made on one machine, delegated in Python on another: the refusals are those of the library. *)
Theorem C137_python n history p0 (mdraw : nat -> K) mk i ap b it j p pol access ap' del (draw : nat -> K) :
  proper_axes history -> eng_master_key p0 mdraw = Ok mk -> owned_all B F PC n history mk i ap b ->
  iteration_ok it -> version n history j p -> last_attribute_value p < max_attribute_creations p0 ->
  policy_from pol = Ok p -> del_dec F PP del = Ok (del_key mk) -> access_parse access = Ok ap' -> ap' <> AAll ->
  let ops := firstn j history in
  let allowed := forall c, needed ops ap' c -> in_key (firstn i history) ap c /\ ~ In (Rotate c) (between history i j) in
  let r := delegated_key it del b access pol draw in
  (forall e, first_complaint ops ap' e -> r = Err e) /\
  (unobjectionable ops ap' -> ~ no_overlap ops ap' -> r = Err twice) /\
  (unobjectionable ops ap' -> no_overlap ops ap' -> ~ allowed -> r = Err new_attribute).
Proof using BL HPP.
  intros Hprop Hmk (uk & Hk & Du) Hit V Hlast Ep Dd Ea Hne ops allowed r.
  assert (R : r = let* uk' := eng_delegate PC it p (del_key mk) uk ap' draw in user_enc F PP uk').
  { unfold r, py_generate_delegated_key. rewrite Dd. cbn [bind]. rewrite (Du PP HPP). cbn [bind]. rewrite Ea. cbn [bind]. rewrite Ep. cbn [bind].
    rewrite (eng_delegate_any B PP PC). reflexivity. }
  rewrite R. clear R r.
  pose proof (C137_delegation B BL PC n history p0 mdraw mk i ap uk it j p ap' draw Hprop Hmk Hk Hit V Hlast Hne) as Q. cbv zeta in Q. fold ops in Q. fold allowed in Q.
  split; [|split].
  - intros e C. destruct Q as [(e' & C' & Q)|[(U & _)|[(U & _)|(U & _)]]]; try (destruct (first_complaint_excludes _ _ _ C U)).
    rewrite Q. cbn [bind]. f_equal. exact (first_complaint_unique _ _ _ _ C' C).
  - intros U No. destruct Q as [(e' & C' & _)|[(_ & _ & Q)|[(_ & X & _)|(_ & X & _)]]]; [destruct (first_complaint_excludes _ _ _ C' U)|rewrite Q; reflexivity|contradiction|contradiction].
  - intros U No A. destruct Q as [(e' & C' & _)|[(_ & X & _)|[(_ & _ & _ & Q)|(_ & _ & X & _)]]]; [destruct (first_complaint_excludes _ _ _ C' U)|contradiction|rewrite Q; reflexivity|contradiction].
Qed.
End Told.

(** ** Through the three interfaces *)
(** Why a key is refused, and why an encryption is. *)
Definition key_refusal (ops : list op) (ap : access_policy) (e : format_err) : Prop :=
  first_complaint ops ap e \/ (unobjectionable ops ap /\ ~ no_overlap ops ap /\ e = twice).
Definition encryption_refusal (ops : list op) (slots : N) (l : list attribute) (e : format_err) : Prop :=
  ((exists b, In b l /\ ~ declared ops b) /\ e = PolicyError PolicyAttributeNotFound) \/
  ((forall b, In b l -> declared ops b) /\ slots <= N.of_nat (length l) /\ e = InternalOperation "invalid attributes: gamma value incorrect").

Section Interfaces.
Variable B : BilinearMap.
Hypothesis BL : BilinearLaws B.
Local Notation K := (bm_K B).
Variable F : byte_forms B.
Variable shake : list byte -> nat -> list byte.
Variable S : sym_scheme.
Variables PC PP PW : platform.
Hypothesis HC : 32 <= usize_bits PC.
Hypothesis HPP : 32 <= usize_bits PP.
Hypothesis HW : 32 <= usize_bits PW.
Variable policy_from : list byte -> outcome policy.
Variable attributes_from : list byte -> outcome (list attribute).
Variable access_from : list byte -> outcome access_policy.
Variable metadata_from : list byte -> outcome metadata.
Variable access_parse : string -> outcome access_policy.
Variable attributes_parse : string -> outcome (list attribute).

Lemma offered_go i w outs o : nth_error outs i = Some o -> offered o -> check_out i w outs = Go Datatypes.tt outs.
Proof using Type.
  clear. intros E (len & (_ & Hm & El) & H1). unfold check_out. rewrite E. destruct (o_mem o); [|contradiction]. rewrite El. destruct len; [lia|reflexivity|lia].
Qed.

(** C writes nothing; the error is the one kept for the caller *)
Theorem C137_key_refused n history p0 (mdraw : nat -> K) mk it j p pol ap access c_access priv (draw : nat -> K) e :
  proper_axes history -> eng_master_key p0 mdraw = Ok mk ->
  iteration_ok it -> version n history j p -> last_attribute_value p < max_attribute_creations p0 -> ap <> AAll ->
  policy_from pol = Ok p -> priv <> [] -> (forall P, 32 <= usize_bits P -> priv_dec F P priv = Ok (priv_key mk)) ->
  access_parse access = Ok ap -> access_from c_access = Ok ap ->
  key_refusal (firstn j history) ap e ->
  py_generate_user_private_key PP F policy_from access_parse it priv access pol draw = Err e /\
  w_generate_user_private_key PW F policy_from access_parse it priv access pol draw = Err e /\
  forall o outs, offered o ->
    h_generate_user_private_key PC F policy_from access_from it (Some priv) (Some c_access) (Some pol) draw (o :: outs) = Bail (Wrapped e) (o :: outs).
Proof using BL HC HPP HW.
  intros Hprop Hmk Hit V Hlast Hne Ep Hpr Dp Ea Ec R.
  assert (E : forall P, eng_user_key P it p (priv_key mk) ap draw = Err e).
  { intros P. pose proof (C137_user_key B BL P n history p0 mdraw mk it j p ap draw Hprop Hmk Hit V Hlast Hne) as Q. cbv zeta in Q.
    destruct R as [C|(U & No & ->)].
    - destruct Q as [(e' & C' & Q)|[(U & _)|(U & _)]]; try (destruct (first_complaint_excludes _ _ _ C U)).
      rewrite Q. f_equal. exact (first_complaint_unique _ _ _ _ C' C).
    - destruct Q as [(e' & C' & _)|[(_ & _ & Q)|(_ & X & _)]]; [destruct (first_complaint_excludes _ _ _ C' U)|exact Q|contradiction]. }
  split; [|split].
  - unfold py_generate_user_private_key. rewrite (Dp PP HPP). cbn [bind]. rewrite Ep. cbn [bind]. rewrite Ea. cbn [bind]. rewrite E. reflexivity.
  - unfold w_generate_user_private_key. rewrite (Dp PW HW). cbn [bind]. rewrite Ep. cbn [bind]. rewrite Ea. cbn [bind]. rewrite E. reflexivity.
  - intros o outs Ho. unfold h_generate_user_private_key. unfold andthen at 1. rewrite (offered_go 0 _ (o :: outs) o eq_refl Ho).
    unfold andthen at 1. rewrite input_go by exact Hpr. unfold not_null, andthen, ret, unwrap. rewrite (Dp PC HC), Ec, Ep, E. reflexivity.
Qed.

Theorem C137_encryption_refused n history p0 (mdraw : nat -> K) mk j p pol l attrs attrs' pub meta m u u' ad random (s : K) nonce e :
  eng_master_key p0 mdraw = Ok mk -> version n history j p ->
  last_attribute_value p < max_attribute_creations p0 <= u32_modulus - 1 ->
  policy_from pol = Ok p -> pol <> [] -> pub <> [] -> (forall P, 32 <= usize_bits P -> pub_dec F P pub = Ok (pub_key mk)) ->
  attributes_from attrs = Ok l -> attributes_parse attrs' = Ok l -> attrs' <> ""%string -> metadata_from meta = Ok m -> u <> [] ->
  encryption_refusal (firstn j history) (max_attribute_creations p0) l e ->
  py_encrypt_hybrid_header PP F shake S policy_from attributes_from metadata_from meta pol attrs pub random s nonce = Err e /\
  w_encrypt_hybrid_header PW F shake S policy_from attributes_parse pol pub attrs' u random s nonce = Err e /\
  forall o o' outs, offered o -> offered o' ->
    h_aes_encrypt_header PC F shake S policy_from attributes_from (Some pol) (Some pub) (Some attrs) u' ad random s nonce (o :: o' :: outs) = Bail (Wrapped e) (o :: o' :: outs).
Proof using BL HC HPP HW.
  intros Hmk V [Hlast Hmax] Ep Hpol Hpub Dp Ea Ea' Hat Em Hu R.
  assert (E : forall P x r, 32 <= usize_bits P -> encrypt_hybrid_header S F shake P p (pub_key mk) l x r s nonce = Err e).
  { intros P x r HP.
    assert (Hfit : max_attribute_creations p0 < usize_modulus P).
    { apply N.lt_le_trans with (2 ^ 32); [unfold u32_modulus in Hmax; lia|]. unfold usize_modulus. apply N.pow_le_mono_r; lia. }
    assert (Q : eng_encrypt P p (pub_key mk) l r s = Err e).
    { pose proof (C137_encryption B BL P n history p0 mdraw mk j p l r s Hmk V (conj Hlast Hfit)) as Q. cbv zeta in Q.
      destruct R as [((b & Hb & Hd) & ->)|(D & Hl & ->)].
      - destruct Q as [(_ & Q)|[(D & _)|(D & _)]]; [exact Q|destruct (Hd (D b Hb))..].
      - destruct Q as [((b & Hb & Hd) & _)|[(_ & _ & Q)|(_ & X & _)]]; [destruct (Hd (D b Hb))|exact Q|lia]. }
    unfold encrypt_hybrid_header, generate_symmetric_key. rewrite Q. reflexivity. }
  split; [|split].
  - unfold py_encrypt_hybrid_header. rewrite Em. cbn [bind]. rewrite Ep. cbn [bind]. rewrite Ea. cbn [bind]. rewrite (Dp PP HPP). cbn [bind]. rewrite (E PP _ _ HPP). reflexivity.
  - unfold w_encrypt_hybrid_header. destruct pol; [contradiction|]. destruct pub; [contradiction|]. destruct u; [contradiction|]. cbn [is_empty].
    destruct (String.eqb_spec attrs' ""); [contradiction|]. rewrite Ep. cbn [bind]. rewrite (Dp PW HW). cbn [bind]. unfold w_header. rewrite Ea'. cbn [bind].
    rewrite (E PW _ _ HW). reflexivity.
  - intros o o' outs Ho Ho'. unfold h_aes_encrypt_header. unfold andthen at 1. rewrite (offered_go 0 _ (o :: o' :: outs) o eq_refl Ho).
    unfold andthen at 1. rewrite (offered_go 1 _ (o :: o' :: outs) o' eq_refl Ho'). unfold andthen at 1, not_null at 1, ret at 1. unfold andthen at 1. rewrite input_go by exact Hpub.
    unfold not_null, andthen, ret, unwrap. rewrite Ep, (Dp PC HC), Ea, (E PC _ _ HC). reflexivity.
Qed.
End Interfaces.

(** ** Examples *)
Local Ltac vmr x := vm_cast_no_check (eq_refl x).
Local Notation ekeys p ap := (eng_user_key pf it_rev p (priv_key ex_mk) ap ex_kdraw).
Definition went {A} (r : outcome A) : bool := match r with Ok _ => true | _ => false end.
Lemma went_ok {A} (r : outcome A) : went r = true -> is_ok r.
Proof. destruct r; [intros _; eexists; reflexivity|discriminate..]. Qed.
Definition it_dept : access_policy := AAttr (dept "IT").
Definition country : access_policy := AAttr ("Country", "FR")%string.
(** HR asked for twice *)
Definition hr_twice : access_policy := AAnd (AAttr (dept "HR")) (AOr (AAttr (dept "FIN")) (AAttr (dept "HR"))).

Definition known (ops : list op) (x : string) : bool :=
  existsb (fun o => match o with AddAxis y _ _ => String.eqb x y | _ => false end) ops.
Lemma known_spec ops x : known ops x = true <-> known_axis ops x.
Proof.
  unfold known. rewrite existsb_exists. split.
  - intros (o & Ho & E). destruct o as [y names h|]; [|discriminate]. apply String.eqb_eq in E. subst y. exists names, h. exact Ho.
  - intros (names & h & Ho). eexists. split; [exact Ho|]. apply String.eqb_refl.
Qed.
Lemma dept_known : known_axis ops_a "Department".
Proof. apply (proj1 (known_spec _ _)). vm_compute. reflexivity. Qed.
Lemma it_not_declared : ~ declared ops_a (dept "IT").
Proof. intros D. apply declared_spec in D. vm_compute in D. discriminate. Qed.
Lemma it_complaint : complaint ops_a (Some (dept "IT")) (MissingAttribute (Some "IT") (Some "Department"))%string.
Proof. exact (no_name ops_a (dept "IT") dept_known it_not_declared). Qed.
Lemma country_complaint : complaint ops_a (Some ("Country", "FR")%string) (MissingAxis "Country").
Proof. apply (no_axis ops_a ("Country", "FR")%string). intros X. apply known_spec in X. vm_compute in X. discriminate. Qed.

(** Two requirements are wrong: the first from the left is the one named. *)
Example C137_order_example :
  first_complaint ops_a (AAnd (AAttr (dept "HR")) (AOr it_dept country)) (MissingAttribute (Some "IT") (Some "Department"))%string /\
  ekeys pol_a (AAnd (AAttr (dept "HR")) (AOr it_dept country)) = Err (MissingAttribute (Some "IT") (Some "Department"))%string /\
  first_complaint ops_a (AAnd (AAttr (dept "HR")) (AOr country it_dept)) (MissingAxis "Country") /\
  ekeys pol_a (AAnd (AAttr (dept "HR")) (AOr country it_dept)) = Err (MissingAxis "Country") /\
  ekeys pol_a (AAnd (AOr (AAttr (dept "HR")) AAll) it_dept) = Err (InvalidFormula "`All` is not authorized inside a formula").
Proof.
  assert (H : forall y, In y [Some (dept "HR")] -> exists a, y = Some a /\ declared ops_a a).
  { intros y [<-|[]]. exists (dept "HR"). split; [reflexivity|]. apply declared_spec. vm_compute. reflexivity. }
  split; [exists [Some (dept "HR")], (Some (dept "IT")), [Some ("Country", "FR")%string]; split; [reflexivity|]; split; [exact it_complaint|exact H]|].
  split; [vmr (@Err (decryption_key toy) (MissingAttribute (Some "IT") (Some "Department"))%string)|].
  split; [exists [Some (dept "HR")], (Some ("Country", "FR")%string), [Some (dept "IT")]; split; [reflexivity|]; split; [exact country_complaint|exact H]|].
  split; [vmr (@Err (decryption_key toy) (MissingAxis "Country"))|].
  vmr (@Err (decryption_key toy) (InvalidFormula "`All` is not authorized inside a formula")).
Qed.
Example C137_user_key_example :
  (unobjectionable ops_a hr_twice /\ ~ no_overlap ops_a hr_twice /\ ekeys pol_a hr_twice = Err twice) /\
  (unobjectionable ops_a ex_ap /\ no_overlap ops_a ex_ap /\ is_ok (ekeys pol_a ex_ap)).
Proof.
  split.
  - split; [|split].
    + apply unobjectionable_meaning. split; [|split; [discriminate|cbn; intuition discriminate]].
      intros a Ha. apply declared_spec. cbn in Ha. repeat (destruct Ha as [<-|Ha]; [vm_compute; reflexivity|]). destruct Ha.
    + intros (_ & _ & N). apply (N (dept "HR") (dept "HR") (dept "HR")); [left; reflexivity|right; left; reflexivity| |]; apply covered_spec, on_spec; vm_compute; reflexivity.
    + vmr (@Err (decryption_key toy) twice).
  - split; [|split].
    + apply unobjectionable_meaning. split; [|split; [discriminate|cbn; intuition discriminate]].
      intros a Ha. apply declared_spec. cbn in Ha. repeat (destruct Ha as [<-|Ha]; [vm_compute; reflexivity|]). destruct Ha.
    + apply apart_spec. vm_compute. reflexivity.
    + apply went_ok. vmr true.
Qed.
(** HR is rotated after the key was made; the key can then still be delegated to FIN and not to HR.
    A key made after the rotation can be delegated to HR with the policy from before. *)
Example C137_delegation_example :
  needed (firstn 3 hist) low_hr (dept "HR") /\ In (Rotate (dept "HR")) (between hist 2 3) /\
  hdel pol_b (ekey pol_a ex_ap) low_hr = Err new_attribute /\
  hdel pol_b (ekey pol_a ex_ap) hr_twice = Err twice /\
  hdel pol_b (ekey pol_a ex_ap) (AAnd low_fin it_dept) = Err (MissingAttribute (Some "IT") (Some "Department"))%string /\
  is_ok (hdel pol_b (ekey pol_a ex_ap) low_fin) /\
  is_ok (hdel pol_a (ekey pol_b ex_ap) low_hr).
Proof.
  split; [apply needed_spec; vm_compute; reflexivity|]. split; [left; reflexivity|].
  split; [vmr (@Err (decryption_key toy) new_attribute)|]. split; [vmr (@Err (decryption_key toy) twice)|].
  split; [vmr (@Err (decryption_key toy) (MissingAttribute (Some "IT") (Some "Department"))%string)|].
  split; apply went_ok; vmr true.
Qed.
(** A policy with ten values: nine attributes can be given, ten cannot. *)
Example C137_encryption_example :
  eng_encrypt pf pol_a (pub_key ex_mk) [dept "HR"; dept "IT"] ex_msg ex_s = Err (PolicyError PolicyAttributeNotFound) /\
  is_ok (eng_encrypt pf pol_a (pub_key ex_mk) (repeat (dept "HR") 9) ex_msg ex_s) /\
  eng_encrypt pf pol_a (pub_key ex_mk) (repeat (dept "HR") 10) ex_msg ex_s = Err (InternalOperation "invalid attributes: gamma value incorrect").
Proof.
  split; [vmr (@Err (ciphertext toy) (PolicyError PolicyAttributeNotFound))|]. split.
  - apply went_ok. vmr true.
  - vmr (@Err (ciphertext toy) (InternalOperation "invalid attributes: gamma value incorrect")).
Qed.

Example C137_key_for_all_example :
  is_ok (ekeys pol_a AAll) /\ version 10 [] 0 (new_policy 10) /\ ~ (exists b, declared (firstn 0 []) b) /\
  ekeys (new_policy 10) AAll = Err (MissingAttribute None None).
Proof.
  split; [apply went_ok; vmr true|]. split; [split; [cbn; lia|reflexivity]|].
  split; [intros (b & names & h & [] & _)|]. vmr (@Err (decryption_key toy) (MissingAttribute None None)).
Qed.
(** The key for "a" made in Python with the first policy, delegated with the second one, in which HR is rotated. *)
Definition why_access (x : string) : outcome access_policy :=
  if String.eqb x "hr" then Ok low_hr else if String.eqb x "twice" then Ok hr_twice else if String.eqb x "it" then Ok it_dept else more_access x.
Example C137_python_example : exists priv pub del b,
  py_generate_master_keys toy_forms py_policy [x01] ex_draw = Ok (priv, pub, del) /\
  py_generate_user_private_key debug32 toy_forms py_policy more_access it_rev priv "a" [x01] ex_kdraw = Ok b /\
  py_generate_delegated_key release32 toy_forms py_policy why_access it_rev del b "hr" [x02] ex_draw = Err new_attribute /\
  py_generate_delegated_key release32 toy_forms py_policy why_access it_rev del b "twice" [x02] ex_draw = Err twice /\
  py_generate_delegated_key release32 toy_forms py_policy why_access it_rev del b "it" [x02] ex_draw = Err (MissingAttribute (Some "IT") (Some "Department"))%string.
Proof.
  assert (H32 : 32 <= usize_bits debug32) by (cbn; lia). assert (H32' : 32 <= usize_bits release32) by (cbn; lia).
  assert (Hdr : forall i, (i < N.to_nat 10)%nat -> ex_draw i <> f0) by (intros j Hj; apply ex_draws; lia).
  destruct (C129_master_keys toy toy_laws toy_forms (fun _ => True) toy_forms_ok debug32 H32 py_policy py_policy 10%N hist ex_draw ltac:(lia) Hdr
    2%nat pol_a [x01] [x01] hist_two eq_refl eq_refl (fun _ _ => Logic.I)) as (mk & priv & pub & del & Em & Hpr & Hpu & _ & M2 & _ & Dm).
  destruct (C129_user_key toy toy_laws toy_forms (fun _ => True) toy_forms_ok debug32 debug32 release32 H32 H32 H32' py_policy c_access py_policy more_access
    10%N hist ex_draw ltac:(lia) hist_proper Hdr pol_a mk eq_refl Em 2%nat pol_a [x01] [x01] it_rev "a"%string [x01] ex_ap priv ex_kdraw hist_two eq_refl eq_refl)
    as (b & _ & U & _ & O).
  { vm_compute. reflexivity. } { exact Hpr. } { intros P HP. apply Dm, HP. } { exact it_rev_ok. } { reflexivity. } { reflexivity. }
  { intros a Ha. apply declared_spec. cbn in Ha. repeat (destruct Ha as [<-|Ha]; [vm_compute; reflexivity|]). destruct Ha. }
  { cbn. intuition discriminate. } { apply apart_spec. vm_compute. reflexivity. } { discriminate. }
  exists priv, pub, del, b. split; [exact M2|]. split; [exact U|].
  assert (W : forall access ap', why_access access = Ok ap' -> ap' <> AAll ->
    let ops := firstn 3 hist in
    let allowed := forall c, needed ops ap' c -> in_key (firstn 2 hist) ex_ap c /\ ~ In (Rotate c) (between hist 2 3) in
    let r := py_generate_delegated_key release32 toy_forms py_policy why_access it_rev del b access [x02] ex_draw in
    (forall e, first_complaint ops ap' e -> r = Err e) /\
    (unobjectionable ops ap' -> ~ no_overlap ops ap' -> r = Err twice) /\
    (unobjectionable ops ap' -> no_overlap ops ap' -> ~ allowed -> r = Err new_attribute)).
  { intros access ap' Ea Hne.
    apply (C137_python toy toy_laws toy_forms debug32 release32 H32' py_policy why_access 10%N hist pol_a ex_draw mk 2%nat ex_ap b it_rev 3%nat pol_b [x02] access ap' del ex_draw
             hist_proper Em O it_rev_ok hist_three); [vm_compute; reflexivity|reflexivity|apply Dm, H32'|exact Ea|exact Hne]. }
  split; [|split].
  - apply (W "hr"%string low_hr); [reflexivity|discriminate| | |].
    + apply unobjectionable_meaning. split; [|split; [discriminate|cbn; intuition discriminate]].
      intros a Ha. apply declared_spec. cbn in Ha. repeat (destruct Ha as [<-|Ha]; [vm_compute; reflexivity|]). destruct Ha.
    + apply apart_spec. vm_compute. reflexivity.
    + intros A. destruct (A (dept "HR")) as [_ X]; [apply needed_spec; vm_compute; reflexivity|]. apply X. left. reflexivity.
  - apply (W "twice"%string hr_twice); [reflexivity|discriminate| |].
    + apply unobjectionable_meaning. split; [|split; [discriminate|cbn; intuition discriminate]].
      intros a Ha. apply declared_spec. cbn in Ha. repeat (destruct Ha as [<-|Ha]; [vm_compute; reflexivity|]). destruct Ha.
    + intros (_ & _ & N). apply (N (dept "HR") (dept "HR") (dept "HR")); [left; reflexivity|right; left; reflexivity| |]; apply covered_spec, on_spec; vm_compute; reflexivity.
  - apply (W "it"%string it_dept); [reflexivity|discriminate|].
    exists [], (Some (dept "IT")), []. split; [reflexivity|]. split; [|intros y []].
    apply (no_name _ (dept "IT")); [apply known_spec; vm_compute; reflexivity|]. intros D. apply declared_spec in D. vm_compute in D. discriminate.
Qed.

Definition some_attrs : list attribute := [dept "HR"; dept "IT"].
Example C137_interfaces_example : exists priv pub del,
  py_generate_master_keys toy_forms py_policy [x01] ex_draw = Ok (priv, pub, del) /\
  (py_generate_user_private_key debug32 toy_forms py_policy why_access it_rev priv "twice" [x01] ex_kdraw = Err twice /\
   w_generate_user_private_key release32 toy_forms py_policy why_access it_rev priv "twice" [x01] ex_kdraw = Err twice /\
   forall o outs, offered o ->
     h_generate_user_private_key pf toy_forms py_policy (fun _ => Ok hr_twice) it_rev (Some priv) (Some []) (Some [x01]) ex_kdraw (o :: outs) = Bail (Wrapped twice) (o :: outs)) /\
  (let e := PolicyError PolicyAttributeNotFound in
   py_encrypt_hybrid_header debug32 toy_forms toy_shake toy_sym py_policy (fun _ => Ok some_attrs) all_meta [x02] [x01] [x01] pub ex_msg ex_s ex_nonce = Err e /\
   w_encrypt_hybrid_header release32 toy_forms toy_shake toy_sym py_policy (fun _ => Ok some_attrs) [x01] pub "HR, IT" [x07] ex_msg ex_s ex_nonce = Err e /\
   forall o o' outs, offered o -> offered o' ->
     h_aes_encrypt_header pf toy_forms toy_shake toy_sym py_policy (fun _ => Ok some_attrs) (Some [x01]) (Some pub) (Some [x01]) None None ex_msg ex_s ex_nonce (o :: o' :: outs) =
       Bail (Wrapped e) (o :: o' :: outs)).
Proof.
  assert (H32 : 32 <= usize_bits debug32) by (cbn; lia). assert (H32' : 32 <= usize_bits release32) by (cbn; lia). assert (H64 : 32 <= usize_bits pf) by (cbn; lia).
  assert (Hdr : forall i, (i < N.to_nat 10)%nat -> ex_draw i <> f0) by (intros j Hj; apply ex_draws; lia).
  destruct (C129_master_keys toy toy_laws toy_forms (fun _ => True) toy_forms_ok debug32 H32 py_policy py_policy 10%N hist ex_draw ltac:(lia) Hdr
    2%nat pol_a [x01] [x01] hist_two eq_refl eq_refl (fun _ _ => Logic.I)) as (mk & priv & pub & del & Em & Hpr & Hpu & _ & M2 & _ & Dm).
  exists priv, pub, del. split; [exact M2|]. split.
  - apply (C137_key_refused toy toy_laws toy_forms pf debug32 release32 H64 H32 H32' py_policy (fun _ => Ok hr_twice) why_access 10%N hist pol_a ex_draw mk it_rev 2%nat pol_a
             [x01] hr_twice "twice"%string [] priv ex_kdraw twice hist_proper Em it_rev_ok hist_two); [vm_compute; reflexivity|discriminate|reflexivity|exact Hpr|intros P HP; apply Dm, HP|reflexivity..|].
    right. split; [|split; [|reflexivity]].
    + apply unobjectionable_meaning. split; [|split; [discriminate|cbn; intuition discriminate]].
      intros a Ha. apply declared_spec. cbn in Ha. repeat (destruct Ha as [<-|Ha]; [vm_compute; reflexivity|]). destruct Ha.
    + intros (_ & _ & N). apply (N (dept "HR") (dept "HR") (dept "HR")); [left; reflexivity|right; left; reflexivity| |]; apply covered_spec, on_spec; vm_compute; reflexivity.
  - apply (C137_encryption_refused toy toy_laws toy_forms toy_shake toy_sym pf debug32 release32 H64 H32 H32' py_policy (fun _ => Ok some_attrs) all_meta (fun _ => Ok some_attrs)
             10%N hist pol_a ex_draw mk 2%nat pol_a [x01] some_attrs [x01] "HR, IT"%string pub [x02] (mkMeta [x07] None) [x07] None None ex_msg ex_s ex_nonce _ Em hist_two);
      [split; vm_compute; congruence|reflexivity|discriminate|exact Hpu|intros P HP; apply Dm, HP|reflexivity|reflexivity|discriminate|reflexivity|discriminate|].
    left. split; [|reflexivity]. exists (dept "IT"). split; [right; left; reflexivity|exact it_not_declared].
Qed.

Print Assumptions C137_delegation.
Print Assumptions C137_user_key.
Print Assumptions C137_key_for_all.
Print Assumptions C137_encryption.
Print Assumptions C137_python.
Print Assumptions C137_key_refused.
Print Assumptions C137_encryption_refused.
