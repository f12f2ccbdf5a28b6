(** Which delegations give a working key, in terms of access policies: C125. *)
From Coq Require Import String NArith ZArith Bool Arith Lia Permutation List.
From Verif Require Import Prelude Field LinAlg Msp Spec MspProofs Minimal Bilinear Scheme SchemeSpec
  SchemeProofs SchemeTheorems Zp ExpModel PropertiesScheme Policy PolicySpec PolicyProofs Engine EngineSpec EngineProofs
  PropertiesEngine HistorySpec PropertiesHistory PropertiesWorking PropertiesDemo.
Import ListNotations.

(** ** Specification *)
(** [T] satisfies the access policy and no part of it does. *)
Definition smallest (ops : list op) (ap : access_policy) (T : list attribute) : Prop :=
  satisfied ops (fun b => In b T) ap /\ forall T', incl T' T -> satisfied ops (fun b => In b T') ap -> incl T T'.

(** Every smallest set of attributes satisfying [ap'] is one satisfying [ap]. *)
Definition keeps_smallest (ops : list op) (ap' ap : access_policy) : Prop := forall T, smallest ops ap' T -> smallest ops ap T.

(** ** Sets of values and sets of attributes *)
Definition belongs (p : policy) (v : N) (b : attribute) : bool :=
  match heap_get p b with Some h => existsb (N.eqb v) h | None => false end.
Lemma belongs_spec p v b : belongs p v b = true <-> value_of p b v.
Proof.
  unfold belongs, value_of. destruct (heap_get p b) as [h|]; [|split; [discriminate|intros (h & E & _); discriminate]].
  rewrite existsb_exists. split.
  - intros (x & Hx & E). apply N.eqb_eq in E. subst x. eauto.
  - intros (h' & E & Hin). assert (h' = h) by congruence. subst h'. exists v. split; [exact Hin|apply N.eqb_refl].
Qed.

Lemma hits_values p G b : hits p (attrs G) b <-> exists v, In v G /\ value_of p b v.
Proof.
  unfold hits, attrs, value_of. split.
  - intros (h & v & H1 & H2 & H3). eauto 6.
  - intros (v & H3 & h & H1 & H2). eauto 6.
Qed.

Lemma value_key ops p b v : inv ops p -> value_of p b v -> In b (map fst (attribute_to_int p)).
Proof.
  intros I (h & E & _). apply (map_get_in attribute_eqb attribute_eqb_spec _ _ _ (i_keys _ _ I)) in E. apply in_map_iff. exists (b, h). auto.
Qed.

Lemma pick ops p G : inv ops p -> exists T, forall b, In b T <-> hits p (attrs G) b.
Proof.
  intros I. exists (filter (fun b => existsb (fun v => belongs p v b) G) (map fst (attribute_to_int p))). intros b.
  rewrite filter_In, existsb_exists, hits_values. split.
  - intros [_ (v & Hv & E)]. apply belongs_spec in E. eauto.
  - intros (v & Hv & E). split; [|exists v; split; [exact Hv|apply belongs_spec, E]].
    exact (value_key ops p b v I E).
Qed.

(** [G] has one value of each attribute of [T] and nothing else *)
Definition transversal (p : policy) (G : list N) (T : list attribute) : Prop :=
  (forall b, In b T <-> hits p (attrs G) b) /\ (forall v, In v G -> exists b, value_of p b v) /\
  (forall b v w, In v G -> In w G -> value_of p b v -> value_of p b w -> v = w).

Section Formula.
Variables (it : iteration) (ops : list op) (p : policy) (ap : access_policy) (f : node).
Hypothesis Hit : iteration_ok it.
Hypothesis I : inv ops p.
Hypothesis Ef : key_formula it p ap = Ok f.

Lemma holds_hits G T : (forall b, In b T <-> hits p (attrs G) b) -> (holds (attrs G) f <-> satisfied ops (fun b => In b T) ap).
Proof using Hit I Ef.
  intros H. rewrite (key_formula_holds it ops p ap f (attrs G) Hit I Ef). apply satisfied_ext. intros b _. symmetry. apply H.
Qed.

Lemma transversal_minimal G T : transversal p G T -> (minimal f G <-> smallest ops ap T).
Proof using Hit I Ef.
  intros (H1 & H2 & H3). split.
  - intros [Hh Hm]. split; [apply (holds_hits G T H1), Hh|]. intros T' Hi Hs b Hb.
    set (G' := filter (fun v => existsb (belongs p v) T') G).
    assert (HG : forall c, In c T' <-> hits p (attrs G') c).
    { intros c. rewrite hits_values. split.
      - intros Hc. destruct (proj1 (hits_values _ _ _) (proj1 (H1 c) (Hi c Hc))) as (v & Hv & Hvc). exists v. split; [|exact Hvc].
        apply filter_In. split; [exact Hv|]. apply existsb_exists. exists c. split; [exact Hc|apply belongs_spec, Hvc].
      - intros (v & Hv & Hvc). apply filter_In in Hv as [_ Hv]. apply existsb_exists in Hv as (d & Hd & Hvd). apply belongs_spec in Hvd.
        rewrite (value_of_inj ops p c d v I Hvc Hvd). exact Hd. }
    assert (Hg : incl G G').
    { apply Hm; [intros v Hv; apply filter_In in Hv; apply Hv|]. apply (holds_hits G' T' HG), Hs. }
    apply HG. apply H1, hits_values in Hb as (v & Hv & Hvb). apply hits_values. exists v. split; [apply Hg, Hv|exact Hvb].
  - intros [Hs Hm]. split; [apply (holds_hits G T H1), Hs|]. intros G' Hi Hh v Hv.
    destruct (pick ops p G' I) as (T' & HT'). assert (Hx : incl T T').
    { apply Hm; [|apply (holds_hits G' T' HT'), Hh]. intros b Hb. apply HT', hits_values in Hb as (w & Hw & Hwb). apply H1, hits_values.
      exists w. split; [apply Hi, Hw|exact Hwb]. }
    destruct (H2 v Hv) as (b & Hvb). assert (Hb : In b T) by (apply H1, hits_values; eauto).
    apply Hx, HT', hits_values in Hb as (w & Hw & Hwb). rewrite (H3 b v w Hv (Hi w Hw) Hvb Hwb). exact Hw.
Qed.

Lemma minimal_transversal G : minimal f G -> exists T, transversal p G T.
Proof using Hit I Ef.
  intros [Hh Hm]. destruct (pick ops p G I) as (T & HT). exists T. split; [exact HT|].
  assert (Same : forall G', (forall b, hits p (attrs G') b <-> hits p (attrs G) b) -> holds (attrs G') f).
  { intros G' HG. apply (holds_hits G' T); [intros b; rewrite HG; apply HT|]. apply (holds_hits G T HT), Hh. }
  split.
  - intros v Hv. set (G' := filter (fun v => existsb (belongs p v) (map fst (attribute_to_int p))) G).
    assert (Hg : incl G G').
    { apply Hm; [intros w Hw; apply filter_In in Hw; apply Hw|]. apply Same. intros b. rewrite !hits_values. split.
      - intros (w & Hw & Hwb). apply filter_In in Hw as [Hw _]. eauto.
      - intros (w & Hw & Hwb). exists w. split; [|exact Hwb]. apply filter_In. split; [exact Hw|]. apply existsb_exists. exists b.
        split; [|apply belongs_spec, Hwb]. exact (value_key ops p b w I Hwb). }
    apply Hg, filter_In in Hv as [_ Hv]. apply existsb_exists in Hv as (b & _ & Hb). exists b. apply belongs_spec, Hb.
  - intros b v w Hv Hw Hvb Hwb. destruct (N.eq_dec v w) as [E|Hne]; [exact E|]. exfalso.
    assert (Hg : incl G (remove N.eq_dec v G)).
    { apply Hm; [intros x Hx; apply in_remove in Hx; apply Hx|]. apply Same. intros c. rewrite !hits_values. split.
      - intros (x & Hx & Hxc). apply in_remove in Hx as [Hx _]. eauto.
      - intros (x & Hx & Hxc). destruct (N.eq_dec x v) as [->|Hxv].
        + rewrite (value_of_inj ops p c b v I Hxc Hvb). exists w. split; [apply in_in_remove; [congruence|exact Hw]|exact Hwb].
        + exists x. split; [apply in_in_remove; [exact Hxv|exact Hx]|exact Hxc]. }
    exact (remove_In N.eq_dec G v (Hg v Hv)).
Qed.

Lemma smallest_declared T : smallest ops ap T -> forall b, In b T -> declared ops b.
Proof using Type.
  intros [Hs Hm] b Hb. set (T' := filter (fun b => on (covered ops b) b) T).
  assert (Hx : incl T T').
  { apply Hm; [intros c Hc; apply filter_In in Hc; apply Hc|]. eapply satisfied_ext; [|exact Hs]. intros c D.
    unfold T'. rewrite filter_In. split; [tauto|]. intros Hc. split; [exact Hc|apply declared_spec, D]. }
  apply Hx, filter_In in Hb as [_ Hb]. apply declared_spec, Hb.
Qed.
End Formula.

Lemma current_value p b v : current p b v -> value_of p b v.
Proof. intros (h & E & Hv & _). exists h. auto. Qed.

Lemma encrypted_transversal n H i p T gam : version n H i p -> attributes_values p T = Ok gam -> transversal p gam T.
Proof.
  intros V E. pose proof (version_inv _ _ _ _ V) as I. split; [|split].
  - intros b. split.
    + intros Hb. apply (hits_version n H i i p p T gam b V V E); [exact (attributes_values_declared _ _ _ _ I E b Hb)|].
      split; [exact Hb|]. rewrite between_nil by lia. intros [].
    + intros Hb. assert (D : declared (firstn i H) b) by (destruct Hb as (h & v & Eh & _); apply (i_decl _ _ I); eauto).
      apply (hits_version n H i i p p T gam b V V E D) in Hb. apply Hb.
  - intros v Hv. apply attributes_values_inv in E. induction E as [|b w T gam Hc _ IH]; [destruct Hv|]. destruct Hv as [->|Hv]; [|exact (IH Hv)].
    exists b. apply current_value, Hc.
  - assert (C : forall v, In v gam -> exists b, current p b v).
    { intros v Hv. apply attributes_values_inv in E. induction E as [|b w T gam Hc _ IH]; [destruct Hv|]. destruct Hv as [->|Hv]; [|exact (IH Hv)]. eauto. }
    intros b v w Hv Hw Hvb Hwb. destruct (C v Hv) as (b1 & C1). destruct (C w Hw) as (b2 & C2).
    assert (b1 = b) by (eapply value_of_inj; [exact I|apply current_value, C1|exact Hvb]).
    assert (b2 = b) by (eapply value_of_inj; [exact I|apply current_value, C2|exact Hwb]). subst b1 b2.
    destruct C1 as (h1 & E1 & V1 & M1). destruct C2 as (h2 & E2 & V2 & M2). assert (h2 = h1) by congruence. subst h2.
    specialize (M1 w V2). specialize (M2 v V1). lia.
Qed.

Lemma keeps_narrows it it' ops p ap ap' f f' : iteration_ok it -> iteration_ok it' -> inv ops p ->
  key_formula it p ap = Ok f -> key_formula it' p ap' = Ok f' -> keeps_smallest ops ap' ap -> narrows f' f.
Proof.
  intros Hit Hit' I Ef Ef' Hk G HG. destruct (minimal_transversal it' ops p ap' f' Hit' I Ef' G HG) as (T & HT).
  apply (transversal_minimal it ops p ap f Hit I Ef G T HT), Hk. apply (transversal_minimal it' ops p ap' f' Hit' I Ef' G T HT), HG.
Qed.

Lemma current_nodup ops p T gam : inv ops p -> NoDup T -> Forall2 (current p) T gam -> NoDup gam.
Proof.
  intros I Hn H. induction H as [|b v T gam Hc HF IH]; [constructor|]. inversion Hn as [|x y Hb Hn']; subst. constructor; [|exact (IH Hn')].
  intros Hv. apply Hb. clear -I Hv HF Hc. induction HF as [|c w T gam Hw _ IH]; [destruct Hv|]. destruct Hv as [->|Hv]; [|right; exact (IH Hv)].
  left. eapply value_of_inj; [exact I|apply current_value, Hw|apply current_value, Hc].
Qed.

Lemma same_minimal f g T : restricts f g -> restricts g f -> minimal g T -> minimal f T.
Proof.
  intros R1 R2 [H1 H2]. split; [exact (restricts_holds _ _ _ R2 H1)|]. intros T' Hi Hh. apply H2; [exact Hi|exact (restricts_holds _ _ _ R1 Hh)].
Qed.

(** replacing Or nodes by operands keeps the smallest sets *)
Lemma minimal_and_inv a b T : NoDup (leaves a ++ leaves b) -> minimal (And a b) T -> minimal a (inter T (leaves a)).
Proof.
  intros Hn [[H1 H2] Hm]. split; [apply holds_inter; [apply incl_refl|exact H1]|]. intros U Hi Hh x Hx.
  assert (Y : incl T (U ++ inter T (leaves b))).
  { apply Hm.
    - intros z Hz. apply in_app_or in Hz as [Hz|Hz]; [apply Hi, inter_in in Hz; apply Hz|apply inter_in in Hz; apply Hz].
    - split; [eapply holds_mono; [|exact Hh]; intros z _ Hz; apply in_or_app; left; exact Hz|].
      apply (holds_inter T b (leaves b)) in H2; [|apply incl_refl]. eapply holds_mono; [|exact H2]. intros z _ Hz. apply in_or_app. right; exact Hz. }
  apply inter_in in Hx as [Hx Hl]. apply Y, in_app_or in Hx as [Hx|Hx]; [exact Hx|]. apply inter_in in Hx as [_ Hb].
  exfalso. clear -Hn Hl Hb. induction (leaves a) as [|z l IH]; [destruct Hl|]. inversion Hn as [|u w Hz Hn']; subst.
  destruct Hl as [->|Hl]; [apply Hz, in_or_app; right; exact Hb|exact (IH Hn' Hl)].
Qed.

Lemma minimal_iff f g T : (forall S, holds S f <-> holds S g) -> minimal f T -> minimal g T.
Proof.
  intros H [H1 H2]. split; [apply H, H1|]. intros U Hi Hh. apply H2; [exact Hi|apply H, Hh].
Qed.

Lemma NoDup_app_parts {A} (l1 l2 : list A) : NoDup (l1 ++ l2) -> NoDup l1 /\ NoDup l2.
Proof.
  induction l1 as [|x l IH]; intros H; [split; [constructor|exact H]|]. inversion H as [|y z Hx Hn]; subst. destruct (IH Hn) as [H1 H2].
  split; [constructor; [intros X; apply Hx, in_or_app; left; exact X|exact H1]|exact H2].
Qed.

Lemma restricts_narrows f' f : restricts f' f -> NoDup (leaves f) -> narrows f' f.
Proof.
  induction 1 as [f|f1 f2 f3 R1 IH1 R2 IH2|a b|a b|a a' b b' Ra IHa Rb IHb|a a' b b' Ra IHa Rb IHb|a b|a b|a b c|a b c]; intros Hn T HT.
  - exact HT.
  - apply (IH2 Hn), (IH1 (restricts_nodup _ _ R2 Hn)), HT.
  - exact (minimal_or_l a b T Hn HT).
  - exact (minimal_or_r a b T Hn HT).
  - cbn [leaves] in Hn. destruct (NoDup_app_parts _ _ Hn) as [Na Nb].
    assert (Hn' : NoDup (leaves a' ++ leaves b')) by (apply (restricts_nodup (And a' b') (And a b) (rs_and _ _ _ _ Ra Rb)), Hn).
    pose proof (minimal_and_inv a' b' T Hn' HT) as Ma.
    assert (Mb : minimal b' (inter T (leaves b'))).
    { apply (minimal_and_inv b' a' T); [eapply Permutation_NoDup; [apply Permutation_app_comm|exact Hn']|].
      eapply minimal_iff; [|exact HT]. intros S. cbn [holds]. tauto. }
    eapply minimal_ext; [|exact (minimal_and a b _ _ Hn (IHa Na _ Ma) (IHb Nb _ Mb))]. intros x. rewrite in_app_iff, !inter_in. split; [tauto|].
    intros Hx. pose proof (minimal_leaves _ _ HT x Hx) as Hl. cbn [leaves] in Hl. apply in_app_or in Hl. tauto.
  - cbn [leaves] in Hn. destruct (NoDup_app_parts _ _ Hn) as [Na Nb]. destruct HT as [[H|H] Hm].
    + apply minimal_or_l; [exact Hn|]. apply (IHa Na). split; [exact H|]. intros U Hi Hh. apply Hm; [exact Hi|left; exact Hh].
    + apply minimal_or_r; [exact Hn|]. apply (IHb Nb). split; [exact H|]. intros U Hi Hh. apply Hm; [exact Hi|right; exact Hh].
  - eapply minimal_iff; [|exact HT]. intros S. cbn [holds]. tauto.
  - eapply minimal_iff; [|exact HT]. intros S. cbn [holds]. tauto.
  - eapply minimal_iff; [|exact HT]. intros S. cbn [holds]. tauto.
  - eapply minimal_iff; [|exact HT]. intros S. cbn [holds]. tauto.
Qed.

(** the access policies of C122 are among them *)
Theorem C125_included n history i p ap' ap :
  proper_axes history -> version n history i p ->
  (forall a, In a (mentioned ap) -> declared (firstn i history) a) -> ~ all_inside ap -> no_overlap (firstn i history) ap ->
  included (firstn i history) ap' ap -> keeps_smallest (firstn i history) ap' ap.
Proof.
  intros Hprop V Hm Hai Hno Hin T HT. pose proof (version_inv _ _ _ _ V) as I. pose proof it_rev_ok as Hit.
  destruct T as [|b0 T0] eqn:ET.
  { exfalso. destruct HT as [Hs _]. revert Hs. clear. induction ap' as [a|a IHa b IHb|a IHa b IHb|]; cbn [satisfied]; [intros (b & [] & _)|tauto|tauto|intros (b & [] & _)]. }
  rewrite <- ET in *. assert (Hdec : forall b, In b T -> declared (firstn i history) b) by (apply (smallest_declared (firstn i history) ap' T HT)).
  assert (F : exists f, key_formula it_rev p ap = Ok f /\ NoDup (leaves f)).
  { destruct (eq_all ap) as [->|Ha].
    - destruct (proj1 (key_formula_all it_rev _ p Hit I)) as (f & Ef & Hnd & _); [exists b0; apply Hdec; rewrite ET; left; reflexivity|]. eauto.
    - exact (formula_nodup it_rev _ p ap Hit I (proper_firstn history i Hprop) Hm Ha Hai Hno). }
  destruct F as (f & Ef & Hnd).
  destruct (included_formula it_rev _ p ap' ap f Hit I (proper_firstn history i Hprop) Hin Ef) as (f' & Ef' & R & _).
  destruct (attributes_values_ok _ p T I Hdec) as (gam & Ev & _).
  pose proof (encrypted_transversal n history i p T gam V Ev) as Tr.
  apply (transversal_minimal it_rev _ p ap f Hit I Ef gam T Tr), (restricts_narrows f' f R Hnd).
  apply (transversal_minimal it_rev _ p ap' f' Hit I Ef' gam T Tr), HT.
Qed.

Section Smallest.
Variable B : BilinearMap.
Hypothesis BL : BilinearLaws B.
Local Notation K := (bm_K B).
Local Notation KL := (bl_field B BL).
Implicit Types P : platform.

(** ** C125 *)

(** a key delegated to an access policy that keeps the smallest sets decrypts
    exactly what the new access policy allows, of whatever version *)
Theorem C125_keeps P n history p0 (mdraw : nat -> K) mk i ap uk it p ap' (draw : nat -> K) uk' k q l msg (s : K) ct :
  proper_axes history -> eng_master_key p0 mdraw = Ok mk ->
  held_key P mk n history i ap uk ->
  iteration_ok it -> version n history i p -> ap' <> AAll -> keeps_smallest (firstn i history) ap' ap ->
  eng_delegate P it p (del_key mk) uk ap' draw = Ok uk' ->
  version n history k q -> eng_encrypt P q (pub_key mk) l msg s = Ok ct ->
  let T := fun b => In b l /\ ~ In (Rotate b) (between history i k) in
  (satisfied (firstn i history) T ap' /\ eng_decrypt ct uk' = Ok (Some msg)) \/
  (~ satisfied (firstn i history) T ap' /\ refused (eng_decrypt ct uk')).
Proof using BL.
  intros Hprop Hmk Hk Hit V Hne Hkeep Hdel V' He T.
  destruct (held_stands B BL P n history _ mdraw mk Hprop Hmk i ap uk Hk) as (r & it0 & f & g & V0 & Hit0 & Eg & [Sfg Sgf] & Hnd & Hd).
  pose proof (version_same _ _ _ _ _ V V0). subst r. pose proof (version_inv _ _ _ _ V) as I.
  apply eng_delegate_inv in Hdel as (f' & m' & Ef' & Em' & Hdel); [|exact Hne].
  assert (Ef2 : key_formula it p ap' = Ok f') by (rewrite key_formula_other by exact Hne; exact Ef').
  assert (Hn : narrows f' f).
  { intros G HG. apply (same_minimal f g G Sfg Sgf). exact (keeps_narrows it0 it _ p ap ap' g f' Hit0 Hit I Eg Ef2 Hkeep G HG). }
  assert (Hd' : derived B P mk f' uk') by (apply (de_del B P _ f uk f' m' draw uk'); [exact Hd|left; exact Hn|exact Em'|exact Hdel]).
  unfold eng_encrypt in He. apply bind_ok in He as (gam & Ev & He).
  assert (Hsat : holds (attrs gam) f' <-> satisfied (firstn i history) T ap').
  { rewrite (key_formula_holds it _ p ap' f' (attrs gam) Hit I Ef2). apply satisfied_ext.
    intros b D. apply (hits_version n history i k p q l gam b V V' Ev D). }
  destruct (generate_master_key_inv B BL _ _ _ Hmk) as (t & y & -> & _ & Hnz). unfold eng_decrypt, refused. rewrite <- Hsat.
  destruct (derived_decrypt B BL P t y f' uk' msg gam s ct Hnz Hd' He) as [[H1 H2]|[(H1 & _ & H2)|(H1 & _ & H2)]]; auto.
Qed.

(** and these are all the access policies to which newly made keys can be
    delegated and always work: for any other some delegated key does not decrypt
    what its access policy allows *)
Theorem C125_exactly P n history p0 (mdraw : nat -> K) mk i p ap ap' :
  proper_axes history -> eng_master_key p0 mdraw = Ok mk -> max_attribute_creations p0 = n -> priv_y (priv_key mk) <> f0 ->
  nonzero_up_to B (N.to_nat n) ->
  version n history i p -> (last_attribute_value p < n)%N ->
  (forall a, In a (mentioned ap) -> declared (firstn i history) a) -> ~ all_inside ap -> no_overlap (firstn i history) ap ->
  ap' <> AAll ->
  (forall a, In a (mentioned ap') -> declared (firstn i history) a) -> ~ all_inside ap' -> no_overlap (firstn i history) ap' ->
  (ap = AAll \/ forall b, needed (firstn i history) ap' b -> needed (firstn i history) ap b) ->
  (keeps_smallest (firstn i history) ap' ap <->
   forall it it' (kdraw ddraw : nat -> K) uk uk' k q l msg (s : K) ct,
     iteration_ok it -> iteration_ok it' ->
     eng_user_key P it p (priv_key mk) ap kdraw = Ok uk -> eng_delegate P it' p (del_key mk) uk ap' ddraw = Ok uk' ->
     version n history k q -> eng_encrypt P q (pub_key mk) l msg s = Ok ct ->
     satisfied (firstn i history) (fun b => In b l /\ ~ In (Rotate b) (between history i k)) ap' ->
     eng_decrypt ct uk' = Ok (Some msg)).
Proof using BL.
  intros Hprop Hmk Hmax Hy Hz V Hlast Hm Hai Hno Hne Hm' Hai' Hno' Hneed. pose proof (version_inv _ _ _ _ V) as I. split.
  - intros Hkeep it it' kdraw ddraw uk uk' k q l msg s ct Hit Hit' Hu Hdel V' He Hs.
    destruct (C125_keeps P n history p0 mdraw mk i ap uk it' p ap' ddraw uk' k q l msg s ct Hprop Hmk
      (hk_gen P mk n history it i p ap kdraw uk Hit V Hu) Hit' V Hne Hkeep Hdel V' He) as [[_ H]|[H _]]; [exact H|contradiction].
  - intros Hw T HT. pose proof it_rev_ok as Hit.
    assert (Hdec : forall b, In b T -> declared (firstn i history) b) by (apply (smallest_declared (firstn i history) ap' T HT)).
    set (T1 := nodup attribute_dec T).
    assert (HT1 : smallest (firstn i history) ap' T1).
    { destruct HT as [H1 H2]. split.
      - eapply satisfied_ext; [|exact H1]. intros b _. unfold T1. rewrite nodup_In. reflexivity.
      - intros T' Hi Hs b Hb. apply nodup_In in Hb. revert b Hb. apply H2; [|exact Hs]. intros b Hb. apply Hi in Hb. apply nodup_In in Hb. exact Hb. }
    assert (Back : smallest (firstn i history) ap T1 -> smallest (firstn i history) ap T).
    { intros [H1 H2]. split.
      - eapply satisfied_ext; [|exact H1]. intros b _. unfold T1. rewrite nodup_In. reflexivity.
      - intros T' Hi Hs b Hb. apply (H2 T'); [|exact Hs|apply nodup_In, Hb]. intros c Hc. apply nodup_In, Hi, Hc. }
    apply Back. clear Back.
    destruct (attributes_values_ok _ p T1 I) as (gam & Ev & Hlen); [intros b Hb; apply nodup_In in Hb; apply Hdec, Hb|].
    pose proof (encrypted_transversal n history i p T1 gam V Ev) as Tr.
    assert (F : exists f, key_formula it_rev p ap = Ok f /\ NoDup (leaves f) /\ (forall v, In v (leaves f) -> exists b, value_of p b v)).
    { destruct (eq_all ap) as [->|Ha].
      - destruct (proj1 (key_formula_all it_rev _ p Hit I)) as (f & Ef & Hnd & Hv).
        + destruct HT as [Hs _]. destruct T as [|b T]; [|exists b; apply Hdec; left; reflexivity]. exfalso.
          revert Hs. clear. induction ap' as [a|a IHa b IHb|a IHa b IHb|]; cbn [satisfied]; [intros (b & [] & _)|tauto|tauto|intros (b & [] & _)].
        + exists f. split; [exact Ef|]. split; [exact Hnd|]. intros v Hv'. apply Hv, Hv'.
      - destruct (formula_nodup it_rev _ p ap Hit I (proper_firstn history i Hprop) Hm Ha Hai Hno) as (f & Ef & Hnd). exists f. split; [exact Ef|]. split; [exact Hnd|].
        intros v Hv. rewrite key_formula_other in Ef by exact Ha.
        apply (policy_to_formula_values it_rev _ p ap f Hit I Ef) in Hv as (_ & b & _ & _ & Hb). eauto. }
    destruct F as (f & Ef & Hnd & Hval).
    destruct (formula_nodup it_rev _ p ap' Hit I (proper_firstn history i Hprop) Hm' Hne Hai' Hno') as (f' & Ef' & Hnd').
    assert (Ep' : policy_to_formula it_rev p ap' = Ok f') by (rewrite key_formula_other in Ef' by exact Hne; exact Ef').
    pose proof (proj2 (transversal_minimal it_rev _ p ap' f' Hit I Ef' gam T1 Tr) HT1) as Hg.
    apply (transversal_minimal it_rev _ p ap f Hit I Ef gam T1 Tr).
    assert (Hrange : forall b v, value_of p b v -> (1 <= v <= last_attribute_value p)%N) by (intros b v (h & Eh & Hv); apply (i_heap _ _ I b h Eh), Hv).
    assert (Hil : incl (leaves f') (leaves f)).
    { intros v Hv. apply (policy_to_formula_values it_rev _ p ap' f' Hit I Ep') in Hv as (a & b & Ha & Hc & Hb). destruct (eq_all ap) as [->|Hap].
      - destruct (proj1 (key_formula_all it_rev _ p Hit I)) as (f2 & Ef2 & _ & Hv2); [exists b; eapply covers_declared; exact Hc|].
        assert (f2 = f) by congruence. subst f2. apply Hv2. eauto.
      - destruct Hneed as [X|Hn]; [contradiction|]. destruct (Hn b (ex_intro _ a (conj Ha Hc))) as (a2 & Ha2 & Hc2).
        rewrite key_formula_other in Ef by exact Hap. apply (policy_to_formula_values it_rev _ p ap f Hit I Ef). exists a2, b. auto. }
    assert (Hlf : (length (leaves f) <= N.to_nat n)%nat).
    { rewrite <- (seq_length (N.to_nat n) 1), <- (map_length N.to_nat). apply NoDup_incl_length.
      - apply FinFun.Injective_map_NoDup; [intros a b E; apply N2Nat.inj; exact E|exact Hnd].
      - intros x Hx. apply in_map_iff in Hx as (v & <- & Hv). destruct (Hval v Hv) as (b & Hb). specialize (Hrange b v Hb). apply in_seq. lia. }
    assert (X : is_ok (to_msp P f)) by (destruct (to_msp_ok P f Hnd) as (rows & _ & E); rewrite E; eexists; reflexivity). destruct X as (m & Em).
    assert (X : is_ok (to_msp P f')) by (destruct (to_msp_ok P f' Hnd') as (rows & _ & E); rewrite E; eexists; reflexivity). destruct X as (m' & Em').
    unfold eng_master_key in Hmk. rewrite Hmax in Hmk.
    destruct (generate_master_key_inv B BL _ _ _ Hmk) as (t & y & -> & Ht & Hnz).
    destruct (works_or_direction B BL P f m f' m' t y gam f1 Hnz Em Em' Hil Hg (fun k Hk => Hz k ltac:(lia)) Hy (K_1_neq_0 B KL)) as [H|(delta & H)]; [exact H|].
    exfalso.
    assert (Hr : forall a, In a (leaves f) -> in_range B t a).
    { intros a Ha. unfold in_range. rewrite Ht. destruct (Hval a Ha) as (b & Hb). specialize (Hrange b a Hb). lia. }
    pose proof (to_msp_msp_of B KL P f m Em) as M.
    assert (Pol : policy_to_msp it_rev P p ap = Ok m) by (rewrite policy_to_msp_formula, Ef; cbn [bind]; exact Em).
    assert (Gen : forall k : K, exists uk uk', key_generation m (mkPriv t y) (shift (fun _ => f0) (fun i => fmul k (delta i))) = Ok uk /\
       abe_key_delegation (Some m') uk (mkDel (inv_of B t)) (fun _ => f0) = Ok uk').
    { intros k. destruct (key_generation_total B BL f m t y (shift (fun _ => f0) (fun i => fmul k (delta i))) M) as (uk & Hk).
      { intros a Ha. split; [apply Hr, Ha|]. apply tt_nonzero; auto. }
      assert (Ho : obtained B P (master_of B t y) f uk) by (eapply ob_gen; eauto).
      destruct (delegate_total B BL P t y f uk f' m' (fun _ => f0) Hnz Ho Em' Hil) as (uk' & Hd). exists uk, uk'. auto. }
    destruct (Gen f0) as (uk1 & uk1' & G1 & D1). destruct (Gen f1) as (uk2 & uk2' & G2 & D2).
    assert (He : exists ct, encrypt P (gt_gen_exp B f0) gam (pub_of B t y) f1 = Ok ct).
    { eexists. apply (encrypt_run B BL).
      - rewrite Ht. apply Nat.le_lt_trans with (length (seq 1 (N.to_nat (last_attribute_value p)))); [|rewrite seq_length; lia].
        rewrite <- (map_length N.to_nat). apply NoDup_incl_length.
        + apply FinFun.Injective_map_NoDup; [intros a b E; apply N2Nat.inj; exact E|].
          apply (current_nodup _ p T1 gam I (NoDup_nodup _ _) (attributes_values_inv _ _ _ Ev)).
        + intros x Hx. apply in_map_iff in Hx as (v & <- & Hv). destruct (proj1 (proj2 Tr) v Hv) as (b & Hb). specialize (Hrange b v Hb). apply in_seq. lia.
      - intros a Ha. apply Hr, Hil. apply (minimal_leaves f' gam Hg), Ha. }
    destruct He as (ct & He).
    assert (Each : forall kdraw uk uk', key_generation m (mkPriv t y) kdraw = Ok uk ->
      abe_key_delegation (Some m') uk (mkDel (inv_of B t)) (fun _ => f0) = Ok uk' -> decrypt ct uk' = Ok (Some (gt_gen_exp B f0))).
    { intros kdraw uk uk' Hu Hd. apply (Hw it_rev it_rev kdraw (fun _ => f0) uk uk' i p T1 (gt_gen_exp B f0) f1 ct Hit Hit); auto.
      - unfold eng_user_key. rewrite Pol. cbn [bind]. exact Hu.
      - rewrite eng_delegate_steps by exact Hne. rewrite Ep'. cbn [bind]. rewrite Em'. cbn [bind]. exact Hd.
      - unfold eng_encrypt. rewrite Ev. cbn [bind]. exact He.
      - eapply satisfied_ext; [|exact (proj1 HT1)]. intros b _. rewrite between_nil by lia. simpl. tauto. }
    apply (H (fun _ => f0) (fun _ => f0) f0 f1 uk1 uk2 uk1' uk2' (gt_gen_exp B f0) ct); auto.
    + intros E. apply (K_1_neq_0 B KL). symmetry. exact E.
    + split; [exact (Each _ uk1 uk1' G1 D1)|exact (Each _ uk2 uk2' G2 D2)].
Qed.
End Smallest.

(** ** Examples *)
Local Open Scope string_scope.
Local Ltac vmr x := vm_cast_no_check (eq_refl x).

(** a delegation that is not one of C122, and gives working keys: two pairs out of
    the four *)
Definition four : access_policy := AAnd (AOr (AAttr (dept "R&D")) (AAttr (dept "HR"))) (AOr (AAttr (dept "MKG")) (AAttr (dept "FIN"))).
Definition two_pairs : access_policy := AOr (AAnd (AAttr (dept "R&D")) (AAttr (dept "MKG"))) (AAnd (AAttr (dept "HR")) (AAttr (dept "FIN"))).

Lemma dept_satisfied T x : In x ["R&D"; "HR"; "MKG"; "FIN"] -> (satisfied (firstn 2 hist) T (AAttr (dept x)) <-> T (dept x)).
Proof.
  intros Hx. cbn [satisfied]. split.
  - intros (b & Hb & Hc). apply covered_spec in Hc. destruct Hx as [<-|[<-|[<-|[<-|[]]]]]; vm_compute in Hc; destruct Hc as [<-|[]]; exact Hb.
  - intros Hb. exists (dept x). split; [exact Hb|]. apply covered_spec. destruct Hx as [<-|[<-|[<-|[<-|[]]]]]; vm_compute; auto.
Qed.

Lemma four_pairs : keeps_smallest (firstn 2 hist) two_pairs four.
Proof.
  intros T [Hs Hm]. unfold two_pairs, four in *. cbn [satisfied] in Hs, Hm.
  change (((satisfied (firstn 2 hist) (fun b => In b T) (AAttr (dept "R&D")) /\ satisfied (firstn 2 hist) (fun b => In b T) (AAttr (dept "MKG"))) \/
    (satisfied (firstn 2 hist) (fun b => In b T) (AAttr (dept "HR")) /\ satisfied (firstn 2 hist) (fun b => In b T) (AAttr (dept "FIN"))))) in Hs.
  rewrite !dept_satisfied in Hs by (simpl; tauto).
  assert (M : forall T', incl T' T -> (In (dept "R&D") T' /\ In (dept "MKG") T') \/ (In (dept "HR") T' /\ In (dept "FIN") T') -> incl T T').
  { intros T' Hi HT'. apply Hm; [exact Hi|].
    change (((satisfied (firstn 2 hist) (fun b => In b T') (AAttr (dept "R&D")) /\ satisfied (firstn 2 hist) (fun b => In b T') (AAttr (dept "MKG"))) \/
    (satisfied (firstn 2 hist) (fun b => In b T') (AAttr (dept "HR")) /\ satisfied (firstn 2 hist) (fun b => In b T') (AAttr (dept "FIN"))))).
    rewrite !dept_satisfied by (simpl; tauto). exact HT'. }
  assert (S4 : forall T', satisfied (firstn 2 hist) (fun b => In b T') (AAnd (AOr (AAttr (dept "R&D")) (AAttr (dept "HR"))) (AOr (AAttr (dept "MKG")) (AAttr (dept "FIN")))) <->
    (In (dept "R&D") T' \/ In (dept "HR") T') /\ (In (dept "MKG") T' \/ In (dept "FIN") T')).
  { intros T'. change (((satisfied (firstn 2 hist) (fun b => In b T') (AAttr (dept "R&D")) \/ satisfied (firstn 2 hist) (fun b => In b T') (AAttr (dept "HR"))) /\
    (satisfied (firstn 2 hist) (fun b => In b T') (AAttr (dept "MKG")) \/ satisfied (firstn 2 hist) (fun b => In b T') (AAttr (dept "FIN")))) <->
    (In (dept "R&D") T' \/ In (dept "HR") T') /\ (In (dept "MKG") T' \/ In (dept "FIN") T')).
    rewrite !dept_satisfied by (simpl; tauto). reflexivity. }
  split; [apply S4; tauto|]. intros T' Hi HS. apply S4 in HS.
  assert (X : incl T [dept "R&D"; dept "MKG"] \/ incl T [dept "HR"; dept "FIN"]).
  { destruct Hs as [[H1 H2]|[H1 H2]]; [left|right]; (apply M; [intros b [<-|[<-|[]]]; assumption|simpl; tauto]). }
  assert (NE : forall x y, dept x = dept y -> x = y) by (intros x y E; exact (f_equal snd E)).
  assert (Out : forall x l, In (dept x) T' -> incl T (map dept l) -> In x l).
  { intros x l Hx Hl. apply Hi, Hl, in_map_iff in Hx as (y & E & Hy). apply NE in E. subst y. exact Hy. }
  apply M; [exact Hi|]. destruct X as [X|X]; [left|right]; (split; destruct HS as [[H1|H1] [H2|H2]]; auto; exfalso);
    [apply (Out _ ["R&D"; "MKG"] H1) in X|apply (Out _ ["R&D"; "MKG"] H1) in X|apply (Out _ ["R&D"; "MKG"] H2) in X|apply (Out _ ["R&D"; "MKG"] H2) in X
    |apply (Out _ ["HR"; "FIN"] H1) in X|apply (Out _ ["HR"; "FIN"] H1) in X|apply (Out _ ["HR"; "FIN"] H2) in X|apply (Out _ ["HR"; "FIN"] H2) in X];
    simpl in X; intuition discriminate.
Qed.

Definition pairs_key : decryption_key toy := run empty_key (hdel pol_a (ekey pol_a four) two_pairs).

Example C125_example :
  keeps_smallest (firstn 2 hist) two_pairs four /\
  hdel pol_a (ekey pol_a four) two_pairs = Ok pairs_key /\
  eng_decrypt (ect pol_a [dept "HR"; dept "FIN"]) pairs_key = Ok (Some ex_msg) /\
  eng_decrypt (ect pol_a [dept "R&D"; dept "HR"; dept "MKG"]) pairs_key = Ok (Some ex_msg) /\
  eng_decrypt (ect pol_a [dept "R&D"; dept "FIN"]) (ekey pol_a four) = Ok (Some ex_msg) /\
  eng_decrypt (ect pol_a [dept "R&D"; dept "FIN"]) pairs_key = Ok None.
Proof.
  split; [exact four_pairs|]. split; [vmr (@Ok (decryption_key toy) pairs_key)|]. split; [vmr (@Ok (option (Gt toy)) (Some ex_msg))|].
  split; [vmr (@Ok (option (Gt toy)) (Some ex_msg))|]. split; [vmr (@Ok (option (Gt toy)) (Some ex_msg))|]. vmr (@Ok (option (Gt toy)) None).
Qed.

(** the hypotheses of [C125_exactly], with a delegation that does not keep the
    smallest sets: an Or replaced by an And *)
Definition either : access_policy := AOr (AAttr (dept "HR")) (AAttr (dept "FIN")).
Definition both : access_policy := AAnd (AAttr (dept "HR")) (AAttr (dept "FIN")).

Example C125_exactly_example :
  proper_axes hist /\ eng_master_key pol_a ex_draw = Ok ex_mk /\ max_attribute_creations pol_a = 10%N /\ priv_y (priv_key ex_mk) <> f0 /\
  nonzero_up_to toy (N.to_nat 10) /\ version 10 hist 2 pol_a /\ (last_attribute_value pol_a < 10)%N /\
  no_overlap (firstn 2 hist) either /\ no_overlap (firstn 2 hist) both /\
  (forall a, In a (mentioned both) -> declared (firstn 2 hist) a) /\
  (forall b, needed (firstn 2 hist) both b -> needed (firstn 2 hist) either b) /\
  ~ keeps_smallest (firstn 2 hist) both either /\
  smallest (firstn 2 hist) both [dept "HR"; dept "FIN"].
Proof.
  assert (Sm : smallest (firstn 2 hist) both [dept "HR"; dept "FIN"]).
  { split.
    - split; apply dept_satisfied; simpl; tauto.
    - intros T' Hi [H1 H2]. apply (dept_satisfied (fun b => In b T') "HR") in H1; [|simpl; tauto]. apply (dept_satisfied (fun b => In b T') "FIN") in H2; [|simpl; tauto].
      intros b [<-|[<-|[]]]; assumption. }
  split; [exact hist_proper|]. split; [exact (proj1 ex_engine_setup)|]. split; [reflexivity|].
  split; [intros E; apply (f_equal zval) in E; vm_compute in E; discriminate|]. split; [exact toy_nonzero|]. split; [exact hist_two|].
  split; [vm_compute; reflexivity|]. split; [apply apart_spec; vm_compute; reflexivity|]. split; [apply apart_spec; vm_compute; reflexivity|].
  split; [intros a [<-|[<-|[]]]; apply declared_spec; vm_compute; reflexivity|].
  split; [intros b (a & Ha & Hc); exists a; auto|]. split; [|exact Sm].
  intros Hk. destruct (Hk _ Sm) as [_ Hm]. assert (X : incl [dept "HR"; dept "FIN"] [dept "HR"]).
  { apply Hm; [intros b [<-|[]]; left; reflexivity|]. left. apply dept_satisfied; simpl; tauto. }
  destruct (X (dept "FIN") (or_intror (or_introl eq_refl))) as [E|[]]. apply (f_equal snd) in E. discriminate.
Qed.

Print Assumptions C125_keeps.
Print Assumptions C125_exactly.
Print Assumptions C125_included.
