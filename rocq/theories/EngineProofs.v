(** Facts about the engine. *)
From Coq Require Import String NArith ZArith Bool Lia Permutation List.
From Verif Require Import Prelude Field LinAlg Msp Spec MspProofs Bilinear Scheme SchemeSpec SchemeProofs SchemeTheorems
  Policy PolicySpec PolicyProofs Engine EngineSpec.
Import ListNotations.
Local Open Scope N_scope.

(** ** The order of iteration does not matter *)

Definition same (f g : node) : Prop := restricts f g /\ restricts g f.

Lemma same_refl f : same f f. Proof. split; apply rs_refl. Qed.
Lemma same_sym f g : same f g -> same g f. Proof. intros [H1 H2]; split; assumption. Qed.
Lemma same_trans f g h : same f g -> same g h -> same f h.
Proof. intros [H1 H2] [H3 H4]; split; eapply rs_trans; eauto. Qed.
Lemma same_or a a' b b' : same a a' -> same b b' -> same (Or a b) (Or a' b').
Proof. intros [H1 H2] [H3 H4]; split; apply rs_or; assumption. Qed.
Lemma same_and a a' b b' : same a a' -> same b b' -> same (And a b) (And a' b').
Proof. intros [H1 H2] [H3 H4]; split; apply rs_and; assumption. Qed.
Lemma same_comm a b : same (Or a b) (Or b a).
Proof. split; apply rs_or_comm. Qed.
Lemma rs_or_assoc' a b c : restricts (Or (Or a b) c) (Or a (Or b c)).
Proof.
  (* (a|b)|c = c|(a|b) <- ... *)
  apply rs_trans with (Or c (Or a b)); [apply rs_or_comm|].
  apply rs_trans with (Or c (Or b a)); [apply rs_or; [apply rs_refl|apply rs_or_comm]|].
  apply rs_trans with (Or (Or c b) a); [apply rs_or_assoc|].
  apply rs_trans with (Or (Or b c) a); [apply rs_or; [apply rs_or_comm|apply rs_refl]|].
  apply rs_or_comm.
Qed.
Lemma same_assoc a b c : same (Or a (Or b c)) (Or (Or a b) c).
Proof. split; [apply rs_or_assoc|apply rs_or_assoc']. Qed.

Local Notation ors := (fold_left (fun a x => Or a (Leaf x))).

Lemma ors_same l a b : same a b -> same (ors l a) (ors l b).
Proof.
  revert a b. induction l as [|x t IH]; intros a b H; simpl; [exact H|].
  apply IH. apply same_or; [exact H|apply same_refl].
Qed.

Lemma ors_perm l l' : Permutation l l' -> forall a, same (ors l a) (ors l' a).
Proof.
  induction 1 as [|x l l' H IH|x y l|l l' l'' H1 IH1 H2 IH2]; intros a; simpl.
  - apply same_refl.
  - apply IH.
  - apply ors_same.
    eapply same_trans; [apply same_sym, same_assoc|]. eapply same_trans; [|apply same_assoc].
    apply same_or; [apply same_refl|apply same_comm].
  - eapply same_trans; [apply IH1|apply IH2].
Qed.

Lemma reduce_perm l l' n n' : Permutation l l' -> reduce_or l = Some n -> reduce_or l' = Some n' -> same n n'.
Proof.
  intros H. revert n n'. induction H as [|x l l' H IH|x y l|l l' l'' H1 IH1 H2 IH2]; intros n n' E E'; simpl in E, E'.
  - discriminate.
  - assert (ors l (Leaf x) = n) by congruence. assert (ors l' (Leaf x) = n') by congruence. subst. apply ors_perm; exact H.
  - assert (ors l (Or (Leaf y) (Leaf x)) = n) by congruence. assert (ors l (Or (Leaf x) (Leaf y)) = n') by congruence.
    subst. apply ors_same, same_comm.
  - destruct (reduce_or l') as [m|] eqn:Em.
    + eapply same_trans; [eapply IH1|eapply IH2]; eauto.
    + destruct l'; [|discriminate]. apply Permutation_sym, Permutation_nil in H1. subst. discriminate.
Qed.

Section Iter.
Variables (it it' : iteration) (Hit : iteration_ok it) (Hit' : iteration_ok it').

Lemma attribute_node_same p a n n' : attribute_node it p a = Ok n -> attribute_node it' p a = Ok n' -> same n n'.
Proof using Hit Hit'.
  unfold attribute_node. destruct (heap_get p a) as [h|]; [|discriminate].
  destruct (reduce_or (heap_iter it h)) as [x|] eqn:E; [|discriminate].
  destruct (reduce_or (heap_iter it' h)) as [x'|] eqn:E'; [|discriminate].
  intros H H'. assert (x = n) by congruence. assert (x' = n') by congruence. subst.
  eapply reduce_perm; [|exact E|exact E'].
  eapply Permutation_trans; [apply Hit|apply Permutation_sym, Hit'].
Qed.

Lemma add_lower_same p x l v v' n n' : same v v' -> add_lower it p x l v = Ok n -> add_lower it' p x l v' = Ok n' -> same n n'.
Proof using Hit Hit'.
  revert v v'. induction l as [|e t IH]; intros v v' Hv H H'; simpl in H, H'.
  - assert (v = n) by congruence. assert (v' = n') by congruence. subst; exact Hv.
  - apply bind_ok in H as (m & Em & H). apply bind_ok in H' as (m' & Em' & H').
    eapply IH; [|exact H|exact H']. apply same_or; [exact Hv|]. eapply attribute_node_same; eauto.
Qed.

Lemma policy_to_formula_same p ap f f' : policy_to_formula it p ap = Ok f -> policy_to_formula it' p ap = Ok f' -> same f f'.
Proof using Hit Hit'.
  revert f f'. induction ap as [a|x IHx y IHy|x IHx y IHy|]; intros f f' H H'; simpl in H, H'.
  - unfold policy_to_node in H, H'. destruct (axis_get p (fst a)) as [[names h]|]; [|discriminate].
    destruct (position names (snd a)) as [i|]; [|discriminate].
    apply bind_ok in H as (m & Em & H). apply bind_ok in H' as (m' & Em' & H').
    pose proof (attribute_node_same p a m m' Em Em') as Hm. destruct h.
    + eapply add_lower_same; eauto.
    + assert (m = f) by congruence. assert (m' = f') by congruence. subst; exact Hm.
  - apply bind_ok in H as (a & Ea & H). apply bind_ok in H as (b & Eb & H).
    apply bind_ok in H' as (a' & Ea' & H'). apply bind_ok in H' as (b' & Eb' & H').
    assert (And a b = f) by congruence. assert (And a' b' = f') by congruence. subst. apply same_and; auto.
  - apply bind_ok in H as (a & Ea & H). apply bind_ok in H as (b & Eb & H).
    apply bind_ok in H' as (a' & Ea' & H'). apply bind_ok in H' as (b' & Eb' & H').
    assert (Or a b = f) by congruence. assert (Or a' b' = f') by congruence. subst. apply same_or; auto.
  - discriminate.
Qed.
End Iter.

Lemma pf_and it p a b f : policy_to_formula it p (AAnd a b) = Ok f <->
  exists x y, policy_to_formula it p a = Ok x /\ policy_to_formula it p b = Ok y /\ f = And x y.
Proof.
  simpl. split.
  - intros H. apply bind_ok in H as (x & Ex & H). apply bind_ok in H as (y & Ey & H). exists x, y. split; [exact Ex|]. split; [exact Ey|congruence].
  - intros (x & y & -> & -> & ->). reflexivity.
Qed.
Lemma pf_or it p a b f : policy_to_formula it p (AOr a b) = Ok f <->
  exists x y, policy_to_formula it p a = Ok x /\ policy_to_formula it p b = Ok y /\ f = Or x y.
Proof.
  simpl. split.
  - intros H. apply bind_ok in H as (x & Ex & H). apply bind_ok in H as (y & Ey & H). exists x, y. split; [exact Ex|]. split; [exact Ey|congruence].
  - intros (x & y & -> & -> & ->). reflexivity.
Qed.

Lemma narrower_restricts it p ap' ap f : narrower ap' ap -> policy_to_formula it p ap = Ok f ->
  exists f', policy_to_formula it p ap' = Ok f' /\ restricts f' f.
Proof.
  intros H. revert f. induction H; intros f E;
    repeat match goal with
    | E : policy_to_formula it p (AAnd _ _) = Ok _ |- _ => apply pf_and in E as (? & ? & ? & ? & ->)
    | E : policy_to_formula it p (AOr _ _) = Ok _ |- _ => apply pf_or in E as (? & ? & ? & ? & ->)
    end.
  - exists f. split; [exact E|apply rs_refl].
  - destruct (IHnarrower2 f E) as (g & Eg & Rg). destruct (IHnarrower1 g Eg) as (h & Eh & Rh).
    exists h. split; [exact Eh|]. eapply rs_trans; eauto.
  - eexists. split; [eassumption|apply rs_or_left].
  - eexists. split; [eassumption|apply rs_or_right].
  - edestruct IHnarrower1 as (g & Eg & Rg); [eassumption|]. edestruct IHnarrower2 as (h & Eh & Rh); [eassumption|].
    exists (And g h). split; [apply pf_and; eauto|apply rs_and; assumption].
  - edestruct IHnarrower1 as (g & Eg & Rg); [eassumption|]. edestruct IHnarrower2 as (h & Eh & Rh); [eassumption|].
    exists (Or g h). split; [apply pf_or; eauto|apply rs_or; assumption].
  - eexists. split; [apply pf_and; eauto|apply rs_and_comm].
  - eexists. split; [apply pf_or; eauto|apply rs_or_comm].
  - eexists. split; [apply pf_and; do 2 eexists; split; [eassumption|split; [apply pf_and; eauto|reflexivity]]|apply rs_and_assoc].
  - eexists. split; [apply pf_or; do 2 eexists; split; [eassumption|split; [apply pf_or; eauto|reflexivity]]|apply rs_or_assoc].
Qed.

(** All is only narrowed to itself *)
Lemma narrower_all ap' : narrower ap' AAll -> ap' = AAll.
Proof. intros H. remember AAll as r. induction H; try discriminate; subst; auto. specialize (IHnarrower2 eq_refl). subst; auto. Qed.

Lemma key_formula_other it p ap : ap <> AAll -> key_formula it p ap = policy_to_formula it p ap.
Proof. destruct ap; intros H; try reflexivity. contradiction. Qed.

(** ** The values in the formula of an access policy *)

(** [v] is a value of attribute [b] *)
Definition value_of (p : policy) (b : attribute) (v : N) : Prop := exists h, heap_get p b = Some h /\ In v h.

Lemma value_of_inj ops p a b v : inv ops p -> value_of p a v -> value_of p b v -> a = b.
Proof. intros I (h & E & H) (h' & E' & H'). exact (i_dist _ _ I a b h h' v E E' H H'). Qed.

Lemma value_of_some ops p b : inv ops p -> declared ops b -> exists v, value_of p b v.
Proof.
  intros I D. destruct (proj2 (i_decl _ _ I b) D) as (h & E). destruct (i_heap _ _ I b h E) as (Hne & _).
  destruct h as [|v t]; [contradiction|]. exists v, (v :: t). split; [exact E|left; reflexivity].
Qed.

Lemma covers_declared ops a b : covers ops a b -> declared ops b.
Proof.
  intros (names & h & Hin & Hn & Hb). destruct Hb as [->|(_ & E & l1 & l2 & El & _ & Hx)].
  - exists names, h; auto.
  - exists names, h. rewrite E. split; [exact Hin|]. rewrite El. apply in_or_app; left; exact Hx.
Qed.

Lemma attribute_node_leaves it p a n : iteration_ok it -> attribute_node it p a = Ok n ->
  exists h, heap_get p a = Some h /\ Permutation (leaves n) h.
Proof.
  intros [Hit _]. unfold attribute_node. destruct (heap_get p a) as [h|]; [|discriminate].
  destruct (reduce_or (heap_iter it h)) as [x|] eqn:E; [|discriminate]. intros H; assert (x = n) by congruence; subst x.
  exists h. split; [reflexivity|]. rewrite (reduce_or_leaves _ _ E). apply Hit.
Qed.

Lemma attribute_node_values it ops p a n : iteration_ok it -> inv ops p -> attribute_node it p a = Ok n ->
  (forall v, In v (leaves n) <-> value_of p a v) /\ NoDup (leaves n).
Proof.
  intros Hit I H. destruct (attribute_node_leaves it p a n Hit H) as (h & E & Hp).
  destruct (i_heap _ _ I a h E) as (_ & Hnd & _). split.
  - intros v. split.
    + intros Hv. exists h. split; [exact E|]. eapply Permutation_in; eauto.
    + intros (h' & E' & Hv). assert (h' = h) by congruence; subst. eapply Permutation_in; [apply Permutation_sym; exact Hp|exact Hv].
  - eapply Permutation_NoDup; [apply Permutation_sym; exact Hp|exact Hnd].
Qed.

Lemma NoDup_app_iff {A} (l l' : list A) : NoDup (l ++ l') <-> NoDup l /\ NoDup l' /\ forall x, In x l -> In x l' -> False.
Proof.
  induction l as [|a t IH]; simpl.
  - split; [intros H; split; [constructor|]; split; [exact H|intros x []]|tauto].
  - rewrite !NoDup_cons_iff, IH, in_app_iff. firstorder. subst. auto.
Qed.

Lemma add_lower_values it ops p x l val n : iteration_ok it -> inv ops p -> add_lower it p x l val = Ok n ->
  exists rest, leaves n = leaves val ++ rest /\ (forall v, In v rest <-> exists e, In e l /\ value_of p (x, e) v) /\
    (NoDup l -> NoDup rest).
Proof.
  intros Hit I. revert val. induction l as [|e t IH]; intros val H; simpl in H.
  - assert (val = n) by congruence; subst. exists []. rewrite app_nil_r. split; [reflexivity|].
    split; [|intros _; constructor]. intros v; split; [intros []|intros (e & [] & _)].
  - apply bind_ok in H as (m & Em & H). destruct (IH _ H) as (rest & E & Hv & Hn).
    destruct (attribute_node_values it ops p _ _ Hit I Em) as (Hm & Hmn).
    exists (leaves m ++ rest). simpl in E. rewrite <- app_assoc in E. split; [exact E|]. split.
    + intros v. rewrite in_app_iff, Hm, Hv. split.
      * intros [H0|(e' & He & H0)]; [exists e|exists e']; split; [left; reflexivity|exact H0|right; exact He|exact H0].
      * intros (e' & [->|He] & H0); [left; exact H0|right; exists e'; auto].
    + intros Hl. inversion Hl as [|? ? He Ht]; subst. apply NoDup_app_iff. split; [exact Hmn|]. split; [auto|].
      intros v H1 H2. apply Hm in H1. apply Hv in H2 as (e' & He' & H2).
      pose proof (value_of_inj ops p _ _ v I H1 H2) as Ee. assert (e = e') by congruence. subst; contradiction.
Qed.

Lemma policy_to_node_values it ops p a n : iteration_ok it -> inv ops p -> policy_to_node it p a = Ok n ->
  (forall v, In v (leaves n) <-> exists b, covers ops a b /\ value_of p b v) /\
  (proper_axes ops -> NoDup (leaves n)).
Proof.
  intros Hit I H0. unfold policy_to_node in H0. destruct (axis_get p (fst a)) as [[names h]|] eqn:Ea; [|discriminate].
  destruct (position names (snd a)) as [i|] eqn:Ep; [|discriminate].
  apply bind_ok in H0 as (val & Ev & H).
  pose proof (proj1 (i_axes _ _ I _ _ _) Ea) as Hop. destruct (position_spec _ _ _ Ep) as (l2 & El & Hni).
  assert (Hin : In (snd a) names) by (rewrite El; apply in_or_app; right; left; reflexivity).
  assert (Uniq : forall nm hh, In (AddAxis (fst a) nm hh) ops -> nm = names /\ hh = h).
  { intros nm hh Ho. apply (i_axes _ _ I) in Ho. split; congruence. }
  destruct (attribute_node_values it ops p a val Hit I Ev) as (Hv & Hvn).
  destruct h.
  - destruct (add_lower_values it ops p _ _ _ _ Hit I H) as (rest & E & Hr & Hrn). rewrite E. split.
    + intros v. rewrite in_app_iff, Hv, Hr. split.
      * intros [Hh|(e & He & Hh)].
        { exists a. split; [|exact Hh]. exists names, true. auto. }
        { exists (fst a, e). split; [|exact Hh]. exists names, true. split; [exact Hop|]. split; [exact Hin|].
          right. split; [reflexivity|]. split; [reflexivity|]. apply (position_before _ _ _ _ Ep); exact He. }
      * intros (b & (nm & hh & Ho & Hnm & Hb) & Hh). destruct (Uniq nm hh Ho) as [-> ->].
        destruct Hb as [->|(_ & Hfst & Hbe)]; [left; exact Hh|right].
        exists (snd b). split; [apply (position_before _ _ _ _ Ep); exact Hbe|]. rewrite <- Hfst. destruct b; exact Hh.
    + intros Hprop. apply NoDup_app_iff. split; [exact Hvn|]. split.
      * apply Hrn. specialize (Hprop _ _ _ Hop). rewrite El in Hprop. apply NoDup_app_iff in Hprop. apply Hprop.
      * intros v H1 H2. apply Hv in H1. apply Hr in H2 as (e & He & H2).
        pose proof (value_of_inj ops p _ _ v I H1 H2) as Ee. rewrite Ee in Hni. apply Hni. exact He.
  - assert (val = n) by congruence; subst. split; [|intros _; exact Hvn]. intros v. rewrite Hv. split.
    + intros Hh. exists a. split; [|exact Hh]. exists names, false. auto.
    + intros (b & (nm & hh & Ho & Hnm & Hb) & Hh). destruct (Uniq nm hh Ho) as [-> ->].
      destruct Hb as [->|(E & _)]; [exact Hh|discriminate].
Qed.

Lemma policy_to_formula_values it ops p ap f : iteration_ok it -> inv ops p -> policy_to_formula it p ap = Ok f ->
  forall v, In v (leaves f) <-> exists a b, In a (mentioned ap) /\ covers ops a b /\ value_of p b v.
Proof.
  intros Hit I. revert f. induction ap as [a|x IHx y IHy|x IHx y IHy|]; intros f H v; [simpl in H| | |discriminate].
  - rewrite (proj1 (policy_to_node_values it ops p a f Hit I H) v). split.
    + intros (b & H1 & H2). exists a, b. split; [left; reflexivity|auto].
    + intros (a' & b & [->|[]] & H1 & H2). eauto.
  - apply pf_and in H as (fx & fy & Ex & Ey & ->). cbn [leaves mentioned]. rewrite in_app_iff, (IHx fx Ex v), (IHy fy Ey v).
    split.
    + intros [(a & b & H)|(a & b & H)]; exists a, b; rewrite in_app_iff; tauto.
    + intros (a & b & H & Hb). apply in_app_or in H as [H|H]; [left|right]; exists a, b; auto.
  - apply pf_or in H as (fx & fy & Ex & Ey & ->). cbn [leaves mentioned]. rewrite in_app_iff, (IHx fx Ex v), (IHy fy Ey v).
    split.
    + intros [(a & b & H)|(a & b & H)]; exists a, b; rewrite in_app_iff; tauto.
    + intros (a & b & H & Hb). apply in_app_or in H as [H|H]; [left|right]; exists a, b; auto.
Qed.

Lemma overlap_disjoint it ops p x y fx fy : iteration_ok it -> inv ops p ->
  policy_to_formula it p x = Ok fx -> policy_to_formula it p y = Ok fy ->
  ((forall v, In v (leaves fx) -> In v (leaves fy) -> False) <->
   (forall a b c, In a (mentioned x) -> In b (mentioned y) -> covers ops a c -> covers ops b c -> False)).
Proof.
  intros Hit I Ex Ey. split.
  - intros H a b c Ha Hb H1 H2. destruct (value_of_some ops p c I (covers_declared _ _ _ H1)) as (v & Hv).
    apply (H v).
    + apply (policy_to_formula_values it ops p x fx Hit I Ex). exists a, c; auto.
    + apply (policy_to_formula_values it ops p y fy Hit I Ey). exists b, c; auto.
  - intros H v Hx Hy.
    apply (policy_to_formula_values it ops p x fx Hit I Ex) in Hx as (a & c & Ha & Hc & Hv).
    apply (policy_to_formula_values it ops p y fy Hit I Ey) in Hy as (b & c' & Hb & Hc' & Hv').
    pose proof (value_of_inj ops p c c' v I Hv Hv'). subst c'. eapply H; eauto.
Qed.

Lemma policy_to_formula_nodup it ops p ap f : iteration_ok it -> inv ops p -> proper_axes ops ->
  policy_to_formula it p ap = Ok f -> (NoDup (leaves f) <-> no_overlap ops ap).
Proof.
  intros Hit I Hp. revert f. induction ap as [a|x IHx y IHy|x IHx y IHy|]; intros f H; [simpl in H| | |discriminate].
  - split; intros _; [exact Logic.I|]. apply (policy_to_node_values it ops p a f Hit I H). exact Hp.
  - apply pf_and in H as (fx & fy & Ex & Ey & ->). cbn [leaves no_overlap]. rewrite NoDup_app_iff, (IHx fx Ex), (IHy fy Ey).
    rewrite (overlap_disjoint it ops p x y fx fy Hit I Ex Ey). reflexivity.
  - apply pf_or in H as (fx & fy & Ex & Ey & ->). cbn [leaves no_overlap]. rewrite NoDup_app_iff, (IHx fx Ex), (IHy fy Ey).
    rewrite (overlap_disjoint it ops p x y fx fy Hit I Ex Ey). reflexivity.
Qed.

Lemma add_lower_ok it ops p x l val : iteration_ok it -> inv ops p -> (forall e, In e l -> declared ops (x, e)) ->
  exists n, add_lower it p x l val = Ok n.
Proof.
  intros Hit I. revert val. induction l as [|e t IH]; intros val D; simpl; [eauto|].
  destruct (attribute_node_ok it ops p (x, e) Hit I (D e (or_introl eq_refl))) as (m & Em & _).
  rewrite Em. cbn [bind]. apply IH. intros e' He'. apply D; right; exact He'.
Qed.

Lemma policy_to_node_ok it ops p a : iteration_ok it -> inv ops p -> declared ops a -> exists n, policy_to_node it p a = Ok n.
Proof.
  intros Hit I D. destruct (attribute_node_ok it ops p a Hit I D) as (val & Ev & _).
  destruct D as (names & h & Hop & Hin). pose proof (proj2 (i_axes _ _ I _ _ _) Hop) as Ea.
  unfold policy_to_node. rewrite Ea. destruct (position names (snd a)) as [i|] eqn:Ep.
  - rewrite Ev. cbn [bind]. destruct h; [|eauto]. eapply add_lower_ok; eauto.
    intros e He. exists names, true. split; [exact Hop|]. destruct (position_spec _ _ _ Ep) as (l2 & El & _).
    simpl. rewrite El. apply in_or_app; left; exact He.
  - apply position_none in Ep. contradiction.
Qed.

Lemma policy_to_formula_ok it ops p ap : iteration_ok it -> inv ops p ->
  (forall a, In a (mentioned ap) -> declared ops a) -> ap <> AAll -> ~ all_inside ap ->
  exists f, policy_to_formula it p ap = Ok f.
Proof.
  intros Hit I. induction ap as [a|x IHx y IHy|x IHx y IHy|]; intros D Hne Hall.
  - simpl. eapply policy_to_node_ok; eauto. apply D; left; reflexivity.
  - cbn [all_inside mentioned] in *. destruct IHx as (fx & Ex); [intros a Ha; apply D; apply in_or_app; auto|tauto|tauto|].
    destruct IHy as (fy & Ey); [intros a Ha; apply D; apply in_or_app; auto|tauto|tauto|].
    exists (And fx fy). apply pf_and. eauto.
  - cbn [all_inside mentioned] in *. destruct IHx as (fx & Ex); [intros a Ha; apply D; apply in_or_app; auto|tauto|tauto|].
    destruct IHy as (fy & Ey); [intros a Ha; apply D; apply in_or_app; auto|tauto|tauto|].
    exists (Or fx fy). apply pf_or. eauto.
  - contradiction.
Qed.

(** All: one leaf per value of the policy *)
Lemma all_nodup it ops p : iteration_ok it -> inv ops p ->
  NoDup (concat (map (fun e => heap_iter it (snd e)) (map_iter it (attribute_to_int p)))).
Proof.
  intros [Hh Hm] I.
  assert (G : forall m, NoDup (map fst m) -> (forall b h, In (b, h) m -> heap_get p b = Some h) ->
    NoDup (concat (map (fun e => heap_iter it (snd e)) m))).
  { induction m as [|(b, h) t IH]; simpl; intros Hn HG; [constructor|].
    inversion Hn as [|? ? H1 H2]; subst. apply NoDup_app_iff. split; [|split].
    - destruct (i_heap _ _ I b h (HG b h (or_introl eq_refl))) as (_ & Hd & _).
      eapply Permutation_NoDup; [apply Permutation_sym, Hh|exact Hd].
    - apply IH; [exact H2|]. intros b' h' Hin. apply HG; right; exact Hin.
    - intros v Hv Hc. apply in_concat in Hc as (l & Hl & Hv'). apply in_map_iff in Hl as ((b', h') & <- & Hin).
      assert (E : b = b').
      { eapply (i_dist _ _ I b b' h h' v); [apply HG; left; reflexivity|apply HG; right; exact Hin| |].
        - eapply Permutation_in; [apply Hh|exact Hv].
        - eapply Permutation_in; [apply Hh|exact Hv']. }
      subst b'. apply H1. apply in_map_iff. exists (b, h'); auto. }
  apply G.
  - eapply Permutation_NoDup; [apply Permutation_map, Permutation_sym, Hm|exact (i_keys _ _ I)].
  - intros b h Hin. apply (map_get_in attribute_eqb attribute_eqb_spec _ _ _ (i_keys _ _ I)).
    eapply Permutation_in; [apply Hm|exact Hin].
Qed.

Lemma key_formula_all it ops p : iteration_ok it -> inv ops p ->
  ((exists b, declared ops b) -> exists f, key_formula it p AAll = Ok f /\ NoDup (leaves f) /\
     forall v, In v (leaves f) <-> exists b, value_of p b v) /\
  (~ (exists b, declared ops b) -> key_formula it p AAll = Err (MissingAttribute None None)).
Proof.
  intros Hit I. cbn [key_formula].
  assert (Hin : forall v, In v (concat (map (fun e => heap_iter it (snd e)) (map_iter it (attribute_to_int p)))) <-> exists b, value_of p b v).
  { intros v. rewrite (all_values_in it p v Hit). split; intros (b & h & H1 & H2).
    - exists b, h. split; [apply (map_get_in attribute_eqb attribute_eqb_spec _ _ _ (i_keys _ _ I)); exact H1|exact H2].
    - exists b, h. split; [apply (map_get_in attribute_eqb attribute_eqb_spec _ _ _ (i_keys _ _ I)); exact H1|exact H2]. }
  pose proof (all_nodup it ops p Hit I) as Hnd.
  destruct (concat (map (fun e => heap_iter it (snd e)) (map_iter it (attribute_to_int p)))) as [|v0 t] eqn:El.
  - split; [|reflexivity]. intros (b & D). destruct (value_of_some ops p b I D) as (v & Hv).
    exfalso. apply (Hin v). eauto.
  - destruct (reduce_or (v0 :: t)) as [f|] eqn:Ef; [|discriminate].
    pose proof (reduce_or_leaves _ _ Ef) as L. split.
    + intros _. exists f. split; [reflexivity|]. rewrite L. split; [exact Hnd|exact Hin].
    + intros Hno. exfalso. apply Hno. destruct (proj1 (Hin v0) (or_introl eq_refl)) as (b & h & Eh & _).
      exists b. apply (i_decl _ _ I). eauto.
Qed.

(** ** Keys of the engine *)
Section Keys.
Variable B : BilinearMap.
Hypothesis BL : BilinearLaws B.
Local Notation K := (bm_K B).
Variable P : platform.

Lemma user_key_derived (mk : master_key B) p ap uk : user_key P mk p ap uk ->
  exists it f, iteration_ok it /\ key_formula it p ap = Ok f /\ derived B P mk f uk.
Proof.
  induction 1 as [it ap draw uk Hit H|it ap uk draw uk' _ IH H|it ap ap' uk draw uk' Hit _ IH Hne Hn H].
  - unfold eng_user_key in H. rewrite policy_to_msp_formula in H. apply bind_ok in H as (m & Em & H).
    apply bind_ok in Em as (f & Ef & Em). exists it, f. split; [exact Hit|]. split; [exact Ef|]. eapply de_gen; eauto.
  - destruct IH as (it0 & f & Hit & Ef & Hd). exists it0, f. split; [exact Hit|]. split; [exact Ef|].
    unfold eng_delegate in H. cbn [bind] in H. eapply de_rand; eauto.
  - destruct IH as (it0 & f & Hit0 & Ef & Hd).
    assert (Hne' : ap <> AAll) by (intros ->; apply narrower_all in Hn; contradiction).
    rewrite (key_formula_other _ _ _ Hne') in Ef.
    assert (H' : exists f' m', policy_to_formula it p ap' = Ok f' /\ to_msp P f' = Ok m' /\
               abe_key_delegation (Some m') uk (del_key mk) draw = Ok uk').
    { unfold eng_delegate in H. destruct ap'; try contradiction;
      (rewrite policy_to_msp_formula, key_formula_other in H by discriminate;
       apply bind_ok in H as (om & Em & H); apply bind_ok in Em as (m & Em & Eo);
       apply bind_ok in Em as (f' & Ef' & Em); exists f', m; split; [exact Ef'|]; split; [exact Em|];
       assert (Some m = om) by congruence; subst om; exact H). }
    destruct H' as (f' & m' & Ef' & Em' & H').
    destruct (narrower_restricts it0 p ap' ap f Hn Ef) as (f2 & Ef2 & R2).
    pose proof (policy_to_formula_same it it0 Hit Hit0 p ap' f' f2 Ef' Ef2) as [R1 _].
    exists it, f'. split; [exact Hit|]. split; [rewrite key_formula_other by exact Hne; exact Ef'|].
    eapply de_del; [exact Hd|right; eapply rs_trans; [exact R1|exact R2]|exact Em'|exact H'].
Qed.

(** the decision made by decryption *)
Lemma engine_exact size (mdraw : nat -> K) mk ops pk ap uk pc l msg s ct (T : attribute -> Prop) :
  generate_master_key size mdraw = Ok mk -> inv ops pk -> user_key P mk pk ap uk ->
  eng_encrypt P pc (pub_key mk) l msg s = Ok ct ->
  (forall gam b, attributes_values pc l = Ok gam -> declared ops b -> (hits pk (attrs gam) b <-> T b)) ->
  (satisfied ops T ap /\ eng_decrypt ct uk = Ok (Some msg)) \/ (~ satisfied ops T ap /\ refused (eng_decrypt ct uk)).
Proof.
  intros Hmk I Huk He HT. destruct (user_key_derived mk pk ap uk Huk) as (it & f & Hit & Ef & Hd).
  unfold eng_encrypt in He. apply bind_ok in He as (gam & Eg & He). specialize (HT gam).
  assert (Hs : holds (attrs gam) f <-> satisfied ops T ap).
  { rewrite (key_formula_holds it ops pk ap f (attrs gam) Hit I Ef). apply satisfied_ext. intros b D. apply HT; assumption. }
  destruct (generate_master_key_inv B BL _ _ _ Hmk) as (t & y & -> & _ & Hnz).
  unfold refused, eng_decrypt.
  destruct (derived_decrypt B BL P t y f uk msg gam s ct Hnz Hd He) as [[H1 H2]|[[H1 [_ H2]]|[H1 [_ H2]]]].
  - left. split; [apply Hs; exact H1|exact H2].
  - right. split; [rewrite <- Hs; exact H1|left; exact H2].
  - right. split; [rewrite <- Hs; exact H1|right; exact H2].
Qed.
End Keys.
