(** Theorems about keys that live through several versions of a policy: C122. *)
From Coq Require Import String NArith ZArith Bool Arith Lia Permutation Strings.Byte List.
From Verif Require Import Prelude Field LinAlg Msp Spec MspProofs Minimal Bilinear Scheme SchemeSpec SchemeProofs SchemeTheorems
  Zp ExpModel PropertiesScheme Policy PolicySpec PolicyProofs Engine EngineSpec EngineProofs PropertiesEngine
  SchemeCodec SchemeCodecProofs PropertiesCodec Hybrid HybridSpec PropertiesHybrid PropertiesVersions HistorySpec.
Import ListNotations.
Local Open Scope N_scope.

(** ** Disjunctions *)

Local Notation ors := (fold_left (fun a x => Or a (Leaf x))).

Fixpoint pure_or (f : node) : Prop :=
  match f with Leaf _ => True | Or a b => pure_or a /\ pure_or b | And _ _ => False end.

Lemma or_ors t x y : same (Or x (ors t y)) (ors t (Or x y)).
Proof.
  revert y. induction t as [|z t IH]; intros y; simpl; [apply same_refl|].
  eapply same_trans; [apply IH|]. apply ors_same, same_assoc.
Qed.

Lemma pure_or_reduce f : pure_or f -> exists g, reduce_or (leaves f) = Some g /\ same f g.
Proof.
  induction f as [a IHa b IHb|a IHa b IHb|v]; intros H; simpl in H.
  - destruct H.
  - destruct H as [Ha Hb]. destruct (IHa Ha) as (g & Eg & Sg). destruct (IHb Hb) as (h & Eh & Sh).
    cbn [leaves]. destruct (leaves a) as [|x s]; [discriminate|]. destruct (leaves b) as [|y t]; [discriminate|].
    simpl in *. eexists. split; [reflexivity|].
    assert (Eg' : ors s (Leaf x) = g) by congruence. assert (Eh' : ors t (Leaf y) = h) by congruence. subst g h.
    rewrite fold_left_app. simpl. eapply same_trans; [apply same_or; [exact Sg|exact Sh]|]. apply or_ors.
  - exists (Leaf v). split; [reflexivity|apply same_refl].
Qed.

Lemma ors_or t x : restricts x (ors t x).
Proof.
  revert x. induction t as [|z t IH]; intros x; simpl; [apply rs_refl|].
  eapply rs_trans; [apply rs_or_left|apply IH].
Qed.

Lemma sub_permutation {A} (l l' : list A) : NoDup l -> incl l l' -> exists rest, Permutation l' (l ++ rest).
Proof.
  revert l'. induction l as [|x l IH]; intros l' Hn Hi; [exists l'; apply Permutation_refl|].
  inversion Hn as [|? ? Hx Hn']; subst. destruct (in_split x l' (Hi x (or_introl eq_refl))) as (l1 & l2 & ->).
  destruct (IH (l1 ++ l2) Hn') as (rest & Hr).
  { intros y Hy. specialize (Hi y (or_intror Hy)). rewrite in_app_iff in *. simpl in Hi. destruct Hi as [H|[H|H]]; auto.
    subst. contradiction. }
  exists rest. eapply Permutation_trans; [apply Permutation_sym, Permutation_middle|]. simpl. apply perm_skip. exact Hr.
Qed.

Lemma pure_or_restricts f' f : pure_or f' -> pure_or f -> NoDup (leaves f') -> incl (leaves f') (leaves f) -> restricts f' f.
Proof.
  intros H' H Hn Hi. destruct (pure_or_reduce f' H') as (g' & Eg' & [S' _]). destruct (pure_or_reduce f H) as (g & Eg & [_ S]).
  destruct (sub_permutation _ _ Hn Hi) as (rest & Hp).
  destruct (leaves f') as [|x s] eqn:El; [discriminate|].
  assert (Em : reduce_or ((x :: s) ++ rest) = Some (ors rest (ors s (Leaf x)))) by (simpl; rewrite fold_left_app; reflexivity).
  destruct (reduce_perm _ _ _ _ Hp Eg Em) as [_ R]. simpl in Eg'. assert (ors s (Leaf x) = g') by congruence. subst g'.
  eapply rs_trans; [exact S'|]. eapply rs_trans; [apply (ors_or rest)|]. eapply rs_trans; [exact R|exact S].
Qed.

Lemma ors_pure t x : pure_or x -> pure_or (ors t x).
Proof. revert x. induction t as [|z t IH]; intros x H; simpl; [exact H|]. apply IH. split; [exact H|exact Logic.I]. Qed.

Lemma reduce_pure l n : reduce_or l = Some n -> pure_or n.
Proof. destruct l as [|v t]; [discriminate|]. simpl. intros E. assert (ors t (Leaf v) = n) by congruence. subst. apply ors_pure. exact Logic.I. Qed.

Lemma attribute_node_pure it p a n : attribute_node it p a = Ok n -> pure_or n.
Proof.
  unfold attribute_node. destruct (heap_get p a) as [h|]; [|discriminate].
  destruct (reduce_or (heap_iter it h)) as [x|] eqn:E; [|discriminate]. intros H. assert (x = n) by congruence. subst.
  eapply reduce_pure; exact E.
Qed.

Lemma add_lower_pure it p x l v n : pure_or v -> add_lower it p x l v = Ok n -> pure_or n.
Proof.
  revert v. induction l as [|e t IH]; intros v Hv H; simpl in H; [congruence|].
  apply bind_ok in H as (m & Em & H). eapply IH; [|exact H]. split; [exact Hv|eapply attribute_node_pure; exact Em].
Qed.

Lemma policy_to_node_pure it p a n : policy_to_node it p a = Ok n -> pure_or n.
Proof.
  unfold policy_to_node. destruct (axis_get p (fst a)) as [[names h]|]; [|discriminate].
  destruct (position names (snd a)) as [i|]; [|discriminate]. intros H. apply bind_ok in H as (m & Em & H).
  apply attribute_node_pure in Em. destruct h; [eapply add_lower_pure; eauto|congruence].
Qed.

Lemma disjunctive_pure it p ap f : disjunctive ap -> policy_to_formula it p ap = Ok f -> pure_or f.
Proof.
  revert f. induction ap as [a|x IHx y IHy|x IHx y IHy|]; intros f D H; try (destruct D; fail).
  - eapply policy_to_node_pure; exact H.
  - apply pf_or in H as (a & b & Ea & Eb & ->). destruct D as [Dx Dy]. split; auto.
Qed.

Lemma disjunctive_no_all ap : disjunctive ap -> ap <> AAll /\ ~ all_inside ap.
Proof.
  induction ap as [a|x IHx y IHy|x IHx y IHy|]; intros D; try (destruct D; fail).
  - split; [discriminate|intros []].
  - destruct D as [Dx Dy]. destruct (IHx Dx) as [Nx Ax]. destruct (IHy Dy) as [Ny Ay].
    split; [discriminate|]. simpl. tauto.
Qed.

(** ** Access policies that ask for less, in one version *)

Lemma key_formula_not_all it p ap f : ap <> AAll -> key_formula it p ap = Ok f -> policy_to_formula it p ap = Ok f.
Proof. intros H. rewrite key_formula_other by exact H. auto. Qed.

Lemma formula_not_all it p ap f : policy_to_formula it p ap = Ok f -> ap <> AAll.
Proof. intros H ->. discriminate. Qed.

Lemma included_formula it ops p ap' ap f : iteration_ok it -> inv ops p -> proper_axes ops -> included ops ap' ap ->
  key_formula it p ap = Ok f ->
  exists f', key_formula it p ap' = Ok f' /\ restricts f' f /\ (ap <> AAll -> ap' <> AAll).
Proof.
  intros Hit I Hpr H. revert f. induction H as [a|a b c H1 IH1 H2 IH2|a b|a b|a a' b b' H1 IH1 H2 IH2|a a' b b' H1 IH1 H2 IH2
    |a b|a b|a b c|a b c|a' a D No De C]; intros f E.
  - exists f. split; [exact E|]. split; [apply rs_refl|auto].
  - destruct (IH2 f E) as (g & Eg & Rg & Ng). destruct (IH1 g Eg) as (h & Eh & Rh & Nh).
    exists h. split; [exact Eh|]. split; [eapply rs_trans; eauto|auto].
  - apply pf_or in E as (x & y & Ex & Ey & ->). pose proof (formula_not_all _ _ _ _ Ex) as N.
    exists x. rewrite key_formula_other by exact N. split; [exact Ex|]. split; [apply rs_or_left|auto].
  - apply pf_or in E as (x & y & Ex & Ey & ->). pose proof (formula_not_all _ _ _ _ Ey) as N.
    exists y. rewrite key_formula_other by exact N. split; [exact Ey|]. split; [apply rs_or_right|auto].
  - apply pf_and in E as (x & y & Ex & Ey & ->). pose proof (formula_not_all _ _ _ _ Ex) as Nx. pose proof (formula_not_all _ _ _ _ Ey) as Ny.
    rewrite <- key_formula_other in Ex, Ey by assumption.
    destruct (IH1 x Ex) as (x' & Ex' & Rx & Nx'). destruct (IH2 y Ey) as (y' & Ey' & Ry & Ny').
    apply key_formula_not_all in Ex'; [|auto]. apply key_formula_not_all in Ey'; [|auto].
    exists (And x' y'). split; [apply pf_and; eauto|]. split; [apply rs_and; assumption|discriminate].
  - apply pf_or in E as (x & y & Ex & Ey & ->). pose proof (formula_not_all _ _ _ _ Ex) as Nx. pose proof (formula_not_all _ _ _ _ Ey) as Ny.
    rewrite <- key_formula_other in Ex, Ey by assumption.
    destruct (IH1 x Ex) as (x' & Ex' & Rx & Nx'). destruct (IH2 y Ey) as (y' & Ey' & Ry & Ny').
    apply key_formula_not_all in Ex'; [|auto]. apply key_formula_not_all in Ey'; [|auto].
    exists (Or x' y'). split; [apply pf_or; eauto|]. split; [apply rs_or; assumption|discriminate].
  - apply pf_and in E as (x & y & Ex & Ey & ->). exists (And y x). split; [apply pf_and; eauto|]. split; [apply rs_and_comm|discriminate].
  - apply pf_or in E as (x & y & Ex & Ey & ->). exists (Or y x). split; [apply pf_or; eauto|]. split; [apply rs_or_comm|discriminate].
  - rewrite key_formula_other in E by discriminate. apply pf_and in E as (z & w & Ez & Ew & ->). apply pf_and in Ez as (x & y & Ex & Ey & ->).
    exists (And x (And y w)). split; [apply pf_and; do 2 eexists; split; [exact Ex|split; [apply pf_and; eauto|reflexivity]]|].
    split; [apply rs_and_assoc|discriminate].
  - rewrite key_formula_other in E by discriminate. apply pf_or in E as (z & w & Ez & Ew & ->). apply pf_or in Ez as (x & y & Ex & Ey & ->).
    exists (Or x (Or y w)). split; [apply pf_or; do 2 eexists; split; [exact Ex|split; [apply pf_or; eauto|reflexivity]]|].
    split; [apply rs_or_assoc|discriminate].
  - destruct (disjunctive_no_all a' D) as [Na Ia].
    destruct (policy_to_formula_ok it ops p a' Hit I De Na Ia) as (f' & Ef').
    exists f'. rewrite key_formula_other by exact Na. split; [exact Ef'|]. split; [|auto].
    pose proof (policy_to_formula_values it ops p a' f' Hit I Ef') as V'.
    apply pure_or_restricts; [eapply disjunctive_pure; eauto| |apply (policy_to_formula_nodup it ops p a' f' Hit I Hpr Ef'); exact No|].
    + destruct C as [->|[Da _]].
      * simpl in E. destruct (reduce_or _) as [g|] eqn:Eg; [|discriminate]. assert (g = f) by congruence. subst. eapply reduce_pure; exact Eg.
      * eapply disjunctive_pure; [exact Da|]. apply key_formula_not_all; [apply disjunctive_no_all; exact Da|exact E].
    + intros v Hv. apply V' in Hv as (x & b & Hx & Hc & Hv). destruct C as [->|[Da C]].
      * destruct (key_formula_all it ops p Hit I) as [Hall _].
        destruct Hall as (g & Eg & _ & Hin); [exists b; eapply covers_declared; exact Hc|].
        assert (g = f) by congruence. subst. apply Hin. exists b; exact Hv.
      * destruct (C b (ex_intro _ x (conj Hx Hc))) as (y & Hy & Hcy).
        apply (policy_to_formula_values it ops p a f Hit I (key_formula_not_all _ _ _ _ (proj1 (disjunctive_no_all a Da)) E)).
        exists y, b. auto.
Qed.

(** one access policy in two versions *)
Lemma formula_sub it it' ops p ops' q ap f g : iteration_ok it -> iteration_ok it' -> inv ops p -> inv ops' q -> proper_axes ops ->
  policy_to_formula it p ap = Ok f -> policy_to_formula it' q ap = Ok g ->
  (forall a b v, In a (mentioned ap) -> covers ops a b -> value_of p b v -> exists b', covers ops' a b' /\ value_of q b' v) ->
  restricts f g.
Proof.
  intros Hit Hit' I I' Hpr. revert f g. induction ap as [a|x IHx y IHy|x IHx y IHy|]; intros f g E E' H.
  - simpl in E, E'. destruct (policy_to_node_values it ops p a f Hit I E) as [V Hn].
    destruct (policy_to_node_values it' ops' q a g Hit' I' E') as [V' _].
    apply pure_or_restricts; [eapply policy_to_node_pure; exact E|eapply policy_to_node_pure; exact E'|apply Hn; exact Hpr|].
    intros v Hv. apply V in Hv as (b & Hc & Hv). apply V'. apply (H a b v); [left; reflexivity|exact Hc|exact Hv].
  - apply pf_and in E as (x1 & y1 & Ex & Ey & ->). apply pf_and in E' as (x2 & y2 & Ex2 & Ey2 & ->).
    apply rs_and; [apply IHx|apply IHy]; auto; intros a b v Ha; apply H; simpl; apply in_or_app; auto.
  - apply pf_or in E as (x1 & y1 & Ex & Ey & ->). apply pf_or in E' as (x2 & y2 & Ex2 & Ey2 & ->).
    apply rs_or; [apply IHx|apply IHy]; auto; intros a b v Ha; apply H; simpl; apply in_or_app; auto.
  - discriminate.
Qed.

Lemma restricts_holds f' f S : restricts f' f -> holds S f' -> holds S f.
Proof. induction 1; simpl in *; tauto. Qed.

(** ** Versions *)

Lemma version_inv n H i p : version n H i p -> inv (firstn i H) p.
Proof. intros [_ E]. eapply inv_history; exact E. Qed.

Lemma firstn_between (H : list op) i j : (i <= j)%nat -> firstn j H = firstn i H ++ between H i j.
Proof.
  intros L. unfold between. rewrite <- (firstn_skipn i (firstn j H)) at 1. rewrite firstn_firstn, Nat.min_l by exact L. reflexivity.
Qed.

Lemma between_nil (H : list op) i j : (j <= i)%nat -> between H i j = [].
Proof. intros L. unfold between. apply skipn_all2. rewrite firstn_length. lia. Qed.

Lemma version_steps n H i j p q : (i <= j)%nat -> version n H i p -> version n H j q -> run_ops (between H i j) p = Ok q.
Proof.
  intros L [_ E] [_ E']. rewrite (firstn_between H i j L) in E'. rewrite (run_app _ _ _ _ E) in E'. exact E'.
Qed.

Lemma version_ext n H i j p q : (i <= j)%nat -> version n H i p -> version n H j q -> extends (between H i j) p q.
Proof.
  intros L V V'. eapply extends_run; [eapply version_inv; exact V|eapply version_steps; eauto].
Qed.

Lemma proper_firstn H i : proper_axes H -> proper_axes (firstn i H).
Proof. intros Hp x names h Hin. apply (Hp x names h). rewrite <- (firstn_skipn i H). apply in_or_app; left; exact Hin. Qed.

(** an axis keeps its names and its order *)
Lemma covers_later n H i j p q a b : (i <= j)%nat -> version n H i p -> version n H j q ->
  declared (firstn i H) a -> (covers (firstn i H) a b <-> covers (firstn j H) a b).
Proof.
  intros L V V' (names & h & Hin & Hn). pose proof (version_inv _ _ _ _ V') as I'.
  assert (Sub : forall o, In o (firstn i H) -> In o (firstn j H)) by (intros o Ho; rewrite (firstn_between H i j L); apply in_or_app; left; exact Ho).
  split; intros (names' & h' & Hin' & R).
  - exists names', h'. split; [apply Sub; exact Hin'|exact R].
  - apply (i_axes _ _ I') in Hin'. pose proof (proj2 (i_axes _ _ I' _ _ _) (Sub _ Hin)) as E.
    assert (X : Some (names, h) = Some (names', h')) by congruence.
    assert (names = names' /\ h = h') as [<- <-] by (split; congruence). exists names, h. auto.
Qed.

Lemma declared_later H i j b : (i <= j)%nat -> declared (firstn i H) b -> declared (firstn j H) b.
Proof.
  intros L (names & h & Hin & Hn). exists names, h. split; [|exact Hn]. rewrite (firstn_between H i j L). apply in_or_app; left; exact Hin.
Qed.

Lemma value_later n H i j p q b v : (i <= j)%nat -> version n H i p -> version n H j q -> value_of p b v -> value_of q b v.
Proof.
  intros L V V' (h & Eh & Hv). destruct (e_heap _ _ _ (version_ext n H i j p q L V V') b h Eh) as (new & En & _ & _).
  exists (new ++ h). split; [exact En|apply in_or_app; right; exact Hv].
Qed.

(** the values of an attribute change exactly if it is rotated *)
Lemma value_unrotated n H i j p q b v : (i <= j)%nat -> version n H i p -> version n H j q -> declared (firstn i H) b ->
  ~ In (Rotate b) (between H i j) -> value_of q b v -> value_of p b v.
Proof.
  intros L V V' D R (h' & Eh' & Hv). destruct (proj2 (i_decl _ _ (version_inv _ _ _ _ V) b) D) as (h & Eh).
  destruct (e_heap _ _ _ (version_ext n H i j p q L V V') b h Eh) as (new & En & _ & Hr).
  rewrite (proj2 Hr R) in En. simpl in En. assert (h = h') by congruence. subst. exists h'. auto.
Qed.

Lemma value_rotated n H i j p q b : (i <= j)%nat -> version n H i p -> version n H j q -> declared (firstn i H) b ->
  In (Rotate b) (between H i j) -> exists v, value_of q b v /\ forall b', ~ value_of p b' v.
Proof.
  intros L V V' D R. destruct (proj2 (i_decl _ _ (version_inv _ _ _ _ V) b) D) as (h & Eh).
  destruct (e_heap _ _ _ (version_ext n H i j p q L V V') b h Eh) as (new & En & Hnew & Hr).
  destruct new as [|v new]; [exfalso; apply (proj1 Hr eq_refl); exact R|].
  exists v. split; [exists ((v :: new) ++ h); split; [exact En|left; reflexivity]|].
  intros b' (h' & Eh' & Hv). destruct (i_heap _ _ (version_inv _ _ _ _ V) b' h' Eh') as (_ & _ & Hb). specialize (Hb v Hv).
  specialize (Hnew v (or_introl eq_refl)). lia.
Qed.

Lemma mentioned_declared it ops p ap f : inv ops p -> policy_to_formula it p ap = Ok f ->
  forall a, In a (mentioned ap) -> declared ops a.
Proof.
  intros I E a Ha. assert (Hne : ap <> AAll) by (eapply formula_not_all; exact E).
  destruct (proj1 (i_decl _ _ I a)) as (names & h & Hd); [|exists names, h; exact Hd].
  destruct (heap_get p a) as [h|] eqn:Eh; [eexists; reflexivity|]. exfalso.
  apply (key_formula_unknown it ops p ap a I Ha).
  - intros D. apply (i_decl _ _ I a) in D as (h & D). congruence.
  - rewrite key_formula_other by exact Hne. exists f; exact E.
Qed.

Lemma mentioned_needed ops ap a : In a (mentioned ap) -> declared ops a -> needed ops ap a.
Proof. intros Ha (names & h & Hin & Hn). exists a. split; [exact Ha|]. exists names, h. auto. Qed.

Lemma eq_all ap : {ap = AAll} + {ap <> AAll}.
Proof. destruct ap; [right|right|right|left]; congruence. Qed.

(** ** Keys *)

Section History.
Variable B : BilinearMap.
Hypothesis BL : BilinearLaws B.
Local Notation K := (bm_K B).
Implicit Types P : platform.

Lemma eng_delegate_steps P it p del (uk : decryption_key B) ap draw : ap <> AAll ->
  eng_delegate P it p del uk ap draw =
  (let* f := policy_to_formula it p ap in let* m := to_msp P f in abe_key_delegation (Some m) uk del draw).
Proof using Type.
  intros Hne. unfold eng_delegate. destruct ap; try contradiction;
    (rewrite policy_to_msp_formula, key_formula_other by discriminate;
     destruct (policy_to_formula it p _) as [f|e|x]; cbn [bind]; try reflexivity; destruct (to_msp P f); reflexivity).
Qed.

Lemma eng_delegate_inv P it p del (uk : decryption_key B) ap draw uk' : ap <> AAll ->
  eng_delegate P it p del uk ap draw = Ok uk' ->
  exists f m, policy_to_formula it p ap = Ok f /\ to_msp P f = Ok m /\ abe_key_delegation (Some m) uk del draw = Ok uk'.
Proof using Type.
  intros Hne H. rewrite eng_delegate_steps in H by exact Hne. apply bind_ok in H as (f & Ef & H). apply bind_ok in H as (m & Em & H).
  exists f, m. auto.
Qed.

(** what a key stands for *)
Definition stands (P : platform) (mk : master_key B) (n : N) (H : list op) (i : nat) (ap : access_policy) (uk : decryption_key B) : Prop :=
  exists p it f g, version n H i p /\ iteration_ok it /\ key_formula it p ap = Ok g /\ same f g /\ NoDup (leaves f) /\ derived B P mk f uk.

Lemma derived_leaves P mk f uk size (mdraw : nat -> K) : generate_master_key size mdraw = Ok mk -> derived B P mk f uk -> NoDup (leaves f).
Proof using BL.
  intros _ H. induction H as [f m draw uk Hm _|f uk f' m' draw uk' _ _ _ Hm _|f uk draw uk' _ IH _]; [| |exact IH];
    apply (mo_nodup K _ _ (to_msp_msp_of K (bl_field B BL) P _ _ Hm)).
Qed.

Section Fixed.
Variables (P : platform) (n : N) (H : list op) (size : nat) (mdraw : nat -> K) (mk : master_key B).
Hypothesis Hprop : proper_axes H.
Hypothesis Hmk : generate_master_key size mdraw = Ok mk.

(** the formula that a delegated key gets, next to the one of the source key *)
Lemma delegated_formula i j p q it0 it ap ap' f g f' :
  version n H i p -> version n H j q -> iteration_ok it0 -> iteration_ok it ->
  key_formula it0 p ap = Ok g -> same f g -> ap' <> AAll -> included (firstn i H) ap' ap ->
  policy_to_formula it q ap' = Ok f' ->
  exists g', policy_to_formula it0 p ap' = Ok g' /\ restricts g' f /\
    ((forall b, needed (firstn i H) ap' b -> ~ In (Rotate b) (between H i j)) -> restricts f' g') /\
    ((i <= j)%nat -> restricts g' f') /\
    (forall b, needed (firstn i H) ap' b -> In (Rotate b) (between H i j) -> exists v, In v (leaves f') /\ ~ In v (leaves f)).
Proof using Hprop.
  intros V V' Hit0 Hit Eg [Sfg Sgf] Hne Hin Ef'.
  pose proof (version_inv _ _ _ _ V) as I. pose proof (version_inv _ _ _ _ V') as I'.
  destruct (included_formula it0 _ p ap' ap g Hit0 I (proper_firstn H i Hprop) Hin Eg) as (g' & Eg' & Rg & _).
  apply key_formula_not_all in Eg'; [|exact Hne].
  pose proof (mentioned_declared it0 _ p ap' g' I Eg') as Di. pose proof (mentioned_declared it _ q ap' f' I' Ef') as Dj.
  exists g'. split; [exact Eg'|]. split; [eapply rs_trans; [exact Rg|exact Sgf]|].
  split; [|split].
  - intros Hr. apply (formula_sub it it0 _ q _ p ap' f' g' Hit Hit0 I' I (proper_firstn H j Hprop) Ef' Eg').
    intros a b v Ha Hc Hv. destruct (le_lt_dec i j) as [L|L].
    + apply (covers_later n H i j p q a b L V V' (Di a Ha)) in Hc. exists b. split; [exact Hc|].
      apply (value_unrotated n H i j p q b v L V V' (covers_declared _ _ _ Hc)); [|exact Hv]. apply Hr. exists a. auto.
    + assert (L' : (j <= i)%nat) by lia. exists b. split; [apply (covers_later n H j i q p a b L' V' V (Dj a Ha)); exact Hc|].
      apply (value_later n H j i q p b v L' V' V). exact Hv.
  - intros L. apply (formula_sub it0 it _ p _ q ap' g' f' Hit0 Hit I I' (proper_firstn H i Hprop) Eg' Ef').
    intros a b v Ha Hc Hv. exists b. split; [apply (covers_later n H i j p q a b L V V' (Di a Ha)); exact Hc|].
    apply (value_later n H i j p q b v L V V'). exact Hv.
  - intros b (a & Ha & Hc) Hr. destruct (le_lt_dec i j) as [L|L]; [|rewrite between_nil in Hr by lia; destruct Hr].
    destruct (value_rotated n H i j p q b L V V' (covers_declared _ _ _ Hc) Hr) as (v & Hv & Hnew).
    exists v. split.
    + apply (policy_to_formula_values it _ q ap' f' Hit I' Ef'). exists a, b. split; [exact Ha|].
      split; [apply (covers_later n H i j p q a b L V V' (Di a Ha)); exact Hc|exact Hv].
    + intros Hin'. apply (restricts_leaves _ _ Sfg) in Hin'.
      destruct (eq_all ap) as [->|Hnea].
      * destruct (proj1 (key_formula_all it0 _ p Hit0 I)) as (g0 & Eg0 & _ & Hval); [exists b; eapply covers_declared; exact Hc|].
        assert (g0 = g) by congruence. subst. apply Hval in Hin' as (b' & Hb'). exact (Hnew b' Hb').
      * apply (policy_to_formula_values it0 _ p ap g Hit0 I (key_formula_not_all _ _ _ _ Hnea Eg)) in Hin' as (_ & b' & _ & _ & Hb').
        exact (Hnew b' Hb').
Qed.

(** a delegation that succeeds needs no rotated attribute *)
Lemma delegated_unrotated i j p q it0 it ap ap' f g uk draw uk' :
  version n H i p -> version n H j q -> iteration_ok it0 -> iteration_ok it ->
  key_formula it0 p ap = Ok g -> same f g -> derived B P mk f uk -> ap' <> AAll -> included (firstn i H) ap' ap ->
  eng_delegate P it q (del_key mk) uk ap' draw = Ok uk' ->
  forall b, needed (firstn i H) ap' b -> ~ In (Rotate b) (between H i j).
Proof using Hprop Hmk BL.
  intros V V' Hit0 Hit Eg Sfg Hd Hne Hin He b Hb Hr.
  apply eng_delegate_inv in He as (f' & m & Ef' & Em & He); [|exact Hne].
  destruct (delegated_formula i j p q it0 it ap ap' f g f' V V' Hit0 Hit Eg Sfg Hne Hin Ef') as (_ & _ & _ & _ & _ & Hnew).
  destruct (Hnew b Hb Hr) as (v & Hv & Hnv).
  destruct (generate_master_key_inv B BL _ _ _ Hmk) as (t & y & E & _ & Hnz). pose proof (derived_obtained B P _ f uk Hd) as Ho.
  rewrite E in *. exact (delegate_new_never_ok B BL P t y f uk f' m draw uk' v Hnz Ho Em Hv Hnv He).
Qed.

Lemma held_stands i ap uk : held_key P mk n H i ap uk -> stands P mk n H i ap uk.
Proof using Hprop Hmk BL.
  induction 1 as [it i p ap draw uk Hit V E|it i ap uk p draw uk' _ IH E|it i j q ap ap' uk draw uk' _ IH Hit V' Hne Hin E].
  - unfold eng_user_key in E. rewrite policy_to_msp_formula in E. apply bind_ok in E as (m & Em & E).
    apply bind_ok in Em as (f & Ef & Em). assert (Hd : derived B P mk f uk) by (eapply de_gen; eauto).
    exists p, it, f, f. split; [exact V|]. split; [exact Hit|]. split; [exact Ef|]. split; [apply same_refl|].
    split; [eapply derived_leaves; eauto|exact Hd].
  - destruct IH as (p0 & it0 & f & g & V & Hit & Eg & Sfg & Hn & Hd).
    exists p0, it0, f, g. repeat (split; [assumption|]). unfold eng_delegate in E. cbn [bind] in E. eapply de_rand; eauto.
  - destruct IH as (p & it0 & f & g & V & Hit0 & Eg & Sfg & Hn & Hd).
    pose proof (delegated_unrotated i j p q it0 it ap ap' f g uk draw uk' V V' Hit0 Hit Eg Sfg Hd Hne Hin E) as Hr.
    apply eng_delegate_inv in E as (f' & m & Ef' & Em & E); [|exact Hne].
    destruct (delegated_formula i j p q it0 it ap ap' f g f' V V' Hit0 Hit Eg Sfg Hne Hin Ef') as (g' & Eg' & Rg & R1 & R2 & _).
    specialize (R1 Hr).
    assert (Hd' : derived B P mk f' uk') by (eapply de_del; [exact Hd|right; eapply rs_trans; [exact R1|exact Rg]|exact Em|exact E]).
    assert (Hn' : NoDup (leaves f')) by (eapply derived_leaves; eauto).
    destruct (le_lt_dec i j) as [L|L].
    + rewrite Nat.min_l by exact L. exists p, it0, f', g'. split; [exact V|]. split; [exact Hit0|].
      split; [rewrite key_formula_other by exact Hne; exact Eg'|]. split; [split; [exact R1|exact (R2 L)]|]. auto.
    + rewrite Nat.min_r by lia. exists q, it, f', f'. split; [exact V'|]. split; [exact Hit|].
      split; [rewrite key_formula_other by exact Hne; exact Ef'|]. split; [apply same_refl|]. auto.
Qed.

(** what the values of a ciphertext made at another version mean *)
Lemma hits_version i k p q l gam b : version n H i p -> version n H k q -> attributes_values q l = Ok gam -> declared (firstn i H) b ->
  (hits p (attrs gam) b <-> In b l /\ ~ In (Rotate b) (between H i k)).
Proof using Type.
  intros V V' Eg D. destruct (le_lt_dec i k) as [L|L].
  - apply (hits_earlier (firstn i H) (between H i k) p q l gam b); auto; [eapply version_inv; exact V|eapply version_steps; eauto].
  - rewrite between_nil by lia. assert (L' : (k <= i)%nat) by lia.
    rewrite (hits_later (firstn k H) (between H k i) q p l gam b); [|eapply version_inv; exact V'|eapply version_steps; eauto|exact Eg].
    simpl. tauto.
Qed.
End Fixed.

(** ** C122 *)

(** every key that exists during a history decrypts exactly what it should, of
    whatever version: the attributes of the ciphertext that were not rotated since
    the version of the key *)
Theorem C122_history P n history p0 (mdraw : nat -> K) mk i ap uk k p l msg (s : K) ct :
  proper_axes history -> eng_master_key p0 mdraw = Ok mk ->
  held_key P mk n history i ap uk ->
  version n history k p -> eng_encrypt P p (pub_key mk) l msg s = Ok ct ->
  let T := fun b => In b l /\ ~ In (Rotate b) (between history i k) in
  (satisfied (firstn i history) T ap /\ eng_decrypt ct uk = Ok (Some msg)) \/
  (~ satisfied (firstn i history) T ap /\ refused (eng_decrypt ct uk)).
Proof.
  intros Hprop Hmk Hk V' He T.
  destruct (held_stands P n history _ mdraw mk Hprop Hmk i ap uk Hk) as (q & it & f & g & V & Hit & Eg & [Sfg Sgf] & _ & Hd).
  unfold eng_encrypt in He. apply bind_ok in He as (gam & Ev & He).
  assert (Hs : holds (attrs gam) f <-> satisfied (firstn i history) T ap).
  { rewrite <- (satisfied_ext _ (hits q (attrs gam)) T).
    - rewrite <- (key_formula_holds it _ q ap g (attrs gam) Hit (version_inv _ _ _ _ V) Eg).
      split; apply restricts_holds; assumption.
    - intros b D. apply (hits_version n history i k q p l gam b V V' Ev D). }
  destruct (generate_master_key_inv B BL _ _ _ Hmk) as (t & y & -> & _ & Hnz). unfold refused, eng_decrypt.
  destruct (derived_decrypt B BL P t y f uk msg gam s ct Hnz Hd He) as [[H1 H2]|[[H1 [_ H2]]|[H1 [_ H2]]]].
  - left. split; [apply Hs; exact H1|exact H2].
  - right. split; [rewrite <- Hs; exact H1|left; exact H2].
  - right. split; [rewrite <- Hs; exact H1|right; exact H2].
Qed.

(** delegation with the policy of another version succeeds exactly if that version
    has the attributes asked for and none that the new access policy needs was
    rotated since the version of the key *)
Theorem C122_delegation P n history p0 (mdraw : nat -> K) mk i ap uk it j p ap' (draw : nat -> K) :
  proper_axes history -> eng_master_key p0 mdraw = Ok mk ->
  held_key P mk n history i ap uk ->
  iteration_ok it -> version n history j p -> ap' <> AAll -> included (firstn i history) ap' ap ->
  (is_ok (eng_delegate P it p (del_key mk) uk ap' draw) <->
   (forall a, In a (mentioned ap') -> declared (firstn j history) a) /\
   (forall b, needed (firstn i history) ap' b -> ~ In (Rotate b) (between history i j))).
Proof.
  intros Hprop Hmk Hk Hit V' Hne Hin.
  destruct (held_stands P n history _ mdraw mk Hprop Hmk i ap uk Hk) as (q & it0 & f & g & V & Hit0 & Eg & Sfg & Hn & Hd).
  pose proof (version_inv _ _ _ _ V') as I'. pose proof (version_inv _ _ _ _ V) as I. split.
  - intros (uk' & E). split.
    + apply eng_delegate_inv in E as (f' & m & Ef' & _ & _); [|exact Hne]. eapply mentioned_declared; [exact I'|exact Ef'].
    + eapply (delegated_unrotated P n history _ mdraw mk Hprop Hmk i j q p it0 it ap ap' f g); eauto.
  - intros [Hdecl Hr].
    destruct (included_formula it0 _ q ap' ap g Hit0 I (proper_firstn history i Hprop) Hin Eg) as (g0 & Eg0 & _ & _).
    apply key_formula_not_all in Eg0; [|exact Hne].
    destruct (formula_no_all it0 q ap') as [X|[_ Hai]]; [exfalso; apply X; exists g0; exact Eg0|].
    destruct (policy_to_formula_ok it _ p ap' Hit I' Hdecl Hne Hai) as (f' & Ef').
    destruct (delegated_formula n history Hprop i j q p it0 it ap ap' f g f' V V' Hit0 Hit Eg Sfg Hne Hin Ef') as (g' & _ & Rg & R1 & _).
    pose proof (rs_trans _ _ _ (R1 Hr) Rg) as Rf.
    destruct (to_msp_ok P f' (restricts_nodup _ _ Rf Hn)) as (rows & _ & Em).
    destruct (generate_master_key_inv B BL _ _ _ Hmk) as (t & y & E & _ & Hnz). pose proof (derived_obtained B P _ f uk Hd) as Ho.
    rewrite eng_delegate_steps by exact Hne. rewrite Ef'. cbn [bind]. rewrite Em. cbn [bind]. rewrite E in *.
    destruct (delegate_total B BL P t y f uk f' _ draw Hnz Ho Em (restricts_leaves _ _ Rf)) as (uk' & Hu). exists uk'. exact Hu.
Qed.

Lemma no_overlap_versions n H i j p q ap : (i <= j)%nat -> version n H i p -> version n H j q ->
  (forall a, In a (mentioned ap) -> declared (firstn i H) a) -> no_overlap (firstn i H) ap -> no_overlap (firstn j H) ap.
Proof using Type.
  intros L V V'. induction ap as [a|x IHx y IHy|x IHx y IHy|]; intros D No; try exact Logic.I;
    (simpl in *; destruct No as (Nx & Ny & N); split; [apply IHx; auto; intros; apply D, in_or_app; auto|];
     split; [apply IHy; auto; intros; apply D, in_or_app; auto|];
     intros a b c Ha Hb Hc Hc'; apply (N a b c Ha Hb);
     apply (covers_later n H i j p q _ c L V V'); auto; apply D, in_or_app; auto).
Qed.

(** the error given for a rotated attribute *)
Theorem C122_delegation_error P n history p0 (mdraw : nat -> K) mk i ap uk it j p ap' (draw : nat -> K) b :
  proper_axes history -> eng_master_key p0 mdraw = Ok mk ->
  held_key P mk n history i ap uk ->
  iteration_ok it -> version n history j p -> ap' <> AAll -> included (firstn i history) ap' ap ->
  last_attribute_value p < max_attribute_creations p0 ->
  needed (firstn i history) ap' b -> In (Rotate b) (between history i j) ->
  eng_delegate P it p (del_key mk) uk ap' draw = Err (InternalOperation "new attribute is not allowed").
Proof.
  intros Hprop Hmk Hk Hit V' Hne Hin Hlast Hb Hr.
  destruct (held_stands P n history _ mdraw mk Hprop Hmk i ap uk Hk) as (q & it0 & f & g & V & Hit0 & Eg & Sfg & Hn & Hd).
  pose proof (version_inv _ _ _ _ V') as I'. pose proof (version_inv _ _ _ _ V) as I.
  destruct (le_lt_dec i j) as [L|L]; [|rewrite between_nil in Hr by lia; destruct Hr].
  destruct (included_formula it0 _ q ap' ap g Hit0 I (proper_firstn history i Hprop) Hin Eg) as (g0 & Eg0 & Rg0 & _).
  apply key_formula_not_all in Eg0; [|exact Hne].
  destruct (formula_no_all it0 q ap') as [X|[_ Hai]]; [exfalso; apply X; exists g0; exact Eg0|].
  pose proof (mentioned_declared it0 _ q ap' g0 I Eg0) as Di.
  assert (Dj : forall a, In a (mentioned ap') -> declared (firstn j history) a) by (intros a Ha; apply (declared_later history i j a L), Di, Ha).
  destruct (policy_to_formula_ok it _ p ap' Hit I' Dj Hne Hai) as (f' & Ef').
  destruct (delegated_formula n history Hprop i j q p it0 it ap ap' f g f' V V' Hit0 Hit Eg Sfg Hne Hin Ef') as (g' & Eg' & Rg & _ & _ & Hnew).
  destruct (Hnew b Hb Hr) as (v & Hv & Hnv).
  assert (Hn' : NoDup (leaves f')).
  { apply (policy_to_formula_nodup it _ p ap' f' Hit I' (proper_firstn history j Hprop) Ef').
    apply (no_overlap_versions n history i j q p ap' L V V' Di).
    apply (policy_to_formula_nodup it0 _ q ap' g' Hit0 I (proper_firstn history i Hprop) Eg').
    exact (restricts_nodup _ _ Rg Hn). }
  destruct (to_msp_ok P f' Hn') as (rows & _ & Em).
  destruct (generate_master_key_inv B BL _ _ _ Hmk) as (t & y & E & Ht & Hnz). pose proof (derived_obtained B P _ f uk Hd) as Ho.
  rewrite eng_delegate_steps by exact Hne. rewrite Ef'. cbn [bind]. rewrite Em. cbn [bind]. rewrite E in *.
  apply (delegate_new B BL P t y f uk f' _ draw v Hnz Ho Em); [|exact Hv|exact Hnv].
  intros w Hw. apply (policy_to_formula_values it _ p ap' f' Hit I' Ef') in Hw as (_ & b' & _ & _ & h & Eh & Hw).
  destruct (i_heap _ _ I' b' h Eh) as (_ & _ & Hr'). specialize (Hr' w Hw). rewrite Ht. lia.
Qed.

(** whatever a delegated key can decrypt, the key it came from can, at the version
    it stands for *)
Theorem C122_included_sound ops T ap' ap :
  included ops ap' ap -> satisfied ops T ap' -> satisfied ops T ap.
Proof using Type.
  intros Hin. induction Hin as [a|a b c H1 IH1 H2 IH2|a b|a b|a a' b b' H1 IH1 H2 IH2|a a' b b' H1 IH1 H2 IH2
    |a b|a b|a b c|a b c|a' a D No De C]; simpl; try tauto.
  assert (X : forall x, disjunctive x -> (satisfied ops T x <-> exists b, T b /\ needed ops x b)).
  { intros x. induction x as [z|x IHx y IHy|x IHx y IHy|]; intros Dx; try (destruct Dx; fail).
    - simpl. split.
      + intros (b & Hb & Hc). exists b. split; [exact Hb|]. exists z. split; [left; reflexivity|exact Hc].
      + intros (b & Hb & z' & [<-|[]] & Hc). eauto.
    - destruct Dx as [Dx Dy]. simpl. rewrite (IHx Dx), (IHy Dy). unfold needed. simpl. setoid_rewrite in_app_iff. split.
      + intros [(b & Hb & z & Hz & Hc)|(b & Hb & z & Hz & Hc)]; eauto 7.
      + intros (b & Hb & z & [Hz|Hz] & Hc); [left|right]; eauto 7. }
  intros Hs. apply (X a' D) in Hs as (b & Hb & Hnd). destruct C as [->|[Da C]].
  - destruct Hnd as (z & _ & Hc). exists b. split; [exact Hb|eapply covers_declared; exact Hc].
  - apply (X a Da). exists b. auto.
Qed.
End History.

(** the same for hybrid headers *)
Section Headers.
Variable B : BilinearMap.
Hypothesis BL : BilinearLaws B.
Local Notation K := (bm_K B).
Variable F : byte_forms B.
Variable fine : Gt B -> Prop.
Hypothesis HF : forms_ok F fine.
Variable shake : list byte -> nat -> list byte.
Variable S : sym_scheme.
Variable metas : metadata -> Prop.
Hypothesis SL : sym_laws S metas.

Theorem C122_header P n history p0 (mdraw : nat -> K) mk i ap uk k p l meta random (s : K) nonce h :
  64 <= usize_bits P -> n < 4294967296 ->
  proper_axes history -> max_attribute_creations p0 = n -> eng_master_key p0 mdraw = Ok mk ->
  held_key P mk n history i ap uk ->
  version n history k p -> l <> [] ->
  length nonce = nonce_length S -> (forall m, meta = Some m -> metas m) ->
  encrypt_hybrid_header S F shake P p (pub_key mk) l meta random s nonce = Ok h ->
  (forall ct, eng_encrypt P p (pub_key mk) l random s = Ok ct -> fine (e_prime ct)) ->
  let T := fun b => In b l /\ ~ In (Rotate b) (between history i k) in
  (satisfied (firstn i history) T ap /\ decrypt_hybrid_header S F shake P uk (eh_bytes h) =
     Ok (mkClearHeader (eh_key h) match meta with Some m => m | None => mkMeta [] None end)) \/
  (~ satisfied (firstn i history) T ap /\ is_err (decrypt_hybrid_header S F shake P uk (eh_bytes h))).
Proof using BL HF SL.
  intros HP Hn Hprop Hm0 Hmk Hk V Hl Hno Hm He Hf T.
  destruct (header_opened B BL F fine HF shake S metas SL P n _ p (pub_key mk) l meta random s nonce h HP Hn (proj2 V)
    (pub_slots B BL _ _ _ _ Hm0 Hmk) Hl Hno Hm He Hf) as (ct & Ect & Ho). destruct (Ho uk) as [Ho1 Ho2].
  destruct (C122_history B BL P n history p0 mdraw mk i ap uk k p l random s ct Hprop Hmk Hk V Ect) as [[Hs Hd]|[Hs Hd]]; [left|right]; auto.
Qed.
End Headers.

(** ** Examples *)
Local Open Scope string_scope.
Local Ltac vmr x := vm_cast_no_check (eq_refl x).

Definition hist : list op := ops_a ++ ops_b.
Definition low_fin : access_policy := AAnd (AAttr (level "Protected")) (AAttr (dept "FIN")).
Definition low_hr : access_policy := AAnd (AAttr (level "Protected")) (AAttr (dept "HR")).

Lemma hist_proper : proper_axes hist.
Proof.
  intros x names h [E|[E|[E|[]]]]; inversion E; subst; repeat constructor; simpl; intuition discriminate.
Qed.
Lemma hist_two : version 10 hist 2 pol_a. Proof. split; [simpl; lia|reflexivity]. Qed.
Lemma hist_three : version 10 hist 3 pol_b. Proof. split; [simpl; lia|reflexivity]. Qed.

(** Protected is below Confidential *)
Lemma low_included ap : included (firstn 2 hist) (AAnd (AAttr (level "Protected")) ap) (AAnd (AAttr (level "Confidential")) ap).
Proof.
  apply in_and; [|apply in_refl]. apply in_some; [exact Logic.I|exact Logic.I| |right; split; [exact Logic.I|]].
  - intros x [<-|[]]. eexists _, _. split; [left; reflexivity|left; reflexivity].
  - intros b (a & [<-|[]] & names & h & Hin & _ & Hb). exists (level "Confidential"). split; [left; reflexivity|].
    destruct Hin as [E|[E|[]]]; inversion E; subst. eexists _, true. split; [left; reflexivity|]. split; [right; left; reflexivity|].
    destruct Hb as [->|(_ & E1 & l1 & l2 & El & Hn & Hi)].
    + right. split; [reflexivity|]. split; [reflexivity|]. exists ["Protected"], ["Top Secret"].
      split; [reflexivity|]. split; [simpl; intuition discriminate|left; reflexivity].
    + exfalso. destruct l1 as [|z l1]; [destruct Hi|]. simpl in El. assert (z = "Protected") by congruence. subst z. apply Hn. left; reflexivity.
Qed.

Definition hdel (p : policy) (uk : decryption_key toy) (ap : access_policy) : outcome (decryption_key toy) :=
  @eng_delegate toy pf it_rev p (del_key ex_mk) uk ap ex_draw.
Definition key_fin : decryption_key toy := run empty_key (hdel pol_b (ekey pol_a ex_ap) low_fin).
Definition key_old : decryption_key toy := run empty_key (hdel pol_a (ekey pol_b ex_ap) low_hr).

Lemma low_fin_included : included (firstn 2 hist) low_fin ex_ap.
Proof. eapply in_trans; [|apply low_included]. apply in_and; [apply in_refl|apply in_or_right]. Qed.
Lemma low_hr_included : included (firstn 2 hist) low_hr ex_ap.
Proof. eapply in_trans; [|apply low_included]. apply in_and; [apply in_refl|apply in_or_left]. Qed.

(** HR is rotated after the key was made: with the rotated policy the key can be
    delegated to Protected and FIN, not to Protected and HR *)
Example C122_example :
  held_key pf ex_mk 10 hist 2 low_fin key_fin /\
  hdel pol_b (ekey pol_a ex_ap) low_hr = Err (InternalOperation "new attribute is not allowed") /\
  is_ok (hdel pol_a (ekey pol_a ex_ap) low_hr) /\
  eng_decrypt (ect pol_b [dept "FIN"; level "Protected"]) key_fin = Ok (Some ex_msg) /\
  eng_decrypt (ect pol_b [dept "HR"; level "Protected"]) key_fin = Ok None.
Proof.
  destruct ex_engine_setup as (_ & Hk & _). split; [|split; [|split; [|split]]].
  - apply (hk_delegate pf ex_mk 10 hist it_rev 2 3 pol_b ex_ap low_fin (ekey pol_a ex_ap) ex_draw).
    + eapply hk_gen; [exact it_rev_ok|exact hist_two|exact Hk].
    + exact it_rev_ok.
    + exact hist_three.
    + discriminate.
    + exact low_fin_included.
    + vmr (@Ok (decryption_key toy) key_fin).
  - vmr (@Err (decryption_key toy) (InternalOperation "new attribute is not allowed")).
  - exists (run empty_key (hdel pol_a (ekey pol_a ex_ap) low_hr)). vmr (hdel pol_a (ekey pol_a ex_ap) low_hr).
  - vmr (@Ok (option (Gt toy)) (Some ex_msg)).
  - vmr (@Ok (option (Gt toy)) None).
Qed.

(** a key made after the rotation and delegated with the policy from before it
    decrypts what was encrypted before it only *)
Example C122_older_example :
  hdel pol_a (ekey pol_b ex_ap) low_hr = Ok key_old /\
  eng_decrypt (ect pol_a [dept "HR"; level "Protected"]) key_old = Ok (Some ex_msg) /\
  eng_decrypt (ect pol_b [dept "HR"; level "Protected"]) key_old = Ok None /\
  eng_decrypt (ect pol_b [dept "HR"; level "Protected"]) (ekey pol_b ex_ap) = Ok (Some ex_msg).
Proof.
  split; [vmr (@Ok (decryption_key toy) key_old)|]. split; [vmr (@Ok (option (Gt toy)) (Some ex_msg))|].
  split; [vmr (@Ok (option (Gt toy)) None)|vmr (@Ok (option (Gt toy)) (Some ex_msg))].
Qed.

(** a key for All can be delegated to a disjunction of attributes *)
Example C122_all_example :
  included (firstn 2 hist) (AOr (AAttr (dept "HR")) (AAttr (dept "FIN"))) AAll /\
  eng_decrypt (ect pol_a [dept "FIN"]) (run empty_key (hdel pol_a (ekey pol_a AAll) (AOr (AAttr (dept "HR")) (AAttr (dept "FIN"))))) = Ok (Some ex_msg).
Proof.
  split.
  - apply in_some; [split; exact Logic.I| | |left; reflexivity].
    + split; [exact Logic.I|]. split; [exact Logic.I|].
      intros x y c [<-|[]] [<-|[]] (n1 & h1 & I1 & _ & C1) (n2 & h2 & I2 & _ & C2).
      destruct I1 as [E1|[E1|[]]]; inversion E1; subst. destruct I2 as [E2|[E2|[]]]; inversion E2; subst.
      destruct C1 as [->|[X _]]; [|discriminate]. destruct C2 as [X|[X _]]; discriminate.
    + intros x [<-|[<-|[]]]; eexists _, _; (split; [right; left; reflexivity|simpl; tauto]).
  - vmr (@Ok (option (Gt toy)) (Some ex_msg)).
Qed.

Print Assumptions C122_history.
Print Assumptions C122_delegation.
Print Assumptions C122_delegation_error.
Print Assumptions C122_included_sound.
Print Assumptions C122_header.
