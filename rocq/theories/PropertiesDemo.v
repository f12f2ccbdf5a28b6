(** The quick start program: C124. *)
From Coq Require Import String NArith ZArith Bool Arith Lia Permutation List.
From Verif Require Import Prelude Field LinAlg Msp Spec MspProofs Minimal Bilinear Scheme SchemeSpec
  SchemeProofs SchemeTheorems Zp ExpModel PropertiesScheme Policy PolicySpec PolicyProofs Engine EngineSpec EngineProofs
  PropertiesEngine HistorySpec PropertiesHistory PropertiesWorking Demo.
Import ListNotations.

(** ** Deciding access on a given history *)
(** the part of an axis up to a name *)
Fixpoint up_to (y : string) (names : list string) : list string :=
  match names with [] => [] | x :: t => if String.eqb x y then [x] else x :: up_to y t end.

Lemma in_split_first (y : string) l : In y l -> exists l1 l2, l = l1 ++ y :: l2 /\ ~ In y l1.
Proof.
  induction l as [|z t IH]; intros H; [destruct H|]. destruct (string_dec z y) as [->|Hz]; [exists [], t; auto|].
  destruct H as [H|H]; [contradiction|]. destruct (IH H) as (l1 & l2 & -> & Hn). exists (z :: l1), l2. split; [reflexivity|].
  intros [X|X]; [exact (Hz X)|exact (Hn X)].
Qed.

Lemma up_to_spec y names : In y names -> forall x, In x (up_to y names) <-> x = y \/ before names x y.
Proof.
  induction names as [|z t IH]; intros Hy x; [destruct Hy|]. cbn [up_to]. destruct (String.eqb_spec z y) as [->|Hz].
  - split; [intros [<-|[]]; left; reflexivity|]. intros [->|(l1 & l2 & E & Hn & Hx)]; [left; reflexivity|].
    destruct l1 as [|u l1]; [destruct Hx|]. cbn [app] in E. injection E as E1 E2. subst u. exfalso. apply Hn. left; reflexivity.
  - destruct Hy as [Hy|Hy]; [contradiction|]. specialize (IH Hy). split.
    + intros [<-|Hx].
      * right. destruct (in_split_first y t Hy) as (l1 & l2 & -> & Hn). exists (z :: l1), l2. split; [reflexivity|]. split; [|left; reflexivity].
        intros [X|X]; [exact (Hz X)|exact (Hn X)].
      * apply IH in Hx as [->|(l1 & l2 & -> & Hn & Hx)]; [left; reflexivity|]. right. exists (z :: l1), l2. split; [reflexivity|]. split; [|right; exact Hx].
        intros [X|X]; [exact (Hz X)|exact (Hn X)].
    + intros [->|(l1 & l2 & E & Hn & Hx)]; [right; apply IH; left; reflexivity|]. destruct l1 as [|u l1]; [destruct Hx|].
      cbn [app] in E. injection E as E1 E2. subst u. destruct Hx as [->|Hx]; [left; reflexivity|]. right. apply IH. right.
      exists l1, l2. split; [exact E2|]. split; [|exact Hx]. intros X. apply Hn. right; exact X.
Qed.

(** the attributes that satisfy the requirement [a] *)
Definition covered (ops : list op) (a : attribute) : list attribute :=
  flat_map (fun o => match o with
    | AddAxis x names h => if String.eqb x (fst a) then if in_dec string_dec (snd a) names then
        if h then map (pair x) (up_to (snd a) names) else [a] else [] else []
    | Rotate _ => [] end) ops.

Lemma covered_spec ops a b : covers ops a b <-> In b (covered ops a).
Proof.
  unfold covered. rewrite in_flat_map. split.
  - intros (names & h & Hin & Hn & Hb). exists (AddAxis (fst a) names h). split; [exact Hin|]. rewrite String.eqb_refl.
    destruct (in_dec string_dec (snd a) names) as [_|X]; [|contradiction]. destruct Hb as [->|(-> & Hf & Hb)].
    + destruct h; [|left; reflexivity]. apply in_map_iff. exists (snd a). split; [symmetry; apply surjective_pairing|]. apply up_to_spec; auto.
    + apply in_map_iff. exists (snd b). split; [rewrite <- Hf; symmetry; apply surjective_pairing|]. apply up_to_spec; auto.
  - intros ([x names h|z] & Hin & Hb); [|destruct Hb]. destruct (String.eqb_spec x (fst a)) as [->|_]; [|destruct Hb].
    destruct (in_dec string_dec (snd a) names) as [Hn|_]; [|destruct Hb]. exists names, h. split; [exact Hin|]. split; [exact Hn|].
    destruct h.
    + apply in_map_iff in Hb as (y & <- & Hy). apply up_to_spec in Hy; [|exact Hn]. cbn [fst snd]. destruct Hy as [->|Hy]; [left; symmetry; apply surjective_pairing|].
      right. auto.
    + destruct Hb as [<-|[]]. left; reflexivity.
Qed.

Definition on (l : list attribute) (b : attribute) : bool := existsb (attribute_eqb b) l.
Lemma on_spec l b : on l b = true <-> In b l.
Proof.
  unfold on. rewrite existsb_exists. split; [intros (x & Hx & E); apply attribute_eqb_spec in E; subst x; exact Hx|].
  intros H. exists b. split; [exact H|]. apply attribute_eqb_spec. reflexivity.
Qed.

Lemma declared_spec ops b : declared ops b <-> on (covered ops b) b = true.
Proof.
  rewrite on_spec, <- covered_spec. split.
  - intros (names & h & H1 & H2). exists names, h. auto.
  - intros (names & h & H1 & H2 & _). exists names, h. auto.
Qed.

Lemma needed_spec ops ap b : needed ops ap b <-> on (flat_map (covered ops) (mentioned ap)) b = true.
Proof.
  rewrite on_spec, in_flat_map. unfold needed. split; intros (a & H1 & H2); exists a; (split; [exact H1|]); apply covered_spec; exact H2.
Qed.

Fixpoint grants (ops : list op) (l : list attribute) (ap : access_policy) : bool :=
  match ap with
  | AAttr a => existsb (on (covered ops a)) l
  | AAnd a b => grants ops l a && grants ops l b
  | AOr a b => grants ops l a || grants ops l b
  | AAll => existsb (fun b => on (covered ops b) b) l
  end.

Lemma grants_spec ops T l ap : (forall b, T b <-> In b l) -> (satisfied ops T ap <-> grants ops l ap = true).
Proof.
  intros HT. induction ap as [a|a IHa b IHb|a IHa b IHb|]; cbn [satisfied grants].
  - rewrite existsb_exists. split; intros (b & H1 & H2); exists b; (split; [apply HT; exact H1|]); [apply on_spec, covered_spec; exact H2|apply covered_spec, on_spec; exact H2].
  - rewrite andb_true_iff, IHa, IHb. reflexivity.
  - rewrite orb_true_iff, IHa, IHb. reflexivity.
  - rewrite existsb_exists. split; intros (b & H1 & H2); exists b; (split; [apply HT; exact H1|]); apply declared_spec; exact H2.
Qed.

(** the attributes that are still of the version of the key *)
Definition unrotated (ops : list op) (l : list attribute) : list attribute :=
  filter (fun b => negb (existsb (fun o => match o with Rotate a => attribute_eqb a b | AddAxis _ _ _ => false end) ops)) l.
Lemma unrotated_spec ops l b : In b l /\ ~ In (Rotate b) ops <-> In b (unrotated ops l).
Proof.
  unfold unrotated. rewrite filter_In, negb_true_iff. split; intros [H1 H2]; (split; [exact H1|]).
  - apply not_true_iff_false. intros X. apply H2. apply existsb_exists in X as ([x ns h|a] & Ho & X); [discriminate|].
    apply attribute_eqb_spec in X. subst a. exact Ho.
  - intros X. apply not_true_iff_false in H2. apply H2, existsb_exists. exists (Rotate b). split; [exact X|]. apply attribute_eqb_spec. reflexivity.
Qed.

Fixpoint apart (ops : list op) (ap : access_policy) : bool :=
  match ap with
  | AAttr _ | AAll => true
  | AAnd a b | AOr a b => apart ops a && apart ops b &&
      forallb (fun x => forallb (fun y => forallb (fun c => negb (on (covered ops y) c)) (covered ops x)) (mentioned b)) (mentioned a)
  end.
Lemma apart_spec ops ap : apart ops ap = true -> no_overlap ops ap.
Proof.
  induction ap as [a|a IHa b IHb|a IHa b IHb|]; cbn [apart no_overlap]; auto;
  rewrite !andb_true_iff; intros [[H1 H2] H3]; (split; [auto|]); (split; [auto|]); intros x y c Hx Hy C1 C2;
  rewrite forallb_forall in H3; specialize (H3 x Hx); rewrite forallb_forall in H3; specialize (H3 y Hy);
  rewrite forallb_forall in H3; specialize (H3 c (proj1 (covered_spec _ _ _) C1)); apply negb_true_iff, not_true_iff_false in H3;
  apply H3, on_spec, covered_spec, C2.
Qed.

Section Demo.
Variable B : BilinearMap.
Hypothesis BL : BilinearLaws B.
Local Notation K := (bm_K B).
Implicit Types P : platform.

Lemma version_same n H i p q : version n H i p -> version n H i q -> p = q.
Proof using Type. intros [_ E1] [_ E2]. congruence. Qed.

(** the values in the formula of a key *)
Lemma stands_values P mk n H i ap uk size (mdraw : nat -> K) p : proper_axes H -> generate_master_key size mdraw = Ok mk ->
  held_key P mk n H i ap uk -> version n H i p -> ap <> AAll ->
  exists f, derived B P mk f uk /\ forall v, In v (leaves f) <-> exists b, needed (firstn i H) ap b /\ value_of p b v.
Proof using BL.
  intros Hprop Hmk Hk V Hne. destruct (held_stands B BL P n H _ mdraw mk Hprop Hmk i ap uk Hk) as (r & it0 & f & g & V0 & Hit & Eg & [S1 S2] & _ & Hd).
  pose proof (version_same _ _ _ _ _ V V0). subst r. exists f. split; [exact Hd|]. intros v.
  rewrite key_formula_other in Eg by exact Hne.
  assert (X : In v (leaves f) <-> In v (leaves g)) by (split; apply restricts_leaves; assumption).
  rewrite X, (policy_to_formula_values it0 _ p ap g Hit (version_inv _ _ _ _ V) Eg v). unfold needed. split.
  - intros (a & b & H1 & H2 & H3). eauto.
  - intros (b & (a & H1 & H2) & H3). eauto.
Qed.

(** which kind of refusal a key gives: None if an attribute of the ciphertext, not
    rotated since, is of use to the access policy, otherwise an error *)
Theorem C124_refusals P n history p0 (mdraw : nat -> K) mk i ap uk k p l msg (s : K) ct :
  proper_axes history -> eng_master_key p0 mdraw = Ok mk ->
  held_key P mk n history i ap uk ->
  version n history k p -> eng_encrypt P p (pub_key mk) l msg s = Ok ct ->
  let T := fun b => In b l /\ ~ In (Rotate b) (between history i k) in
  ~ satisfied (firstn i history) T ap ->
  ((exists b, T b /\ needed (firstn i history) ap b) /\ eng_decrypt ct uk = Ok None) \/
  (~ (exists b, T b /\ needed (firstn i history) ap b) /\ eng_decrypt ct uk = Err (InternalOperation "empty input matrix")).
Proof using BL.
  intros Hprop Hmk Hk V' He T Hns.
  destruct (held_stands B BL P n history _ mdraw mk Hprop Hmk i ap uk Hk) as (q & it & f & g & V & Hit & Eg & [S1 S2] & _ & Hd).
  unfold eng_encrypt in He. apply bind_ok in He as (gam & Ev & He).
  pose proof (version_inv _ _ _ _ V) as I.
  assert (Hs : holds (attrs gam) f <-> satisfied (firstn i history) T ap).
  { rewrite <- (satisfied_ext _ (hits q (attrs gam)) T).
    - rewrite <- (key_formula_holds it _ q ap g (attrs gam) Hit I Eg). split; apply restricts_holds; assumption.
    - intros b D. apply (hits_version n history i k q p l gam b V V' Ev D). }
  assert (Hsh : shares_attr f gam <-> exists b, T b /\ needed (firstn i history) ap b).
  { destruct (eq_all ap) as [->|Hne].
    - split; [|intros (b & _ & a & [] & _)]. intros (v & Hv & Hf). exfalso. apply Hns, Hs.
      apply (restricts_holds _ _ _ S2). cbn [key_formula] in Eg. destruct (reduce_or _) as [z|] eqn:E; [|discriminate].
      assert (z = g) by congruence. subst z. eapply holds_mono; [|apply (pure_or_suffices g (reduce_pure _ _ E) v)].
      + intros a _ [<-|[]]. exact Hv.
      + apply (restricts_leaves _ _ S1), Hf.
    - rewrite key_formula_other in Eg by exact Hne.
      assert (X : forall v, In v (leaves f) <-> In v (leaves g)) by (intros v; split; apply restricts_leaves; assumption).
      unfold shares_attr. setoid_rewrite X. setoid_rewrite (policy_to_formula_values it _ q ap g Hit I Eg). split.
      + intros (v & Hv & a & b & Ha & Hc & (h & Eh & Hin)). exists b. split; [|exists a; auto].
        apply (hits_version n history i k q p l gam b V V' Ev); [eapply covers_declared; exact Hc|]. exists h, v. auto.
      + intros (b & Hb & a & Ha & Hc). apply (hits_version n history i k q p l gam b V V' Ev) in Hb; [|eapply covers_declared; exact Hc].
        destruct Hb as (h & v & Eh & Hin & Hv). exists v. split; [exact Hv|]. exists a, b. split; [exact Ha|]. split; [exact Hc|]. exists h. auto. }
  destruct (generate_master_key_inv B BL _ _ _ Hmk) as (t & y & -> & _ & Hnz). unfold eng_decrypt.
  destruct (derived_decrypt B BL P t y f uk msg gam s ct Hnz Hd He) as [[H1 _]|[(_ & H1 & H2)|(_ & H1 & H2)]].
  - exfalso. apply Hns, Hs, H1.
  - left. split; [apply Hsh, H1|exact H2].
  - right. split; [rewrite <- Hsh; exact H1|exact H2].
Qed.

(** a key cannot be delegated to an access policy that needs an attribute its own
    one has no use for *)
Theorem C124_beyond P n history p0 (mdraw : nat -> K) mk i ap uk it p ap' (draw : nat -> K) b :
  proper_axes history -> eng_master_key p0 mdraw = Ok mk -> (last_attribute_value p < max_attribute_creations p0)%N ->
  held_key P mk n history i ap uk -> ap <> AAll ->
  iteration_ok it -> version n history i p -> ap' <> AAll ->
  needed (firstn i history) ap' b -> ~ needed (firstn i history) ap b ->
  is_err (eng_delegate P it p (del_key mk) uk ap' draw).
Proof using BL.
  intros Hprop Hmk Hlast Hk Hne Hit V Hne' Hb Hnb. pose proof (version_inv _ _ _ _ V) as I.
  destruct (stands_values P mk n history i ap uk _ mdraw p Hprop Hmk Hk V Hne) as (f & Hd & Hv).
  rewrite eng_delegate_steps by exact Hne'.
  pose proof (policy_to_formula_no_panic it _ p ap' Hit I) as Hnp. apply no_panic_cases in Hnp as [[f' Ef']|[e E]].
  2:{ rewrite E. exists e. reflexivity. }
  rewrite Ef'. cbn [bind]. destruct (ListDec.NoDup_dec N.eq_dec (leaves f')) as [Hnd|Hnd].
  2:{ rewrite to_msp_dup by exact Hnd. eexists. reflexivity. }
  destruct (to_msp_ok P f' Hnd) as (rows & _ & Em). rewrite Em. cbn [bind].
  pose proof (policy_to_formula_values it _ p ap' f' Hit I Ef') as Hv'.
  destruct Hb as (a & Ha & Hc). pose proof (covers_declared _ _ _ Hc) as D.
  apply (i_decl _ _ I) in D as (h & Eh). destruct (i_heap _ _ I b h Eh) as (Hh & _ & _).
  destruct h as [|v h]; [contradiction|].
  assert (Hin : In v (leaves f')) by (apply Hv'; exists a, b; split; [exact Ha|]; split; [exact Hc|]; exists (v :: h); split; [exact Eh|left; reflexivity]).
  assert (Hout : ~ In v (leaves f)).
  { intros X. apply Hv in X as (b' & Hn' & h' & Eh' & Hin'). assert (b' = b) by (apply (i_dist _ _ I b' b h' (v :: h) v Eh' Eh Hin'); left; reflexivity).
    subst b'. contradiction. }
  eexists. eapply (proj2 (C13_no_new_attribute B BL P _ mdraw mk f uk f' _ draw v Hmk (derived_obtained B P mk f uk Hd) Em Hin Hout)).
  intros w Hw. apply Hv' in Hw as (a1 & b1 & _ & _ & h1 & Eh1 & Hin1). destruct (i_heap _ _ I b1 h1 Eh1) as (_ & _ & Hr). specialize (Hr w Hin1). lia.
Qed.

(** the values in the formula of a key for All *)
Lemma stands_all P mk n H i uk size (mdraw : nat -> K) p : proper_axes H -> generate_master_key size mdraw = Ok mk ->
  held_key P mk n H i AAll uk -> version n H i p ->
  exists f, derived B P mk f uk /\ forall v, In v (leaves f) <-> exists b, value_of p b v.
Proof using BL.
  intros Hprop Hmk Hk V. destruct (held_stands B BL P n H _ mdraw mk Hprop Hmk i AAll uk Hk) as (r & it0 & f & g & V0 & Hit & Eg & [S1 S2] & _ & Hd).
  pose proof (version_same _ _ _ _ _ V V0). subst r. exists f. split; [exact Hd|]. intros v.
  assert (X : In v (leaves f) <-> In v (leaves g)) by (split; apply restricts_leaves; assumption). rewrite X.
  destruct (key_formula_all it0 _ p Hit (version_inv _ _ _ _ V)) as [H1 H2].
  assert (D : exists b, declared (firstn i H) b).
  { cbn [key_formula] in Eg. destruct (reduce_or _) as [z|] eqn:E; [|discriminate]. assert (z = g) by congruence. subst z.
    pose proof (reduce_pure _ _ E) as Hp. assert (Hl : exists w, In w (leaves g)).
    { clear. induction g as [a [w Hw] b _|a [w Hw] b _|a]; cbn [leaves]; [exists w; apply in_or_app; auto|exists w; apply in_or_app; auto|exists a; left; reflexivity]. }
    destruct Hl as [w Hw]. assert (Hg : holds (attrs [w]) g) by (apply pure_or_suffices; assumption).
    assert (Eg' : key_formula it0 p AAll = Ok g) by (cbn [key_formula]; rewrite E; exact Eg).
    apply (key_formula_holds it0 _ p AAll g _ Hit (version_inv _ _ _ _ V) Eg') in Hg. destruct Hg as (b & _ & Db). eauto. }
  destruct (H1 D) as (g' & Eg' & _ & Hv). assert (g' = g) by congruence. subst g'. apply Hv.
Qed.

(** which delegations succeed: those to access policies that have keys in the
    version of the policy used, and need no attribute that the source key has no
    use for, or that was rotated since the version of the source key. The way the
    attributes are combined is not checked. *)
Theorem C124_delegable P n history p0 (mdraw : nat -> K) mk i ap uk it j p ap' (draw : nat -> K) :
  proper_axes history -> eng_master_key p0 mdraw = Ok mk ->
  held_key P mk n history i ap uk -> iteration_ok it -> version n history j p -> ap' <> AAll ->
  (is_ok (eng_delegate P it p (del_key mk) uk ap' draw) <->
   (forall a, In a (mentioned ap') -> declared (firstn j history) a) /\ ~ all_inside ap' /\ no_overlap (firstn j history) ap' /\
   (forall b, needed (firstn j history) ap' b ->
     (needed (firstn i history) ap b \/ ap = AAll /\ declared (firstn i history) b) /\ ~ In (Rotate b) (between history i j))).
Proof using BL.
  intros Hprop Hmk Hk Hit V Hne. pose proof (version_inv _ _ _ _ V) as I.
  assert (F : exists r f, version n history i r /\ derived B P mk f uk /\
    forall v, In v (leaves f) <-> exists b, (needed (firstn i history) ap b \/ ap = AAll /\ declared (firstn i history) b) /\ value_of r b v).
  { destruct (held_stands B BL P n history _ mdraw mk Hprop Hmk i ap uk Hk) as (r & _ & _ & _ & V0 & _). exists r.
    destruct (eq_all ap) as [->|Ha].
    - destruct (stands_all P mk n history i uk _ mdraw r Hprop Hmk Hk V0) as (f & Hd & Hv). exists f. split; [exact V0|]. split; [exact Hd|].
      intros v. rewrite Hv. split; [|intros (b & _ & Hb); eauto]. intros (b & Hb). exists b. split; [|exact Hb]. right. split; [reflexivity|].
      apply (i_decl _ _ (version_inv _ _ _ _ V0)). destruct Hb as (h & Eh & _). eauto.
    - destruct (stands_values P mk n history i ap uk _ mdraw r Hprop Hmk Hk V0 Ha) as (f & Hd & Hv). exists f. split; [exact V0|]. split; [exact Hd|].
      intros v. rewrite Hv. split; [intros (b & H1 & H2); eauto|]. intros (b & [H1|[H1 _]] & H2); [eauto|contradiction]. }
  destruct F as (r & f & V0 & Hd & Hv). pose proof (version_inv _ _ _ _ V0) as I0.
  assert (Hf : forall f', policy_to_formula it p ap' = Ok f' -> (incl (leaves f') (leaves f) <-> forall b, needed (firstn j history) ap' b ->
     (needed (firstn i history) ap b \/ ap = AAll /\ declared (firstn i history) b) /\ ~ In (Rotate b) (between history i j))).
  { intros f' Ef'. pose proof (policy_to_formula_values it _ p ap' f' Hit I Ef') as Hv'.
    assert (Dec : forall b, needed (firstn i history) ap b \/ ap = AAll /\ declared (firstn i history) b -> declared (firstn i history) b)
      by (intros b [(a & _ & Hc)|[_ D]]; [eapply covers_declared; exact Hc|exact D]).
    split.
    - intros Hi b (a & Hm & Hc). pose proof (covers_declared _ _ _ Hc) as D.
      apply (i_decl _ _ I) in D as (h & Eh). destruct (i_heap _ _ I b h Eh) as (Hh & _ & _).
      assert (Each : forall v, In v h -> exists b', (needed (firstn i history) ap b' \/ ap = AAll /\ declared (firstn i history) b') /\ value_of r b' v /\ b' = b).
      { intros v Hin. assert (Hl : In v (leaves f')) by (apply Hv'; exists a, b; split; [exact Hm|]; split; [exact Hc|]; exists h; auto).
        apply Hi, Hv in Hl as (b' & Hn' & Hb'). exists b'. split; [exact Hn'|]. split; [exact Hb'|].
        destruct (Nat.le_ge_cases i j) as [L|L].
        - destruct (value_later n history i j r p b' v L V0 V Hb') as (h' & Eh' & Hin'). exact (i_dist _ _ I b' b h' h v Eh' Eh Hin' Hin).
        - assert (Hb2 : value_of r b v) by (apply (value_later n history j i p r b v L V V0); exists h; auto).
          destruct Hb' as (h1 & E1 & H1). destruct Hb2 as (h2 & E2 & H2). exact (i_dist _ _ I0 b' b h1 h2 v E1 E2 H1 H2). }
      destruct h as [|v0 h0] eqn:Eqh; [contradiction|]. rewrite <- Eqh in *.
      destruct (Each v0) as (b' & Hn' & Hb' & ->); [rewrite Eqh; left; reflexivity|]. split; [exact Hn'|]. intros Hr.
      destruct (Nat.le_ge_cases i j) as [L|L]; [|rewrite between_nil in Hr by exact L; destruct Hr].
      destruct (value_rotated n history i j r p b L V0 V (Dec b Hn') Hr) as (v & (h2 & Eh2 & Hin2) & Hno).
      assert (h2 = h) by congruence. subst h2. destruct (Each v Hin2) as (b2 & _ & Hb2 & _). exact (Hno b2 Hb2).
    - intros Hn v Hin. apply Hv' in Hin as (a & b & Hm & Hc & Hb). destruct (Hn b (ex_intro _ a (conj Hm Hc))) as [Hn1 Hn2].
      apply Hv. exists b. split; [exact Hn1|]. destruct (Nat.le_ge_cases i j) as [L|L].
      + exact (value_unrotated n history i j r p b v L V0 V (Dec b Hn1) Hn2 Hb).
      + exact (value_later n history j i p r b v L V V0 Hb). }
  destruct (generate_master_key_inv B BL _ _ _ Hmk) as (t & y & E & _ & Hnz). pose proof (derived_obtained B P _ f uk Hd) as Ho.
  pose proof (C62_key_exists_iff P n (firstn j history) p ap' it (proj2 V) (proper_firstn history j Hprop) Hit Hne) as [HC _].
  rewrite policy_to_msp_formula, key_formula_other in HC by exact Hne.
  rewrite eng_delegate_steps by exact Hne. split.
  - intros (uk' & Eu). apply bind_ok in Eu as (f' & Ef' & Eu). apply bind_ok in Eu as (m & Em & Eu).
    assert (X : is_ok (let* f := policy_to_formula it p ap' in to_msp P f)) by (rewrite Ef'; cbn [bind]; exists m; exact Em).
    apply HC in X as (X1 & X2 & X3). split; [exact X1|]. split; [exact X2|]. split; [exact X3|].
    apply (Hf f' Ef'). intros v Hl. destruct (in_dec N.eq_dec v (leaves f)) as [Y|Y]; [exact Y|]. exfalso. rewrite E in *.
    exact (delegate_new_never_ok B BL P t y f uk f' m draw uk' v Hnz Ho Em Hl Y Eu).
  - intros (X1 & X2 & X3 & X4). destruct (proj2 HC (conj X1 (conj X2 X3))) as (m & Em). apply bind_ok in Em as (f' & Ef' & Em).
    rewrite Ef'. cbn [bind]. rewrite Em. cbn [bind]. rewrite E in *.
    destruct (delegate_total B BL P t y f uk f' m draw Hnz Ho Em (proj2 (Hf f' Ef') X4)) as (uk' & Hu). exists uk'. exact Hu.
Qed.
End Demo.

(** ** The program *)
Local Open Scope string_scope.
Definition demo_ops : list op :=
  [AddAxis "Security Level" demo_levels true; AddAxis "Department" demo_departments false; Rotate (lev "Low Secret")].
Definition demo_p2 : policy :=
  Eval vm_compute in match run_ops (firstn 2 demo_ops) (new_policy 100) with Ok p => p | _ => new_policy 0 end.
Definition demo_p3 : policy :=
  Eval vm_compute in match run_ops demo_ops (new_policy 100) with Ok p => p | _ => new_policy 0 end.
Lemma demo_two : version 100 demo_ops 2 demo_p2. Proof. split; [simpl; lia|vm_compute; reflexivity]. Qed.
Lemma demo_three : version 100 demo_ops 3 demo_p3. Proof. split; [simpl; lia|vm_compute; reflexivity]. Qed.
Lemma demo_proper : proper_axes demo_ops.
Proof.
  intros x names h [E|[E|[E|[]]]]; try discriminate; injection E as _ <- _; unfold demo_levels, demo_departments;
  repeat constructor; simpl; intuition discriminate.
Qed.

Section Program.
Variable B : BilinearMap.
Hypothesis BL : BilinearLaws B.
Local Notation K := (bm_K B).
Variables (P : platform) (mdraw : nat -> K) (mk : master_key B).
Hypothesis Hmk : eng_master_key demo_p2 mdraw = Ok mk.
Hypothesis Hd : forall i, (i < 100)%nat -> mdraw i <> f0.

Definition demo_version (i : nat) (q : policy) : Prop :=
  version 100 demo_ops i q /\ (last_attribute_value q < 100)%N /\ max_attribute_creations q = 100%N.
Lemma dv2 : demo_version 2 demo_p2. Proof. split; [exact demo_two|split; reflexivity]. Qed.
Lemma dv3 : demo_version 3 demo_p3. Proof. split; [exact demo_three|split; reflexivity]. Qed.

Lemma demo_pipeline i q it ap kdraw l msg (s : K) : demo_version i q -> iteration_ok it ->
  forallb (fun a => on (covered (firstn i demo_ops) a) a) (mentioned ap) = true -> ~ all_inside ap -> apart (firstn i demo_ops) ap = true ->
  forallb (fun a => on (covered (firstn i demo_ops) a) a) l = true -> l <> [] -> (N.of_nat (length l) < 100)%N ->
  exists uk ct, eng_user_key P it q (priv_key mk) ap kdraw = Ok uk /\ eng_encrypt P q (pub_key mk) l msg s = Ok ct.
Proof using BL Hmk Hd.
  intros (V & Hl & Hm) Hit H1 H2 H3 H4 H5 H6. rewrite forallb_forall in H1, H4.
  destruct (C05_pipeline B BL P 100 (firstn i demo_ops) q mdraw kdraw it ap l msg s) as (mk' & uk & ct & E1 & E2 & E3); auto.
  - exact (proj2 V).
  - apply proper_firstn, demo_proper.
  - intros a Ha. apply declared_spec, H1, Ha.
  - apply apart_spec, H3.
  - intros _. destruct l as [|b l]; [contradiction|]. exists b. apply declared_spec, H4. left; reflexivity.
  - intros b Hb. apply declared_spec, H4, Hb.
  - assert (mk' = mk) as ->; [|eauto]. unfold eng_master_key in E1, Hmk. rewrite Hm in E1. cbn [demo_p2 max_attribute_creations] in Hmk. congruence.
Qed.

Lemma demo_key i q it ap kdraw : demo_version i q -> iteration_ok it ->
  forallb (fun a => on (covered (firstn i demo_ops) a) a) (mentioned ap) = true -> ~ all_inside ap -> apart (firstn i demo_ops) ap = true ->
  on (covered (firstn i demo_ops) (dep "HR")) (dep "HR") = true ->
  exists uk, eng_user_key P it q (priv_key mk) ap kdraw = Ok uk /\ held_key P mk 100 demo_ops i ap uk.
Proof using BL Hmk Hd.
  intros V Hit H1 H2 H3 H4.
  destruct (demo_pipeline i q it ap kdraw [dep "HR"] (gt_gen_exp B f0) f0 V Hit H1 H2 H3) as (uk & _ & E & _); [cbn [forallb]; rewrite H4; reflexivity|discriminate|reflexivity|].
  exists uk. split; [exact E|]. exact (hk_gen P mk 100 demo_ops it i q ap kdraw uk Hit (proj1 V) E).
Qed.

Lemma demo_encrypt i q l msg (s : K) : demo_version i q ->
  forallb (fun a => on (covered (firstn i demo_ops) a) a) l = true -> l <> [] -> (N.of_nat (length l) < 100)%N ->
  exists ct, eng_encrypt P q (pub_key mk) l msg s = Ok ct.
Proof using BL Hmk Hd.
  intros V H1 H2 H3.
  destruct (demo_pipeline i q it_rev AAll (fun _ => f0) l msg s V it_rev_ok) as (_ & ct & _ & E); eauto.
Qed.

Lemma demo_some i ap uk k q l msg (s : K) ct : held_key P mk 100 demo_ops i ap uk -> demo_version k q ->
  eng_encrypt P q (pub_key mk) l msg s = Ok ct ->
  grants (firstn i demo_ops) (unrotated (between demo_ops i k) l) ap = true -> eng_decrypt ct uk = Ok (Some msg).
Proof using BL Hmk.
  intros Hk V He Hg. destruct (C122_history B BL P 100 demo_ops _ mdraw mk i ap uk k q l msg s ct demo_proper Hmk Hk (proj1 V) He) as [[_ H]|[H _]]; [exact H|].
  exfalso. apply H. apply (grants_spec _ _ (unrotated (between demo_ops i k) l)); [|exact Hg]. intros b. apply unrotated_spec.
Qed.

Lemma demo_none i ap uk k q l msg (s : K) ct : held_key P mk 100 demo_ops i ap uk -> demo_version k q ->
  eng_encrypt P q (pub_key mk) l msg s = Ok ct ->
  grants (firstn i demo_ops) (unrotated (between demo_ops i k) l) ap = false ->
  existsb (on (flat_map (covered (firstn i demo_ops)) (mentioned ap))) (unrotated (between demo_ops i k) l) = true ->
  eng_decrypt ct uk = Ok None.
Proof using BL Hmk.
  intros Hk V He Hg Hx. destruct (C124_refusals B BL P 100 demo_ops _ mdraw mk i ap uk k q l msg s ct demo_proper Hmk Hk (proj1 V) He) as [[_ H]|[H _]].
  - intros X. apply (grants_spec _ _ (unrotated (between demo_ops i k) l)) in X; [rewrite Hg in X; discriminate|]. intros b. apply unrotated_spec.
  - exact H.
  - exfalso. apply H. apply existsb_exists in Hx as (b & Hb & Ho). exists b. split; [apply unrotated_spec, Hb|apply needed_spec, Ho].
Qed.

Lemma medium_included i : i = 2%nat \/ i = 3%nat -> included (firstn i demo_ops) medium_mkg high_mkg_fin.
Proof using Type.
  intros Hi. apply in_and; [|apply in_or_left]. apply in_some; [exact Logic.I|exact Logic.I| |right; split; [exact Logic.I|]].
  - intros x [<-|[]]. apply declared_spec. destruct Hi as [-> | ->]; vm_compute; reflexivity.
  - intros b Hb. apply needed_spec in Hb. apply needed_spec. apply on_spec. apply on_spec in Hb.
    destruct Hi as [-> | ->]; vm_compute in Hb |- *; intuition.
Qed.

Lemma demo_delegate i q it uk ddraw : i = 2%nat \/ i = 3%nat -> demo_version i q -> iteration_ok it -> held_key P mk 100 demo_ops i high_mkg_fin uk ->
  exists uk', eng_delegate P it q (del_key mk) uk medium_mkg ddraw = Ok uk' /\ held_key P mk 100 demo_ops i medium_mkg uk'.
Proof using BL Hmk.
  intros Hi V Hit Hk.
  assert (X : is_ok (eng_delegate P it q (del_key mk) uk medium_mkg ddraw)).
  { apply (C122_delegation B BL P 100 demo_ops _ mdraw mk i high_mkg_fin uk it i q medium_mkg ddraw demo_proper Hmk Hk Hit (proj1 V)); [discriminate|apply medium_included, Hi|].
    split.
    - intros a Ha. apply declared_spec. destruct Hi as [-> | ->]; destruct Ha as [<-|[<-|[]]]; vm_compute; reflexivity.
    - intros b _. rewrite between_nil by lia. intros []. }
  destruct X as (uk' & E). exists uk'. split; [exact E|]. rewrite <- (Nat.min_id i).
  apply (hk_delegate P mk 100 demo_ops it i i q high_mkg_fin medium_mkg uk ddraw uk' Hk Hit (proj1 V)); [discriminate|apply medium_included, Hi|exact E].
Qed.

Lemma demo_beyond it uk ap ddraw b : iteration_ok it -> held_key P mk 100 demo_ops 2 high_mkg_fin uk -> ap <> AAll ->
  on (flat_map (covered (firstn 2 demo_ops)) (mentioned ap)) b = true ->
  on (flat_map (covered (firstn 2 demo_ops)) (mentioned high_mkg_fin)) b = false ->
  exists e, eng_delegate P it demo_p2 (del_key mk) uk ap ddraw = Err e.
Proof using BL Hmk.
  intros Hit Hk Hne H1 H2.
  apply (C124_beyond B BL P 100 demo_ops demo_p2 mdraw mk 2 high_mkg_fin uk it demo_p2 ap ddraw b demo_proper Hmk); auto.
  - reflexivity.
  - discriminate.
  - exact demo_two.
  - apply needed_spec, H1.
  - intros X. apply needed_spec in X. rewrite H2 in X. discriminate.
Qed.
End Program.

Section Run.
Variable B : BilinearMap.
Hypothesis BL : BilinearLaws B.
Local Notation K := (bm_K B).
Variables (P : platform) (it : nat -> iteration) (mdraw : nat -> K) (draw : nat -> nat -> K) (msg : nat -> Gt B) (s : nat -> K).
Hypothesis Hit : forall i, iteration_ok (it i).

Local Ltac vm := lazymatch goal with |- ex _ => fail | _ => idtac end; vm_compute; reflexivity.

Lemma demo_runs : (forall i, (i < 100)%nat -> mdraw i <> f0) ->
  exists r super, demo B P it mdraw draw msg s = Ok r /\ Forall (fun c => fst c = snd c) (compared r) /\
    demo_policy r = demo_p2 /\ eng_master_key demo_p2 mdraw = Ok (demo_master r) /\
    held_key P (demo_master r) 100 demo_ops 2 AAll super /\
    eng_delegate P (it 3%nat) demo_p2 (del_key (demo_master r)) super medium_mkg (draw 3%nat) = Ok (unused_user r).
Proof using BL Hit.
  intros Hd. unfold demo.
  destruct demo_two as [_ E2]. cbn [run_ops demo_ops firstn apply_op] in E2. apply bind_ok in E2 as (p1 & Ep1 & E2). rewrite Ep1. cbn [bind].
  apply bind_ok in E2 as (p2 & Ep2 & E2). rewrite Ep2. cbn [bind]. assert (p2 = demo_p2) as -> by congruence. clear E2 Ep1 Ep2 p1.
  assert (Hm : exists mk, eng_master_key demo_p2 mdraw = Ok mk) by (eexists; apply (generate_master_key_ok B BL 100 mdraw Hd)).
  destruct Hm as (mk & Hmk). rewrite Hmk. cbn [bind].
  destruct (demo_key B BL P mdraw mk Hmk Hd 2 demo_p2 (it 0%nat) high_mkg_fin (draw 0%nat) dv2 (Hit _)) as (high & E & Hhigh); [vm|cbn; intuition discriminate|vm|vm|]. rewrite E; clear E. cbn [bind].
  destruct (demo_key B BL P mdraw mk Hmk Hd 2 demo_p2 (it 1%nat) top_mkg_fin (draw 1%nat) dv2 (Hit _)) as (top & E & Htop); [vm|cbn; intuition discriminate|vm|vm|]. rewrite E; clear E. cbn [bind].
  destruct (demo_key B BL P mdraw mk Hmk Hd 2 demo_p2 (it 2%nat) AAll (draw 2%nat) dv2 (Hit _)) as (super & E & Hsuper); [vm|cbn; intuition discriminate|vm|vm|]. rewrite E; clear E. cbn [bind].
  assert (X : is_ok (eng_delegate P (it 3%nat) demo_p2 (del_key mk) super medium_mkg (draw 3%nat))).
  { apply (C124_delegable B BL P 100 demo_ops demo_p2 mdraw mk 2 AAll super (it 3%nat) 2 demo_p2 medium_mkg (draw 3%nat) demo_proper Hmk Hsuper (Hit _) demo_two); [discriminate|].
    split; [|split; [cbn; intuition discriminate|split; [apply apart_spec; vm|]]].
    - intros a [<-|[<-|[]]]; apply declared_spec; vm.
    - intros b (a & _ & Hc). split; [right; split; [reflexivity|eapply covers_declared; exact Hc]|]. rewrite between_nil by lia. intros []. }
  destruct X as (unused & Eun). rewrite Eun. cbn [bind].
  destruct (demo_delegate B BL P mdraw mk Hmk 2 demo_p2 (it 4%nat) high (draw 4%nat) (or_introl eq_refl) dv2 (Hit _) Hhigh) as (medium & E & Hmedium). rewrite E; clear E. cbn [bind].
  destruct (demo_beyond B BL P mdraw mk Hmk (it 5%nat) high top_mkg (draw 5%nat) (lev "Top Secret") (Hit _) Hhigh) as (e1 & E); [discriminate|vm|vm|]. rewrite E; clear E. cbn [bind assert_err].
  destruct (demo_beyond B BL P mdraw mk Hmk (it 6%nat) high medium_hr (draw 6%nat) (dep "HR") (Hit _) Hhigh) as (e2 & E); [discriminate|vm|vm|]. rewrite E; clear E. cbn [bind assert_err].
  assert (X : exists su, eng_delegate P (it 7%nat) demo_p2 (del_key mk) super AAll (draw 7%nat) = Ok su).
  { destruct (stands_all B BL P mk 100 demo_ops 2 super _ mdraw demo_p2 demo_proper Hmk Hsuper demo_two) as (f & Hf & _).
    pose proof (derived_obtained B P mk f super Hf) as Ho. destruct (generate_master_key_inv B BL _ _ _ Hmk) as (t & y & Et & _ & Hnz). rewrite Et in *.
    exact (randomise_total B BL P t y f super (draw 7%nat) Hnz Ho). }
  destruct X as (su & E). pose proof (hk_refresh P mk 100 demo_ops (it 7%nat) 2 AAll super demo_p2 (draw 7%nat) su Hsuper E) as Hsu. rewrite E; clear E. cbn [bind].
  destruct (demo_encrypt B BL P mdraw mk Hmk Hd 2 demo_p2 [lev "Low Secret"; dep "MKG"] (msg 0%nat) (s 0%nat) dv2) as (ct0 & E0); [vm|discriminate|vm|]. rewrite E0. cbn [bind].
  rewrite (demo_some B BL P mdraw mk Hmk 2 medium_mkg medium 2 demo_p2 _ _ _ ct0 Hmedium dv2 E0) by vm. cbn [bind expect].
  rewrite (demo_some B BL P mdraw mk Hmk 2 AAll su 2 demo_p2 _ _ _ ct0 Hsu dv2 E0) by vm. cbn [bind expect].
  destruct (demo_encrypt B BL P mdraw mk Hmk Hd 2 demo_p2 [lev "Top Secret"; dep "MKG"] (msg 1%nat) (s 1%nat) dv2) as (ct1 & E1); [vm|discriminate|vm|]. rewrite E1. cbn [bind].
  rewrite (demo_none B BL P mdraw mk Hmk 2 medium_mkg medium 2 demo_p2 _ _ _ ct1 Hmedium dv2 E1) by vm. cbn [bind assert_none].
  rewrite (demo_some B BL P mdraw mk Hmk 2 AAll su 2 demo_p2 _ _ _ ct1 Hsu dv2 E1) by vm. cbn [bind expect].
  destruct (demo_encrypt B BL P mdraw mk Hmk Hd 2 demo_p2 [lev "Low Secret"; dep "HR"] (msg 2%nat) (s 2%nat) dv2) as (ct2 & E2); [vm|discriminate|vm|]. rewrite E2. cbn [bind].
  rewrite (demo_none B BL P mdraw mk Hmk 2 medium_mkg medium 2 demo_p2 _ _ _ ct2 Hmedium dv2 E2) by vm. cbn [bind assert_none].
  rewrite (demo_some B BL P mdraw mk Hmk 2 AAll su 2 demo_p2 _ _ _ ct2 Hsu dv2 E2) by vm. cbn [bind expect].
  assert (Er : rotate demo_p2 (lev "Low Secret") = Ok demo_p3) by vm. rewrite Er. cbn [bind].
  destruct (demo_encrypt B BL P mdraw mk Hmk Hd 3 demo_p3 [lev "Low Secret"; dep "MKG"] (msg 3%nat) (s 3%nat) dv3) as (ct3 & E3); [vm|discriminate|vm|]. rewrite E3. cbn [bind].
  rewrite (demo_none B BL P mdraw mk Hmk 2 medium_mkg medium 3 demo_p3 _ _ _ ct3 Hmedium dv3 E3) by vm. cbn [bind assert_none].
  rewrite (demo_some B BL P mdraw mk Hmk 2 AAll su 3 demo_p3 _ _ _ ct3 Hsu dv3 E3) by vm. cbn [bind expect].
  destruct (demo_key B BL P mdraw mk Hmk Hd 3 demo_p3 (it 8%nat) high_mkg_fin (draw 8%nat) dv3 (Hit _)) as (high' & E & Hhigh'); [vm|cbn; intuition discriminate|vm|vm|]. rewrite E; clear E. cbn [bind].
  destruct (demo_delegate B BL P mdraw mk Hmk 3 demo_p3 (it 9%nat) high' (draw 9%nat) (or_intror eq_refl) dv3 (Hit _) Hhigh') as (medium' & E & Hmedium'). rewrite E; clear E. cbn [bind].
  rewrite (demo_some B BL P mdraw mk Hmk 3 medium_mkg medium' 3 demo_p3 _ _ _ ct3 Hmedium' dv3 E3) by vm. cbn [bind expect].
  rewrite (demo_some B BL P mdraw mk Hmk 3 medium_mkg medium' 2 demo_p2 _ _ _ ct0 Hmedium' dv2 E0) by vm. cbn [bind expect].
  eexists. exists super. split; [reflexivity|]. cbn [compared demo_policy demo_master unused_user].
  split; [repeat constructor|]. auto.
Qed.

(** with every random choice and every order of iteration the program ends without
    an error or a panic and all the values it compares are equal *)
Theorem C124_demo : (forall i, (i < 100)%nat -> mdraw i <> f0) ->
  exists r, demo B P it mdraw draw msg s = Ok r /\ Forall (fun c => fst c = snd c) (compared r).
Proof using BL Hit.
  intros Hd. destruct (demo_runs Hd) as (r & super & E & F & _). eauto.
Qed.

(** the key that it makes from the one for All, and does not use, never gives the
    message of a ciphertext *)
Theorem C124_unused_key r l (m : Gt B) (s0 : K) ct :
  (forall i, (i < 100)%nat -> mdraw i <> f0) -> nonzero_up_to B 100 ->
  demo B P it mdraw draw msg s = Ok r -> priv_y (priv_key (demo_master r)) <> f0 -> s0 <> f0 ->
  eng_encrypt P (demo_policy r) (pub_key (demo_master r)) l m s0 = Ok ct ->
  eng_decrypt ct (unused_user r) <> Ok (Some m).
Proof using BL Hit.
  intros Hd Hz E Hy Hs He. destruct (demo_runs Hd) as (r' & super & E' & _ & Hp & Hmk & Hk & Hu).
  assert (r' = r) by congruence. subst r'. rewrite Hp in He.
  destruct (C123_key_for_all B BL P 100 demo_ops demo_p2 mdraw (demo_master r) 2 super (it 3%nat) 2 demo_p2 medium_mkg (draw 3%nat) (unused_user r)
    2 demo_p2 l m s0 ct demo_proper Hmk Hy Hs Hz Hk (Hit _) demo_two) as [(_ & x & Ex & Hx)|(_ & Hn)]; auto.
  - discriminate.
  - intros b [(x & -> & C1) (z & <- & C2)]. apply covered_spec in C1, C2. vm_compute in C1, C2. intuition congruence.
  - exact demo_two.
  - rewrite Ex. intros X. apply Hx. congruence.
Qed.
End Run.

(** ** Examples *)
Local Ltac vmr x := vm_cast_no_check (eq_refl x).

Definition demo_mdraw (i : nat) : bm_K toy := f101 (1 + Z.of_nat i mod 100).
Definition demo_kdraw (j i : nat) : bm_K toy := f101 (3 + 5 * Z.of_nat j + 11 * Z.of_nat i).
Definition demo_msg (i : nat) : Gt toy := f101 (40 + Z.of_nat i).
Definition demo_scalar (i : nat) : bm_K toy := f101 (9 + 2 * Z.of_nat i).
Definition demo_run : outcome (demo_result toy) := demo toy pf (fun _ => it_rev) demo_mdraw demo_kdraw demo_msg demo_scalar.

Lemma demo_draws i : (i < 100)%nat -> demo_mdraw i <> f0.
Proof.
  intros Hi E. assert (X : forallb (fun i => negb (Z.eqb (zval (demo_mdraw i)) 0)) (seq 0 100) = true) by (vm_compute; reflexivity).
  rewrite forallb_forall in X. assert (Hin : In i (seq 0 100)) by (apply in_seq; lia). specialize (X i Hin). rewrite E in X. vm_compute in X. discriminate.
Qed.

Lemma toy_nonzero_100 : nonzero_up_to toy 100.
Proof.
  intros k Hk E. assert (X : forallb (fun i => negb (Z.eqb (zval (times toy i)) 0)) (seq 1 100) = true) by (vm_compute; reflexivity).
  rewrite forallb_forall in X. assert (Hin : In k (seq 1 100)) by (apply in_seq; lia). specialize (X k Hin). rewrite E in X. vm_compute in X. discriminate.
Qed.

(** the program on the toy instance: the seven comparisons *)
Example C124_example :
  (let* r := demo_run in Ok (map (fun c => (zval (fst c), zval (snd c))) (compared r))) =
    Ok [(40, 40); (40, 40); (41, 41); (42, 42); (43, 43); (43, 43); (40, 40)]%Z /\
  (forall i, (i < 100)%nat -> demo_mdraw i <> f0) /\ nonzero_up_to toy 100.
Proof. split; [vm_compute; reflexivity|split; [exact demo_draws|exact toy_nonzero_100]]. Qed.

(** the key it does not use: what it gives for a ciphertext of Low Secret and MKG
    is not the message *)
Example C124_unused_example :
  (let* r := demo_run in let* ct := eng_encrypt pf (demo_policy r) (pub_key (demo_master r)) [lev "Low Secret"; dep "MKG"] (demo_msg 0) (demo_scalar 0) in
   let* o := eng_decrypt ct (unused_user r) in Ok (option_map (@zval _) o, Z.eqb (zval (priv_y (priv_key (demo_master r)))) 0)) = Ok (Some 31%Z, false).
Proof. vm_compute. reflexivity. Qed.

Lemma ex_key_held : held_key pf ex_mk 10 hist 2 ex_ap (ekey pol_a ex_ap).
Proof.
  apply (hk_gen pf ex_mk 10 hist it_rev 2 pol_a ex_ap ex_kdraw (ekey pol_a ex_ap) it_rev_ok hist_two).
  vmr (@Ok (decryption_key toy) (ekey pol_a ex_ap)).
Qed.

(** both refusals: FIN is of use to the access policy, MKG is not; after the
    rotation of HR a new ciphertext of HR alone is refused with an error *)
Example C124_refusals_example :
  held_key pf ex_mk 10 hist 2 ex_ap (ekey pol_a ex_ap) /\
  eng_decrypt (ect pol_a [dept "FIN"]) (ekey pol_a ex_ap) = Ok None /\
  eng_decrypt (ect pol_a [dept "MKG"]) (ekey pol_a ex_ap) = Err (InternalOperation "empty input matrix") /\
  eng_decrypt (ect pol_a [dept "HR"]) (ekey pol_a ex_ap) = Ok None /\
  eng_decrypt (ect pol_b [dept "HR"]) (ekey pol_a ex_ap) = Err (InternalOperation "empty input matrix").
Proof.
  split; [exact ex_key_held|]. split; [vmr (@Ok (option (Gt toy)) None)|].
  split; [vmr (@Err (option (Gt toy)) (InternalOperation "empty input matrix"))|]. split; [vmr (@Ok (option (Gt toy)) None)|].
  vmr (@Err (option (Gt toy)) (InternalOperation "empty input matrix")).
Qed.

(** a delegation that combines the same attributes differently succeeds; one with
    another attribute does not *)
Example C124_delegable_example :
  is_ok (hdel pol_a (ekey pol_a ex_ap) (AOr (AAttr (level "Protected")) (AAnd (AAttr (dept "HR")) (AAttr (dept "FIN"))))) /\
  needed (firstn 2 hist) (AAttr (level "Top Secret")) (level "Top Secret") /\ ~ needed (firstn 2 hist) ex_ap (level "Top Secret") /\
  hdel pol_a (ekey pol_a ex_ap) (AAttr (level "Top Secret")) = Err (InternalOperation "new attribute is not allowed") /\
  is_ok (hdel pol_a (ekey pol_a AAll) (AAttr (level "Top Secret"))).
Proof.
  split; [|split; [|split; [|split]]].
  - destruct ex_engine_setup as (Em & _).
    apply (C124_delegable toy toy_laws pf 10 hist pol_a ex_draw ex_mk 2 ex_ap (ekey pol_a ex_ap) it_rev 2 pol_a _ ex_draw hist_proper Em ex_key_held it_rev_ok hist_two); [discriminate|].
    split; [|split; [cbn; intuition discriminate|split; [apply apart_spec; vm_compute; reflexivity|]]].
    + intros a [<-|[<-|[<-|[]]]]; apply declared_spec; vm_compute; reflexivity.
    + intros b Hb. split; [left|rewrite between_nil by lia; intros []].
      apply needed_spec, on_spec in Hb. apply needed_spec, on_spec. vm_compute in Hb |- *. intuition.
  - apply needed_spec. vm_compute. reflexivity.
  - intros X. apply needed_spec in X. vm_compute in X. discriminate.
  - vmr (@Err (decryption_key toy) (InternalOperation "new attribute is not allowed")).
  - exists (run empty_key (hdel pol_a (ekey pol_a AAll) (AAttr (level "Top Secret")))).
    vmr (hdel pol_a (ekey pol_a AAll) (AAttr (level "Top Secret"))).
Qed.

Print Assumptions C124_refusals.
Print Assumptions C124_beyond.
Print Assumptions C124_delegable.
Print Assumptions C124_demo.
Print Assumptions C124_unused_key.
