(** Minimal authorised sets of a formula and weightings. Proofs only. *)
From Coq Require Import NArith ZArith Bool Lia Permutation Field_theory Field List.
From Verif Require Import Prelude Field LinAlg Msp Spec MspProofs.
Import ListNotations.

(** ** Sets *)
Lemma holds_mono (S1 S2 : N -> Prop) f : (forall a, In a (leaves f) -> S1 a -> S2 a) -> holds S1 f -> holds S2 f.
Proof.
  induction f as [a IHa b IHb|a IHa b IHb|v]; simpl; intros H Hh.
  - destruct Hh; split; [apply IHa|apply IHb]; auto; intros; apply H; auto; apply in_or_app; auto.
  - destruct Hh; [left; apply IHa|right; apply IHb]; auto; intros; apply H; auto; apply in_or_app; auto.
  - apply H; auto.
Qed.

Lemma holds_ext (S1 S2 : N -> Prop) f : (forall a, In a (leaves f) -> (S1 a <-> S2 a)) -> (holds S1 f <-> holds S2 f).
Proof. intros H. split; apply holds_mono; intros a Ha; apply H; exact Ha. Qed.

Lemma holds_some (S_ : N -> Prop) f : holds S_ f -> exists a, In a (leaves f) /\ S_ a.
Proof.
  induction f as [a IHa b IHb|a IHa b IHb|v]; simpl; intros H.
  - destruct H as [H _]. destruct (IHa H) as (x & H1 & H2). exists x; split; auto. apply in_or_app; auto.
  - destruct H as [H|H]; [destruct (IHa H) as (x & H1 & H2)|destruct (IHb H) as (x & H1 & H2)];
      exists x; split; auto; apply in_or_app; auto.
  - exists v; auto.
Qed.

Lemma in_attrs_dec T a : attrs T a \/ ~ attrs T a.
Proof. unfold attrs. destruct (in_dec N.eq_dec a T); auto. Qed.

Definition inter (T : list N) (L : list N) : list N := filter (fun a => inb a L) T.

Lemma inter_in T L a : In a (inter T L) <-> In a T /\ In a L.
Proof. unfold inter. rewrite filter_In, inb_spec. tauto. Qed.

Lemma holds_inter T f L : incl (leaves f) L -> (holds (attrs (inter T L)) f <-> holds (attrs T) f).
Proof. intros H. apply holds_ext. intros a Ha. unfold attrs. rewrite inter_in. specialize (H a Ha). tauto. Qed.

Lemma minimal_leaves f T : minimal f T -> incl T (leaves f).
Proof.
  intros [Hh Hm] a Ha.
  assert (H : incl T (inter T (leaves f))).
  { apply Hm; [intros x Hx; apply inter_in in Hx; tauto|]. apply holds_inter; [apply incl_refl|exact Hh]. }
  apply H, inter_in in Ha. tauto.
Qed.


Fixpoint holdsb (T : list N) (f : node) : bool :=
  match f with
  | And a b => holdsb T a && holdsb T b
  | Or a b => holdsb T a || holdsb T b
  | Leaf v => inb v T
  end.

Lemma holdsb_spec T f : holdsb T f = true <-> holds (attrs T) f.
Proof.
  induction f as [a IHa b IHb|a IHa b IHb|v]; simpl.
  - rewrite andb_true_iff, IHa, IHb. tauto.
  - rewrite orb_true_iff, IHa, IHb. tauto.
  - apply inb_spec.
Qed.

Lemma remove_length_lt' (a : N) T : In a T -> length (remove N.eq_dec a T) < length T.
Proof. apply remove_length_lt. Qed.

(** every authorised list contains a minimal one *)
Lemma minimal_exists f : forall n T, length T <= n -> holds (attrs T) f -> exists T', incl T' T /\ minimal f T'.
Proof.
  induction n as [|n IH]; intros T Hl Hh.
  - destruct T; [|simpl in Hl; lia]. destruct (holds_some _ _ Hh) as (a & _ & Ha). destruct Ha.
  - destruct (existsb (fun a => holdsb (remove N.eq_dec a T) f) T) eqn:E.
    + apply existsb_exists in E as (a & Ha & Hb). apply holdsb_spec in Hb.
      pose proof (remove_length_lt' a T Ha).
      destruct (IH (remove N.eq_dec a T) ltac:(lia) Hb) as (T' & Hi & Hm).
      exists T'. split; [|exact Hm]. intros x Hx. apply Hi, in_remove in Hx. tauto.
    + exists T. split; [apply incl_refl|]. split; [exact Hh|]. intros T' Hi Hh' a Ha.
      destruct (in_dec N.eq_dec a T') as [|Hn]; [assumption|]. exfalso.
      assert (E' : existsb (fun a => holdsb (remove N.eq_dec a T) f) T = true).
      { apply existsb_exists. exists a. split; [exact Ha|]. apply holdsb_spec.
        apply holds_mono with (S1 := attrs T'); [|exact Hh']. intros x _ Hx. unfold attrs in *.
        apply in_in_remove; [intros ->; contradiction|apply Hi; exact Hx]. }
      congruence.
Qed.

Lemma minimal_and a b T U :
  NoDup (leaves a ++ leaves b) -> minimal a T -> minimal b U -> minimal (And a b) (T ++ U).
Proof.
  intros Hnd HT HU. pose proof (minimal_leaves a T HT) as LT. pose proof (minimal_leaves b U HU) as LU.
  apply NoDup_app_inv in Hnd as (_ & _ & Hd). destruct HT as [HT1 HT2], HU as [HU1 HU2].
  split; [simpl; split|].
  - eapply holds_mono; [|exact HT1]. intros x _ Hx. unfold attrs in *. apply in_or_app; auto.
  - eapply holds_mono; [|exact HU1]. intros x _ Hx. unfold attrs in *. apply in_or_app; auto.
  - intros T' Hi [Ha Hb] x Hx. apply in_app_or in Hx as [Hx|Hx].
    + assert (H : incl T (inter T' (leaves a))).
      { apply HT2.
        - intros z Hz. apply inter_in in Hz as [Hz1 Hz2]. apply Hi, in_app_or in Hz1 as [|Hz1]; [assumption|].
          exfalso; eapply Hd; eauto.
        - apply holds_inter; [apply incl_refl|exact Ha]. }
      apply H, inter_in in Hx. tauto.
    + assert (H : incl U (inter T' (leaves b))).
      { apply HU2.
        - intros z Hz. apply inter_in in Hz as [Hz1 Hz2]. apply Hi, in_app_or in Hz1 as [Hz1|]; [|assumption].
          exfalso; eapply Hd; eauto.
        - apply holds_inter; [apply incl_refl|exact Hb]. }
      apply H, inter_in in Hx. tauto.
Qed.

Lemma minimal_or_l a b T : NoDup (leaves a ++ leaves b) -> minimal a T -> minimal (Or a b) T.
Proof.
  intros Hnd HT. pose proof (minimal_leaves a T HT) as LT. destruct HT as [H1 H2].
  apply NoDup_app_inv in Hnd as (_ & _ & Hd). split; [left; exact H1|].
  intros T' Hi [H|H]; [apply H2; assumption|]. exfalso.
  destruct (holds_some _ _ H) as (x & Hx & Hx'). apply (Hd x); [apply LT, Hi, Hx'|exact Hx].
Qed.

Lemma minimal_or_r a b T : NoDup (leaves a ++ leaves b) -> minimal b T -> minimal (Or a b) T.
Proof.
  intros Hnd HT. pose proof (minimal_leaves b T HT) as LT. destruct HT as [H1 H2].
  apply NoDup_app_inv in Hnd as (_ & _ & Hd). split; [right; exact H1|].
  intros T' Hi [H|H]; [|apply H2; assumption]. exfalso.
  destruct (holds_some _ _ H) as (x & Hx & Hx'). apply (Hd x); [exact Hx|apply LT, Hi, Hx'].
Qed.

Lemma holds_leaves f : holds (attrs (leaves f)) f.
Proof.
  induction f as [a IHa b IHb|a IHa b IHb|v]; simpl.
  - split; (eapply holds_mono; [|eassumption]); intros x _ Hx; apply in_or_app; auto.
  - left. eapply holds_mono; [|eassumption]; intros x _ Hx; apply in_or_app; auto.
  - left; reflexivity.
Qed.

Lemma some_minimal f : exists T, minimal f T.
Proof.
  destruct (minimal_exists f (length (leaves f)) (leaves f) (le_n _) (holds_leaves f)) as (T & _ & H). eauto.
Qed.

(** every leaf belongs to a minimal set *)
Lemma leaf_minimal f v : NoDup (leaves f) -> In v (leaves f) -> exists T, minimal f T /\ In v T.
Proof.
  induction f as [a IHa b IHb|a IHa b IHb|w]; simpl; intros Hnd Hv.
  - pose proof (NoDup_app_inv _ _ Hnd) as (Ha & Hb & _).
    apply in_app_or in Hv as [Hv|Hv].
    + destruct (IHa Ha Hv) as (T & HT & Hin). destruct (some_minimal b) as (U & HU).
      exists (T ++ U). split; [apply minimal_and; assumption|apply in_or_app; auto].
    + destruct (IHb Hb Hv) as (U & HU & Hin). destruct (some_minimal a) as (T & HT).
      exists (T ++ U). split; [apply minimal_and; assumption|apply in_or_app; auto].
  - pose proof (NoDup_app_inv _ _ Hnd) as (Ha & Hb & _).
    apply in_app_or in Hv as [Hv|Hv].
    + destruct (IHa Ha Hv) as (T & HT & Hin). exists T. split; [apply minimal_or_l; assumption|exact Hin].
    + destruct (IHb Hb Hv) as (T & HT & Hin). exists T. split; [apply minimal_or_r; assumption|exact Hin].
  - destruct Hv as [->|[]]. exists [v]. split; [|left; reflexivity]. split; [left; reflexivity|].
    intros T' _ H x [<-|[]]. exact H.
Qed.

Lemma narrows_leaves f' f : NoDup (leaves f') -> narrows f' f -> incl (leaves f') (leaves f).
Proof.
  intros Hnd H v Hv. destruct (leaf_minimal f' v Hnd Hv) as (T & HT & Hin).
  apply (minimal_leaves f T (H T HT)). exact Hin.
Qed.

Lemma restricts_leaves f' f : restricts f' f -> incl (leaves f') (leaves f).
Proof.
  induction 1; simpl; intros x Hx; rewrite ?in_app_iff in *; auto; try tauto.
  - intuition.
  - intuition.
Qed.

Lemma NoDup_app_intro {A} (l1 l2 : list A) :
  NoDup l1 -> NoDup l2 -> (forall x, In x l1 -> In x l2 -> False) -> NoDup (l1 ++ l2).
Proof.
  intros H1 H2 Hd. induction H1 as [|x l Hx Hl IH]; simpl; [exact H2|]. constructor.
  - intros H. apply in_app_or in H as [H|H]; [contradiction|]. apply (Hd x); [left; reflexivity|exact H].
  - apply IH. intros y Hy. apply Hd. right; exact Hy.
Qed.

Lemma restricts_nodup f' f : restricts f' f -> NoDup (leaves f) -> NoDup (leaves f').
Proof.
  induction 1; simpl; intros Hnd; auto.
  - apply NoDup_app_inv in Hnd. tauto.
  - apply NoDup_app_inv in Hnd. tauto.
  - apply NoDup_app_inv in Hnd as (Ha & Hb & Hd). apply NoDup_app_intro; auto.
    intros x H1 H2. apply (Hd x); eapply restricts_leaves; eassumption.
  - apply NoDup_app_inv in Hnd as (Ha & Hb & Hd). apply NoDup_app_intro; auto.
    intros x H1 H2. apply (Hd x); eapply restricts_leaves; eassumption.
  - eapply Permutation_NoDup; [apply Permutation_app_comm|exact Hnd].
  - eapply Permutation_NoDup; [apply Permutation_app_comm|exact Hnd].
  - rewrite app_assoc. exact Hnd.
  - rewrite app_assoc. exact Hnd.
Qed.

Section Weights.
Variable K : FieldOps.
Variable KL : FieldLaws K.
Declare Scope fld.
Local Notation "0" := (@f0 K) : fld.
Local Notation "1" := (@f1 K) : fld.
Local Infix "+" := (@fadd K) : fld.
Local Infix "*" := (@fmul K) : fld.
Local Infix "-" := (@fsub K) : fld.
Local Notation "- x" := (@fneg K x) : fld.
Local Open Scope fld.
Add Field KF6 : (fl_field K KL).

Definition ind (T : list N) (a : N) : K := if inb a T then 1 else 0.

Lemma ind_in T a : In a T -> ind T a = 1.
Proof. intros H. unfold ind. apply inb_spec in H. rewrite H. reflexivity. Qed.
Lemma ind_out T a : ~ In a T -> ind T a = 0.
Proof. intros H. unfold ind. destruct (inb a T) eqn:E; [|reflexivity]. apply inb_spec in E. contradiction. Qed.

Lemma wt_add al be f c d : wt K al f c -> wt K be f d -> wt K (fun a => al a + be a) f (c + d).
Proof.
  revert c d; induction f as [a IHa b IHb|a IHa b IHb|v]; simpl; intros c d H1 H2.
  - destruct H1, H2. split; auto.
  - destruct H1 as (c1 & c2 & A1 & B1 & ->), H2 as (d1 & d2 & A2 & B2 & ->).
    exists (c1 + d1), (c2 + d2). split; [auto|]. split; [auto|ring].
  - congruence.
Qed.

Lemma wt_scal k al f c : wt K al f c -> wt K (fun a => k * al a) f (k * c).
Proof.
  revert c; induction f as [a IHa b IHb|a IHa b IHb|v]; simpl; intros c H1.
  - destruct H1. split; auto.
  - destruct H1 as (c1 & c2 & A1 & B1 & ->). exists (k * c1), (k * c2). split; [auto|]. split; [auto|ring].
  - congruence.
Qed.

(** the indicator of a minimal set is a weighting *)
Lemma minimal_wt f T : NoDup (leaves f) -> minimal f T -> wt K (ind T) f 1.
Proof.
  revert T; induction f as [a IHa b IHb|a IHa b IHb|v]; simpl; intros T Hnd HT.
  - pose proof (NoDup_app_inv _ _ Hnd) as (Ha & Hb & Hd). destruct HT as [[H1 H2] Hm].
    assert (Hsub : forall x, In x T -> In x (leaves a) \/ In x (leaves b)).
    { intros x Hx. apply in_app_or. apply (minimal_leaves (And a b) T); [split; [split; assumption|exact Hm]|exact Hx]. }
    assert (MA : minimal a (inter T (leaves a))).
    { split; [apply holds_inter; [apply incl_refl|exact H1]|]. intros T' Hi Hh x Hx.
      assert (HI : incl T (T' ++ inter T (leaves b))).
      { apply Hm.
        - intros z Hz. apply in_app_or in Hz as [Hz|Hz]; [apply Hi in Hz|]; apply inter_in in Hz; tauto.
        - split.
          + eapply holds_mono; [|exact Hh]. intros z _ Hz. apply in_or_app; auto.
          + eapply holds_mono; [|exact H2]. intros z Hz1 Hz. apply in_or_app; right. apply inter_in; auto. }
      apply inter_in in Hx as [Hx1 Hx2]. apply HI, in_app_or in Hx1 as [|Hx1]; [assumption|].
      apply inter_in in Hx1. exfalso; eapply Hd; [exact Hx2|tauto]. }
    assert (MB : minimal b (inter T (leaves b))).
    { split; [apply holds_inter; [apply incl_refl|exact H2]|]. intros T' Hi Hh x Hx.
      assert (HI : incl T (T' ++ inter T (leaves a))).
      { apply Hm.
        - intros z Hz. apply in_app_or in Hz as [Hz|Hz]; [apply Hi in Hz|]; apply inter_in in Hz; tauto.
        - split.
          + eapply holds_mono; [|exact H1]. intros z Hz1 Hz. apply in_or_app; right. apply inter_in; auto.
          + eapply holds_mono; [|exact Hh]. intros z _ Hz. apply in_or_app; auto. }
      apply inter_in in Hx as [Hx1 Hx2]. apply HI, in_app_or in Hx1 as [|Hx1]; [assumption|].
      apply inter_in in Hx1. exfalso; eapply Hd; [|exact Hx2]. tauto. }
    split.
    + apply wt_ext with (al := ind (inter T (leaves a))); [|apply IHa; assumption].
      intros v Hv. destruct (in_dec N.eq_dec v T) as [Hi|Hi].
      * rewrite !ind_in; [reflexivity|exact Hi|apply inter_in; auto].
      * rewrite !ind_out; [reflexivity|exact Hi|]. rewrite inter_in; tauto.
    + apply wt_ext with (al := ind (inter T (leaves b))); [|apply IHb; assumption].
      intros v Hv. destruct (in_dec N.eq_dec v T) as [Hi|Hi].
      * rewrite !ind_in; [reflexivity|exact Hi|apply inter_in; auto].
      * rewrite !ind_out; [reflexivity|exact Hi|]. rewrite inter_in; tauto.
  - pose proof (NoDup_app_inv _ _ Hnd) as (Ha & Hb & Hd). destruct HT as [[H1|H1] Hm].
    + assert (HT : incl T (leaves a)).
      { intros x Hx. assert (HI : incl T (inter T (leaves a))).
        { apply Hm; [intros z Hz; apply inter_in in Hz; tauto|]. left. apply holds_inter; [apply incl_refl|exact H1]. }
        apply HI, inter_in in Hx. tauto. }
      exists 1, 0. split; [|split; [|ring]].
      * apply IHa; [exact Ha|]. split; [exact H1|]. intros T' Hi Hh. apply Hm; [exact Hi|left; exact Hh].
      * apply wt_zero_on; [exact KL|]. intros v Hv. apply ind_out. intros Hi. eapply Hd; [apply HT; exact Hi|exact Hv].
    + assert (HT : incl T (leaves b)).
      { intros x Hx. assert (HI : incl T (inter T (leaves b))).
        { apply Hm; [intros z Hz; apply inter_in in Hz; tauto|]. right. apply holds_inter; [apply incl_refl|exact H1]. }
        apply HI, inter_in in Hx. tauto. }
      exists 0, 1. split; [|split; [|ring]].
      * apply wt_zero_on; [exact KL|]. intros v Hv. apply ind_out. intros Hi. eapply Hd; [exact Hv|apply HT; exact Hi].
      * apply IHb; [exact Hb|]. split; [exact H1|]. intros T' Hi Hh. apply Hm; [exact Hi|right; exact Hh].
  - destruct HT as [H _]. apply ind_in. exact H.
Qed.

(** a property of pairs (weighting, total) closed under linear combinations *)
Record linear (Pr : (N -> K) -> K -> Prop) : Prop := {
  ln_ext : forall al be c, (forall a, al a = be a) -> Pr al c -> Pr be c;
  ln_zero : Pr (fun _ => 0) 0;
  ln_add : forall al be c d, Pr al c -> Pr be d -> Pr (fun a => al a + be a) (c + d);
  ln_scal : forall k al c, Pr al c -> Pr (fun a => k * al a) (k * c)
}.

Definition on (L : list N) (al : N -> K) (a : N) : K := if inb a L then al a else 0.

Lemma on_in L al a : In a L -> on L al a = al a.
Proof. intros H. unfold on. apply inb_spec in H. rewrite H. reflexivity. Qed.
Lemma on_out L al a : ~ In a L -> on L al a = 0.
Proof. intros H. unfold on. destruct (inb a L) eqn:E; [|reflexivity]. apply inb_spec in E. contradiction. Qed.

(** weightings are spanned by the indicators of minimal sets *)
Lemma wt_span f : NoDup (leaves f) -> forall Pr, linear Pr ->
  (forall T, minimal f T -> Pr (ind T) 1) ->
  forall al c, wt K al f c -> Pr (on (leaves f) al) c.
Proof.
  induction f as [a IHa b IHb|a IHa b IHb|v]; simpl; intros Hnd Pr LP HP al c Hw.
  - pose proof (NoDup_app_inv _ _ Hnd) as (Ha & Hb & Hd). destruct Hw as [W1 W2].
    destruct (some_minimal a) as (T0 & HT0). destruct (some_minimal b) as (U0 & HU0).
    assert (Hind : forall T U, minimal a T -> minimal b U -> Pr (fun x => ind T x + ind U x) 1).
    { intros T U HT HU. eapply (ln_ext Pr LP); [|apply (HP (T ++ U)); apply minimal_and; assumption].
      intros x. pose proof (minimal_leaves _ _ HT x) as L1. pose proof (minimal_leaves _ _ HU x) as L2.
      destruct (in_dec N.eq_dec x T) as [i1|i1], (in_dec N.eq_dec x U) as [i2|i2].
      - exfalso; eapply Hd; eauto.
      - rewrite (ind_in T), (ind_out U), (ind_in (T ++ U)) by (auto; apply in_or_app; auto). ring.
      - rewrite (ind_out T), (ind_in U), (ind_in (T ++ U)) by (auto; apply in_or_app; auto). ring.
      - rewrite (ind_out T), (ind_out U), (ind_out (T ++ U)); auto; [ring|]. rewrite in_app_iff; tauto. }
    assert (P1 : Pr (fun x => on (leaves a) al x + c * ind U0 x) c).
    { apply (IHa Ha (fun al c => Pr (fun x => al x + c * ind U0 x) c)); [|intros T HT|exact W1].
      - constructor.
        + intros x y d E H. eapply (ln_ext Pr LP); [|exact H]. intros z; cbv beta. rewrite E. reflexivity.
        + eapply (ln_ext Pr LP); [|apply (ln_zero Pr LP)]. intros z; cbv beta. ring.
        + intros x y d e H1 H2. eapply (ln_ext Pr LP); [|apply (ln_add Pr LP); [exact H1|exact H2]]. intros z; cbv beta. ring.
        + intros k x d H. eapply (ln_ext Pr LP); [|apply (ln_scal Pr LP k); exact H]. intros z; cbv beta. ring.
      - eapply (ln_ext Pr LP); [|apply (Hind T U0 HT HU0)]. intros z; cbv beta. ring. }
    assert (P2 : Pr (fun x => c * ind T0 x + on (leaves b) al x) c).
    { apply (IHb Hb (fun al c => Pr (fun x => c * ind T0 x + al x) c)); [|intros T HT|exact W2].
      - constructor.
        + intros x y d E H. eapply (ln_ext Pr LP); [|exact H]. intros z; cbv beta. rewrite E. reflexivity.
        + eapply (ln_ext Pr LP); [|apply (ln_zero Pr LP)]. intros z; cbv beta. ring.
        + intros x y d e H1 H2. eapply (ln_ext Pr LP); [|apply (ln_add Pr LP); [exact H1|exact H2]]. intros z; cbv beta. ring.
        + intros k x d H. eapply (ln_ext Pr LP); [|apply (ln_scal Pr LP k); exact H]. intros z; cbv beta. ring.
      - eapply (ln_ext Pr LP); [|apply (Hind T0 T HT0 HT)]. intros z; cbv beta. ring. }
    pose proof (ln_scal Pr LP (- c) _ _ (Hind T0 U0 HT0 HU0)) as P3.
    pose proof (ln_add Pr LP _ _ _ _ (ln_add Pr LP _ _ _ _ P1 P2) P3) as P4.
    replace (c + c + - c * 1) with c in P4 by ring.
    eapply (ln_ext Pr LP); [|exact P4]. intros x. cbv beta.
    destruct (in_dec N.eq_dec x (leaves a)) as [i1|i1], (in_dec N.eq_dec x (leaves b)) as [i2|i2].
    + exfalso; eauto.
    + rewrite (on_in (leaves a)), (on_out (leaves b)), on_in by (auto; apply in_or_app; auto). ring.
    + rewrite (on_out (leaves a)), (on_in (leaves b)), on_in by (auto; apply in_or_app; auto). ring.
    + rewrite (on_out (leaves a)), (on_out (leaves b)), on_out; auto; [ring|]. rewrite in_app_iff; tauto.
  - pose proof (NoDup_app_inv _ _ Hnd) as (Ha & Hb & Hd). destruct Hw as (c1 & c2 & W1 & W2 & ->).
    assert (P1 : Pr (on (leaves a) al) c1).
    { apply (IHa Ha Pr LP); [|exact W1]. intros T HT. apply HP. apply minimal_or_l; assumption. }
    assert (P2 : Pr (on (leaves b) al) c2).
    { apply (IHb Hb Pr LP); [|exact W2]. intros T HT. apply HP. apply minimal_or_r; assumption. }
    eapply (ln_ext Pr LP); [|apply (ln_add Pr LP); [exact P1|exact P2]]. intros x. cbv beta.
    destruct (in_dec N.eq_dec x (leaves a)) as [i1|i1], (in_dec N.eq_dec x (leaves b)) as [i2|i2].
    + exfalso; eauto.
    + rewrite (on_in (leaves a)), (on_out (leaves b)), on_in by (auto; apply in_or_app; auto). ring.
    + rewrite (on_out (leaves a)), (on_in (leaves b)), on_in by (auto; apply in_or_app; auto). ring.
    + rewrite (on_out (leaves a)), (on_out (leaves b)), on_out; auto; [ring|]. rewrite in_app_iff; tauto.
  - assert (HM : minimal (Leaf v) [v]).
    { split; [left; reflexivity|]. intros T' _ H x [<-|[]]. exact H. }
    pose proof (ln_scal Pr LP c _ _ (HP _ HM)) as H. replace (c * 1) with c in H by ring.
    eapply (ln_ext Pr LP); [|exact H]. intros x. cbv beta.
    destruct (N.eq_dec x v) as [->|Hne].
    + rewrite ind_in, on_in by (left; reflexivity). rewrite Hw. ring.
    + rewrite ind_out, on_out by (intros [E|[]]; congruence). ring.
Qed.

(** weightings of f' are weightings of f *)
Definition sub_wt (f' f : node) : Prop :=
  forall al c, (forall v, In v (leaves f) -> ~ In v (leaves f') -> al v = 0) -> wt K al f' c -> wt K al f c.

Lemma linear_wt f : linear (fun al c => wt K al f c).
Proof.
  constructor.
  - intros al be c E H. eapply wt_ext; [|exact H]. intros; apply E.
  - apply wt_zero; exact KL.
  - intros; apply wt_add; assumption.
  - intros; apply wt_scal; assumption.
Qed.

Lemma narrows_sub_wt f' f : NoDup (leaves f') -> NoDup (leaves f) -> narrows f' f -> sub_wt f' f.
Proof.
  intros Hnd Hnd' HN al c Hz Hw.
  pose proof (wt_span f' Hnd (fun al c => wt K al f c) (linear_wt f)) as H.
  apply wt_ext with (al := on (leaves f') al).
  - intros v Hv. destruct (in_dec N.eq_dec v (leaves f')) as [i|i].
    + apply on_in; exact i.
    + rewrite on_out by exact i. symmetry. apply Hz; assumption.
  - apply H; [|exact Hw]. intros T HT. apply minimal_wt; [exact Hnd'|]. apply HN; exact HT.
Qed.

Lemma restricts_sub_wt f' f : restricts f' f -> NoDup (leaves f) -> sub_wt f' f.
Proof.
  induction 1 as [f|f1 f2 f3 R1 IH1 R2 IH2|a b|a b|a a' b b' R1 IH1 R2 IH2|a a' b b' R1 IH1 R2 IH2|a b|a b|a b c|a b c];
    intros Hnd al e Hz Hw; simpl in *.
  - exact Hw.
  - apply (IH2 Hnd); [|apply (IH1 (restricts_nodup _ _ R2 Hnd)); [|exact Hw]].
    + intros v Hv Hn. apply Hz; [exact Hv|]. intros Hi. apply Hn. eapply restricts_leaves; eassumption.
    + intros v Hv Hn. apply Hz; [|exact Hn]. eapply restricts_leaves; eassumption.
  - apply NoDup_app_inv in Hnd as (_ & _ & Hd). exists e, 0. split; [exact Hw|]. split; [|ring].
    apply wt_zero_on; [exact KL|]. intros v Hv. apply Hz; [apply in_or_app; auto|]. intros Hi; eauto.
  - apply NoDup_app_inv in Hnd as (_ & _ & Hd). exists 0, e. split; [|split; [exact Hw|ring]].
    apply wt_zero_on; [exact KL|]. intros v Hv. apply Hz; [apply in_or_app; auto|]. intros Hi; eauto.
  - apply NoDup_app_inv in Hnd as (Ha & Hb & Hd). destruct Hw as [W1 W2]. split.
    + apply (IH1 Ha); [|exact W1]. intros v Hv Hn. apply Hz; [apply in_or_app; auto|].
      intros Hi. apply in_app_or in Hi as [Hi|Hi]; [contradiction|]. apply (Hd v Hv). eapply restricts_leaves; eassumption.
    + apply (IH2 Hb); [|exact W2]. intros v Hv Hn. apply Hz; [apply in_or_app; auto|].
      intros Hi. apply in_app_or in Hi as [Hi|Hi]; [|contradiction]. apply (Hd v); [|exact Hv]. eapply restricts_leaves; eassumption.
  - apply NoDup_app_inv in Hnd as (Ha & Hb & Hd). destruct Hw as (c1 & c2 & W1 & W2 & E). exists c1, c2. split; [|split; [|exact E]].
    + apply (IH1 Ha); [|exact W1]. intros v Hv Hn. apply Hz; [apply in_or_app; auto|].
      intros Hi. apply in_app_or in Hi as [Hi|Hi]; [contradiction|]. apply (Hd v Hv). eapply restricts_leaves; eassumption.
    + apply (IH2 Hb); [|exact W2]. intros v Hv Hn. apply Hz; [apply in_or_app; auto|].
      intros Hi. apply in_app_or in Hi as [Hi|Hi]; [|contradiction]. apply (Hd v); [|exact Hv]. eapply restricts_leaves; eassumption.
  - tauto.
  - destruct Hw as (c1 & c2 & W1 & W2 & E). exists c2, c1. split; [exact W2|]. split; [exact W1|]. rewrite E. ring.
  - tauto.
  - destruct Hw as (c1 & c2 & W1 & (c3 & c4 & W2 & W3 & E2) & E). exists (c1 + c3), c4.
    split; [exists c1, c3; auto|]. split; [exact W3|]. rewrite E, E2. ring.
Qed.

End Weights.
