(** Counting the draws with which a strategy finds the message (C99). *)
From Coq Require Import String NArith ZArith Bool Lia Permutation Field_theory Field List.
From Verif Require Import Prelude Field LinAlg Msp Spec MspProofs Minimal Gauss GaussProofs Bilinear Scheme SchemeSpec
  SchemeProofs SchemeTheorems CollusionSpec LuckSpec Zp ExpModel Primality Bls Curve PropertiesScheme PropertiesDelegation PropertiesCollusion PropertiesPersonal.
Import ListNotations.

(** ** Counting *)
Lemma NoDup_map_in {X Y} (g : X -> Y) l : NoDup l -> (forall x x', In x l -> In x' l -> g x = g x' -> x = x') -> NoDup (map g l).
Proof.
  intros H. induction H as [|x l Hx H IH]; intros Hg; [constructor|]. cbn [map]. constructor.
  - intros Q. apply in_map_iff in Q as (x' & E & Hx'). apply Hx. rewrite <- (Hg x' x); [exact Hx'|right; exact Hx'|left; reflexivity|exact E].
  - apply IH. intros z z' Hz Hz'. apply Hg; right; assumption.
Qed.
Lemma NoDup_prod {X Y} (l : list X) (r : list Y) : NoDup l -> NoDup r -> NoDup (list_prod l r).
Proof.
  intros Hl Hr. induction Hl as [|x l Hx Hl IH]; [constructor|]. cbn [list_prod].
  assert (H1 : NoDup (map (fun y => (x, y)) r)) by (apply NoDup_map_in; [exact Hr|intros y y' _ _ E; congruence]).
  assert (H2 : forall p, In p (map (fun y => (x, y)) r) -> ~ In p (list_prod l r)).
  { intros p Hp Q. apply in_map_iff in Hp as (y & <- & _). apply in_prod_iff in Q as [Q _]. contradiction. }
  clear Hr. induction (map (fun y => (x, y)) r) as [|p m IHm]; [exact IH|]. inversion H1 as [|? ? Hp H1']; subst. cbn [app]. constructor.
  - intros Q. apply in_app_or in Q as [Q|Q]; [contradiction|]. exact (H2 p (or_introl eq_refl) Q).
  - apply IHm; [exact H1'|]. intros p' Hp'. apply H2. right. exact Hp'.
Qed.

(** If no two chosen draws can be moved to the same place, there are few of them. *)
Lemma lines {X C} (W : list X) (cs : list C) (V : list X) (act : C -> X -> X) :
  NoDup W -> NoDup cs -> (forall x c, In x W -> In c cs -> In (act c x) V) ->
  (forall x x' c c', In x W -> In x' W -> In c cs -> In c' cs -> act c x = act c' x' -> x = x' /\ c = c') ->
  (length W * length cs <= length V)%nat.
Proof.
  intros HW Hc Hin Hinj. rewrite <- prod_length, <- (map_length (fun p => act (snd p) (fst p))).
  apply NoDup_incl_length.
  - apply NoDup_map_in; [apply NoDup_prod; assumption|]. intros [x c] [x' c'] H H' E. apply in_prod_iff in H as [H1 H2].
    apply in_prod_iff in H' as [H1' H2']. cbn [fst snd] in E. destruct (Hinj x x' c c' H1 H1' H2 H2' E) as [-> ->]. reflexivity.
  - intros z Hz. apply in_map_iff in Hz as ([x c] & <- & H). apply in_prod_iff in H as [H1 H2]. apply Hin; assumption.
Qed.

Lemma split_count {X} (W : list X) (p : X -> bool) : length W = (length (filter p W) + length (filter (fun x => negb (p x)) W))%nat.
Proof. induction W as [|x W IH]; [reflexivity|]. cbn [filter length]. destruct (p x); cbn [negb length]; lia. Qed.

(** all lists of a given length *)
Fixpoint lists {X} (E : list X) (n : nat) : list (list X) :=
  match n with O => [[]] | S n => map (fun p => fst p :: snd p) (list_prod E (lists E n)) end.
Lemma lists_length {X} (E : list X) n : length (lists E n) = (length E ^ n)%nat.
Proof. induction n as [|n IH]; [reflexivity|]. cbn [lists]. rewrite map_length, prod_length, IH. reflexivity. Qed.
Lemma lists_in {X} (E : list X) l : (forall x, In x l -> In x E) -> In l (lists E (length l)).
Proof.
  induction l as [|x l IH]; intros H; [left; reflexivity|]. cbn [length lists]. apply in_map_iff. exists (x, l). split; [reflexivity|].
  apply in_prod_iff. split; [apply H; left; reflexivity|apply IH; intros z Hz; apply H; right; exact Hz].
Qed.
Fixpoint lists_of {X} (E : list X) (ns : list nat) : list (list (list X)) :=
  match ns with [] => [[]] | n :: ns => map (fun p => fst p :: snd p) (list_prod (lists E n) (lists_of E ns)) end.
Lemma lists_of_length {X} (E : list X) ns : length (lists_of E ns) = (length E ^ list_sum ns)%nat.
Proof.
  induction ns as [|n ns IH]; [reflexivity|]. cbn [lists_of]. rewrite map_length, prod_length, lists_length, IH.
  change (list_sum (n :: ns)) with (n + list_sum ns)%nat. rewrite Nat.pow_add_r. reflexivity.
Qed.
Lemma lists_of_in {X} (E : list X) ns us : (forall x, In x E) -> Forall2 (fun n u => length u = n) ns us -> In us (lists_of E ns).
Proof.
  intros HE H. induction H as [|n u ns us H _ IH]; [left; reflexivity|]. cbn [lists_of]. apply in_map_iff. exists (u, us). split; [reflexivity|].
  apply in_prod_iff. split; [subst n; apply lists_in; intros; apply HE|exact IH].
Qed.

Section Luck.
Variable B : BilinearMap.
Variable BL : BilinearLaws B.
Local Notation K := (bm_K B).
Local Notation KL := (bl_field B BL).
Declare Scope fld.
Local Notation "0" := (@f0 K) : fld.
Local Notation "1" := (@f1 K) : fld.
Local Infix "+" := (@fadd K) : fld.
Local Infix "*" := (@fmul K) : fld.
Local Infix "-" := (@fsub K) : fld.
Local Notation "- x" := (@fneg K x) : fld.
Local Open Scope fld.
Add Field KF23 : (fl_field K KL).

Local Notation g3 := (g3_gen_exp B).
Local Notation gt := (gt_gen_exp B).
Local Notation to1 := (g3_to_g1 B).

Lemma no_zero_divisor (a b : K) : a * b = 0 -> a = 0 \/ b = 0.
Proof using BL.
  intros E. destruct (K_eq_dec K KL a 0) as [H|H]; [left; exact H|right].
  transitivity (finv a * (a * b)); [field; exact H|]. rewrite E. ring.
Qed.

(** ** The draws of the keys *)
(** the sharing vector of a key: the drawn values and what is missing to [y] *)
Definition full (u : list K) (y : K) (i : nat) : K :=
  if Nat.ltb i (length u) then nth i u 0 else y - suml (fun x => x) u.
Definition exps (t : list K) (m : msp Z) (w : nat -> K) : list K :=
  map (fun a => dotZ K (row_of m a) w * finv (tt B t a)) (row_to_attr m).

Lemma key_exps f m t y u uk : msp_of K f m -> length u = count_and f -> key_generation m (mkPriv t y) (values u) = Ok uk ->
  holds_exponents B uk (exps t m (full u y)).
Proof using BL.
  intros M Hl Hk. destruct (key_generation_rep B BL f m t y _ uk M Hk) as (v & Hv & R & _).
  unfold holds_exponents, exps. rewrite (kr_d _ _ _ _ _ _ R), map_map. apply map_ext_in. intros a Ha.
  assert (Hla : In a (leaves f)) by (apply (Permutation_in _ (mo_perm K f m M)); exact Ha).
  do 3 f_equal. unfold share. apply dot_ext. intros i Hi. rewrite map_length, (row_of_width B f m a M Hla) in Hi.
  pose proof (mo_cols K f m M) as Hc. unfold full. rewrite Hl. destruct (Nat.ltb_spec i (count_and f)) as [Hlt|Hge].
  - apply (sharing_vector_draws B (nb_col m) (values u) y v Hv). lia.
  - destruct (sharing_vector_inv B BL _ _ _ _ Hv) as [Lv Sv].
    assert (Ei : i = count_and f) by lia. subst i. rewrite Hc in Sv. rewrite seq_S, suml_app in Sv by exact KL. cbn [Nat.add] in Sv.
    rewrite suml_cons in Sv. change (suml (vec v) []) with 0 in Sv.
    assert (E : suml (vec v) (seq 0 (count_and f)) = suml (fun x => x) u).
    { rewrite <- Hl, <- suml_seq_vec. apply suml_ext. intros i Hi2. apply in_seq in Hi2.
      rewrite (sharing_vector_draws B (nb_col m) (values u) y v Hv) by lia. reflexivity. }
    rewrite E in Sv. rewrite <- Sv. ring.
Qed.

(** moving [y] by [c] and the draws along [w] moves the sharing vector along [w] *)
Definition moved (c : K) (w : nat -> K) (u : list K) : list K := map (fun i => nth i u 0 + c * w i) (seq 0 (length u)).
Lemma moved_length c w u : length (moved c w u) = length u.
Proof using. unfold moved. rewrite map_length, seq_length. reflexivity. Qed.
Lemma moved_nth c w u i : (i < length u)%nat -> nth i (moved c w u) 0 = nth i u 0 + c * w i.
Proof using.
  intros H. unfold moved. rewrite (nth_indep _ 0 ((fun i => nth i u 0 + c * w i) 0%nat)) by (rewrite map_length, seq_length; exact H).
  rewrite (map_nth (fun i => nth i u 0 + c * w i)), seq_nth by exact H. reflexivity.
Qed.
Lemma moved_inj c w u u' : length u = length u' -> moved c w u = moved c w u' -> u = u'.
Proof using BL.
  intros Hl E. apply (nth_ext _ _ 0 0); [exact Hl|]. intros i Hi. assert (Q : nth i (moved c w u) 0 = nth i (moved c w u') 0) by (rewrite E; reflexivity).
  rewrite !moved_nth in Q by lia. transitivity (nth i u 0 + c * w i - c * w i); [ring|]. rewrite Q. ring.
Qed.
Lemma full_moved c w u y i : suml w (seq 0 (S (length u))) = 1 -> (i <= length u)%nat ->
  full (moved c w u) (y + c) i = full u y i + c * w i.
Proof using BL.
  intros Hw Hi. unfold full. rewrite moved_length. destruct (Nat.ltb_spec i (length u)) as [H|H]; [apply moved_nth; exact H|].
  assert (i = length u) by lia. subst i. rewrite seq_S, suml_app in Hw by exact KL. rewrite suml_cons in Hw. cbn [Nat.add] in Hw.
  change (suml w []) with 0 in Hw.
  assert (E : suml (fun x => x) (moved c w u) = suml (fun x => x) u + c * suml w (seq 0 (length u))).
  { unfold moved. rewrite suml_map, suml_add, suml_scal by exact KL. f_equal. rewrite <- (suml_seq_vec K u). reflexivity. }
  rewrite E. replace (w (length u)) with (1 - suml w (seq 0 (length u))); [ring|]. rewrite <- Hw. ring.
Qed.

(** ** Fresh keys *)
Lemma kept_map {X Y} (g : X -> Y) held : forall l, kept held (map g l) = map g (kept held l).
Proof using. induction held as [|b held IH]; intros [|x l]; try reflexivity. cbn [map kept]. rewrite IH. destruct b; reflexivity. Qed.

Section Fresh.
Variable elems : list K.
Variable size : nat.
Variable fs : list node.
Variable ms : list (msp Z).
Variable held : list bool.
Variable gam : list N.
Variable a : strategy B.
Hypothesis Hnd : NoDup elems.
Hypothesis Hall : forall x : K, In x elems.
Hypothesis HM : Forall2 (msp_of K) fs ms.
Hypothesis Hin : forall f x, In f fs -> In x (leaves f) -> (N.to_nat x < size)%nat.
Hypothesis Hg : forall x, In x gam -> (N.to_nat x < size)%nat.
Hypothesis Hno : forall f, In f (kept held fs) -> ~ holds (attrs gam) f.

Local Notation q := (length elems).
Definition nz : list K := filter (fun x => if K_eq_dec K KL x 0 then false else true) elems.
Lemma nz_in x : In x nz <-> x <> 0.
Proof using Hall.
  unfold nz. rewrite filter_In. destruct (K_eq_dec K KL x 0) as [E|E]; split; intros H; try tauto; [destruct H; discriminate|].
  split; [apply Hall|reflexivity].
Qed.
Lemma nz_nodup : NoDup nz.
Proof using Hnd. apply NoDup_filter. exact Hnd. Qed.
Lemma nz_length : length nz = (q - 1)%nat.
Proof using BL Hnd Hall.
  rewrite (split_count elems (fun x => if K_eq_dec K KL x 0 then false else true)). fold nz.
  assert (E : length (filter (fun x => negb (if K_eq_dec K KL x 0 then false else true)) elems) = 1%nat); [|lia].
  apply Nat.le_antisymm.
  - transitivity (length [0 : K]); [|reflexivity]. apply NoDup_incl_length; [apply NoDup_filter; exact Hnd|].
    intros x Hx. apply filter_In in Hx as [_ Hx]. destruct (K_eq_dec K KL x 0) as [->|]; [left; reflexivity|discriminate].
  - transitivity (length [0 : K]); [reflexivity|]. apply NoDup_incl_length; [constructor; [intros []|constructor]|].
    intros x [<-|[]]. apply filter_In. split; [apply Hall|]. destruct (K_eq_dec K KL 0 0) as [|N]; [reflexivity|contradiction].
Qed.

(** all draws *)
Definition all_draws : list (luck B) :=
  map (fun p => mkLuck (fst (fst (fst (fst p)))) (snd (fst (fst (fst p)))) (snd (fst (fst p))) (snd (fst p)) (snd p))
    (list_prod (list_prod (list_prod (list_prod (lists nz size) elems) (lists_of elems (map count_and fs))) elems) elems).
Lemma all_draws_length : length all_draws = draws_count q size fs.
Proof using BL Hnd Hall.
  unfold all_draws, draws_count. rewrite map_length, !prod_length, lists_length, lists_of_length, nz_length.
  rewrite Nat.pow_add_r. cbn [Nat.pow]. lia.
Qed.
Definition good (x : luck B) : Prop := proper size fs x /\ forall z, In z (lk_t x) -> z <> 0.
Lemma all_draws_in x : good x -> In x all_draws.
Proof using Hall.
  intros ((Ht & Hu) & Hz). unfold all_draws. apply in_map_iff. exists (((lk_t x, lk_y x), lk_u x), lk_s x, lk_m x).
  split; [destruct x; reflexivity|]. repeat (apply in_prod_iff; split); try apply Hall.
  - rewrite <- Ht. apply lists_in. intros z Hz'. apply nz_in. exact (Hz z Hz').
  - apply lists_of_in; [exact Hall|]. clear - Hu. induction Hu; constructor; assumption.
Qed.

Definition xss (t : list K) (ws : list (nat -> K)) : list (list K) :=
  kept held (map (fun p => exps t (fst p) (snd p)) (combine ms ws)).
Definition fulls (x : luck B) : list (nat -> K) := map (fun u => full u (lk_y x)) (lk_u x).

(** the strategy finds the message with these draws *)
Definition eqn (x : luck B) : Prop :=
  suml (fun z => (base1 B (lk_t x) (fst (fst z)) + part1 B (xss (lk_t x) (fulls x)) (fst (fst z)))
      * (base2 B (lk_t x) (snd (fst z)) + part2 B (lk_t x) gam (snd (fst z)) * lk_s x) * snd z) (pairings a)
    + suml (fun z => expt B (lk_y x) (lk_s x) (lk_m x) (fst z) * snd z) (others a) = lk_m x.

Definition ec : K := suml (fun x => (match fst x with CtMasked => 1 | _ => 0 end) * snd x) (others a).
Definition sp (x : luck B) : K := s_part B (lk_t x) gam (xss (lk_t x) (fulls x)) a.
Definition a0 (x : luck B) : K :=
  suml (fun z => (base1 B (lk_t x) (fst (fst z)) + part1 B (xss (lk_t x) (fulls x)) (fst (fst z))) * base2 B (lk_t x) (snd (fst z)) * snd z) (pairings a)
  + suml (fun z => expt B (lk_y x) 0 0 (fst z) * snd z) (others a).
Lemma eqn_form x : eqn x -> a0 x + lk_s x * sp x + (lk_m x + lk_y x * lk_s x) * ec = lk_m x.
Proof using BL.
  intros E. refine (eq_trans _ E). rewrite (expt_split B BL a (lk_y x)). fold ec. unfold a0, sp, s_part.
  replace (suml (fun z => (base1 B (lk_t x) (fst (fst z)) + part1 B (xss (lk_t x) (fulls x)) (fst (fst z)))
      * (base2 B (lk_t x) (snd (fst z)) + part2 B (lk_t x) gam (snd (fst z)) * lk_s x) * snd z) (pairings a))
   with (suml (fun z => (base1 B (lk_t x) (fst (fst z)) + part1 B (xss (lk_t x) (fulls x)) (fst (fst z))) * base2 B (lk_t x) (snd (fst z)) * snd z) (pairings a)
     + lk_s x * suml (fun z => (base1 B (lk_t x) (fst (fst z)) + part1 B (xss (lk_t x) (fulls x)) (fst (fst z))) * part2 B (lk_t x) gam (snd (fst z)) * snd z) (pairings a)).
  - ring.
  - rewrite <- suml_scal by exact KL. rewrite <- suml_add by exact KL. apply suml_ext. intros z _. ring.
Qed.

(** *** moving the message *)
Lemma few_messages W : ec <> 1 -> NoDup W -> (forall x, In x W -> good x /\ eqn x) -> (length W * q <= draws_count q size fs)%nat.
Proof using BL Hnd Hall.
  intros He HW H. rewrite <- all_draws_length.
  apply (lines W elems all_draws (fun c x => mkLuck (lk_t x) (lk_y x) (lk_u x) (lk_s x) (lk_m x + c))); [exact HW|exact Hnd| |].
  - intros x c Hx _. apply all_draws_in. exact (proj1 (H x Hx)).
  - intros [t y u s m] [t' y' u' s' m'] c c' Hx Hx' _ _ E. cbn [lk_t lk_y lk_u lk_s lk_m] in E.
    assert (t' = t /\ y' = y /\ u' = u /\ s' = s /\ m + c = m' + c') as (-> & -> & -> & -> & Em) by (repeat split; congruence).
    pose proof (eqn_form _ (proj2 (H _ Hx))) as E1. pose proof (eqn_form _ (proj2 (H _ Hx'))) as E2.
    change (sp (mkLuck t y u s m')) with (sp (mkLuck t y u s m)) in E2. change (a0 (mkLuck t y u s m')) with (a0 (mkLuck t y u s m)) in E2.
    cbn [lk_t lk_y lk_u lk_s lk_m] in E1, E2. set (A := a0 _) in *. set (S_ := sp _) in *.
    assert (Q : (m - m') * (1 - ec) = 0).
    { replace ((m - m') * (1 - ec)) with (m - (A + s * S_ + (m + y * s) * ec) - (m' - (A + s * S_ + (m' + y * s) * ec))) by ring.
      rewrite E1, E2. ring. }
    apply no_zero_divisor in Q as [Q|Q].
    + assert (m = m') by (transitivity (m' + (m - m')); [ring|rewrite Q; ring]). subst m'. split; [reflexivity|].
      transitivity (m + c - m); [ring|]. rewrite Em. ring.
    + exfalso. apply He. transitivity (1 - (1 - ec)); [ring|]. rewrite Q. ring.
Qed.

(** *** moving the scalar of the ciphertext *)
Lemma few_scalars W : ec = 1 -> NoDup W -> (forall x, In x W -> good x /\ eqn x /\ sp x + lk_y x <> 0) -> (length W * q <= draws_count q size fs)%nat.
Proof using BL Hnd Hall.
  intros He HW H. rewrite <- all_draws_length.
  apply (lines W elems all_draws (fun c x => mkLuck (lk_t x) (lk_y x) (lk_u x) (lk_s x + c) (lk_m x))); [exact HW|exact Hnd| |].
  - intros x c Hx _. apply all_draws_in. exact (proj1 (H x Hx)).
  - intros [t y u s m] [t' y' u' s' m'] c c' Hx Hx' _ _ E. cbn [lk_t lk_y lk_u lk_s lk_m] in E.
    assert (t' = t /\ y' = y /\ u' = u /\ m' = m /\ s + c = s' + c') as (-> & -> & -> & -> & Es) by (repeat split; congruence).
    destruct (H _ Hx) as (_ & E1 & N1). destruct (H _ Hx') as (_ & E2 & _). apply eqn_form in E1. apply eqn_form in E2.
    change (sp (mkLuck t y u s' m)) with (sp (mkLuck t y u s m)) in E2. change (a0 (mkLuck t y u s' m)) with (a0 (mkLuck t y u s m)) in E2.
    cbn [lk_t lk_y lk_u lk_s lk_m] in E1, E2, N1. set (A := a0 _) in *. set (S_ := sp _) in *. rewrite He in E1, E2.
    assert (Q : (s - s') * (S_ + y) = 0).
    { replace ((s - s') * (S_ + y)) with (A + s * S_ + (m + y * s) * 1 - (A + s' * S_ + (m + y * s') * 1)) by ring.
      rewrite E1, E2. ring. }
    apply no_zero_divisor in Q as [Q|Q]; [|contradiction].
    assert (s = s') by (transitivity (s' + (s - s')); [ring|rewrite Q; ring]). subst s'. split; [reflexivity|].
    transitivity (s + c - s); [ring|]. rewrite Es. ring.
Qed.

(** *** moving [y] and the draws of the keys *)
Lemma separators : exists ws, Forall2 (fun m (w : nat -> K) => suml w (seq 0 (nb_col m)) = 1) ms ws /\
  forall m w, In (m, w) (kept held (combine ms ws)) -> forall x, In x (row_to_attr m) -> In x gam -> dotZ K (row_of m x) w = 0.
Proof using BL HM Hno.
  pose proof HM as HM0. clear - BL HM0 Hno. revert held Hno. induction HM0 as [|f m fs' ms' M HM' IH]; intros held Hno.
  - exists []. split; [constructor|]. intros m w H. destruct held as [|[|] held']; destruct H.
  - assert (Any : exists w : nat -> K, suml w (seq 0 (nb_col m)) = 1).
    { exists (fun i => if Nat.eqb i 0 then 1 else 0). rewrite (mo_cols K f m M). cbn [seq]. rewrite suml_cons. cbn [Nat.eqb].
      rewrite suml_zero; [ring|exact KL|]. intros i Hi. apply in_seq in Hi. destruct i; [lia|reflexivity]. }
    destruct held as [|[|] held'].
    + destruct (IH [] (fun f' Hf' => match Hf' with end)) as (ws & H1 & _). destruct Any as (w & Hw). exists (w :: ws).
      split; [constructor; assumption|]. intros m' w' [].
    + destruct (IH held' (fun f' Hf' => Hno f' (or_intror Hf'))) as (ws & H1 & H2).
      destruct (mo_sep K f m M (attrs gam) (attrs_dec gam) (Hno f (or_introl eq_refl))) as (w & Hw & Ho).
      exists (w :: ws). split; [constructor; assumption|]. cbn [combine kept]. intros m' w' [E|H]; [|exact (H2 m' w' H)].
      assert (m' = m) by congruence. assert (w' = w) by congruence. subst m' w'. intros x Hx Hxg.
      assert (Hl : In x (leaves f)) by (apply (Permutation_in _ (mo_perm K f m M)); exact Hx).
      exact (Ho (x, row_of m x) (leaves_labelled B f m x M Hl) Hxg).
    + destruct (IH held' (fun f' Hf' => Hno f' Hf')) as (ws & H1 & H2). destruct Any as (w & Hw). exists (w :: ws).
      split; [constructor; assumption|]. exact H2.
Qed.

Lemma nth_map_nil {I} (g : I -> list K) (l : list I) k : nth k (map g l) [] = match nth_error l k with Some i => g i | None => [] end.
Proof using. revert k. induction l as [|i l IH]; intros [|k]; try reflexivity. cbn [map nth nth_error]. apply IH. Qed.
Lemma part1_lin {I} (gx gy gz : I -> list K) c l n :
  (forall i, In i l -> forall r, nth r (gz i) 0 = nth r (gx i) 0 + c * nth r (gy i) 0) ->
  part1 B (map gz l) n = part1 B (map gx l) n + c * part1 B (map gy l) n.
Proof using BL.
  intros H. destruct n as [| |k r]; cbn [part1]; try ring. rewrite !nth_map_nil. destruct (nth_error l k) as [i|] eqn:E.
  - apply H. apply nth_error_In in E. exact E.
  - destruct r; cbn [nth]; ring.
Qed.
Lemma nth_exps t m w r : nth r (exps t m w) 0 = match nth_error (row_to_attr m) r with Some x => dotZ K (row_of m x) w * finv (tt B t x) | None => 0 end.
Proof using.
  unfold exps. generalize (row_to_attr m). intros l. revert r. induction l as [|x l IH]; intros [|r]; try reflexivity. cbn [map nth nth_error]. apply IH.
Qed.

Definition kp (t : list K) (ws : list (nat -> K)) : K := key_part B gam a t (xss t ws).
Definition moves (c : K) (ws : list (nat -> K)) (us : list (list K)) : list (list K) := map (fun p => moved c (snd p) (fst p)) (combine us ws).
Definition shifted (ws : list (nat -> K)) (c : K) (x : luck B) : luck B :=
  mkLuck (lk_t x) (lk_y x + c) (moves c ws (lk_u x)) (lk_s x) (lk_m x).

Lemma triples us ws m (u : list K) (w : nat -> K) : Forall2 (fun f (u : list K) => length u = count_and f) fs us ->
  Forall2 (fun m (w : nat -> K) => suml w (seq 0 (nb_col m)) = 1) ms ws -> In (m, (u, w)) (combine ms (combine us ws)) ->
  exists f, In f fs /\ msp_of K f m /\ length u = count_and f /\ suml w (seq 0 (nb_col m)) = 1.
Proof using HM.
  pose proof HM as HM0. clear - HM0. revert us ws. induction HM0 as [|f m' fs' ms' M HM' IH]; intros us ws Hu Hw H; [destruct H|].
  inversion Hu as [|? u' ? us' Hu1 Hu2]; subst. inversion Hw as [|? w' ? ws' Hw1 Hw2]; subst. cbn [combine] in H. destruct H as [H|H].
  - assert (m' = m) by congruence. assert (u' = u) by congruence. assert (w' = w) by congruence. subst m' u' w'.
    exists f. split; [left; reflexivity|split; [exact M|split; assumption]].
  - destruct (IH us' ws' Hu2 Hw2 H) as (f' & Hf' & H'). exists f'. split; [right; exact Hf'|exact H'].
Qed.
Lemma combine_left {Y} (g : list K -> Y) us (ws : list (nat -> K)) : length us = length ws ->
  forall l : list (msp Z), combine l (map g us) = map (fun p => (fst p, g (fst (snd p)))) (combine l (combine us ws)).
Proof using.
  clear. revert ws. induction us as [|u us IH]; intros [|w ws] Hl [|m l]; try reflexivity; try discriminate. cbn [map combine fst snd]. f_equal.
  apply IH. cbn in Hl. lia.
Qed.
Lemma combine_right (us : list (list K)) (ws : list (nat -> K)) : length us = length ws ->
  forall l : list (msp Z), combine l ws = map (fun p => (fst p, snd (snd p))) (combine l (combine us ws)).
Proof using.
  clear. revert ws. induction us as [|u us IH]; intros [|w ws] Hl [|m l]; try reflexivity; try discriminate. cbn [map combine fst snd]. f_equal.
  apply IH. cbn in Hl. lia.
Qed.
Lemma combine_both {Y} (g : list K * (nat -> K) -> Y) us (ws : list (nat -> K)) :
  forall l : list (msp Z), combine l (map g (combine us ws)) = map (fun p => (fst p, g (snd p))) (combine l (combine us ws)).
Proof using.
  clear. intros l. revert l. generalize (combine us ws). intros ps. induction ps as [|p ps IH]; intros [|m l]; try reflexivity. cbn [map combine fst snd]. f_equal. apply IH.
Qed.
Lemma Forall2_len {X Y} (R : X -> Y -> Prop) l l' : Forall2 R l l' -> length l = length l'.
Proof using. intros H. induction H; cbn [length]; congruence. Qed.

Lemma part1_shifted ws c x n : good x -> Forall2 (fun m (w : nat -> K) => suml w (seq 0 (nb_col m)) = 1) ms ws ->
  part1 B (xss (lk_t x) (fulls (shifted ws c x))) n = part1 B (xss (lk_t x) (fulls x)) n + c * part1 B (xss (lk_t x) ws) n.
Proof using BL HM.
  intros ((_ & Hu) & _) Hw. unfold xss, fulls, shifted, moves. cbn [lk_u lk_y].
  assert (Hl : length (lk_u x) = length ws) by (rewrite <- (Forall2_len _ _ _ Hu), <- (Forall2_len _ _ _ Hw); exact (Forall2_len _ _ _ HM)).
  rewrite map_map, combine_both, (combine_left _ (lk_u x) ws Hl ms), (combine_right (lk_u x) ws Hl ms), !map_map, !kept_map.
  apply part1_lin. intros (m & u & w) Hi r. apply kept_in in Hi. cbn [fst snd]. rewrite !nth_exps.
  destruct (triples _ ws m u w Hu Hw Hi) as (f & _ & M & Hlu & Hs).
  destruct (nth_error (row_to_attr m) r) as [z|] eqn:Ez; [|ring]. apply nth_error_In in Ez.
  assert (Hlz : In z (leaves f)) by (apply (Permutation_in _ (mo_perm K f m M)); exact Ez).
  rewrite (mo_cols K f m M), <- Hlu in Hs.
  assert (E : dotZ K (row_of m z) (full (moved c w u) (lk_y x + c)) = dotZ K (row_of m z) (full u (lk_y x)) + c * dotZ K (row_of m z) w).
  { rewrite !(dotZ_cols B BL f m z _ M Hlz). rewrite <- suml_scal by exact KL. rewrite <- suml_add by exact KL.
    apply suml_ext. intros i Hi'. apply in_seq in Hi'. rewrite (mo_cols K f m M), <- Hlu in Hi'. rewrite full_moved by (exact Hs || lia). ring. }
  rewrite E. ring.
Qed.
Lemma sp_shifted ws c x : good x -> Forall2 (fun m (w : nat -> K) => suml w (seq 0 (nb_col m)) = 1) ms ws ->
  sp (shifted ws c x) + (lk_y x + c) = sp x + lk_y x + c * (1 + kp (lk_t x) ws).
Proof using BL HM.
  intros Hx Hw. unfold sp, kp. rewrite !s_part_split by exact BL. change (lk_t (shifted ws c x)) with (lk_t x).
  assert (E : key_part B gam a (lk_t x) (xss (lk_t x) (fulls (shifted ws c x)))
     = key_part B gam a (lk_t x) (xss (lk_t x) (fulls x)) + c * key_part B gam a (lk_t x) (xss (lk_t x) ws)).
  { unfold key_part. rewrite <- suml_scal by exact KL. rewrite <- suml_add by exact KL. apply suml_ext. intros z _.
    rewrite part1_shifted by assumption. ring. }
  rewrite E. ring.
Qed.
Lemma moves_inj c ws us us' : Forall2 (fun f (u : list K) => length u = count_and f) fs us -> Forall2 (fun f (u : list K) => length u = count_and f) fs us' ->
  Forall2 (fun m (w : nat -> K) => suml w (seq 0 (nb_col m)) = 1) ms ws -> moves c ws us = moves c ws us' -> us = us'.
Proof using BL HM.
  clear - BL HM. intros Hu. revert us' ms HM ws. induction Hu as [|f u fs' us Hu1 Hu2 IH]; intros us' ms HM ws Hu' Hw E.
  - inversion Hu'. reflexivity.
  - inversion Hu' as [|? u' ? us1 H1 H2]; subst. inversion HM as [|? m ? ms1 M HM1]; subst. inversion Hw as [|? w ? ws1 Hw1 Hw2]; subst.
    unfold moves in E. cbn [combine map fst snd] in E.
    assert (E1 : moved c w u = moved c w u') by congruence. assert (E2 : moves c ws1 us = moves c ws1 us1) by (unfold moves; congruence).
    f_equal; [apply (moved_inj c w); [congruence|exact E1]|]. exact (IH us1 ms1 HM1 ws1 H2 Hw2 E2).
Qed.
Lemma moves_proper c ws us : Forall2 (fun f (u : list K) => length u = count_and f) fs us ->
  Forall2 (fun m (w : nat -> K) => suml w (seq 0 (nb_col m)) = 1) ms ws -> Forall2 (fun f (u : list K) => length u = count_and f) fs (moves c ws us).
Proof using HM.
  clear - HM. intros Hu. revert ms HM ws. induction Hu as [|f u fs' us Hu1 Hu2 IH]; intros ms HM ws Hw; [constructor|].
  inversion HM as [|? m ? ms1 M HM1]; subst. inversion Hw as [|? w ? ws1 Hw1 Hw2]; subst. unfold moves. cbn [combine map fst snd].
  constructor; [rewrite moved_length; exact Hu1|]. exact (IH ms1 HM1 ws1 Hw2).
Qed.

Lemma few_keys ws W : Forall2 (fun m (w : nat -> K) => suml w (seq 0 (nb_col m)) = 1) ms ws ->
  NoDup W -> (forall x, In x W -> good x /\ sp x + lk_y x = 0 /\ 1 + kp (lk_t x) ws <> 0) -> (length W * q <= draws_count q size fs)%nat.
Proof using BL Hnd Hall HM.
  intros Hw HW H. rewrite <- all_draws_length. apply (lines W elems all_draws (shifted ws)); [exact HW|exact Hnd| |].
  - intros x c Hx _. apply all_draws_in. destruct (H x Hx) as (((Ht & Hu) & Hz) & _). split; [split; [exact Ht|]|exact Hz].
    apply moves_proper; assumption.
  - intros x x' c c' Hx Hx' _ _ E. destruct (H x Hx) as (G & S0 & N). destruct (H x' Hx') as (G' & S0' & _).
    pose proof (sp_shifted ws c x G Hw) as Q. pose proof (sp_shifted ws c' x' G' Hw) as Q'. rewrite S0 in Q. rewrite S0' in Q'. rewrite <- E in Q'.
    assert (Ey : lk_y x + c = lk_y x' + c') by exact (f_equal lk_y E). assert (Et : lk_t x = lk_t x') by exact (f_equal lk_t E).
    rewrite <- Ey, <- Et, Q in Q'.
    assert (D : (c - c') * (1 + kp (lk_t x) ws) = 0).
    { replace ((c - c') * (1 + kp (lk_t x) ws)) with (0 + c * (1 + kp (lk_t x) ws) - (0 + c' * (1 + kp (lk_t x) ws))) by ring. rewrite Q'. ring. }
    apply no_zero_divisor in D as [D|D]; [|contradiction]. assert (c = c') by (transitivity (c' + (c - c')); [ring|rewrite D; ring]). subst c'.
    split; [|reflexivity]. assert (Eu : moves c ws (lk_u x) = moves c ws (lk_u x')) by exact (f_equal lk_u E).
    apply moves_inj in Eu; [|exact (proj2 (proj1 G))|exact (proj2 (proj1 G'))|exact Hw].
    assert (Ey' : lk_y x = lk_y x') by (transitivity (lk_y x + c - c); [ring|]; rewrite Ey; ring).
    assert (Es : lk_s x = lk_s x') by exact (f_equal lk_s E). assert (Em : lk_m x = lk_m x') by exact (f_equal lk_m E).
    destruct x, x'. cbn in *. congruence.
Qed.

(** *** scaling the secrets of the attributes that are not in the ciphertext *)
Definition scale (l : K) (t : list K) : list K :=
  map (fun i => if existsb (N.eqb (N.of_nat i)) gam then nth i t 0 else l * nth i t 0) (seq 0 (length t)).
Lemma scale_length l t : length (scale l t) = length t.
Proof using. unfold scale. rewrite map_length, seq_length. reflexivity. Qed.
Lemma nth_scale l t i : nth i (scale l t) 0 = if existsb (N.eqb (N.of_nat i)) gam then nth i t 0 else l * nth i t 0.
Proof using BL.
  destruct (Nat.lt_ge_cases i (length t)) as [Hi|Hi].
  - unfold scale. set (g := fun i => _). rewrite (nth_indep _ 0 (g 0%nat)) by (rewrite map_length, seq_length; exact Hi).
    rewrite map_nth, seq_nth by exact Hi. reflexivity.
  - rewrite !nth_overflow by (rewrite ?scale_length; exact Hi). destruct (existsb _ _); ring.
Qed.
Lemma tt_scale l t x : tt B (scale l t) x = if existsb (N.eqb x) gam then tt B t x else l * tt B t x.
Proof using BL. unfold tt. rewrite nth_scale, N2Nat.id. reflexivity. Qed.
Lemma scale_nonzero l t : l <> 0 -> (forall z, In z t -> z <> 0) -> forall z, In z (scale l t) -> z <> 0.
Proof using BL.
  intros Hl Ht z Hz. unfold scale in Hz. apply in_map_iff in Hz as (i & <- & Hi). apply in_seq in Hi.
  assert (Hn : nth i t 0 <> 0) by (apply Ht, nth_In; lia). destruct (existsb _ _); [exact Hn|].
  intros Q. apply no_zero_divisor in Q as [Q|Q]; contradiction.
Qed.
Lemma scale_inj l t t' : l <> 0 -> scale l t = scale l t' -> t = t'.
Proof using BL.
  intros Hl E. assert (El : length t = length t') by (rewrite <- (scale_length l t), <- (scale_length l t'), E; reflexivity).
  apply (nth_ext _ _ 0 0); [exact El|]. intros i Hi. assert (Q : nth i (scale l t) 0 = nth i (scale l t') 0) by (rewrite E; reflexivity).
  rewrite !nth_scale in Q. destruct (existsb _ _); [exact Q|]. transitivity (finv l * (l * nth i t 0)); [field; exact Hl|]. rewrite Q. field. exact Hl.
Qed.
Lemma kp_scale ws l t : l <> 0 -> length t = size -> (forall z, In z t -> z <> 0) ->
  Forall2 (fun m (w : nat -> K) => suml w (seq 0 (nb_col m)) = 1) ms ws ->
  (forall m w, In (m, w) (kept held (combine ms ws)) -> forall x, In x (row_to_attr m) -> In x gam -> dotZ K (row_of m x) w = 0) ->
  kp (scale l t) ws = finv l * kp t ws.
Proof using BL HM Hin Hg.
  intros Hl Ht Hz Hw H0. unfold kp, key_part. rewrite <- suml_scal by exact KL. apply suml_ext. intros z _.
  assert (Q : part2 B (scale l t) gam (snd (fst z)) = part2 B t gam (snd (fst z))).
  { destruct (snd (fst z)) as [| |j]; cbn [part2]; try reflexivity. f_equal. apply map_ext_in. intros x Hx. rewrite tt_scale.
    assert (Eg : existsb (N.eqb x) gam = true) by (apply existsb_exists; exists x; split; [exact Hx|apply N.eqb_refl]). rewrite Eg. reflexivity. }
  assert (X : xss (scale l t) ws = map (map (fun x => finv l * x)) (xss t ws)).
  { unfold xss. rewrite !kept_map, map_map. apply map_ext_in. intros [m w] Hi. unfold exps. cbn [fst snd]. rewrite map_map. apply map_ext_in. intros x Hx.
    rewrite tt_scale. destruct (existsb (N.eqb x) gam) eqn:Eg.
    - apply existsb_exists in Eg as (x' & Hx' & Ex). apply N.eqb_eq in Ex. subst x'. rewrite (H0 m w Hi x Hx Hx'). ring.
    - assert (Hxn : tt B t x <> 0).
      { apply tt_nonzero; [exact Hz|]. unfold in_range. rewrite Ht. apply kept_in in Hi. apply in_combine_l in Hi.
        pose proof HM as HM0. clear - HM0 Hin Hi Hx. revert Hin. induction HM0 as [|f m' fs' ms' M HM' IH]; intros Hin; [destruct Hi|].
        destruct Hi as [->|Hi].
        - apply (Hin f x (or_introl eq_refl)). apply (Permutation_in _ (mo_perm K f m M)). exact Hx.
        - apply (IH Hi). intros f' x' Hf'. apply Hin. right. exact Hf'. }
      field. split; assumption. }
  rewrite Q, X, part1_scaled by exact BL. ring.
Qed.
Lemma few_secrets ws W : Forall2 (fun m (w : nat -> K) => suml w (seq 0 (nb_col m)) = 1) ms ws ->
  (forall m w, In (m, w) (kept held (combine ms ws)) -> forall x, In x (row_to_attr m) -> In x gam -> dotZ K (row_of m x) w = 0) ->
  NoDup W -> (forall x, In x W -> good x /\ 1 + kp (lk_t x) ws = 0) -> (length W * (q - 1) <= draws_count q size fs)%nat.
Proof using BL Hnd Hall HM Hin Hg.
  intros Hw H0 HW H. rewrite <- all_draws_length, <- nz_length.
  apply (lines W nz all_draws (fun l x => mkLuck (scale l (lk_t x)) (lk_y x) (lk_u x) (lk_s x) (lk_m x))); [exact HW|exact nz_nodup| |].
  - intros x l Hx Hl. apply nz_in in Hl. apply all_draws_in. destruct (H x Hx) as (((Ht & Hu) & Hz) & _).
    split; [split; [cbn [lk_t]; rewrite scale_length; exact Ht|exact Hu]|]. apply scale_nonzero; assumption.
  - intros x x' l l' Hx Hx' Hl Hl' E. apply nz_in in Hl. apply nz_in in Hl'. destruct (H x Hx) as (((Ht & Hu) & Hz) & N). destruct (H x' Hx') as (((Ht' & Hu') & Hz') & N').
    assert (Et : scale l (lk_t x) = scale l' (lk_t x')) by exact (f_equal lk_t E).
    pose proof (kp_scale ws l (lk_t x) Hl Ht Hz Hw H0) as Q. pose proof (kp_scale ws l' (lk_t x') Hl' Ht' Hz' Hw H0) as Q'.
    assert (M : kp (lk_t x) ws = - (1)) by (transitivity (1 + kp (lk_t x) ws - 1); [ring|rewrite N; ring]).
    assert (M' : kp (lk_t x') ws = - (1)) by (transitivity (1 + kp (lk_t x') ws - 1); [ring|rewrite N'; ring]).
    rewrite Et, Q', M, M' in Q.
    assert (l = l') by (transitivity (- (l * l' * (finv l' * - (1)))); [field; exact Hl'|rewrite Q; field; exact Hl]). subst l'.
    split; [|reflexivity]. apply (scale_inj l _ _ Hl) in Et.
    assert (Ey : lk_y x = lk_y x') by exact (f_equal lk_y E). assert (Eu : lk_u x = lk_u x') by exact (f_equal lk_u E).
    assert (Es : lk_s x = lk_s x') by exact (f_equal lk_s E). assert (Em : lk_m x = lk_m x') by exact (f_equal lk_m E).
    destruct x, x'. cbn in *. congruence.
Qed.

Definition tb {X : Prop} {Y : Prop} (d : {X} + {Y}) : bool := if d then true else false.
Lemma few_draws W : NoDup W -> (forall x, In x W -> good x /\ eqn x) -> (length W * (q - 1) <= 3 * draws_count q size fs)%nat.
Proof using BL Hnd Hall HM Hin Hg Hno.
  intros HW H. destruct (K_eq_dec K KL ec 1) as [He|He].
  2: { pose proof (few_messages W He HW H). nia. }
  destruct separators as (ws & Hw & H0).
  set (p1 := fun x => tb (K_eq_dec K KL (sp x + lk_y x) 0)). set (p2 := fun x => tb (K_eq_dec K KL (1 + kp (lk_t x) ws) 0)).
  pose proof (split_count W p1) as L1. set (W0 := filter p1 W) in *. set (W1 := filter (fun x => negb (p1 x)) W) in *.
  pose proof (split_count W0 p2) as L2. set (W3 := filter p2 W0) in *. set (W2 := filter (fun x => negb (p2 x)) W0) in *.
  assert (A1 : (length W1 * q <= draws_count q size fs)%nat).
  { apply few_scalars; [exact He|apply NoDup_filter; exact HW|]. intros x Hx. apply filter_In in Hx as [Hx Hp]. destruct (H x Hx) as [G E].
    split; [exact G|split; [exact E|]]. unfold p1 in Hp. destruct (K_eq_dec K KL (sp x + lk_y x) 0) as [|N]; [discriminate Hp|exact N]. }
  assert (A2 : (length W2 * q <= draws_count q size fs)%nat).
  { apply (few_keys ws); [exact Hw|apply NoDup_filter, NoDup_filter; exact HW|]. intros x Hx. apply filter_In in Hx as [Hx Hp]. apply filter_In in Hx as [Hx Hp1].
    destruct (H x Hx) as [G E]. split; [exact G|]. unfold p1 in Hp1. unfold p2 in Hp.
    destruct (K_eq_dec K KL (sp x + lk_y x) 0) as [S0|]; [|discriminate Hp1]. destruct (K_eq_dec K KL (1 + kp (lk_t x) ws) 0) as [|N]; [discriminate Hp|].
    split; assumption. }
  assert (A3 : (length W3 * (q - 1) <= draws_count q size fs)%nat).
  { apply (few_secrets ws); [exact Hw|exact H0|apply NoDup_filter, NoDup_filter; exact HW|]. intros x Hx. apply filter_In in Hx as [Hx Hp]. apply filter_In in Hx as [Hx _].
    split; [exact (proj1 (H x Hx))|]. unfold p2 in Hp. destruct (K_eq_dec K KL (1 + kp (lk_t x) ws) 0) as [E|]; [exact E|discriminate Hp]. }
  nia.
Qed.
End Fresh.

(** ** Histories *)
Lemma transport {X} (R : X -> X -> Prop) (W : list X) : NoDup W -> (forall x, In x W -> exists x', R x x') ->
  (forall x1 x2 x', In x1 W -> In x2 W -> R x1 x' -> R x2 x' -> x1 = x2) ->
  exists W', NoDup W' /\ length W' = length W /\ forall x', In x' W' -> exists x, In x W /\ R x x'.
Proof using.
  intros HW. induction HW as [|x W Hx HW IH]; intros Hex Hinj; [exists []; split; [constructor|split; [reflexivity|intros x []]]|].
  destruct IH as (W' & H1 & H2 & H3).
  - intros z Hz. apply Hex. right. exact Hz.
  - intros z1 z2 z' Hz1 Hz2. apply Hinj; right; assumption.
  - destruct (Hex x (or_introl eq_refl)) as (x' & Hx'). exists (x' :: W'). split; [|split].
    + constructor; [|exact H1]. intros Q. destruct (H3 x' Q) as (z & Hz & Rz). apply Hx.
      rewrite (Hinj x z x' (or_introl eq_refl) (or_intror Hz) Hx' Rz). exact Hz.
    + cbn [length]. congruence.
    + intros z [<-|Hz]; [exists x; split; [left; reflexivity|exact Hx']|]. destruct (H3 z Hz) as (z0 & Hz0 & Rz). exists z0. split; [right; exact Hz0|exact Rz].
Qed.

Inductive fresh_with (P : platform) (mk : master_key B) : list node -> list (list K) -> list (decryption_key B) -> Prop :=
| fw_nil : fresh_with P mk [] [] []
| fw_cons f m u uk fs us uks : length u = count_and f -> to_msp P f = Ok m -> key_generation m (priv_key mk) (values u) = Ok uk ->
    fresh_with P mk fs us uks -> fresh_with P mk (f :: fs) (u :: us) (uk :: uks).

Lemma issued_with_issued P (mk : master_key B) h fs us uks : issued_with P mk h fs us uks -> issued P mk h fs uks.
Proof using.
  intros H. induction H as [|h fs us uks f m u uk _ IH H1 H2|h fs us uks k f uk f' m' u uk' _ IH H1 H2 H3 H4 H5|h fs us uks k f uk u uk' _ IH H1 H2 H3].
  - constructor.
  - exact (is_gen P mk h fs uks f m (values u) uk IH H1 H2).
  - exact (is_del P mk h fs uks k f uk f' m' (values u) uk' IH H1 H2 H3 H4 H5).
  - exact (is_ref P mk h fs uks k f uk (values u) uk' IH H1 H2 H3).
Qed.
Lemma Forall2_nth {X Y} (R : X -> Y -> Prop) l l' k x y : Forall2 R l l' -> nth_error l k = Some x -> nth_error l' k = Some y -> R x y.
Proof using. intros H Hx Hy. destruct (Forall2_nth_error R l l' k x H Hx) as (z & Hz & Q). assert (z = y) by congruence. subst z. exact Q. Qed.

(** the draws of a fresh key *)
Lemma as_list P f m p u (delta : nat -> K) uk : to_msp P f = Ok m -> length u = count_and f ->
  key_generation m p (fun i => values u i + delta i) = Ok uk ->
  length (moved 1 delta u) = count_and f /\ key_generation m p (values (moved 1 delta u)) = Ok uk.
Proof using BL.
  intros Hm Hl Hk. split; [rewrite moved_length; exact Hl|]. rewrite <- Hk. pose proof (to_msp_msp_of K KL P f m Hm) as M.
  unfold key_generation. rewrite (sharing_vector_ext B (nb_col m) (values (moved 1 delta u)) (fun i => values u i + delta i)); [reflexivity|].
  intros i Hi. rewrite (mo_cols K f m M) in Hi. unfold values. rewrite moved_nth by lia. ring.
Qed.
Lemma issued_fresh P size mdraw (mk : master_key B) h fs us uks : generate_master_key size mdraw = Ok mk ->
  issued_with P mk h fs us uks -> Forall2 (fun f (u : list K) => length u = count_and f) fs us -> exists us', fresh_with P mk fs us' uks.
Proof using BL.
  intros Hmk H. induction H as [|h fs us uks f m u uk Hh IH H1 H2|h fs us uks k f uk f' m' u uk' Hh IH H1 H2 H3 H4 H5|h fs us uks k f uk u uk' Hh IH H1 H2 H3]; intros Hu.
  - exists []. constructor.
  - inversion Hu as [|? ? ? ? Hu1 Hu2]; subst. destruct (IH Hu2) as (us' & F). exists (u :: us'). exact (fw_cons P mk f m u uk fs us' uks Hu1 H1 H2 F).
  - inversion Hu as [|? ? ? ? Hu1 Hu2]; subst. destruct (IH Hu2) as (us' & F).
    pose proof (Forall2_nth _ _ _ _ _ _ (issued_derived B P mk h fs uks (issued_with_issued P mk h fs us uks Hh)) H1 H2) as D.
    destruct (C75_delegated_as_fresh B BL P size mdraw mk f uk f' m' Hmk D H3 H4) as (delta & Hd). destruct (Hd (values u)) as (uk1 & E1 & E2).
    assert (uk1 = uk') by congruence. subst uk1. destruct (as_list P f' m' _ u delta uk' H4 Hu1 E2) as (L & E3).
    exists (moved 1 delta u :: us'). exact (fw_cons P mk f' m' _ uk' fs us' uks L H4 E3 F).
  - inversion Hu as [|? ? ? ? Hu1 Hu2]; subst. destruct (IH Hu2) as (us' & F).
    pose proof (Forall2_nth _ _ _ _ _ _ (issued_derived B P mk h fs uks (issued_with_issued P mk h fs us uks Hh)) H1 H2) as D.
    destruct (proj1 (C75_derived_iff_generated B BL P size mdraw mk f uk Hmk) D) as (m & _ & Hm & _).
    destruct (C75_randomised_as_fresh B BL P size mdraw mk f m uk Hmk D Hm) as (delta & Hd). destruct (Hd (values u)) as (uk1 & E1 & E2).
    assert (uk1 = uk') by congruence. subst uk1. destruct (as_list P f m _ u delta uk' Hm Hu1 E2) as (L & E3).
    exists (moved 1 delta u :: us'). exact (fw_cons P mk f m _ uk' fs us' uks L Hm E3 F).
Qed.

Lemma lists_equal n (u u' : list K) : length u = n -> length u' = n -> (forall i, (i < n)%nat -> values u i = values u' i) -> u = u'.
Proof using. intros H H' E. apply (nth_ext _ _ 0 0); [congruence|]. intros i Hi. apply E. lia. Qed.
Lemma same_keys P size mdraw (mk : master_key B) h fs us uks : generate_master_key size mdraw = Ok mk -> issued_with P mk h fs us uks ->
  Forall2 (fun f (u : list K) => length u = count_and f) fs us -> forall us', issued_with P mk h fs us' uks ->
  Forall2 (fun f (u : list K) => length u = count_and f) fs us' -> us = us'.
Proof using BL.
  intros Hmk H. induction H as [|h fs us uks f m u uk Hh IH H1 H2|h fs us uks k f uk f' m' u uk' Hh IH H1 H2 H3 H4 H5|h fs us uks k f uk u uk' Hh IH H1 H2 H3];
    intros Hu us' Q Hu'; inversion Q as [|? ? us1 ? ? m1 u1 ? Qh Q1 Q2|? ? us1 ? k1 f1 uk1 f'1 m1 u1 ? Qh Q1 Q2 Q3 Q4 Q5|? ? us1 ? k1 f1 uk1 u1 ? Qh Q1 Q2 Q3]; subst.
  - reflexivity.
  - inversion Hu as [|? ? ? ? Hu1 Hu2]; subst. inversion Hu' as [|? ? ? ? Hu1' Hu2']; subst. rewrite <- (IH Hu2 us1 Qh Hu2'). f_equal.
    assert (m1 = m) by congruence. subst m1.
    apply (lists_equal (count_and f)); [assumption|assumption|]. exact (proj1 (C97_equal_keys B BL P size mdraw mk f m _ _ uk uk Hmk H1 H2 Q2) eq_refl).
  - inversion Hu as [|? ? ? ? Hu1 Hu2]; subst. inversion Hu' as [|? ? ? ? Hu1' Hu2']; subst. rewrite <- (IH Hu2 us1 Qh Hu2'). f_equal.
    assert (m1 = m') by congruence. assert (uk1 = uk) by congruence. subst m1 uk1.
    pose proof (Forall2_nth _ _ _ _ _ _ (issued_derived B P mk h fs uks (issued_with_issued P mk h fs us uks Hh)) H1 H2) as D.
    destruct (C75_delegated_as_fresh B BL P size mdraw mk f uk f' m' Hmk D H3 H4) as (delta & Hd).
    destruct (Hd (values u)) as (x1 & E1 & E2). destruct (Hd (values u1)) as (x2 & E3 & E4).
    assert (x1 = uk') by congruence. assert (x2 = uk') by congruence. subst x1 x2.
    apply (lists_equal (count_and f')); [assumption|assumption|]. intros i Hi.
    pose proof (proj1 (C97_equal_keys B BL P size mdraw mk f' m' _ _ uk' uk' Hmk H4 E2 E4) eq_refl i Hi) as E. cbv beta in E.
    transitivity (values u i + delta i - delta i); [ring|]. rewrite E. ring.
  - inversion Hu as [|? ? ? ? Hu1 Hu2]; subst. inversion Hu' as [|? ? ? ? Hu1' Hu2']; subst. rewrite <- (IH Hu2 us1 Qh Hu2'). f_equal.
    assert (uk1 = uk) by congruence. subst uk1.
    pose proof (Forall2_nth _ _ _ _ _ _ (issued_derived B P mk h fs uks (issued_with_issued P mk h fs us uks Hh)) H1 H2) as D.
    apply (lists_equal (count_and f)); [assumption|assumption|].
    exact (proj1 (proj1 (C97_refreshed_keys B BL P size mdraw mk f uk _ _ uk' uk' Hmk D H3 Q3)) eq_refl).
Qed.

Lemma fresh_with_functional P (mk : master_key B) fs us uks uks' : fresh_with P mk fs us uks -> fresh_with P mk fs us uks' -> uks = uks'.
Proof using.
  intros H. revert uks'. induction H as [|f m u uk fs us uks H1 H2 H3 _ IH]; intros uks' Q; inversion Q; subst; [reflexivity|].
  f_equal; [congruence|]. apply IH. assumption.
Qed.
Lemma fresh_with_lengths P (mk : master_key B) fs us uks : fresh_with P mk fs us uks -> Forall2 (fun f (u : list K) => length u = count_and f) fs us.
Proof using. intros H. induction H; constructor; assumption. Qed.
Lemma fresh_with_exps P t y fs us uks ms : Forall2 (fun f m => to_msp P f = Ok m) fs ms -> fresh_with P (master_of B t y) fs us uks ->
  Forall2 (holds_exponents B) uks (map (fun p => exps t (fst p) (full (snd p) y)) (combine ms us)).
Proof using BL.
  intros HM H. revert ms HM. induction H as [|f m u uk fs us uks H1 H2 H3 _ IH]; intros ms HM; inversion HM as [|? m1 ? ms1 HM1 HM2]; subst; [constructor|].
  cbn [combine map fst snd]. constructor; [|exact (IH ms1 HM2)]. assert (m1 = m) by congruence. subst m1.
  exact (key_exps f m t y u uk (to_msp_msp_of K KL P f m H2) H1 H3).
Qed.

Lemma values_app (t : list K) y : draws (values (t ++ [y])) 0 (length t) = t /\ values (t ++ [y]) (length t) = y.
Proof using.
  split.
  - unfold draws, values. apply (nth_ext _ _ 0 0); [rewrite map_length, seq_length; reflexivity|]. intros i Hi. rewrite map_length, seq_length in Hi.
    rewrite (nth_indep _ 0 ((fun i => nth i (t ++ [y]) 0) 0%nat)) by (rewrite map_length, seq_length; exact Hi).
    rewrite (map_nth (fun i => nth i (t ++ [y]) 0)), seq_nth by exact Hi. apply app_nth1. exact Hi.
  - unfold values. rewrite app_nth2, Nat.sub_diag by lia. reflexivity.
Qed.
Lemma master_values size t y (mk : master_key B) : length t = size -> generate_master_key size (values (t ++ [y])) = Ok mk ->
  mk = master_of B t y /\ forall z, In z t -> z <> 0.
Proof using BL.
  intros Ht H. destruct (generate_master_key_inv B BL _ _ _ H) as (t' & y' & -> & Hl & Hz).
  destruct (values_app t y) as [E1 E2]. subst size. unfold generate_master_key in H. rewrite E1, E2 in H.
  apply bind_ok in H as (inv & _ & H). assert (E : priv_key (master_of B t' y') = mkPriv t y) by (assert (Q := f_equal (fun o => match o with Ok k => Some (priv_key k) | _ => None end) H); cbn [priv_key] in Q; congruence).
  unfold master_of in E. cbn [priv_key] in E. assert (t' = t) by congruence. assert (y' = y) by congruence. subst t' y'. split; [reflexivity|exact Hz].
Qed.

(** ** C99 *)
(** A strategy finds the message with at most three in [q - 1] of the draws, if none of the keys held
    is satisfied by the attributes of the ciphertext. *)
Theorem C99_rarely_found P size h fs held gam (a : strategy B) (elems : list K) (found : list (luck B)) :
  NoDup elems -> (forall x : K, In x elems) ->
  (forall f, In f (kept held fs) -> ~ holds (attrs gam) f) ->
  NoDup found -> (forall x, In x found -> proper size fs x /\ finds P size h fs held gam a x) ->
  (length found * (length elems - 1) <= 3 * draws_count (length elems) size fs)%nat.
Proof using BL.
  intros Hnd Hall Hno HW H.
  destruct found as [|x0 found0] eqn:E0; [cbn [length]; lia|].
  assert (Hx0 : In x0 found) by (subst found; left; reflexivity). rewrite <- E0 in *. clear E0.
  assert (C : (exists ms, Forall2 (fun f m => to_msp P f = Ok m) fs ms) /\
     (forall f x, In f fs -> In x (leaves f) -> (N.to_nat x < size)%nat) /\ forall x, In x gam -> (N.to_nat x < size)%nat).
  { destruct (H x0 Hx0) as ((Ht & _) & mk & uks & ct & Hmk & Hi & Hct & _).
    destruct (master_values size (lk_t x0) (lk_y x0) mk Ht Hmk) as [-> Hz].
    pose proof (issued_derived B P _ h fs uks (issued_with_issued P _ h fs _ uks Hi)) as D.
    assert (Hms : forall f, In f fs -> (exists m, to_msp P f = Ok m) /\ forall x, In x (leaves f) -> (N.to_nat x < size)%nat).
    { intros f Hf. assert (E : exists uk, derived B P (master_of B (lk_t x0) (lk_y x0)) f uk).
      { clear - D Hf. revert Hf. induction D as [|f1 u1 fs uks D _ IH]; intros Hf; [destruct Hf|]. destruct Hf as [<-|Hf]; [exists u1; exact D|exact (IH Hf)]. }
      destruct E as (uk & E). destruct (derived_good B BL P _ _ f uk Hz E) as ((m & sg & R & _) & _ & Hm). split; [exact Hm|].
      intros x Hx. rewrite <- Ht. exact (kr_range _ _ _ _ _ _ R x Hx). }
    split; [|split].
    - clear - Hms. induction fs as [|f l IH]; [exists []; constructor|]. destruct (Hms f (or_introl eq_refl)) as ((m & Hm) & _).
      destruct IH as (ms & IH); [intros g Hg; apply Hms; right; exact Hg|]. exists (m :: ms). constructor; assumption.
    - intros f x Hf. exact (proj2 (Hms f Hf) x).
    - intros x Hx. destruct (encrypt_inv B BL _ _ _ _ _ _ _ Hct) as (_ & Hr & _). rewrite <- Ht. exact (Hr x Hx). }
  destruct C as ((ms & HM) & Hin & Hg).
  assert (HM' : Forall2 (msp_of K) fs ms) by (clear - BL HM; induction HM as [|f m l l' E _ IH]; constructor; [exact (to_msp_msp_of K KL P f m E)|exact IH]).
  set (R := fun x x' : luck B => exists uks, issued_with P (master_of B (lk_t x) (lk_y x)) h fs (lk_u x) uks /\
     fresh_with P (master_of B (lk_t x) (lk_y x)) fs (lk_u x') uks /\
     lk_t x' = lk_t x /\ lk_y x' = lk_y x /\ lk_s x' = lk_s x /\ lk_m x' = lk_m x /\ eqn ms held gam a x').
  assert (G : forall x, In x found -> generate_master_key size (values (lk_t x ++ [lk_y x])) = Ok (master_of B (lk_t x) (lk_y x)) /\
     length (lk_t x) = size /\ (forall z, In z (lk_t x) -> z <> 0)).
  { intros x Hx. destruct (H x Hx) as ((Ht & _) & mk & uks & ct & Hmk & _). destruct (master_values size (lk_t x) (lk_y x) mk Ht Hmk) as [-> Hz].
    split; [exact Hmk|split; assumption]. }
  destruct (transport R found HW) as (W' & H1 & H2 & H3).
  - intros x Hx. destruct (G x Hx) as (Hmk & Ht & Hz). destruct (H x Hx) as ((_ & Hu) & mk & uks & ct & Hmk' & Hi & Hct & Ha).
    assert (mk = master_of B (lk_t x) (lk_y x)) by congruence. subst mk.
    destruct (issued_fresh P size _ _ h fs (lk_u x) uks Hmk Hi Hu) as (us' & F).
    exists (mkLuck (lk_t x) (lk_y x) us' (lk_s x) (lk_m x)). exists uks. cbn [lk_t lk_y lk_u lk_s lk_m].
    split; [exact Hi|split; [exact F|do 4 (split; [reflexivity|])]].
    destruct (encrypt_inv B BL _ _ _ _ _ _ _ Hct) as (_ & _ & ->).
    pose proof (kept_Forall2 _ held _ _ (fresh_with_exps P _ _ fs us' uks ms HM F)) as X.
    rewrite (attack_value B BL _ _ gam (lk_m x) (lk_s x) (kept held uks) _ a X) in Ha. apply (bl_gt_inj B BL) in Ha.
    unfold eqn, xss, fulls. cbn [lk_t lk_y lk_u lk_s lk_m].
    replace (map (fun p => exps (lk_t x) (fst p) (snd p)) (combine ms (map (fun u => full u (lk_y x)) us')))
      with (map (fun p => exps (lk_t x) (fst p) (full (snd p) (lk_y x))) (combine ms us')); [exact Ha|].
    clear. revert us'. induction ms as [|m l IH]; intros [|u us']; try reflexivity. cbn [combine map fst snd]. f_equal. apply IH.
  - intros x1 x2 x' Hx1 Hx2 (uks1 & I1 & F1 & T1 & Y1 & S1 & M1 & _) (uks2 & I2 & F2 & T2 & Y2 & S2 & M2 & _).
    destruct (G x1 Hx1) as (Hmk & _). rewrite <- T1, <- Y1 in I1, F1, Hmk. rewrite <- T2, <- Y2 in I2, F2.
    pose proof (fresh_with_functional P _ fs _ uks1 uks2 F1 F2). subst uks2.
    pose proof (same_keys P size _ _ h fs _ uks1 Hmk I1 (proj2 (proj1 (H x1 Hx1))) _ I2 (proj2 (proj1 (H x2 Hx2)))) as Eu.
    destruct x1, x2. cbn in *. congruence.
  - rewrite <- H2. apply (few_draws elems size fs ms held gam a Hnd Hall HM' Hin Hg Hno W' H1).
    intros x' Hx'. destruct (H3 x' Hx') as (x & Hx & uks & _ & F & T & _ & _ & _ & E). destruct (G x Hx) as (_ & Ht & Hz).
    split; [|exact E]. split; [split; [rewrite T; exact Ht|exact (fresh_with_lengths P _ fs _ uks F)]|]. rewrite T. exact Hz.
Qed.
End Luck.

(** ** The order of the group *)
Lemma zp_elems (p : modulus) : exists elems : list (zp p), NoDup elems /\ (forall x, In x elems) /\ Z.of_nat (length elems) = mval p.
Proof.
  assert (Hp : (1 < mval p)%Z) by (destruct p as [p Hp]; apply Z.ltb_lt; exact Hp).
  exists (map (fun i => zmod p (Z.of_nat i)) (seq 0 (Z.to_nat (mval p)))). split; [|split].
  - apply NoDup_map_in; [apply seq_NoDup|]. intros i j Hi Hj E. apply in_seq in Hi. apply in_seq in Hj. apply (f_equal zval) in E. cbn [zmod zval] in E.
    rewrite !Z.mod_small in E by lia. lia.
  - intros x. apply in_map_iff. exists (Z.to_nat (zval x)). pose proof (zp_range p x) as R. split; [|apply in_seq; lia].
    apply zp_eq. cbn [zmod zval]. rewrite Z.mod_small by lia. lia.
  - rewrite map_length, seq_length. lia.
Qed.

Lemma draws_count_Z q size fs (r : Z) : (1 < r)%Z -> Z.of_nat q = r ->
  Z.of_nat (draws_count q size fs) = ((r - 1) ^ Z.of_nat size * r ^ Z.of_nat (3 + list_sum (map count_and fs)))%Z.
Proof.
  intros Hr E. unfold draws_count. rewrite Nat2Z.inj_mul, !Nat2Z.inj_pow, Nat2Z.inj_sub, E by lia. reflexivity.
Qed.

Lemma count_bound n q D (r p : Z) : Z.of_nat q = r -> (n * (q - 1) <= 3 * D)%nat -> (3 * p <= r - 1)%Z -> (Z.of_nat n * p <= Z.of_nat D)%Z.
Proof.
  intros E L R. destruct q as [|q]; [cbn in E; nia|]. apply inj_le in L. rewrite !Nat2Z.inj_mul in L.
  assert (Q : (Z.of_nat n * (3 * p) <= Z.of_nat n * (r - 1))%Z) by (apply Z.mul_le_mono_nonneg_l; lia).
  replace (Z.of_nat (S q - 1)) with (r - 1)%Z in L by lia. lia.
Qed.

(** With the group of the library less than one draw in 2 to the power of 253 lets a strategy find
    the message. *)
Theorem C99_negligible (C : curve) (H : contract C) P size h fs held gam (a : strategy (bls_map C)) (found : list (luck (bls_map C))) :
  (forall f, In f (kept held fs) -> ~ holds (attrs gam) f) ->
  NoDup found -> (forall x, In x found -> proper size fs x /\ finds P size h fs held gam a x) ->
  (Z.of_nat (length found) * 2 ^ 253 <= (bls_r - 1) ^ Z.of_nat size * bls_r ^ Z.of_nat (3 + list_sum (map count_and fs)))%Z.
Proof.
  intros Hno Hnd Hf. destruct (zp_elems bls_mod) as (elems & E1 & E2 & E3).
  pose proof (C99_rarely_found (bls_map C) (bls_map_laws C H) P size h fs held gam a elems found E1 E2 Hno Hnd Hf) as L.
  assert (R : (3 * 2 ^ 253 <= bls_r - 1)%Z) by (apply Z.leb_le; vm_compute; reflexivity).
  assert (E4 : Z.of_nat (length elems) = bls_r) by exact E3. clear E3.
  rewrite <- (draws_count_Z (length elems) size fs bls_r); [|apply Z.ltb_lt; vm_compute; reflexivity|exact E4].
  exact (count_bound _ _ _ bls_r _ E4 L R).
Qed.

(** ** Examples *)
Local Ltac vmr x := vm_cast_no_check (eq_refl x).
(** The strategy that takes the masked message for the message, and draws with which it finds the
    message though the keys are not satisfied: the scalar of the ciphertext is 0. *)
Definition c99_a : strategy toy := @mkStrategy toy [] [(CtMasked, f1)].
Definition c99_x : luck toy :=
  @mkLuck toy (draws ex_draw 0 10) (ex_draw 10) [[ex_draw 0]; [ex_kdraw 0; ex_kdraw 1]; [ex_draw 0]] f0 (f101 77).
Definition c99_ct : ciphertext toy := run (@mkCt toy [] f0 []) (encrypt pf (gt_gen_exp toy (lk_m c99_x)) [1; 5]%N (pub_key ex_mk) (lk_s c99_x)).
Example C99_example :
  (exists elems : list (bm_K toy), NoDup elems /\ (forall x, In x elems) /\ length elems = 101%nat) /\
  (forall f, In f (kept [true; false; true] c09_fs) -> ~ holds (attrs [1; 5]%N) f) /\
  proper 10 c09_fs c99_x /\ finds pf 10 c09_h c09_fs [true; false; true] [1; 5]%N c99_a c99_x.
Proof.
  split; [|split; [|split; [|]]].
  - destruct (zp_elems m101) as (elems & E1 & E2 & E3). exists elems. split; [exact E1|split; [exact E2|]].
    apply Nat2Z.inj. exact E3.
  - intros f [<-|[<-|[]]] Hh; unfold attrs in Hh; simpl in Hh; intuition discriminate.
  - split; [reflexivity|]. repeat constructor.
  - exists ex_mk, [c75_key; ex_uk; c09_uk], c99_ct.
    destruct ex_setup as (H1 & H2 & H3 & _). destruct C75_example as (R & D1 & D2 & _).
    split; [vmr (@Ok (master_key toy) ex_mk)|]. split; [|split; [vmr (@Ok (ciphertext toy) c99_ct)|vmr (gt_gen_exp toy (lk_m c99_x))]].
    apply (iw_del pf ex_mk _ _ _ _ 0 ex_f ex_uk c75_f c75_m [ex_draw 0] c75_key); try reflexivity; try assumption; [|right; exact R].
    apply (iw_gen pf ex_mk _ _ _ _ ex_f ex_m [ex_kdraw 0; ex_kdraw 1] ex_uk); try assumption.
    apply (iw_gen pf ex_mk _ _ _ _ c09_f c09_m [ex_draw 0] c09_uk); [constructor| |].
    + vmr (@Ok (msp Z) c09_m).
    + vmr (@Ok (decryption_key toy) c09_uk).
Qed.

Print Assumptions C99_rarely_found.
Print Assumptions C99_negligible.
