(** Telling apart the ciphertexts of two chosen messages (C104). *)
From Coq Require Import String NArith ZArith Bool Lia Permutation Field_theory Field List.
From Verif Require Import Prelude Field LinAlg Msp Spec MspProofs Minimal Gauss GaussProofs Bilinear Scheme SchemeSpec
  SchemeProofs SchemeTheorems CollusionSpec LuckSpec GameSpec Zp ExpModel Primality Bls Curve PropertiesScheme PropertiesDelegation PropertiesCollusion PropertiesPersonal
  PropertiesLuck.
Import ListNotations.

(** ** Counting zeros *)
(** all lists with one element of each set *)
Fixpoint prods {X} (sets : list (list X)) : list (list X) :=
  match sets with [] => [[]] | E :: sets => map (fun p => fst p :: snd p) (list_prod E (prods sets)) end.
Fixpoint put {X} (i : nat) (x : X) (z : list X) : list X :=
  match z, i with [], _ => [] | _ :: z, O => x :: z | a :: z, S i => a :: put i x z end.

Lemma put_length {X} i (x : X) z : length (put i x z) = length z.
Proof. revert i. induction z as [|a z IH]; intros [|i]; try reflexivity. cbn [put length]. rewrite IH. reflexivity. Qed.
Lemma nth_put {X} i (x d : X) z k : (i < length z)%nat -> nth k (put i x z) d = if Nat.eqb k i then x else nth k z d.
Proof.
  revert i k. induction z as [|a z IH]; intros [|i] k H; cbn [length] in H; try lia; destruct k as [|k]; cbn [put nth Nat.eqb]; try reflexivity.
  apply IH. lia.
Qed.
Lemma put_prods {X} (sets : list (list X)) i E x z : nth_error sets i = Some E -> In x E -> In z (prods sets) -> In (put i x z) (prods sets).
Proof.
  revert i z. induction sets as [|E0 sets IH]; intros i z Hi Hx Hz; [destruct i; discriminate|]. cbn [prods] in *. apply in_map_iff in Hz as ([a z'] & <- & H).
  apply in_prod_iff in H as [Ha Hz']. cbn [fst snd]. destruct i as [|i]; cbn [nth_error] in Hi; cbn [put]; apply in_map_iff.
  - assert (E0 = E) by congruence. subst E0. exists (x, z'). split; [reflexivity|apply in_prod_iff; split; assumption].
  - exists (a, put i x z'). split; [reflexivity|apply in_prod_iff; split; [exact Ha|exact (IH i z' Hi Hx Hz')]].
Qed.
Lemma prods_length {X} (sets : list (list X)) z : In z (prods sets) -> length z = length sets.
Proof.
  revert z. induction sets as [|E sets IH]; intros z H; cbn [prods] in H.
  - destruct H as [<-|[]]. reflexivity.
  - apply in_map_iff in H as ([a z'] & <- & H). apply in_prod_iff in H as [_ H]. cbn [fst snd length]. rewrite (IH z' H). reflexivity.
Qed.

Lemma filter_app_length {X} (f : X -> bool) l l' : length (filter f (l ++ l')) = (length (filter f l) + length (filter f l'))%nat.
Proof. rewrite filter_app, app_length. reflexivity. Qed.
Lemma filter_map_length {X Y} (f : Y -> bool) (g : X -> Y) l : length (filter f (map g l)) = length (filter (fun x => f (g x)) l).
Proof. induction l as [|x l IH]; [reflexivity|]. cbn [map filter]. destruct (f (g x)); cbn [length]; rewrite IH; reflexivity. Qed.
Lemma filter_le {X} (f g : X -> bool) l : (forall x, In x l -> f x = true -> g x = true) -> (length (filter f l) <= length (filter g l))%nat.
Proof.
  induction l as [|x l IH]; intros H; [cbn; lia|]. cbn [filter]. pose proof (IH (fun z Hz => H z (or_intror Hz))) as L. pose proof (H x (or_introl eq_refl)) as Hx.
  destruct (f x); [rewrite (Hx eq_refl); cbn [length]; lia|]. destruct (g x); cbn [length]; lia.
Qed.
Lemma filter_all_le {X} (f : X -> bool) l : (length (filter f l) <= length l)%nat.
Proof. induction l as [|x l IH]; [cbn; lia|]. cbn [filter]. destruct (f x); cbn [length]; lia. Qed.
Lemma filter_prods {X} (f : list X -> bool) E sets :
  length (filter f (prods (E :: sets))) = list_sum (map (fun x => length (filter (fun z => f (x :: z)) (prods sets))) E).
Proof.
  cbn [prods]. rewrite filter_map_length. induction E as [|x E IH]; [reflexivity|]. cbn [list_prod map list_sum fold_right].
  rewrite filter_app_length, IH, filter_map_length. reflexivity.
Qed.
Lemma prods_count {X} (sets : list (list X)) : length (prods sets) = fold_right Nat.mul 1%nat (map (@length X) sets).
Proof. induction sets as [|E sets IH]; [reflexivity|]. cbn [prods map fold_right]. rewrite map_length, prod_length, IH. reflexivity. Qed.

Lemma sum_split {X} (E : list X) (cnt : X -> nat) (bad : X -> bool) b d D Q :
  (forall x, In x E -> bad x = true -> cnt x <= Q)%nat -> (forall x, In x E -> bad x = false -> cnt x * b <= D * Q)%nat ->
  (length (filter bad E) <= d)%nat -> (b <= length E)%nat ->
  (list_sum (map cnt E) * b <= (d + D) * (length E * Q))%nat.
Proof.
  intros H1 H2 Hd Hb.
  assert (S : (list_sum (map cnt E) * b <= length (filter bad E) * (Q * b) + length E * (D * Q))%nat).
  { clear Hd Hb. induction E as [|x E IH]; [cbn; lia|]. cbn [map list_sum fold_right length filter]. fold (list_sum (map cnt E)).
    pose proof (IH (fun z Hz => H1 z (or_intror Hz)) (fun z Hz => H2 z (or_intror Hz))) as L.
    pose proof (H1 x (or_introl eq_refl)) as A1. pose proof (H2 x (or_introl eq_refl)) as A2. destruct (bad x); cbn [length].
    - specialize (A1 eq_refl). nia.
    - specialize (A2 eq_refl). nia. }
  assert (T : (length (filter bad E) * (Q * b) <= d * (Q * length E))%nat) by (apply Nat.mul_le_mono; [exact Hd|apply Nat.mul_le_mono_l; exact Hb]).
  nia.
Qed.

(** A function that has on each line at most [d] zeros, unless it is zero on the whole line, is zero
    everywhere or has few zeros. *)
Lemma few_zeros {X} (b : nat) : forall (sets : list (list X)) (ds : list nat) (f : list X -> bool),
  length ds = length sets -> (forall E, In E sets -> b <= length E)%nat ->
  (forall i E d z, nth_error sets i = Some E -> nth_error ds i = Some d -> In z (prods sets) ->
     (forall x, In x E -> f (put i x z) = true) \/ (length (filter (fun x => f (put i x z)) E) <= d)%nat) ->
  (forall z, In z (prods sets) -> f z = true) \/ (length (filter f (prods sets)) * b <= list_sum ds * length (prods sets))%nat.
Proof.
  induction sets as [|E sets IH]; intros [|d ds] f Hl Hb H; try discriminate.
  - cbn [prods]. destruct (f []) eqn:E0; [left; intros z [<-|[]]; exact E0|right]. cbn [filter]. rewrite E0. cbn. lia.
  - assert (D : forall x, In x E -> (forall z, In z (prods sets) -> f (x :: z) = true) \/
       (length (filter (fun z => f (x :: z)) (prods sets)) * b <= list_sum ds * length (prods sets))%nat).
    { intros x Hx. apply (IH ds (fun z => f (x :: z))); [cbn in Hl; lia|intros E' HE'; apply Hb; right; exact HE'|].
      intros i E' d' z Hi Hd Hz. apply (H (S i) E' d' (x :: z) Hi Hd). cbn [prods]. apply in_map_iff. exists (x, z). split; [reflexivity|apply in_prod_iff; split; assumption]. }
    destruct (forallb f (prods (E :: sets))) eqn:Ea; [left; apply forallb_forall; exact Ea|right].
    assert (N : exists z, In z (prods (E :: sets)) /\ f z = false).
    { clear - Ea. revert Ea. generalize (prods (E :: sets)). intros l. induction l as [|z l IHl]; [discriminate|]. cbn [forallb]. destruct (f z) eqn:Ez; cbn [andb]; intros Ea.
      - destruct (IHl Ea) as (z' & Hz' & Ef). exists z'. split; [right; exact Hz'|exact Ef].
      - exists z. split; [left; reflexivity|exact Ez]. }
    destruct N as (z & Hz & Nz). pose proof Hz as Hz0. cbn [prods] in Hz. apply in_map_iff in Hz as ([x0 z0] & Ez & Hp). apply in_prod_iff in Hp as [Hx0 Hz0']. cbn [fst snd] in Ez.
    set (bad := fun x => forallb (fun z => f (x :: z)) (prods sets)).
    assert (B : (length (filter bad E) <= d)%nat).
    { destruct (H 0%nat E d z eq_refl eq_refl Hz0) as [A|A].
      - specialize (A x0 Hx0). rewrite <- Ez in A. cbn [put] in A. rewrite Ez in A. congruence.
      - etransitivity; [|exact A]. apply filter_le. intros x Hx Hbad. unfold bad in Hbad. rewrite forallb_forall in Hbad. subst z. cbn [put]. exact (Hbad z0 Hz0'). }
    rewrite filter_prods. cbn [list_sum fold_right]. fold (list_sum ds).
    assert (Hlen : length (prods (E :: sets)) = (length E * length (prods sets))%nat) by (cbn [prods]; rewrite map_length, prod_length; reflexivity).
    rewrite Hlen. apply (sum_split E _ bad); [| |exact B|apply Hb; left; reflexivity].
    + intros x _ _. apply filter_all_le.
    + intros x Hx Hbad. destruct (D x Hx) as [A|A]; [|exact A]. unfold bad in Hbad.
      assert (Q : forallb (fun z => f (x :: z)) (prods sets) = true) by (apply forallb_forall; exact A). congruence.
Qed.

Lemma skipn_skipn {X} a b (l : list X) : skipn a (skipn b l) = skipn (a + b) l.
Proof.
  rewrite Nat.add_comm. revert l. induction b as [|b IH]; intros l; [reflexivity|]. destruct l as [|x l]; [rewrite !skipn_nil; reflexivity|]. cbn [skipn Nat.add]. apply IH.
Qed.

Section Game.
Variable B : BilinearMap.
Variable BL : BilinearLaws B.
Local Notation K := (bm_K B).
Local Notation KL := (bl_field B BL).
Declare Scope fld.
Local Notation "0" := (@f0 K) : fld.
Local Notation "1" := (@f1 K) : fld.
Local Infix "+" := (@fadd K) : fld.
Local Infix "*" := (@fmul K) : fld.
Local Infix "-" := (@fsub K) : fld.
Local Notation "- x" := (@fneg K x) : fld.
Local Open Scope fld.
Add Field KF24 : (fl_field K KL).

Local Notation g3 := (g3_gen_exp B).
Local Notation gt := (gt_gen_exp B).
Local Notation to1 := (g3_to_g1 B).

(** ** Functions on a line *)
Definition con (p : K -> K) : Prop := exists b, forall x, p x = b.
Definition aff (p : K -> K) : Prop := exists b c, forall x, p x = b + c * x.
Definition inv_ (p : K -> K) : Prop := exists a b, forall x, x <> 0 -> p x = a * finv x + b.
Definition lau (p : K -> K) : Prop := exists a b c, forall x, x <> 0 -> p x = a * finv x + b + c * x.

Lemma con_aff p : con p -> aff p.
Proof using BL. intros (b & H). exists b, 0. intros x. rewrite H. ring. Qed.
Lemma con_inv p : con p -> inv_ p.
Proof using BL. intros (b & H). exists 0, b. intros x _. rewrite H. ring. Qed.
Lemma aff_lau p : aff p -> lau p.
Proof using BL. intros (b & c & H). exists 0, b, c. intros x _. rewrite H. ring. Qed.
Lemma con_lau p : con p -> lau p.
Proof using BL. intros H. apply aff_lau, con_aff, H. Qed.
Lemma con_add p q : con p -> con q -> con (fun x => p x + q x).
Proof using. intros (b & H) (b' & H'). exists (b + b'). intros x. rewrite H, H'. reflexivity. Qed.
Lemma con_mul p q : con p -> con q -> con (fun x => p x * q x).
Proof using. intros (b & H) (b' & H'). exists (b * b'). intros x. rewrite H, H'. reflexivity. Qed.
Lemma con_const c : con (fun _ => c).
Proof using. exists c. reflexivity. Qed.
Lemma aff_add p q : aff p -> aff q -> aff (fun x => p x + q x).
Proof using BL. intros (b & c & H) (b' & c' & H'). exists (b + b'), (c + c'). intros x. rewrite H, H'. ring. Qed.
Lemma aff_sub p q : aff p -> aff q -> aff (fun x => p x - q x).
Proof using BL. intros (b & c & H) (b' & c' & H'). exists (b - b'), (c - c'). intros x. rewrite H, H'. ring. Qed.
Lemma aff_con p q : aff p -> con q -> aff (fun x => p x * q x).
Proof using BL. intros (b & c & H) (b' & H'). exists (b * b'), (c * b'). intros x. rewrite H, H'. ring. Qed.
Lemma con_aff_mul p q : con p -> aff q -> aff (fun x => p x * q x).
Proof using BL. intros (b' & H') (b & c & H). exists (b' * b), (b' * c). intros x. rewrite H, H'. ring. Qed.
Lemma aff_id : aff (fun x => x).
Proof using BL. exists 0, 1. intros x. ring. Qed.
Lemma inv_add p q : inv_ p -> inv_ q -> inv_ (fun x => p x + q x).
Proof using BL. intros (a & b & H) (a' & b' & H'). exists (a + a'), (b + b'). intros x Hx. rewrite H, H' by exact Hx. ring. Qed.
Lemma inv_con p q : con p -> inv_ q -> inv_ (fun x => p x * q x).
Proof using BL. intros (b' & H') (a & b & H). exists (b' * a), (b' * b). intros x Hx. rewrite H' , H by exact Hx. ring. Qed.
Lemma inv_aff p q : inv_ p -> aff q -> lau (fun x => p x * q x).
Proof using BL.
  intros (a & b & H) (b' & c & H'). exists (a * b'), (a * c + b * b'), (b * c). intros x Hx. rewrite H, H' by exact Hx. field. exact Hx.
Qed.
Lemma lau_add p q : lau p -> lau q -> lau (fun x => p x + q x).
Proof using BL. intros (a & b & c & H) (a' & b' & c' & H'). exists (a + a'), (b + b'), (c + c'). intros x Hx. rewrite H, H' by exact Hx. ring. Qed.
Lemma lau_sub p q : lau p -> lau q -> lau (fun x => p x - q x).
Proof using BL. intros (a & b & c & H) (a' & b' & c' & H'). exists (a - a'), (b - b'), (c - c'). intros x Hx. rewrite H, H' by exact Hx. ring. Qed.
Lemma lau_con p q : lau p -> con q -> lau (fun x => p x * q x).
Proof using BL. intros (a & b & c & H) (b' & H'). exists (a * b'), (b * b'), (c * b'). intros x Hx. rewrite H, H' by exact Hx. ring. Qed.
Lemma suml_cls {I} (C : (K -> K) -> Prop) (g : I -> K -> K) l : C (fun _ => 0) -> (forall p q, C p -> C q -> C (fun x => p x + q x)) ->
  (forall i, In i l -> C (g i)) -> C (fun x => suml (fun i => g i x) l).
Proof using.
  intros H0 Ha H. induction l as [|i l IH]; [exact H0|]. apply (Ha (g i) (fun x => suml (fun i => g i x) l)).
  - apply H. left. reflexivity.
  - apply IH. intros j Hj. apply H. right. exact Hj.
Qed.

(** a line with more zeros is zero *)
Lemma lau_zeros p (E : list K) : NoDup E -> (forall x, In x E -> x <> 0) -> lau p ->
  (forall x, In x E -> p x = 0) \/ (length (filter (fun x => feqb (p x) (@f0 K)) E) <= 2)%nat.
Proof using BL.
  intros HE Hz (a & b & c & H). set (Z := filter (fun x => feqb (p x) 0) E).
  assert (HZ : forall x, In x Z -> x <> 0 /\ a + b * x + c * x * x = 0).
  { intros x Hx. apply filter_In in Hx as [Hx Ex]. apply (fl_eqb K KL) in Ex. specialize (Hz x Hx). split; [exact Hz|].
    rewrite H in Ex by exact Hz. transitivity ((a * finv x + b + c * x) * x); [field; exact Hz|]. rewrite Ex. ring. }
  assert (NZ : NoDup Z) by (apply NoDup_filter; exact HE).
  destruct Z as [|x1 [|x2 [|x3 Z']]] eqn:EZ; [right; cbn; lia|right; cbn; lia|right; cbn; lia|left].
  assert (D12 : x1 - x2 <> 0). { intros Q. inversion NZ as [|? ? N1 _]; subst. apply N1. left. transitivity (x1 - (x1 - x2)); [ring|]. rewrite Q. ring. }
  assert (D13 : x1 - x3 <> 0). { intros Q. inversion NZ as [|? ? N1 _]; subst. apply N1. right. left. transitivity (x1 - (x1 - x3)); [ring|]. rewrite Q. ring. }
  assert (D23 : x2 - x3 <> 0). { intros Q. inversion NZ as [|? ? _ N2]; subst. inversion N2 as [|? ? N3 _]; subst. apply N3. left. transitivity (x2 - (x2 - x3)); [ring|]. rewrite Q. ring. }
  destruct (HZ x1 (or_introl eq_refl)) as [_ E1]. destruct (HZ x2 (or_intror (or_introl eq_refl))) as [_ E2]. destruct (HZ x3 (or_intror (or_intror (or_introl eq_refl)))) as [_ E3].
  assert (F12 : b + c * (x1 + x2) = 0).
  { assert (Q : (x1 - x2) * (b + c * (x1 + x2)) = 0) by (replace ((x1 - x2) * (b + c * (x1 + x2))) with (a + b * x1 + c * x1 * x1 - (a + b * x2 + c * x2 * x2)) by ring; rewrite E1, E2; ring).
    apply (no_zero_divisor B BL) in Q as [Q|Q]; [contradiction|exact Q]. }
  assert (F13 : b + c * (x1 + x3) = 0).
  { assert (Q : (x1 - x3) * (b + c * (x1 + x3)) = 0) by (replace ((x1 - x3) * (b + c * (x1 + x3))) with (a + b * x1 + c * x1 * x1 - (a + b * x3 + c * x3 * x3)) by ring; rewrite E1, E3; ring).
    apply (no_zero_divisor B BL) in Q as [Q|Q]; [contradiction|exact Q]. }
  assert (Ec : c = 0).
  { assert (Q : (x2 - x3) * c = 0) by (replace ((x2 - x3) * c) with (b + c * (x1 + x2) - (b + c * (x1 + x3))) by ring; rewrite F12, F13; ring).
    apply (no_zero_divisor B BL) in Q as [Q|Q]; [contradiction|exact Q]. }
  subst c. assert (Eb : b = 0) by (transitivity (b + 0 * (x1 + x2)); [ring|exact F12]). subst b.
  assert (Ea : a = 0) by (transitivity (a + 0 * x1 + 0 * x1 * x1); [ring|exact E1]). subst a.
  intros x Hx. rewrite H by exact (Hz x Hx). ring.
Qed.
Lemma aff_zeros p (E : list K) : NoDup E -> aff p -> (forall x, In x E -> p x = 0) \/ (length (filter (fun x => feqb (p x) (@f0 K)) E) <= 1)%nat.
Proof using BL.
  intros HE (b & c & H). set (Z := filter (fun x => feqb (p x) 0) E).
  assert (HZ : forall x, In x Z -> b + c * x = 0).
  { intros x Hx. apply filter_In in Hx as [Hx Ex]. apply (fl_eqb K KL) in Ex. rewrite H in Ex. exact Ex. }
  assert (NZ : NoDup Z) by (apply NoDup_filter; exact HE).
  destruct Z as [|x1 [|x2 Z']] eqn:EZ; [right; cbn; lia|right; cbn; lia|left].
  assert (D12 : x1 - x2 <> 0). { intros Q. inversion NZ as [|? ? N1 _]; subst. apply N1. left. transitivity (x1 - (x1 - x2)); [ring|]. rewrite Q. ring. }
  pose proof (HZ x1 (or_introl eq_refl)) as E1. pose proof (HZ x2 (or_intror (or_introl eq_refl))) as E2.
  assert (Ec : c = 0).
  { assert (Q : (x1 - x2) * c = 0) by (replace ((x1 - x2) * c) with (b + c * x1 - (b + c * x2)) by ring; rewrite E1, E2; ring).
    apply (no_zero_divisor B BL) in Q as [Q|Q]; [contradiction|exact Q]. }
  subst c. assert (Eb : b = 0) by (transitivity (b + 0 * x1); [ring|exact E1]). subst b.
  intros x _. rewrite H. ring.
Qed.

(** ** Keys in one list of draws *)
Fixpoint offs (fs : list node) : list (nat * nat) :=
  match fs with [] => [] | f :: fs => (used fs, count_and f) :: offs fs end.
Definition seg (u : list K) (oc : nat * nat) : list K := firstn (snd oc) (skipn (fst oc) u).
Definition segs (fs : list node) (u : list K) : list (list K) := map (seg u) (offs fs).

Lemma used_cons f fs : used (f :: fs) = (count_and f + used fs)%nat.
Proof using. reflexivity. Qed.
Lemma offs_bound fs oc : In oc (offs fs) -> (fst oc + snd oc <= used fs)%nat.
Proof using. induction fs as [|f fs IH]; intros H; [destruct H|]. rewrite used_cons. destruct H as [<-|H]; [cbn [fst snd]; lia|]. specialize (IH H). lia. Qed.
Lemma seg_length u oc : (fst oc + snd oc <= length u)%nat -> length (seg u oc) = snd oc.
Proof using. intros H. unfold seg. rewrite firstn_length, skipn_length. lia. Qed.
Lemma seg_nth u oc i : (i < snd oc)%nat -> nth i (seg u oc) 0 = nth (fst oc + i) u 0.
Proof using.
  intros H. unfold seg. destruct oc as [o c]. cbn [fst snd] in *. revert o c i H. induction u as [|a u IH]; intros o c i H.
  - rewrite skipn_nil, firstn_nil. destruct i, (o + 0)%nat; destruct o; reflexivity.
  - destruct o as [|o]; cbn [skipn Nat.add].
    + destruct c as [|c]; [lia|]. destruct i as [|i]; [reflexivity|]. cbn [firstn nth]. exact (IH 0%nat c i ltac:(lia)).
    + cbn [nth]. apply IH. exact H.
Qed.
Lemma full_seg u oc y i : (fst oc + snd oc <= length u)%nat ->
  full B (seg u oc) y i = if Nat.ltb i (snd oc) then nth (fst oc + i) u 0 else y - suml (fun j => nth (fst oc + j) u 0) (seq 0 (snd oc)).
Proof using.
  intros H. unfold full. rewrite (seg_length u oc H). destruct (Nat.ltb_spec i (snd oc)) as [Hi|Hi]; [apply seg_nth; exact Hi|].
  f_equal. rewrite <- (suml_seq_vec K (seg u oc)), (seg_length u oc H). apply suml_ext. intros j Hj. apply in_seq in Hj. unfold vec. apply seg_nth. lia.
Qed.
Lemma segs_lengths fs u : (used fs <= length u)%nat -> Forall2 (fun f (v : list K) => length v = count_and f) fs (segs fs u).
Proof using.
  intros H. unfold segs. assert (Q : forall oc, In oc (offs fs) -> (fst oc + snd oc <= length u)%nat) by (intros oc Ho; pose proof (offs_bound fs oc Ho); lia).
  clear H. induction fs as [|f fs IH]; [constructor|]. cbn [offs map]. constructor; [apply (seg_length u (used fs, count_and f)); apply Q; left; reflexivity|].
  apply IH. intros oc Ho. apply Q. right. exact Ho.
Qed.
Lemma segs_early fs u u' k : (used fs <= k)%nat -> firstn k u = firstn k u' -> segs fs u = segs fs u'.
Proof using.
  intros H E. unfold segs. apply map_ext_in. intros [o c] Ho. apply offs_bound in Ho. cbn [fst snd] in Ho. unfold seg. cbn [fst snd].
  assert (Q : forall l : list K, firstn c (skipn o l) = firstn c (skipn o (firstn k l))).
  { intros l. rewrite !firstn_skipn_comm, firstn_firstn, Nat.min_l by lia. reflexivity. }
  rewrite (Q u), (Q u'), E. reflexivity.
Qed.
Lemma segs_build fs us pad : Forall2 (fun f (v : list K) => length v = count_and f) fs us ->
  segs fs (concat (rev us) ++ pad) = us /\ length (concat (rev us)) = used fs.
Proof using.
  intros H. revert pad. induction H as [|f v fs us Hv _ IH]; intros pad; [split; reflexivity|]. cbn [rev]. rewrite concat_app. cbn [concat]. rewrite app_nil_r.
  destruct (IH (v ++ pad)) as [E1 E2]. split.
  - rewrite <- app_assoc. unfold segs in *. cbn [offs map]. f_equal; [|exact E1]. unfold seg. cbn [fst snd]. rewrite <- E2, skipn_app, skipn_all, Nat.sub_diag. cbn [skipn app].
    rewrite firstn_app, <- Hv, firstn_all, Nat.sub_diag. cbn [firstn]. apply app_nil_r.
  - rewrite app_length, E2, used_cons. lia.
Qed.

Section Values.
Variable size n : nat.
Variable fs : list node.
Variable ms : list (msp Z).
Variable held : list bool.
Hypothesis HM : Forall2 (msp_of K) fs ms.
Hypothesis Hin : forall f x, In f fs -> In x (leaves f) -> (N.to_nat x < size)%nat.
Hypothesis Hused : (used fs <= n)%nat.

(** the exponents of the keys shown *)
Definition shown (t : list K) (y : K) (u : list K) : list (list K) := xss B ms held t (map (fun v => full B v y) (segs fs u)).

Lemma shown_part t y u k r : part1 B (shown t y u) (KeyPart k r) =
  match nth_error (kept held (combine ms (offs fs))) k with
  | Some (m, oc) => match nth_error (row_to_attr m) r with Some a => dotZ K (row_of m a) (full B (seg u oc) y) * finv (tt B t a) | None => 0 end
  | None => 0
  end.
Proof using.
  unfold shown, xss, segs. cbn [part1]. rewrite map_map.
  replace (combine ms (map (fun x => full B (seg u x) y) (offs fs))) with (map (fun p => (fst p, full B (seg u (snd p)) y)) (combine ms (offs fs))).
  - rewrite map_map, kept_map, nth_map_nil. destruct (nth_error _ k) as [[m oc]|]; [|destruct r; reflexivity]. cbn [fst snd]. apply nth_exps.
  - generalize (offs fs). clear. induction ms as [|m l IH]; intros [|o l']; try reflexivity. cbn [combine map fst snd]. f_equal. apply IH.
Qed.
Lemma shown_in k m oc : nth_error (kept held (combine ms (offs fs))) k = Some (m, oc) ->
  (fst oc + snd oc <= n)%nat /\ forall x, In x (row_to_attr m) -> (N.to_nat x < size)%nat.
Proof using HM Hin Hused.
  intros E. apply nth_error_In in E. apply kept_in in E. split.
  - apply in_combine_r in E. apply offs_bound in E. lia.
  - apply in_combine_l in E. pose proof HM as HM0. clear - HM0 Hin E. intros x Hx. revert Hin. induction HM0 as [|f m' fs' ms' M HM' IH]; intros Hin; [destruct E|].
    destruct E as [->|E].
    + apply (Hin f x (or_introl eq_refl)). apply (Permutation_in _ (mo_perm K f m M)). exact Hx.
    + apply (IH E). intros f' x' Hf'. apply Hin. right. exact Hf'.
Qed.

Lemma dot_cls (C : (K -> K) -> Prop) row (w : K -> nat -> K) : C (fun _ => 0) -> (forall p q, C p -> C q -> C (fun x => p x + q x)) ->
  (forall c p, C p -> C (fun x => c * p x)) -> (forall i, C (fun v => w v i)) -> C (fun v => dotZ K row (w v)).
Proof using.
  intros C0 Ca Cm. unfold dotZ. generalize (map (@of_Z K) row). intros l. revert w. induction l as [|a l IH]; intros w H; [exact C0|].
  cbn [dot]. apply (Ca (fun v => a * w v 0%nat) (fun v => dot l (fun i => w v (S i)))); [apply (Cm a (fun v => w v 0%nat)); apply H|].
  apply (IH (fun v i => w v (S i))). intros i. apply H.
Qed.

(** the value of a product *)
Definition value (sig : K) (gam : list N) (mu : K) (t : list K) (y : K) (u : list K) (a : strategy B) : K :=
  suml (fun z => (base1 B t (fst (fst z)) + part1 B (shown t y u) (fst (fst z))) * (base2 B t (snd (fst z)) + part2 B t gam (snd (fst z)) * sig) * snd z) (pairings a)
  + suml (fun z => expt B y sig mu (fst z) * snd z) (others a).

Lemma value_split sig gam mu t y u a : value sig gam mu t y u a = value sig gam 0 t y u a + mu * ec B a.
Proof using BL.
  unfold value, ec. rewrite (expt_split B BL a y sig mu), (expt_split B BL a y sig 0). ring.
Qed.
Lemma value_sig sig gam t y u a : value sig gam 0 t y u a = value 0 gam 0 t y u a + sig * (s_part B t gam (shown t y u) a + y * ec B a).
Proof using BL.
  unfold value, ec, s_part. rewrite (expt_split B BL a y sig 0).
  replace (suml (fun z => (base1 B t (fst (fst z)) + part1 B (shown t y u) (fst (fst z))) * (base2 B t (snd (fst z)) + part2 B t gam (snd (fst z)) * sig) * snd z) (pairings a))
   with (suml (fun z => (base1 B t (fst (fst z)) + part1 B (shown t y u) (fst (fst z))) * (base2 B t (snd (fst z)) + part2 B t gam (snd (fst z)) * 0) * snd z) (pairings a)
     + sig * suml (fun z => (base1 B t (fst (fst z)) + part1 B (shown t y u) (fst (fst z))) * part2 B t gam (snd (fst z)) * snd z) (pairings a)).
  - ring.
  - rewrite <- suml_scal by exact KL. rewrite <- suml_add by exact KL. apply suml_ext. intros z _. ring.
Qed.

(** the quotient of two products *)
Definition over (a b : strategy B) : strategy B :=
  mkStrategy (pairings a ++ map (fun z => (fst z, - snd z)) (pairings b)) (others a ++ map (fun z => (fst z, - snd z)) (others b)).
Lemma value_over sig gam mu t y u a b : value sig gam mu t y u (over a b) = value sig gam mu t y u a - value sig gam mu t y u b.
Proof using BL.
  unfold value, over. cbn [pairings others]. rewrite !suml_app, !suml_map by exact KL.
  assert (N : forall {I} (g : I -> K) l, suml (fun i => - g i) l = - suml g l).
  { intros I g l. transitivity (- (1) * suml g l); [rewrite <- suml_scal by exact KL; apply suml_ext; intros i _; ring|ring]. }
  match goal with |- (?p + suml ?g1 (pairings b)) + (?o + suml ?g2 (others b)) = (?p + ?o) - (suml ?h1 (pairings b) + suml ?h2 (others b)) =>
    replace (suml g1 (pairings b)) with (- suml h1 (pairings b)); [replace (suml g2 (others b)) with (- suml h2 (others b)); [ring|]|] end.
  - rewrite <- N. apply suml_ext. intros z _. cbn [fst snd]. ring.
  - rewrite <- N. apply suml_ext. intros z _. cbn [fst snd]. ring.
Qed.

(** *** along the lines *)
Lemma value_s gam mu t y u a : aff (fun v => value v gam mu t y u a).
Proof using BL.
  exists (value 0 gam 0 t y u a + mu * ec B a), (s_part B t gam (shown t y u) a + y * ec B a). intros v. rewrite value_split, value_sig. ring.
Qed.

Lemma value_yu gam sig (mu : K -> K) t (y : K -> K) (u : K -> list K) a : aff y -> aff mu -> (forall i, aff (fun v => nth i (u v) 0)) -> (forall v, length (u v) = n) ->
  aff (fun v => value sig gam (mu v) t (y v) (u v) a).
Proof using BL HM Hin Hused.
  intros Hy Hmu Hu Hl. pose proof (con_aff _ (con_const 0)) as C0. unfold value.
  apply (aff_add (fun v => suml _ (pairings a)) (fun v => suml _ (others a))).
  - apply (suml_cls aff (fun z v => _ * _ * snd z) (pairings a) C0 aff_add). intros [[n1 n2] c] _. cbn [fst snd].
    apply (aff_con (fun v => _ * _) (fun _ => c)); [|apply con_const].
    apply (aff_con (fun v => base1 B t n1 + part1 B (shown t (y v) (u v)) n1) (fun _ => _)); [|apply con_const].
    apply (aff_add (fun _ => base1 B t n1) (fun v => part1 B (shown t (y v) (u v)) n1)); [apply con_aff, con_const|].
    destruct n1 as [|i|k r]; [exact C0|exact C0|]. 
    assert (Q : aff (fun v => match nth_error (kept held (combine ms (offs fs))) k with
       | Some (m, oc) => match nth_error (row_to_attr m) r with Some a => dotZ K (row_of m a) (full B (seg (u v) oc) (y v)) * finv (tt B t a) | None => 0 end | None => 0 end)).
    { destruct (nth_error (kept held (combine ms (offs fs))) k) as [[m oc]|] eqn:E; [|exact C0]. destruct (shown_in k m oc E) as [Ho _].
      destruct (nth_error (row_to_attr m) r) as [x|]; [|exact C0].
      apply (aff_con (fun v => dotZ K (row_of m x) (full B (seg (u v) oc) (y v))) (fun _ => _)); [|apply con_const].
      apply (dot_cls aff _ (fun v => full B (seg (u v) oc) (y v)) C0 aff_add); [intros c' p Hp; apply (con_aff_mul (fun _ => c') p); [apply con_const|exact Hp]|].
      intros i. assert (Q : aff (fun v => if Nat.ltb i (snd oc) then nth (fst oc + i) (u v) 0 else y v - suml (fun j => nth (fst oc + j) (u v) 0) (seq 0 (snd oc)))).
      { destruct (Nat.ltb i (snd oc)); [apply Hu|]. apply (aff_sub y (fun v => suml _ _)); [exact Hy|].
        apply (suml_cls aff (fun j v => nth (fst oc + j) (u v) 0) _ C0 aff_add). intros j _. apply Hu. }
      destruct Q as (b1 & c1 & Q). exists b1, c1. intros v. rewrite <- Q. apply full_seg. rewrite Hl. exact Ho. }
    destruct Q as (b1 & c1 & Q). exists b1, c1. intros v. rewrite <- Q. apply shown_part.
  - apply (suml_cls aff (fun z v => _ * snd z) (others a) C0 aff_add). intros [nt c] _. cbn [fst snd].
    apply (aff_con (fun v => expt B (y v) sig (mu v) nt) (fun _ => c)); [|apply con_const]. destruct nt; cbn [expt].
    + apply con_aff, con_const.
    + exact Hy.
    + apply (aff_add mu (fun v => y v * sig)); [exact Hmu|]. apply (aff_con y (fun _ => sig)); [exact Hy|apply con_const].
Qed.

Lemma inv_finv (t : list K) j i : (j < length t)%nat -> inv_ (fun v => finv (nth i (put j v t) 0)).
Proof using BL.
  intros Hj. destruct (Nat.eqb i j) eqn:E.
  - exists 1, 0. intros v _. rewrite nth_put, E by exact Hj. ring.
  - exists 0, (finv (nth i t 0)). intros v _. rewrite nth_put, E by exact Hj. ring.
Qed.
Lemma aff_nth (t : list K) j i : aff (fun v => nth i (put j v t) 0).
Proof using BL.
  clear - BL. destruct (Nat.ltb_spec j (length t)) as [Hj|Hj].
  - destruct (Nat.eqb i j) eqn:E.
    + exists 0, 1. intros v. rewrite nth_put, E by exact Hj. ring.
    + exists (nth i t 0), 0. intros v. rewrite nth_put, E by exact Hj. ring.
  - exists (nth i t 0), 0. intros v. assert (Q : put j v t = t); [|rewrite Q; ring]. clear i. revert j Hj. induction t as [|x t IH]; intros [|j] Hj; cbn [length] in Hj; try reflexivity; try lia.
    cbn [put]. f_equal. apply IH. lia.
Qed.
Lemma value_t gam sig (mu : K -> K) t y u a j : length t = size -> (j < size)%nat -> lau mu ->
  lau (fun v => value sig gam (mu v) (put j v t) y u a).
Proof using BL.
  intros Ht Hj Hmu. pose proof (con_lau _ (con_const 0)) as C0. pose proof (con_inv _ (con_const 0)) as I0. pose proof (con_aff _ (con_const 0)) as A0. unfold value.
  rewrite <- Ht in Hj.
  apply (lau_add (fun v => suml _ (pairings a)) (fun v => suml _ (others a))).
  - apply (suml_cls lau (fun z v => _ * _ * snd z) (pairings a) C0 lau_add). intros [[n1 n2] c] _. cbn [fst snd].
    apply (lau_con (fun v => _ * _) (fun _ => c)); [|apply con_const].
    apply (inv_aff (fun v => base1 B (put j v t) n1 + part1 B (shown (put j v t) y u) n1) (fun v => base2 B (put j v t) n2 + part2 B (put j v t) gam n2 * sig)).
    + apply (inv_add (fun v => base1 B (put j v t) n1) (fun v => part1 B (shown (put j v t) y u) n1)).
      * destruct n1 as [|i|k r]; [exact (con_inv _ (con_const 1))| |exact I0]. cbn [base1].
        destruct (Nat.ltb_spec i (length t)) as [Hi|Hi].
        -- destruct (inv_finv t j i Hj) as (a1 & b1 & Q). exists a1, b1. intros v Hv. rewrite <- (Q v Hv).
           rewrite (nth_indep _ 0 (1 * finv 0)) by (rewrite map_length, put_length; exact Hi). rewrite (map_nth (fun x => 1 * finv x)). ring.
        -- exists 0, 0. intros v _. rewrite nth_overflow by (rewrite map_length, put_length; exact Hi). ring.
      * destruct n1 as [|i|k r]; [exact I0|exact I0|].
        assert (Q : inv_ (fun v => match nth_error (kept held (combine ms (offs fs))) k with
          | Some (m, oc) => match nth_error (row_to_attr m) r with Some a => dotZ K (row_of m a) (full B (seg u oc) y) * finv (tt B (put j v t) a) | None => 0 end | None => 0 end)).
        { destruct (nth_error (kept held (combine ms (offs fs))) k) as [[m oc]|]; [|exact I0]. destruct (nth_error (row_to_attr m) r) as [x|]; [|exact I0].
          apply (inv_con (fun _ => _) (fun v => finv (tt B (put j v t) x))); [apply con_const|]. apply (inv_finv t j (N.to_nat x) Hj). }
        destruct Q as (a1 & b1 & Q). exists a1, b1. intros v Hv. rewrite <- (Q v Hv). apply shown_part.
    + apply (aff_add (fun v => base2 B (put j v t) n2) (fun v => part2 B (put j v t) gam n2 * sig)).
      * destruct n2 as [|i|i]; cbn [base2]; [apply con_aff, con_const|apply aff_nth|exact A0].
      * apply (aff_con (fun v => part2 B (put j v t) gam n2) (fun _ => sig)); [|apply con_const].
        destruct n2 as [|i|i]; cbn [part2]; [exact A0|exact A0|].
        destruct (Nat.ltb_spec i (length gam)) as [Hi|Hi].
        -- destruct (aff_nth t j (N.to_nat (nth i gam 0%N))) as (b1 & c1 & Q). exists b1, c1. intros v. rewrite <- Q.
           rewrite (nth_indep _ 0 (tt B (put j v t) 0%N)) by (rewrite map_length; exact Hi). rewrite (map_nth (tt B (put j v t))). reflexivity.
        -- exists 0, 0. intros v. rewrite nth_overflow by (rewrite map_length; exact Hi). ring.
  - apply (suml_cls lau (fun z v => _ * snd z) (others a) C0 lau_add). intros [nt c] _. cbn [fst snd].
    apply (lau_con (fun v => expt B y sig (mu v) nt) (fun _ => c)); [|apply con_const]. destruct nt; cbn [expt].
    + apply con_lau, con_const.
    + apply con_lau, con_const.
    + apply (lau_add mu (fun v => y * sig)); [exact Hmu|apply con_lau, con_const].
Qed.
End Values.

(** ** Points *)
Definition early (k : nat) (F : drawn B -> K) : Prop :=
  forall x x', dr_t x = dr_t x' -> dr_y x = dr_y x' -> firstn k (dr_u x) = firstn k (dr_u x') -> F x = F x'.

Section Count.
Variable elems : list K.
Variable size n : nat.
Hypothesis Hnd : NoDup elems.
Hypothesis Hall : forall x : K, In x elems.
Local Notation q := (length elems).
Local Notation NZ := (nz B BL elems).

Definition nice (F : drawn B -> K) : Prop := forall t y u s, length t = size -> length u = n ->
  aff (fun v => F (mkDrawn t y u v)) /\ aff (fun v => F (mkDrawn t v u s)) /\
  (forall j, (j < size)%nat -> lau (fun v => F (mkDrawn (put j v t) y u s))) /\
  (forall j, (j < n)%nat -> aff (fun v => F (mkDrawn t y (put j v u) s))).
Definition fine (x : drawn B) : Prop := length (dr_t x) = size /\ (forall z, In z (dr_t x) -> z <> 0) /\ length (dr_u x) = n.
Definition total : nat := ((q - 1) ^ size * q ^ (n + 2))%nat.
Definition degree : nat := (2 * size + n + 2)%nat.

Definition sets : list (list K) := elems :: elems :: repeat NZ size ++ repeat elems n.
Definition degs : list nat := 1%nat :: 1%nat :: repeat 2%nat size ++ repeat 1%nat n.
Definition pt (x : drawn B) : list K := dr_s x :: dr_y x :: dr_t x ++ dr_u x.
Definition un (z : list K) : drawn B := mkDrawn (firstn size (skipn 2 z)) (nth 1 z 0) (skipn size (skipn 2 z)) (nth 0 z 0).

Lemma prods_in {X} (Es : list (list X)) z : In z (prods Es) <-> Forall2 (fun E x => In x E) Es z.
Proof using.
  revert z. induction Es as [|E Es IH]; intros z; cbn [prods].
  - split; [intros [<-|[]]; constructor|intros H; inversion H; left; reflexivity].
  - rewrite in_map_iff. split.
    + intros ([a z'] & <- & H). apply in_prod_iff in H as [H1 H2]. cbn [fst snd]. constructor; [exact H1|apply IH; exact H2].
    + intros H. inversion H as [|? a ? z' H1 H2]; subst. exists (a, z'). split; [reflexivity|]. apply in_prod_iff. split; [exact H1|apply IH; exact H2].
Qed.
Lemma Forall2_repeat {X} (E : list X) k z : Forall2 (fun E x => In x E) (repeat E k) z <-> length z = k /\ forall x, In x z -> In x E.
Proof using.
  revert z. induction k as [|k IH]; intros z; cbn [repeat].
  - split; [intros H; inversion H; split; [reflexivity|intros x []]|intros [H _]; destruct z; [constructor|discriminate]].
  - split.
    + intros H. inversion H as [|? a ? z' H1 H2]; subst. apply IH in H2 as [H2 H3]. split; [cbn; congruence|]. intros x [<-|Hx]; [exact H1|exact (H3 x Hx)].
    + intros [H1 H2]. destruct z as [|a z]; [discriminate|]. constructor; [apply H2; left; reflexivity|]. apply IH. split; [cbn in H1; lia|]. intros x Hx. apply H2. right. exact Hx.
Qed.
Lemma pt_in x : fine x -> In (pt x) (prods sets).
Proof using BL Hall.
  intros (Ht & Hz & Hu). apply prods_in. unfold sets, pt. constructor; [apply Hall|]. constructor; [apply Hall|]. apply Forall2_app.
  - apply Forall2_repeat. split; [exact Ht|]. intros z Hi. apply nz_in; [exact Hall|exact (Hz z Hi)].
  - apply Forall2_repeat. split; [exact Hu|]. intros z _. apply Hall.
Qed.
Lemma pt_un z : In z (prods sets) -> exists x, fine x /\ z = pt x.
Proof using BL Hall.
  intros H. apply prods_in in H. unfold sets in H. inversion H as [|? s ? z1 _ H1]; subst. inversion H1 as [|? y ? z2 _ H2]; subst.
  apply Forall2_app_inv_l in H2 as (t & u & H3 & H4 & ->). apply Forall2_repeat in H3 as [Ht Hz]. apply Forall2_repeat in H4 as [Hu _].
  exists (mkDrawn t y u s). split; [|reflexivity]. split; [exact Ht|split; [|exact Hu]]. intros z Hi. apply (nz_in B BL elems Hall). exact (Hz z Hi).
Qed.
Lemma un_pt t y u s : length t = size -> un (s :: y :: t ++ u) = mkDrawn t y u s.
Proof using.
  intros Ht. unfold un. cbn [skipn nth]. rewrite firstn_app, skipn_app, Ht, Nat.sub_diag, firstn_all2, skipn_all2 by lia. cbn [firstn skipn app]. rewrite app_nil_r. reflexivity.
Qed.
Lemma put_app {X} j (v : X) t u : put j v (t ++ u) = if Nat.ltb j (length t) then put j v t ++ u else t ++ put (j - length t) v u.
Proof using.
  revert j. induction t as [|a t IH]; intros j; [cbn [app length Nat.ltb Nat.leb]; rewrite Nat.sub_0_r; reflexivity|].
  destruct j as [|j]; [reflexivity|]. cbn [app put length]. rewrite IH. change (Nat.ltb (S j) (S (length t))) with (Nat.ltb j (length t)).
  destruct (Nat.ltb j (length t)); reflexivity.
Qed.
Lemma nth_error_repeat {X} (E : X) k j : (j < k)%nat -> nth_error (repeat E k) j = Some E.
Proof using. revert j. induction k as [|k IH]; intros j H; [lia|]. destruct j as [|j]; [reflexivity|]. cbn [repeat nth_error]. apply IH. lia. Qed.
Lemma sum_repeat d k : list_sum (repeat d k) = (d * k)%nat.
Proof using. induction k as [|k IH]; [cbn; lia|]. cbn [repeat list_sum fold_right]. fold (list_sum (repeat d k)). rewrite IH. lia. Qed.
Lemma prods_total : length (prods sets) = total.
Proof using BL Hnd Hall.
  rewrite prods_count. unfold sets, total. cbn [map fold_right]. 
  assert (R : forall (E : list K) k, map (@length K) (repeat E k) = repeat (length E) k) by (intros E k; induction k as [|k IH]; [reflexivity|cbn [repeat map]; rewrite IH; reflexivity]).
  rewrite map_app, !R, fold_right_app.
  assert (Q : forall a b k, fold_right Nat.mul b (repeat a k) = (a ^ k * b)%nat).
  { intros a b k. induction k as [|k IH]; [cbn; lia|]. cbn [repeat fold_right Nat.pow]. rewrite IH. lia. }
  rewrite !Q, (nz_length B BL elems Hnd Hall). rewrite Nat.pow_add_r. cbn [Nat.pow]. lia.
Qed.
Lemma put_fine t y u s i v : length t = size -> length u = n -> un (put i v (s :: y :: t ++ u)) =
  match i with O => mkDrawn t y u v | S O => mkDrawn t v u s
  | S (S j) => if Nat.ltb j size then mkDrawn (put j v t) y u s else mkDrawn t y (put (j - size) v u) s end.
Proof using.
  intros Ht Hu. destruct i as [|[|j]]; cbn [put]; [apply un_pt; exact Ht|apply un_pt; exact Ht|]. rewrite put_app, Ht.
  destruct (Nat.ltb j size); apply un_pt; [rewrite put_length|]; exact Ht.
Qed.

(** A nice function is zero everywhere or seldom. *)
Lemma nice_zeros F : nice F -> (forall x, fine x -> F x = 0) \/
  forall W, NoDup W -> (forall x, In x W -> fine x /\ F x = 0) -> (length W * (q - 1) <= degree * total)%nat.
Proof using BL Hnd Hall.
  intros HF. set (f := fun z => feqb (F (un z)) 0).
  assert (L : forall t y u s, length t = size -> f (s :: y :: t ++ u) = feqb (F (mkDrawn t y u s)) 0) by (intros; unfold f; rewrite un_pt by assumption; reflexivity).
  destruct (few_zeros (q - 1) sets degs f) as [A|A].
  - unfold degs, sets. cbn [length]. rewrite !app_length, !repeat_length. reflexivity.
  - intros E HE. unfold sets in HE. destruct HE as [<-|[<-|HE]]; [lia|lia|]. apply in_app_or in HE as [HE|HE]; apply repeat_spec in HE; subst E; [rewrite (nz_length B BL elems Hnd Hall)|]; lia.
  - intros i E d z Hi Hd Hz. destruct (pt_un z Hz) as ([t y u s] & (Ht & Hz0 & Hu) & ->). cbn [dr_t dr_u] in Ht, Hz0, Hu. unfold pt. cbn [dr_s dr_y dr_t dr_u].
    destruct (HF t y u s Ht Hu) as (N1 & N2 & N3 & N4).
    assert (J : forall g : K -> drawn B, (forall v, un (put i v (s :: y :: t ++ u)) = g v) ->
       (forall v, In v E -> F (g v) = 0) \/ (length (filter (fun v => feqb (F (g v)) (@f0 K)) E) <= d)%nat ->
       (forall v, In v E -> f (put i v (s :: y :: t ++ u)) = true) \/ (length (filter (fun v => f (put i v (s :: y :: t ++ u))) E) <= d)%nat).
    { intros g Hg [Q|Q].
      - left. intros v Hv. unfold f. rewrite Hg, (Q v Hv). apply (feqb_refl K KL).
      - right. etransitivity; [|exact Q]. apply filter_le. intros v _. unfold f. rewrite Hg. intros Q'. exact Q'. }
    destruct i as [|[|j]].
    + cbn [sets degs nth_error] in Hi, Hd. assert (E = elems) by congruence. assert (d = 1%nat) by congruence. subst E d.
      apply (J _ (fun v => put_fine t y u s 0 v Ht Hu)). apply (aff_zeros _ elems Hnd N1).
    + cbn [sets degs nth_error] in Hi, Hd. assert (E = elems) by congruence. assert (d = 1%nat) by congruence. subst E d.
      apply (J _ (fun v => put_fine t y u s 1 v Ht Hu)). apply (aff_zeros _ elems Hnd N2).
    + cbn [sets degs nth_error] in Hi, Hd. apply (J _ (fun v => put_fine t y u s (S (S j)) v Ht Hu)).
      destruct (Nat.ltb_spec j size) as [Hj|Hj].
      * rewrite nth_error_app1, nth_error_repeat in Hi by (rewrite ?repeat_length; lia). rewrite nth_error_app1, nth_error_repeat in Hd by (rewrite ?repeat_length; lia).
        assert (E = NZ) by congruence. assert (d = 2%nat) by congruence. subst E d.
        apply (lau_zeros (fun v => F (mkDrawn (put j v t) y u s)) NZ (nz_nodup B BL elems Hnd)); [|exact (N3 j Hj)].
        intros x Hx. apply (nz_in B BL elems Hall). exact Hx.
      * assert (Hj2 : (j - size < n)%nat).
        { assert (Q : nth_error (repeat NZ size ++ repeat elems n) j <> None) by congruence. apply nth_error_Some in Q. rewrite app_length, !repeat_length in Q. lia. }
        rewrite nth_error_app2, repeat_length, nth_error_repeat in Hi by (rewrite ?repeat_length; lia). rewrite nth_error_app2, repeat_length, nth_error_repeat in Hd by (rewrite ?repeat_length; lia).
        assert (E = elems) by congruence. assert (d = 1%nat) by congruence. subst E d.
        apply (aff_zeros (fun v => F (mkDrawn t y (put (j - size) v u) s)) elems Hnd). exact (N4 _ Hj2).
  - left. intros [t y u s] Hx. pose proof (A _ (pt_in _ Hx)) as Q. unfold pt in Q. cbn [dr_s dr_y dr_t dr_u] in Q. rewrite L in Q by exact (proj1 Hx). apply (fl_eqb K KL) in Q. exact Q.
  - right. intros W HW H. rewrite prods_total in A.
    replace (list_sum degs) with degree in A.
    2:{ unfold degs, degree. cbn [list_sum fold_right]. fold (list_sum (repeat 2%nat size ++ repeat 1%nat n)). rewrite list_sum_app, !sum_repeat. lia. }
    assert (Q : (length W <= length (filter f (prods sets)))%nat); [|nia].
    rewrite <- (map_length pt W). apply NoDup_incl_length.
    + apply NoDup_map_in; [exact HW|]. intros [t y u s] [t' y' u' s'] H1 H2 E. destruct (H _ H1) as ((Ht & _) & _). destruct (H _ H2) as ((Ht' & _) & _).
      unfold pt in E. cbn [dr_s dr_y dr_t dr_u] in *. apply (f_equal un) in E. rewrite !un_pt in E by assumption. exact E.
    + intros z Hz. apply in_map_iff in Hz as ([t y u s] & <- & Hx). destruct (H _ Hx) as (Hf & E). apply filter_In. split; [apply pt_in; exact Hf|].
      unfold pt. cbn [dr_s dr_y dr_t dr_u]. rewrite L by exact (proj1 Hf). rewrite E. apply (feqb_refl K KL).
Qed.
Lemma all_total W : NoDup W -> (forall x, In x W -> fine x) -> (length W <= total)%nat.
Proof using BL Hnd Hall.
  intros HW H. rewrite <- prods_total, <- (map_length pt W). apply NoDup_incl_length.
  - apply NoDup_map_in; [exact HW|]. intros [t y u s] [t' y' u' s'] H1 H2 E. pose proof (H _ H1) as (Ht & _). pose proof (H _ H2) as (Ht' & _).
    unfold pt in E. cbn [dr_s dr_y dr_t dr_u] in *. apply (f_equal un) in E. rewrite !un_pt in E by assumption. exact E.
  - intros z Hz. apply in_map_iff in Hz as (x & <- & Hx). apply pt_in. exact (H x Hx).
Qed.

Section State.
Variable fs : list node.
Variable ms : list (msp Z).
Variable held : list bool.
Variable target : option (list N).
Variable mu : drawn B -> K.
Hypothesis HM : Forall2 (msp_of K) fs ms.
Hypothesis Hin : forall f x, In f fs -> In x (leaves f) -> (N.to_nat x < size)%nat.
Hypothesis Hused : (used fs <= n)%nat.
Hypothesis Hmu : nice mu.
Hypothesis Hearly : early (used fs) mu.

Definition scalar (x : drawn B) : K := match target with None => 0 | Some _ => dr_s x end.
Definition labels : list N := match target with None => [] | Some gam => gam end.
Definition seen (a : strategy B) (x : drawn B) : K := value fs ms held (scalar x) labels (mu x) (dr_t x) (dr_y x) (dr_u x) a.

Lemma seen_nice a : nice (seen a).
Proof using BL HM Hin Hused Hmu Hearly.
  intros t y u s Ht Hu. destruct (Hmu t y u s Ht Hu) as (M1 & M2 & M3 & M4). split; [|split; [|split]].
  - assert (E : forall v, seen a (mkDrawn t y u v) = value fs ms held (match target with None => 0 | Some _ => v end) labels (mu (mkDrawn t y u s)) t y u a).
    { intros v. unfold seen, scalar. cbn [dr_t dr_y dr_u dr_s]. rewrite (Hearly (mkDrawn t y u v) (mkDrawn t y u s)); reflexivity. }
    assert (A : aff (fun v => value fs ms held (match target with None => 0 | Some _ => v end) labels (mu (mkDrawn t y u s)) t y u a)).
    { destruct target as [g|]; [apply value_s|apply con_aff, con_const]. }
    destruct A as (b & c & A). exists b, c. intros v. rewrite E. apply A.
  - apply (value_yu size n fs ms held HM Hin Hused labels (scalar (mkDrawn t y u s)) (fun v => mu (mkDrawn t v u s)) t (fun v => v) (fun _ => u) a); [apply aff_id|exact M2| |intros _; exact Hu].
    intros i. apply con_aff, con_const.
  - intros j Hj. apply (value_t size fs ms held labels (scalar (mkDrawn t y u s)) (fun v => mu (mkDrawn (put j v t) y u s)) t y u a j Ht Hj (M3 j Hj)).
  - intros j Hj. apply (value_yu size n fs ms held HM Hin Hused labels (scalar (mkDrawn t y u s)) (fun v => mu (mkDrawn t y (put j v u) s)) t (fun _ => y) (fun v => put j v u) a); [apply con_aff, con_const|exact (M4 j Hj)| |].
    + intros i. apply aff_nth.
    + intros v. rewrite put_length. exact Hu.
Qed.
Lemma seen_early a : target = None -> early (used fs) (seen a).
Proof using Hearly.
  intros E x x' E1 E2 E3. unfold seen, scalar, shown. rewrite E. rewrite (Hearly x x' E1 E2 E3). unfold value, shown. rewrite E1, E2, (segs_early fs (dr_u x) (dr_u x') _ (Nat.le_refl _) E3). reflexivity.
Qed.
End State.

(** The coefficient of the scalar of a ciphertext is not zero everywhere if the masked message takes part. *)
Lemma matters fs ms held gam a :
  Forall2 (msp_of K) fs ms -> (forall f x, In f fs -> In x (leaves f) -> (N.to_nat x < size)%nat) -> (used fs <= n)%nat ->
  (forall x, In x gam -> (N.to_nat x < size)%nat) -> (forall f, In f (kept held fs) -> ~ holds (attrs gam) f) -> (exists l : K, l <> 0 /\ l <> 1) ->
  (forall t y u, length t = size -> (forall z, In z t -> z <> 0) -> length u = n -> s_part B t gam (shown fs ms held t y u) a + y * ec B a = 0) -> ec B a = 0.
Proof using BL.
  intros HM Hin Hused Hg Hno (l & Hl0 & Hl1) H.
  assert (S1 : forall x : luck B, good B size fs x -> sp B ms held gam a x + lk_y x * ec B a = 0).
  { intros x ((Ht & Hu) & Hz). destruct (segs_build fs (lk_u x) (repeat 0 (n - used fs)) Hu) as [Eu Elu].
    set (u := concat (rev (lk_u x)) ++ repeat 0 (n - used fs)) in *. assert (Hlu : length u = n) by (unfold u; rewrite app_length, repeat_length, Elu; lia).
    rewrite <- (H (lk_t x) (lk_y x) u Ht Hz Hlu). unfold sp, fulls, shown. rewrite Eu. reflexivity. }
  destruct (separators B BL fs ms held gam HM Hno) as (ws & Hw & H0).
  assert (S2 : forall t, length t = size -> (forall z, In z t -> z <> 0) -> kp B ms held gam a t ws + ec B a = 0).
  { intros t Ht Hz. set (x := mkLuck t 0 (segs fs (repeat 0 n)) 0 0 : luck B).
    assert (Gx : good B size fs x). { split; [split; [exact Ht|]|exact Hz]. apply segs_lengths. rewrite repeat_length. exact Hused. }
    assert (Gs : good B size fs (shifted B ws 1 x)). { split; [split; [exact Ht|]|exact Hz]. apply (moves_proper B fs ms HM 1 ws _ (proj2 (proj1 Gx)) Hw). }
    pose proof (S1 x Gx) as E1. pose proof (S1 _ Gs) as E2. pose proof (sp_shifted B BL size fs ms held gam a HM ws 1 x Gx Hw) as E3.
    change (lk_y (shifted B ws 1 x)) with (lk_y x + 1) in E2. change (lk_t x) with t in E3. set (p' := sp B ms held gam a (shifted B ws 1 x)) in *. set (p := sp B ms held gam a x) in *.
    transitivity ((p' + (lk_y x + 1) * ec B a) - (p + lk_y x * ec B a) - ((p' + (lk_y x + 1)) - (p + lk_y x + 1 * (1 + kp B ms held gam a t ws)))); [ring|].
    rewrite E2, E1, E3. ring. }
  assert (Z1 : forall z, In z (repeat (@f1 K) size) -> z <> 0) by (intros z Hz; apply repeat_spec in Hz; subst z; apply (K_1_neq_0 K KL)).
  pose proof (S2 (repeat 1 size) (repeat_length _ _) Z1) as E1.
  pose proof (S2 (scale B gam l (repeat 1 size)) (eq_trans (scale_length B gam l _) (repeat_length _ _)) (scale_nonzero B BL gam l _ Hl0 Z1)) as E2.
  rewrite (kp_scale B BL size fs ms held gam a HM Hin Hg ws l (repeat 1 size) Hl0 (repeat_length _ _) Z1 Hw H0) in E2.
  set (k := kp B ms held gam a (repeat 1 size) ws) in *.
  assert (Q : (l - 1) * ec B a = 0).
  { transitivity (l * (finv l * k + ec B a) - (k + ec B a)); [field; exact Hl0|]. rewrite E1, E2. ring. }
  apply (no_zero_divisor B BL) in Q as [Q|Q]; [|exact Q]. exfalso. apply Hl1. transitivity (l - 1 + 1); [ring|rewrite Q; ring].
Qed.

(** If the masked message takes part in a product, the value is not zero everywhere. *)
Lemma not_zero fs ms held gam mu a :
  Forall2 (msp_of K) fs ms -> (forall f x, In f fs -> In x (leaves f) -> (N.to_nat x < size)%nat) -> (used fs <= n)%nat -> early (used fs) mu ->
  (forall x, In x gam -> (N.to_nat x < size)%nat) -> (forall f, In f (kept held fs) -> ~ holds (attrs gam) f) ->
  (exists l : K, l <> 0 /\ l <> 1) -> ec B a <> 0 -> ~ forall x, fine x -> seen fs ms held (Some gam) mu a x = 0.
Proof using BL.
  intros HM Hin Hused Hearly Hg Hno Hl He H. apply He. apply (matters fs ms held gam a HM Hin Hused Hg Hno Hl).
  intros t y u Ht Hz Hlu.
  assert (V : forall s, seen fs ms held (Some gam) mu a (mkDrawn t y u s) = 0) by (intros s; apply H; split; [exact Ht|split; [exact Hz|exact Hlu]]).
  assert (W : forall s, value fs ms held 0 gam 0 t y u a + s * (s_part B t gam (shown fs ms held t y u) a + y * ec B a) + mu (mkDrawn t y u 0) * ec B a = 0).
  { intros s. refine (eq_trans _ (V s)). unfold seen, scalar, labels. cbn [dr_t dr_y dr_u dr_s]. rewrite (Hearly (mkDrawn t y u s) (mkDrawn t y u 0)) by reflexivity.
    rewrite (value_split fs ms held s gam (mu _)), (value_sig fs ms held s). ring. }
  pose proof (W 0) as W0. pose proof (W 1) as W1. clear W.
  set (A := s_part B t gam _ a) in *. set (V0 := value fs ms held 0 gam 0 _ _ _ a) in *.
  transitivity (V0 + 1 * (A + y * ec B a) + mu (mkDrawn t y u 0) * ec B a - (V0 + 0 * (A + y * ec B a) + mu (mkDrawn t y u 0) * ec B a)); [ring|rewrite W0, W1; ring].
Qed.

(** ** Runs *)
Section Runs.
Variable P : platform.
Definition mk_of (x : drawn B) : master_key B := master_of B (dr_t x) (dr_y x).
Definition ct_of (target : option (list N)) (mu : drawn B -> K) (x : drawn B) : ciphertext B :=
  mkCt (labels target) (gt (mu x + dr_y x * scalar target x)) (map (fun a => g2_gen_exp B (tt B (dr_t x) a * scalar target x)) (labels target)).

Lemma master_fine x : fine x -> exists mdraw, generate_master_key size mdraw = Ok (mk_of x).
Proof using BL. intros (Ht & Hz & _). rewrite <- Ht. exact (master_drawn B BL (dr_t x) (dr_y x) Hz). Qed.

Lemma attack_seen fs uks ms held target mu x a : Forall2 (fun f m => to_msp P f = Ok m) fs ms -> fresh_with B P (mk_of x) fs (segs fs (dr_u x)) uks ->
  attack (mk_of x) (kept held uks) (ct_of target mu x) a = gt (seen fs ms held target mu a x).
Proof using BL.
  intros HM F. unfold mk_of, ct_of. pose proof (kept_Forall2 _ held _ _ (fresh_with_exps B BL P _ _ fs _ uks ms HM F)) as X.
  rewrite (attack_value B BL _ _ (labels target) (mu x) (scalar target x) (kept held uks) _ a X). unfold seen, value, shown, xss.
  replace (map (fun p => exps B (dr_t x) (fst p) (snd p)) (combine ms (map (fun v => full B v (dr_y x)) (segs fs (dr_u x)))))
    with (map (fun p => exps B (dr_t x) (fst p) (full B (snd p) (dr_y x))) (combine ms (segs fs (dr_u x)))); [reflexivity|].
  generalize (segs fs (dr_u x)). clear. induction ms as [|m l IH]; intros [|u us']; try reflexivity. cbn [combine map fst snd]. f_equal. apply IH.
Qed.

Lemma plays_ext (mk : master_key B) u s w fs held uks ct pl r : plays P mk u s w fs held uks ct pl r ->
  forall u', skipn (used fs) u' = skipn (used fs) u -> plays P mk u' s w fs held uks ct pl r.
Proof using.
  intros H. induction H as [fs held uks ct b|fs held uks ct a b p1 p2 r E H IH|fs held uks ct a b p1 p2 r E H IH|fs held uks ct e sh p f uk r M H IH|fs held uks ct gam m0 m1 p ct' r E H IH]; intros u' Hu.
  - constructor.
  - apply pl_same; [exact E|exact (IH u' Hu)].
  - apply pl_different; [exact E|exact (IH u' Hu)].
  - apply (pl_ask P mk u' s w fs held uks ct e sh p f uk r); [rewrite Hu; exact M|]. apply IH. rewrite used_cons, <- !skipn_skipn, Hu. reflexivity.
  - apply (pl_challenge P mk u' s w fs held uks ct gam m0 m1 p ct' r E). exact (IH u' Hu).
Qed.

Lemma fresh_derived (mk : master_key B) fs us uks : fresh_with B P mk fs us uks -> Forall2 (derived B P mk) fs uks.
Proof using. intros H. induction H as [|f m u uk fs us uks H1 H2 H3 _ IH]; constructor; [exact (de_gen B P mk f m (values u) uk H2 H3)|exact IH]. Qed.
Lemma makes_formula (mk : master_key B) fs uks d e f uk : makes P mk fs uks d e f uk -> formula_of fs e = Some f.
Proof using. intros H. destruct H; [reflexivity|reflexivity|assumption]. Qed.
Lemma listed f m p (v : list K) (d : nat -> K) (uk : decryption_key B) : to_msp P f = Ok m -> length v = count_and f -> (forall i, (i < count_and f)%nat -> values v i = d i) ->
  key_generation m p d = Ok uk -> key_generation m p (values v) = Ok uk.
Proof using BL.
  intros Hm Hl Hv Hk. rewrite <- Hk. pose proof (to_msp_msp_of K KL P f m Hm) as M.
  unfold key_generation. rewrite (sharing_vector_ext B (nb_col m) (values v) d); [reflexivity|].
  intros i Hi. rewrite (mo_cols K f m M) in Hi. apply Hv. lia.
Qed.
(** the draws of an issued key, as those of a generated one *)
Lemma makes_fresh mdraw (mk : master_key B) fs us uks d e f uk : generate_master_key size mdraw = Ok mk -> fresh_with B P mk fs us uks ->
  makes P mk fs uks d e f uk -> exists v m, length v = count_and f /\ to_msp P f = Ok m /\ key_generation m (priv_key mk) (values v) = Ok uk.
Proof using BL.
  intros Hmk F H. pose proof (fresh_derived mk fs us uks F) as D.
  assert (V : forall g : nat -> K, length (map g (seq 0 (count_and f))) = count_and f /\ forall i, (i < count_and f)%nat -> values (map g (seq 0 (count_and f))) i = g i).
  { intros g. split; [rewrite map_length, seq_length; reflexivity|]. intros i Hi. unfold values. rewrite (nth_indep _ _ (g 0%nat)) by (rewrite map_length, seq_length; exact Hi).
    rewrite map_nth, seq_nth by exact Hi. reflexivity. }
  destruct H as [f m uk H1 H2|k f uk f' m' uk' H1 H2 H3 H4 H5|k f uk uk' H1 H2 H3].
  - destruct (V d) as [V1 V2]. exists (map d (seq 0 (count_and f))), m. split; [exact V1|split; [exact H1|]]. exact (listed f m _ _ d uk H1 V1 V2 H2).
  - pose proof (Forall2_nth _ _ _ _ _ _ D H1 H2) as D1. destruct (C75_delegated_as_fresh B BL P size mdraw mk f uk f' m' Hmk D1 H3 H4) as (delta & Hd).
    destruct (Hd d) as (uk1 & E1 & E2). assert (uk1 = uk') by congruence. subst uk1. destruct (V (fun i => d i + delta i)) as [V1 V2].
    exists (map (fun i => d i + delta i) (seq 0 (count_and f'))), m'. split; [exact V1|split; [exact H4|]]. exact (listed f' m' _ _ _ uk' H4 V1 V2 E2).
  - pose proof (Forall2_nth _ _ _ _ _ _ D H1 H2) as D1. destruct (proj1 (C75_derived_iff_generated B BL P size mdraw mk f uk Hmk) D1) as (m & _ & Hm & _).
    destruct (C75_randomised_as_fresh B BL P size mdraw mk f m uk Hmk D1 Hm) as (delta & Hd).
    destruct (Hd d) as (uk1 & E1 & E2). assert (uk1 = uk') by congruence. subst uk1. destruct (V (fun i => d i + delta i)) as [V1 V2].
    exists (map (fun i => d i + delta i) (seq 0 (count_and f))), m. split; [exact V1|split; [exact Hm|]]. exact (listed f m _ _ _ uk' Hm V1 V2 E2).
Qed.
Lemma makes_inj mdraw (mk : master_key B) fs us uks d1 d2 e f uk : generate_master_key size mdraw = Ok mk -> fresh_with B P mk fs us uks ->
  makes P mk fs uks d1 e f uk -> makes P mk fs uks d2 e f uk -> forall i, (i < count_and f)%nat -> d1 i = d2 i.
Proof using BL.
  intros Hmk F H H'. pose proof (fresh_derived mk fs us uks F) as D.
  destruct H as [f m uk H1 H2|k f uk f' m' uk' H1 H2 H3 H4 H5|k f uk uk' H1 H2 H3]; inversion H'; subst.
  - assert (m0 = m) by congruence. subst m0. exact (proj1 (C97_equal_keys B BL P size mdraw mk f m d1 d2 uk uk Hmk H1 H2 ltac:(assumption)) eq_refl).
  - assert (m'0 = m') by congruence. assert (uk0 = uk) by congruence. subst.
    pose proof (Forall2_nth _ _ _ _ _ _ D H1 H2) as D1. destruct (C75_delegated_as_fresh B BL P size mdraw mk f uk f' m' Hmk D1 H3 H4) as (delta & Hd).
    destruct (Hd d1) as (x1 & E1 & E2). destruct (Hd d2) as (x2 & E3 & E4). assert (x1 = uk') by congruence. assert (x2 = uk') by congruence. subst x1 x2.
    intros i Hi. pose proof (proj1 (C97_equal_keys B BL P size mdraw mk f' m' _ _ uk' uk' Hmk H4 E2 E4) eq_refl i Hi) as E. cbv beta in E.
    transitivity (d1 i + delta i - delta i); [ring|]. rewrite E. ring.
  - assert (uk0 = uk) by congruence. subst uk0. pose proof (Forall2_nth _ _ _ _ _ _ D H1 H2) as D1.
    exact (proj1 (proj1 (C97_refreshed_keys B BL P size mdraw mk f uk d1 d2 uk' uk' Hmk D1 H3 ltac:(assumption))) eq_refl).
Qed.

Lemma encrypt_again (m1 m2 : Gt B) gam pub s ct : encrypt P m1 gam pub s = Ok ct -> exists ct', encrypt P m2 gam pub s = Ok ct'.
Proof using.
  unfold encrypt. destruct (Nat.leb _ _); [destruct (usize_sub _ _ _); discriminate|]. intros H. apply bind_ok in H as (ei & Hei & _). rewrite Hei. cbn [bind]. eexists. reflexivity.
Qed.

(** The two runs of the rest of a plan give different answers. *)
Definition parts (fs : list node) (held : list bool) (target : option (list N)) (mu : bool -> drawn B -> K) (pl : plan B) (x : drawn B) : Prop :=
  exists w r uks, fresh_with B P (mk_of x) fs (segs fs (dr_u x)) uks /\
    plays P (mk_of x) (dr_u x) (dr_s x) w fs held uks (ct_of target (mu w) x) pl r /\
    ~ plays P (mk_of x) (dr_u x) (dr_s x) (negb w) fs held uks (ct_of target (mu (negb w)) x) pl r.

Lemma compare_step fs ms held target mu a b p1 p2 x : Forall2 (fun f m => to_msp P f = Ok m) fs ms ->
  parts fs held target mu (Compare a b p1 p2) x ->
  ((forall w, seen fs ms held target (mu w) (over a b) x = 0) -> parts fs held target mu p1 x) /\
  ((forall w, seen fs ms held target (mu w) (over a b) x <> 0) -> parts fs held target mu p2 x).
Proof using BL.
  intros HM (w & r & uks & F & H1 & H2).
  assert (E : forall w, attack (mk_of x) (kept held uks) (ct_of target (mu w) x) a = attack (mk_of x) (kept held uks) (ct_of target (mu w) x) b <->
     seen fs ms held target (mu w) (over a b) x = 0).
  { intros w'. rewrite !(attack_seen fs uks ms held target (mu w') x _ HM F). unfold seen. rewrite value_over. split; intros Q.
    - apply (bl_gt_inj B BL) in Q. rewrite Q. ring.
    - f_equal. match goal with |- ?l = ?r => transitivity (l - r + r); [ring|rewrite Q; ring] end. }
  split; intros Z; exists w, r, uks; (split; [exact F|]); split.
  - inversion H1 as [|? ? ? ? ? ? ? ? ? Q1 Q2|? ? ? ? ? ? ? ? ? Q1 Q2| |]; subst; [exact Q2|]. exfalso. apply Q1. apply E. apply Z.
  - intros Q. apply H2. apply pl_same; [apply E; apply Z|exact Q].
  - inversion H1 as [|? ? ? ? ? ? ? ? ? Q1 Q2|? ? ? ? ? ? ? ? ? Q1 Q2| |]; subst; [|exact Q2]. exfalso. apply (Z w). apply E. exact Q1.
  - intros Q. apply H2. apply pl_different; [|exact Q]. intros Q1. apply (Z (negb w)). apply E. exact Q1.
Qed.

Lemma ask_step fs held target mu e sh p f W : (used (f :: fs) <= n)%nat -> formula_of fs e = Some f -> (forall w, early (used fs) (mu w)) ->
  NoDup W -> (forall x, In x W -> fine x /\ parts fs held target mu (Ask e sh p) x) ->
  exists W', NoDup W' /\ length W' = length W /\ forall x', In x' W' -> fine x' /\ parts (f :: fs) (sh :: held) target mu p x'.
Proof using BL.
  intros Hn Hf Hmu HW H. rewrite used_cons in Hn.
  set (R := fun x x' : drawn B => dr_t x' = dr_t x /\ dr_y x' = dr_y x /\ dr_s x' = dr_s x /\ length (dr_u x') = n /\
     firstn (used fs) (dr_u x') = firstn (used fs) (dr_u x) /\ skipn (used (f :: fs)) (dr_u x') = skipn (used (f :: fs)) (dr_u x) /\
     exists uks uk, fresh_with B P (mk_of x) fs (segs fs (dr_u x)) uks /\ makes P (mk_of x) fs uks (values (skipn (used fs) (dr_u x))) e f uk /\
       fresh_with B P (mk_of x) (f :: fs) (segs (f :: fs) (dr_u x')) (uk :: uks) /\
     exists w r, plays P (mk_of x) (dr_u x) (dr_s x) w (f :: fs) (sh :: held) (uk :: uks) (ct_of target (mu w) x) p r /\
       ~ plays P (mk_of x) (dr_u x) (dr_s x) (negb w) (f :: fs) (sh :: held) (uk :: uks) (ct_of target (mu (negb w)) x) p r).
  destruct (transport R W HW) as (W' & H1 & H2 & H3).
  - intros x Hx. destruct (H x Hx) as (Hfine & w & r & uks & F & Q1 & Q2). destruct (master_fine x Hfine) as (mdraw & Hmk).
    inversion Q1 as [| | |? ? ? ? ? ? ? f1 uk ? M Q3|]; subst. pose proof (makes_formula _ _ _ _ _ _ _ M) as Hf1. assert (f1 = f) by congruence. subst f1.
    destruct (makes_fresh mdraw (mk_of x) fs _ uks _ e f uk Hmk F M) as (v & m & Hv & Hm & Hk). destruct Hfine as (Ht & Hz & Hu).
    assert (L1 : length (firstn (used fs) (dr_u x)) = used fs) by (rewrite firstn_length; lia).
    set (u' := firstn (used fs) (dr_u x) ++ v ++ skipn (used (f :: fs)) (dr_u x)).
    assert (A1 : firstn (used fs) u' = firstn (used fs) (dr_u x)).
    { unfold u'. rewrite firstn_app, L1, Nat.sub_diag. cbn [firstn]. rewrite app_nil_r, firstn_firstn, Nat.min_id. reflexivity. }
    assert (A2 : skipn (used fs) u' = v ++ skipn (used (f :: fs)) (dr_u x)).
    { unfold u'. rewrite skipn_app, L1, Nat.sub_diag, (skipn_all2 (firstn _ _)) by lia. reflexivity. }
    assert (A3 : skipn (used (f :: fs)) u' = skipn (used (f :: fs)) (dr_u x)).
    { rewrite (used_cons f fs) at 1. rewrite <- skipn_skipn, A2, skipn_app, <- Hv, Nat.sub_diag, skipn_all. reflexivity. }
    exists (mkDrawn (dr_t x) (dr_y x) u' (dr_s x)). unfold R. cbn [dr_t dr_y dr_u dr_s].
    do 3 (split; [reflexivity|]). split; [unfold u'; rewrite !app_length, skipn_length, L1, used_cons; lia|]. split; [exact A1|split; [exact A3|]].
    exists uks, uk. split; [exact F|split; [exact M|split]].
    + unfold segs. cbn [offs map]. fold (segs fs u'). rewrite (segs_early fs u' (dr_u x) _ (Nat.le_refl _) A1). apply (fw_cons B P _ f m _ uk fs _ uks); [| exact Hm| |exact F].
      * unfold seg. cbn [fst snd]. rewrite A2, firstn_length, app_length. lia.
      * unfold seg. cbn [fst snd]. rewrite A2, firstn_app, <- Hv, Nat.sub_diag, firstn_all. cbn [firstn]. rewrite app_nil_r. exact Hk.
    + exists w, r. split; [exact Q3|]. intros Q. apply Q2. apply (pl_ask P _ _ _ _ fs held uks _ e sh p f uk r M). exact Q.
  - intros x1 x2 x' Hx1 Hx2 (T1 & Y1 & S1 & L1 & A1 & B1 & uks1 & uk1 & F1 & M1 & G1 & _) (T2 & Y2 & S2 & L2 & A2 & B2 & uks2 & uk2 & F2 & M2 & G2 & _).
    destruct (H x1 Hx1) as (Hf1 & _). destruct (H x2 Hx2) as (Hf2 & _). destruct (master_fine x1 Hf1) as (mdraw & Hmk).
    assert (Emk : mk_of x1 = mk_of x2) by (unfold mk_of; congruence). rewrite <- Emk in F2, M2, G2.
    pose proof (fresh_with_functional B P _ _ _ _ _ G1 G2) as Q. assert (uks2 = uks1) by congruence. assert (uk2 = uk1) by congruence. subst uks2 uk2.
    pose proof (makes_inj mdraw _ fs _ uks1 _ _ e f uk1 Hmk F1 M1 M2) as V.
    assert (Eu : dr_u x1 = dr_u x2).
    { destruct Hf1 as (_ & _ & U1). destruct Hf2 as (_ & _ & U2). rewrite used_cons in B1, B2.
      rewrite <- (firstn_skipn (used fs) (dr_u x1)), <- (firstn_skipn (used fs) (dr_u x2)). f_equal; [congruence|].
      rewrite <- (firstn_skipn (count_and f) (skipn (used fs) (dr_u x1))), <- (firstn_skipn (count_and f) (skipn (used fs) (dr_u x2))). f_equal; [|rewrite !skipn_skipn; congruence].
      apply (nth_ext _ _ 0 0); [rewrite !firstn_length, !skipn_length; lia|]. intros i Hi. rewrite firstn_length in Hi.
      pose proof (seg_nth (dr_u x1) (used fs, count_and f) i ltac:(cbn [snd]; lia)) as N1. pose proof (seg_nth (dr_u x2) (used fs, count_and f) i ltac:(cbn [snd]; lia)) as N2.
      unfold seg in N1, N2. cbn [fst snd] in N1, N2. rewrite N1, N2. specialize (V i ltac:(lia)). unfold values in V.
      assert (NS : forall l : list K, nth i (skipn (used fs) l) 0 = nth (used fs + i) l 0).
      { intros l. generalize (used fs). intros k. revert l. induction k as [|k IHk]; intros l; [reflexivity|]. destruct l as [|z l]; [destruct i; reflexivity|]. cbn [skipn Nat.add nth]. apply IHk. }
      rewrite !NS in V. exact V. }
    destruct x1, x2. cbn in *. congruence.
  - exists W'. split; [exact H1|split; [exact H2|]]. intros x' Hx'. destruct (H3 x' Hx') as (x & Hx & T & Y & S & L & A & Bk & uks & uk & F & M & G & w & r & Q1 & Q2).
    destruct (H x Hx) as ((Ht & Hz & Hu) & _). split; [split; [congruence|split; [rewrite T; exact Hz|exact L]]|].
    assert (Emk : mk_of x' = mk_of x) by (unfold mk_of; congruence).
    assert (Ect : forall w, ct_of target (mu w) x' = ct_of target (mu w) x).
    { intros w'. unfold ct_of, scalar. rewrite T, Y, S, (Hmu w' x' x T Y A). reflexivity. }
    exists w, r, (uk :: uks). rewrite Emk, !Ect, S. split; [exact G|split].
    + apply (plays_ext _ _ _ _ _ _ _ _ _ _ Q1). exact Bk.
    + intros Q. apply Q2. apply (plays_ext _ _ _ _ _ _ _ _ _ _ Q). symmetry. exact Bk.
Qed.

Lemma challenge_step fs ms held mu gam m0 m1 p x : Forall2 (fun f m => to_msp P f = Ok m) fs ms -> (forall w, mu w x = 0) ->
  parts fs held None mu (Challenge gam m0 m1 p) x ->
  (forall z, In z gam -> (N.to_nat z < length (dr_t x))%nat) /\
  parts fs held (Some gam) (fun w => seen fs ms held None (mu w) (if w then m1 else m0)) p x.
Proof using BL.
  intros HM Hmu (w & r & uks & F & H1 & H2). inversion H1 as [| | | |? ? ? ? ? ? ? ? ct' ? E Q]; subst.
  assert (V : forall w', attack (mk_of x) (kept held uks) (ct_of None (mu w') x) (if w' then m1 else m0) = gt (seen fs ms held None (mu w') (if w' then m1 else m0) x)).
  { intros w'. apply attack_seen; assumption. }
  destruct (encrypt_again _ (attack (mk_of x) (kept held uks) (ct_of None (mu (negb w)) x) (if negb w then m1 else m0)) _ _ _ _ E) as (ct2 & E2).
  assert (Q2 : ~ plays P (mk_of x) (dr_u x) (dr_s x) (negb w) fs held uks ct2 p r).
  { intros Q2. apply H2. exact (pl_challenge P _ _ _ _ fs held uks _ gam m0 m1 p ct2 r E2 Q2). }
  rewrite V in E, E2. destruct (encrypt_inv B BL _ _ _ _ _ _ _ E) as (_ & Hr & ->). destruct (encrypt_inv B BL _ _ _ _ _ _ _ E2) as (_ & _ & ->).
  split; [exact Hr|]. exists w, r, uks. split; [exact F|split; [exact Q|exact Q2]].
Qed.
End Runs.

Lemma third : (3 <= q)%nat -> exists l : K, l <> 0 /\ l <> 1.
Proof using BL Hnd.
  clear Hall. intros Hq. destruct elems as [|a [|b [|c l]]] eqn:E; cbn [length] in Hq; try lia. clear Hq.
  inversion Hnd as [|? ? N1 N2]; subst. inversion N2 as [|? ? N3 _]; subst.
  assert (Dab : a <> b) by (intros Q; apply N1; left; symmetry; exact Q). assert (Dac : a <> c) by (intros Q; apply N1; right; left; symmetry; exact Q).
  assert (Dbc : b <> c) by (intros Q; apply N3; left; symmetry; exact Q).
  destruct (K_eq_dec K KL a 0) as [A0|A0]; [|destruct (K_eq_dec K KL a 1) as [A1|A1]; [|exists a; split; assumption]].
  - destruct (K_eq_dec K KL b 1) as [B1|B1]; [exists c; split; congruence|exists b; split; congruence].
  - destruct (K_eq_dec K KL b 0) as [B0|B0]; [exists c; split; congruence|exists b; split; congruence].
Qed.

Lemma seen_target fs ms held target mu a x : seen fs ms held target mu a x = seen fs ms held target (fun _ => 0) a x + mu x * ec B a.
Proof using BL. unfold seen. apply value_split. Qed.

Lemma few_tell P pl : forall fs ms held target mu W,
  Forall2 (fun f m => to_msp P f = Ok m) fs ms -> (forall f x, In f fs -> In x (leaves f) -> (N.to_nat x < size)%nat) -> (used fs <= n)%nat ->
  (forall gam, target = Some gam -> (forall x, In x gam -> (N.to_nat x < size)%nat) /\ forall f, In f (kept held fs) -> ~ holds (attrs gam) f) ->
  (forall w, nice (mu w) /\ early (used fs) (mu w)) -> (target = None -> forall w x, mu w x = 0) ->
  fair n fs held target pl -> NoDup W -> (forall x, In x W -> fine x /\ parts P fs held target mu pl x) ->
  (length W * (q - 1) <= 2 * comparisons pl * (degree * total))%nat.
Proof using BL Hnd Hall.
  induction pl as [b|a b p1 IH1 p2 IH2|e sh p IH|gam m0 m1 p IH]; intros fs ms held target mu W HM Hin Hn Ht Hmu H0 Hfair HW H.
  - destruct W as [|x W]; [cbn; lia|]. exfalso. destruct (H x (or_introl eq_refl)) as (_ & w & r & uks & _ & Q1 & Q2). apply Q2. inversion Q1; subst. constructor.
  - assert (HM' : Forall2 (msp_of K) fs ms) by (clear - BL HM; induction HM as [|f m l l' E _ IH]; constructor; [exact (to_msp_msp_of K KL P f m E)|exact IH]).
    set (F := fun w => seen fs ms held target (mu w) (over a b)).
    assert (NF : forall w, nice (F w)). { intros w. destruct (Hmu w) as [M1 M2]. exact (seen_nice fs ms held target (mu w) HM' Hin Hn M1 M2 (over a b)). }
    pose proof (fun x Hx => compare_step P fs ms held target mu a b p1 p2 x HM (proj2 (H x Hx))) as CS.
    cbn [fair] in Hfair. destruct Hfair as [F1 F2].
    assert (CM : (comparisons (Compare a b p1 p2) = S (Nat.max (comparisons p1) (comparisons p2)))%nat) by reflexivity. rewrite CM. clear CM.
    set (c1 := comparisons p1) in *. set (c2 := comparisons p2) in *. set (DT := (degree * total)%nat).
    (* the draws with which neither product is zero *)
    assert (Rest : forall W', NoDup W' -> (forall x, In x W' -> In x W /\ forall w, F w x <> 0) -> (length W' * (q - 1) <= 2 * c2 * DT)%nat).
    { intros W' HW' H'. apply (IH2 fs ms held target mu W' HM Hin Hn Ht Hmu H0 F2 HW'). intros x Hx. destruct (H' x Hx) as [Hx' Z]. split; [exact (proj1 (H x Hx'))|].
      exact (proj2 (CS x Hx') Z). }
    assert (Same : (forall x, In x W -> forall w, F w x = 0) -> (length W * (q - 1) <= 2 * c1 * DT)%nat).
    { intros Z. apply (IH1 fs ms held target mu W HM Hin Hn Ht Hmu H0 F1 HW). intros x Hx. split; [exact (proj1 (H x Hx))|]. exact (proj1 (CS x Hx) (Z x Hx)). }
    assert (Two : (forall w W', NoDup W' -> (forall x, In x W' -> fine x /\ F w x = 0) -> (length W' * (q - 1) <= DT)%nat) -> (length W * (q - 1) <= 2 * S (Nat.max c1 c2) * DT)%nat).
    { intros Z. pose proof (split_count W (fun x => feqb (F true x) 0)) as L1. set (A1 := filter (fun x => feqb (F true x) 0) W) in *. set (R1 := filter (fun x => negb (feqb (F true x) 0)) W) in *.
      pose proof (split_count R1 (fun x => feqb (F false x) 0)) as L2. set (A2 := filter (fun x => feqb (F false x) 0) R1) in *. set (R2 := filter (fun x => negb (feqb (F false x) 0)) R1) in *.
      assert (B1 : (length A1 * (q - 1) <= DT)%nat).
      { apply (Z true); [apply NoDup_filter; exact HW|]. intros x Hx. apply filter_In in Hx as [Hx E]. split; [exact (proj1 (H x Hx))|]. apply (fl_eqb K KL) in E. exact E. }
      assert (B2 : (length A2 * (q - 1) <= DT)%nat).
      { apply (Z false); [apply NoDup_filter, NoDup_filter; exact HW|]. intros x Hx. apply filter_In in Hx as [Hx E]. apply filter_In in Hx as [Hx _]. split; [exact (proj1 (H x Hx))|]. apply (fl_eqb K KL) in E. exact E. }
      assert (B3 : (length R2 * (q - 1) <= 2 * c2 * DT)%nat).
      { apply Rest; [apply NoDup_filter, NoDup_filter; exact HW|]. intros x Hx. apply filter_In in Hx as [Hx E2]. apply filter_In in Hx as [Hx E1]. split; [exact Hx|].
        apply Bool.negb_true_iff in E1. apply Bool.negb_true_iff in E2. apply (feqb_false K KL) in E1. apply (feqb_false K KL) in E2. intros [|]; assumption. }
      assert (M : (c2 <= Nat.max c1 c2)%nat) by lia. clearbody DT. nia. }
    destruct (Nat.ltb_spec q 3) as [Hq|Hq].
    { pose proof (all_total W HW (fun x Hx => proj1 (H x Hx))) as L. assert (Q : (length W * (q - 1) <= total)%nat) by nia.
      assert (Q2 : (total <= DT)%nat) by (unfold DT, degree; nia). nia. }
    destruct (K_eq_dec K KL (ec B (over a b)) 0) as [He|He]; [|destruct target as [gam|]].
    + assert (E : forall w x, F w x = F true x). { intros w x. unfold F. rewrite (seen_target fs ms held target (mu w)), (seen_target fs ms held target (mu true)), He. ring. }
      destruct (nice_zeros (F true) (NF true)) as [A|A].
      * assert (S1 : (length W * (q - 1) <= 2 * c1 * DT)%nat) by (apply Same; intros x Hx w; rewrite E; apply A; exact (proj1 (H x Hx))). assert (M : (c1 <= Nat.max c1 c2)%nat) by lia. clearbody DT. nia.
      * apply Two. intros w W' HW' H'. apply A; [exact HW'|]. intros x Hx. rewrite <- (E w). exact (H' x Hx).
    + destruct (Ht gam eq_refl) as [Hg Hno]. destruct (third Hq) as (l & Hl).
      apply Two. intros w. destruct (nice_zeros (F w) (NF w)) as [A|A]; [|exact A]. exfalso.
      exact (not_zero fs ms held gam (mu w) (over a b) HM' Hin Hn (proj2 (Hmu w)) Hg Hno (ex_intro _ l Hl) He A).
    + assert (E : forall w x, F w x = F true x). { intros w x. unfold F. rewrite (seen_target fs ms held None (mu w)), (seen_target fs ms held None (mu true)), !(H0 eq_refl). reflexivity. }
      destruct (nice_zeros (F true) (NF true)) as [A|A].
      * assert (S1 : (length W * (q - 1) <= 2 * c1 * DT)%nat) by (apply Same; intros x Hx w; rewrite E; apply A; exact (proj1 (H x Hx))). assert (M : (c1 <= Nat.max c1 c2)%nat) by lia. clearbody DT. nia.
      * apply Two. intros w W' HW' H'. apply A; [exact HW'|]. intros x Hx. rewrite <- (E w). exact (H' x Hx).
  - cbn [comparisons]. destruct W as [|x0 W0] eqn:EW; [cbn; lia|]. rewrite <- EW in *. assert (Hx0 : In x0 W) by (rewrite EW; left; reflexivity). clear EW W0.
    destruct (H x0 Hx0) as (Hfine & w & r & uks & Fr & Q1 & _). inversion Q1 as [| | |? ? ? ? ? ? ? f uk ? M Q3|]; subst. clear Q1 Q3.
    pose proof (makes_formula P _ _ _ _ _ _ _ M) as Hf. destruct (Hfair f Hf) as (Hn' & Hsh & Hfair').
    destruct (master_fine x0 Hfine) as (mdraw & Hmk). destruct (makes_fresh P mdraw _ fs _ uks _ e f uk Hmk Fr M) as (v & m & _ & Hm & Hk).
    destruct (ask_step P fs held target mu e sh p f W Hn' Hf (fun w => proj2 (Hmu w)) HW H) as (W' & H1 & H2 & H3). rewrite <- H2.
    apply (IH (f :: fs) (m :: ms) (sh :: held) target mu W').
    + constructor; assumption.
    + intros f' x [<-|Hf'] Hx; [|exact (Hin f' x Hf' Hx)]. destruct Hfine as (Lt & Hz & _).
      destruct (derived_good B BL P _ _ f uk Hz (de_gen B P _ f m _ uk Hm Hk)) as ((m' & sg & R & _) & _). rewrite <- Lt. exact (kr_range _ _ _ _ _ _ R x Hx).
    + exact Hn'.
    + intros gam Eg. destruct (Ht gam Eg) as [Hg Hno]. split; [exact Hg|]. destruct sh; cbn [kept]; [|exact Hno]. intros f' [<-|Hf']; [exact (Hsh eq_refl gam Eg)|exact (Hno f' Hf')].
    + intros w'. destruct (Hmu w') as [N1 N2]. split; [exact N1|]. intros x x' E1 E2 E3. apply N2; [exact E1|exact E2|].
      rewrite used_cons in E3. apply (f_equal (firstn (used fs))) in E3. rewrite !firstn_firstn, Nat.min_l in E3 by lia. exact E3.
    + exact H0.
    + exact Hfair'.
    + exact H1.
    + exact H3.
  - cbn [comparisons]. cbn [fair] in Hfair. destruct Hfair as (-> & Hno & Hfair). specialize (H0 eq_refl).
    assert (HM' : Forall2 (msp_of K) fs ms) by (clear - BL HM; induction HM as [|f m l l' E _ IH]; constructor; [exact (to_msp_msp_of K KL P f m E)|exact IH]).
    destruct W as [|x0 W0] eqn:EW; [cbn; lia|]. rewrite <- EW in *. assert (Hx0 : In x0 W) by (rewrite EW; left; reflexivity). clear EW W0.
    pose proof (fun x Hx => challenge_step P fs ms held mu gam m0 m1 p x HM (fun w => H0 w x) (proj2 (H x Hx))) as CS.
    apply (IH fs ms held (Some gam) (fun w => seen fs ms held None (mu w) (if w then m1 else m0)) W HM Hin Hn).
    + intros g Eg. assert (g = gam) by congruence. subst g. split; [|exact Hno]. intros z Hz. rewrite <- (proj1 (proj1 (H x0 Hx0))). exact (proj1 (CS x0 Hx0) z Hz).
    + intros w. destruct (Hmu w) as [N1 N2]. split; [exact (seen_nice fs ms held None (mu w) HM' Hin Hn N1 N2 _)|exact (seen_early fs ms held None (mu w) N2 _ eq_refl)].
    + discriminate.
    + exact Hfair.
    + exact HW.
    + intros x Hx. split; [exact (proj1 (H x Hx))|exact (proj2 (CS x Hx))].
Qed.
End Count.

(** ** C104 *)
(** A run gives one answer. *)
Lemma makes_once P (mk : master_key B) fs uks d e f uk f' uk' : makes P mk fs uks d e f uk -> makes P mk fs uks d e f' uk' -> f' = f /\ uk' = uk.
Proof using.
  intros H H'. destruct H as [f m uk H1 H2|k f uk g m' uk0 H1 H2 H3 H4 H5|k f uk uk0 H1 H2 H3]; inversion H'; subst.
  - split; [reflexivity|congruence].
  - split; [reflexivity|congruence].
  - split; congruence.
Qed.
Theorem C104_one_answer P (mk : master_key B) u s w fs held uks ct pl r r' :
  plays P mk u s w fs held uks ct pl r -> plays P mk u s w fs held uks ct pl r' -> r = r'.
Proof using.
  intros H. revert r'. induction H as [fs held uks ct b|fs held uks ct a b p1 p2 r E H IH|fs held uks ct a b p1 p2 r E H IH|fs held uks ct e sh p f uk r M H IH|fs held uks ct gam m0 m1 p ct' r E H IH];
    intros r' H'; inversion H'; subst.
  - reflexivity.
  - apply IH. assumption.
  - contradiction.
  - contradiction.
  - apply IH. assumption.
  - match goal with M' : makes P mk fs uks _ e ?f' ?uk' |- _ => destruct (makes_once _ _ _ _ _ _ _ _ _ _ M M') as [-> ->] end. apply IH. assumption.
  - apply IH. match goal with E' : encrypt P _ gam _ _ = Ok ?c |- _ => assert (c = ct') by congruence end. subst. assumption.
Qed.

(** An attacker that compares elements at most [comparisons] times tells the two messages apart with
    few of the draws, if none of the keys shown is satisfied by the attributes of the ciphertext. *)
Theorem C104_rarely_told_apart P size n (pl : plan B) (elems : list K) (found : list (drawn B)) :
  NoDup elems -> (forall x : K, In x elems) -> fair n [] [] None pl ->
  NoDup found -> (forall x, In x found -> length (dr_t x) = size /\ length (dr_u x) = n /\ tells_apart P size pl x) ->
  (length found * (length elems - 1) <= 2 * comparisons pl * (2 * size + n + 2) * ((length elems - 1) ^ size * length elems ^ (n + 2)))%nat.
Proof using BL.
  intros Hnd Hall Hfair HW H. rewrite <- Nat.mul_assoc.
  apply (few_tell elems size n Hnd Hall P pl [] [] [] None (fun _ _ => 0) found); try assumption.
  - constructor.
  - intros f x [].
  - cbn. lia.
  - discriminate.
  - intros w. split; [|intros x x' _ _ _; reflexivity]. intros t y u s _ _. split; [apply con_aff, con_const|split; [apply con_aff, con_const|split; intros j _; [apply con_lau|apply con_aff]; apply con_const]].
  - reflexivity.
  - intros x Hx. destruct (H x Hx) as (Ht & Hu & mk & w & r & Hmk & Q1 & Q2). destruct (master_values B BL size (dr_t x) (dr_y x) mk Ht Hmk) as [-> Hz].
    split; [split; [exact Ht|split; [exact Hz|exact Hu]]|].
    assert (E : ct_of None (fun _ : drawn B => 0) x = no_ciphertext).
    { unfold ct_of, no_ciphertext, labels, scalar. cbn [map]. do 2 f_equal. ring. }
    exists w, r, []. cbv beta. rewrite E. split; [constructor|split; [exact Q1|exact Q2]].
Qed.
(** The condition on the keys cannot be dropped: the owner of a key satisfied by the attributes tells
    the messages apart with one comparison, whatever is drawn. *)
Definition power (c : K) : strategy B := mkStrategy [] [(OneGt, c)].
Definition entitled_plan (f : node) (gam : list N) (a : strategy B) : plan B :=
  Ask (Generated f) true (Challenge gam (power 0) (power 1) (Compare a (power 0) (Answer false) (Answer true))).
Lemma attack_power t y uks ct c : attack (master_of B t y) uks ct (power c) = gt c.
Proof using BL.
  change (attack (master_of B t y) [] (mkCt [] (gt (0 + y * 0)) (map (fun a => g2_gen_exp B (tt B t a * 0)) [])) (power c) = gt c).
  rewrite (attack_value B BL t y [] 0 0 [] [] (power c)) by constructor. f_equal. unfold power. cbn [pairings others]. rewrite suml_cons. cbn [suml map fold_right fst snd expt]. ring.
Qed.
Theorem C104_entitled_tell_apart P size f gam : NoDup (leaves f) -> (forall a, In a (leaves f) -> (N.to_nat a < size)%nat) ->
  (length gam < size)%nat -> (forall a, In a gam -> (N.to_nat a < size)%nat) -> holds (attrs gam) f ->
  exists a : strategy B, forall x, length (dr_t x) = size -> (forall z, In z (dr_t x) -> z <> 0) -> tells_apart P size (entitled_plan f gam a) x.
Proof using BL.
  intros Hl Hin Hgl Hg Hh.
  assert (C : forall x msg, length (dr_t x) = size -> (forall z, In z (dr_t x) -> z <> 0) -> exists m uk ct,
    generate_master_key size (values (dr_t x ++ [dr_y x])) = Ok (master_of B (dr_t x) (dr_y x)) /\ to_msp P f = Ok m /\
    key_generation m (priv_key (master_of B (dr_t x) (dr_y x))) (values (dr_u x)) = Ok uk /\ encrypt P msg gam (pub_key (master_of B (dr_t x) (dr_y x))) (dr_s x) = Ok ct).
  { intros x msg Ht Hz. destruct (C01_pipeline B BL P size (values (dr_t x ++ [dr_y x])) (values (dr_u x)) f msg gam (dr_s x)) as (mk & m & uk & ct & H1 & H2 & H3 & H4 & _); try assumption.
    - intros i Hi. unfold values. rewrite app_nth1 by lia. apply Hz. apply nth_In. lia.
    - destruct (master_values B BL size (dr_t x) (dr_y x) mk Ht H1) as [-> _]. exists m, uk, ct. split; [exact H1|split; [exact H2|split; [exact H3|exact H4]]]. }
  destruct (C (mkDrawn (repeat 1 size) 0 [] 0) (gt 0) (repeat_length _ _)) as (m & _ & _ & _ & Hm & _).
  { intros z Hz. apply repeat_spec in Hz. subst z. apply (K_1_neq_0 K KL). }
  pose proof (to_msp_msp_of K KL P f m Hm) as M. destruct (holds_wt K KL (attrs gam) f (mo_nodup K f m M) Hh) as (al & Hal & Hsup).
  exists (direct_strategy B 0 f m gam al).
  assert (Wn : wins B P size [m] gam (direct_strategy B 0 f m gam al)).
  { apply (direct_wins B BL P size [f] [m] gam 0 f m al); [constructor; [exact M|constructor]|reflexivity|reflexivity|exact Hal|].
    intros x Hx. destruct (Hsup x) as [E|(_ & H & _)]; [contradiction|exact H]. }
  intros x Ht Hz. destruct (C x (gt 0) Ht Hz) as (m' & uk & ct0 & Hmk & Hm' & Hk & E0). assert (m' = m) by congruence. subst m'.
  destruct (C x (gt 1) Ht Hz) as (_ & _ & ct1 & _ & _ & _ & E1).
  assert (Kd : Forall2 (fun m uk => exists draw, key_generation m (priv_key (master_of B (dr_t x) (dr_y x))) draw = Ok uk) [m] [uk]) by (constructor; [exists (values (dr_u x)); exact Hk|constructor]).
  assert (R : forall w, plays P (master_of B (dr_t x) (dr_y x)) (dr_u x) (dr_s x) w [] [] [] no_ciphertext (entitled_plan f gam (direct_strategy B 0 f m gam al)) w).
  { intros w. apply (pl_ask P _ _ _ _ _ _ _ _ _ _ _ f uk); [exact (mk_gen P _ [] [] _ f m uk Hm Hk)|].
    apply (pl_challenge P _ _ _ _ _ _ _ _ _ _ _ _ (if w then ct1 else ct0)).
    - destruct w; rewrite attack_power; assumption.
    - cbn [kept]. destruct w.
      + apply pl_different; [|constructor]. cbn [kept]. rewrite attack_power, (Wn _ _ _ _ _ _ Hmk Kd E1). intros Q. apply (bl_gt_inj B BL) in Q. exact (K_1_neq_0 K KL Q).
      + apply pl_same; [|constructor]. cbn [kept]. rewrite attack_power. exact (Wn _ _ _ _ _ _ Hmk Kd E0). }
  exists (master_of B (dr_t x) (dr_y x)), false, false. split; [exact Hmk|split; [exact (R false)|]].
  intros Q. pose proof (C104_one_answer _ _ _ _ _ _ _ _ _ _ _ _ Q (R true)). discriminate.
Qed.
End Game.

(** ** The order of the group *)
Theorem C104_negligible (C : curve) (H : contract C) P size n (pl : plan (bls_map C)) (found : list (drawn (bls_map C))) :
  fair n [] [] None pl -> (Z.of_nat (2 * comparisons pl * (2 * size + n + 2)) <= 2 ^ 127)%Z ->
  NoDup found -> (forall x, In x found -> length (dr_t x) = size /\ length (dr_u x) = n /\ tells_apart P size pl x) ->
  (Z.of_nat (length found) * 2 ^ 127 <= (bls_r - 1) ^ Z.of_nat size * bls_r ^ Z.of_nat (n + 2))%Z.
Proof.
  intros Hfair Hc Hnd Hf. destruct (zp_elems bls_mod) as (elems & E1 & E2 & E3).
  pose proof (C104_rarely_told_apart (bls_map C) (bls_map_laws C H) P size n pl elems found E1 E2 Hfair Hnd Hf) as L.
  assert (E4 : Z.of_nat (@length (bm_K (bls_map C)) elems) = bls_r) by exact E3. clear E3. clear E1 E2.
  revert L Hc. generalize (2 * comparisons pl * (2 * size + n + 2))%nat. intros D L Hc.
  assert (L' : (Z.of_nat (length found) * (bls_r - 1) <= Z.of_nat D * ((bls_r - 1) ^ Z.of_nat size * bls_r ^ Z.of_nat (n + 2)))%Z).
  { assert (R0 : (1 <= bls_r)%Z) by (apply Z.leb_le; vm_compute; reflexivity).
    apply inj_le in L. rewrite !Nat2Z.inj_mul, !Nat2Z.inj_pow, !Nat2Z.inj_sub in L by (apply Nat2Z.inj_le; rewrite E4; exact R0).
    rewrite E4 in L. exact L. }
  assert (R : (2 ^ 127 * 2 ^ 127 <= bls_r - 1)%Z) by (apply Z.leb_le; vm_compute; reflexivity).
  assert (R1 : (0 <= (bls_r - 1) ^ Z.of_nat size * bls_r ^ Z.of_nat (n + 2))%Z) by (apply Z.mul_nonneg_nonneg; apply Z.pow_nonneg; apply Z.leb_le; vm_compute; reflexivity).
  revert R1 L'. generalize ((bls_r - 1) ^ Z.of_nat size * bls_r ^ Z.of_nat (n + 2))%Z. intros T R1 L'.
  assert (Q1 : (Z.of_nat (length found) * (2 ^ 127 * 2 ^ 127) <= Z.of_nat (length found) * (bls_r - 1))%Z) by (apply Z.mul_le_mono_nonneg_l; [apply Nat2Z.is_nonneg|exact R]).
  assert (Q2 : (Z.of_nat D * T <= 2 ^ 127 * T)%Z) by (apply Z.mul_le_mono_nonneg_r; assumption).
  assert (Q3 : (Z.of_nat (length found) * 2 ^ 127 * 2 ^ 127 <= T * 2 ^ 127)%Z) by (rewrite <- Z.mul_assoc, (Z.mul_comm T); etransitivity; [exact Q1|]; etransitivity; [exact L'|exact Q2]).
  apply (Z.mul_le_mono_pos_r _ _ (2 ^ 127)); [apply Z.ltb_lt; vm_compute; reflexivity|exact Q3].
Qed.

(** ** Examples *)
Local Ltac vmr x := vm_cast_no_check (eq_refl x).
(** Keys for 2 & 5, for 1 & (4 | (2 & 3)) and, delegated from it, for 1 & 4 are issued, the first and
    the last to the attacker. One of two messages is encrypted for 1 and 5 and the masked message is
    compared with the first. This tells the messages apart if the scalar of the ciphertext is 0. *)
Definition c104_m (k : Z) : strategy toy := @mkStrategy toy [] [(OneGt, f101 k)].
Definition c104_plan : plan toy :=
  Ask (Generated c09_f) true (Ask (Generated ex_f) false (Ask (Delegated 0 c75_f) true
    (Challenge [1; 5]%N (c104_m 1) (c104_m 2) (Compare (@mkStrategy toy [] [(CtMasked, f101 1)]) (c104_m 1) (Answer false) (Answer true))))).
Definition c104_x : drawn toy :=
  @mkDrawn toy (draws ex_draw 0 10) (ex_draw 10) [ex_draw 0; ex_kdraw 0; ex_kdraw 1; ex_draw 0] f0.
Definition c104_ct (w : bool) : ciphertext toy :=
  run (@mkCt toy [] f0 []) (encrypt pf (gt_gen_exp toy (f101 (if w then 2 else 1))) [1; 5]%N (pub_key ex_mk) (dr_s c104_x)).
Lemma c104_plays w : plays pf ex_mk (dr_u c104_x) (dr_s c104_x) w [] [] [] no_ciphertext c104_plan w.
Proof.
  destruct C75_example as (R & D1 & _). destruct ex_setup as (_ & H2 & _).
  apply (pl_ask pf ex_mk _ _ _ _ _ _ _ _ _ _ c09_f c09_uk).
  { apply (mk_gen pf ex_mk _ _ _ c09_f c09_m); [vmr (@Ok (msp Z) c09_m)|vmr (@Ok (decryption_key toy) c09_uk)]. }
  apply (pl_ask pf ex_mk _ _ _ _ _ _ _ _ _ _ ex_f ex_uk).
  { apply (mk_gen pf ex_mk _ _ _ ex_f ex_m); [exact H2|vmr (@Ok (decryption_key toy) ex_uk)]. }
  apply (pl_ask pf ex_mk _ _ _ _ _ _ _ _ _ _ c75_f c75_key).
  { apply (mk_del pf ex_mk _ _ _ 0 ex_f ex_uk c75_f c75_m); [reflexivity|reflexivity|right; exact R|exact D1|vmr (@Ok (decryption_key toy) c75_key)]. }
  apply (pl_challenge pf ex_mk _ _ _ _ _ _ _ _ _ _ _ (c104_ct w)).
  { destruct w; [vmr (@Ok (ciphertext toy) (c104_ct true))|vmr (@Ok (ciphertext toy) (c104_ct false))]. }
  destruct w.
  - apply pl_different; [|constructor]. intros E. apply (f_equal (@zval m101)) in E. vm_compute in E. discriminate.
  - apply pl_same; [vmr (f101 1)|constructor].
Qed.
Example C104_example : fair 4 [] [] None c104_plan /\ length (dr_t c104_x) = 10%nat /\ length (dr_u c104_x) = 4%nat /\ tells_apart pf 10 c104_plan c104_x.
Proof.
  split; [|split; [reflexivity|split; [reflexivity|]]].
  - cbn [fair c104_plan formula_of]. intros f E. assert (f = c09_f) by congruence. subst f. split; [vm_compute; lia|split; [discriminate|]].
    intros f E2. assert (f = ex_f) by congruence. subst f. split; [vm_compute; lia|split; [discriminate|]].
    intros f E3. assert (f = c75_f) by congruence. subst f. split; [vm_compute; lia|split; [discriminate|]].
    split; [reflexivity|split; [|split; exact I]]. intros f [<-|[<-|[]]] Hh; simpl in Hh; intuition discriminate.
  - exists ex_mk, false, false. split; [vmr (@Ok (master_key toy) ex_mk)|]. split; [exact (c104_plays false)|].
    intros Q. pose proof (C104_one_answer toy pf ex_mk _ _ _ _ _ _ _ _ _ _ Q (c104_plays true)). discriminate.
Qed.
(** with a key for 1 & (4 | (2 & 3)) and the attributes 1 and 4 *)
Example C104_example_entitled : exists a : strategy toy, tells_apart pf 10 (entitled_plan toy ex_f [1; 4]%N a) c104_x.
Proof.
  destruct (C104_entitled_tell_apart toy toy_laws pf 10 ex_f [1; 4]%N) as (a & H).
  - repeat constructor; simpl; intuition discriminate.
  - intros z Hz. simpl in Hz. destruct Hz as [<-|[<-|[<-|[<-|[]]]]]; cbn; lia.
  - cbn. lia.
  - intros z [<-|[<-|[]]]; cbn; lia.
  - unfold attrs. simpl. tauto.
  - exists a. apply H; [reflexivity|]. intros z Hz E. apply (f_equal (@zval m101)) in E.
    repeat (destruct Hz as [<-|Hz]; [vm_compute in E; discriminate|]). destruct Hz.
Qed.

Print Assumptions C104_entitled_tell_apart.
Print Assumptions C104_one_answer.
Print Assumptions C104_rarely_told_apart.
Print Assumptions C104_negligible.
