(** Keys and ciphertexts made with different policies, and with public keys of other policies: C100, C101. *)
From Coq Require Import String NArith ZArith Bool Lia List.
From Verif Require Import Prelude Field LinAlg Msp Spec MspProofs Bilinear Scheme SchemeSpec SchemeProofs SchemeTheorems
  Policy PolicySpec PolicyProofs Engine EngineSpec EngineProofs Zp ExpModel PropertiesScheme PropertiesEngine CopiesSpec.
Import ListNotations.
Local Open Scope N_scope.

(** ** Numbers *)
Definition numbered (num : list attribute) (last : N) (m : list (attribute * list N)) : Prop :=
  last = N.of_nat (length num) /\
  forall b, match map_get attribute_eqb m b with
            | Some h => forall v, In v h <-> exists i, v = N.of_nat (S i) /\ nth_error num i = Some b
            | None => ~ In b num
            end.

Lemma nth_error_snoc {A} (l : list A) x i y : nth_error (l ++ [x]) i = Some y <-> nth_error l i = Some y \/ (i = length l /\ y = x).
Proof.
  destruct (Nat.lt_ge_cases i (length l)) as [H|H].
  - rewrite nth_error_app1 by exact H. split; [tauto|]. intros [E|[E _]]; [exact E|lia].
  - rewrite nth_error_app2 by exact H. assert (E : nth_error l i = None) by (apply nth_error_None; exact H). rewrite E.
    destruct (i - length l)%nat as [|k] eqn:Ek.
    + cbn. split; [intros Q; right; split; [lia|congruence]|]. intros [Q|[_ Q]]; congruence.
    + destruct k; cbn; (split; [discriminate|]; intros [Q|[Q _]]; [discriminate|lia]).
Qed.

(** a further number for [a] *)
Lemma numbered_step num last m a : numbered num last m ->
  numbered (num ++ [a]) (last + 1) (map_set attribute_eqb m a ((last + 1) :: match map_get attribute_eqb m a with Some h => h | None => [] end)).
Proof.
  intros [-> H]. split; [rewrite app_length; cbn [length]; lia|]. intros b. rewrite heap_get_set. destruct (attribute_eqb b a) eqn:E.
  - apply attribute_eqb_spec in E. subst b. intros v. cbn [In]. specialize (H a). split.
    + intros [<-|Hv]; [exists (length num); split; [lia|]; apply nth_error_snoc; right; split; reflexivity|].
      destruct (map_get attribute_eqb m a) as [h|]; [|destruct Hv]. apply H in Hv as (i & -> & Hi). exists i. split; [reflexivity|]. apply nth_error_snoc. left. exact Hi.
    + intros (i & -> & Hi). apply nth_error_snoc in Hi as [Hi|[-> _]]; [right|left; lia].
      destruct (map_get attribute_eqb m a) as [h|]; [apply H; exists i; split; [reflexivity|exact Hi]|]. apply nth_error_In in Hi. contradiction.
  - assert (Hne : b <> a) by (intros ->; rewrite (proj2 (attribute_eqb_spec a a) eq_refl) in E; discriminate).
    specialize (H b). destruct (map_get attribute_eqb m b) as [h|].
    + intros v. rewrite H. split; intros (i & -> & Hi); exists i; (split; [reflexivity|]); [apply nth_error_snoc; left; exact Hi|].
      apply nth_error_snoc in Hi as [Hi|[_ Q]]; [exact Hi|contradiction].
    + intros Q. apply in_app_or in Q as [Q|[Q|[]]]; [contradiction|congruence].
Qed.

Lemma numbered_insert x names : forall num last m, NoDup names -> (forall n, In n names -> map_get attribute_eqb m (x, n) = None) -> numbered num last m ->
  numbered (num ++ map (pair x) names) (fst (insert_values x names last m)) (snd (insert_values x names last m)).
Proof.
  induction names as [|n names IH]; intros num last m Hnd Hnone H.
  - cbn [map insert_values fst snd]. rewrite app_nil_r. exact H.
  - inversion Hnd as [|? ? Hn Hnd']; subst. cbn [map insert_values]. replace (num ++ (x, n) :: map (pair x) names) with ((num ++ [(x, n)]) ++ map (pair x) names) by (rewrite <- app_assoc; reflexivity).
    apply IH; [exact Hnd'| |].
    + intros k Hk. rewrite heap_get_set. destruct (attribute_eqb (x, k) (x, n)) eqn:E.
      * apply attribute_eqb_spec in E. assert (k = n) by congruence. subst k. contradiction.
      * apply Hnone. right. exact Hk.
    + pose proof (numbered_step num last m (x, n) H) as Q. rewrite (Hnone n (or_introl eq_refl)) in Q. exact Q.
Qed.

Lemma numbering_app ops ops' : numbering (ops ++ ops') = numbering ops ++ numbering ops'.
Proof. unfold numbering. apply flat_map_app. Qed.

Lemma numbered_apply ops p o p' : inv ops p -> proper_axes (ops ++ [o]) -> numbered (numbering ops) (last_attribute_value p) (attribute_to_int p) ->
  apply_op p o = Ok p' -> numbered (numbering (ops ++ [o])) (last_attribute_value p') (attribute_to_int p').
Proof.
  intros I Hpr H E. rewrite numbering_app. destruct o as [x names h|a]; cbn [apply_op] in E.
  - destruct (add_axis_inv p x names h p' E) as (_ & Hn & ->). cbn [last_attribute_value attribute_to_int].
    unfold numbering at 2. cbn [flat_map]. rewrite app_nil_r, <- (insert_values_last x names (last_attribute_value p) (attribute_to_int p)).
    apply numbered_insert; [apply (Hpr x names h), in_or_app; right; left; reflexivity| |exact H].
    intros n _. destruct (map_get attribute_eqb (attribute_to_int p) (x, n)) as [hp|] eqn:Eh; [|reflexivity].
    destruct (proj1 (i_decl ops p I (x, n)) (ex_intro _ hp Eh)) as (names' & h' & Hin & _). apply (i_axes ops p I) in Hin. cbn [fst] in Hin. congruence.
  - destruct (rotate_inv p a p' E) as (h & Eh & _ & ->). cbn [last_attribute_value attribute_to_int].
    unfold numbering at 2. cbn [flat_map app]. pose proof (numbered_step _ _ _ a H) as Q. unfold heap_get in Eh. rewrite Eh in Q. exact Q.
Qed.
Lemma numbered_run ops2 : forall ops p p', inv ops p -> proper_axes (ops ++ ops2) -> numbered (numbering ops) (last_attribute_value p) (attribute_to_int p) ->
  run_ops ops2 p = Ok p' -> numbered (numbering (ops ++ ops2)) (last_attribute_value p') (attribute_to_int p').
Proof.
  induction ops2 as [|o ops2 IH]; intros ops p p' I Hpr H E.
  - rewrite app_nil_r. assert (p' = p) by (cbn in E; congruence). subst p'. exact H.
  - cbn [run_ops] in E. apply bind_ok in E as (p1 & E1 & E2). replace (ops ++ o :: ops2) with ((ops ++ [o]) ++ ops2) in * by (rewrite <- app_assoc; reflexivity).
    apply (IH _ p1 p'); [exact (inv_apply ops p o p1 I E1)|exact Hpr| |exact E2]. apply (numbered_apply ops p o p1 I); [|exact H|exact E1].
    intros x names h Hin. apply (Hpr x names h). apply in_or_app. left. exact Hin.
Qed.
Lemma numbered_history n ops p : run_ops ops (new_policy n) = Ok p -> proper_axes ops -> numbered (numbering ops) (last_attribute_value p) (attribute_to_int p).
Proof.
  intros E Hpr. apply (numbered_run ops [] (new_policy n) p (inv_new n) Hpr); [|exact E]. split; [reflexivity|]. intros b. cbn. intros [].
Qed.

Lemma last_place_le l b i j : last_place l b i -> nth_error l j = Some b -> (j <= i)%nat.
Proof.
  intros [_ H] E. destruct (Nat.le_gt_cases j i) as [L|L]; [exact L|]. exfalso. apply H.
  replace l with (firstn (S i) l ++ skipn (S i) l) in E by apply firstn_skipn.
  rewrite nth_error_app2 in E by (rewrite firstn_length; lia). exact (nth_error_In _ _ E).
Qed.
Lemma current_place n ops p b v : run_ops ops (new_policy n) = Ok p -> proper_axes ops -> current p b v ->
  exists i, v = N.of_nat (S i) /\ last_place (numbering ops) b i.
Proof.
  intros E Hpr (h & Eh & Hv & Hm). destruct (numbered_history n ops p E Hpr) as [_ H]. specialize (H b). unfold heap_get in Eh. rewrite Eh in H.
  destruct (proj1 (H v) Hv) as (i & -> & Hi). exists i. split; [reflexivity|]. split; [exact Hi|]. intros Q. apply In_nth_error in Q as (k & Hk).
  assert (E' : nth_error (numbering ops) (S i + k) = Some b).
  { rewrite <- (firstn_skipn (S i) (numbering ops)), nth_error_app2; rewrite firstn_length_le; try lia.
    - rewrite <- Hk. f_equal. lia. - pose proof (proj1 (nth_error_Some (numbering ops) i)) as L. rewrite Hi in L. specialize (L ltac:(discriminate)). lia.
    - pose proof (proj1 (nth_error_Some (numbering ops) i)) as L. rewrite Hi in L. specialize (L ltac:(discriminate)). lia. }
  specialize (Hm (N.of_nat (S (S i + k))) (proj2 (H _) (ex_intro _ _ (conj eq_refl E')))). lia.
Qed.
Lemma place_current n ops p b i : run_ops ops (new_policy n) = Ok p -> proper_axes ops -> last_place (numbering ops) b i -> current p b (N.of_nat (S i)).
Proof.
  intros E Hpr L. destruct (numbered_history n ops p E Hpr) as [_ H]. specialize (H b). unfold current, heap_get.
  destruct (map_get attribute_eqb (attribute_to_int p) b) as [h|].
  - exists h. split; [reflexivity|]. split; [apply H; exists i; split; [reflexivity|exact (proj1 L)]|].
    intros w Hw. apply H in Hw as (j & -> & Hj). pose proof (last_place_le _ _ _ _ L Hj). lia.
  - exfalso. apply H. exact (nth_error_In _ _ (proj1 L)).
Qed.

Lemma taken_hits n1 n2 ops1 ops2 p1 p2 l gam c : run_ops ops1 (new_policy n1) = Ok p1 -> run_ops ops2 (new_policy n2) = Ok p2 ->
  proper_axes ops1 -> proper_axes ops2 -> attributes_values p2 l = Ok gam -> declared ops1 c ->
  hits p1 (attrs gam) c <-> taken_for ops1 ops2 l c.
Proof.
  intros E1 E2 P1 P2 Eg D. apply attributes_values_inv in Eg. destruct (numbered_history n1 ops1 p1 E1 P1) as [_ H]. specialize (H c).
  unfold hits, taken_for, heap_get. split.
  - intros (h & v & Eh & Hv & Hg). rewrite Eh in H. apply H in Hv as (i & -> & Hi). unfold attrs in Hg.
    destruct (Forall2_in_r _ _ _ _ Eg Hg) as (b & Hb & Hc). destruct (current_place n2 ops2 p2 b _ E2 P2 Hc) as (j & Ej & Hj).
    assert (j = i) by lia. subst j. exists b, i. split; [exact Hb|split; [exact Hj|exact Hi]].
  - intros (b & i & Hb & Hj & Hi). destruct (map_get attribute_eqb (attribute_to_int p1) c) as [h|]; [|exfalso; apply H; exact (nth_error_In _ _ Hi)].
    exists h, (N.of_nat (S i)). split; [reflexivity|]. split; [apply H; exists i; split; [reflexivity|exact Hi]|].
    destruct (Forall2_in_l _ _ _ _ Eg Hb) as (v & Hv & Hc). destruct (current_place n2 ops2 p2 b v E2 P2 Hc) as (j & -> & Hj').
    pose proof (last_place_le _ _ _ _ Hj (proj1 Hj')). pose proof (last_place_le _ _ _ _ Hj' (proj1 Hj)). assert (j = i) by lia. subst j. exact Hv.
Qed.

(** attributes that exist get new numbers by rotations only *)
Lemma only_rotated ops2 : forall ops p p2 b, inv ops p -> run_ops ops2 p = Ok p2 -> declared ops b -> In b (numbering ops2) -> In (Rotate b) ops2.
Proof.
  induction ops2 as [|o ops2 IH]; intros ops p p2 b I E D H; [destruct H|]. cbn [run_ops] in E. apply bind_ok in E as (p1 & E1 & E2).
  change (numbering (o :: ops2)) with ((match o with AddAxis x names _ => map (pair x) names | Rotate a => [a] end) ++ numbering ops2) in H.
  apply in_app_or in H as [H|H].
  - destruct o as [x names h|a]; [|destruct H as [->|[]]; left; reflexivity]. exfalso. apply in_map_iff in H as (n & <- & _).
    destruct (add_axis_inv p x names h p1 E1) as (_ & Hn & _). destruct D as (names' & h' & Hin & _). apply (i_axes ops p I) in Hin. cbn [fst] in Hin. congruence.
  - right. apply (IH (ops ++ [o]) p1 p2 b (inv_apply ops p o p1 I E1) E2); [|exact H].
    destruct D as (names & h & Hin & Hn). exists names, h. split; [apply in_or_app; left; exact Hin|exact Hn].
Qed.
Lemma declared_numbered ops b : declared ops b <-> exists names h, In (AddAxis (fst b) names h) ops /\ In b (map (pair (fst b)) names).
Proof.
  split; intros (names & h & H1 & H2); exists names, h; (split; [exact H1|]).
  - apply in_map_iff. exists (snd b). split; [destruct b; reflexivity|exact H2].
  - apply in_map_iff in H2 as (n & E & Hn). rewrite <- E. exact Hn.
Qed.
Lemma declared_in ops b : declared ops b -> In b (numbering ops).
Proof.
  intros D. apply declared_numbered in D as (names & h & H1 & H2). unfold numbering. apply in_flat_map. exists (AddAxis (fst b) names h). split; assumption.
Qed.
Lemma taken_unchanged ops ops1 ops2 l c : (forall b, In b l -> In b (numbering ops) /\ ~ In b (numbering ops2)) ->
  (forall b, In b l -> exists i, last_place (numbering (ops ++ ops2)) b i) ->
  taken_for (ops ++ ops1) (ops ++ ops2) l c <-> In c l.
Proof.
  intros H Hex.
  assert (E : forall b i, In b l -> last_place (numbering (ops ++ ops2)) b i -> nth_error (numbering (ops ++ ops1)) i = Some b).
  { intros b i Hb [Hi _]. rewrite numbering_app in Hi |- *. destruct (Nat.lt_ge_cases i (length (numbering ops))) as [L|L].
    - rewrite nth_error_app1 in Hi |- * by exact L. exact Hi.
    - rewrite nth_error_app2 in Hi by exact L. exfalso. apply (proj2 (H b Hb)). exact (nth_error_In _ _ Hi). }
  split.
  - intros (b & i & Hb & Hi & Hc). rewrite (E b i Hb Hi) in Hc. assert (b = c) by congruence. subst b. exact Hb.
  - intros Hc. destruct (Hex c Hc) as (i & Hi). exists c, i. split; [exact Hc|split; [exact Hi|exact (E c i Hc Hi)]].
Qed.

Section Copies.
Variable B : BilinearMap.
Hypothesis BL : BilinearLaws B.
Local Notation K := (bm_K B).
Implicit Types P : platform.

(** ** C100 *)
(** Who can decrypt if the key and the ciphertext were made with two policies, whatever their histories. *)
Theorem C100_exact P n1 n2 ops1 ops2 p1 p2 p0 (mdraw : nat -> K) mk ap uk l msg (s : K) ct :
  run_ops ops1 (new_policy n1) = Ok p1 -> run_ops ops2 (new_policy n2) = Ok p2 -> proper_axes ops1 -> proper_axes ops2 ->
  eng_master_key p0 mdraw = Ok mk -> user_key P mk p1 ap uk -> eng_encrypt P p2 (pub_key mk) l msg s = Ok ct ->
  (satisfied ops1 (taken_for ops1 ops2 l) ap /\ eng_decrypt ct uk = Ok (Some msg)) \/
  (~ satisfied ops1 (taken_for ops1 ops2 l) ap /\ refused (eng_decrypt ct uk)).
Proof using BL.
  intros E1 E2 P1 P2 Hmk Hk He. eapply (engine_exact B BL P); [exact Hmk|exact (inv_history n1 ops1 p1 E1)|exact Hk|exact He|].
  intros gam c Hg D. exact (taken_hits n1 n2 ops1 ops2 p1 p2 l gam c E1 E2 P1 P2 Hg D).
Qed.

(** Two copies of a policy that are changed separately: the attributes that the encrypting side did
    not create or rotate since then keep their meaning. *)
Theorem C100_unchanged_attributes P n ops ops1 ops2 p p1 p2 p0 (mdraw : nat -> K) mk ap uk l msg (s : K) ct :
  run_ops ops (new_policy n) = Ok p -> run_ops ops1 p = Ok p1 -> run_ops ops2 p = Ok p2 ->
  proper_axes (ops ++ ops1) -> proper_axes (ops ++ ops2) ->
  eng_master_key p0 mdraw = Ok mk -> user_key P mk p1 ap uk -> eng_encrypt P p2 (pub_key mk) l msg s = Ok ct ->
  (forall b, In b l -> declared ops b /\ ~ In (Rotate b) ops2) ->
  (satisfied (ops ++ ops1) (fun c => In c l) ap /\ eng_decrypt ct uk = Ok (Some msg)) \/
  (~ satisfied (ops ++ ops1) (fun c => In c l) ap /\ refused (eng_decrypt ct uk)).
Proof using BL.
  intros Hp E1 E2 P1 P2 Hmk Hk He Hl. pose proof (inv_history n ops p Hp) as I.
  assert (R1 : run_ops (ops ++ ops1) (new_policy n) = Ok p1) by (rewrite (run_app ops ops1 _ p Hp); exact E1).
  assert (R2 : run_ops (ops ++ ops2) (new_policy n) = Ok p2) by (rewrite (run_app ops ops2 _ p Hp); exact E2).
  eapply (engine_exact B BL P); [exact Hmk|exact (inv_history n _ p1 R1)|exact Hk|exact He|].
  intros gam c Hg D. rewrite (taken_hits n n _ _ p1 p2 l gam c R1 R2 P1 P2 Hg D). apply taken_unchanged.
  - intros b Hb. destruct (Hl b Hb) as [Db Hr]. split; [exact (declared_in ops b Db)|]. intros Q. apply Hr. exact (only_rotated ops2 ops p p2 b I E2 Db Q).
  - intros b Hb. apply attributes_values_inv in Hg. destruct (Forall2_in_l _ _ _ _ Hg Hb) as (v & _ & Hc).
    destruct (current_place n _ p2 b v R2 P2 Hc) as (i & _ & Hi). exists i. exact Hi.
Qed.

(** Rotations of two attributes, each in its own copy of the policy: the keys issued with one copy
    for its rotated attribute open the ciphertexts made with the other copy for the other attribute. *)
Theorem C100_separate_rotations_refuted P n ops p a b p1 p2 p0 (mdraw : nat -> K) mk uk msg (s : K) ct :
  run_ops ops (new_policy n) = Ok p -> proper_axes ops -> rotate p a = Ok p1 -> rotate p b = Ok p2 ->
  eng_master_key p0 mdraw = Ok mk -> user_key P mk p1 (AAttr a) uk -> eng_encrypt P p2 (pub_key mk) [b] msg s = Ok ct ->
  eng_decrypt ct uk = Ok (Some msg).
Proof using BL.
  intros Hp Hpr Ea Eb Hmk Hk He. pose proof (inv_history n ops p Hp) as I.
  assert (Ra : run_ops (ops ++ [Rotate a]) (new_policy n) = Ok p1) by (rewrite (run_app ops _ _ p Hp); cbn [run_ops apply_op]; rewrite Ea; reflexivity).
  assert (Rb : run_ops (ops ++ [Rotate b]) (new_policy n) = Ok p2) by (rewrite (run_app ops _ _ p Hp); cbn [run_ops apply_op]; rewrite Eb; reflexivity).
  assert (Q : forall o, proper_axes (ops ++ [Rotate o])).
  { intros o x names h Hin. apply in_app_or in Hin as [Hin|[Hin|[]]]; [exact (Hpr x names h Hin)|discriminate]. }
  destruct (C100_exact P n n _ _ p1 p2 p0 mdraw mk (AAttr a) uk [b] msg s ct Ra Rb (Q a) (Q b) Hmk Hk He) as [[_ H]|[H _]]; [exact H|].
  exfalso. apply H. exists a. split.
  - exists b, (length (numbering ops)). rewrite !numbering_app. split; [left; reflexivity|]. split; [split|].
    + rewrite nth_error_app2, Nat.sub_diag by lia. reflexivity.
    + rewrite skipn_all2; [intros []|]. rewrite app_length. change (length (numbering [Rotate b])) with 1%nat. lia.
    + rewrite nth_error_app2, Nat.sub_diag by lia. reflexivity.
  - destruct (rotate_inv p a p1 Ea) as (h & Eh & _). destruct (proj1 (i_decl ops p I a) (ex_intro _ h Eh)) as (names & hh & Hin & Hn).
    exists names, hh. split; [apply in_or_app; left; exact Hin|split; [exact Hn|left; reflexivity]].
Qed.

(** The same axes added in another order: the keys of the first attribute of one axis open the
    ciphertexts for the first attribute of the other. *)
Theorem C100_reordered_axes_refuted P n x y n0 m0 ns ms hx hy p1 p2 p0 (mdraw : nat -> K) mk uk msg (s : K) ct :
  run_ops [AddAxis x (n0 :: ns) hx; AddAxis y (m0 :: ms) hy] (new_policy n) = Ok p1 ->
  run_ops [AddAxis y (m0 :: ms) hy; AddAxis x (n0 :: ns) hx] (new_policy n) = Ok p2 ->
  NoDup (n0 :: ns) -> NoDup (m0 :: ms) ->
  eng_master_key p0 mdraw = Ok mk -> user_key P mk p1 (AAttr (x, n0)) uk -> eng_encrypt P p2 (pub_key mk) [(y, m0)] msg s = Ok ct ->
  x <> y /\ eng_decrypt ct uk = Ok (Some msg).
Proof using BL.
  intros E1 E2 N1 N2 Hmk Hk He.
  assert (Hxy : x <> y).
  { intros <-. cbn [run_ops] in E1. apply bind_ok in E1 as (q & Eq & E1). apply bind_ok in E1 as (q' & Eq' & _).
    pose proof (inv_apply [] _ _ q (inv_new n) Eq) as I. destruct (add_axis_inv q x (m0 :: ms) hy q' Eq') as (_ & Hn & _).
    assert (Q : axis_get q x = Some (n0 :: ns, hx)) by (apply (i_axes _ q I); left; reflexivity). congruence. }
  split; [exact Hxy|].
  assert (P1 : proper_axes [AddAxis x (n0 :: ns) hx; AddAxis y (m0 :: ms) hy]) by (intros z names h [E|[E|[]]]; assert (names = n0 :: ns \/ names = m0 :: ms) as [->| ->] by (first [left; congruence|right; congruence]); assumption).
  assert (P2 : proper_axes [AddAxis y (m0 :: ms) hy; AddAxis x (n0 :: ns) hx]) by (intros z names h [E|[E|[]]]; assert (names = n0 :: ns \/ names = m0 :: ms) as [->| ->] by (first [left; congruence|right; congruence]); assumption).
  destruct (C100_exact P n n _ _ p1 p2 p0 mdraw mk (AAttr (x, n0)) uk [(y, m0)] msg s ct E1 E2 P1 P2 Hmk Hk He) as [[_ H]|[H _]]; [exact H|].
  exfalso. apply H. exists (x, n0). split.
  - exists (y, m0), O. split; [left; reflexivity|]. split; [split; [reflexivity|]|reflexivity].
    unfold numbering. cbn [flat_map map app skipn]. rewrite app_nil_r. intros Q. apply in_app_or in Q as [Q|Q].
    + apply in_map_iff in Q as (k & Ek & Hk'). inversion N2; subst. assert (k = m0) by congruence. subst k. contradiction.
    + destruct Q as [Q|Q]; [congruence|]. apply in_map_iff in Q as (k & Ek & _). congruence.
  - exists (n0 :: ns), hx. split; [left; reflexivity|]. split; [left; reflexivity|left; reflexivity].
Qed.

(** ** C101 *)
Lemma panics_somewhere {A C} (F : A -> outcome C) q l : (forall x, In x l -> is_ok (F x) \/ F x = Panic q) ->
  (exists x, In x l /\ F x = Panic q) -> mapM F l = Panic q.
Proof using Type.
  clear B BL. induction l as [|x l IH]; intros H (z & Hz & Ez); [destruct Hz|]. cbn [mapM]. destruct (H x (or_introl eq_refl)) as [[y E]|E]; rewrite E; [|reflexivity].
  cbn [bind]. destruct Hz as [->|Hz]; [congruence|]. rewrite IH; [reflexivity|intros w Hw; apply H; right; exact Hw|exists z; split; assumption].
Qed.
Lemma indexN_cases {A} (l : list A) v : (N.to_nat v < length l)%nat /\ is_ok (indexN l v) \/ (length l <= N.to_nat v)%nat /\ indexN l v = Panic IndexOutOfBounds.
Proof using Type.
  clear B BL. unfold indexN. destruct (N.ltb_spec v (N.of_nat (length l))) as [L|L].
  - left. split; [lia|]. unfold index. destruct (nth_error l (N.to_nat v)) as [x|] eqn:E; [exists x; reflexivity|].
    apply nth_error_None in E. lia.
  - right. split; [lia|reflexivity].
Qed.

(** The outcome of encryption, whatever the public key was made for. *)
Theorem C101_encryption P n ops p (pk : master_public_key B) l msg (s : K) :
  run_ops ops (new_policy n) = Ok p -> proper_axes ops -> (0 < length (pub_t pk))%nat -> fits P (length (pub_t pk)) ->
  ((exists b, In b l /\ ~ declared ops b) -> is_err (eng_encrypt P p pk l msg s)) /\
  ((forall b, In b l -> declared ops b) ->
    ((length (pub_t pk) <= length l)%nat -> is_err (eng_encrypt P p pk l msg s)) /\
    ((length l < length (pub_t pk))%nat ->
      ((exists b i, In b l /\ last_place (numbering ops) b i /\ (length (pub_t pk) <= S i)%nat) ->
        eng_encrypt P p pk l msg s = Panic IndexOutOfBounds) /\
      ((forall b i, In b l -> last_place (numbering ops) b i -> (S i < length (pub_t pk))%nat) -> is_ok (eng_encrypt P p pk l msg s)))).
Proof using Type.
  intros Hp Hpr H0 Hf. pose proof (inv_history n ops p Hp) as I. unfold eng_encrypt. split.
  - intros (b & Hb & Hd). assert (Hnp : no_panic (attributes_values p l)).
    { apply mapM_no_panic. intros c _. destruct (heap_get p c) as [h|]; [|apply no_panic_err]. destruct (heap_peek h); [apply no_panic_ok|apply no_panic_err]. }
    apply no_panic_cases in Hnp as [[gam E]|[e E]]; [|rewrite E; exists e; reflexivity].
    exfalso. apply Hd. exact (attributes_values_declared ops p l gam I E b Hb).
  - intros Hd. destruct (attributes_values_ok ops p l I Hd) as (gam & Eg & Lg). rewrite Eg. cbn [bind].
    pose proof (attributes_values_inv p l gam Eg) as F. split.
    + intros Hl. apply (encrypt_bounds B P msg gam pk s); [exact Hf|lia].
    + intros Hl. unfold encrypt. destruct (Nat.leb_spec (length (pub_t pk)) (length gam)) as [Q|_]; [lia|]. split.
      * intros (b & i & Hb & Hi & Hle). rewrite (panics_somewhere _ IndexOutOfBounds); [reflexivity| |].
        -- intros v _. destruct (indexN_cases (pub_t pk) v) as [[_ [x E]]|[_ E]]; rewrite E; [left; eexists; reflexivity|right; reflexivity].
        -- destruct (Forall2_in_l _ _ _ _ F Hb) as (v & Hv & Hc). exists v. split; [exact Hv|].
           destruct (current_place n ops p b v Hp Hpr Hc) as (j & -> & Hj).
           pose proof (last_place_le _ _ _ _ Hi (proj1 Hj)). pose proof (last_place_le _ _ _ _ Hj (proj1 Hi)).
           destruct (indexN_cases (pub_t pk) (N.of_nat (S j))) as [[L _]|[_ E]]; [lia|]. rewrite E. reflexivity.
      * intros Hok. assert (E : exists ei, mapM (fun i => let* t := indexN (pub_t pk) i in Ok (g2_exp B t s)) gam = Ok ei).
        { assert (Hv : forall v, In v gam -> is_ok (indexN (pub_t pk) v)).
          { intros v Hv. destruct (Forall2_in_r _ _ _ _ F Hv) as (b & Hb & Hc). destruct (current_place n ops p b v Hp Hpr Hc) as (j & -> & Hj).
            pose proof (Hok b j Hb Hj). destruct (indexN_cases (pub_t pk) (N.of_nat (S j))) as [[_ L]|[L _]]; [exact L|lia]. }
          clear - Hv. induction gam as [|v gam IH]; [exists []; reflexivity|]. cbn [mapM]. destruct (Hv v (or_introl eq_refl)) as (x & E). rewrite E. cbn [bind].
          destruct IH as (ei & Ei); [intros w Hw; apply Hv; right; exact Hw|]. rewrite Ei. eexists. reflexivity. }
        destruct E as (ei & E). rewrite E. eexists. reflexivity.
Qed.

Lemma value_numbered n ops p c v : run_ops ops (new_policy n) = Ok p -> proper_axes ops ->
  (value_of p c v <-> exists i, v = N.of_nat (S i) /\ nth_error (numbering ops) i = Some c).
Proof using Type.
  clear B BL. intros Hp Hpr. destruct (numbered_history n ops p Hp Hpr) as [_ H]. specialize (H c). unfold value_of, heap_get.
  destruct (map_get attribute_eqb (attribute_to_int p) c) as [h|].
  - rewrite <- H. split; [intros (h' & E & Hv); congruence|intros Hv; exists h; split; [reflexivity|exact Hv]].
  - split; [intros (h' & E & _); discriminate|]. intros (i & _ & Hi). exfalso. apply H. exact (nth_error_In _ _ Hi).
Qed.
Lemma key_numbers it n ops p ap f : run_ops ops (new_policy n) = Ok p -> proper_axes ops -> iteration_ok it -> key_formula it p ap = Ok f ->
  forall v, In v (leaves f) <-> exists c i, needed ops ap c /\ nth_error (numbering ops) i = Some c /\ v = N.of_nat (S i).
Proof using Type.
  clear B BL. intros Hp Hpr Hit Ef v. pose proof (inv_history n ops p Hp) as I.
  assert (D : forall c w, value_of p c w -> declared ops c) by (intros c w (h & E & _); apply (i_decl ops p I); exists h; exact E).
  assert (A : ap = AAll \/ ap <> AAll) by (destruct ap; (right; discriminate) || (left; reflexivity)). destruct A as [->|A].
  - destruct (key_formula_all it ops p Hit I) as [H1 H2]. assert (Hb : exists b, declared ops b).
    { destruct (Policy.attribute_to_int p) as [|[b h] m] eqn:Em.
      - exfalso. assert (N0 : ~ exists b, declared ops b).
        { intros (b & Db). apply (i_decl ops p I) in Db as (h & E). unfold heap_get in E. rewrite Em in E. discriminate. }
        rewrite (H2 N0) in Ef. discriminate.
      - exists b. apply (i_decl ops p I). exists h. unfold heap_get. rewrite Em. cbn [map_get]. rewrite (proj2 (attribute_eqb_spec b b) eq_refl). reflexivity. }
    destruct (H1 Hb) as (f' & Ef' & _ & Hv). assert (f' = f) by congruence. subst f'. rewrite Hv. cbn [needed]. split.
    + intros (b & Hvb). pose proof (D b v Hvb). apply (value_numbered n ops p b v Hp Hpr) in Hvb as (i & -> & Hi). exists b, i. auto.
    + intros (c & i & _ & Hi & ->). exists c. apply (value_numbered n ops p c _ Hp Hpr). exists i. auto.
  - rewrite key_formula_other in Ef by exact A. rewrite (policy_to_formula_values it ops p ap f Hit I Ef v).
    assert (Q : forall c, needed ops ap c <-> exists a, In a (mentioned ap) /\ covers ops a c) by (intros c; destruct ap; try tauto; contradiction).
    split.
    + intros (a & c & Ha & Hc & Hv). apply (value_numbered n ops p c v Hp Hpr) in Hv as (i & -> & Hi). exists c, i. split; [apply Q; exists a; auto|auto].
    + intros (c & i & Hc & Hi & ->). apply Q in Hc as (a & Ha & Hc). exists a, c. split; [exact Ha|split; [exact Hc|]].
      apply (value_numbered n ops p c _ Hp Hpr). exists i. auto.
Qed.

(** Key generation with a master key of another policy never panics: a missing secret is reported. *)
Theorem C101_key_generation P n ops p size (mdraw : nat -> K) mk it ap (draw : nat -> K) :
  run_ops ops (new_policy n) = Ok p -> proper_axes ops -> iteration_ok it -> generate_master_key size mdraw = Ok mk ->
  (exists c i, needed ops ap c /\ nth_error (numbering ops) i = Some c /\ (size <= S i)%nat) ->
  is_err (eng_user_key P it p (priv_key mk) ap draw).
Proof using BL.
  intros Hp Hpr Hit Hmk (c & i & Hc & Hi & Hle). pose proof (C63_made_policies_never_panic B BL P n ops p size mdraw mk it ap draw Hp Hit Hmk) as Hnp.
  apply no_panic_cases in Hnp as [[uk E]|He]; [|exact He]. exfalso.
  destruct (generate_master_key_inv B BL _ _ _ Hmk) as (t & y & -> & Ht & Hnz).
  unfold eng_user_key in E. rewrite policy_to_msp_formula in E. apply bind_ok in E as (m & Em & E). apply bind_ok in Em as (f & Ef & Em).
  destruct (key_generation_rep B BL f m t y draw uk (to_msp_msp_of K (bl_field B BL) P f m Em) E) as (u & _ & R & _).
  assert (Hv : In (N.of_nat (S i)) (leaves f)) by (apply (key_numbers it n ops p ap f Hp Hpr Hit Ef); exists c, i; auto).
  pose proof (kr_range _ _ _ _ _ _ R _ Hv) as Q. unfold in_range in Q. lia.
Qed.

(** The outcome of refreshing a key, whatever the delegation key was made for. *)
Theorem C101_refresh P n ops p p0 (mdraw : nat -> K) mk ap uk (del : delegation_key B) it (draw : nat -> K) :
  run_ops ops (new_policy n) = Ok p -> proper_axes ops -> eng_master_key p0 mdraw = Ok mk -> user_key P mk p ap uk ->
  ((exists c i, needed ops ap c /\ nth_error (numbering ops) i = Some c /\ (length (inv_t del) <= S i)%nat) ->
    eng_delegate P it p del uk AAll draw = Panic IndexOutOfBounds) /\
  ((forall c i, needed ops ap c -> nth_error (numbering ops) i = Some c -> (S i < length (inv_t del))%nat) ->
    is_ok (eng_delegate P it p del uk AAll draw)).
Proof using BL.
  intros Hp Hpr Hmk Hk. destruct (user_key_derived B P mk p ap uk Hk) as (it0 & f & Hit & Ef & D).
  destruct (generate_master_key_inv B BL _ _ _ Hmk) as (t & y & -> & Ht & Hnz).
  destruct (derived_good B BL P t y f uk Hnz D) as ((m & sg & R & _) & _ & _). pose proof (kr_msp _ _ _ _ _ _ R) as M.
  unfold eng_delegate. cbn [bind]. unfold abe_key_delegation. rewrite (key_randomization_eq B BL t f m sg uk del draw R).
  unfold key_delegation. destruct (zero_sharing_vector_total B (nb_col m) draw) as (u & Eu); [rewrite (mo_cols K f m M); lia|]. rewrite Eu. cbn [bind].
  rewrite (rerandomised_eq B) by (symmetry; apply (mo_mat K f m M)).
  assert (One : forall q, In q (labelled m) -> (N.to_nat (fst q) < length (inv_t del))%nat /\ is_ok (deleg_one B uk del of_i32 u (fst q) (snd q)) \/
     (length (inv_t del) <= N.to_nat (fst q))%nat /\ deleg_one B uk del of_i32 u (fst q) (snd q) = Panic IndexOutOfBounds).
  { intros [a row] Hq. cbn [fst snd]. unfold labelled in Hq. apply in_combine_l in Hq.
    assert (Ha : In a (leaves f)) by (apply (Permutation.Permutation_in _ (mo_perm K f m M)); exact Hq).
    unfold deleg_one. destruct (indexN_cases (inv_t del) a) as [[L [g E]]|[L E]]; rewrite E; cbn [bind]; [left|right; split; [exact L|reflexivity]]. split; [exact L|].
    unfold get_row_from_attr. rewrite (kr_dk _ _ _ _ _ _ R). cbn [attr_to_row msp_map].
    destruct (mo_get_in B f m a M Ha) as (i & Hg & Hi & _). rewrite Hg.
    assert (Hix : index (raw_d uk) i = Ok (g3_gen_exp B (fmul (sg a) (finv (tt B t a))))).
    { apply index_ok. rewrite (kr_raw _ _ _ _ _ _ R), nth_error_map, Hi. reflexivity. }
    rewrite Hix. eexists. reflexivity. }
  pose proof (key_numbers it0 n ops p ap f Hp Hpr Hit Ef) as KN. split.
  - intros (c & i & Hc & Hi & Hle). rewrite (panics_somewhere _ IndexOutOfBounds); [reflexivity| |].
    + intros q Hq. destruct (One q Hq) as [[_ H]|[_ H]]; [left; exact H|right; exact H].
    + assert (Hv : In (N.of_nat (S i)) (leaves f)) by (apply KN; exists c, i; auto).
      exists (N.of_nat (S i), row_of m (N.of_nat (S i))). pose proof (leaves_labelled B f m _ M Hv) as Hq. split; [exact Hq|].
      destruct (One _ Hq) as [[L _]|[_ H]]; [cbn [fst] in L; lia|exact H].
  - intros Hok. assert (E : is_ok (mapM (fun q => deleg_one B uk del of_i32 u (fst q) (snd q)) (labelled m))).
    { assert (H : forall q, In q (labelled m) -> is_ok (deleg_one B uk del of_i32 u (fst q) (snd q))).
      { intros q Hq. destruct (One q Hq) as [[_ H]|[L _]]; [exact H|]. exfalso. destruct q as [a row]. cbn [fst] in L. unfold labelled in Hq. apply in_combine_l in Hq.
        assert (Ha : In a (leaves f)) by (apply (Permutation.Permutation_in _ (mo_perm K f m M)); exact Hq).
        apply KN in Ha as (c & i & Hc & Hi & ->). pose proof (Hok c i Hc Hi). lia. }
      clear - H. induction (labelled m) as [|q ls IH]; [exists []; reflexivity|]. cbn [mapM]. destruct (H q (or_introl eq_refl)) as (x & E). rewrite E. cbn [bind].
      destruct IH as (xs & E2); [intros w Hw; apply H; right; exact Hw|]. rewrite E2. eexists. reflexivity. }
    destruct E as (big & E). rewrite E. eexists. reflexivity.
Qed.
End Copies.

(** ** Examples *)
Local Open Scope string_scope.
Local Ltac vmr x := vm_cast_no_check (eq_refl x).
(** Two copies of the policy of the README, in each of which another department is rotated: a key for
    HR made with one decrypts what was encrypted for FIN with the other. *)
Definition pol_c : policy := run (new_policy 0) (rotate pol_a (dept "FIN")).
Example C100_rotations_example :
  run_ops ops_a (new_policy 10) = Ok pol_a /\ proper_axes ops_a /\ rotate pol_a (dept "HR") = Ok pol_b /\ rotate pol_a (dept "FIN") = Ok pol_c /\
  @eng_master_key toy pol_a ex_draw = Ok ex_mk /\ user_key pf ex_mk pol_b (AAttr (dept "HR")) (ekey pol_b (AAttr (dept "HR"))) /\
  eng_encrypt pf pol_c (pub_key ex_mk) [dept "FIN"] ex_msg ex_s = Ok (ect pol_c [dept "FIN"]) /\
  eng_decrypt (ect pol_c [dept "FIN"]) (ekey pol_b (AAttr (dept "HR"))) = Ok (Some ex_msg) /\
  taken_for (ops_a ++ [Rotate (dept "HR")]) (ops_a ++ [Rotate (dept "FIN")]) [dept "FIN"] (dept "HR").
Proof.
  split; [reflexivity|]. split; [exact ops_a_proper|]. split; [reflexivity|]. split; [reflexivity|].
  split; [exact (proj1 ex_engine_setup)|]. split; [|split; [|split]].
  - apply (uk_gen pf ex_mk pol_b it_rev (AAttr (dept "HR")) ex_kdraw); [exact it_rev_ok|vmr (@Ok (decryption_key toy) (ekey pol_b (AAttr (dept "HR"))))].
  - vmr (@Ok (ciphertext toy) (ect pol_c [dept "FIN"])).
  - vmr (@Ok (option (Gt toy)) (Some ex_msg)).
  - exists (dept "FIN"), 7%nat. split; [left; reflexivity|]. split; [split; [reflexivity|intros []]|reflexivity].
Qed.

(** The two axes declared in the other order. *)
Definition ops_r : list op := rev ops_a.
Definition pol_r : policy := run (new_policy 0) (run_ops ops_r (new_policy 10)).
Example C100_axes_example :
  run_ops ops_r (new_policy 10) = Ok pol_r /\ NoDup ["Protected"; "Confidential"; "Top Secret"] /\ NoDup ["R&D"; "HR"; "MKG"; "FIN"] /\
  user_key pf ex_mk pol_a (AAttr (level "Protected")) (ekey pol_a (AAttr (level "Protected"))) /\
  eng_encrypt pf pol_r (pub_key ex_mk) [dept "R&D"] ex_msg ex_s = Ok (ect pol_r [dept "R&D"]) /\
  eng_decrypt (ect pol_r [dept "R&D"]) (ekey pol_a (AAttr (level "Protected"))) = Ok (Some ex_msg).
Proof.
  split; [reflexivity|]. split; [repeat constructor; simpl; intuition discriminate|]. split; [repeat constructor; simpl; intuition discriminate|].
  split; [|split].
  - apply (uk_gen pf ex_mk pol_a it_rev (AAttr (level "Protected")) ex_kdraw); [exact it_rev_ok|vmr (@Ok (decryption_key toy) (ekey pol_a (AAttr (level "Protected"))))].
  - vmr (@Ok (ciphertext toy) (ect pol_r [dept "R&D"])).
  - vmr (@Ok (option (Gt toy)) (Some ex_msg)).
Qed.

(** A copy in which FIN is rotated: attributes that are not rotated there keep their meaning. *)
Example C100_unchanged_example :
  run_ops [Rotate (dept "HR")] pol_a = Ok pol_b /\ run_ops [Rotate (dept "FIN")] pol_a = Ok pol_c /\
  declared ops_a (dept "HR") /\ ~ In (Rotate (dept "HR")) [Rotate (dept "FIN")] /\
  proper_axes (ops_a ++ [Rotate (dept "HR")]) /\
  eng_decrypt (ect pol_c [dept "HR"]) (ekey pol_b (AAttr (dept "HR"))) = Ok (Some ex_msg) /\
  eng_decrypt (ect pol_c [dept "MKG"]) (ekey pol_b (AAttr (dept "HR"))) = Err (InternalOperation "empty input matrix").
Proof.
  split; [reflexivity|]. split; [reflexivity|]. split; [eexists _, false; split; [right; left; reflexivity|simpl; tauto]|].
  split; [intros [E|[]]; discriminate E|]. split; [|split].
  - intros x names h [E|[E|[E|[]]]]; inversion E; subst; repeat constructor; simpl; intuition discriminate.
  - vmr (@Ok (option (Gt toy)) (Some ex_msg)).
  - vmr (@Err (option (Gt toy)) (InternalOperation "empty input matrix")).
Qed.

(** The master keys of a policy for three values. *)
Definition mk_small : master_key toy := run empty_master (generate_master_key 3 ex_draw).
Example C101_example :
  generate_master_key 3 ex_draw = Ok mk_small /\ fits pf (length (pub_t (pub_key mk_small))) /\
  last_place (numbering ops_a) (dept "FIN") 6 /\ last_place (numbering ops_a) (level "Confidential") 1 /\
  eng_encrypt pf pol_a (pub_key mk_small) [dept "FIN"] ex_msg ex_s = Panic IndexOutOfBounds /\
  is_ok (eng_encrypt pf pol_a (pub_key mk_small) [level "Confidential"] ex_msg ex_s) /\
  is_err (eng_encrypt pf pol_a (pub_key mk_small) [level "Confidential"; dept "HR"; dept "FIN"] ex_msg ex_s) /\
  is_err (eng_user_key pf it_rev pol_a (priv_key mk_small) (AAttr (dept "FIN")) ex_kdraw) /\
  eng_delegate pf it_rev pol_a (del_key mk_small) (ekey pol_a ex_ap) AAll ex_draw = Panic IndexOutOfBounds /\
  user_key pf ex_mk pol_a ex_ap (ekey pol_a ex_ap).
Proof.
  split; [vmr (@Ok (master_key toy) mk_small)|]. split; [vm_compute; reflexivity|].
  split; [split; [reflexivity|intros []]|]. split; [split; [reflexivity|simpl; intuition discriminate]|].
  split; [vmr (@Panic (ciphertext toy) IndexOutOfBounds)|].
  split; [exists (run empty_ct (eng_encrypt pf pol_a (pub_key mk_small) [level "Confidential"] ex_msg ex_s));
    vmr (@Ok (ciphertext toy) (run empty_ct (eng_encrypt pf pol_a (pub_key mk_small) [level "Confidential"] ex_msg ex_s)))|].
  split; [exists (InternalOperation "invalid attributes: gamma value incorrect"); vmr (@Err (ciphertext toy) (InternalOperation "invalid attributes: gamma value incorrect"))|].
  split; [exists (InternalOperation "Monotone Span Program is invalid: msp-row larger than private-key-t_i");
    vmr (@Err (decryption_key toy) (InternalOperation "Monotone Span Program is invalid: msp-row larger than private-key-t_i"))|].
  split; [vmr (@Panic (decryption_key toy) IndexOutOfBounds)|].
  apply (uk_gen pf ex_mk pol_a it_rev ex_ap ex_kdraw); [exact it_rev_ok|exact (proj1 (proj2 ex_engine_setup))].
Qed.

(** As a user would read it: keys that do not suit the policy are reported. *)
Theorem C101_refuted :
  ~ (forall (B : BilinearMap) P n ops p size mdraw mk l msg s,
      BilinearLaws B -> run_ops ops (new_policy n) = Ok p -> @generate_master_key B size mdraw = Ok mk -> no_panic (eng_encrypt P p (pub_key mk) l msg s)).
Proof.
  intros H. pose proof (H toy pf 10 ops_a pol_a 3%nat ex_draw mk_small [dept "FIN"] ex_msg ex_s toy_laws eq_refl (proj1 C101_example)) as Q.
  destruct C101_example as (_ & _ & _ & _ & E & _). exact (Q IndexOutOfBounds E).
Qed.

Print Assumptions C100_exact.
Print Assumptions C100_unchanged_attributes.
Print Assumptions C100_separate_rotations_refuted.
Print Assumptions C100_reordered_axes_refuted.
Print Assumptions C101_encryption.
Print Assumptions C101_key_generation.
Print Assumptions C101_refresh.
Print Assumptions C101_refuted.
