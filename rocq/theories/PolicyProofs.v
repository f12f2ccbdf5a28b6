(** Facts about policies, their histories and the translation of access policies. *)
From Coq Require Import String NArith ZArith Bool Lia Permutation List.
From Verif Require Import Prelude Msp Spec Policy PolicySpec.
Import ListNotations.
Local Open Scope N_scope.

(** ** Association lists *)

Lemma attribute_eqb_spec a b : attribute_eqb a b = true <-> a = b.
Proof.
  unfold attribute_eqb. rewrite andb_true_iff, !String.eqb_eq. destruct a, b; simpl. split.
  - intros [-> ->]; reflexivity.
  - intros [= -> ->]; auto.
Qed.

Lemma attribute_dec (a b : attribute) : {a = b} + {a <> b}.
Proof. decide equality; apply String.string_dec. Qed.

Section Maps.
Context {K V : Type} (eqb : K -> K -> bool) (eqb_spec : forall a b, eqb a b = true <-> a = b).

Lemma eqb_refl' a : eqb a a = true. Proof. apply eqb_spec; reflexivity. Qed.
Lemma eqb_neq' a b : a <> b -> eqb a b = false.
Proof. intros H. destruct (eqb a b) eqn:E; [|reflexivity]. apply eqb_spec in E; contradiction. Qed.

Lemma map_get_set_same (m : list (K * V)) k v : map_get eqb (map_set eqb m k v) k = Some v.
Proof.
  induction m as [|(k', v') t IH]; simpl; [rewrite eqb_refl'; reflexivity|].
  destruct (eqb k' k) eqn:E; simpl; rewrite E; [reflexivity|exact IH].
Qed.

Lemma map_get_set_other (m : list (K * V)) k v k2 : k2 <> k -> map_get eqb (map_set eqb m k v) k2 = map_get eqb m k2.
Proof.
  intros H. induction m as [|(k', v') t IH]; simpl.
  - rewrite eqb_neq' by congruence. reflexivity.
  - destruct (eqb k' k) eqn:E; simpl.
    + apply eqb_spec in E; subst. rewrite eqb_neq' by congruence. reflexivity.
    + rewrite IH. reflexivity.
Qed.

Lemma map_get_set (m : list (K * V)) k v k2 :
  map_get eqb (map_set eqb m k v) k2 = if eqb k2 k then Some v else map_get eqb m k2.
Proof.
  destruct (eqb k2 k) eqn:E.
  - apply eqb_spec in E; subst. apply map_get_set_same.
  - apply map_get_set_other. intros ->. rewrite eqb_refl' in E. discriminate.
Qed.

Lemma map_set_keys (m : list (K * V)) k v k2 : In k2 (map fst (map_set eqb m k v)) <-> k2 = k \/ In k2 (map fst m).
Proof.
  induction m as [|(k', v') t IH]; simpl; [intuition|].
  destruct (eqb k' k) eqn:E; simpl.
  - apply eqb_spec in E; subst. intuition.
  - rewrite IH. intuition.
Qed.

Lemma map_set_nodup (m : list (K * V)) k v : NoDup (map fst m) -> NoDup (map fst (map_set eqb m k v)).
Proof.
  induction m as [|(k', v') t IH]; simpl; intros H.
  - constructor; [intros []|constructor].
  - inversion H as [|? ? H1 H2]; subst. destruct (eqb k' k) eqn:E; simpl.
    + constructor; assumption.
    + constructor; [|auto]. rewrite map_set_keys. intros [->|Hin]; [|contradiction].
      rewrite eqb_refl' in E; discriminate.
Qed.

Lemma map_get_in (m : list (K * V)) k v : NoDup (map fst m) -> (In (k, v) m <-> map_get eqb m k = Some v).
Proof.
  induction m as [|(k', v') t IH]; simpl; intros H; [intuition discriminate|].
  inversion H as [|? ? H1 H2]; subst. destruct (eqb k' k) eqn:E.
  - apply eqb_spec in E; subst. split.
    + intros [[= ->]|Hin]; [reflexivity|]. exfalso. apply H1. apply in_map_iff. exists (k, v); auto.
    + intros [= ->]. auto.
  - rewrite <- (IH H2). split; [|auto]. intros [[= -> ->]|Hin]; [|exact Hin].
    rewrite eqb_refl' in E; discriminate.
Qed.
End Maps.

Definition heap_get_set m a h b := map_get_set (V := list N) attribute_eqb attribute_eqb_spec m a h b.

(** ** What add_axis inserts *)

Lemma insert_values_last axis names last m : fst (insert_values axis names last m) = last + N.of_nat (length names).
Proof.
  revert last m. induction names as [|n t IH]; intros last m; [simpl; lia|].
  cbn [insert_values length]. rewrite IH. lia.
Qed.

Lemma insert_values_nodup axis names last m :
  NoDup (map fst m) -> NoDup (map fst (snd (insert_values axis names last m))).
Proof.
  revert last m. induction names as [|n t IH]; intros last m H; [exact H|].
  cbn [insert_values]. apply IH. apply map_set_nodup; [exact attribute_eqb_spec|exact H].
Qed.

Lemma insert_values_other axis names last m b :
  (fst b = axis -> ~ In (snd b) names) ->
  map_get attribute_eqb (snd (insert_values axis names last m)) b = map_get attribute_eqb m b.
Proof.
  revert last m. induction names as [|n t IH]; intros last m H; [reflexivity|].
  cbn [insert_values]. rewrite IH.
  - rewrite heap_get_set. destruct (attribute_eqb b (axis, n)) eqn:E; [|reflexivity].
    apply attribute_eqb_spec in E; subst. exfalso. apply (H eq_refl). left; reflexivity.
  - intros E Hin. apply (H E). right; exact Hin.
Qed.

(** each name gets one fresh value, different names different ones *)
Lemma insert_values_new axis names last m n :
  In n names -> exists v, last < v <= last + N.of_nat (length names) /\
    map_get attribute_eqb (snd (insert_values axis names last m)) (axis, n) = Some [v].
Proof.
  revert last m. induction names as [|x t IH]; intros last m H; [destruct H|].
  cbn [insert_values length].
  destruct (in_dec String.string_dec n t) as [Hin|Hin].
  - destruct (IH (last + 1) (map_set attribute_eqb m (axis, x) [last + 1]) Hin) as (v & Hv & E).
    exists v. split; [lia|exact E].
  - destruct H as [->|H]; [|contradiction]. exists (last + 1). split; [lia|].
    rewrite insert_values_other by (intros _; exact Hin).
    rewrite heap_get_set. rewrite (proj2 (attribute_eqb_spec _ _) eq_refl). reflexivity.
Qed.

Lemma insert_values_distinct axis names last m n n' v :
  In n names -> In n' names ->
  map_get attribute_eqb (snd (insert_values axis names last m)) (axis, n) = Some [v] ->
  map_get attribute_eqb (snd (insert_values axis names last m)) (axis, n') = Some [v] -> n = n'.
Proof.
  revert last m. induction names as [|x t IH]; intros last m H H' E E'; [destruct H|].
  cbn [insert_values] in E, E'.
  set (m' := map_set attribute_eqb m (axis, x) [last + 1]) in *.
  assert (New : forall k, In k t -> map_get attribute_eqb (snd (insert_values axis t (last + 1) m')) (axis, k) = Some [v] -> last + 1 < v).
  { intros k Hk Ek. destruct (insert_values_new axis t (last + 1) m' k Hk) as (w & Hw & Ew).
    assert (w = v) by congruence. lia. }
  assert (Old : forall k, ~ In k t -> In k (x :: t) ->
    map_get attribute_eqb (snd (insert_values axis t (last + 1) m')) (axis, k) = Some [v] -> v = last + 1).
  { intros k Hk [->|Hk'] Ek; [|contradiction]. rewrite insert_values_other in Ek by (intros _; exact Hk).
    unfold m' in Ek. rewrite heap_get_set, (proj2 (attribute_eqb_spec _ _) eq_refl) in Ek. congruence. }
  destruct (in_dec String.string_dec n t) as [Hn|Hn]; destruct (in_dec String.string_dec n' t) as [Hn'|Hn'].
  - exact (IH _ _ Hn Hn' E E').
  - pose proof (New n Hn E). pose proof (Old n' Hn' H' E'). lia.
  - pose proof (New n' Hn' E'). pose proof (Old n Hn H E). lia.
  - destruct H as [->|H]; [|contradiction]. destruct H' as [->|H']; [|contradiction]. reflexivity.
Qed.

(** ** Invariant of the reachable policies *)

Record inv (ops : list op) (p : policy) : Prop := mkInv {
  i_axes : forall x names h, axis_get p x = Some (names, h) <-> In (AddAxis x names h) ops;
  i_decl : forall b, (exists h, heap_get p b = Some h) <-> declared ops b;
  i_heap : forall b h, heap_get p b = Some h -> h <> [] /\ NoDup h /\ forall v, In v h -> 1 <= v <= last_attribute_value p;
  i_dist : forall a b h h' v, heap_get p a = Some h -> heap_get p b = Some h' -> In v h -> In v h' -> a = b;
  i_keys : NoDup (map fst (attribute_to_int p));
  i_last : last_attribute_value p <= max_attribute_creations p
}.

Lemma inv_new n : inv [] (new_policy n).
Proof.
  constructor.
  - intros x names h. unfold axis_get; simpl. split; [discriminate|intros []].
  - intros b. unfold heap_get, declared; simpl. split; [intros (h & H); discriminate|intros (? & ? & [] & _)].
  - intros b h H; discriminate.
  - intros a b h h' v H; discriminate.
  - constructor.
  - simpl. lia.
Qed.

Lemma add_axis_inv p x names h p' : add_axis p x names h = Ok p' ->
  last_attribute_value p + N.of_nat (length names) <= max_attribute_creations p /\
  axis_get p x = None /\
  p' = mkPolicy (last_attribute_value p + N.of_nat (length names)) (max_attribute_creations p)
        (map_set String.eqb (axes p) x (names, h))
        (snd (insert_values x names (last_attribute_value p) (attribute_to_int p))).
Proof.
  unfold add_axis. destruct (N.ltb_spec (max_attribute_creations p) (last_attribute_value p + N.of_nat (length names))) as [H|H]; [discriminate|].
  destruct (axis_get p x) eqn:E; [discriminate|].
  pose proof (insert_values_last x names (last_attribute_value p) (attribute_to_int p)) as L.
  destruct (insert_values x names (last_attribute_value p) (attribute_to_int p)) as (l, m). simpl in L; subst l. simpl.
  intros [= <-]. auto.
Qed.

Lemma rotate_inv p a p' : rotate p a = Ok p' ->
  exists h, heap_get p a = Some h /\ last_attribute_value p <> max_attribute_creations p /\
  p' = mkPolicy (last_attribute_value p + 1) (max_attribute_creations p) (axes p)
        (map_set attribute_eqb (attribute_to_int p) a ((last_attribute_value p + 1) :: h)).
Proof.
  unfold rotate. destruct (N.eqb_spec (last_attribute_value p) (max_attribute_creations p)) as [H|H]; [discriminate|].
  destruct (heap_get p a) as [h|]; [|discriminate]. intros [= <-]. eauto.
Qed.

Lemma declared_snoc_rotate ops a b : declared (ops ++ [Rotate a]) b <-> declared ops b.
Proof.
  unfold declared. split; intros (names & h & Hin & Hn); exists names, h; (split; [|exact Hn]).
  - apply in_app_or in Hin as [H|[H|[]]]; [exact H|discriminate].
  - apply in_or_app; auto.
Qed.

Lemma inv_add ops p x names h p' : inv ops p -> add_axis p x names h = Ok p' -> inv (ops ++ [AddAxis x names h]) p'.
Proof.
  intros I H. apply add_axis_inv in H as (Hcap & Hax & ->).
  assert (Hnew : forall n, heap_get p (x, n) = None).
  { intros n. destruct (heap_get p (x, n)) as [hp|] eqn:E; [|reflexivity].
    assert (D : declared ops (x, n)) by (apply (i_decl _ _ I); eauto).
    destruct D as (names' & h' & Hin & _). apply (i_axes _ _ I) in Hin. simpl in Hin. congruence. }
  set (p' := mkPolicy _ _ _ _).
  assert (HG : forall b, (fst b = x -> ~ In (snd b) names) -> heap_get p' b = heap_get p b).
  { intros b Hb. unfold heap_get, p'; cbn [attribute_to_int]. apply insert_values_other. exact Hb. }
  assert (HN : forall n, In n names -> exists v, last_attribute_value p < v <= last_attribute_value p + N.of_nat (length names) /\ heap_get p' (x, n) = Some [v]).
  { intros n Hn. unfold heap_get, p'; cbn [attribute_to_int]. apply insert_values_new. exact Hn. }
  assert (Case : forall b, (fst b = x /\ In (snd b) names) \/ (fst b = x -> ~ In (snd b) names)).
  { intros b. destruct (String.string_dec (fst b) x); [|right; contradiction].
    destruct (in_dec String.string_dec (snd b) names); [left; auto|right; auto]. }
  assert (HO : forall b hb, heap_get p' b = Some hb ->
     (exists n v, b = (x, n) /\ In n names /\ hb = [v] /\ last_attribute_value p < v <= last_attribute_value p + N.of_nat (length names))
     \/ (heap_get p b = Some hb)).
  { intros b hb E. destruct (Case b) as [[Hb Hn]|Hb].
    - left. destruct b as (bx, n); simpl in *; subst. destruct (HN n Hn) as (v & Hv & Ev).
      exists n, v. split; [reflexivity|]. split; [exact Hn|]. split; [congruence|exact Hv].
    - right. rewrite <- (HG b Hb). exact E. }
  constructor.
  - intros x' names' h'. unfold axis_get, p'; cbn [axes].
    rewrite (map_get_set String.eqb String.eqb_eq). destruct (String.eqb_spec x' x) as [->|Hx].
    + split.
      * intros [= -> ->]. apply in_or_app; right; left; reflexivity.
      * intros Hin. apply in_app_or in Hin as [Hin|[[= -> ->]|[]]]; [|reflexivity].
        apply (i_axes _ _ I) in Hin. congruence.
    + rewrite in_app_iff. change (map_get String.eqb (axes p) x') with (axis_get p x'). rewrite (i_axes _ _ I).
      split; [auto|]. intros [Hin|[[= -> _ _]|[]]]; [exact Hin|contradiction].
  - intros b. split.
    + intros (hb & E). destruct (HO b hb E) as [(n & v & -> & Hn & _)|E'].
      * exists names, h. split; [apply in_or_app; right; left; reflexivity|exact Hn].
      * assert (D : declared ops b) by (apply (i_decl _ _ I); eauto).
        destruct D as (nm & hh & Hin & Hn). exists nm, hh. split; [apply in_or_app; auto|exact Hn].
    + intros (nm & hh & Hin & Hn). apply in_app_or in Hin as [Hin|[[= Hx -> ->]|[]]].
      * destruct (Case b) as [[Hb Hbn]|Hb].
        { destruct b as (bx, n); simpl in *; subst. destruct (HN n Hbn) as (v & _ & Ev); eauto. }
        { rewrite (HG b Hb). apply (i_decl _ _ I). exists nm, hh; auto. }
      * destruct b as (bx, n); simpl in *; subst. destruct (HN n Hn) as (v & _ & Ev); eauto.
  - intros b hb E. destruct (HO b hb E) as [(n & v & -> & Hn & -> & Hv)|E'].
    + split; [discriminate|]. split; [constructor; [intros []|constructor]|].
      intros w [<-|[]]. unfold p'; cbn [last_attribute_value]. lia.
    + destruct (i_heap _ _ I b hb E') as (H1 & H2 & H3). split; [exact H1|]. split; [exact H2|].
      intros w Hw. specialize (H3 w Hw). unfold p'; cbn [last_attribute_value]. lia.
  - intros a b ha hb v Ea Eb Hva Hvb.
    destruct (HO a ha Ea) as [(n & w & -> & Hn & -> & Hw)|Ea'];
    destruct (HO b hb Eb) as [(n' & w' & -> & Hn' & -> & Hw')|Eb'].
    + destruct Hva as [->|[]]. destruct Hvb as [->|[]]. f_equal.
      apply (insert_values_distinct x names (last_attribute_value p) (attribute_to_int p) n n' v Hn Hn' Ea Eb).
    + destruct Hva as [->|[]]. destruct (i_heap _ _ I b hb Eb') as (_ & _ & Hb). specialize (Hb v Hvb). lia.
    + destruct Hvb as [->|[]]. destruct (i_heap _ _ I a ha Ea') as (_ & _ & Ha). specialize (Ha v Hva). lia.
    + exact (i_dist _ _ I a b ha hb v Ea' Eb' Hva Hvb).
  - unfold p'; cbn [attribute_to_int]. apply insert_values_nodup. exact (i_keys _ _ I).
  - exact Hcap.
Qed.

Lemma inv_rotate ops p a p' : inv ops p -> rotate p a = Ok p' -> inv (ops ++ [Rotate a]) p'.
Proof.
  intros I H. apply rotate_inv in H as (h & Hh & Hcap & ->).
  set (p' := mkPolicy _ _ _ _).
  assert (HG : forall b, heap_get p' b = if attribute_eqb b a then Some (last_attribute_value p + 1 :: h) else heap_get p b).
  { intros b. unfold heap_get at 1. unfold p'; cbn [attribute_to_int]. apply heap_get_set. }
  assert (HO : forall b hb, heap_get p' b = Some hb ->
    (b = a /\ hb = last_attribute_value p + 1 :: h) \/ (b <> a /\ heap_get p b = Some hb)).
  { intros b hb E. rewrite HG in E. destruct (attribute_eqb b a) eqn:Eb.
    - left. apply attribute_eqb_spec in Eb. split; [exact Eb|congruence].
    - right. split; [|exact E]. intros ->. rewrite (proj2 (attribute_eqb_spec a a) eq_refl) in Eb. discriminate. }
  destruct (i_heap _ _ I a h Hh) as (Hne & Hnd & Hr).
  constructor.
  - intros x names hh. unfold axis_get, p'; cbn [axes]. change (map_get String.eqb (axes p) x) with (axis_get p x).
    rewrite (i_axes _ _ I), in_app_iff. split; [auto|]. intros [Hin|[E|[]]]; [exact Hin|discriminate].
  - intros b. rewrite declared_snoc_rotate, <- (i_decl _ _ I). rewrite HG. destruct (attribute_eqb b a) eqn:Eb.
    + apply attribute_eqb_spec in Eb; subst. split; intros _; eauto.
    + reflexivity.
  - intros b hb E. unfold p'; cbn [last_attribute_value]. destruct (HO b hb E) as [(-> & ->)|(Hb & E')].
    + split; [discriminate|]. split.
      * constructor; [|exact Hnd]. intros Hin. specialize (Hr _ Hin). lia.
      * intros v [<-|Hv]; [lia|]. specialize (Hr v Hv). lia.
    + destruct (i_heap _ _ I b hb E') as (H1 & H2 & H3). split; [exact H1|]. split; [exact H2|].
      intros v Hv. specialize (H3 v Hv). lia.
  - intros b c hb hc v Eb Ec Hvb Hvc.
    destruct (HO b hb Eb) as [(-> & ->)|(Hb & Eb')]; destruct (HO c hc Ec) as [(-> & ->)|(Hc & Ec')].
    + reflexivity.
    + destruct Hvb as [<-|Hvb].
      * destruct (i_heap _ _ I c hc Ec') as (_ & _ & H3). specialize (H3 _ Hvc). lia.
      * exact (i_dist _ _ I a c h hc v Hh Ec' Hvb Hvc).
    + destruct Hvc as [<-|Hvc].
      * destruct (i_heap _ _ I b hb Eb') as (_ & _ & H3). specialize (H3 _ Hvb). lia.
      * exact (i_dist _ _ I b a hb h v Eb' Hh Hvb Hvc).
    + exact (i_dist _ _ I b c hb hc v Eb' Ec' Hvb Hvc).
  - unfold p'; cbn [attribute_to_int]. apply map_set_nodup; [exact attribute_eqb_spec|exact (i_keys _ _ I)].
  - pose proof (i_last _ _ I). unfold p'; cbn [last_attribute_value max_attribute_creations]. lia.
Qed.

Lemma inv_apply ops p o p' : inv ops p -> apply_op p o = Ok p' -> inv (ops ++ [o]) p'.
Proof. destruct o; simpl; [apply inv_add|apply inv_rotate]. Qed.

Lemma inv_run ops2 ops p p' : inv ops p -> run_ops ops2 p = Ok p' -> inv (ops ++ ops2) p'.
Proof.
  revert ops p. induction ops2 as [|o t IH]; intros ops p I H.
  - simpl in H. rewrite app_nil_r. assert (p = p') by congruence. subst; exact I.
  - simpl in H. apply bind_ok in H as (q & Hq & H).
    change (o :: t) with ([o] ++ t). rewrite app_assoc. apply (IH _ q); [|exact H]. eapply inv_apply; eauto.
Qed.

Lemma inv_history n ops p : run_ops ops (new_policy n) = Ok p -> inv ops p.
Proof. intros H. exact (inv_run ops [] _ _ (inv_new n) H). Qed.

Lemma run_max ops p p' : run_ops ops p = Ok p' -> max_attribute_creations p' = max_attribute_creations p.
Proof.
  revert p. induction ops as [|o t IH]; intros p H; [simpl in H; congruence|].
  simpl in H. apply bind_ok in H as (q & Hq & H). rewrite (IH q H).
  destruct o; simpl in Hq.
  - apply add_axis_inv in Hq as (_ & _ & ->). reflexivity.
  - apply rotate_inv in Hq as (? & _ & _ & ->). reflexivity.
Qed.

Lemma run_app ops1 ops2 p p1 : run_ops ops1 p = Ok p1 -> run_ops (ops1 ++ ops2) p = run_ops ops2 p1.
Proof.
  revert p. induction ops1 as [|o t IH]; intros p H; simpl in *; [congruence|].
  apply bind_ok in H as (q & Hq & H). rewrite Hq. simpl. apply IH; exact H.
Qed.

(** ** A later version extends an earlier one *)

Record extends (ops2 : list op) (p p' : policy) : Prop := mkExt {
  e_last : last_attribute_value p <= last_attribute_value p';
  e_heap : forall b h, heap_get p b = Some h -> exists new,
     heap_get p' b = Some (new ++ h) /\ (forall v, In v new -> last_attribute_value p < v) /\
     (new = [] <-> ~ In (Rotate b) ops2)
}.

Lemma extends_run ops2 ops p p' : inv ops p -> run_ops ops2 p = Ok p' -> extends ops2 p p'.
Proof.
  revert ops p. induction ops2 as [|o t IH]; intros ops p I H.
  - simpl in H. assert (p = p') by congruence; subst. constructor; [lia|].
    intros b h E. exists []. split; [exact E|]. split; [intros v []|]. split; [intros _ []|reflexivity].
  - simpl in H. apply bind_ok in H as (q & Hq & H).
    pose proof (IH _ q (inv_apply ops p o q I Hq) H) as [EL EH].
    destruct o as [x names hh|a]; simpl in Hq.
    + apply add_axis_inv in Hq as (Hcap & Hax & Eq).
      assert (L : last_attribute_value p <= last_attribute_value q) by (subst q; cbn [last_attribute_value]; lia).
      constructor; [lia|]. intros b h E.
      assert (E' : heap_get q b = Some h).
      { rewrite <- E. subst q. unfold heap_get; cbn [attribute_to_int]. apply insert_values_other. intros Hb _.
        assert (D : declared ops b) by (apply (i_decl _ _ I); eauto).
        destruct D as (nm & h2 & Hin & _). apply (i_axes _ _ I) in Hin. congruence. }
      destruct (EH b h E') as (new & E2 & Hn & Hiff). exists new. split; [exact E2|]. split.
      * intros v Hv. specialize (Hn v Hv). lia.
      * rewrite Hiff. split; intros Hno; [|intros Hin; apply Hno; right; exact Hin].
        intros [E3|Hin]; [discriminate|contradiction].
    + apply rotate_inv in Hq as (ha & Ha & Hcap & Eq).
      assert (L : last_attribute_value q = last_attribute_value p + 1) by (subst q; reflexivity).
      constructor; [lia|]. intros b h E.
      assert (HG : heap_get q b = if attribute_eqb b a then Some (last_attribute_value p + 1 :: ha) else heap_get p b).
      { subst q. unfold heap_get at 1; cbn [attribute_to_int]. apply heap_get_set. }
      destruct (attribute_eqb b a) eqn:Eb.
      * apply attribute_eqb_spec in Eb; subst b. assert (ha = h) by congruence; subst ha.
        destruct (EH a _ HG) as (new & E2 & Hn & Hiff).
        exists (new ++ [last_attribute_value p + 1]). split; [rewrite <- app_assoc; exact E2|]. split.
        { intros v Hv. apply in_app_or in Hv as [Hv|[<-|[]]]; [specialize (Hn v Hv)|]; lia. }
        { split; [intros E3; destruct new; discriminate|]. intros Hno. exfalso. apply Hno. left; reflexivity. }
      * rewrite E in HG. destruct (EH b h HG) as (new & E2 & Hn & Hiff). exists new. split; [exact E2|]. split.
        { intros v Hv. specialize (Hn v Hv). lia. }
        { rewrite Hiff. split; intros Hno; [|intros Hin; apply Hno; right; exact Hin].
          intros [E3|Hin]; [|contradiction]. assert (a = b) by congruence. subst.
          rewrite (proj2 (attribute_eqb_spec b b) eq_refl) in Eb. discriminate. }
Qed.

(** ** The current value of an attribute *)

Lemma fold_max_ge l x : x <= fold_left N.max l x /\ forall y, In y l -> y <= fold_left N.max l x.
Proof.
  revert x. induction l as [|z t IH]; intros x; simpl; [split; [lia|intros y []]|].
  destruct (IH (N.max x z)) as [H1 H2]. split; [lia|]. intros y [<-|Hy]; [lia|auto].
Qed.

Lemma fold_max_in l x : fold_left N.max l x = x \/ In (fold_left N.max l x) l.
Proof.
  revert x. induction l as [|z t IH]; intros x; simpl; [auto|].
  destruct (IH (N.max x z)) as [E|E]; [|auto]. rewrite E. destruct (N.max_spec x z) as [[_ ->]|[_ ->]]; auto.
Qed.

Lemma heap_peek_spec h v : heap_peek h = Some v -> In v h /\ forall w, In w h -> w <= v.
Proof.
  destruct h as [|x t]; simpl; [discriminate|]. intros [= <-]. split.
  - destruct (fold_max_in t x) as [->|H]; auto.
  - destruct (fold_max_ge t x) as [H1 H2]. intros w [<-|Hw]; auto.
Qed.

Lemma heap_peek_some h : h <> [] -> exists v, heap_peek h = Some v.
Proof. destruct h; simpl; [congruence|eauto]. Qed.

(** the value [v] is the current value of attribute [b] *)
Definition current (p : policy) (b : attribute) (v : N) : Prop :=
  exists h, heap_get p b = Some h /\ In v h /\ forall w, In w h -> w <= v.

Lemma attributes_values_inv p l gam : attributes_values p l = Ok gam -> Forall2 (current p) l gam.
Proof.
  intros H. apply mapM_ok_inv in H. induction H as [|a v l gam Hv H IH]; constructor; [|exact IH].
  destruct (heap_get p a) as [h|] eqn:E; [|discriminate].
  destruct (heap_peek h) as [w|] eqn:Ew; [|discriminate]. assert (w = v) by congruence; subst.
  exists h. split; [exact E|]. apply heap_peek_spec; exact Ew.
Qed.

Lemma attributes_values_ok ops p l : inv ops p -> (forall b, In b l -> declared ops b) ->
  exists gam, attributes_values p l = Ok gam /\ length gam = length l.
Proof.
  intros I. induction l as [|b t IH]; intros H; [exists []; auto|].
  destruct IH as (gam & E & L); [intros c Hc; apply H; right; exact Hc|].
  destruct (proj2 (i_decl _ _ I b) (H b (or_introl eq_refl))) as (h & Eh).
  destruct (i_heap _ _ I b h Eh) as (Hne & _). destruct (heap_peek_some h Hne) as (v & Ev).
  exists (v :: gam). unfold attributes_values in *. simpl. rewrite Eh, Ev. simpl. rewrite E. simpl. auto.
Qed.

Lemma attributes_values_declared ops p l gam : inv ops p -> attributes_values p l = Ok gam -> forall b, In b l -> declared ops b.
Proof.
  intros I H. apply attributes_values_inv in H. intros b Hb. apply (i_decl _ _ I).
  induction H as [|a v l gam (h & Eh & _) H IH]; [destruct Hb|]. destruct Hb as [->|Hb]; eauto.
Qed.

Lemma Forall2_in_l {A B} (R : A -> B -> Prop) l l' x : Forall2 R l l' -> In x l -> exists y, In y l' /\ R x y.
Proof.
  induction 1 as [|a b l l' Hab H IH]; intros Hin; [destruct Hin|].
  destruct Hin as [->|Hin]; [exists b; split; [left; reflexivity|exact Hab]|].
  destruct (IH Hin) as (y & Hy & Hr). exists y. split; [right; exact Hy|exact Hr].
Qed.

Lemma Forall2_in_r {A B} (R : A -> B -> Prop) l l' y : Forall2 R l l' -> In y l' -> exists x, In x l /\ R x y.
Proof.
  induction 1 as [|a b l l' Hab H IH]; intros Hin; [destruct Hin|].
  destruct Hin as [->|Hin]; [exists a; split; [left; reflexivity|exact Hab]|].
  destruct (IH Hin) as (x & Hx & Hr). exists x. split; [right; exact Hx|exact Hr].
Qed.

(** ** The formula of an access policy *)

Lemma fold_or_holds S l acc : holds S (fold_left (fun a x => Or a (Leaf x)) l acc) <-> holds S acc \/ exists v, In v l /\ S v.
Proof.
  revert acc. induction l as [|x t IH]; intros acc; simpl.
  - split; [auto|]. intros [H|(v & [] & _)]; exact H.
  - rewrite IH. simpl. split.
    + intros [[H|H]|(v & Hv & Hs)]; eauto.
    + intros [H|(v & [->|Hv] & Hs)]; eauto.
Qed.

Lemma reduce_or_holds S l n : reduce_or l = Some n -> (holds S n <-> exists v, In v l /\ S v).
Proof.
  destruct l as [|x t]; simpl; [discriminate|]. intros [= <-]. rewrite fold_or_holds. simpl. split.
  - intros [H|(v & Hv & Hs)]; eauto.
  - intros (v & [->|Hv] & Hs); eauto.
Qed.

Lemma fold_or_leaves l acc : leaves (fold_left (fun a x => Or a (Leaf x)) l acc) = leaves acc ++ l.
Proof.
  revert acc. induction l as [|x t IH]; intros acc; simpl; [rewrite app_nil_r; reflexivity|].
  rewrite IH. simpl. rewrite <- app_assoc. reflexivity.
Qed.

Lemma reduce_or_leaves l n : reduce_or l = Some n -> leaves n = l.
Proof. destruct l as [|x t]; simpl; [discriminate|]. intros [= <-]. rewrite fold_or_leaves. reflexivity. Qed.

Lemma reduce_or_some l : l <> [] -> exists n, reduce_or l = Some n.
Proof. destruct l; simpl; [congruence|eauto]. Qed.

(** [S] contains a value of attribute [b] *)
Definition hits (p : policy) (S : N -> Prop) (b : attribute) : Prop :=
  exists h v, heap_get p b = Some h /\ In v h /\ S v.

Lemma attribute_node_holds it p a n S : iteration_ok it -> attribute_node it p a = Ok n -> (holds S n <-> hits p S a).
Proof.
  intros [Hit _]. unfold attribute_node, hits. destruct (heap_get p a) as [h|]; [|discriminate].
  destruct (reduce_or (heap_iter it h)) as [x|] eqn:E; [|discriminate]. intros H; assert (x = n) by congruence; subst x.
  rewrite (reduce_or_holds S _ _ E). split.
  - intros (v & Hv & Hs). exists h, v. split; [reflexivity|]. split; [|exact Hs]. eapply Permutation_in; [apply Hit|exact Hv].
  - intros (h' & v & E' & Hv & Hs). assert (h = h') by congruence; subst. exists v. split; [|exact Hs].
    eapply Permutation_in; [apply Permutation_sym, Hit|exact Hv].
Qed.

Lemma add_lower_holds it p x l val n S : iteration_ok it -> add_lower it p x l val = Ok n ->
  (holds S n <-> holds S val \/ exists e, In e l /\ hits p S (x, e)).
Proof.
  intros Hit. revert val. induction l as [|e t IH]; intros val H; simpl in H.
  - assert (val = n) by congruence; subst. split; [auto|]. intros [H0|(e & [] & _)]; exact H0.
  - apply bind_ok in H as (m & Em & H). rewrite (IH _ H). simpl. rewrite (attribute_node_holds it p _ _ S Hit Em). split.
    + intros [[H0|H0]|(e' & He & Hh)]; eauto.
    + intros [H0|(e' & [->|He] & Hh)]; eauto.
Qed.

Lemma position_spec l y i : position l y = Some i ->
  exists l2, l = firstn i l ++ y :: l2 /\ ~ In y (firstn i l).
Proof.
  revert i. induction l as [|x t IH]; intros i H; simpl in H; [discriminate|].
  destruct (String.eqb_spec x y) as [->|Hx].
  - assert (i = 0%nat) by congruence; subst. exists t. simpl. auto.
  - destruct (position t y) as [j|]; [|discriminate]. assert (i = S j) by congruence; subst.
    destruct (IH j eq_refl) as (l2 & E & Hn). exists l2. simpl. split; [rewrite <- E; reflexivity|].
    intros [Hy|Hy]; [contradiction|exact (Hn Hy)].
Qed.

Lemma position_none l y : position l y = None <-> ~ In y l.
Proof.
  induction l as [|x t IH]; simpl; [split; [intros _ []|reflexivity]|].
  destruct (String.eqb_spec x y) as [->|Hx]; [split; [discriminate|intros H; exfalso; auto]|].
  destruct (position t y); split; intros H; try discriminate.
  - exfalso. apply H. right. destruct (in_dec String.string_dec y t) as [Hi|Hi]; [assumption|]. apply IH in Hi. discriminate.
  - intros [Hy|Hy]; [contradiction|]. apply (proj1 IH eq_refl Hy).
  - reflexivity.
Qed.

Lemma app_cut_unique (y : string) l1 l1' l2 l2' : l1 ++ y :: l2 = l1' ++ y :: l2' -> ~ In y l1 -> ~ In y l1' -> l1 = l1'.
Proof.
  revert l1'. induction l1 as [|a t IH]; intros [|a' t'] E H H'; simpl in E.
  - reflexivity.
  - assert (y = a') by congruence. subst. exfalso; apply H'; left; reflexivity.
  - assert (a = y) by congruence. subst. exfalso; apply H; left; reflexivity.
  - assert (a = a') by congruence. subst. f_equal. apply (IH t').
    + congruence.
    + intros Hy; apply H; right; exact Hy.
    + intros Hy; apply H'; right; exact Hy.
Qed.

Lemma position_before l y i x : position l y = Some i -> (In x (firstn i l) <-> before l x y).
Proof.
  intros H. destruct (position_spec l y i H) as (l2 & E & Hn). split.
  - intros Hx. exists (firstn i l), l2. auto.
  - intros (l1 & l2' & E' & Hn' & Hx).
    assert (El : firstn i l = l1) by (eapply app_cut_unique; [rewrite <- E; exact E'|exact Hn|exact Hn']).
    rewrite El; exact Hx.
Qed.

Lemma policy_to_node_holds it ops p a n S : iteration_ok it -> inv ops p -> policy_to_node it p a = Ok n ->
  (holds S n <-> exists b, hits p S b /\ covers ops a b).
Proof.
  intros Hit I. unfold policy_to_node. destruct (axis_get p (fst a)) as [[names h]|] eqn:Ea; [|discriminate].
  destruct (position names (snd a)) as [i|] eqn:Ep; [|discriminate].
  intros H. apply bind_ok in H as (val & Ev & H).
  pose proof (proj1 (i_axes _ _ I _ _ _) Ea) as Hop.
  assert (Hin : In (snd a) names).
  { destruct (position_spec _ _ _ Ep) as (l2 & E & _). rewrite E. apply in_or_app; right; left; reflexivity. }
  assert (Uniq : forall nm hh, In (AddAxis (fst a) nm hh) ops -> nm = names /\ hh = h).
  { intros nm hh Ho. apply (i_axes _ _ I) in Ho. split; congruence. }
  pose proof (attribute_node_holds it p a val S Hit Ev) as Hv.
  destruct h.
  - rewrite (add_lower_holds it p _ _ _ _ S Hit H), Hv. split.
    + intros [Hh|(e & He & Hh)].
      * exists a. split; [exact Hh|]. exists names, true. auto.
      * exists (fst a, e). split; [exact Hh|]. exists names, true. split; [exact Hop|]. split; [exact Hin|].
        right. split; [reflexivity|]. split; [reflexivity|]. apply (position_before _ _ _ _ Ep); exact He.
    + intros (b & Hh & nm & hh & Ho & Hnm & Hb). destruct (Uniq nm hh Ho) as [-> ->].
      destruct Hb as [->|(_ & Hfst & Hbe)]; [left; exact Hh|right].
      exists (snd b). split; [apply (position_before _ _ _ _ Ep); exact Hbe|]. rewrite <- Hfst. destruct b; exact Hh.
  - assert (val = n) by congruence; subst. rewrite Hv. split.
    + intros Hh. exists a. split; [exact Hh|]. exists names, false. auto.
    + intros (b & Hh & nm & hh & Ho & Hnm & Hb). destruct (Uniq nm hh Ho) as [-> ->].
      destruct Hb as [->|(E & _)]; [exact Hh|discriminate].
Qed.

Lemma policy_to_formula_holds it ops p ap f S : iteration_ok it -> inv ops p -> policy_to_formula it p ap = Ok f ->
  (holds S f <-> satisfied ops (hits p S) ap).
Proof.
  intros Hit I. revert f. induction ap as [a|x IHx y IHy|x IHx y IHy|]; intros f H; simpl in H.
  - apply (policy_to_node_holds it ops p a f S Hit I H).
  - apply bind_ok in H as (fx & Ex & H). apply bind_ok in H as (fy & Ey & H). assert (And fx fy = f) by congruence; subst f.
    simpl. rewrite (IHx fx Ex), (IHy fy Ey). reflexivity.
  - apply bind_ok in H as (fx & Ex & H). apply bind_ok in H as (fy & Ey & H). assert (Or fx fy = f) by congruence; subst f.
    simpl. rewrite (IHx fx Ex), (IHy fy Ey). reflexivity.
  - discriminate.
Qed.

(** The formula used for a key: the one of policy_to_formula, or the
    disjunction of all values for All. *)
Definition key_formula (it : iteration) (p : policy) (ap : access_policy) : outcome node :=
  match ap with
  | AAll => match reduce_or (concat (map (fun e => heap_iter it (snd e)) (map_iter it (attribute_to_int p)))) with
            | Some f => Ok f
            | None => Err (MissingAttribute None None)
            end
  | _ => policy_to_formula it p ap
  end.

Lemma policy_to_msp_formula it P p ap : policy_to_msp it P p ap = (let* f := key_formula it p ap in to_msp P f).
Proof. destruct ap; simpl; try reflexivity. destruct (reduce_or _); reflexivity. Qed.

Lemma all_values_in it p v : iteration_ok it ->
  (In v (concat (map (fun e => heap_iter it (snd e)) (map_iter it (attribute_to_int p)))) <->
   exists b h, In (b, h) (attribute_to_int p) /\ In v h).
Proof.
  intros [Hh Hm]. rewrite in_concat. split.
  - intros (l & Hl & Hv). apply in_map_iff in Hl as ((b, h) & <- & Hin). exists b, h. split.
    + eapply Permutation_in; [apply Hm|exact Hin].
    + eapply Permutation_in; [apply Hh|exact Hv].
  - intros (b & h & Hin & Hv). exists (heap_iter it h). split.
    + apply in_map_iff. exists (b, h). split; [reflexivity|]. eapply Permutation_in; [apply Permutation_sym, Hm|exact Hin].
    + eapply Permutation_in; [apply Permutation_sym, Hh|exact Hv].
Qed.

Lemma key_formula_holds it ops p ap f S : iteration_ok it -> inv ops p -> key_formula it p ap = Ok f ->
  (holds S f <-> satisfied ops (hits p S) ap).
Proof.
  intros Hit I H. destruct ap; try (apply (policy_to_formula_holds it ops p _ f S Hit I H)).
  cbn [key_formula] in H. destruct (reduce_or _) as [x|] eqn:E; [|discriminate]. assert (x = f) by congruence; subst x.
  rewrite (reduce_or_holds S _ _ E). cbn [satisfied]. split.
  - intros (v & Hv & Hs). apply (all_values_in it p v Hit) in Hv as (b & h & Hin & Hv).
    apply (map_get_in attribute_eqb attribute_eqb_spec _ _ _ (i_keys _ _ I)) in Hin.
    exists b. split; [exists h, v; auto|]. apply (i_decl _ _ I). exists h; exact Hin.
  - intros (b & (h & v & Eh & Hv & Hs) & _). exists v. split; [|exact Hs]. apply (all_values_in it p v Hit).
    exists b, h. split; [|exact Hv]. apply (map_get_in attribute_eqb attribute_eqb_spec _ _ _ (i_keys _ _ I)). exact Eh.
Qed.

Lemma satisfied_ext ops T T' ap : (forall b, declared ops b -> (T b <-> T' b)) -> (satisfied ops T ap <-> satisfied ops T' ap).
Proof.
  intros H. assert (C : forall a b, covers ops a b -> declared ops b).
  { intros a b (names & h & Hin & Hn & Hb). destruct Hb as [->|(_ & E & l1 & l2 & El & _ & Hx)].
    - exists names, h; auto.
    - exists names, h. rewrite E. split; [exact Hin|]. rewrite El. apply in_or_app; left; exact Hx. }
  induction ap as [a|x IHx y IHy|x IHx y IHy|]; cbn [satisfied].
  - split; intros (b & Hb & Hc); exists b; (split; [apply (H b (C a b Hc)); exact Hb|exact Hc]).
  - rewrite IHx, IHy; reflexivity.
  - rewrite IHx, IHy; reflexivity.
  - split; intros (b & Hb & Hc); exists b; (split; [apply (H b Hc); exact Hb|exact Hc]).
Qed.

(** ** Which attributes of a ciphertext a key of another version recognises *)

(** key of the later version *)
Lemma hits_later ops1 ops2 p1 p2 l gam b : inv ops1 p1 -> run_ops ops2 p1 = Ok p2 ->
  attributes_values p1 l = Ok gam -> (hits p2 (attrs gam) b <-> In b l).
Proof.
  intros I R H. pose proof (inv_run ops2 ops1 p1 p2 I R) as I2. pose proof (extends_run ops2 ops1 p1 p2 I R) as [_ EH].
  apply attributes_values_inv in H. unfold hits, attrs. split.
  - intros (h & v & Eh & Hv & Hg). destruct (Forall2_in_r _ _ _ _ H Hg) as (c & Hc & h1 & E1 & Hv1 & _).
    destruct (EH c h1 E1) as (new & E2 & _).
    assert (b = c) by (eapply (i_dist _ _ I2 b c h (new ++ h1) v Eh E2 Hv); apply in_or_app; right; exact Hv1).
    subst; exact Hc.
  - intros Hb. destruct (Forall2_in_l _ _ _ _ H Hb) as (v & Hg & h1 & E1 & Hv1 & _).
    destruct (EH b h1 E1) as (new & E2 & _). exists (new ++ h1), v. split; [exact E2|].
    split; [apply in_or_app; right; exact Hv1|exact Hg].
Qed.

(** key of the earlier version *)
Lemma hits_earlier ops1 ops2 p1 p2 l gam b : inv ops1 p1 -> run_ops ops2 p1 = Ok p2 ->
  attributes_values p2 l = Ok gam -> declared ops1 b ->
  (hits p1 (attrs gam) b <-> In b l /\ ~ In (Rotate b) ops2).
Proof.
  intros I R H D. pose proof (inv_run ops2 ops1 p1 p2 I R) as I2. pose proof (extends_run ops2 ops1 p1 p2 I R) as [_ EH].
  apply attributes_values_inv in H. unfold hits, attrs. split.
  - intros (h & v & Eh & Hv & Hg). destruct (EH b h Eh) as (new & E2 & Hnew & Hiff).
    destruct (Forall2_in_r _ _ _ _ H Hg) as (c & Hc & hc & Ec & Hvc & Hmax).
    assert (b = c) by (eapply (i_dist _ _ I2 b c (new ++ h) hc v E2 Ec); [apply in_or_app; right; exact Hv|exact Hvc]).
    subst c. split; [exact Hc|]. apply Hiff. destruct new as [|w new]; [reflexivity|].
    assert (hc = (w :: new) ++ h) by congruence; subst hc.
    pose proof (Hmax w (or_introl eq_refl)). pose proof (Hnew w (or_introl eq_refl)).
    destruct (i_heap _ _ I b h Eh) as (_ & _ & Hr). specialize (Hr v Hv). lia.
  - intros [Hb Hno]. destruct (proj2 (i_decl _ _ I b) D) as (h & Eh).
    destruct (EH b h Eh) as (new & E2 & _ & Hiff). apply Hiff in Hno. subst new.
    destruct (Forall2_in_l _ _ _ _ H Hb) as (v & Hg & hb & Eb & Hvb & _).
    assert (hb = h) by (simpl in E2; congruence); subst. exists h, v. auto.
Qed.

(** ** Refusals *)

Lemma key_formula_unknown it ops p ap a : inv ops p -> In a (mentioned ap) -> ~ declared ops a -> ~ is_ok (key_formula it p ap).
Proof.
  intros I Hin Hd. assert (F : forall ap, In a (mentioned ap) -> ~ is_ok (policy_to_formula it p ap)).
  { clear ap Hin. induction ap as [b|x IHx y IHy|x IHx y IHy|]; simpl; intros Hin [f E].
    - destruct Hin as [->|[]]. unfold policy_to_node in E.
      destruct (axis_get p (fst a)) as [[names h]|] eqn:Ea; [|discriminate].
      destruct (position names (snd a)) as [i|] eqn:Ep; [|discriminate]. apply Hd. exists names, h.
      split; [apply (i_axes _ _ I); exact Ea|]. destruct (position_spec _ _ _ Ep) as (l2 & El & _). rewrite El.
      apply in_or_app; right; left; reflexivity.
    - apply bind_ok in E as (fx & Ex & E). apply bind_ok in E as (fy & Ey & E).
      apply in_app_or in Hin as [Hin|Hin]; [apply (IHx Hin)|apply (IHy Hin)]; eexists; eassumption.
    - apply bind_ok in E as (fx & Ex & E). apply bind_ok in E as (fy & Ey & E).
      apply in_app_or in Hin as [Hin|Hin]; [apply (IHx Hin)|apply (IHy Hin)]; eexists; eassumption.
    - destruct Hin. }
  destruct ap; try (apply F; exact Hin). destruct Hin.
Qed.

Lemma formula_no_all it p ap : ~ is_ok (policy_to_formula it p ap) \/ (ap <> AAll /\ ~ all_inside ap).
Proof.
  induction ap as [a|x IHx y IHy|x IHx y IHy|].
  - right. split; [discriminate|intros []].
  - destruct IHx as [H|[Hx Hx']].
    + left. intros [f E]. simpl in E. apply bind_ok in E as (fx & Ex & _). apply H. exists fx; exact Ex.
    + destruct IHy as [H|[Hy Hy']].
      * left. intros [f E]. simpl in E. apply bind_ok in E as (fx & _ & E). apply bind_ok in E as (fy & Ey & _).
        apply H. exists fy; exact Ey.
      * right. split; [discriminate|]. simpl. tauto.
  - destruct IHx as [H|[Hx Hx']].
    + left. intros [f E]. simpl in E. apply bind_ok in E as (fx & Ex & _). apply H. exists fx; exact Ex.
    + destruct IHy as [H|[Hy Hy']].
      * left. intros [f E]. simpl in E. apply bind_ok in E as (fx & _ & E). apply bind_ok in E as (fy & Ey & _).
        apply H. exists fy; exact Ey.
      * right. split; [discriminate|]. simpl. tauto.
  - left. intros [f E]. discriminate.
Qed.

(** on a policy with a history no lookup panics *)
Lemma attribute_node_ok it ops p a : iteration_ok it -> inv ops p -> declared ops a ->
  exists n, attribute_node it p a = Ok n /\ exists h, heap_get p a = Some h /\ Permutation (leaves n) h.
Proof.
  intros [Hit _] I D. destruct (proj2 (i_decl _ _ I a) D) as (h & Eh). destruct (i_heap _ _ I a h Eh) as (Hne & _).
  unfold attribute_node. rewrite Eh. destruct (reduce_or_some (heap_iter it h)) as (n & En).
  - intros E. apply Hne. pose proof (Hit h) as Hp. rewrite E in Hp. apply Permutation_nil in Hp. exact Hp.
  - rewrite En. exists n. split; [reflexivity|]. exists h. split; [reflexivity|]. rewrite (reduce_or_leaves _ _ En). apply Hit.
Qed.

Lemma policy_to_node_no_panic it ops p a : iteration_ok it -> inv ops p -> no_panic (policy_to_node it p a).
Proof.
  intros Hit I. unfold policy_to_node. destruct (axis_get p (fst a)) as [[names h]|] eqn:Ea; [|apply no_panic_err].
  destruct (position names (snd a)) as [i|] eqn:Ep; [|apply no_panic_err].
  pose proof (proj1 (i_axes _ _ I _ _ _) Ea) as Hop. destruct (position_spec _ _ _ Ep) as (l2 & El & _).
  assert (D : forall e, In e names -> declared ops (fst a, e)) by (intros e He; exists names, h; auto).
  destruct (attribute_node_ok it ops p a Hit I) as (n & En & _).
  { specialize (D (snd a)). rewrite <- surjective_pairing in D. apply D. rewrite El. apply in_or_app; right; left; reflexivity. }
  rewrite En. cbn [bind]. destruct h; [|apply no_panic_ok].
  assert (D' : forall e, In e (firstn i names) -> declared ops (fst a, e)).
  { intros e He. apply D. rewrite El. apply in_or_app; left; exact He. }
  clear - Hit I D'. revert n. induction (firstn i names) as [|e t IH]; intros n; simpl; [apply no_panic_ok|].
  destruct (attribute_node_ok it ops p (fst a, e) Hit I (D' e (or_introl eq_refl))) as (m & Em & _).
  rewrite Em. cbn [bind]. apply IH. intros e' He'. apply D'; right; exact He'.
Qed.

Lemma policy_to_formula_no_panic it ops p ap : iteration_ok it -> inv ops p -> no_panic (policy_to_formula it p ap).
Proof.
  intros Hit I. induction ap as [a|x IHx y IHy|x IHx y IHy|]; simpl.
  - eapply policy_to_node_no_panic; eauto.
  - apply no_panic_bind; [exact IHx|]. intros fx _. apply no_panic_bind; [exact IHy|]. intros fy _. apply no_panic_ok.
  - apply no_panic_bind; [exact IHx|]. intros fx _. apply no_panic_bind; [exact IHy|]. intros fy _. apply no_panic_ok.
  - apply no_panic_err.
Qed.

Lemma key_formula_no_panic it ops p ap : iteration_ok it -> inv ops p -> no_panic (key_formula it p ap).
Proof.
  intros Hit I. destruct ap; try (eapply policy_to_formula_no_panic; eauto).
  cbn [key_formula]. destruct (reduce_or _); [apply no_panic_ok|apply no_panic_err].
Qed.
