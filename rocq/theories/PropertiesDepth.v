(** How deep the calls of key generation nest (C116). *)
From Coq Require Import String NArith ZArith Bool Arith Lia Permutation List.
From Verif Require Import Prelude Field Msp Spec MspProofs Bilinear Scheme Zp ExpModel PropertiesScheme
  Policy PolicySpec PolicyProofs Engine EngineSpec EngineProofs PropertiesEngine CopiesSpec PropertiesCopies PropertiesStack.
Import ListNotations.
Local Open Scope N_scope.

(** ** Model: the functions with room on the stack for [d] nested calls *)
(** The compiler's destructor of the tree [Node], msp.rs:177-182, with room for [d] nested calls: a
    box is released after its content is, so that neither of the two inner calls is the last action.
    Where no room is left the process is aborted, which [Panic OutOfFuel] stands for. The room taken
    by one call is not modelled. *)
Fixpoint drop_node (d : nat) (f : node) : outcome unit :=
  match d with
  | O => Panic OutOfFuel
  | Datatypes.S d =>
      match f with
      | Leaf _ => Ok tt
      | And a b | Or a b => let* _ := drop_node d a in drop_node d b
      end
  end.

(** policy_to_formula, msp.rs:435-446, with room for [d] nested calls. When the second part is an
    error, the tree of the first is released (lines 438 and 439). policy_to_node calls nothing that
    is recursive (a tree which it would leave behind when a lower attribute has no value is not
    counted: policies made by the library have none). *)
Fixpoint formula_room (d : nat) (it : iteration) (p : policy) (ap : access_policy) : outcome node :=
  match d with
  | O => Panic OutOfFuel
  | Datatypes.S d =>
      let both (a b : access_policy) (join : node -> node -> node) :=
        let* x := formula_room d it p a in
        match formula_room d it p b with
        | Ok y => Ok (join x y)
        | Err e => let* _ := drop_node d x in Err e
        | Panic e => Panic e
        end in
      match ap with
      | AAttr a => policy_to_node it p a
      | AAnd a b => both a b And
      | AOr a b => both a b Or
      | AAll => Err (InvalidFormula "`All` is not authorized inside a formula")
      end
  end.

(** policy_to_msp, msp.rs:411-432, with room for [d] nested calls: to_msp, msp.rs:217-284, is a loop;
    the tree is released at the end, also when to_msp gives an error. *)
Definition msp_room (d : nat) (it : iteration) (P : platform) (p : policy) (ap : access_policy) : outcome (msp Z) :=
  let finish f :=
    match to_msp P f with
    | Panic e => Panic e
    | r => let* _ := drop_node d f in r
    end in
  match ap with
  | AAll =>
      match reduce_or (concat (map (fun e => heap_iter it (snd e)) (map_iter it (attribute_to_int p)))) with
      | Some f => finish f
      | None => Err (MissingAttribute None None)
      end
  | _ => let* f := formula_room d it p ap in finish f
  end.

Section Room.
Context {B : BilinearMap}.
Variable P : platform.
(** generate_user_decryption_key, engine.rs:53-61 *)
Definition user_key_room (d : nat) (it : iteration) (p : policy) (priv : master_private_key B) (ap : access_policy) (draw : nat -> bm_K B)
    : outcome (decryption_key B) :=
  let* m := msp_room d it P p ap in
  key_generation m priv draw.
(** delegate_user_decryption_key, engine.rs:71-84 *)
Definition delegate_room (d : nat) (it : iteration) (p : policy) (del : delegation_key B) (uk : decryption_key B) (ap : access_policy)
    (draw : nat -> bm_K B) : outcome (decryption_key B) :=
  let* m := match ap with
            | AAll => Ok None
            | _ => let* m := msp_room d it P p ap in Ok (Some m)
            end in
  abe_key_delegation m uk del draw.
End Room.

(** ** Specification *)
(** The longest way from the root of an access policy to an attribute. *)
Fixpoint nesting (ap : access_policy) : nat :=
  match ap with
  | AAttr _ | AAll => 0
  | AAnd a b | AOr a b => Datatypes.S (Nat.max (nesting a) (nesting b))
  end.
(** How often the attribute is rotated in a history. *)
Definition rotations (ops : list op) (a : attribute) : nat :=
  length (filter (fun o => match o with Rotate b => attribute_eqb b a | _ => false end) ops).
(** The number of attribute values which a history creates: one for every attribute of an axis and one
    for every rotation. *)
Definition created (ops : list op) : nat :=
  fold_right (fun o n => (match o with AddAxis _ names _ => length names | Rotate _ => 1%nat end + n)%nat) 0%nat ops.

(** ** Proofs *)
Lemma created_numbering ops : created ops = length (numbering ops).
Proof.
  induction ops as [|o ops IH]; [reflexivity|]. cbn [created fold_right]. fold (created ops). rewrite IH.
  unfold numbering. cbn [flat_map]. rewrite app_length. f_equal. destruct o; [rewrite map_length|]; reflexivity.
Qed.

Lemma drop_node_ok d : forall f, (height f < d)%nat -> drop_node d f = Ok tt.
Proof.
  induction d as [|d IH]; intros f H; [lia|]. destruct f as [a b|a b|v]; cbn [drop_node height] in *; try reflexivity;
    rewrite !IH by lia; reflexivity.
Qed.
Lemma drop_node_no d : forall f, (d <= height f)%nat -> drop_node d f = Panic OutOfFuel.
Proof.
  induction d as [|d IH]; intros f H; [reflexivity|]. destruct f as [a b|a b|v]; cbn [drop_node height] in *; [| |lia].
  all: destruct (Nat.le_gt_cases d (height a)) as [L|L]; [rewrite IH by exact L; reflexivity|];
    rewrite drop_node_ok by exact L; cbn [bind]; apply IH; lia.
Qed.

Lemma fold_or_height l acc : height (fold_left (fun a x => Or a (Leaf x)) l acc) = (height acc + length l)%nat.
Proof. revert acc. induction l as [|x l IH]; intros acc; cbn [fold_left length]; [lia|]. rewrite IH. cbn [height]. lia. Qed.
Lemma reduce_or_height l f : reduce_or l = Some f -> Datatypes.S (height f) = length l.
Proof.
  destruct l as [|v t]; cbn [reduce_or]; [discriminate|]. intros E. assert (fold_left (fun acc x => Or acc (Leaf x)) t (Leaf v) = f) as <- by congruence.
  rewrite fold_or_height. cbn. reflexivity.
Qed.
Lemma height_leaves f : (height f < length (leaves f))%nat.
Proof. induction f as [a IHa b IHb|a IHa b IHb|v]; cbn [height leaves]; [| |simpl; lia]; rewrite app_length; lia. Qed.

(** distinct numbers of a policy are not more than the values created *)
Lemma numbers_bound n ops p l : run_ops ops (new_policy n) = Ok p -> proper_axes ops -> NoDup l ->
  (forall v, In v l -> exists b, value_of p b v) -> (length l <= created ops)%nat.
Proof.
  intros E Hp Hn Hl. rewrite created_numbering. pose proof (inv_history _ _ _ E) as I. destruct (numbered_history _ _ _ E Hp) as (L & _).
  rewrite <- (seq_length (length (numbering ops)) 1), <- (map_length N.of_nat). apply NoDup_incl_length; [exact Hn|].
  intros v Hv. destruct (Hl v Hv) as (b & h & Eh & Hvh). destruct (i_heap _ _ I b h Eh) as (_ & _ & R). specialize (R v Hvh). rewrite L in R.
  apply in_map_iff. exists (N.to_nat v). split; [apply N2Nat.id|]. apply in_seq. lia.
Qed.
Lemma node_height it n ops p a f : iteration_ok it -> run_ops ops (new_policy n) = Ok p -> proper_axes ops -> policy_to_node it p a = Ok f ->
  (height f < created ops)%nat.
Proof.
  intros Hit E Hp H. pose proof (inv_history _ _ _ E) as I. destruct (policy_to_node_values it ops p a f Hit I H) as (Hv & Hn).
  pose proof (height_leaves f). enough (length (leaves f) <= created ops)%nat by lia.
  apply (numbers_bound n ops p); auto. intros v Q. apply Hv in Q as (b & _ & Q). eauto.
Qed.
Lemma formula_height it n ops p : iteration_ok it -> run_ops ops (new_policy n) = Ok p -> proper_axes ops -> forall ap f,
  policy_to_formula it p ap = Ok f -> (height f < nesting ap + created ops)%nat.
Proof.
  intros Hit E Hp. induction ap as [a|x IHx y IHy|x IHx y IHy|]; intros f H; [simpl in H| | |discriminate].
  - cbn [nesting Nat.add]. exact (node_height it n ops p a f Hit E Hp H).
  - apply pf_and in H as (fx & fy & Ex & Ey & ->). specialize (IHx _ Ex). specialize (IHy _ Ey). cbn [height nesting]. lia.
  - apply pf_or in H as (fx & fy & Ex & Ey & ->). specialize (IHx _ Ex). specialize (IHy _ Ey). cbn [height nesting]. lia.
Qed.
Lemma formula_room_ok it n ops p : iteration_ok it -> run_ops ops (new_policy n) = Ok p -> proper_axes ops -> forall ap d,
  (nesting ap + created ops < d)%nat -> formula_room d it p ap = policy_to_formula it p ap.
Proof.
  intros Hit E Hp. induction ap as [a|x IHx y IHy|x IHx y IHy|]; intros [|d] H; try lia; cbn [formula_room policy_to_formula nesting] in *; try reflexivity.
  all: rewrite IHx by lia; rewrite IHy by lia; destruct (policy_to_formula it p x) as [fx| |] eqn:Ex; cbn [bind]; try reflexivity;
    destruct (policy_to_formula it p y) as [fy| |] eqn:Ey; cbn [bind]; try reflexivity;
    pose proof (formula_height it n ops p Hit E Hp _ _ Ex); rewrite drop_node_ok by lia; reflexivity.
Qed.
(** when there is a formula, it is found or the process is aborted *)
Lemma formula_room_cases it p : forall ap d f, policy_to_formula it p ap = Ok f ->
  formula_room d it p ap = Ok f \/ formula_room d it p ap = Panic OutOfFuel.
Proof.
  induction ap as [a|x IHx y IHy|x IHx y IHy|]; intros [|d] f H; try (right; reflexivity); [left; exact H| | |discriminate].
  all: first [apply pf_and in H as (fx & fy & Ex & Ey & ->) | apply pf_or in H as (fx & fy & Ex & Ey & ->)]; cbn [formula_room];
    (destruct (IHx d _ Ex) as [-> | ->]; cbn [bind]; [|right; reflexivity]); destruct (IHy d _ Ey) as [-> | ->]; [left|right]; reflexivity.
Qed.
Lemma formula_room_deep it p : forall ap d f, (d <= nesting ap)%nat -> policy_to_formula it p ap = Ok f -> formula_room d it p ap = Panic OutOfFuel.
Proof.
  induction ap as [a|x IHx y IHy|x IHx y IHy|]; intros [|d] f H K; try reflexivity; cbn [nesting] in H; try lia.
  all: first [apply pf_and in K as (fx & fy & Ex & Ey & ->) | apply pf_or in K as (fx & fy & Ex & Ey & ->)]; cbn [formula_room];
    (destruct (formula_room_cases it p x d _ Ex) as [Q|Q]; rewrite Q; cbn [bind]; [|reflexivity]);
    (destruct (Nat.le_gt_cases d (nesting x)) as [L|L]; [specialize (IHx d _ L Ex); congruence|]);
    rewrite (IHy d _ ltac:(lia) Ey); reflexivity.
Qed.

(** the height of the formula from below *)
Lemma positions_count (l : list attribute) a : forall k, length (filter (fun i => match nth_error l (i - k) with Some b => attribute_eqb b a | None => false end) (seq k (length l)))
  = length (filter (fun b => attribute_eqb b a) l).
Proof.
  induction l as [|b l IH]; intros k; [reflexivity|]. cbn [length seq filter]. rewrite Nat.sub_diag. cbn [nth_error].
  assert (Q : length (filter (fun i => match nth_error (b :: l) (i - k) with Some b0 => attribute_eqb b0 a | None => false end) (seq (Datatypes.S k) (length l)))
    = length (filter (fun b0 => attribute_eqb b0 a) l)).
  { rewrite <- (IH (Datatypes.S k)). f_equal. apply filter_ext_in. intros i Hi. apply in_seq in Hi. replace (i - k)%nat with (Datatypes.S (i - Datatypes.S k)) by lia. reflexivity. }
  destruct (attribute_eqb b a); cbn [length]; rewrite Q; reflexivity.
Qed.
Lemma rotations_numbering ops a : declared ops a -> (rotations ops a < length (filter (fun b => attribute_eqb b a) (numbering ops)))%nat.
Proof.
  intros D. assert (G : forall o, (rotations o a <= length (filter (fun b => attribute_eqb b a) (numbering o)))%nat).
  { intros o. induction o as [|[x names h|b] o IH]; [apply le_n| |].
    - change (numbering (AddAxis x names h :: o)) with (@app attribute (map (pair x) names) (numbering o)).
      change (rotations (AddAxis x names h :: o) a) with (rotations o a). rewrite filter_app, app_length. lia.
    - change (numbering (Rotate b :: o)) with (b :: numbering o). unfold rotations in *. cbn [filter].
      destruct (attribute_eqb b a); cbn [length]; lia. }
  apply declared_numbered in D as (names & h & H1 & H2). apply in_split in H1 as (o1 & o2 & ->).
  rewrite numbering_app, filter_app, app_length. unfold rotations. rewrite filter_app, app_length. cbn [filter].
  pose proof (G o1). pose proof (G o2). unfold rotations in *. change (numbering (AddAxis (fst a) names h :: o2)) with (@app attribute (map (pair (fst a)) names) (numbering o2)).
  rewrite filter_app, app_length. enough (1 <= length (filter (fun b => attribute_eqb b a) (map (pair (fst a)) names)))%nat by lia.
  assert (Q : In a (filter (fun b => attribute_eqb b a) (map (pair (fst a)) names))).
  { apply filter_In. split; [exact H2|apply attribute_eqb_spec; reflexivity]. }
  remember (filter (fun b => attribute_eqb b a) (map (pair (fst a)) names)) as w eqn:Ew. destruct w; [destruct Q|cbn; lia].
Qed.
Lemma heap_size n ops p a h : run_ops ops (new_policy n) = Ok p -> proper_axes ops -> heap_get p a = Some h -> (rotations ops a < length h)%nat.
Proof.
  intros E Hp Eh. pose proof (inv_history _ _ _ E) as I. destruct (numbered_history _ _ _ E Hp) as (_ & N0). specialize (N0 a). unfold heap_get in Eh. rewrite Eh in N0.
  assert (D : declared ops a) by (apply (i_decl _ _ I); exists h; exact Eh).
  pose proof (rotations_numbering ops a D) as R. rewrite <- (positions_count _ a 0) in R.
  eapply Nat.lt_le_trans; [exact R|]. rewrite <- (map_length (fun i => N.of_nat (Datatypes.S i))). apply NoDup_incl_length.
  - apply FinFun.Injective_map_NoDup; [intros i j H; lia|]. apply NoDup_filter, seq_NoDup.
  - intros v Hv. apply in_map_iff in Hv as (i & <- & Hi). apply filter_In in Hi as (_ & Hi). rewrite Nat.sub_0_r in Hi. apply N0. exists i. split; [reflexivity|].
    destruct (nth_error (numbering ops) i) as [b|]; [|discriminate]. apply attribute_eqb_spec in Hi. congruence.
Qed.
Lemma add_lower_height it p x l : forall val f, add_lower it p x l val = Ok f -> (height val <= height f)%nat.
Proof.
  induction l as [|e l IH]; intros val f H; cbn [add_lower] in H; [assert (val = f) by congruence; subst; lia|].
  apply bind_ok in H as (m & _ & H). specialize (IH _ _ H). cbn [height] in IH. lia.
Qed.
Lemma node_height_low it n ops p a f : iteration_ok it -> run_ops ops (new_policy n) = Ok p -> proper_axes ops -> policy_to_node it p a = Ok f ->
  (rotations ops a <= height f)%nat.
Proof.
  intros Hit E Hp H. unfold policy_to_node in H. destruct (axis_get p (fst a)) as [[names h]|]; [|discriminate].
  destruct (position names (snd a)) as [i|]; [|discriminate]. apply bind_ok in H as (val & Ev & H).
  enough (rotations ops a <= height val)%nat by (destruct h; [pose proof (add_lower_height _ _ _ _ _ _ H); lia|congruence]).
  unfold attribute_node in Ev. destruct (heap_get p a) as [l|] eqn:El; [|discriminate]. destruct (reduce_or (heap_iter it l)) as [g|] eqn:Eg; [|discriminate].
  apply reduce_or_height in Eg. rewrite (Permutation_length (proj1 Hit l)) in Eg. pose proof (heap_size n ops p a l E Hp El).
  assert (g = val) as <- by congruence. lia.
Qed.
Lemma formula_height_low it n ops p a : iteration_ok it -> run_ops ops (new_policy n) = Ok p -> proper_axes ops -> forall ap f,
  In a (mentioned ap) -> policy_to_formula it p ap = Ok f -> (rotations ops a <= height f)%nat.
Proof.
  intros Hit E Hp. induction ap as [b|x IHx y IHy|x IHx y IHy|]; intros f M H; [simpl in H| | |discriminate].
  - destruct M as [<-|[]]. exact (node_height_low it n ops p b f Hit E Hp H).
  - apply pf_and in H as (fx & fy & Ex & Ey & ->). apply in_app_or in M as [M|M]; [specialize (IHx _ M Ex)|specialize (IHy _ M Ey)]; cbn [height]; lia.
  - apply pf_or in H as (fx & fy & Ex & Ey & ->). apply in_app_or in M as [M|M]; [specialize (IHx _ M Ex)|specialize (IHy _ M Ey)]; cbn [height]; lia.
Qed.

(** one key for all attributes: a chain of all values *)
Lemma all_length it n ops p : iteration_ok it -> run_ops ops (new_policy n) = Ok p -> proper_axes ops ->
  length (concat (map (fun e => heap_iter it (snd e)) (map_iter it (attribute_to_int p)))) = created ops.
Proof.
  intros Hit E Hp. pose proof (inv_history _ _ _ E) as I. apply Nat.le_antisymm.
  - apply (numbers_bound n ops p); [exact E|exact Hp|apply (all_nodup it ops p Hit I)|]. intros v Hv.
    apply (all_values_in it p v Hit) in Hv as (b & h & Hin & Hv). exists b, h. split; [|exact Hv].
    apply (map_get_in attribute_eqb attribute_eqb_spec _ _ _ (i_keys _ _ I)). exact Hin.
  - destruct (numbered_history _ _ _ E Hp) as (_ & N0). rewrite created_numbering.
    rewrite <- (seq_length (length (numbering ops)) 0), <- (map_length (fun i => N.of_nat (Datatypes.S i))). apply NoDup_incl_length.
    + apply FinFun.Injective_map_NoDup; [intros i j H; lia|apply seq_NoDup].
    + intros v Hv. apply in_map_iff in Hv as (i & <- & Hi). apply in_seq in Hi. apply (all_values_in it p _ Hit).
      destruct (nth_error (numbering ops) i) as [b|] eqn:Eb; [|apply nth_error_None in Eb; lia].
      specialize (N0 b). destruct (map_get attribute_eqb (attribute_to_int p) b) as [h|] eqn:Eh.
      * exists b, h. split; [apply (map_get_in attribute_eqb attribute_eqb_spec _ _ _ (i_keys _ _ I)); exact Eh|]. apply N0. eauto.
      * exfalso. apply N0. exact (nth_error_In _ _ Eb).
Qed.

(** the last step *)
Lemma finish_ok P d f : (height f < d)%nat ->
  match to_msp P f with Panic e => Panic e | r => let* _ := drop_node d f in r end = to_msp P f.
Proof. intros H. rewrite drop_node_ok by exact H. destruct (to_msp P f); reflexivity. Qed.
Lemma finish_no P d f : (d <= height f)%nat -> is_ok (to_msp P f) ->
  match to_msp P f with Panic e => Panic e | r => let* _ := drop_node d f in r end = Panic OutOfFuel.
Proof. intros H (m & ->). rewrite drop_node_no by exact H. reflexivity. Qed.

Lemma msp_room_ok d it P n ops p ap : iteration_ok it -> run_ops ops (new_policy n) = Ok p -> proper_axes ops ->
  (nesting ap + created ops < d)%nat -> msp_room d it P p ap = policy_to_msp it P p ap.
Proof.
  intros Hit E Hp H. destruct ap as [a|x y|x y|].
  4: { unfold msp_room, policy_to_msp. destruct (reduce_or _) as [f|] eqn:Ef; [|reflexivity]. apply finish_ok.
       apply reduce_or_height in Ef. rewrite (all_length it n ops p Hit E Hp) in Ef. lia. }
  all: unfold msp_room, policy_to_msp; rewrite (formula_room_ok it n ops p Hit E Hp) by exact H;
    match goal with |- context[bind ?o _] => destruct o as [f| |] eqn:Ef end; cbn [bind]; try reflexivity; apply finish_ok;
    pose proof (formula_height it n ops p Hit E Hp _ _ Ef); lia.
Qed.
Lemma msp_room_no d it P p ap : (forall f, key_formula it p ap = Ok f -> (d <= height f)%nat \/ (ap <> AAll /\ (d <= nesting ap)%nat)) ->
  is_ok (policy_to_msp it P p ap) -> msp_room d it P p ap = Panic OutOfFuel.
Proof.
  intros H K. assert (K' := K). rewrite policy_to_msp_formula in K'. destruct K' as (m & K'). apply bind_ok in K' as (f & Ef & Em). specialize (H f Ef).
  destruct ap as [a|x y|x y|].
  4: { destruct H as [H|(H & _)]; [|contradiction]. unfold msp_room. cbn [key_formula] in Ef. destruct (reduce_or _) as [g|]; [|discriminate].
       assert (g = f) as -> by congruence. apply finish_no; [exact H|exists m; exact Em]. }
  all: unfold msp_room; rewrite key_formula_other in Ef by discriminate;
    destruct (formula_room_cases it p _ d f Ef) as [Q|Q]; rewrite Q; cbn [bind]; [|reflexivity];
    destruct H as [H|(_ & H)]; [apply finish_no; [exact H|exists m; exact Em]|]; rewrite (formula_room_deep it p _ d f H Ef) in Q; discriminate.
Qed.

(** with any room: the same or an aborted process *)
Lemma drop_cases d f : drop_node d f = Ok tt \/ drop_node d f = Panic OutOfFuel.
Proof. destruct (Nat.lt_ge_cases (height f) d); [left; apply drop_node_ok|right; apply drop_node_no]; assumption. Qed.
Lemma formula_room_same it p : forall ap d, formula_room d it p ap = policy_to_formula it p ap \/ formula_room d it p ap = Panic OutOfFuel.
Proof.
  induction ap as [a|x IHx y IHy|x IHx y IHy|]; intros [|d]; try (right; reflexivity); [left; reflexivity| | |left; reflexivity].
  all: cbn [formula_room policy_to_formula]; (destruct (IHx d) as [-> | ->]; [|right; reflexivity]);
    destruct (policy_to_formula it p x) as [fx|e|e]; cbn [bind]; try (left; reflexivity);
    (destruct (IHy d) as [-> | ->]; [|right; reflexivity]); destruct (policy_to_formula it p y) as [fy|e|e]; cbn [bind]; try (left; reflexivity);
    destruct (drop_cases d fx) as [-> | ->]; [left|right]; reflexivity.
Qed.
Lemma msp_room_same d it P p ap : msp_room d it P p ap = policy_to_msp it P p ap \/ msp_room d it P p ap = Panic OutOfFuel.
Proof.
  assert (G : forall f, match to_msp P f with Panic e => Panic e | r => let* _ := drop_node d f in r end = to_msp P f \/
    match to_msp P f with Panic e => Panic e | r => let* _ := drop_node d f in r end = Panic OutOfFuel).
  { intros f. destruct (drop_cases d f) as [-> | ->]; destruct (to_msp P f); auto. }
  destruct ap as [a|x y|x y|]; unfold msp_room, policy_to_msp.
  4: { destruct (reduce_or _) as [f|]; [apply G|left; reflexivity]. }
  all: match goal with |- context[formula_room ?d0 ?i0 ?p0 ?a] => destruct (formula_room_same i0 p0 a d0) as [-> | ->]; [|right; reflexivity] end;
    match goal with |- context[bind ?o _] => destruct o as [f| |]; cbn [bind] end; [apply G|left; reflexivity|left; reflexivity].
Qed.

(** ** C116 *)
Section C116.
Context {B : BilinearMap}.

(** The part that holds: with room for more calls than the access policy is deep and attribute values
    were created, every result is the one of the unbounded functions. *)
Theorem C116_enough_room d it P n ops p ap (priv : master_private_key B) del uk draw :
  run_ops ops (new_policy n) = Ok p -> proper_axes ops -> iteration_ok it -> (nesting ap + created ops < d)%nat ->
  user_key_room P d it p priv ap draw = eng_user_key P it p priv ap draw /\
  delegate_room P d it p del uk ap draw = eng_delegate P it p del uk ap draw.
Proof.
  intros E Hp Hit H. unfold user_key_room, eng_user_key, delegate_room, eng_delegate. rewrite (msp_room_ok d it P n ops p ap Hit E Hp H). auto.
Qed.

(** With any room, and any policy: the same answer or an aborted process, never another key or error. *)
Theorem C116_same_or_aborted d it P p ap (priv : master_private_key B) del uk draw :
  (user_key_room P d it p priv ap draw = eng_user_key P it p priv ap draw \/ user_key_room P d it p priv ap draw = Panic OutOfFuel) /\
  (delegate_room P d it p del uk ap draw = eng_delegate P it p del uk ap draw \/ delegate_room P d it p del uk ap draw = Panic OutOfFuel).
Proof.
  unfold user_key_room, eng_user_key, delegate_room, eng_delegate. destruct (msp_room_same d it P p ap) as [-> | ->]; [auto|].
  split; [right; reflexivity|]. destruct ap; [right|right|right|left]; reflexivity.
Qed.

(** A key that can be made with an unbounded stack is not made, the process is aborted, as soon as one
    attribute of the access policy was rotated too often, or the access policy is too deep. The same for
    delegated keys. *)
Theorem C116_too_deep_refuted d it P n ops p ap (priv : master_private_key B) del uk draw :
  run_ops ops (new_policy n) = Ok p -> proper_axes ops -> iteration_ok it -> ap <> AAll ->
  (exists a, In a (mentioned ap) /\ (d <= rotations ops a)%nat) \/ (d <= nesting ap)%nat ->
  (is_ok (eng_user_key P it p priv ap draw) -> user_key_room P d it p priv ap draw = Panic OutOfFuel) /\
  (is_ok (eng_delegate P it p del uk ap draw) -> delegate_room P d it p del uk ap draw = Panic OutOfFuel).
Proof.
  intros E Hp Hit Hne H.
  assert (G : is_ok (policy_to_msp it P p ap) -> msp_room d it P p ap = Panic OutOfFuel).
  { apply msp_room_no. intros f Ef. rewrite key_formula_other in Ef by exact Hne. destruct H as [(a & Ha & H)|H]; [left|right; auto].
    pose proof (formula_height_low it n ops p a Hit E Hp ap f Ha Ef). lia. }
  split; intros (k & K); unfold eng_user_key, eng_delegate in K; apply bind_ok in K as (m & Em & K).
  - unfold user_key_room. rewrite G by (exists m; exact Em). reflexivity.
  - unfold delegate_room. destruct ap; try contradiction; apply bind_ok in Em as (m' & Em & _); rewrite G by (exists m'; exact Em); reflexivity.
Qed.

(** A key for all attributes needs room for one call per value created, exactly. *)
Theorem C116_all_exact d it P n ops p (priv : master_private_key B) draw :
  run_ops ops (new_policy n) = Ok p -> proper_axes ops -> iteration_ok it ->
  ((created ops <= d)%nat -> user_key_room P d it p priv AAll draw = eng_user_key P it p priv AAll draw) /\
  ((d < created ops)%nat -> is_ok (eng_user_key P it p priv AAll draw) -> user_key_room P d it p priv AAll draw = Panic OutOfFuel).
Proof.
  intros E Hp Hit. pose proof (all_length it n ops p Hit E Hp) as L. split.
  - intros H. unfold user_key_room, eng_user_key. f_equal. unfold msp_room, policy_to_msp. destruct (reduce_or _) as [f|] eqn:Ef; [|reflexivity].
    apply finish_ok. apply reduce_or_height in Ef. lia.
  - intros H (k & K). unfold eng_user_key in K. apply bind_ok in K as (m & Em & K). unfold user_key_room.
    rewrite (msp_room_no d it P p AAll); [reflexivity| |exists m; exact Em]. intros f Ef. left. cbn [key_formula] in Ef.
    destruct (reduce_or _) as [g|] eqn:Eg; [|discriminate]. apply reduce_or_height in Eg. assert (g = f) as <- by congruence. lia.
Qed.
End C116.

(** ** Whatever the room, there is a history after which it is too small *)
Definition worn (d : nat) : list op := AddAxis "Department" ["HR"%string] false :: repeat (Rotate ("Department"%string, "HR"%string)) d.

Lemma rotate_often a d : forall p h, heap_get p a = Some h -> last_attribute_value p + N.of_nat d <= max_attribute_creations p ->
  exists p', run_ops (repeat (Rotate a) d) p = Ok p' /\ last_attribute_value p' = last_attribute_value p + N.of_nat d.
Proof.
  induction d as [|d IH]; intros p h Eh H; [exists p; split; [reflexivity|lia]|]. cbn [repeat run_ops apply_op]. unfold rotate.
  destruct (N.eqb_spec (last_attribute_value p) (max_attribute_creations p)); [lia|]. rewrite Eh. cbn [bind].
  match goal with |- context[run_ops _ ?q] => destruct (IH q (last_attribute_value p + 1 :: h)) as (p' & E & L) end.
  - unfold heap_get. cbn [attribute_to_int]. apply (map_get_set_same attribute_eqb attribute_eqb_spec).
  - cbn [last_attribute_value max_attribute_creations]. lia.
  - exists p'. split; [exact E|]. rewrite L. cbn [last_attribute_value]. lia.
Qed.
Lemma rotations_worn d : rotations (worn d) ("Department"%string, "HR"%string) = d.
Proof.
  unfold rotations, worn. cbn [filter]. induction d as [|d IH]; [reflexivity|]. cbn [repeat filter].
  change (attribute_eqb ("Department"%string, "HR"%string) ("Department"%string, "HR"%string)) with true. cbn [length]. rewrite IH. reflexivity.
Qed.

Theorem C116_every_stack_refuted (B : BilinearMap) (BL : BilinearLaws B) P d it (mdraw kdraw : nat -> bm_K B) :
  N.of_nat d + 2 < 2 ^ 32 -> iteration_ok it -> (forall i, mdraw i <> f0) ->
  exists n ops p mk uk, n < 2 ^ 32 /\ run_ops ops (new_policy n) = Ok p /\ eng_master_key p mdraw = Ok mk /\
    eng_user_key P it p (priv_key mk) (AAttr ("Department"%string, "HR"%string)) kdraw = Ok uk /\
    user_key_room P d it p (priv_key mk) (AAttr ("Department"%string, "HR"%string)) kdraw = Panic OutOfFuel.
Proof.
  intros Hd Hit Hm. set (n := N.of_nat d + 2). set (a := ("Department"%string, "HR"%string)).
  set (p1 := mkPolicy 1 n [("Department"%string, (["HR"%string], false))] [(a, [1])]).
  assert (E1 : add_axis (new_policy n) "Department" ["HR"%string] false = Ok p1).
  { unfold add_axis. destruct (N.ltb_spec (max_attribute_creations (new_policy n)) (last_attribute_value (new_policy n) + N.of_nat (length ["HR"%string]))) as [L|L]; [cbn in L; subst n; lia|reflexivity]. }
  destruct (rotate_often a d p1 [1] eq_refl) as (p & E & L); [cbn [p1 last_attribute_value max_attribute_creations]; subst n; lia|].
  assert (E0 : run_ops (worn d) (new_policy n) = Ok p).
  { unfold worn. cbn [run_ops apply_op]. rewrite E1. exact E. }
  assert (Hp : proper_axes (worn d)).
  { intros x names h [H|H]; [assert (names = ["HR"%string]) as -> by congruence; constructor; [intros []|constructor]|]. apply repeat_spec in H. discriminate. }
  assert (D : declared (worn d) a).
  { exists ["HR"%string], false. split; [left; reflexivity|left; reflexivity]. }
  destruct (C05_pipeline B BL P n (worn d) p mdraw kdraw it (AAttr a) [] (gt_gen_exp B f0) f0) as (mk & uk & ct & Q1 & Q2 & _); auto.
  - rewrite L. cbn [p1 last_attribute_value]. subst n. lia.
  - intros b [<-|[]]. exact D.
  - exact Logic.I.
  - discriminate.
  - intros b [].
  - subst n. cbn [length]. lia.
  - exists n, (worn d), p, mk, uk. split; [exact Hd|]. split; [exact E0|]. split; [exact Q1|]. split; [exact Q2|].
    apply (C116_too_deep_refuted d it P n (worn d) p (AAttr a) (priv_key mk) (del_key mk) uk kdraw E0 Hp Hit); [discriminate| |exists uk; exact Q2].
    left. exists a. split; [left; reflexivity|]. unfold a. rewrite rotations_worn. apply le_n.
Qed.

(** ** Concrete case: the history of the examples of C05, then "HR" is rotated once. A key for the
    access policy of depth two needs room for three calls, a key for "HR" room for two after the
    rotation and for one before, a key for all seven values room for seven. *)
Local Ltac vmr x := vm_cast_no_check (eq_refl x).
Example C116_example :
  run_ops ops_a (new_policy 10) = Ok pol_a /\ run_ops (ops_a ++ ops_b) (new_policy 10) = Ok pol_b /\ proper_axes ops_a /\ proper_axes (ops_a ++ ops_b) /\
  nesting ex_ap = 2%nat /\ created ops_a = 7%nat /\ rotations (ops_a ++ ops_b) (dept "HR") = 1%nat /\
  (exists uk, eng_user_key pf it_rev pol_a (priv_key ex_mk) ex_ap ex_kdraw = Ok uk /\
    user_key_room pf 2 it_rev pol_a (priv_key ex_mk) ex_ap ex_kdraw = Panic OutOfFuel /\
    user_key_room pf 3 it_rev pol_a (priv_key ex_mk) ex_ap ex_kdraw = Ok uk) /\
  (exists uk, eng_user_key pf it_rev pol_a (priv_key ex_mk) (AAttr (dept "HR")) ex_kdraw = Ok uk /\
    user_key_room pf 1 it_rev pol_a (priv_key ex_mk) (AAttr (dept "HR")) ex_kdraw = Ok uk) /\
  (exists uk, eng_user_key pf it_rev pol_b (priv_key ex_mk) (AAttr (dept "HR")) ex_kdraw = Ok uk /\
    user_key_room pf 1 it_rev pol_b (priv_key ex_mk) (AAttr (dept "HR")) ex_kdraw = Panic OutOfFuel /\
    user_key_room pf 2 it_rev pol_b (priv_key ex_mk) (AAttr (dept "HR")) ex_kdraw = Ok uk) /\
  (exists uk, eng_user_key pf it_rev pol_a (priv_key ex_mk) AAll ex_kdraw = Ok uk /\
    user_key_room pf 6 it_rev pol_a (priv_key ex_mk) AAll ex_kdraw = Panic OutOfFuel /\
    user_key_room pf 7 it_rev pol_a (priv_key ex_mk) AAll ex_kdraw = Ok uk).
Proof.
  split; [reflexivity|]. split; [reflexivity|]. split; [|split].
  1-2: intros x names h H; cbn in H; repeat (destruct H as [H|H]; [inversion H; subst; repeat constructor; simpl; intuition discriminate|]); destruct H.
  split; [reflexivity|]. split; [reflexivity|]. split; [reflexivity|].
  split; [exists (run empty_key (eng_user_key pf it_rev pol_a (priv_key ex_mk) ex_ap ex_kdraw))|
  split; [exists (run empty_key (eng_user_key pf it_rev pol_a (priv_key ex_mk) (AAttr (dept "HR")) ex_kdraw))|
  split; [exists (run empty_key (eng_user_key pf it_rev pol_b (priv_key ex_mk) (AAttr (dept "HR")) ex_kdraw))|
          exists (run empty_key (eng_user_key pf it_rev pol_a (priv_key ex_mk) AAll ex_kdraw))]]].
  all: repeat match goal with |- _ /\ _ => split end.
  all: match goal with |- ?a = ?b => vmr b end.
Qed.

Print Assumptions C116_enough_room.
Print Assumptions C116_same_or_aborted.
Print Assumptions C116_too_deep_refuted.
Print Assumptions C116_all_exact.
Print Assumptions C116_every_stack_refuted.
