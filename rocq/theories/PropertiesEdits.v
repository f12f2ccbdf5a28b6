(** Which edits of a policy are accepted, and how many of them the keys bear: C140. *)
From Coq Require Import String NArith ZArith Bool Arith Lia Permutation List.
From Verif Require SchemeProofs.
From Verif Require Import Prelude Field Msp Spec Bilinear Scheme SchemeSpec SchemeTheorems Zp ExpModel PropertiesScheme
  Codec CodecProofs Policy PolicySpec PolicyProofs Engine EngineSpec EngineProofs PropertiesEngine Python Wasm PropertiesPython.
Import ListNotations.

(** ** Specification *)
(** The names of the axes, in the order in which they were added. *)
Definition axis_names (ops : list op) : list string :=
  flat_map (fun o => match o with AddAxis x _ _ => [x] | Rotate _ => [] end) ops.
(** Names and rotations together: every name of an axis and every rotation takes one value. *)
Definition values_taken (ops : list op) : nat :=
  list_sum (map (fun o => match o with AddAxis _ names _ => length names | Rotate _ => 1 end) ops).
(** There is room for all values, no axis is added twice, and only attributes are rotated
    whose axis was added before. *)
Record acceptable (n : N) (ops : list op) : Prop := {
  acc_room : values_taken ops <= N.to_nat n;
  acc_axes : NoDup (axis_names ops);
  acc_known : forall i a, nth_error ops i = Some (Rotate a) -> declared (firstn i ops) a
}.
(** Somebody can get a key for the attribute, and messages can be encrypted for it. *)
Definition usable {B : BilinearMap} P it p (mk : master_key B) (kdraw : nat -> bm_K B) msg (s : bm_K B) (b : attribute) : Prop :=
  exists uk ct, eng_user_key P it p (priv_key mk) (AAttr b) kdraw = Ok uk /\ eng_encrypt P p (pub_key mk) [b] msg s = Ok ct /\
    eng_decrypt ct uk = Ok (Some msg).

(** ** Histories *)
Lemma values_snoc ops o : values_taken (ops ++ [o]) = values_taken ops + match o with AddAxis _ names _ => length names | Rotate _ => 1 end.
Proof. unfold values_taken. rewrite map_app, list_sum_app. cbn [map list_sum fold_right]. lia. Qed.
Lemma run_ops_app a b p : run_ops (a ++ b) p = let* q := run_ops a p in run_ops b q.
Proof. revert p. induction a as [|o a IH]; intros p; [reflexivity|]. cbn [app run_ops]. destruct (apply_op p o); cbn [bind]; auto. Qed.
Lemma run_ops_one o p : run_ops [o] p = apply_op p o.
Proof. cbn [run_ops]. destruct (apply_op p o); reflexivity. Qed.
Lemma last_taken n ops : forall p, run_ops ops (new_policy n) = Ok p -> last_attribute_value p = N.of_nat (values_taken ops).
Proof.
  induction ops as [|o ops IH] using rev_ind; intros p H; [cbn [run_ops] in H; apply Ok_inj in H; subst p; reflexivity|].
  rewrite run_ops_app in H. apply bind_ok in H as (q & Eq & H). rewrite run_ops_one in H. specialize (IH q Eq). rewrite values_snoc. destruct o as [x names h|a]; cbn [apply_op] in H.
  - apply add_axis_inv in H as (_ & _ & ->). cbn [last_attribute_value]. rewrite IH. lia.
  - apply rotate_inv in H as (h & _ & _ & ->). cbn [last_attribute_value]. rewrite IH. lia.
Qed.
Lemma max_kept n ops p : run_ops ops (new_policy n) = Ok p -> max_attribute_creations p = n.
Proof. intros H. rewrite (run_max _ _ _ H). reflexivity. Qed.
Lemma axis_names_in ops x : In x (axis_names ops) <-> exists names h, In (AddAxis x names h) ops.
Proof.
  unfold axis_names. rewrite in_flat_map. split.
  - intros (o & Ho & Hx). destruct o as [y names h|a]; [|destruct Hx]. destruct Hx as [->|[]]. eauto.
  - intros (names & h & H). exists (AddAxis x names h). split; [exact H|left; reflexivity].
Qed.

(** ** One edit *)
(** What an edit of a policy gives: which of the errors is told by what is asked for alone, a
    full policy being reported first. *)
Theorem C140_edit n ops p : run_ops ops (new_policy n) = Ok p ->
  (forall x names h,
    (N.to_nat n < values_taken ops + length names -> add_axis p x names h = Err (PolicyError PolicyCapacityOverflow)) /\
    (values_taken ops + length names <= N.to_nat n -> In x (axis_names ops) -> add_axis p x names h = Err (PolicyError PolicyExistingAxis)) /\
    (values_taken ops + length names <= N.to_nat n -> ~ In x (axis_names ops) -> is_ok (add_axis p x names h))) /\
  (forall a,
    (N.to_nat n <= values_taken ops -> rotate p a = Err (PolicyError PolicyCapacityOverflow)) /\
    (values_taken ops < N.to_nat n -> ~ declared ops a -> rotate p a = Err (PolicyError PolicyAttributeNotFound)) /\
    (values_taken ops < N.to_nat n -> declared ops a -> is_ok (rotate p a))).
Proof.
  intros H. pose proof (inv_history n ops p H) as I. pose proof (last_taken n ops p H) as L. pose proof (max_kept n ops p H) as M. split.
  - intros x names h. unfold add_axis. rewrite L, M. destruct (N.ltb_spec n (N.of_nat (values_taken ops) + N.of_nat (length names))) as [Q|Q].
    + split; [reflexivity|]. split; intros; lia.
    + split; [intros; lia|]. split; intros _ Hx.
      * apply axis_names_in in Hx as (ns & h' & Hx). apply (i_axes _ _ I) in Hx. rewrite Hx. reflexivity.
      * destruct (axis_get p x) as [[ns h']|] eqn:E; [exfalso; apply Hx, axis_names_in; exists ns, h'; apply (i_axes _ _ I); exact E|].
        destruct (insert_values _ _ _ _) as [l m]. eexists. reflexivity.
  - intros a. unfold rotate. pose proof (i_last _ _ I) as Le. rewrite L, M in *. destruct (N.eqb_spec (N.of_nat (values_taken ops)) n) as [Q|Q].
    + split; [reflexivity|]. split; intros; lia.
    + split; [intros; lia|]. split; intros _ Ha.
      * destruct (heap_get p a) as [h|] eqn:E; [exfalso; apply Ha, (i_decl _ _ I); eauto|reflexivity].
      * apply (i_decl _ _ I) in Ha as (h & E). rewrite E. eexists. reflexivity.
Qed.

(** ** All edits *)
Lemma firstn_snoc {A} (l : list A) x i : i <= length l -> firstn i (l ++ [x]) = firstn i l.
Proof. intros H. rewrite firstn_app. replace (i - length l) with 0 by lia. cbn [firstn]. apply app_nil_r. Qed.
(** A policy can be edited in this way exactly when the list of edits is acceptable. *)
Theorem C140_history n ops : is_ok (run_ops ops (new_policy n)) <-> acceptable n ops.
Proof.
  induction ops as [|o ops IH] using rev_ind.
  - split; [intros _|intros _; eexists; reflexivity]. constructor; [cbn; lia|constructor|intros [|i] a H; discriminate].
  - rewrite run_ops_app. split.
    + intros (q & H). apply bind_ok in H as (p & Ep & H). rewrite run_ops_one in H. destruct (proj1 IH (ex_intro _ p Ep)) as [A1 A2 A3].
      destruct (C140_edit n ops p Ep) as [CA CR]. destruct o as [x names h|a]; cbn [apply_op] in H.
      * destruct (CA x names h) as (C1 & C2 & _). assert (R : values_taken ops + length names <= N.to_nat n) by (destruct (Nat.le_gt_cases (values_taken ops + length names) (N.to_nat n)) as [Q|Q]; [exact Q|rewrite (C1 Q) in H; discriminate]).
        constructor.
        -- rewrite values_snoc. exact R.
        -- unfold axis_names. rewrite flat_map_app. cbn [flat_map app]. apply NoDup_Add with (a := x) (l := axis_names ops); [rewrite <- (app_nil_r (axis_names ops)) at 1; apply Add_app|].
           split; [exact A2|]. intros Hx. rewrite (C2 R Hx) in H. discriminate.
        -- intros i a Hi. assert (Li : i < length ops).
           { pose proof (proj1 (nth_error_Some (ops ++ [AddAxis x names h]) i) ltac:(congruence)) as Q. rewrite app_length in Q. cbn [length] in Q.
             destruct (Nat.eq_dec i (length ops)) as [->|]; [|lia]. rewrite nth_error_app2, Nat.sub_diag in Hi by lia. discriminate. }
           rewrite nth_error_app1 in Hi by exact Li. rewrite firstn_snoc by lia. exact (A3 i a Hi).
      * destruct (CR a) as (C1 & C2 & _). assert (R : values_taken ops < N.to_nat n) by (destruct (Nat.lt_ge_cases (values_taken ops) (N.to_nat n)) as [Q|Q]; [exact Q|rewrite (C1 Q) in H; discriminate]).
        constructor.
        -- rewrite values_snoc. lia.
        -- unfold axis_names. rewrite flat_map_app. cbn [flat_map app]. rewrite app_nil_r. exact A2.
        -- intros i b Hi. destruct (Nat.lt_ge_cases i (length ops)) as [Li|Li].
           ++ rewrite nth_error_app1 in Hi by exact Li. rewrite firstn_snoc by lia. exact (A3 i b Hi).
           ++ rewrite nth_error_app2 in Hi by exact Li. destruct (i - length ops) as [|k] eqn:Ek; [|destruct k; discriminate]. assert (i = length ops) by lia. subst i. injection Hi as <-.
              rewrite firstn_snoc, firstn_all by lia. apply (i_decl _ _ (inv_history n ops p Ep)). apply rotate_inv in H as (h & Eh & _). eauto.
    + intros [A1 A2 A3]. rewrite values_snoc in A1. unfold axis_names in A2. rewrite flat_map_app in A2. fold (axis_names ops) in A2.
      assert (Q : is_ok (run_ops ops (new_policy n))).
      { apply IH. constructor.
        - lia.
        - apply NoDup_app_iff in A2. tauto.
        - intros i a Hi. assert (Li : i < length ops) by (apply nth_error_Some; congruence). rewrite <- (firstn_snoc ops o i) by lia. apply A3. rewrite nth_error_app1 by exact Li. exact Hi. }
      destruct Q as (p & Ep). rewrite Ep. cbn [bind]. rewrite run_ops_one. destruct (C140_edit n ops p Ep) as [CA CR]. destruct o as [x names h|a]; cbn [apply_op].
      * apply (CA x names h); [exact A1|]. intros Hx. cbn [flat_map app] in A2. apply NoDup_app_iff in A2 as (_ & _ & D). exact (D x Hx (or_introl eq_refl)).
      * apply (CR a); [lia|]. specialize (A3 (length ops) a). rewrite nth_error_app2, Nat.sub_diag, firstn_snoc, firstn_all in A3 by lia. apply A3. reflexivity.
Qed.

(** ** Rotations *)
(** A list of rotations is accepted exactly when all are of attributes of the policy and there are as many values left. *)
Theorem C140_rotations n ops p l : run_ops ops (new_policy n) = Ok p ->
  (is_ok (run_ops (map Rotate l) p) <-> (forall a, In a l -> declared ops a) /\ values_taken ops + length l <= N.to_nat n).
Proof.
  intros H. pose proof (proj1 (C140_history n ops) (ex_intro _ p H)) as A.
  replace (run_ops (map Rotate l) p) with (run_ops (ops ++ map Rotate l) (new_policy n)) by (rewrite run_ops_app, H; reflexivity).
  rewrite C140_history.
  assert (V : values_taken (ops ++ map Rotate l) = values_taken ops + length l).
  { clear. unfold values_taken. rewrite map_app, list_sum_app. f_equal. induction l as [|a l IH]; [reflexivity|]. cbn [map list_sum fold_right length] in *. unfold list_sum in IH. lia. }
  split.
  - intros [R _ Kn]. split; [|lia]. intros a Ha. apply In_nth_error in Ha as (i & Hi).
    assert (Q : nth_error (ops ++ map Rotate l) (length ops + i) = Some (Rotate a)) by (rewrite nth_error_app2 by lia; replace (length ops + i - length ops) with i by lia; apply map_nth_error; exact Hi).
    destruct (Kn _ _ Q) as (names & h & Hn & Hs). exists names, h. split; [|exact Hs]. rewrite firstn_app in Hn. apply in_app_or in Hn as [Hn|Hn].
    + rewrite firstn_all2 in Hn by lia. exact Hn.
    + exfalso. rewrite firstn_map in Hn. apply in_map_iff in Hn as (b & E & _). discriminate.
  - intros [Hd R]. destruct A as [A1 A2 A3]. constructor.
    + lia.
    + unfold axis_names. rewrite flat_map_app. assert (E : flat_map (fun o => match o with AddAxis x _ _ => [x] | Rotate _ => [] end) (map Rotate l) = []) by (clear; induction l as [|a l IH]; [reflexivity|exact IH]).
      rewrite E, app_nil_r. exact A2.
    + intros i a Hi. destruct (Nat.lt_ge_cases i (length ops)) as [Li|Li].
      * rewrite nth_error_app1 in Hi by exact Li. rewrite firstn_app. replace (i - length ops) with 0 by lia. cbn [firstn]. rewrite app_nil_r. exact (A3 i a Hi).
      * rewrite nth_error_app2 in Hi by exact Li. apply nth_error_In, in_map_iff in Hi as (b & E & Hb). injection E as <-.
        destruct (Hd b Hb) as (names & h & Hn & Hs). exists names, h. split; [|exact Hs]. rewrite firstn_app, firstn_all2 by exact Li. apply in_or_app. left. exact Hn.
Qed.

(** The functions of the Python and WebAssembly interfaces that rotate attributes, for any way of reading and writing
    texts in which policies can be written. *)
Theorem C140_interfaces attributes_from policy_from policy_json policy_text n ops p l attrs pol :
  (forall q, is_ok (policy_json q)) -> (forall q, is_ok (policy_text q)) ->
  attributes_from attrs = Ok l -> policy_from pol = Ok p -> run_ops ops (new_policy n) = Ok p ->
  (is_ok (py_rotate_attributes policy_from attributes_from policy_json attrs pol) <->
     (forall a, In a l -> declared ops a) /\ values_taken ops + length l <= N.to_nat n) /\
  (is_ok (w_rotate_attributes policy_from attributes_from policy_text attrs pol) <->
     (forall a, In a l -> declared ops a) /\ values_taken ops + length l <= N.to_nat n).
Proof.
  intros J1 J2 El Ep Hp. rewrite <- (C140_rotations n ops p l Hp). unfold py_rotate_attributes, w_rotate_attributes. rewrite El, Ep. cbn [bind]. rewrite rotate_each_ops.
  destruct (run_ops (map Rotate l) p) as [q|e|q]; cbn [bind].
  - split; (split; [intros _; eexists; reflexivity|intros _]); [apply J1|apply J2].
  - split; split; intros (x & H); discriminate.
  - split; split; intros (x & H); discriminate.
Qed.

(** ** With keys *)
Section Keys.
Context (B : BilinearMap) (BL : BilinearLaws B).
Local Notation K := (bm_K B).

(** The keys bear one value less than the policy: with master keys made for the policy, at any time,
    all attributes stay usable exactly while a value is left. *)
Theorem C140_usable P n ops p p0 (mdraw kdraw : nat -> K) mk it msg (s : K) :
  run_ops ops (new_policy n) = Ok p -> proper_axes ops -> max_attribute_creations p0 = n -> eng_master_key p0 mdraw = Ok mk ->
  iteration_ok it -> 0 < values_taken ops ->
  ((forall b, declared ops b -> usable P it p mk kdraw msg s b) <-> values_taken ops < N.to_nat n).
Proof using BL.
  intros Hp Hprop Hmax Hmk Hit Hpos. pose proof (inv_history n ops p Hp) as I. pose proof (last_taken n ops p Hp) as L. pose proof (max_kept n ops p Hp) as M. pose proof (i_last _ _ I) as Le.
  assert (Hmk' : eng_master_key p mdraw = Ok mk) by (unfold eng_master_key in *; rewrite M, <- Hmax; exact Hmk). split.
  - intros U. destruct (Nat.lt_ge_cases (values_taken ops) (N.to_nat n)) as [Q|Q]; [exact Q|]. exfalso. assert (E : last_attribute_value p = n) by lia.
    destruct (N.le_gt_cases 2 n) as [H2|H2].
    + destruct (C41_full_policy_refuted B BL P n ops p mdraw kdraw mk it msg s Hp E H2 Hprop Hit Hmk') as (b & D & _ & _ & F). destruct (U b D) as (uk & ct & _ & F' & _). congruence.
    + destruct (last_value_used n ops p Hp) as (b & D & _); [lia|]. destruct (U b D) as (uk & ct & _ & F & _). unfold eng_encrypt in F. apply bind_ok in F as (gam & Eg & F).
      unfold eng_master_key in Hmk'. rewrite M in Hmk'. destruct (generate_master_key_inv B BL _ _ _ Hmk') as (t & y & -> & Ht & _). unfold encrypt in F. apply mapM_length in Eg.
      destruct (Nat.leb_spec (length (pub_t (pub_key (master_of B t y)))) (length gam)) as [_|G].
      * apply bind_ok in F as (x & _ & F). discriminate.
      * unfold master_of, SchemeProofs.pub_of in G. cbn [pub_key pub_t] in G. rewrite map_length in G. cbn [length] in Eg. lia.
  - intros Q b D. unfold eng_master_key in Hmk'. rewrite M in Hmk'.
    assert (Hnz : forall i, i < N.to_nat n -> mdraw i <> f0).
    { intros i Hi E. destruct (C43_master_key_generation B BL P (N.to_nat n) mdraw) as [_ C]. rewrite C in Hmk' by (exists i; auto). discriminate. }
    destruct (C41_every_attribute_usable_below B BL P n ops p mdraw kdraw it b msg s Hp Hprop) as (mk' & uk & ct & E1 & E2 & E3 & E4); try assumption; [lia|].
    unfold eng_master_key in E1. rewrite M, Hmk' in E1. apply Ok_inj in E1. subst mk'. exists uk, ct. auto.
Qed.
End Keys.

(** ** Examples *)
Local Ltac vmr x := vm_cast_no_check (eq_refl x).
(** Seven attributes in a policy for ten values: three rotations are accepted, two leave all attributes usable. *)
Definition three : list attribute := [dept "HR"; dept "HR"; level "Protected"].
Definition pol_two : policy := run (new_policy 0) (run_ops (map Rotate (firstn 2 three)) pol_a).
Definition pol_three : policy := run (new_policy 0) (run_ops (map Rotate three) pol_a).
Example C140_example :
  run_ops ops_a (new_policy 10) = Ok pol_a /\ values_taken ops_a = 7 /\ (forall a, In a three -> declared ops_a a) /\
  run_ops (map Rotate three) pol_a = Ok pol_three /\
  rotate pol_three (dept "HR") = Err (PolicyError PolicyCapacityOverflow) /\
  rotate pol_three (dept "IT") = Err (PolicyError PolicyCapacityOverflow) /\
  rotate pol_two (dept "IT") = Err (PolicyError PolicyAttributeNotFound) /\
  add_axis pol_a "Department" ["IT"]%string false = Err (PolicyError PolicyExistingAxis) /\
  add_axis pol_a "Department" ["IT"; "1"; "2"; "3"]%string false = Err (PolicyError PolicyCapacityOverflow) /\
  is_ok (add_axis pol_a "Country" ["FR"; "DE"; "IT"]%string false) /\
  acceptable 10 (ops_a ++ map Rotate three) /\ ~ acceptable 9 (ops_a ++ map Rotate three) /\
  ~ acceptable 10 (Rotate (dept "HR") :: ops_a) /\ ~ acceptable 20 (ops_a ++ ops_a).
Proof.
  split; [vm_compute; reflexivity|]. split; [reflexivity|].
  split; [intros a [<-|[<-|[<-|[]]]]; [exists ["R&D"; "HR"; "MKG"; "FIN"]%string, false|exists ["R&D"; "HR"; "MKG"; "FIN"]%string, false|exists ["Protected"; "Confidential"; "Top Secret"]%string, true]; cbn; auto|].
  split; [vm_compute; reflexivity|]. do 5 (split; [vm_compute; reflexivity|]). split; [eexists; vm_compute; reflexivity|].
  split; [apply C140_history; eexists; vm_compute; reflexivity|].
  split; [|split]; intros H; apply C140_history in H as (p & H); vm_compute in H; discriminate.
Qed.
(** texts of attributes: the department HR as often as there are bytes *)
Definition some_hr (b : list Byte.byte) : outcome (list attribute) := Ok (repeat (dept "HR") (length b)).
Example C140_interfaces_example : forall x : Byte.byte,
  some_hr [x; x; x] = Ok [dept "HR"; dept "HR"; dept "HR"] /\
  is_ok (py_rotate_attributes (fun _ => Ok pol_a) some_hr (fun _ => Ok [x]) [x; x; x] []) /\
  py_rotate_attributes (fun _ => Ok pol_a) some_hr (fun _ => Ok [x]) [x; x; x; x] [] = Err (PolicyError PolicyCapacityOverflow) /\
  is_ok (w_rotate_attributes (fun _ => Ok pol_a) some_hr (fun _ => Ok "policy"%string) [x; x; x] []) /\
  w_rotate_attributes (fun _ => Ok pol_a) some_hr (fun _ => Ok "policy"%string) [x; x; x; x] [] = Err (PolicyError PolicyCapacityOverflow).
Proof.
  intros x. split; [reflexivity|]. split; [eexists; vm_compute; reflexivity|]. split; [vm_compute; reflexivity|]. split; [eexists; vm_compute; reflexivity|]. vm_compute. reflexivity.
Qed.
Example C140_usable_example :
  proper_axes (ops_a ++ map Rotate three) /\ max_attribute_creations pol_a = 10%N /\ eng_master_key pol_a ex_draw = Ok ex_mk /\ iteration_ok it_rev /\
  (** two rotations: every attribute is usable *)
  (forall b, declared (ops_a ++ map Rotate (firstn 2 three)) b -> usable pf it_rev pol_two ex_mk ex_kdraw ex_msg ex_s b) /\
  (** three rotations: the attribute rotated last is not *)
  eng_encrypt pf pol_three (pub_key ex_mk) [level "Protected"] ex_msg ex_s = Panic IndexOutOfBounds.
Proof.
  assert (Hprop : proper_axes (ops_a ++ map Rotate three)) by (intros x names h [E|[E|[E|[E|[E|[]]]]]]; inversion E; subst; repeat constructor; simpl; intuition discriminate).
  split; [exact Hprop|]. split; [vm_compute; reflexivity|]. split; [vmr (Ok ex_mk)|]. split; [exact it_rev_ok|]. split; [|vmr (@Panic (ciphertext toy) IndexOutOfBounds)].
  apply (C140_usable toy toy_laws pf 10%N (ops_a ++ map Rotate (firstn 2 three)) pol_two pol_a ex_draw ex_kdraw ex_mk it_rev ex_msg ex_s).
  - vm_compute; reflexivity.
  - intros x names h Hx. apply (Hprop x names h). apply in_app_or in Hx as [Hx|Hx]; apply in_or_app; [left; exact Hx|right]. cbn in *. tauto.
  - vm_compute; reflexivity.
  - vmr (Ok ex_mk).
  - exact it_rev_ok.
  - cbn. lia.
  - cbn. lia.
Qed.

Print Assumptions C140_edit.
Print Assumptions C140_history.
Print Assumptions C140_rotations.
Print Assumptions C140_interfaces.
Print Assumptions C140_usable.
