(** Policies: the part of the external crate abe_policy 1.0 that the code uses
    (from its use in /repo, see DESIGN.md), and the translation of access policies
    to formulas, /repo/src/core/msp.rs:411-487. Model only, no proofs. *)
From Coq Require Import String NArith ZArith Bool List.
From Verif Require Import Prelude Msp.
Import ListNotations.
Local Open Scope N_scope.

(** abe_policy::Attribute: axis and name. *)
Definition attribute := (string * string)%type.
Definition attribute_eqb (a b : attribute) : bool := (String.eqb (fst a) (fst b) && String.eqb (snd a) (snd b))%bool.

(** abe_policy::AccessPolicy *)
Inductive access_policy :=
| AAttr (a : attribute)
| AAnd (a b : access_policy)
| AOr (a b : access_policy)
| AAll.

(** HashMap as an association list; its order is not the iteration order, see
    [iteration] below. *)
Fixpoint map_get {K V} (eqb : K -> K -> bool) (m : list (K * V)) (k : K) : option V :=
  match m with
  | [] => None
  | (k', v) :: t => if eqb k' k then Some v else map_get eqb t k
  end.
(** HashMap::insert: replaces the value of a key already there *)
Fixpoint map_set {K V} (eqb : K -> K -> bool) (m : list (K * V)) (k : K) (v : V) : list (K * V) :=
  match m with
  | [] => [(k, v)]
  | (k', v') :: t => if eqb k' k then (k', v) :: t else (k', v') :: map_set eqb t k v
  end.

(** abe_policy::Policy; the fields are the ones of the JSON text in
    /repo/src/core/tests/policy_tests.rs:89. A BinaryHeap is the list of its
    elements in no particular order. *)
Record policy := mkPolicy {
  last_attribute_value : N;
  max_attribute_creations : N;
  axes : list (string * (list string * bool));
  attribute_to_int : list (attribute * list N)
}.

Definition axis_get (p : policy) (axis : string) : option (list string * bool) := map_get String.eqb (axes p) axis.
Definition heap_get (p : policy) (a : attribute) : option (list N) := map_get attribute_eqb (attribute_to_int p) a.

(** Policy::new *)
Definition new_policy (max : N) : policy := mkPolicy 0 max [] [].

(** the loop of add_axis: the values given are last + 1, last + 2, ... *)
Fixpoint insert_values (axis : string) (names : list string) (last : N) (m : list (attribute * list N))
    : N * list (attribute * list N) :=
  match names with
  | [] => (last, m)
  | n :: t => insert_values axis t (last + 1) (map_set attribute_eqb m (axis, n) [last + 1])
  end.

(** Policy::add_axis *)
Definition add_axis (p : policy) (axis : string) (names : list string) (hierarchical : bool) : outcome policy :=
  if max_attribute_creations p <? last_attribute_value p + N.of_nat (length names) then Err (PolicyError PolicyCapacityOverflow)
  else match axis_get p axis with
  | Some _ => Err (PolicyError PolicyExistingAxis)
  | None =>
      let '(last, m) := insert_values axis names (last_attribute_value p) (attribute_to_int p) in
      Ok (mkPolicy last (max_attribute_creations p) (map_set String.eqb (axes p) axis (names, hierarchical)) m)
  end.

(** Policy::rotate *)
Definition rotate (p : policy) (a : attribute) : outcome policy :=
  if last_attribute_value p =? max_attribute_creations p then Err (PolicyError PolicyCapacityOverflow)
  else match heap_get p a with
  | Some h =>
      let v := last_attribute_value p + 1 in
      Ok (mkPolicy v (max_attribute_creations p) (axes p) (map_set attribute_eqb (attribute_to_int p) a (v :: h)))
  | None => Err (PolicyError PolicyAttributeNotFound)
  end.

(** BinaryHeap::peek: the greatest element *)
Definition heap_peek (h : list N) : option N :=
  match h with
  | [] => None
  | x :: t => Some (fold_left N.max t x)
  end.

(** Policy::attributes_values: the current value of each attribute *)
Definition attributes_values (p : policy) (l : list attribute) : outcome (list N) :=
  mapM (fun a => match heap_get p a with
                 | Some h => match heap_peek h with
                             | Some v => Ok v
                             | None => Err (PolicyError PolicyAttributeNotFound)
                             end
                 | None => Err (PolicyError PolicyAttributeNotFound)
                 end) l.

(** BinaryHeap::iter and HashMap::values give the elements in an unspecified
    order, which can change from call to call. *)
Record iteration := mkIteration {
  heap_iter : list N -> list N;
  map_iter : list (attribute * list N) -> list (attribute * list N)
}.

(** iter().map(Node::Leaf).reduce(BitOr::bitor) *)
Definition reduce_or (l : list N) : option node :=
  match l with
  | [] => None
  | v :: t => Some (fold_left (fun acc x => Or acc (Leaf x)) t (Leaf v))
  end.

Section Translation.
Variable it : iteration.

(** list.contains(name) and list.iter().position(|r| r == name) *)
Fixpoint position (l : list string) (name : string) : option nat :=
  match l with
  | [] => None
  | x :: t => if String.eqb x name then Some 0%nat
              else match position t name with Some i => Some (S i) | None => None end
  end.

(** policy.attribute_to_int[a] (indexing panics on a missing key), then the
    disjunction of its values, msp.rs:458-462 and 469-472 *)
Definition attribute_node (p : policy) (a : attribute) : outcome node :=
  match heap_get p a with
  | None => Panic MissingMapKey
  | Some h => match reduce_or (heap_iter it h) with
              | Some n => Ok n
              | None => Err AttributeNotFound
              end
  end.

(** the loop on the lower attributes, msp.rs:464-474; [l] is the list cut at the
    position of the attribute *)
Fixpoint add_lower (p : policy) (axis : string) (l : list string) (val : node) : outcome node :=
  match l with
  | [] => Ok val
  | elem :: t =>
      let* n := attribute_node p (axis, elem) in
      add_lower p axis t (Or val n)
  end.

(** policy_to_node, msp.rs:451-487 *)
Definition policy_to_node (p : policy) (a : attribute) : outcome node :=
  match axis_get p (fst a) with
  | Some (names, hierarchical) =>
      match position names (snd a) with
      | Some res =>
          let* val := attribute_node p a in
          if hierarchical then add_lower p (fst a) (firstn res names) val else Ok val
      | None => Err (MissingAttribute (Some (snd a)) (Some (fst a)))
      end
  | None => Err (MissingAxis (fst a))
  end.

(** policy_to_formula, msp.rs:435-446 *)
Fixpoint policy_to_formula (p : policy) (ap : access_policy) : outcome node :=
  match ap with
  | AAttr a => policy_to_node p a
  | AAnd a b =>
      let* x := policy_to_formula p a in
      let* y := policy_to_formula p b in Ok (And x y)
  | AOr a b =>
      let* x := policy_to_formula p a in
      let* y := policy_to_formula p b in Ok (Or x y)
  | AAll => Err (InvalidFormula "`All` is not authorized inside a formula")
  end.

(** policy_to_msp, msp.rs:411-432 *)
Definition policy_to_msp (P : platform) (p : policy) (ap : access_policy) : outcome (msp Z) :=
  match ap with
  | AAll =>
      match reduce_or (concat (map (fun e => heap_iter it (snd e)) (map_iter it (attribute_to_int p)))) with
      | Some f => to_msp P f
      | None => Err (MissingAttribute None None)
      end
  | _ => let* f := policy_to_formula p ap in to_msp P f
  end.
End Translation.
