(** Vocabulary of the statements about policies: histories of operations and the
    meaning of access policies. *)
From Coq Require Import String NArith List Permutation.
From Verif Require Import Prelude Msp Policy.
Import ListNotations.

(** What a policy administrator does. *)
Inductive op :=
| AddAxis (axis : string) (names : list string) (hierarchical : bool)
| Rotate (a : attribute).

Definition apply_op (p : policy) (o : op) : outcome policy :=
  match o with
  | AddAxis x l h => add_axis p x l h
  | Rotate a => rotate p a
  end.

(** All operations of the list succeed, one after the other. *)
Fixpoint run_ops (ops : list op) (p : policy) : outcome policy :=
  match ops with
  | [] => Ok p
  | o :: t => let* p' := apply_op p o in run_ops t p'
  end.

(** [x] occurs on the list before the first occurrence of [y]. *)
Definition before (l : list string) (x y : string) : Prop :=
  exists l1 l2, l = l1 ++ y :: l2 /\ ~ In y l1 /\ In x l1.

(** In a policy with this history, attribute [b] satisfies the requirement
    "attribute [a]": they are the same or [b] is below [a] on a hierarchical axis. *)
Definition covers (ops : list op) (a b : attribute) : Prop :=
  exists names h, In (AddAxis (fst a) names h) ops /\ In (snd a) names /\
    (b = a \/ (h = true /\ fst b = fst a /\ before names (snd b) (snd a))).

(** The attributes of the policy. *)
Definition declared (ops : list op) (b : attribute) : Prop :=
  exists names h, In (AddAxis (fst b) names h) ops /\ In (snd b) names.

(** Truth of an access policy on a set of attributes. All is satisfied by any
    attribute of the policy. *)
Fixpoint satisfied (ops : list op) (T : attribute -> Prop) (ap : access_policy) : Prop :=
  match ap with
  | AAttr a => exists b, T b /\ covers ops a b
  | AAnd a b => satisfied ops T a /\ satisfied ops T b
  | AOr a b => satisfied ops T a \/ satisfied ops T b
  | AAll => exists b, T b /\ declared ops b
  end.

(** Iteration visits every element exactly once. *)
Definition iteration_ok (it : iteration) : Prop :=
  (forall h, Permutation (heap_iter it h) h) /\ (forall m, Permutation (map_iter it m) m).

(** Attributes mentioned by an access policy. *)
Fixpoint mentioned (ap : access_policy) : list attribute :=
  match ap with
  | AAttr a => [a]
  | AAnd a b | AOr a b => mentioned a ++ mentioned b
  | AAll => []
  end.

(** All occurs below an And or Or. *)
Fixpoint all_inside (ap : access_policy) : Prop :=
  match ap with
  | AAttr _ | AAll => False
  | AAnd a b | AOr a b => a = AAll \/ b = AAll \/ all_inside a \/ all_inside b
  end.

(** No attribute is required at two places: the attributes satisfying different
    mentions are different. *)
Fixpoint no_overlap (ops : list op) (ap : access_policy) : Prop :=
  match ap with
  | AAttr _ | AAll => True
  | AAnd a b | AOr a b => no_overlap ops a /\ no_overlap ops b /\
      forall x y c, In x (mentioned a) -> In y (mentioned b) -> covers ops x c -> covers ops y c -> False
  end.

(** No axis lists a name twice. *)
Definition proper_axes (ops : list op) : Prop := forall x names h, In (AddAxis x names h) ops -> NoDup names.

(** [narrower ap' ap]: [ap'] is obtained from [ap] by replacing Or nodes by one of
    their operands, and by reordering and regrouping the operands. *)
Inductive narrower : access_policy -> access_policy -> Prop :=
| na_refl a : narrower a a
| na_trans a b c : narrower a b -> narrower b c -> narrower a c
| na_or_left a b : narrower a (AOr a b)
| na_or_right a b : narrower b (AOr a b)
| na_and a a' b b' : narrower a' a -> narrower b' b -> narrower (AAnd a' b') (AAnd a b)
| na_or a a' b b' : narrower a' a -> narrower b' b -> narrower (AOr a' b') (AOr a b)
| na_and_comm a b : narrower (AAnd b a) (AAnd a b)
| na_or_comm a b : narrower (AOr b a) (AOr a b)
| na_and_assoc a b c : narrower (AAnd a (AAnd b c)) (AAnd (AAnd a b) c)
| na_or_assoc a b c : narrower (AOr a (AOr b c)) (AOr (AOr a b) c).
