(** Specification vocabulary, independent of the functions of the model. *)
From Coq Require Import NArith ZArith List.
From Verif Require Import Prelude Field Msp.
Import ListNotations.

(** Truth of a formula on a set of attributes. *)
Fixpoint holds (S : N -> Prop) (f : node) : Prop :=
  match f with
  | And a b => holds S a /\ holds S b
  | Or a b => holds S a \/ holds S b
  | Leaf v => S v
  end.

(** The set of attributes of a list. *)
Definition attrs (gamma : list N) : N -> Prop := fun a => In a gamma.

(** Attributes mentioned by a formula, left to right. *)
Fixpoint leaves (f : node) : list N :=
  match f with
  | And a b | Or a b => leaves a ++ leaves b
  | Leaf v => [v]
  end.

(** Number of And nodes. *)
Fixpoint count_and (f : node) : nat :=
  match f with
  | And a b => S (count_and a + count_and b)
  | Or a b => count_and a + count_and b
  | Leaf _ => 0
  end.

(** A set of attributes that satisfies the formula and none of whose proper
    subsets does. *)
Definition minimal (f : node) (T : list N) : Prop :=
  holds (attrs T) f /\ forall T', incl T' T -> holds (attrs T') f -> incl T T'.

(** [restricts f' f]: the policy [f'] is obtained from [f] by replacing Or nodes
    by one of their children, and by reordering and regrouping the operands of
    Or and And nodes. *)
Inductive restricts : node -> node -> Prop :=
| rs_refl f : restricts f f
| rs_trans f1 f2 f3 : restricts f1 f2 -> restricts f2 f3 -> restricts f1 f3
| rs_or_left a b : restricts a (Or a b)
| rs_or_right a b : restricts b (Or a b)
| rs_and a a' b b' : restricts a' a -> restricts b' b -> restricts (And a' b') (And a b)
| rs_or a a' b b' : restricts a' a -> restricts b' b -> restricts (Or a' b') (Or a b)
| rs_and_comm a b : restricts (And b a) (And a b)
| rs_or_comm a b : restricts (Or b a) (Or a b)
| rs_and_assoc a b c : restricts (And a (And b c)) (And (And a b) c)
| rs_or_assoc a b c : restricts (Or a (Or b c)) (Or (Or a b) c).

(** The same notion without syntax: every minimal authorised set of the new
    policy is a minimal authorised set of the old one. *)
Definition narrows (f' f : node) : Prop := forall T, minimal f' T -> minimal f T.
