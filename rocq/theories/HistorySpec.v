(** Vocabulary of the statements about keys that live through several versions of
    a policy. *)
From Coq Require Import String NArith List.
From Verif Require Import Prelude Field Bilinear Scheme Policy PolicySpec Engine.
Import ListNotations.

(** Version [i] of a policy with a history is the policy after the first [i]
    operations. *)
Definition version (n : N) (history : list op) (i : nat) (p : policy) : Prop :=
  i <= length history /\ run_ops (firstn i history) (new_policy n) = Ok p.

(** The operations that lead from version [i] to version [j], none if [j] is not
    after [i]. *)
Definition between (history : list op) (i j : nat) : list op := skipn i (firstn j history).

(** The attribute [b] satisfies one of the requirements of the access policy. *)
Definition needed (ops : list op) (ap : access_policy) (b : attribute) : Prop :=
  exists a, In a (mentioned ap) /\ covers ops a b.

(** Access policies without And and All. *)
Fixpoint disjunctive (ap : access_policy) : Prop :=
  match ap with
  | AAttr _ => True
  | AOr a b => disjunctive a /\ disjunctive b
  | AAnd _ _ | AAll => False
  end.

(** [included ops ap' ap]: [ap'] is obtained from [ap] by replacing Or nodes by one
    of their operands, by reordering and regrouping operands, and by replacing
    disjunctions (or All) by disjunctions of some of the attributes that satisfy
    them, so also an attribute of a hierarchical axis by one below it. *)
Inductive included (ops : list op) : access_policy -> access_policy -> Prop :=
| in_refl a : included ops a a
| in_trans a b c : included ops a b -> included ops b c -> included ops a c
| in_or_left a b : included ops a (AOr a b)
| in_or_right a b : included ops b (AOr a b)
| in_and a a' b b' : included ops a' a -> included ops b' b -> included ops (AAnd a' b') (AAnd a b)
| in_or a a' b b' : included ops a' a -> included ops b' b -> included ops (AOr a' b') (AOr a b)
| in_and_comm a b : included ops (AAnd b a) (AAnd a b)
| in_or_comm a b : included ops (AOr b a) (AOr a b)
| in_and_assoc a b c : included ops (AAnd a (AAnd b c)) (AAnd (AAnd a b) c)
| in_or_assoc a b c : included ops (AOr a (AOr b c)) (AOr (AOr a b) c)
| in_some a' a : disjunctive a' -> no_overlap ops a' -> (forall x, In x (mentioned a') -> declared ops x) ->
    a = AAll \/ (disjunctive a /\ forall b, needed ops a' b -> needed ops a b) -> included ops a' a.

(** The keys that exist during a history, each with the version it stands for and
    its access policy: generated at a version, refreshed with any policy at all,
    delegated at a version. A key delegated with an older version of the policy
    stands for the older version. *)
Inductive held_key {B : BilinearMap} (P : platform) (mk : master_key B) (n : N) (history : list op)
    : nat -> access_policy -> decryption_key B -> Prop :=
| hk_gen it i p ap draw uk : iteration_ok it -> version n history i p ->
    eng_user_key P it p (priv_key mk) ap draw = Ok uk -> held_key P mk n history i ap uk
| hk_refresh it i ap uk p draw uk' : held_key P mk n history i ap uk ->
    eng_delegate P it p (del_key mk) uk AAll draw = Ok uk' -> held_key P mk n history i ap uk'
| hk_delegate it i j p ap ap' uk draw uk' : held_key P mk n history i ap uk ->
    iteration_ok it -> version n history j p -> ap' <> AAll -> included (firstn i history) ap' ap ->
    eng_delegate P it p (del_key mk) uk ap' draw = Ok uk' -> held_key P mk n history (min i j) ap' uk'.
