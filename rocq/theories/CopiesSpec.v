(** The numbers that a history of a policy gives to its attributes. *)
From Coq Require Import String NArith List.
From Verif Require Import Prelude Msp Policy PolicySpec.
Import ListNotations.

(** The attributes in the order in which they are given numbers, the first gets number 1. A rotated
    attribute gets a further number. *)
Definition numbering (ops : list op) : list attribute :=
  flat_map (fun o => match o with AddAxis x names _ => map (pair x) names | Rotate a => [a] end) ops.

(** [i] is the last place of [b] on the list. *)
Definition last_place (l : list attribute) (b : attribute) (i : nat) : Prop :=
  nth_error l i = Some b /\ ~ In b (skipn (S i) l).

(** A ciphertext made for the attributes [l] with a policy of history [ops2] looks to the keys of a
    policy of history [ops1] as if it was made for [c]. *)
Definition taken_for (ops1 ops2 : list op) (l : list attribute) (c : attribute) : Prop :=
  exists b i, In b l /\ last_place (numbering ops2) b i /\ nth_error (numbering ops1) i = Some c.

(** The attributes of which a key for the access policy has numbers. *)
Definition needed (ops : list op) (ap : access_policy) (c : attribute) : Prop :=
  match ap with
  | AAll => declared ops c
  | _ => exists a, In a (mentioned ap) /\ covers ops a c
  end.
