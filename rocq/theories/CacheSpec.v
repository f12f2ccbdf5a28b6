(** What the callers of the cache functions may rely on, in terms of the calls and
    returns they see. *)
From Coq Require Import NArith ZArith List.
From Verif Require Import Prelude FfiCache.
Import ListNotations.

Section Spec.
Context {V : Type}.

(** the values given to the create calls, in the order of their fetch_add *)
Fixpoint creations (tr : list (event V)) : list V :=
  match tr with
  | [] => []
  | CallCreate _ v :: t => v :: creations t
  | _ :: t => creations t
  end.
(** the handles returned by create calls, in order *)
Fixpoint returned (tr : list (event V)) : list Z :=
  match tr with
  | [] => []
  | RetCreate _ _ h :: t => h :: returned t
  | _ :: t => returned t
  end.

(** fewer creations than there are handles *)
Definition few (tr : list (event V)) : Prop := (Z.of_nat (length (creations tr)) <= 4294967296)%Z.

Definition destroy_called (tr : list (event V)) (h : Z) : Prop := exists t, In (CallDestroy t h) tr.

(** thread [t] makes no call in [tr] *)
Definition no_call (tr : list (event V)) (t : nat) : Prop :=
  forall e, In e tr -> match e with
    | CallCreate t' _ | CallDestroy t' _ | CallUse t' _ => t' <> t
    | _ => True
    end.

(** a thread holds the lock: it changes or reads the map *)
Definition writing (c : call V) : Prop := match c with Inserting _ _ | InsertDone _ _ | Removing _ | RemoveDone _ => True | _ => False end.
Definition reading (c : call V) : Prop := match c with Looking _ | Using _ _ => True | _ => False end.
End Spec.
