(** Vocabulary of the statements about the engine. *)
From Coq Require Import String NArith List.
From Verif Require Import Prelude Field Bilinear Scheme Policy PolicySpec Engine.
Import ListNotations.

(** The user keys of a policy version: generated for an access policy, then
    refreshed (delegation with All) or delegated to narrower access policies, any
    number of times. *)
Inductive user_key {B : BilinearMap} (P : platform) (mk : master_key B) (p : policy)
    : access_policy -> decryption_key B -> Prop :=
| uk_gen it ap draw uk : iteration_ok it ->
    eng_user_key P it p (priv_key mk) ap draw = Ok uk -> user_key P mk p ap uk
| uk_refresh it ap uk draw uk' : user_key P mk p ap uk ->
    eng_delegate P it p (del_key mk) uk AAll draw = Ok uk' -> user_key P mk p ap uk'
| uk_delegate it ap ap' uk draw uk' : iteration_ok it -> user_key P mk p ap uk -> ap' <> AAll -> narrower ap' ap ->
    eng_delegate P it p (del_key mk) uk ap' draw = Ok uk' -> user_key P mk p ap' uk'.

(** The result of a decryption that gives nothing away. *)
Definition refused {A} (o : outcome (option A)) : Prop :=
  o = Ok None \/ o = Err (InternalOperation "empty input matrix").
