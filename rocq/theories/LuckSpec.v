(** How often a fixed strategy of an attacker finds the message, counted over all draws. *)
From Coq Require Import NArith ZArith List.
From Verif Require Import Prelude Field Msp Spec Bilinear Scheme CollusionSpec.
Import ListNotations.

(** All values that are drawn: the attribute secrets and [y] of the master key, one list of values for
    each issued key (newest first), the scalar of the ciphertext and the message, which is the element
    of the target group with this exponent. *)
Record luck (B : BilinearMap) := mkLuck {
  lk_t : list (bm_K B);
  lk_y : bm_K B;
  lk_u : list (list (bm_K B));
  lk_s : bm_K B;
  lk_m : bm_K B
}.
Arguments mkLuck {B}.
Arguments lk_t {B}.
Arguments lk_y {B}.
Arguments lk_u {B}.
Arguments lk_s {B}.
Arguments lk_m {B}.

Section Luck.
Context {B : BilinearMap}.
Local Notation K := (bm_K B).

(** The values of a list, one after the other. *)
Definition values (l : list K) (i : nat) : K := nth i l f0.

(** The keys of a history, made with the given draws. *)
Inductive issued_with (P : platform) (mk : master_key B) :
    list event -> list node -> list (list K) -> list (decryption_key B) -> Prop :=
| iw_start : issued_with P mk [] [] [] []
| iw_gen h fs us uks f m u uk :
    issued_with P mk h fs us uks -> to_msp P f = Ok m -> key_generation m (priv_key mk) (values u) = Ok uk ->
    issued_with P mk (Generated f :: h) (f :: fs) (u :: us) (uk :: uks)
| iw_del h fs us uks k f uk f' m' u uk' :
    issued_with P mk h fs us uks -> nth_error fs k = Some f -> nth_error uks k = Some uk ->
    narrows f' f \/ restricts f' f -> to_msp P f' = Ok m' ->
    abe_key_delegation (Some m') uk (del_key mk) (values u) = Ok uk' ->
    issued_with P mk (Delegated k f' :: h) (f' :: fs) (u :: us) (uk' :: uks)
| iw_ref h fs us uks k f uk u uk' :
    issued_with P mk h fs us uks -> nth_error fs k = Some f -> nth_error uks k = Some uk ->
    abe_key_delegation None uk (del_key mk) (values u) = Ok uk' ->
    issued_with P mk (Refreshed k :: h) (f :: fs) (u :: us) (uk' :: uks).

(** The draws are those the functions ask for: one value for each slot, and for each key one value
    for each conjunction of its formula. *)
Definition proper (size : nat) (fs : list node) (x : luck B) : Prop :=
  length (lk_t x) = size /\ Forall2 (fun f u => length u = count_and f) fs (lk_u x).

(** With these draws the strategy finds the message. *)
Definition finds (P : platform) (size : nat) (h : list event) (fs : list node) (held : list bool)
    (gam : list N) (a : strategy B) (x : luck B) : Prop :=
  exists mk uks ct,
    generate_master_key size (values (lk_t x ++ [lk_y x])) = Ok mk /\
    issued_with P mk h fs (lk_u x) uks /\
    encrypt P (gt_gen_exp B (lk_m x)) gam (pub_key mk) (lk_s x) = Ok ct /\
    attack mk (kept held uks) ct a = gt_gen_exp B (lk_m x).

(** The number of proper draws with attribute secrets different from 0 (with the others no master key
    is made, see C43), if the field has [q] elements. *)
Definition draws_count (q size : nat) (fs : list node) : nat :=
  (q - 1) ^ size * q ^ (3 + list_sum (map count_and fs)).
End Luck.
