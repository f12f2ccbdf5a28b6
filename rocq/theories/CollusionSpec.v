(** Attackers who combine several keys, a ciphertext and the public elements. *)
From Coq Require Import NArith ZArith List.
From Verif Require Import Prelude Field Msp Spec Bilinear Scheme.
Import ListNotations.

(** Names of the elements the attacker holds. A name out of range stands for the
    neutral element. *)
Inductive name1 :=
| OneG1                       (* the generator *)
| Delegation (i : nat)        (* an element of the delegation key *)
| KeyPart (k r : nat).        (* the element [r] of the user key [k] *)
Inductive name2 :=
| OneG2
| Public (i : nat)            (* an element of the public key *)
| CtPart (j : nat).           (* the element [j] of the ciphertext *)
Inductive namet :=
| OneGt
| PublicY                     (* the last element of the public key *)
| CtMasked.                   (* the masked message *)

(** What the attacker does: a product of pairings and of elements of the target
    group, raised to chosen powers. The strategy is fixed before the secrets are
    drawn. *)
Record strategy (B : BilinearMap) := mkStrategy {
  pairings : list (name1 * name2 * bm_K B);
  others : list (namet * bm_K B)
}.
Arguments mkStrategy {B}.
Arguments pairings {B}.
Arguments others {B}.

Section Attack.
Context {B : BilinearMap}.
Variable mk : master_key B.
Variable uks : list (decryption_key B).
Variable ct : ciphertext B.

Definition element1 (n : name1) : G1 B :=
  match n with
  | OneG1 => g3_to_g1 B (g3_gen_exp B f1)
  | Delegation i => g3_to_g1 B (nth i (inv_t (del_key mk)) (g3_gen_exp B f0))
  | KeyPart k r => nth r (nth k (map d_i uks) []) (g3_to_g1 B (g3_gen_exp B f0))
  end.
Definition element2 (n : name2) : G2 B :=
  match n with
  | OneG2 => g2_gen_exp B f1
  | Public i => nth i (pub_t (pub_key mk)) (g2_gen_exp B f0)
  | CtPart j => nth j (e_i ct) (g2_gen_exp B f0)
  end.
Definition elementt (n : namet) : Gt B :=
  match n with
  | OneGt => gt_gen_exp B f1
  | PublicY => pub_y (pub_key mk)
  | CtMasked => e_prime ct
  end.
Definition attack (a : strategy B) : Gt B :=
  gt_mul B (prod_gt_exp B (map (fun x => element1 (fst (fst x))) (pairings a))
                          (map (fun x => element2 (snd (fst x))) (pairings a))
                          (map snd (pairings a)))
           (fold_right (fun x acc => gt_mul B (gt_exp B (elementt (fst x)) (snd x)) acc) (gt_gen_exp B f0) (others a)).
End Attack.

(** Histories of keys, the newest first: a key is generated, or delegated from an
    earlier key to a narrower formula, or it is an earlier key made random again. *)
Inductive event :=
| Generated (f : node)
| Delegated (k : nat) (f : node)
| Refreshed (k : nat).

Inductive issued {B : BilinearMap} (P : platform) (mk : master_key B) : list event -> list node -> list (decryption_key B) -> Prop :=
| is_start : issued P mk [] [] []
| is_gen h fs uks f m draw uk :
    issued P mk h fs uks -> to_msp P f = Ok m -> key_generation m (priv_key mk) draw = Ok uk ->
    issued P mk (Generated f :: h) (f :: fs) (uk :: uks)
| is_del h fs uks k f uk f' m' draw uk' :
    issued P mk h fs uks -> nth_error fs k = Some f -> nth_error uks k = Some uk ->
    narrows f' f \/ restricts f' f -> to_msp P f' = Ok m' ->
    abe_key_delegation (Some m') uk (del_key mk) draw = Ok uk' ->
    issued P mk (Delegated k f' :: h) (f' :: fs) (uk' :: uks)
| is_ref h fs uks k f uk draw uk' :
    issued P mk h fs uks -> nth_error fs k = Some f -> nth_error uks k = Some uk ->
    abe_key_delegation None uk (del_key mk) draw = Ok uk' ->
    issued P mk (Refreshed k :: h) (f :: fs) (uk' :: uks).

(** The keys that fell into the hands of the attacker. *)
Fixpoint kept {A} (held : list bool) (l : list A) : list A :=
  match held, l with
  | b :: held, x :: l => if b then x :: kept held l else kept held l
  | _, _ => []
  end.

(** The strategy finds the message, whatever the draws, when keys were issued
    according to the history, the attacker holds those marked in [held] and a
    ciphertext for the attributes [gam]. *)
Definition always_finds {B : BilinearMap} (P : platform) (size : nat) (h : list event) (fs : list node) (held : list bool)
    (gam : list N) (a : strategy B) : Prop :=
  forall mdraw mk uks msg s ct,
    generate_master_key size mdraw = Ok mk -> issued P mk h fs uks ->
    encrypt P msg gam (pub_key mk) s = Ok ct ->
    attack mk (kept held uks) ct a = msg.
