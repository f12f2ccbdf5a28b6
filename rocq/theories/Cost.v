(** The operations on group elements made by the scheme: the functions of Scheme.v
    and Engine.v with a list of the operations in the order in which they are made.
    Model only; that they return what those functions return is C138_result. *)
From Coq Require Import String NArith ZArith Bool List.
From Verif Require Import Prelude Field LinAlg Gauss Msp Bilinear Scheme Policy Engine.
Import ListNotations.

(** The methods of the trait BilinearMap that compute with group elements,
    src/core/bilinear_map/mod.rs:61-91, and what prod_gt_exp of the implementation does,
    bls12_381.rs:320-330: one multiplication by a scalar and one Miller loop for each
    term, one final exponentiation. *)
Inductive group_op :=
| GtGenExp | G2GenExp | G3GenExp   (* powers of generators *)
| G1GenExp                         (* the same, and the preparation of the result *)
| G3Exp | G3Mul                    (* G3Mul prepares its result too *)
| G2Exp | GtExp | GtMul | GtDiv
| Miller | FinalExp.

Definition counted (A : Type) : Type := (outcome A * list group_op)%type.
Definition plain {A} (x : outcome A) : counted A := (x, []).
Definition did (l : list group_op) : counted unit := (Ok tt, l).
Definition cbind {A B} (m : counted A) (k : A -> counted B) : counted B :=
  match fst m with
  | Ok a => let r := k a in (fst r, snd m ++ snd r)
  | Err e => (Err e, snd m)
  | Panic p => (Panic p, snd m)
  end.
Notation "'let%' x ':=' m 'in' k" := (cbind m (fun x => k))
  (at level 200, x pattern, m at level 100, k at level 200, right associativity) : outcome_scope.
Fixpoint cmapM {A B} (f : A -> counted B) (l : list A) : counted (list B) :=
  match l with
  | [] => plain (Ok [])
  | x :: t => let% y := f x in let% ys := cmapM f t in plain (Ok (y :: ys))
  end.

Section Cost.
Context {B : BilinearMap}.
Local Notation K := (bm_K B).

(** generate_master_key, scheme.rs:333-354 *)
Definition master_ops (size : nat) (draw : nat -> K) : counted (master_key B) :=
  let t_i := draws draw 0 size in
  let y := draw size in
  let% _ := did [GtGenExp] in
  let% _ := did (map (fun _ => G2GenExp) t_i) in
  let% inv := plain (mapM (fun ti => sdiv f1 ti) t_i) in
  let% _ := did (map (fun _ => G3GenExp) inv) in
  plain (Ok (mkMaster (mkPriv t_i y) (mkPub (map (g2_gen_exp B) t_i) (gt_gen_exp B y)) (mkDel (map (g3_gen_exp B) inv)))).

(** key_generation, scheme.rs:356-394 *)
Definition generation_ops (m : msp Z) (priv : master_private_key B) (draw : nat -> K) : counted (decryption_key B) :=
  let% u := plain (sharing_vector (nb_col m) draw (priv_y priv)) in
  let% big := cmapM (fun p : nat * list Z =>
      let '(i, row) := p in
      let ps := prod_scal of_i32 row u in
      let% attribute := plain (get_attr_from_row m i) in
      if N.leb (N.of_nat (length (priv_t priv))) attribute
      then plain (Err (InternalOperation
        "Monotone Span Program is invalid: msp-row larger than private-key-t_i"))
      else
        let% t_rho_i := plain (indexN (priv_t priv) attribute) in
        let% x := plain (sdiv ps t_rho_i) in
        let% _ := did [G1GenExp] in
        plain (Ok (g1_gen_exp B x))) (enumerate (matrix m)) in
  plain (Ok (mkDec (map snd big) (map fst big) (msp_map of_i32 m))).

(** the loop of key_delegation and key_randomization, scheme.rs:415-437 and 457-480: the
    power is computed before the attribute is looked up in the key *)
Definition shares_ops {I} (conv : I -> K) (m : msp I) (u : list K)
    (uk : decryption_key B) (del : delegation_key B) : counted (list (G1 B * G3 B)) :=
  cmapM (fun p : nat * list I =>
      let '(i, row) := p in
      let ps := prod_scal conv row u in
      let% attribute := plain (get_attr_from_row m i) in
      let% gt_rho_i := plain (indexN (inv_t del) attribute) in
      let% _ := did [G3Exp] in
      let di := g3_exp B gt_rho_i ps in
      match get_row_from_attr (dk_msp uk) attribute with
      | Some ix =>
          let% raw := plain (index (raw_d uk) ix) in
          let% _ := did [G3Mul] in
          plain (Ok (g3_mul B raw di))
      | None => plain (Err (InternalOperation "new attribute is not allowed"))
      end) (enumerate (matrix m)).
(** key_delegation and key_randomization, scheme.rs:284-294, 397-480 *)
Definition delegation_ops (m : option (msp Z)) (uk : decryption_key B) (del : delegation_key B) (draw : nat -> K)
    : counted (decryption_key B) :=
  match m with
  | Some m =>
      let% u := plain (zero_sharing_vector (nb_col m) draw) in
      let% big := shares_ops of_i32 m u uk del in
      plain (Ok (mkDec (map snd big) (map fst big) (msp_map of_i32 m)))
  | None =>
      let m := dk_msp uk in
      let% u := plain (zero_sharing_vector (nb_col m) draw) in
      let% big := shares_ops (fun x => x) m u uk del in
      plain (Ok (mkDec (map snd big) (map fst big) m))
  end.

(** encrypt, scheme.rs:486-511 *)
Definition encryption_ops (P : platform) (msg : Gt B) (gam : list N) (pub : master_public_key B) (s : K) : counted (ciphertext B) :=
  if Nat.leb (length (pub_t pub)) (length gam) then
    let% _ := plain (usize_sub P (N.of_nat (length (pub_t pub))) 1) in
    plain (Err (InternalOperation "invalid attributes: gamma value incorrect"))
  else
    let% _ := did [GtExp; GtMul] in
    let ep := gt_mul B msg (gt_exp B (pub_y pub) s) in
    let% ei := cmapM (fun i =>
      let% t := plain (indexN (pub_t pub) i) in
      let% _ := did [G2Exp] in
      plain (Ok (g2_exp B t s))) gam in
    plain (Ok (mkCt gam ep ei)).

(** prod_gt_exp, bls12_381.rs:320-330; zip stops at the shorter sequence *)
Definition product_ops (d : list (G1 B)) (e : list (G2 B)) (a : list K) : counted (Gt B) :=
  let% _ := did (map (fun _ => G2Exp) (combine e a)) in
  let% _ := did (map (fun _ => Miller) (combine (combine e a) d)) in
  let% _ := did [FinalExp] in
  plain (Ok (prod_gt_exp B d e a)).
(** decrypt, scheme.rs:513-552 *)
Definition decryption_ops (ct : ciphertext B) (key : decryption_key B) : counted (option (Gt B)) :=
  let% sel := plain (select_rows ct key) in
  let% a := plain (span_coefs (map (fun x => fst (fst x)) sel)) in
  match a with
  | None => plain (Ok None)
  | Some a =>
      let% d := plain (keep_nonzero a (map (fun x => snd (fst x)) sel)) in
      let% e := plain (keep_nonzero a (map snd sel)) in
      let a' := filter (fun ai => negb (feqb ai f0)) a in
      let% prod := product_ops d e a' in
      let% _ := did [GtDiv] in
      plain (Ok (Some (gt_div B (e_prime ct) prod)))
  end.

(** engine.rs:40-111, see Engine.v *)
Definition eng_master_ops (p : policy) (draw : nat -> K) : counted (master_key B) :=
  master_ops (N.to_nat (max_attribute_creations p)) draw.
Definition eng_user_ops (P : platform) (it : iteration) (p : policy) (priv : master_private_key B) (ap : access_policy) (draw : nat -> K)
    : counted (decryption_key B) :=
  let% m := plain (policy_to_msp it P p ap) in
  generation_ops m priv draw.
Definition eng_delegate_ops (P : platform) (it : iteration) (p : policy) (del : delegation_key B) (uk : decryption_key B) (ap : access_policy)
    (draw : nat -> K) : counted (decryption_key B) :=
  let% m := plain (match ap with
            | AAll => Ok None
            | _ => let* m := policy_to_msp it P p ap in Ok (Some m)
            end) in
  delegation_ops m uk del draw.
Definition eng_encrypt_ops (P : platform) (p : policy) (pk : master_public_key B) (l : list attribute) (msg : Gt B) (s : K)
    : counted (ciphertext B) :=
  let% vals := plain (attributes_values p l) in
  encryption_ops P msg vals pk s.
Definition eng_decrypt_ops (ct : ciphertext B) (uk : decryption_key B) : counted (option (Gt B)) := decryption_ops ct uk.
End Cost.
