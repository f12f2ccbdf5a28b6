(** The scheme, /repo/src/core/gpsw/scheme.rs (without the encodings, which are
    in SchemeCodec.v). Model only, no proofs.

    Random draws are arguments: [draw i] is the i-th scalar produced by the
    generator during the call. [gen_rand_scalar_inner] of the only instance
    cannot fail (/repo/src/core/bilinear_map/bls12_381.rs), so drawing is total. *)
From Coq Require Import String NArith ZArith Bool Strings.Byte List.
From Verif Require Import Prelude Field Bilinear Msp Gauss.
Import ListNotations.

(** [l[a as usize]] for a u32 [a] *)
Definition indexN {A} (l : list A) (a : N) : outcome A :=
  if N.ltb a (N.of_nat (length l)) then index l (N.to_nat a) else Panic IndexOutOfBounds.

(** iter().enumerate() *)
Definition enumerate {A} (l : list A) : list (nat * A) := combine (seq 0 (length l)) l.

Section Scheme.
Variable B : BilinearMap.
Local Notation K := (bm_K B).

(** scheme.rs:14-18 *)
Record master_private_key := mkPriv { priv_t : list K; priv_y : K }.
(** scheme.rs:20-24 *)
Record master_public_key := mkPub { pub_t : list (G2 B); pub_y : Gt B }.
(** scheme.rs:26-30 *)
Record delegation_key := mkDel { inv_t : list (G3 B) }.
(** scheme.rs:32-36 *)
Record master_key := mkMaster {
  priv_key : master_private_key; pub_key : master_public_key; del_key : delegation_key }.
(** scheme.rs:38-45 *)
Record decryption_key := mkDec { raw_d : list (G3 B); d_i : list (G1 B); dk_msp : msp K }.
(** scheme.rs:88-92 *)
Record ciphertext := mkCt { gamma : list N; e_prime : Gt B; e_i : list (G2 B) }.

(** [gen_random_scalar_vector], /repo/src/core/bilinear_map/mod.rs:100-105:
    draws [from .. from+size-1]. *)
Definition draws (draw : nat -> K) (from size : nat) : list K := map draw (seq from size).

(** [generate_master_key], scheme.rs:333-354. First the t_i, then y. *)
Definition generate_master_key (size : nat) (draw : nat -> K) : outcome master_key :=
  let t_i := draws draw 0 size in
  let y := draw size in
  let big_y := gt_gen_exp B y in
  let big_ti := map (g2_gen_exp B) t_i in
  let* inv := mapM (fun ti => sdiv f1 ti) t_i in
  let inv_big_ti := map (g3_gen_exp B) inv in
  Ok (mkMaster (mkPriv t_i y) (mkPub big_ti big_y) (mkDel inv_big_ti)).

(** [prod_scal], scheme.rs:555-561. [conv] is the [Into<Scalar>] conversion:
    [of_i32] or the identity. *)
Definition prod_scal {I} (conv : I -> K) (v1 : list I) (v2 : list K) : K :=
  match map (fun p => fmul (conv (fst p)) (snd p)) (combine v1 v2) with
  | [] => f0
  | x :: t => fold_left fadd t x
  end.

(** The vector u of key_generation / key_delegation / key_randomization,
    scheme.rs:361-371, 404-414, 446-456: a vector of [cols] scalars summing to
    [target]. The delegation code writes [vec![ZERO]] and [-u_l] instead of
    [y] and [y - u_l]. *)
Definition sharing_vector (cols : nat) (draw : nat -> K) (y : K) : outcome (list K) :=
  match cols with
  | O => Err (InternalOperation "empty MSP")
  | S O => Ok [y]
  | S (S _ as x) =>
      let u := draws draw 0 x in
      let u_l := fold_left fadd u f0 in
      Ok (u ++ [fsub y u_l])
  end.

Definition zero_sharing_vector (cols : nat) (draw : nat -> K) : outcome (list K) :=
  match cols with
  | O => Err (InternalOperation "empty MSP")
  | S O => Ok [f0]
  | S (S _ as x) =>
      let u := draws draw 0 x in
      let u_l := fold_left fadd u f0 in
      Ok (u ++ [fneg u_l])
  end.

(** [key_generation], scheme.rs:356-394. *)
Definition key_generation (m : msp Z) (priv : master_private_key) (draw : nat -> K)
    : outcome decryption_key :=
  let* u := sharing_vector (nb_col m) draw (priv_y priv) in
  let* big := mapM (fun p : nat * list Z =>
      let '(i, row) := p in
      let ps := prod_scal of_i32 row u in
      let* attribute := get_attr_from_row m i in
      if N.leb (N.of_nat (length (priv_t priv))) attribute
      then Err (InternalOperation
        "Monotone Span Program is invalid: msp-row larger than private-key-t_i")
      else
        let* t_rho_i := indexN (priv_t priv) attribute in
        let* x := sdiv ps t_rho_i in
        Ok (g1_gen_exp B x)) (enumerate (matrix m)) in
  Ok (mkDec (map snd big) (map fst big) (msp_map of_i32 m)).

(** Body shared by [key_delegation] (scheme.rs:415-437) and [key_randomization]
    (scheme.rs:457-480): the two loops are the same text, only the program [m]
    differs ([conv] converts its entries). *)
Definition rerandomised_shares {I} (conv : I -> K) (m : msp I) (u : list K)
    (uk : decryption_key) (del : delegation_key) : outcome (list (G1 B * G3 B)) :=
  mapM (fun p : nat * list I =>
      let '(i, row) := p in
      let ps := prod_scal conv row u in
      let* attribute := get_attr_from_row m i in
      let* gt_rho_i := indexN (inv_t del) attribute in
      let di := g3_exp B gt_rho_i ps in
      match get_row_from_attr (dk_msp uk) attribute with
      | Some ix =>
          let* raw := index (raw_d uk) ix in
          Ok (g3_mul B raw di)
      | None => Err (InternalOperation "new attribute is not allowed")
      end) (enumerate (matrix m)).

(** [key_delegation], scheme.rs:397-437. *)
Definition key_delegation (m : msp Z) (uk : decryption_key) (del : delegation_key)
    (draw : nat -> K) : outcome decryption_key :=
  let* u := zero_sharing_vector (nb_col m) draw in
  let* big := rerandomised_shares of_i32 m u uk del in
  Ok (mkDec (map snd big) (map fst big) (msp_map of_i32 m)).

(** [key_randomization], scheme.rs:440-480. *)
Definition key_randomization (uk : decryption_key) (del : delegation_key)
    (draw : nat -> K) : outcome decryption_key :=
  let m := dk_msp uk in
  let* u := zero_sharing_vector (nb_col m) draw in
  let* big := rerandomised_shares (fun x => x) m u uk del in
  Ok (mkDec (map snd big) (map fst big) m).

(** [AbeScheme::key_delegation], scheme.rs:284-294. *)
Definition abe_key_delegation (m : option (msp Z)) (uk : decryption_key) (del : delegation_key)
    (draw : nat -> K) : outcome decryption_key :=
  match m with
  | None => key_randomization uk del draw
  | Some m => key_delegation m uk del draw
  end.

(** [msg_encode], scheme.rs:482-484. *)
Definition msg_encode (msg : list byte) : outcome (Gt B) := msg_to_gt B msg.

(** [encrypt], scheme.rs:486-511. The error message computes
    [pub_key.t_i.len() - 1]. [s] is the drawn scalar. *)
Definition encrypt (P : platform) (msg : Gt B) (gam : list N) (pub : master_public_key) (s : K)
    : outcome ciphertext :=
  if Nat.leb (length (pub_t pub)) (length gam) then
    let* _ := usize_sub P (N.of_nat (length (pub_t pub))) 1 in
    Err (InternalOperation "invalid attributes: gamma value incorrect")
  else
    let ep := gt_mul B msg (gt_exp B (pub_y pub) s) in
    let* ei := mapM (fun i => let* t := indexN (pub_t pub) i in Ok (g2_exp B t s)) gam in
    Ok (mkCt gam ep ei).

(** Selection loop of [decrypt], scheme.rs:520-530. *)
Definition select_rows (ct : ciphertext) (key : decryption_key)
    : outcome (list (list K * G1 B * G2 B)) :=
  let* l := mapM (fun p : nat * N =>
      let '(i, attr) := p in
      match get_row_from_attr (dk_msp key) attr with
      | Some row =>
          let* r := get_row (dk_msp key) row in
          let* d := index (d_i key) row in
          let* e := index (e_i ct) i in
          Ok [(r, d, e)]
      | None => Ok []
      end) (enumerate (gamma ct)) in
  Ok (concat l).

(** [filter_map(|(i, x)| if a_i[i] == ZERO { None } else { Some(x) })],
    scheme.rs:535-544. *)
Definition keep_nonzero {A} (a : list K) (l : list A) : outcome (list A) :=
  let* ll := mapM (fun p : nat * A =>
      let '(i, x) := p in
      let* ai := index a i in
      Ok (if feqb ai f0 then [] else [x])) (enumerate l) in
  Ok (concat ll).

(** [decrypt], scheme.rs:513-552. *)
Definition decrypt (ct : ciphertext) (key : decryption_key) : outcome (option (Gt B)) :=
  let* sel := select_rows ct key in
  let* a := span_coefs (map (fun x => fst (fst x)) sel) in
  match a with
  | None => Ok None
  | Some a =>
      let* d := keep_nonzero a (map (fun x => snd (fst x)) sel) in
      let* e := keep_nonzero a (map snd sel) in
      let a' := filter (fun ai => negb (feqb ai f0)) a in
      Ok (Some (gt_div B (e_prime ct) (prod_gt_exp B d e a')))
  end.

(** [ciphertext_len], scheme.rs:321-329 (no overflow for sizes that fit in memory). *)
Definition ciphertext_len (nb_attr : nat) : nat :=
  let gamma_len := 4 + (nb_attr * 4) in
  let ei_len := 4 + (nb_attr * 48) in
  let e_prime_len := 288 in
  gamma_len + ei_len + e_prime_len.

End Scheme.

Arguments mkPriv {B}.
Arguments mkPub {B}.
Arguments mkDel {B}.
Arguments mkMaster {B}.
Arguments mkDec {B}.
Arguments mkCt {B}.
Arguments priv_t {B}.
Arguments priv_y {B}.
Arguments pub_t {B}.
Arguments pub_y {B}.
Arguments inv_t {B}.
Arguments priv_key {B}.
Arguments pub_key {B}.
Arguments del_key {B}.
Arguments raw_d {B}.
Arguments d_i {B}.
Arguments dk_msp {B}.
Arguments gamma {B}.
Arguments e_prime {B}.
Arguments e_i {B}.
Arguments generate_master_key {B}.
Arguments key_generation {B}.
Arguments key_delegation {B}.
Arguments key_randomization {B}.
Arguments abe_key_delegation {B}.
Arguments encrypt {B}.
Arguments decrypt {B}.
Arguments select_rows {B}.
Arguments keep_nonzero {B A}.
Arguments prod_scal {B I}.
Arguments sharing_vector {B}.
Arguments zero_sharing_vector {B}.
Arguments rerandomised_shares {B I}.
Arguments draws {B}.
