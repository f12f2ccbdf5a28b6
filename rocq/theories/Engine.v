(** The engine, /repo/src/core/engine.rs. Model only, no proofs. The random
    values are arguments. *)
From Coq Require Import String NArith ZArith Bool Strings.Byte List.
From Verif Require Import Prelude Field Bilinear Msp Scheme Codec SchemeCodec Policy.
Import ListNotations.

Section Engine.
Context {B : BilinearMap}.
Variable P : platform.

(** engine.rs:36-49 *)
Definition eng_master_key (p : policy) (draw : nat -> bm_K B) : outcome (master_key B) :=
  generate_master_key (N.to_nat (max_attribute_creations p)) draw.

(** engine.rs:53-61 *)
Definition eng_user_key (it : iteration) (p : policy) (priv : master_private_key B) (ap : access_policy) (draw : nat -> bm_K B)
    : outcome (decryption_key B) :=
  let* m := policy_to_msp it P p ap in
  key_generation m priv draw.

(** engine.rs:71-84 *)
Definition eng_delegate (it : iteration) (p : policy) (del : delegation_key B) (uk : decryption_key B) (ap : access_policy)
    (draw : nat -> bm_K B) : outcome (decryption_key B) :=
  let* m := match ap with
            | AAll => Ok None
            | _ => let* m := policy_to_msp it P p ap in Ok (Some m)
            end in
  abe_key_delegation m uk del draw.

(** engine.rs:93-102 *)
Definition eng_encrypt (p : policy) (pk : master_public_key B) (l : list attribute) (msg : Gt B) (s : bm_K B)
    : outcome (ciphertext B) :=
  let* vals := attributes_values p l in
  encrypt P msg vals pk s.

(** engine.rs:105-111 *)
Definition eng_decrypt (ct : ciphertext B) (uk : decryption_key B) : outcome (option (Gt B)) := decrypt ct uk.

Variable F : byte_forms B.
(** Shake256 of the external crate sha3: the first [len] bytes of the output. *)
Variable shake : list byte -> nat -> list byte.

(** engine.rs:116-134. [random] is the drawn element of the target group. *)
Definition generate_symmetric_key (p : policy) (pk : master_public_key B) (l : list attribute) (len : nat)
    (random : Gt B) (s : bm_K B) : outcome (list byte * list byte) :=
  let* ct := eng_encrypt p pk l random s in
  let* enc_sym_key := ct_enc F ct in
  let* r := enc (gt_codec F) random in
  Ok (shake r len, enc_sym_key).

(** engine.rs:137-155 *)
Definition decrypt_symmetric_key (uk : decryption_key B) (enc_sym_key : list byte) (len : nat) : outcome (list byte) :=
  let* ct := ct_dec F P enc_sym_key in
  let* random := eng_decrypt ct uk in
  match random with
  | None => Err InvalidEncryptedData
  | Some random => let* r := enc (gt_codec F) random in Ok (shake r len)
  end.
End Engine.
