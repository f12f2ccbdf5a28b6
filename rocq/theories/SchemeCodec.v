(** Encodings of scalars, group elements, keys and ciphertexts:
    /repo/src/core/bilinear_map/bls12_381.rs:93-216 and
    /repo/src/core/gpsw/scheme.rs:47-232. Model only, no proofs. *)
From Coq Require Import String Ascii NArith ZArith Bool Strings.Byte List.
From Verif Require Import Prelude Field Msp Bilinear Scheme Codec.
Import ListNotations.
Local Open Scope N_scope.

(** What the curve library provides for a type: a fixed size byte form. The
    functions belong to the external crate cosmian_bls12_381. *)
Record compressed (A : Type) := mkCompressed {
  to_compressed : A -> list byte;
  from_compressed : list byte -> option A
}.
Arguments to_compressed {A}.
Arguments from_compressed {A}.
Arguments mkCompressed {A}.

(** The common shape of impl AsBytes for Scalar (bls12_381.rs:93-121),
    G1Affine (123-150), G2Affine (152-179) and Gt (181-216). *)
Definition fixed_codec {A} (size : N) (short bad : string) (mem : N) (x : compressed A) : codec A := mkCodec
  (fun a => Ok (to_compressed x a))
  (fun b => if blen b <? size then Err (InvalidSize short)
            else match from_compressed x (firstn (N.to_nat size) b) with
                 | Some a => Ok a
                 | None => Err (Deserialization bad)
                 end)
  (fun _ => size) mem.

(** The byte forms of the four encoded types of a bilinear map, and the sizes of
    the points in memory. *)
Record byte_forms (B : BilinearMap) := mkForms {
  scalar_form : compressed (bm_K B);
  g2_form : compressed (G2 B);   (* G1Affine in the instance *)
  g3_form : compressed (G3 B);   (* G2Affine in the instance *)
  gt_form : compressed (Gt B);
  g2_mem : N; g3_mem : N; gt_mem : N
}.

Section SchemeCodec.
Context {B : BilinearMap}.
Variable F : byte_forms B.
Variable P : platform.
Local Notation K := (bm_K B).

(** bls12_381.rs:93-121 *)
Definition scalar_codec : codec K := fixed_codec 32 "Invalid scalar element" "Failed deserializing scalar" 32 (scalar_form B F).
(** bls12_381.rs:123-150 *)
Definition g2_codec : codec (G2 B) := fixed_codec 48 "Invalid G1 element" "Error deserializing G1Affine" (g2_mem B F) (g2_form B F).
(** bls12_381.rs:152-179 *)
Definition g3_codec : codec (G3 B) := fixed_codec 96 "Invalid G2 element" "Error deserializing G2Affine" (g3_mem B F) (g3_form B F).
(** bls12_381.rs:181-216 *)
Definition gt_codec : codec (Gt B) := fixed_codec 288 "Invalid Gt element" "Error deserializing Gt" (gt_mem B F) (gt_form B F).

(** GpswMasterPrivateKey, scheme.rs:101-124 *)
Definition priv_enc (k : master_private_key B) : outcome (list byte) :=
  let* t := vec_enc scalar_codec (priv_t k) in
  let* y := enc scalar_codec (priv_y k) in
  Ok (t ++ y).
Definition priv_dec (bytes : list byte) : outcome (master_private_key B) :=
  let* t := vec_dec P scalar_codec bytes in
  let* r := slice_fromN bytes (vec_len scalar_codec t) in
  let* y := dec scalar_codec r in
  Ok (mkPriv t y).
Definition priv_len (k : master_private_key B) : N := vec_len scalar_codec (priv_t k) + clen scalar_codec (priv_y k).

(** GpswMasterPublicKey, scheme.rs:126-149 *)
Definition pub_enc (k : master_public_key B) : outcome (list byte) :=
  let* t := vec_enc g2_codec (pub_t k) in
  let* y := enc gt_codec (pub_y k) in
  Ok (t ++ y).
Definition pub_dec (bytes : list byte) : outcome (master_public_key B) :=
  let* t := vec_dec P g2_codec bytes in
  let* r := slice_fromN bytes (vec_len g2_codec t) in
  let* y := dec gt_codec r in
  Ok (mkPub t y).
Definition pub_len (k : master_public_key B) : N := vec_len g2_codec (pub_t k) + clen gt_codec (pub_y k).

(** GpswMasterPublicDelegationKey, scheme.rs:151-170 *)
Definition del_enc (k : delegation_key B) : outcome (list byte) := vec_enc g3_codec (inv_t k).
Definition del_dec (bytes : list byte) : outcome (delegation_key B) :=
  let* t := vec_dec P g3_codec bytes in Ok (mkDel t).
Definition del_len (k : delegation_key B) : N := vec_len g3_codec (inv_t k).

(** GpswDecryptionKey, scheme.rs:172-199 *)
Definition user_enc (k : decryption_key B) : outcome (list byte) :=
  let* d := vec_enc g3_codec (raw_d k) in
  let* m := msp_enc P scalar_codec (dk_msp k) in
  Ok (d ++ m).
Definition user_dec (bytes : list byte) : outcome (decryption_key B) :=
  match bytes with
  | [] => Err EmptyPrivateKey
  | _ =>
      let* d := vec_dec P g3_codec bytes in
      let* r := slice_fromN bytes (vec_len g3_codec d) in
      let* m := msp_dec P scalar_codec r in
      Ok (mkDec d (map (g3_to_g1 B) d) m)
  end.
Definition user_len (k : decryption_key B) : outcome N :=
  let* m := msp_len scalar_codec (dk_msp k) in
  Ok (vec_len g3_codec (raw_d k) + m).

(** GpswCipherText, scheme.rs:201-232: gamma, e_i, e_prime in this order *)
Definition ct_enc (c : ciphertext B) : outcome (list byte) :=
  let* g := vec_enc u32_codec (gamma c) in
  let* ep := enc gt_codec (e_prime c) in
  let* ei := vec_enc g2_codec (e_i c) in
  Ok (g ++ ei ++ ep).
Definition ct_dec (bytes : list byte) : outcome (ciphertext B) :=
  let* g := vec_dec P u32_codec bytes in
  let gl := vec_len u32_codec g in
  let* r := slice_fromN bytes gl in
  let* ei := vec_dec P g2_codec r in
  let* r2 := slice_fromN bytes (gl + vec_len g2_codec ei) in
  let* ep := dec gt_codec r2 in
  Ok (mkCt g ep ei).
Definition ct_len (c : ciphertext B) : N :=
  vec_len u32_codec (gamma c) + vec_len g2_codec (e_i c) + clen gt_codec (e_prime c).
End SchemeCodec.

(** hex::encode of the external crate: two lower case digits per byte. *)
Definition hex_digit (n : N) : ascii :=
  if n <? 10 then ascii_of_N (48 + n) else ascii_of_N (87 + n).
Fixpoint hex_encode (b : list byte) : string :=
  match b with
  | [] => String.EmptyString
  | x :: t => String (hex_digit (Byte.to_N x / 16)) (String (hex_digit (Byte.to_N x mod 16)) (hex_encode t))
  end.

(** impl Display of the four keys, scheme.rs:47-85 *)
Definition display (bytes : outcome (list byte)) : outcome string :=
  match bytes with
  | Ok b => Ok (hex_encode b)
  | Err _ => Ok "Invalid input"%string
  | Panic p => Panic p
  end.
