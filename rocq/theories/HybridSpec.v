(** Assumptions on the external symmetric cryptography, and notions used to state
    the properties of hybrid encryption. *)
From Coq Require Import String NArith ZArith Bool Strings.Byte List.
From Verif Require Import Prelude Codec Hybrid.
Import ListNotations.
Local Open Scope N_scope.

(** The contract of cosmian_crypto_base: what was encrypted is decrypted with the
    same key, nonce and associated data, and blocks have a constant overhead.
    [metas] are the metadata that survive their own byte form. *)
Record sym_laws (S : sym_scheme) (metas : metadata -> Prop) : Prop := {
  law_key : N.of_nat (key_length S) < 4294967296;
  law_decrypt : forall k m n a c, length k = key_length S -> length n = nonce_length S ->
    sym_encrypt S k m n a = Ok c -> sym_decrypt S k c n a = Ok m;
  law_block : forall k u i n m c, length k = key_length S -> length n = nonce_length S ->
    block_encrypt S k u i n m = Ok c -> block_decrypt S k u i c = Ok m;
  law_overhead : forall k u i n m c, length k = key_length S -> length n = nonce_length S ->
    block_encrypt S k u i n m = Ok c -> blen c = blen m + overhead S;
  law_meta : forall m b, metas m -> meta_to_bytes S m = Ok b -> meta_from_bytes S b = Ok m
}.

(** the external functions return errors, they do not panic *)
Definition sym_total (S : sym_scheme) : Prop :=
  (forall k c n a p, sym_decrypt S k c n a <> Panic p) /\
  (forall b p, meta_from_bytes S b <> Panic p) /\
  (forall k u i c p, block_decrypt S k u i c <> Panic p).

