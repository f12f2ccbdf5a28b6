(** Hybrid encryption, /repo/src/interfaces/hybrid_crypto/statics.rs. Model only,
    no proofs. The random values are arguments. *)
From Coq Require Import String NArith ZArith Bool Strings.Byte List.
From Verif Require Import Prelude Field Bilinear Msp Scheme Codec SchemeCodec Policy Engine.
Import ListNotations.
Local Open Scope N_scope.

(** cosmian_crypto_base::symmetric_crypto::Metadata: its two fields, as used in
    /repo/src/interfaces/ffi/hybrid_gpsw_aes.rs:188-191. *)
Record metadata := mkMeta { uid : list byte; additional_data : option (list byte) }.

(** What the external crate cosmian_crypto_base provides: a symmetric scheme on
    byte strings (keys and nonces are arrays of fixed size), its blocks, and the
    byte form of metadata. [block_encrypt] and [block_decrypt] stand for
    Block::to_encrypted_bytes and Block::from_encrypted_bytes; the drawn nonce is
    an argument. *)
Record sym_scheme := mkSym {
  key_length : nat;
  nonce_length : nat;
  overhead : N;
  sym_encrypt : list byte -> list byte -> list byte -> option (list byte) -> outcome (list byte);
  sym_decrypt : list byte -> list byte -> list byte -> option (list byte) -> outcome (list byte);
  block_encrypt : list byte -> list byte -> N -> list byte -> list byte -> outcome (list byte);
  block_decrypt : list byte -> list byte -> N -> list byte -> outcome (list byte);
  meta_to_bytes : metadata -> outcome (list byte);
  meta_from_bytes : list byte -> outcome metadata
}.

(** Metadata::default() *)
Definition meta_default : metadata := mkMeta [] None.

(** S::Key::try_from_bytes and S::Nonce::try_from_bytes: the size must be exact *)
Definition array_from (size : nat) (b : list byte) : outcome (list byte) :=
  if Nat.eqb (length b) size then Ok b else Err CryptoError.

(** BytesScanner::read_u32, next and has_more of the external crate, on the bytes
    not yet read *)
Definition scan_next (n : N) (s : list byte) : outcome (list byte * list byte) :=
  if blen s <? n then Err CryptoError else Ok (firstn (N.to_nat n) s, skipn (N.to_nat n) s).
Definition scan_u32 (s : list byte) : outcome (N * list byte) :=
  let* (b, r) := scan_next 4 s in Ok (from_be b, r).
Definition has_more (s : list byte) : bool := match s with [] => false | _ => true end.

(** u32_len, statics.rs:290-298 *)
Definition u32_len (b : list byte) : outcome (list byte) :=
  if blen b <? u32_modulus then Ok (be32 (blen b)) else Err CryptoError.

(** statics.rs:17-23 and 53-59 *)
Record encrypted_header := mkEncHeader { eh_key : list byte; eh_bytes : list byte }.
Record clear_header := mkClearHeader { ch_key : list byte; ch_meta : metadata }.

Section Hybrid.
Variable S : sym_scheme.

(** EncryptedHeader::try_into_bytes, statics.rs:26-33 *)
Definition eh_enc (h : encrypted_header) : outcome (list byte) :=
  Ok (be32 (N.of_nat (key_length S)) ++ eh_key h ++ eh_bytes h).

(** the split common to the two try_from_bytes, statics.rs:36-43 and 72-79; [u32 as
    usize] is the identity, the addition is exact from 64 bits on *)
Definition split_header (P : platform) (header : list byte) : outcome (list byte * list byte) :=
  if blen header <? 4 then Err (InvalidHeaderSize (length header))
  else
    let len := from_be (firstn 4 header) in
    let* stop := usize_add P 4 len in
    let* key := (if (4 <=? stop) && (stop <=? blen header)
                 then Ok (firstn (N.to_nat (stop - 4)) (skipn 4 header)) else Panic SliceOutOfRange) in
    let* rest := slice_fromN header stop in
    Ok (key, rest).

(** EncryptedHeader::try_from_bytes, statics.rs:35-49 *)
Definition eh_dec (P : platform) (header : list byte) : outcome encrypted_header :=
  let* (key, rest) := split_header P header in
  let* key := array_from (key_length S) key in
  Ok (mkEncHeader key rest).

(** ClearTextHeader::try_into_bytes, statics.rs:62-69 *)
Definition ch_enc (h : clear_header) : outcome (list byte) :=
  let* m := meta_to_bytes S (ch_meta h) in
  Ok (be32 (N.of_nat (key_length S)) ++ ch_key h ++ m).

(** ClearTextHeader::try_from_bytes, statics.rs:71-85 *)
Definition ch_dec (P : platform) (header : list byte) : outcome clear_header :=
  let* (key, rest) := split_header P header in
  let* key := array_from (key_length S) key in
  let* m := meta_from_bytes S rest in
  Ok (mkClearHeader key m).

Context {B : BilinearMap}.
Variable F : byte_forms B.
Variable shake : list byte -> nat -> list byte.

(** encrypt_hybrid_header, statics.rs:94-135. [random], [s] and [nonce] are drawn. *)
Definition encrypt_hybrid_header (P : platform) (p : policy) (pk : master_public_key B) (l : list attribute)
    (meta : option metadata) (random : Gt B) (s : bm_K B) (nonce : list byte) : outcome encrypted_header :=
  let* (sk_bytes, encrypted_sk) := generate_symmetric_key P F shake p pk l (key_length S) random s in
  let* symmetric_key := array_from (key_length S) sk_bytes in
  let* size := u32_len encrypted_sk in
  let header := size ++ encrypted_sk in
  let* header :=
    match meta with
    | Some meta =>
        let* m := meta_to_bytes S meta in
        let* em := sym_encrypt S symmetric_key m nonce None in
        let* size := u32_len em in
        Ok (header ++ nonce ++ size ++ em)
    | None => Ok header
    end in
  Ok (mkEncHeader symmetric_key header).

(** decrypt_hybrid_header, statics.rs:139-205 *)
Definition decrypt_hybrid_header (P : platform) (uk : decryption_key B) (header : list byte) : outcome clear_header :=
  if blen header <? 4 then Err (InvalidHeaderSize (length header))
  else
    let* (size, r) := scan_u32 header in
    let* (encrypted_sk, r) := scan_next size r in
    let* sk_bytes := decrypt_symmetric_key P F shake uk encrypted_sk (key_length S) in
    let* symmetric_key := array_from (key_length S) sk_bytes in
    let* meta :=
      (if has_more r then
        let* (nonce, r) := scan_next (N.of_nat (nonce_length S)) r in
        let* nonce := array_from (nonce_length S) nonce in
        let* (size, r) := scan_u32 r in
        let* (em, r) := scan_next size r in
        let* m := sym_decrypt S symmetric_key em nonce None in
        meta_from_bytes S m
      else Ok meta_default) in
    Ok (mkClearHeader symmetric_key meta).

(** encrypt_hybrid_block, statics.rs:227-252; [max] is MAX_CLEAR_TEXT_SIZE *)
Definition encrypt_hybrid_block (max : N) (key u : list byte) (number : N) (nonce plaintext : list byte) : outcome (list byte) :=
  match plaintext with
  | [] => Err EmptyPlaintext
  | _ => if max <? blen plaintext then Err (InvalidSize "The data to encrypt is too large")
         else block_encrypt S key u number nonce plaintext
  end.

(** decrypt_hybrid_block, statics.rs:258-286; Block::MAX_ENCRYPTED_LENGTH is the
    maximum clear size plus the overhead *)
Definition decrypt_hybrid_block (max : N) (key u : list byte) (number : N) (ciphertext : list byte) : outcome (list byte) :=
  match ciphertext with
  | [] => Err EmptyCiphertext
  | _ => if max + overhead S <? blen ciphertext then Err (InvalidSize "The encrypted data to decrypt is too large")
         else block_decrypt S key u number ciphertext
  end.
End Hybrid.
