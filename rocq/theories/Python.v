(** The Python interface, /repo/src/interfaces/pyo3. Model only, no proofs.

    A Python exception is an [Err]; all of them are PyTypeError, so the payload only
    remembers where it comes from. A panic (PanicException in Python) is a [Panic].
    JSON decoding and encoding, and the parser of access policies, belong to external
    crates: they are parameters. The random values are arguments. *)
From Coq Require Import String NArith ZArith Bool Strings.Byte List.
From Verif Require Import Prelude Field Bilinear Msp Scheme Codec SchemeCodec Policy Engine Hybrid.
Import ListNotations.
Local Open Scope N_scope.

(** abe_policy::PolicyAxis: name, attributes, hierarchical *)
Definition policy_axis := (string * list string * bool)%type.

Section Python.
Context {B : BilinearMap}.
Variable P : platform.
Variable F : byte_forms B.
Variable shake : list byte -> nat -> list byte.
Variable S : sym_scheme.
(** serde_json::from_slice *)
Variable policy_from : list byte -> outcome policy.
Variable attributes_from : list byte -> outcome (list attribute).
Variable axes_from : list byte -> outcome (list policy_axis).
Variable metadata_from : list byte -> outcome metadata.
(** serde_json::to_vec *)
Variable policy_json : policy -> outcome (list byte).
(** AccessPolicy::from_boolean_expression *)
Variable access_parse : string -> outcome access_policy.

(** generate_master_keys, generate_gpsw_keys.rs:22-37 *)
Definition py_generate_master_keys (pol : list byte) (draw : nat -> bm_K B) : outcome (list byte * list byte * list byte) :=
  let* p := policy_from pol in
  let* mk := eng_master_key p draw in
  let* priv := priv_enc F (priv_key mk) in
  let* pub := pub_enc F (pub_key mk) in
  let* del := del_enc F (del_key mk) in
  Ok (priv, pub, del).

(** generate_user_private_key, generate_gpsw_keys.rs:44-63 *)
Definition py_generate_user_private_key (it : iteration) (priv : list byte) (access : string) (pol : list byte) (draw : nat -> bm_K B)
    : outcome (list byte) :=
  let* priv := priv_dec F P priv in
  let* p := policy_from pol in
  let* ap := access_parse access in
  let* uk := eng_user_key P it p priv ap draw in
  user_enc F P uk.

(** generate_delegated_key, generate_gpsw_keys.rs:82-105 *)
Definition py_generate_delegated_key (it : iteration) (del uk : list byte) (access : string) (pol : list byte) (draw : nat -> bm_K B)
    : outcome (list byte) :=
  let* del := del_dec F P del in
  let* uk := user_dec F P uk in
  let* ap := access_parse access in
  let* p := policy_from pol in
  let* uk' := eng_delegate P it p del uk ap draw in
  user_enc F P uk'.

(** the loop of generate_policy, generate_gpsw_keys.rs:119-129 *)
Fixpoint add_axes (p : policy) (l : list policy_axis) : outcome policy :=
  match l with
  | [] => Ok p
  | (name, attrs, hierarchical) :: t => let* p := add_axis p name attrs hierarchical in add_axes p t
  end.

(** generate_policy, generate_gpsw_keys.rs:113-135; [max as u32] truncates *)
Definition py_generate_policy (axes : list byte) (max : N) : outcome (list byte) :=
  let* l := axes_from axes in
  let* p := add_axes (new_policy (max mod u32_modulus)) l in
  policy_json p.

(** the loop of rotate_attributes, generate_gpsw_keys.rs:146-150 *)
Fixpoint rotate_each (p : policy) (l : list attribute) : outcome policy :=
  match l with
  | [] => Ok p
  | a :: t => let* p := rotate p a in rotate_each p t
  end.

(** rotate_attributes, generate_gpsw_keys.rs:141-154 *)
Definition py_rotate_attributes (attrs pol : list byte) : outcome (list byte) :=
  let* l := attributes_from attrs in
  let* p := policy_from pol in
  let* p := rotate_each p l in
  policy_json p.

(** get_encrypted_header_size, hybrid_gpsw_aes.rs:48-60 *)
Definition py_get_encrypted_header_size (encrypted : list byte) : outcome N :=
  if blen encrypted <? 4 then Err (InvalidSize "Encrypted value must be at least 4-bytes long")
  else Ok (from_be (firstn 4 encrypted)).

(** encrypt_hybrid_header, hybrid_gpsw_aes.rs:74-105: the symmetric key and the header *)
Definition py_encrypt_hybrid_header (meta pol attrs pk : list byte) (random : Gt B) (s : bm_K B) (nonce : list byte)
    : outcome (list byte * list byte) :=
  let* m := metadata_from meta in
  let* p := policy_from pol in
  let* l := attributes_from attrs in
  let* pk := pub_dec F P pk in
  let* h := encrypt_hybrid_header S F shake P p pk l (Some m) random s nonce in
  Ok (eh_key h, eh_bytes h).

(** internal_decrypt_hybrid_header and decrypt_hybrid_header, hybrid_gpsw_aes.rs:112-146 *)
Definition py_decrypt_hybrid_header (uk header : list byte) : outcome (list byte * list byte) :=
  let* uk := user_dec F P uk in
  let* c := decrypt_hybrid_header S F shake P uk header in
  let* m := meta_to_bytes S (ch_meta c) in
  Ok (ch_key c, m).

(** MAX_CLEAR_TEXT_SIZE, hybrid_gpsw_aes.rs:31 *)
Definition py_max_clear_text : N := 1073741824.

(** encrypt_hybrid_block, hybrid_gpsw_aes.rs:153-175 *)
Definition py_encrypt_hybrid_block (key u : list byte) (number : N) (plaintext nonce : list byte) : outcome (list byte) :=
  let* key := array_from (key_length S) key in
  encrypt_hybrid_block S py_max_clear_text key u number nonce plaintext.

(** internal_decrypt_hybrid_block and decrypt_hybrid_block, hybrid_gpsw_aes.rs:177-217 *)
Definition py_decrypt_hybrid_block (key u : list byte) (number : N) (encrypted : list byte) : outcome (list byte) :=
  let* key := array_from (key_length S) key in
  decrypt_hybrid_block S py_max_clear_text key u number encrypted.

(** encrypt, hybrid_gpsw_aes.rs:222-247; [len as u32] truncates; [nonce'] is the nonce
    of the block *)
Definition py_encrypt (meta pol attrs pk plaintext : list byte) (random : Gt B) (s : bm_K B) (nonce nonce' : list byte)
    : outcome (list byte) :=
  let* m := metadata_from meta in
  let* (key, header) := py_encrypt_hybrid_header meta pol attrs pk random s nonce in
  let* ciphertext := py_encrypt_hybrid_block key (uid m) 0 plaintext nonce' in
  Ok (be32 (blen header mod u32_modulus) ++ header ++ ciphertext).

(** decrypt, hybrid_gpsw_aes.rs:251-262; [u32 as usize] is the identity *)
Definition py_decrypt (uk encrypted : list byte) : outcome (list byte) :=
  let* size := py_get_encrypted_header_size encrypted in
  let* stop := usize_add P 4 size in
  let* header := (if (4 <=? stop) && (stop <=? blen encrypted)
                  then Ok (firstn (N.to_nat (stop - 4)) (skipn 4 encrypted)) else Panic SliceOutOfRange) in
  let* ciphertext := slice_fromN encrypted stop in
  let* (key, meta) := py_decrypt_hybrid_header uk header in
  let* m := meta_from_bytes S meta in
  py_decrypt_hybrid_block key (uid m) 0 ciphertext.
End Python.
