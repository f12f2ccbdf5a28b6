(** The arguments of the C interface as a C program gives them: pointers to memory
    with announced lengths, and strings that end with a NUL,
    /repo/src/interfaces/ffi/hybrid_gpsw_aes.rs and generate_gpsw_keys.rs. Ffi.v starts
    from the bytes these arguments stand for. Model only, no proofs. *)
From Coq Require Import String NArith ZArith Bool Strings.Byte List.
From Verif Require Import Prelude Field Bilinear Msp Scheme Codec SchemeCodec Policy Engine Hybrid Ffi FfiErrors.
Import ListNotations.
Local Open Scope N_scope.

(** An input pointer and its announced length: [in_mem] is the memory of the program from the
    pointer to the end of the object it points into, [None] for a null pointer. *)
Record raw_in := mkIn { in_mem : option (list byte); in_len : Z }.

Definition undefined {A} : ffi A := fun _ => Undefined.

(** std::slice::from_raw_parts(ptr, len as usize), e.g. hybrid_gpsw_aes.rs:94-95:
    undefined when the slice is not inside the object *)
Definition from_raw_parts (P : platform) (mem : list byte) (len : Z) : ffi (list byte) :=
  if as_usize P len <=? blen mem then ret (firstn (N.to_nat (as_usize P len)) mem) else undefined.

(** CStr::from_ptr(ptr), e.g. hybrid_gpsw_aes.rs:80: undefined without a NUL *)
Definition c_string (mem : list byte) : ffi (list byte) :=
  match c_str mem with Some m => ret m | None => undefined end.

(** ffi_not_null!(ptr) then [if len == 0 { bail }], e.g. hybrid_gpsw_aes.rs:75-78 *)
Definition given (x : raw_in) (what : string) : ffi (list byte) :=
  let! mem := not_null (in_mem x) what in
  if (in_len x =? 0)%Z then bail (Generic what) else ret mem.

(** [if ptr.is_null() || len == 0 { none } else { slice }], hybrid_gpsw_aes.rs:182-200
    and 310-328 *)
Definition slice_or_none (P : platform) (x : raw_in) : ffi (option (list byte)) :=
  match in_mem x with
  | None => ret None
  | Some mem => if (in_len x =? 0)%Z then ret None else let! b := from_raw_parts P mem (in_len x) in ret (Some b)
  end.

(** [if !ptr.is_null() && len > 0 { slice } else { vec![] }], hybrid_gpsw_aes.rs:733-738
    and 805-810 *)
Definition slice_if_positive (P : platform) (x : raw_in) : ffi (list byte) :=
  match in_mem x with
  | None => ret []
  | Some mem => if (0 <? in_len x)%Z then from_raw_parts P mem (in_len x) else ret []
  end.

Section Raw.
Context {B : BilinearMap}.
Variable P : platform.
Variable F : byte_forms B.
Variable shake : list byte -> nat -> list byte.
Variable S : sym_scheme.
Variable policy_from : list byte -> outcome policy.
Variable attributes_from : list byte -> outcome (list attribute).
Variable access_from : list byte -> outcome access_policy.
Variable policy_text : policy -> list byte.

(** uid and additional data, hybrid_gpsw_aes.rs:181-205 and 309-333 *)
Definition raw_meta (u ad : raw_in) : ffi metadata :=
  let! u := slice_or_none P u in
  let! ad := slice_or_none P ad in
  ret (mkMeta (match u with Some b => b | None => [] end) ad).

(** h_aes_create_encryption_cache, hybrid_gpsw_aes.rs:68-110: the cache that is stored; the
    handle is written last, through a pointer that is not checked *)
Definition raw_create_encryption_cache (handle_null : bool) (pol : option (list byte)) (pk : raw_in)
    : ffi (policy * master_public_key B) :=
  let! polm := not_null pol "policy" in
  let! pkm := given pk "public key" in
  let! pol := c_string polm in
  let! p := unwrap (policy_from pol) in
  let! pkb := from_raw_parts P pkm (in_len pk) in
  let! k := unwrap (pub_dec F P pkb) in
  if handle_null then undefined else ret (p, k).

(** h_aes_create_decryption_cache, hybrid_gpsw_aes.rs:396-431 *)
Definition raw_create_decryption_cache (handle_null : bool) (uk : raw_in) : ffi (decryption_key B) :=
  let! ukm := given uk "user decryption key" in
  let! ukb := from_raw_parts P ukm (in_len uk) in
  let! k := unwrap (user_dec F P ukb) in
  if handle_null then undefined else ret k.

(** h_aes_encrypt_header_using_cache, hybrid_gpsw_aes.rs:129-237 *)
Definition raw_encrypt_header_using_cache (cache : Z -> option (policy * master_public_key B)) (handle : Z)
    (attrs : option (list byte)) (u ad : raw_in) (random : Gt B) (s : bm_K B) (nonce : list byte) : ffi unit :=
  let! _ := check_out 0 "symmetric key" in
  let! _ := check_out 1 "header bytes" in
  let! attrsm := not_null attrs "attributes" in
  match cache handle with
  | None => bail (Generic "no encryption cache with handle")
  | Some (p, pk) =>
      let! attrs := c_string attrsm in
      let! l := unwrap (attributes_from attrs) in
      let! meta := raw_meta u ad in
      let! h := unwrap (encrypt_hybrid_header S F shake P p pk l (Some meta) random s nonce) in
      deliver_header P h
  end.

(** h_aes_encrypt_header, hybrid_gpsw_aes.rs:245-366 *)
Definition raw_encrypt_header (pol : option (list byte)) (pk : raw_in) (attrs : option (list byte)) (u ad : raw_in)
    (random : Gt B) (s : bm_K B) (nonce : list byte) : ffi unit :=
  let! _ := check_out 0 "symmetric key" in
  let! _ := check_out 1 "header bytes" in
  let! polm := not_null pol "policy" in
  let! pkm := given pk "public key" in
  let! attrsm := not_null attrs "attributes" in
  let! pol := c_string polm in
  let! p := unwrap (policy_from pol) in
  let! pkb := from_raw_parts P pkm (in_len pk) in
  let! k := unwrap (pub_dec F P pkb) in
  let! attrs := c_string attrsm in
  let! l := unwrap (attributes_from attrs) in
  let! meta := raw_meta u ad in
  let! h := unwrap (encrypt_hybrid_header S F shake P p k l (Some meta) random s nonce) in
  deliver_header P h.

(** h_aes_decrypt_header_using_cache, hybrid_gpsw_aes.rs:453-551 *)
Definition raw_decrypt_header_using_cache (cache : Z -> option (decryption_key B)) (handle : Z) (header : raw_in) : ffi unit :=
  let! _ := check_out 0 "symmetric key" in
  let! headerm := given header "encrypted header" in
  let! headerb := from_raw_parts P headerm (in_len header) in
  match cache handle with
  | None => bail (Generic "no decryption cache with handle")
  | Some uk =>
      let! c := unwrap (decrypt_hybrid_header S F shake P uk headerb) in
      deliver_clear P c
  end.

(** h_aes_decrypt_header, hybrid_gpsw_aes.rs:585-686 *)
Definition raw_decrypt_header (header uk : raw_in) : ffi unit :=
  let! _ := check_out 0 "symmetric key" in
  let! headerm := given header "encrypted header" in
  let! ukm := given uk "user decryption key" in
  let! headerb := from_raw_parts P headerm (in_len header) in
  let! ukb := from_raw_parts P ukm (in_len uk) in
  let! k := unwrap (user_dec F P ukb) in
  let! c := unwrap (decrypt_hybrid_header S F shake P k headerb) in
  deliver_clear P c.

(** h_get_encrypted_header_size, hybrid_gpsw_aes.rs:555-573 *)
Definition raw_get_encrypted_header_size (encrypted : raw_in) : ffi Z :=
  let! m := given encrypted "encrypted bytes" in
  let! b := from_raw_parts P m (in_len encrypted) in
  let! b4 := unwrap (slice b 0 4) in
  ret (u32_to_i32 (from_be b4)).

(** h_aes_symmetric_encryption_overhead, hybrid_gpsw_aes.rs:692-697, and
    symmetric_encryption_overhead, hybrid_crypto/statics.rs:207-215 *)
Definition h_aes_symmetric_encryption_overhead : Z := as_c_int (overhead S).

(** h_aes_encrypt_block, hybrid_gpsw_aes.rs:702-769 *)
Definition raw_encrypt_block (key u : raw_in) (number : Z) (data : raw_in) (nonce : list byte) : ffi unit :=
  let! _ := check_out 0 "encrypted bytes" in
  let! keym := given key "symmetric key" in
  let! keyb := from_raw_parts P keym (in_len key) in
  let! ub := slice_if_positive P u in
  let! datam := given data "data" in
  let! datab := from_raw_parts P datam (in_len data) in
  let! k := unwrap (array_from (key_length S) keyb) in
  let! c := unwrap (encrypt_hybrid_block S max_clear_text k ub (as_usize P number) nonce datab) in
  deliver_late P 0 c.

(** h_aes_decrypt_block, hybrid_gpsw_aes.rs:774-845 *)
Definition raw_decrypt_block (key u : raw_in) (number : Z) (data : raw_in) : ffi unit :=
  let! _ := check_out 0 "clear text bytes" in
  let! keym := given key "symmetric key" in
  let! keyb := from_raw_parts P keym (in_len key) in
  let! ub := slice_if_positive P u in
  let! datam := given data "data" in
  let! datab := from_raw_parts P datam (in_len data) in
  let! k := unwrap (array_from (key_length S) keyb) in
  let! m := unwrap (decrypt_hybrid_block S max_clear_text k ub (as_usize P number) datab) in
  deliver_late P 0 m.

(** h_generate_master_keys, generate_gpsw_keys.rs:25-87 *)
Definition raw_generate_master_keys (pol : option (list byte)) (draw : nat -> bm_K B) : ffi unit :=
  let! _ := check_out 0 "master keys" in
  let! polm := not_null pol "policy" in
  let! pol := c_string polm in
  let! p := unwrap (policy_from pol) in
  let! mk := unwrap (eng_master_key p draw) in
  let! priv := unwrap (priv_enc F (priv_key mk)) in
  let! pub := unwrap (pub_enc F (pub_key mk)) in
  deliver P 0 (master_keys_bytes priv pub).

(** h_generate_user_private_key, generate_gpsw_keys.rs:100-194 *)
Definition raw_generate_user_private_key (it : iteration) (priv : raw_in) (access pol : option (list byte))
    (draw : nat -> bm_K B) : ffi unit :=
  let! _ := check_out 0 "user private key" in
  let! privm := given priv "master private key" in
  let! accessm := not_null access "access policy" in
  let! polm := not_null pol "policy" in
  let! privb := from_raw_parts P privm (in_len priv) in
  let! k := unwrap (priv_dec F P privb) in
  let! access := c_string accessm in
  let! ap := unwrap (access_from access) in
  let! pol := c_string polm in
  let! p := unwrap (policy_from pol) in
  let! uk := unwrap (eng_user_key P it p k ap draw) in
  let! b := unwrap (user_enc F P uk) in
  deliver P 0 b.

(** h_rotate_attributes, generate_gpsw_keys.rs:204-273 *)
Definition raw_rotate_attributes (attrs pol : option (list byte)) : ffi unit :=
  let! _ := check_out 0 "new policy" in
  let! attrsm := not_null attrs "attributes" in
  let! polm := not_null pol "policy" in
  let! attrs := c_string attrsm in
  let! l := unwrap (attributes_from attrs) in
  let! pol := c_string polm in
  let! p := unwrap (policy_from pol) in
  let! p := unwrap (rotate_all p l) in
  deliver P 0 (policy_text p).
End Raw.
