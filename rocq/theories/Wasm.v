(** The WebAssembly interface, /repo/src/interfaces/wasm_bindgen. Model only, no
    proofs.

    A JavaScript exception is an [Err]; its text is not modelled, the payload only
    remembers where it comes from. JSON decoding, the parser of access policies, the
    parser of attribute lists and the text of a policy belong to external crates: they
    are parameters. The random values are arguments. A Uint8Array is a byte list.

    A panic traps: on this target panics do not unwind, so destructors do not run and
    a lock held by the function stays held. The module keeps its state after a trap
    and JavaScript may call it again. *)
From Coq Require Import String NArith ZArith Bool Strings.Byte List.
From Verif Require Import Prelude Field Bilinear Msp Scheme Codec SchemeCodec Policy Engine Hybrid FfiCache Python.
Import ListNotations.
Local Open Scope N_scope.

Definition is_empty (b : list byte) : bool := match b with [] => true | _ => false end.

(** ** The caches *)
(** The statics of hybrid_gpsw_aes_encryption.rs:87-92, and
    hybrid_gpsw_aes_decryption.rs:100-105: the counter, the map, and the mode of its
    RwLock, which in the standard library for targets without threads is a plain
    integer: the number of readers, or -1 for a writer. *)
Record wcache (V : Type) := mkWcache { w_next : Z; w_map : Z -> option V; w_mode : Z }.
Arguments mkWcache {V} _ _ _.
Arguments w_next {V} _.
Arguments w_map {V} _ _.
Arguments w_mode {V} _.
Definition empty_cache {V} : wcache V := mkWcache 0%Z (fun _ => None) 0%Z.

Section Cache.
Context {V : Type}.
(** RwLock::write when the lock is not free aborts; whether it marks the lock as
    written before it does so is an implementation detail, left open. *)
Variable sticky : bool.

(** the end of create, encryption 128-135 and decryption 130-139, once the arguments
    are parsed; the guard is dropped when the function returns *)
Definition cache_create (v : outcome V) (c : wcache V) : outcome Z * wcache V :=
  match v with
  | Ok v => let id := w_next c in
            if Z.eqb (w_mode c) 0 then (Ok id, mkWcache (add_i32 id) (set_map (w_map c) id (Some v)) 0%Z)
            else (Panic ExplicitPanic, mkWcache (add_i32 id) (w_map c) (if sticky then -1 else w_mode c)%Z)
  | Err e => (Err e, c)
  | Panic p => (Panic p, c)
  end.

(** destroy, encryption 138-144 and decryption 142-148 *)
Definition cache_destroy (h : Z) (c : wcache V) : outcome unit * wcache V :=
  if Z.eqb (w_mode c) 0 then (Ok tt, mkWcache (w_next c) (set_map (w_map c) h None) 0%Z)
  else (Panic ExplicitPanic, mkWcache (w_next c) (w_map c) (if sticky then -1 else w_mode c)%Z).

(** the functions using a cache, encryption 148-180 and decryption 152-177: the read
    lock is taken, the handle looked up, and [f] is the rest of the function. After a
    panic the lock is still counted as read. *)
Definition cache_use {A} (h : Z) (f : V -> outcome A) (c : wcache V) : outcome A * wcache V :=
  if (w_mode c <? 0)%Z then (Panic ExplicitPanic, c)
  else
    let trapped := mkWcache (w_next c) (w_map c) (w_mode c + 1)%Z in
    match w_map c h with
    | None => (Panic UnwrapNone, trapped)
    | Some v => match f v with
                | Panic p => (Panic p, trapped)
                | r => (r, c)
                end
    end.
End Cache.

Section Wasm.
Context {B : BilinearMap}.
Variable P : platform.
Variable F : byte_forms B.
Variable shake : list byte -> nat -> list byte.
Variable S : sym_scheme.
(** serde_json::from_slice *)
Variable policy_from : list byte -> outcome policy.
Variable attributes_from : list byte -> outcome (list attribute).
(** Policy::to_string *)
Variable policy_text : policy -> outcome string.
(** AccessPolicy::from_boolean_expression *)
Variable access_parse : string -> outcome access_policy.
(** Attributes::try_from(&str) *)
Variable attributes_parse : string -> outcome (list attribute).

(** webassembly_generate_master_keys, generate_gpsw_keys.rs:20-43; [len as u32]
    truncates *)
Definition w_generate_master_keys (pol : list byte) (draw : nat -> bm_K B) : outcome (list byte) :=
  let* p := policy_from pol in
  let* mk := eng_master_key p draw in
  let* priv := priv_enc F (priv_key mk) in
  let* pub := pub_enc F (pub_key mk) in
  Ok (be32 (blen priv mod u32_modulus) ++ priv ++ pub).

(** webassembly_generate_user_private_key, generate_gpsw_keys.rs:52-75 *)
Definition w_generate_user_private_key (it : iteration) (priv : list byte) (access : string) (pol : list byte) (draw : nat -> bm_K B)
    : outcome (list byte) :=
  let* priv := priv_dec F P priv in
  let* p := policy_from pol in
  let* ap := access_parse access in
  let* uk := eng_user_key P it p priv ap draw in
  user_enc F P uk.

(** webassembly_rotate_attributes, generate_gpsw_keys.rs:84-103; the loop is that of
    the Python interface *)
Definition w_rotate_attributes (attrs pol : list byte) : outcome string :=
  let* l := attributes_from attrs in
  let* p := policy_from pol in
  let* p := rotate_each p l in
  policy_text p.

(** hybrid_gpsw_aes_encryption.rs:67-84 and 162-179: the header of an encryption, with
    the symmetric key *)
Definition w_header (p : policy) (pk : master_public_key B) (attrs : string) (u : list byte)
    (random : Gt B) (s : bm_K B) (nonce : list byte) : outcome (list byte) :=
  let* l := attributes_parse attrs in
  let* h := encrypt_hybrid_header S F shake P p pk l (Some (mkMeta u None)) random s nonce in
  eh_enc S h.

(** webassembly_encrypt_hybrid_header, hybrid_gpsw_aes_encryption.rs:40-85 *)
Definition w_encrypt_hybrid_header (pol pk : list byte) (attrs : string) (u : list byte)
    (random : Gt B) (s : bm_K B) (nonce : list byte) : outcome (list byte) :=
  if is_empty pol then Err (InvalidSize "Policy as bytes is empty")
  else if is_empty pk then Err (InvalidSize "Public Key as bytes is empty")
  else if is_empty u then Err (InvalidSize "UID as bytes is empty")
  else if String.eqb attrs "" then Err (InvalidSize "Attributes are empty")
  else
    let* p := policy_from pol in
    let* k := pub_dec F P pk in
    w_header p k attrs u random s nonce.

(** webassembly_create_encryption_cache up to the counter,
    hybrid_gpsw_aes_encryption.rs:103-126 *)
Definition w_encryption_cache (pol pk : list byte) : outcome (policy * master_public_key B) :=
  if is_empty pol then Err (InvalidSize "Policy as bytes is empty")
  else if is_empty pk then Err (InvalidSize "Public key is empty")
  else
    let* p := policy_from pol in
    let* k := pub_dec F P pk in
    Ok (p, k).

(** MAX_CLEAR_TEXT_SIZE, hybrid_gpsw_aes_encryption.rs:30 and
    hybrid_gpsw_aes_decryption.rs:28 *)
Definition w_max_clear_text : N := 1073741824.

(** Option::map_or and Option::unwrap_or *)
Definition w_uid (u : option (list byte)) : list byte := match u with Some u => u | None => [] end.
Definition w_number (i : option N) : N := match i with Some i => i | None => 0 end.

(** webassembly_encrypt_hybrid_block, hybrid_gpsw_aes_encryption.rs:183-221 *)
Definition w_encrypt_hybrid_block (key : list byte) (u : option (list byte)) (number : option N) (data nonce : list byte) : outcome (list byte) :=
  if negb (blen key =? 32) then Err (InvalidSize "Symmetric key must be 32-bytes long")
  else if is_empty data then Err (InvalidSize "Plaintext value is empty")
  else
    let* key := array_from (key_length S) key in
    encrypt_hybrid_block S w_max_clear_text key (w_uid u) (w_number number) nonce data.

(** webassembly_get_encrypted_header_size, hybrid_gpsw_aes_decryption.rs:34-52 *)
Definition w_get_encrypted_header_size (encrypted : list byte) : outcome N :=
  if blen encrypted <? 4 then Err (InvalidSize "Encrypted value must be at least 4-bytes long")
  else Ok (from_be (firstn 4 encrypted)).

(** hybrid_gpsw_aes_decryption.rs:84-97 and 163-176 *)
Definition w_open (uk : decryption_key B) (header : list byte) : outcome (list byte) :=
  let* c := decrypt_hybrid_header S F shake P uk header in
  ch_enc S c.

(** webassembly_create_decryption_cache up to the counter,
    hybrid_gpsw_aes_decryption.rs:115-128 *)
Definition w_decryption_cache (uk : list byte) : outcome (decryption_key B) :=
  if is_empty uk then Err (InvalidSize "User decryption key is empty") else user_dec F P uk.

(** webassembly_decrypt_hybrid_header, hybrid_gpsw_aes_decryption.rs:61-98 *)
Definition w_decrypt_hybrid_header (uk header : list byte) : outcome (list byte) :=
  if is_empty uk then Err (InvalidSize "User decryption key is empty")
  else if blen header <? 4 then Err (InvalidSize "Encrypted value is empty")
  else
    let* k := user_dec F P uk in
    w_open k header.

(** webassembly_decrypt_hybrid_block, hybrid_gpsw_aes_decryption.rs:181-218 *)
Definition w_decrypt_hybrid_block (key : list byte) (u : option (list byte)) (number : option N) (encrypted : list byte) : outcome (list byte) :=
  if negb (blen key =? 32) then Err (InvalidSize "Symmetric key must be 32-bytes long")
  else if is_empty encrypted then Err (InvalidSize "Encrypted value is empty")
  else
    let* key := array_from (key_length S) key in
    decrypt_hybrid_block S w_max_clear_text key (w_uid u) (w_number number) encrypted.

(** ** The calls that touch the caches *)
Variable sticky : bool.

Record wstate := mkWstate { w_enc : wcache (policy * master_public_key B); w_dec : wcache (decryption_key B) }.
Definition w_start : wstate := mkWstate empty_cache empty_cache.

Inductive wcall :=
| CreateEncryption (pol pk : list byte)
| DestroyEncryption (h : Z)
| EncryptCached (h : Z) (attrs : string) (u : list byte) (random : Gt B) (s : bm_K B) (nonce : list byte)
| CreateDecryption (uk : list byte)
| DestroyDecryption (h : Z)
| DecryptCached (h : Z) (header : list byte).
Inductive wresult := Handle (h : Z) | Done | Bytes (b : list byte).

Definition on_enc {A} (f : A -> wresult) (s : wstate) (r : outcome A * wcache (policy * master_public_key B)) : outcome wresult * wstate :=
  (let* a := fst r in Ok (f a), mkWstate (snd r) (w_dec s)).
Definition on_dec {A} (f : A -> wresult) (s : wstate) (r : outcome A * wcache (decryption_key B)) : outcome wresult * wstate :=
  (let* a := fst r in Ok (f a), mkWstate (w_enc s) (snd r)).

Definition w_exec (c : wcall) (s : wstate) : outcome wresult * wstate :=
  match c with
  | CreateEncryption pol pk => on_enc Handle s (cache_create sticky (w_encryption_cache pol pk) (w_enc s))
  | DestroyEncryption h => on_enc (fun _ => Done) s (cache_destroy sticky h (w_enc s))
  | EncryptCached h attrs u random sc nonce =>
      on_enc Bytes s (cache_use h (fun v => w_header (fst v) (snd v) attrs u random sc nonce) (w_enc s))
  | CreateDecryption uk => on_dec Handle s (cache_create sticky (w_decryption_cache uk) (w_dec s))
  | DestroyDecryption h => on_dec (fun _ => Done) s (cache_destroy sticky h (w_dec s))
  | DecryptCached h header => on_dec Bytes s (cache_use h (fun k => w_open k header) (w_dec s))
  end.

(** A program: calls in a row, with their results *)
Fixpoint w_run (cs : list wcall) (s : wstate) : list (wcall * outcome wresult) * wstate :=
  match cs with
  | [] => ([], s)
  | c :: t => let '(r, s1) := w_exec c s in
              let '(tr, s2) := w_run t s1 in ((c, r) :: tr, s2)
  end.
End Wasm.
