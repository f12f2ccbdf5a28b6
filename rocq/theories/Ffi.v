(** The C interface, /repo/src/interfaces/ffi. Model only, no proofs.

    Input pointers are [option]s ([None] is the null pointer); the length given with
    an input buffer is the length of the buffer. An output argument is a buffer of
    the caller together with the announced length, both possibly null; the announced
    length need not be the true one. JSON and UTF-8 decoding belong to external
    crates: they are parameters. *)
From Coq Require Import String NArith ZArith Bool Strings.Byte List.
From Verif Require Import Prelude Field Bilinear Msp Scheme Codec SchemeCodec Policy Engine Hybrid.
Import ListNotations.
Local Open Scope N_scope.

(** an output pointer and its length pointer *)
Record out_arg := mkOut { o_mem : option (list byte); o_len : option Z }.

(** FfiError, error.rs:9-19; formatted payloads are dropped *)
Inductive ffi_error :=
| NullPointer (what : string)
| Generic (what : string)
| Wrapped (e : format_err).

(** How a call ends: [Go] goes on (the function returns 0 at the end), [Bail] is
    set_last_error followed by return 1, [Crash] is a panic that reaches the C
    boundary, [Undefined] is undefined behaviour: a null length pointer is read, or
    bytes are written past the end of a buffer. *)
Inductive result (A : Type) :=
| Go (a : A) (outs : list out_arg)
| Bail (e : ffi_error) (outs : list out_arg)
| Crash (p : panic)
| Undefined.
Arguments Go {A}.
Arguments Bail {A}.
Arguments Crash {A}.
Arguments Undefined {A}.

Definition ffi (A : Type) := list out_arg -> result A.
Definition ret {A} (a : A) : ffi A := fun outs => Go a outs.
Definition bail {A} (e : ffi_error) : ffi A := fun outs => Bail e outs.
Definition andthen {A C} (m : ffi A) (k : A -> ffi C) : ffi C := fun outs =>
  match m outs with
  | Go a outs => k a outs
  | Bail e outs => Bail e outs
  | Crash p => Crash p
  | Undefined => Undefined
  end.
Notation "'let!' x ':=' m 'in' k" := (andthen m (fun x => k)) (at level 200, x pattern, m at level 100, k at level 200, right associativity).

(** ffi_unwrap!, error.rs:46-69 *)
Definition unwrap {A} (o : outcome A) : ffi A := fun outs =>
  match o with
  | Ok a => Go a outs
  | Err e => Bail (Wrapped e) outs
  | Panic p => Crash p
  end.

(** ffi_not_null! on an input pointer, error.rs:30-40 *)
Definition not_null {A} (x : option A) (what : string) : ffi A :=
  match x with Some a => ret a | None => bail (NullPointer what) end.

(** an input buffer that must be neither null nor empty *)
Definition input_bytes (x : option (list byte)) (what : string) : ffi (list byte) :=
  let! b := not_null x what in
  match b with [] => bail (Generic what) | _ => ret b end.

(** an optional input buffer: [if ptr.is_null() || len == 0 { vec![] }] *)
Definition optional_bytes (x : option (list byte)) : list byte := match x with Some b => b | None => [] end.

(** ffi_not_null!(ptr) then [if *len == 0 { bail }] on an output argument *)
Definition check_out (i : nat) (what : string) : ffi unit := fun outs =>
  match nth_error outs i with
  | None => Undefined
  | Some o =>
      match o_mem o with
      | None => Bail (NullPointer what) outs
      | Some _ =>
          match o_len o with
          | None => Undefined
          | Some 0%Z => Bail (Generic what) outs
          | Some _ => Go tt outs
          end
      end
  end.

(** [i32 as usize] *)
Definition as_usize (P : platform) (z : Z) : N := Z.to_N (z mod Z.of_N (usize_modulus P)).
(** [usize as c_int] *)
Definition as_c_int (n : N) : Z := u32_to_i32 (n mod u32_modulus).

Fixpoint set_out (outs : list out_arg) (i : nat) (o : out_arg) : list out_arg :=
  match outs, i with
  | [], _ => []
  | _ :: t, O => o :: t
  | x :: t, S i' => x :: set_out t i' o
  end.

(** from_raw_parts_mut(ptr, data.len()).copy_from_slice(data) *)
Definition copy_out (mem data : list byte) : option (list byte) :=
  if blen data <=? blen mem then Some (data ++ skipn (length data) mem) else None.

(** The output protocol of the header and key functions: the length is set first,
    e.g. hybrid_gpsw_aes.rs:210-220 *)
Definition deliver (P : platform) (i : nat) (data : list byte) : ffi unit := fun outs =>
  match nth_error outs i with
  | Some (mkOut (Some mem) (Some allocated)) =>
      let len := Some (as_c_int (blen data)) in
      if as_usize P allocated <? blen data
      then Bail (Generic "The pre-allocated buffer is too small") (set_out outs i (mkOut (Some mem) len))
      else match copy_out mem data with
           | Some mem' => Go tt (set_out outs i (mkOut (Some mem') len))
           | None => Undefined
           end
  | _ => Undefined
  end.

(** The output protocol of the block functions: the length is set last,
    hybrid_gpsw_aes.rs:755-766 and 831-842 *)
Definition deliver_late (P : platform) (i : nat) (data : list byte) : ffi unit := fun outs =>
  match nth_error outs i with
  | Some (mkOut (Some mem) (Some allocated)) =>
      if as_usize P allocated <? blen data
      then Bail (Generic "The pre-allocated buffer is too small") outs
      else match copy_out mem data with
           | Some mem' => Go tt (set_out outs i (mkOut (Some mem') (Some (as_c_int (blen data)))))
           | None => Undefined
           end
  | _ => Undefined
  end.

(** The uid and additional data outputs of the decryption functions: only if the
    pointer is not null and the announced length is positive,
    hybrid_gpsw_aes.rs:514-548 *)
Definition deliver_expected (P : platform) (i : nat) (data : option (list byte)) : ffi unit := fun outs =>
  match nth_error outs i with
  | None => Undefined
  | Some o =>
      match o_mem o with
      | None => Go tt outs
      | Some mem =>
          match o_len o with
          | None => Undefined
          | Some len =>
              if (0 <? len)%Z then
                match data with
                | Some d => deliver P i d outs
                | None => Go tt (set_out outs i (mkOut (Some mem) (Some 0%Z)))
                end
              else Go tt outs
          end
      end
  end.

Section Ffi.
Context {B : BilinearMap}.
Variable P : platform.
Variable F : byte_forms B.
Variable shake : list byte -> nat -> list byte.
Variable S : sym_scheme.
(** CStr::to_str and serde_json::from_str, on the bytes before the NUL *)
Variable policy_from : list byte -> outcome policy.
Variable attributes_from : list byte -> outcome (list attribute).
Variable access_from : list byte -> outcome access_policy.
(** Policy::to_string *)
Variable policy_text : policy -> list byte.

(** The two outputs of the header encryption, hybrid_gpsw_aes.rs:210-236 and 339-365:
    argument 0 is the symmetric key, argument 1 the header. *)
Definition deliver_header (h : encrypted_header) : ffi unit :=
  let! _ := deliver P 0 (eh_key h) in
  deliver P 1 (eh_bytes h).

(** the metadata argument, hybrid_gpsw_aes.rs:179-200: empty additional data are none *)
Definition meta_arg (u ad : option (list byte)) : metadata :=
  mkMeta (optional_bytes u) match optional_bytes ad with [] => None | b => Some b end.

(** h_aes_encrypt_header, hybrid_gpsw_aes.rs:245-366 *)
Definition h_aes_encrypt_header (pol pk attrs u ad : option (list byte)) (random : Gt B) (s : bm_K B) (nonce : list byte)
    : ffi unit :=
  let! _ := check_out 0 "symmetric key" in
  let! _ := check_out 1 "header bytes" in
  let! pol := not_null pol "policy" in
  let! pk := input_bytes pk "public key" in
  let! attrs := not_null attrs "attributes" in
  let! p := unwrap (policy_from pol) in
  let! pk := unwrap (pub_dec F P pk) in
  let! l := unwrap (attributes_from attrs) in
  let! h := unwrap (encrypt_hybrid_header S F shake P p pk l (Some (meta_arg u ad)) random s nonce) in
  deliver_header h.

(** What a cache holds, hybrid_gpsw_aes.rs:52-55 and 381-383, and the keys accepted
    by the two create functions, 68-104 and 396-423. *)
Definition encryption_cache_of (pol pk : option (list byte)) : ffi (policy * master_public_key B) :=
  let! pol := not_null pol "policy" in
  let! pk := input_bytes pk "public key" in
  let! p := unwrap (policy_from pol) in
  let! pk := unwrap (pub_dec F P pk) in
  ret (p, pk).
Definition decryption_cache_of (uk : option (list byte)) : ffi (decryption_key B) :=
  let! uk := input_bytes uk "user decryption key" in
  unwrap (user_dec F P uk).

(** h_aes_encrypt_header_using_cache, hybrid_gpsw_aes.rs:129-237; [cache] is the map
    at the time of the lookup *)
Definition h_aes_encrypt_header_using_cache (cache : Z -> option (policy * master_public_key B)) (handle : Z)
    (attrs u ad : option (list byte)) (random : Gt B) (s : bm_K B) (nonce : list byte) : ffi unit :=
  let! _ := check_out 0 "symmetric key" in
  let! _ := check_out 1 "header bytes" in
  let! attrs := not_null attrs "attributes" in
  match cache handle with
  | None => bail (Generic "no encryption cache with handle")
  | Some (p, pk) =>
      let! l := unwrap (attributes_from attrs) in
      let! h := unwrap (encrypt_hybrid_header S F shake P p pk l (Some (meta_arg u ad)) random s nonce) in
      deliver_header h
  end.

(** the three outputs of the header decryption, hybrid_gpsw_aes.rs:499-549 and
    634-684: symmetric key, uid, additional data *)
Definition deliver_clear (c : clear_header) : ffi unit :=
  let! _ := deliver P 0 (ch_key c) in
  let! _ := deliver_expected P 1 (Some (uid (ch_meta c))) in
  deliver_expected P 2 (additional_data (ch_meta c)).

(** h_aes_decrypt_header, hybrid_gpsw_aes.rs:585-686 *)
Definition h_aes_decrypt_header (header uk : option (list byte)) : ffi unit :=
  let! _ := check_out 0 "symmetric key" in
  let! header := input_bytes header "encrypted header" in
  let! uk := input_bytes uk "user decryption key" in
  let! uk := unwrap (user_dec F P uk) in
  let! c := unwrap (decrypt_hybrid_header S F shake P uk header) in
  deliver_clear c.

(** h_aes_decrypt_header_using_cache, hybrid_gpsw_aes.rs:453-551 *)
Definition h_aes_decrypt_header_using_cache (cache : Z -> option (decryption_key B)) (handle : Z) (header : option (list byte))
    : ffi unit :=
  let! _ := check_out 0 "symmetric key" in
  let! header := input_bytes header "encrypted header" in
  match cache handle with
  | None => bail (Generic "no decryption cache with handle")
  | Some uk =>
      let! c := unwrap (decrypt_hybrid_header S F shake P uk header) in
      deliver_clear c
  end.

(** h_get_encrypted_header_size, hybrid_gpsw_aes.rs:555-573: the returned value is
    the result *)
Definition h_get_encrypted_header_size (encrypted : option (list byte)) : ffi Z :=
  let! b := input_bytes encrypted "encrypted bytes" in
  let! b4 := unwrap (slice b 0 4) in
  ret (u32_to_i32 (from_be b4)).

(** MAX_CLEAR_TEXT_SIZE, hybrid_gpsw_aes.rs:690 *)
Definition max_clear_text : N := 1073741824.

(** h_aes_encrypt_block, hybrid_gpsw_aes.rs:702-769 *)
Definition h_aes_encrypt_block (key u : option (list byte)) (number : Z) (data : option (list byte)) (nonce : list byte) : ffi unit :=
  let! _ := check_out 0 "encrypted bytes" in
  let! key := input_bytes key "symmetric key" in
  let! data := input_bytes data "data" in
  let! key := unwrap (array_from (key_length S) key) in
  let! c := unwrap (encrypt_hybrid_block S max_clear_text key (optional_bytes u) (as_usize P number) nonce data) in
  deliver_late P 0 c.

(** h_aes_decrypt_block, hybrid_gpsw_aes.rs:774-845 *)
Definition h_aes_decrypt_block (key u : option (list byte)) (number : Z) (data : option (list byte)) : ffi unit :=
  let! _ := check_out 0 "clear text bytes" in
  let! key := input_bytes key "symmetric key" in
  let! data := input_bytes data "data" in
  let! key := unwrap (array_from (key_length S) key) in
  let! m := unwrap (decrypt_hybrid_block S max_clear_text key (optional_bytes u) (as_usize P number) data) in
  deliver_late P 0 m.

(** h_generate_master_keys, generate_gpsw_keys.rs:25-87; [len as u32] truncates *)
Definition master_keys_bytes (priv pub : list byte) : list byte := be32 (blen priv mod u32_modulus) ++ priv ++ pub.
Definition h_generate_master_keys (pol : option (list byte)) (draw : nat -> bm_K B) : ffi unit :=
  let! _ := check_out 0 "master keys" in
  let! pol := not_null pol "policy" in
  let! p := unwrap (policy_from pol) in
  let! mk := unwrap (eng_master_key p draw) in
  let! priv := unwrap (priv_enc F (priv_key mk)) in
  let! pub := unwrap (pub_enc F (pub_key mk)) in
  deliver P 0 (master_keys_bytes priv pub).

(** h_generate_user_private_key, generate_gpsw_keys.rs:100-194 *)
Definition h_generate_user_private_key (it : iteration) (priv access pol : option (list byte)) (draw : nat -> bm_K B) : ffi unit :=
  let! _ := check_out 0 "user private key" in
  let! priv := input_bytes priv "master private key" in
  let! access := not_null access "access policy" in
  let! pol := not_null pol "policy" in
  let! priv := unwrap (priv_dec F P priv) in
  let! ap := unwrap (access_from access) in
  let! p := unwrap (policy_from pol) in
  let! uk := unwrap (eng_user_key P it p priv ap draw) in
  let! b := unwrap (user_enc F P uk) in
  deliver P 0 b.

(** the rotation loop, generate_gpsw_keys.rs:249-251 *)
Fixpoint rotate_all (p : policy) (l : list attribute) : outcome policy :=
  match l with
  | [] => Ok p
  | a :: t => let* p := rotate p a in rotate_all p t
  end.

(** h_rotate_attributes, generate_gpsw_keys.rs:204-273 *)
Definition h_rotate_attributes (attrs pol : option (list byte)) : ffi unit :=
  let! _ := check_out 0 "new policy" in
  let! attrs := not_null attrs "attributes" in
  let! pol := not_null pol "policy" in
  let! l := unwrap (attributes_from attrs) in
  let! p := unwrap (policy_from pol) in
  let! p := unwrap (rotate_all p l) in
  deliver P 0 (policy_text p).
End Ffi.

(** The last error of a thread, error.rs:126-207. A message is the bytes of the
    displayed error. *)
Definition last_error := option (list byte).

(** set_last_error, error.rs:132-136 *)
Definition set_last_error (e : list byte) (_ : last_error) : last_error := Some e.

(** get_last_error, error.rs:164-207, for non-null arguments: [mem] is the buffer of
    the caller and [len] the announced length. The result is the returned code, the
    buffer, the length and the error kept. CString::new refuses a message with a NUL;
    the error it sets in turn is given by [nul_error]. *)
Definition has_nul (b : list byte) : bool := existsb (fun x => Byte.eqb x x00) b.
Definition get_last_error (nul_error : list byte -> list byte) (mem : list byte) (len : Z) (err : last_error)
    : option (Z * list byte * Z * last_error) :=
  if (len <? 1)%Z then Some (1%Z, mem, len, err)
  else
    let bytes := match err with Some b => b | None => [] end in
    if has_nul bytes then Some (1%Z, mem, len, Some (nul_error bytes))
    else
      let actual := Nat.min (Z.to_nat (len - 1)) (length bytes) in
      let result := firstn actual bytes ++ repeat x00 (Z.to_nat len - actual) in
      match copy_out mem result with
      | Some mem' => Some (0%Z, mem', Z.of_nat actual, None)
      | None => None
      end.
