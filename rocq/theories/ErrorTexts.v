(** The texts of the errors of the decryption calls, through the three interfaces. Model
    only, no proofs.

    The other files keep of an error what distinguishes it; here is the text that reaches
    the caller: the last error of the thread for C, the message of the TypeError for
    Python, the string thrown for WebAssembly. *)
From Coq Require Import String NArith ZArith Bool Strings.Byte List.
From Verif Require Import Prelude Field Bilinear Msp Scheme Codec SchemeCodec Policy Engine Hybrid Ffi FfiErrors Python Wasm.
Import ListNotations.
Local Open Scope string_scope.
Local Open Scope N_scope.

(** Display of FormatErr, error.rs:14-83: the texts without a payload, and the payloads
    of scheme.rs:362, 404, 447, 428, 471 and 573, which are complete in the model. The
    other payloads are numbers, texts of other crates or abbreviated in the model:
    [None]. *)
Definition fixed_text (e : format_err) : option string :=
  match e with
  | InvalidEncryptedData => Some "invalid encrypted data"
  | ConversionFailed => Some "conversion failed"
  | EmptyPrivateKey => Some "Empty private key"
  | EmptyCiphertext => Some "Empty ciphertext"
  | EmptyPlaintext => Some "Empty plaintext"
  | InternalOperation m =>
      if existsb (String.eqb m) ["empty MSP"; "new attribute is not allowed"; "empty input matrix"] then Some m else None
  | _ => None
  end.

(** How a call ends for a caller who reads the text of the exception *)
Inductive told (A : Type) := Returned (a : A) | Raised (message : string) | Trapped (p : panic).
Arguments Returned {A}.
Arguments Raised {A}.
Arguments Trapped {A}.

Section Texts.
(** the texts [fixed_text] leaves open *)
Variable other_text : format_err -> string.
Definition format_text (e : format_err) : string := match fixed_text e with Some t => t | None => other_text e end.

(** map_err(|e| ...format!("...{e}")) and ?, [prefix] being the text before the error *)
Definition raising {A} (prefix : string) (o : outcome A) : told A :=
  match o with Ok a => Returned a | Err e => Raised (prefix ++ format_text e) | Panic p => Trapped p end.
Definition and_then {A C} (t : told A) (k : A -> told C) : told C :=
  match t with Returned a => k a | Raised m => Raised m | Trapped p => Trapped p end.

(** ** C *)
(** the texts the model of the C interface abbreviates, see Ffi.v *)
Variable abbreviated : string -> list byte.
(** ffi_unwrap! without a message, error.rs:59-69, as in both header decryption functions,
    hybrid_gpsw_aes.rs:496-500 and 628-636; ffi_not_null! and ffi_bail! *)
Definition thread_error_of (e : ffi_error) : thread_error :=
  match e with
  | NullPointer w => NullPointerErr (abbreviated w)
  | Generic w => GenericErr (abbreviated w)
  | Wrapped e => GenericErr (text (format_text e))
  end.
(** A call: the code returned, the outputs, and the error of the thread, which was [last]
    before. [None] when the call does not return. *)
Definition c_call {A} (f : ffi A) (outs : list out_arg) (last : option thread_error) : option (Z * list out_arg * option thread_error) :=
  match f outs with
  | Go _ outs => Some (0%Z, outs, last)
  | Bail e outs => Some (1%Z, outs, Some (thread_error_of e))
  | _ => None
  end.

Context {B : BilinearMap}.
Variable P : platform.
Variable F : byte_forms B.
Variable shake : list byte -> nat -> list byte.
Variable S : sym_scheme.

(** ** Python *)
(** get_encrypted_header_size, hybrid_gpsw_aes.rs:48-60 *)
Definition py_header_size_told (encrypted : list byte) : told N :=
  if blen encrypted <? 4 then Raised "Encrypted value must be at least 4-bytes long" else Returned (from_be (firstn 4 encrypted)).

(** internal_decrypt_hybrid_header, hybrid_gpsw_aes.rs:112-134; the first error goes
    through From<FormatErr>, mod.rs:15-19, which adds nothing *)
Definition py_header_told (uk header : list byte) : told (list byte * list byte) :=
  and_then (raising "" (user_dec F P uk)) (fun uk =>
  and_then (raising "Error decrypting header: " (decrypt_hybrid_header S F shake P uk header)) (fun c =>
  and_then (raising "Serialize metadata failed: " (meta_to_bytes S (ch_meta c))) (fun m =>
  Returned (ch_key c, m)))).

(** internal_decrypt_hybrid_block, hybrid_gpsw_aes.rs:177-198: the second text does speak
    of encryption *)
Definition py_block_told (key u : list byte) (number : N) (encrypted : list byte) : told (list byte) :=
  and_then (raising "Deserialize symmetric key failed: " (array_from (key_length S) key)) (fun key =>
  raising "Error encrypting block: " (decrypt_hybrid_block S py_max_clear_text key u number encrypted)).

(** decrypt, hybrid_gpsw_aes.rs:251-262 *)
Definition py_decrypt_told (uk encrypted : list byte) : told (list byte) :=
  and_then (py_header_size_told encrypted) (fun size =>
  and_then (raising "" (usize_add P 4 size)) (fun stop =>
  and_then (raising "" (if (4 <=? stop) && (stop <=? blen encrypted)
                        then Ok (firstn (N.to_nat (stop - 4)) (skipn 4 encrypted)) else Panic SliceOutOfRange)) (fun header =>
  and_then (raising "" (slice_fromN encrypted stop)) (fun ciphertext =>
  and_then (py_header_told uk header) (fun r =>
  and_then (raising "Error deserializing metadata: " (meta_from_bytes S (snd r))) (fun m =>
  py_block_told (fst r) (uid m) 0 ciphertext)))))).

(** ** WebAssembly *)
(** hybrid_gpsw_aes_decryption.rs:84-97 and 163-176 *)
Definition w_open_told (uk : decryption_key B) (header : list byte) : told (list byte) :=
  and_then (raising "Error decrypting hybrid header: " (decrypt_hybrid_header S F shake P uk header)) (fun c =>
  raising "Error serializing cleartext header: " (ch_enc S c)).

(** webassembly_decrypt_hybrid_header, hybrid_gpsw_aes_decryption.rs:61-98 *)
Definition w_header_told (uk header : list byte) : told (list byte) :=
  if is_empty uk then Raised "User decryption key is empty"
  else if blen header <? 4 then Raised "Encrypted value is empty"
  else and_then (raising "Error deserializing user decryption key: " (user_dec F P uk)) (fun k => w_open_told k header).

(** webassembly_decrypt_hybrid_header_using_cache, hybrid_gpsw_aes_decryption.rs:152-177 *)
Definition w_cached_told (h : Z) (header : list byte) (c : wcache (decryption_key B)) : told (list byte) :=
  if (w_mode c <? 0)%Z then Trapped ExplicitPanic
  else match w_map c h with None => Trapped UnwrapNone | Some k => w_open_told k header end.

(** webassembly_decrypt_hybrid_block, hybrid_gpsw_aes_decryption.rs:181-218 *)
Definition w_block_told (key : list byte) (u : option (list byte)) (number : option N) (encrypted : list byte) : told (list byte) :=
  if negb (blen key =? 32) then Raised "Symmetric key must be 32-bytes long"
  else if is_empty encrypted then Raised "Encrypted value is empty"
  else
    and_then (raising "Error parsing symmetric key: " (array_from (key_length S) key)) (fun key =>
    raising "Error decrypting block: " (decrypt_hybrid_block S w_max_clear_text key (w_uid u) (w_number number) encrypted)).
End Texts.
