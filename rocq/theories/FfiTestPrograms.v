(** The tests of the C interface as programs, /repo/src/interfaces/ffi/tests.rs. Model
    only, no proofs. *)
From Coq Require Import String NArith ZArith Bool Strings.Byte List.
From Verif Require Import Prelude Field Bilinear Msp Scheme Codec SchemeCodec Policy Engine Hybrid Ffi FfiErrors FfiRaw TestPrograms.
Import ListNotations.
Local Open Scope N_scope.

(** A call whose code goes to unwrap_ffi_error, tests.rs:167-181. The text of the error is
    left out. Undefined behaviour counts as a panic: the test does not pass. *)
Definition checked {A} (r : result A) : outcome (A * list out_arg) :=
  match r with
  | Go a outs => Ok (a, outs)
  | Bail _ _ => Err (InternalOperation "ERROR: ")
  | Crash p => Panic p
  | Undefined => Panic ExplicitPanic
  end.

(** vec![0u8; size], its pointer and its length, e.g. tests.rs:49-51 *)
Definition zeroed (size : N) : out_arg := mkOut (Some (repeat x00 (N.to_nat size))) (Some (as_c_int size)).
(** bytes.as_ptr() and bytes.len() as i32, e.g. tests.rs:60-62 *)
Definition pointed (b : list byte) : raw_in := mkIn (Some b) (as_c_int (blen b)).
(** CString::new(text)?, tests.rs:57, 64, 203, 233 *)
Definition c_string_new (b : list byte) : outcome (list byte) := if has_nul b then Err NulError else Ok (b ++ [x00]).
(** std::slice::from_raw_parts(ptr, len as usize) on the i-th output, e.g. tests.rs:87-95 *)
Definition read_back (P : platform) (outs : list out_arg) (i : nat) : outcome (list byte) :=
  match nth_error outs i with
  | Some (mkOut (Some mem) (Some len)) => if as_usize P len <=? blen mem then Ok (firstn (N.to_nat (as_usize P len)) mem) else Panic ExplicitPanic
  | _ => Panic ExplicitPanic
  end.

Section Tests.
Context {B : BilinearMap}.
Variable P : platform.
Variable F : byte_forms B.
Variable shake : list byte -> nat -> list byte.
Variable S : sym_scheme.
Variable policy_from : list byte -> outcome policy.
Variable attributes_from : list byte -> outcome (list attribute).
(** serde_json::to_string *)
Variable policy_json : policy -> list byte.
Variable attributes_json : list attribute -> list byte.
(** the bytes of the keys in the files, and the policy *)
Variables (pub_file user_file : list byte) (p : policy).
Variables (random : Gt B) (s : bm_K B) (nonce : list byte).

(** meta_data.additional_data.as_ref().unwrap(), tests.rs:79-85 *)
Definition the_additional_data (m : metadata) : outcome (list byte) :=
  match additional_data m with Some b => Ok b | None => Panic ExplicitPanic end.

(** the symmetric key and the header read back, tests.rs:87-99 and 254-266 *)
Definition read_header (outs : list out_arg) : outcome encrypted_header :=
  let* kb := read_back P outs 0 in
  let* k := array_from (key_length S) kb in
  let* hb := read_back P outs 1 in
  Ok (mkEncHeader k hb).

(** encrypt_header, tests.rs:26-100 *)
Definition test_encrypt_header (m : metadata) : outcome encrypted_header :=
  let* pk := pub_dec F P pub_file in
  let* pol := c_string_new (policy_json p) in
  let* pkb := pub_enc F pk in
  let* attrs := c_string_new (attributes_json file_attrs) in
  let* ad := the_additional_data m in
  let* (_, outs) := checked (raw_encrypt_header P F shake S policy_from attributes_from (Some pol) (pointed pkb) (Some attrs)
                               (pointed (uid m)) (pointed ad) random s nonce [zeroed 32; zeroed 4096]) in
  read_header outs.

(** the symmetric key, the uid and the additional data read back, tests.rs:148-164 and
    319-335 *)
Definition read_clear (outs : list out_arg) : outcome clear_header :=
  let* kb := read_back P outs 0 in
  let* k := array_from (key_length S) kb in
  let* u := read_back P outs 1 in
  let* ad := read_back P outs 2 in
  Ok (mkClearHeader k (mkMeta u (Some ad))).

(** decrypt_header, tests.rs:107-165 *)
Definition test_decrypt_header (h : encrypted_header) : outcome clear_header :=
  let* uk := user_dec F P user_file in
  let* ukb := user_enc F P uk in
  let* (_, outs) := checked (raw_decrypt_header P F shake S (pointed (eh_bytes h)) (pointed ukb) [zeroed 32; zeroed 4096; zeroed 4096]) in
  read_clear outs.

(** what both tests assert, tests.rs:349-357 and 373-381 *)
Definition same_clear (m : metadata) (h : encrypted_header) (c : clear_header) : Prop :=
  eh_key h = ch_key c /\ uid m = uid (ch_meta c) /\ additional_data m = additional_data (ch_meta c).

(** test_ffi_hybrid_header, tests.rs:338-360, where the metadata are [test_meta] *)
Definition ffi_hybrid_header (m : metadata) : test :=
  let* h := test_encrypt_header m in
  let* c := test_decrypt_header h in
  Ok (same_clear m h c).

(** The caches are shared with the other tests of the process: the handle a creation gave,
    and what the later call found under it, are arguments; FfiCache.v says what they can be. *)
Variables (eh dh : Z) (efound : option (policy * master_public_key B)) (dfound : option (decryption_key B)).

(** what is given to the cache of encryption keys, tests.rs:186-218 *)
Definition test_encryption_cache : outcome (policy * master_public_key B) :=
  let* pk := pub_dec F P pub_file in
  let* pol := c_string_new (policy_json p) in
  let* pkb := pub_enc F pk in
  let* (c, _) := checked (raw_create_encryption_cache P F policy_from false (Some pol) (pointed pkb) []) in
  Ok c.
(** encrypt_header_using_cache, tests.rs:183-267; the cache is destroyed at the end, which
    returns 0, hybrid_gpsw_aes.rs:117-123 *)
Definition test_encrypt_header_cached (m : metadata) : outcome encrypted_header :=
  let* _ := test_encryption_cache in
  let* attrs := c_string_new (attributes_json file_attrs) in
  let* ad := the_additional_data m in
  let* (_, outs) := checked (raw_encrypt_header_using_cache P F shake S attributes_from (fun _ => efound) eh (Some attrs)
                               (pointed (uid m)) (pointed ad) random s nonce [zeroed 32; zeroed 4096]) in
  read_header outs.

(** what is given to the cache of decryption keys, tests.rs:272-290 *)
Definition test_decryption_cache : outcome (decryption_key B) :=
  let* uk := user_dec F P user_file in
  let* ukb := user_enc F P uk in
  let* (c, _) := checked (raw_create_decryption_cache P F false (pointed ukb) []) in
  Ok c.
(** decrypt_header_using_cache, tests.rs:269-336 *)
Definition test_decrypt_header_cached (h : encrypted_header) : outcome clear_header :=
  let* _ := test_decryption_cache in
  let* (_, outs) := checked (raw_decrypt_header_using_cache P F shake S (fun _ => dfound) dh (pointed (eh_bytes h)) [zeroed 32; zeroed 4096; zeroed 4096]) in
  read_clear outs.

(** test_ffi_hybrid_header_using_cache, tests.rs:362-383 *)
Definition ffi_hybrid_header_cached (m : metadata) : test :=
  let* h := test_encrypt_header_cached m in
  let* c := test_decrypt_header_cached h in
  Ok (same_clear m h c).
End Tests.
