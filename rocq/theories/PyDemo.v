(** The demonstration program of the Python interface,
    /repo/src/interfaces/pyo3/tests/demo.py. Model only, no proofs. *)
From Coq Require Import String NArith Bool Strings.Byte List.
From Verif Require Import Prelude Field Bilinear Scheme Codec SchemeCodec Policy Engine Hybrid Python Demo.
Import ListNotations.
Local Open Scope N_scope.

(** equality of bytes objects, as used by the assertions *)
Definition same_bytes (a b : list byte) : bool := if list_eq_dec Byte.byte_eq_dec a b then true else false.

Section PyDemo.
Context {B : BilinearMap}.
Variable P : platform.
Variable F : byte_forms B.
Variable shake : list byte -> nat -> list byte.
Variable S : sym_scheme.
Variable policy_from : list byte -> outcome policy.
Variable attributes_from : list byte -> outcome (list attribute).
Variable axes_from : list byte -> outcome (list policy_axis).
Variable metadata_from : list byte -> outcome metadata.
Variable policy_json : policy -> outcome (list byte).
Variable access_parse : string -> outcome access_policy.
(** bytes(json.dumps(x), 'utf-8') for the three kinds of values the program writes:
    the axes, a list of strings, the dictionary with the only entry uid *)
Variable dump_axes : list policy_axis -> list byte.
Variable dump_strings : list string -> list byte.
Variable dump_uid : list N -> list byte.

(** assert(str(bytes(cleartext), "utf-8") == plaintext), demo.py:60, 79, 82, 85, 112.
    The texts are compared as their bytes: bytes that are no text are not those of the
    plaintext, and str raises an exception for them, which ends the program as a
    failing assertion does. *)
Definition py_assert_same (cleartext plaintext : list byte) : outcome unit :=
  if same_bytes cleartext plaintext then Ok tt else Panic ExplicitPanic.

(** try: ... except Exception as ex: print(...), demo.py:63-67, 69-73, 99-103: whether
    the exception was caught. PanicException is not an Exception in the sense of Python
    (it derives from BaseException) and ends the program. *)
Definition py_try {A} (o : outcome A) : outcome bool :=
  match o with Ok _ => Ok false | Err _ => Ok true | Panic p => Panic p end.

(** the values of the program, demo.py:6-28, 38, 41, 45, 47, 52, 54, 56, 93, 96, 107, 123 *)
Definition pd_axes : list policy_axis := [("Security Level", demo_levels, true); ("Department", demo_departments, false)]%string.
Definition pd_top_text : string := "Security Level::Top Secret && (Department::MKG || Department::FIN)".
Definition pd_medium_text : string := "Security Level::Medium Secret && Department::MKG".
Definition pd_delegate_text : string := "(Department::FIN || Department::MKG) && Security Level::Medium Secret".
Definition pd_uid : list N := [0; 0; 0; 0; 0; 0; 0; 1].
Definition pd_plaintext : list byte := list_byte_of_string "My secret data".
Definition pd_low_mkg : list string := ["Security Level::Low Secret"; "Department::MKG"]%string.
Definition pd_top_mkg : list string := ["Security Level::Top Secret"; "Department::MKG"]%string.
Definition pd_low_fin : list string := ["Security Level::Low Secret"; "Department::FIN"]%string.
Definition pd_low : list string := ["Security Level::Low Secret"]%string.

(** What the program has at its end. *)
Record py_demo_result := mkPyDemo {
  pd_refused : list bool; (* of each try, whether the exception was raised *)
  pd_policies : list byte * list byte; (* policy, new_policy *)
  pd_masters : list byte * list byte * list byte;
  pd_messages : list (list byte); (* low_secret_mkg_data, top_secret_mkg_data, low_secret_fin_data, new_low_secret_mkg_data *)
  pd_delegate : list byte (* super_delegate *)
}.

Local Notation user_key := (py_generate_user_private_key P F policy_from access_parse).
Local Notation encrypt := (py_encrypt P F shake S policy_from attributes_from metadata_from).
Local Notation decrypt := (py_decrypt P F shake S).

(** demo.py:1-125. The random choices and the orders of iteration of the calls are
    arguments; the prints are left out. *)
Definition py_demo (it : nat -> iteration) (mdraw : nat -> bm_K B) (draw : nat -> nat -> bm_K B) (random : nat -> Gt B) (s : nat -> bm_K B)
    (nonce nonce' : nat -> list byte) : outcome py_demo_result :=
  let* policy := py_generate_policy axes_from policy_json (dump_axes pd_axes) 100 in
  let* (priv, pub, del) := py_generate_master_keys F policy_from policy mdraw in
  let* top_user := user_key (it 0%nat) priv pd_top_text policy (draw 0%nat) in
  let* medium_user := user_key (it 1%nat) priv pd_medium_text policy (draw 1%nat) in
  let meta := dump_uid pd_uid in
  let* low_mkg := encrypt meta policy (dump_strings pd_low_mkg) pub pd_plaintext (random 0%nat) (s 0%nat) (nonce 0%nat) (nonce' 0%nat) in
  let* top_mkg := encrypt meta policy (dump_strings pd_top_mkg) pub pd_plaintext (random 1%nat) (s 1%nat) (nonce 1%nat) (nonce' 1%nat) in
  let* low_fin := encrypt meta policy (dump_strings pd_low_fin) pub pd_plaintext (random 2%nat) (s 2%nat) (nonce 2%nat) (nonce' 2%nat) in
  let* cleartext := decrypt medium_user low_mkg in
  let* _ := py_assert_same cleartext pd_plaintext in
  let* r0 := py_try (decrypt medium_user top_mkg) in
  let* r1 := py_try (decrypt medium_user low_fin) in
  let* cleartext := decrypt top_user low_mkg in
  let* _ := py_assert_same cleartext pd_plaintext in
  let* cleartext := decrypt top_user top_mkg in
  let* _ := py_assert_same cleartext pd_plaintext in
  let* cleartext := decrypt top_user low_fin in
  let* _ := py_assert_same cleartext pd_plaintext in
  let* new_policy := py_rotate_attributes policy_from attributes_from policy_json (dump_strings pd_low) policy in
  let* new_low_mkg := encrypt meta new_policy (dump_strings pd_low_mkg) pub pd_plaintext (random 3%nat) (s 3%nat) (nonce 3%nat) (nonce' 3%nat) in
  let* r2 := py_try (decrypt medium_user new_low_mkg) in
  let* new_medium_user := user_key (it 2%nat) priv pd_medium_text new_policy (draw 2%nat) in
  let* cleartext := decrypt new_medium_user new_low_mkg in
  let* _ := py_assert_same cleartext pd_plaintext in
  let* delegate := py_generate_delegated_key P F policy_from access_parse (it 3%nat) del top_user pd_delegate_text policy (draw 3%nat) in
  Ok (mkPyDemo [r0; r1; r2] (policy, new_policy) (priv, pub, del) [low_mkg; top_mkg; low_fin; new_low_mkg] delegate).
End PyDemo.
