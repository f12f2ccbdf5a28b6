(** The notebook on access to confidential data,
    /repo/src/interfaces/pyo3/tests/notebooks/confidential-data-access.ipynb, its cells
    run in their order (lines are those of the file). Model only, no proofs.
    The other notebook of the directory calls modules that are not in the repository. *)
From Coq Require Import String NArith Bool Strings.Byte List.
From Verif Require Import Prelude Field Bilinear Scheme Codec SchemeCodec Policy Engine Hybrid Python Demo PyDemo.
Import ListNotations.
Local Open Scope N_scope.

(** what a call of abe_decrypt prints *)
Inductive nb_line := Succeeds (user : string) (cleartext : list byte) | Fails (user : string) (e : format_err).

Section Notebook.
Context {B : BilinearMap}.
Variable P : platform.
Variable F : byte_forms B.
Variable shake : list byte -> nat -> list byte.
Variable S : sym_scheme.
Variable policy_from : list byte -> outcome policy.
Variable attributes_from : list byte -> outcome (list attribute).
Variable axes_from : list byte -> outcome (list policy_axis).
Variable metadata_from : list byte -> outcome metadata.
Variable policy_json : policy -> outcome (list byte).
Variable access_parse : string -> outcome access_policy.
(** bytes(json.dumps(x), 'utf-8'), as in PyDemo.v *)
Variable dump_axes : list policy_axis -> list byte.
Variable dump_strings : list string -> list byte.
Variable dump_uid : list N -> list byte.

Local Notation decrypt := (py_decrypt P F shake S).

(** abe_decrypt, lines 27-34. The cleartext is kept as its bytes: str is the identity on
    texts, and for bytes that are no text the call would print the second line. The text
    of the exception is kept as the error it is made from. *)
Definition nb_decrypt (user : string) (uk e : list byte) : outcome nb_line :=
  match decrypt uk e with Ok c => Ok (Succeeds user c) | Err e => Ok (Fails user e) | Panic p => Panic p end.

(** try: ... except: print(...), lines 678-688, which catches PanicException also *)
Definition py_try_all {A} (o : outcome A) : outcome bool := match o with Ok _ => Ok false | _ => Ok true end.

(** the values of the notebook, lines 105-128, 193, 199, 205, 237-239, 327-328, 387-388,
    434-435, 451-453, 508, 587, 593, 618, 625, 655, 682 *)
Definition nb_departments : list string := ["R&D"; "Human Resources"; "Marketing"; "Finance"]%string.
Definition nb_axes : list policy_axis := [("Security Level", demo_levels, true); ("Department", nb_departments, false)]%string.
Definition nb_alice_text : string := "Department::Marketing && Security Level::Medium Secret".
Definition nb_bob_text : string := "Department::Marketing && Security Level::Top Secret".
Definition nb_carol_text : string := "Department::Human Resources && Security Level::Medium Secret".
Definition nb_super_text : string :=
  "(Department::Finance || Department::Marketing || Department::R&D || Department::Human Resources) && Security Level::Top Secret".
Definition nb_high_text : string := "(Department::Finance || Department::Marketing) && Security Level::High Secret".
Definition nb_user_text : string := "Department::Marketing && Security Level::High Secret".
Definition nb_hr_text : string := "Department::Human Resources && Security Level::Top Secret".
Definition nb_medium_mkg : list string := ["Security Level::Medium Secret"; "Department::Marketing"]%string.
Definition nb_top_mkg : list string := ["Security Level::Top Secret"; "Department::Marketing"]%string.
Definition nb_medium_hr : list string := ["Security Level::Medium Secret"; "Department::Human Resources"]%string.
Definition nb_medium : list string := ["Security Level::Medium Secret"]%string.
Definition nb_plain0 : list byte := list_byte_of_string "✅ Marketing message medium secret".
Definition nb_plain1 : list byte := list_byte_of_string "✅ Marketing message top_secret".
Definition nb_plain2 : list byte := list_byte_of_string "✅ human resources message medium secret".
Definition nb_plain3 : list byte := list_byte_of_string "✅ New marketing message medium secret".

(** What has been printed and made at the end. *)
Record nb_result := mkNotebook {
  nb_lines : list nb_line; (* printed by abe_decrypt *)
  nb_refused : list bool; (* of the two delegations at the end, whether an exception was raised *)
  nb_messages : list (list byte);
  nb_super : list byte; (* super_delegate *)
  nb_delegate : list byte; (* high_secret_mkg_fin_delegate *)
  nb_users : list byte * list byte (* high_secret_mkg_user, both times *)
}.

Local Notation user_key := (py_generate_user_private_key P F policy_from access_parse).
Local Notation delegated_key := (py_generate_delegated_key P F policy_from access_parse).
Local Notation encrypt := (py_encrypt P F shake S policy_from attributes_from metadata_from).

(** lines 152-690, the code cells. The random choices and the orders of iteration of the
    calls are arguments. *)
Definition notebook (it : nat -> iteration) (mdraw : nat -> bm_K B) (draw : nat -> nat -> bm_K B) (random : nat -> Gt B) (s : nat -> bm_K B)
    (nonce nonce' : nat -> list byte) : outcome nb_result :=
  let* policy := py_generate_policy axes_from policy_json (dump_axes nb_axes) 100 in
  let* (priv, pub, del) := py_generate_master_keys F policy_from policy mdraw in
  let* alice := user_key (it 0%nat) priv nb_alice_text policy (draw 0%nat) in
  let* bob := user_key (it 1%nat) priv nb_bob_text policy (draw 1%nat) in
  let* carol := user_key (it 2%nat) priv nb_carol_text policy (draw 2%nat) in
  let meta := dump_uid pd_uid in
  let* mkg_medium := encrypt meta policy (dump_strings nb_medium_mkg) pub nb_plain0 (random 0%nat) (s 0%nat) (nonce 0%nat) (nonce' 0%nat) in
  let* l0 := nb_decrypt "Alice" alice mkg_medium in
  let* l1 := nb_decrypt "Bob" bob mkg_medium in
  let* l2 := nb_decrypt "Carol" carol mkg_medium in
  let* mkg_top := encrypt meta policy (dump_strings nb_top_mkg) pub nb_plain1 (random 1%nat) (s 1%nat) (nonce 1%nat) (nonce' 1%nat) in
  let* l3 := nb_decrypt "Alice" alice mkg_top in
  let* l4 := nb_decrypt "Bob" bob mkg_top in
  let* l5 := nb_decrypt "Carol" carol mkg_top in
  let* hr_medium := encrypt meta policy (dump_strings nb_medium_hr) pub nb_plain2 (random 2%nat) (s 2%nat) (nonce 2%nat) (nonce' 2%nat) in
  let* l6 := nb_decrypt "Alice" alice hr_medium in
  let* l7 := nb_decrypt "Bob" bob hr_medium in
  let* l8 := nb_decrypt "Carol" carol hr_medium in
  let* new_policy := py_rotate_attributes policy_from attributes_from policy_json (dump_strings nb_medium) policy in
  let* new_mkg := encrypt meta new_policy (dump_strings nb_medium_mkg) pub nb_plain3 (random 3%nat) (s 3%nat) (nonce 3%nat) (nonce' 3%nat) in
  let* l9 := nb_decrypt "Alice" alice new_mkg in
  let* alice := user_key (it 3%nat) priv nb_alice_text new_policy (draw 3%nat) in
  let* l10 := nb_decrypt "Alice" alice new_mkg in
  let* l11 := nb_decrypt "Alice" alice mkg_medium in
  let* super := user_key (it 4%nat) priv nb_super_text policy (draw 4%nat) in
  let* high := delegated_key (it 5%nat) del super nb_high_text policy (draw 5%nat) in
  let* user := delegated_key (it 6%nat) del super nb_user_text policy (draw 6%nat) in
  let* user' := delegated_key (it 7%nat) del high nb_user_text policy (draw 7%nat) in
  let* r0 := py_try (delegated_key (it 8%nat) del high nb_bob_text policy (draw 8%nat)) in
  let* r1 := py_try_all (delegated_key (it 9%nat) del high nb_hr_text policy (draw 9%nat)) in
  Ok (mkNotebook [l0; l1; l2; l3; l4; l5; l6; l7; l8; l9; l10; l11] [r0; r1] [mkg_medium; mkg_top; hr_medium; new_mkg] super high (user, user')).
End Notebook.
