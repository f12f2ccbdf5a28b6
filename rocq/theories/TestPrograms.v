(** The tests of the repository that draw at random, as programs: src/core/tests/gpsw_tests.rs,
    src/core/tests/engine_tests.rs, src/interfaces/hybrid_crypto/tests/mod.rs and
    src/interfaces/wasm_bindgen/tests.rs. Model only, no proofs. What the tests print is
    left out; what is drawn is an argument. *)
From Coq Require Import String NArith ZArith Bool Strings.Byte List.
From Verif Require Import Prelude Field Bilinear Msp Scheme Parser ParserSpec Codec SchemeCodec Policy Engine Hybrid Python Wasm Demo.
Import ListNotations.
Local Open Scope N_scope.

(** A test that comes to its end, with what its assert_eq! compare: equality in the groups
    is not a function of the model. A test fails by an error, a panic or an assertion. *)
Definition test := outcome Prop.
Definition passes (t : test) : Prop := match t with Ok assertions => assertions | _ => False end.

(** .unwrap() of a Result *)
Definition unwrapped {A} (o : outcome A) : outcome A := match o with Ok a => Ok a | _ => Panic ExplicitPanic end.

Section Core.
Context {B : BilinearMap}.
Local Notation K := (bm_K B).
Variable P : platform.
Variable F : byte_forms B.
(** the random values *)
Variables (mdraw : nat -> K) (draw : nat -> nat -> K) (s : K).

(** b"test", gpsw_tests.rs:35, 84, 146 *)
Definition test_bytes : list byte := list_byte_of_string "test".
(** gpsw_tests.rs:18-22, 45-49, 69-73, 96-100 *)
Definition test_formula : node := And (Leaf 1) (Or (Leaf 4) (And (Leaf 2) (Leaf 3))).

(** encrypt_decrypt, gpsw_tests.rs:17-41; the equality is printed, not asserted *)
Definition encrypt_decrypt : test :=
  let* m := to_msp P test_formula in
  let* mk := generate_master_key 10 mdraw in
  let* uk := key_generation m (priv_key mk) (draw 0%nat) in
  let* message := @msg_encode B test_bytes in
  let* enc := encrypt P message [1; 4] (pub_key mk) s in
  let* d := decrypt enc uk in
  let* dec := expect d in
  Ok (message = dec).

(** user_key_as_bytes, gpsw_tests.rs:44-65 *)
Definition user_key_as_bytes : test :=
  let* m := to_msp P test_formula in
  let* mk := generate_master_key 10 mdraw in
  let* uk := key_generation m (priv_key mk) (draw 0%nat) in
  let* b := user_enc F P uk in
  let* uk2 := user_dec F P b in
  Ok (dk_msp uk = dk_msp uk2 /\ raw_d uk = raw_d uk2).

(** ciphertext_as_bytes, gpsw_tests.rs:68-92 *)
Definition ciphertext_as_bytes : test :=
  let* _ := to_msp P test_formula in
  let* mk := generate_master_key 10 mdraw in
  let* message := @msg_encode B test_bytes in
  let* enc := encrypt P message [1; 4] (pub_key mk) s in
  let* b := ct_enc F enc in
  let* enc2 := ct_dec F P b in
  Ok (gamma enc = gamma enc2 /\ e_prime enc = e_prime enc2 /\ e_i enc = e_i enc2).

(** master_public_key_as_bytes, gpsw_tests.rs:95-116 *)
Definition master_public_key_as_bytes : test :=
  let* _ := to_msp P test_formula in
  let* mk := generate_master_key 10 mdraw in
  let* b := pub_enc F (pub_key mk) in
  let* k := pub_dec F P b in
  Ok (pub_t (pub_key mk) = pub_t k /\ pub_y (pub_key mk) = pub_y k).

(** encrypt_decrypt_with_multiple_key_pair, gpsw_tests.rs:119-167 *)
Definition multiple_key_pair : test :=
  let text_to_msp := fun x => let* f := parse P (codes x) in to_msp P f in
  let* p1 := text_to_msp "1 | 2"%string in
  let* p2 := text_to_msp "1 & 2"%string in
  let* p3 := text_to_msp "1"%string in
  let* p4 := text_to_msp "1 & 3"%string in
  let* p5 := text_to_msp "1 | 3"%string in
  let* mk := generate_master_key 10 mdraw in
  let* uk := key_generation p1 (priv_key mk) (draw 0%nat) in
  let* uk2 := key_generation p2 (priv_key mk) (draw 1%nat) in
  let* uk3 := key_generation p3 (priv_key mk) (draw 2%nat) in
  let* uk4 := key_generation p4 (priv_key mk) (draw 3%nat) in
  let* uk5 := key_generation p5 (priv_key mk) (draw 4%nat) in
  let* msg := @msg_encode B test_bytes in
  let* enc := encrypt P msg [1; 2] (pub_key mk) s in
  let* d := decrypt enc uk in let* dec := expect d in
  let* d := decrypt enc uk2 in let* dec2 := expect d in
  let* d := decrypt enc uk3 in let* dec3 := expect d in
  let* dec4 := decrypt enc uk4 in
  let* d := decrypt enc uk5 in let* dec5 := expect d in
  Ok (msg = dec /\ msg = dec2 /\ msg = dec3 /\ dec4 = None /\ msg = dec5).

(** master_private_key_as_bytes, gpsw_tests.rs:170-181 *)
Definition master_private_key_as_bytes : test :=
  let* mk := generate_master_key 10 mdraw in
  let* b := priv_enc F (priv_key mk) in
  let* k := priv_dec F P b in
  Ok (priv_t (priv_key mk) = priv_t k /\ priv_y (priv_key mk) = priv_y k).

(** master_public_delegation_key_as_bytes, gpsw_tests.rs:184-194 *)
Definition delegation_key_as_bytes : test :=
  let* mk := generate_master_key 10 mdraw in
  let* b := del_enc F (del_key mk) in
  let* k := del_dec F P b in
  Ok (inv_t (del_key mk) = inv_t k).

(** complex_access_policy_test, engine_tests.rs:172-257. The access policy [ap] is read
    from a text, and again from its own JSON, by external crates. The axes of
    engine_tests.rs:176-190 *)
Definition entities : list string := ["BCEF"; "BNPPF"; "CIB"; "CashMgt"]%string.
Definition countries : list string := ["France"; "Germany"; "Italy"; "Hungary"; "Spain"; "Belgium"]%string.
Definition complex_access_policy (it : nat -> iteration) (ap : access_policy) (msg : Gt B) : test :=
  let* p := unwrapped (add_axis (new_policy 100) "Entity" entities false) in
  let* p := unwrapped (add_axis p "Country" countries false) in
  let* mk := unwrapped (eng_master_key p mdraw) in
  let* _ := unwrapped (policy_to_msp (it 0%nat) P p ap) in
  let* uk := unwrapped (eng_user_key P (it 1%nat) p (priv_key mk) ap (draw 0%nat)) in
  let* _ := assert_err (eng_encrypt P p (pub_key mk) [("Bad_Entity", "BNPPF"); ("Country", "France")]%string msg s) in
  let* ct := unwrapped (eng_encrypt P p (pub_key mk) [("Entity", "BNPPF"); ("Country", "France")]%string msg s) in
  let* d := unwrapped (eng_decrypt ct uk) in let* clear := expect d in
  let* uk' := unwrapped (eng_user_key P (it 2%nat) p (priv_key mk) ap (draw 1%nat)) in
  let* d := unwrapped (eng_decrypt ct uk') in let* clear' := expect d in
  Ok (msg = clear /\ msg = clear').
End Core.

(** The tests that read keys from files kept beside them: the bytes in the files are
    arguments, as is the policy read from them. *)
Section Files.
Context {B : BilinearMap}.
Local Notation K := (bm_K B).
Variable P : platform.
Variable F : byte_forms B.
Variable shake : list byte -> nat -> list byte.
Variable S : sym_scheme.
Variables (pub_file user_file : list byte) (p : policy).
Variables (random : Gt B) (s : K) (nonce nonce' : list byte).

(** tests/mod.rs:43-46, ffi/tests.rs:44-47, engine_tests.rs:142-145 *)
Definition file_attrs : list attribute := [("Department", "FIN"); ("Security Level", "Top Secret")]%string.
(** tests/mod.rs:47-50 *)
Definition test_meta : metadata :=
  mkMeta [x01; x02; x03; x04; x05; x06; x07; x08; x09] (Some [x0a; x0b; x0c; x0d; x0e]).

(** symmetric_key_test, engine_tests.rs:128-158; the rest, 160-171, makes keys that are
    printed *)
Definition symmetric_key_test : test :=
  let* pk := unwrapped (pub_dec F P pub_file) in
  let* uk := unwrapped (user_dec F P user_file) in
  let* (k, ek) := unwrapped (generate_symmetric_key P F shake p pk file_attrs 32 random s) in
  let* k' := unwrapped (decrypt_symmetric_key P F shake uk ek 32) in
  Ok (length k = 32%nat /\ k = k').

(** test_aes_hybrid_encryption, tests/mod.rs:26-102; MAX_CLEAR_TEXT_SIZE is that of
    tests/mod.rs:24, and the overhead is symmetric_encryption_overhead *)
Definition aes_hybrid_encryption : test :=
  let* pk := pub_dec F P pub_file in
  let* h := encrypt_hybrid_header S F shake P p pk file_attrs (Some test_meta) random s nonce in
  let clear := [x01; x02; x03; x04; x05; x06; x07; x08; x09] in
  let* block := encrypt_hybrid_block S 1073741824 (eh_key h) (uid test_meta) 0 nonce' clear in
  let* uk := user_dec F P user_file in
  let* _ := user_enc F P uk in
  let* c := decrypt_hybrid_header S F shake P uk (eh_bytes h) in
  let* clear' := decrypt_hybrid_block S 1073741824 (ch_key c) (uid (ch_meta c)) 0 block in
  Ok (length (eh_key h) = 32%nat /\ blen clear + overhead S = blen block /\ eh_key h = ch_key c /\ test_meta = ch_meta c /\ clear = clear').

Variable policy_from : list byte -> outcome policy.
Variable attributes_parse : string -> outcome (list attribute).
Variable access_parse : string -> outcome access_policy.

(** test_generate_keys, wasm_bindgen/tests.rs:63-97; [policy_json] are the bytes of the
    policy of lines 42-62 *)
Definition wasm_generate_keys (policy_json : list byte) (it : iteration) (mdraw kdraw : nat -> K) : test :=
  let* master := unwrapped (w_generate_master_keys F policy_from policy_json mdraw) in
  let size := from_be (firstn 4 master) in
  let* priv := (if 4 + size <=? blen master then Ok (firstn (N.to_nat size) (skipn 4 master)) else Panic SliceOutOfRange) in
  let* _ := unwrapped (priv_dec F P priv) in
  let* _ := unwrapped (pub_dec F P (skipn (N.to_nat (4 + size)) master)) in
  let* _ := unwrapped (w_generate_user_private_key P F policy_from access_parse it priv "Department::FIN && Security Level::Top Secret" policy_json kdraw) in
  Ok True.

(** test_decrypt_hybrid_header, wasm_bindgen/tests.rs:99-150 *)
Definition wasm_decrypt_header : test :=
  let* pk := unwrapped (pub_dec F P pub_file) in
  let* l := unwrapped (attributes_parse "Department::FIN, Security Level::Top Secret") in
  let* h := unwrapped (encrypt_hybrid_header S F shake P p pk l (Some test_meta) random s nonce) in
  let* c := unwrapped (w_decrypt_hybrid_header P F shake S user_file (eh_bytes h)) in
  let* _ := unwrapped (ch_dec S P c) in
  Ok True.

(** new Uint8Array("12345678"), wasm_bindgen/tests.rs:189: a text is read as the number of
    bytes, all zero. The number is 12345678 in the test. *)
Definition js_uid (size : N) : list byte := repeat x00 (N.to_nat size).

(** test_encrypt_hybrid_header, wasm_bindgen/tests.rs:168-217; [policy_file] are the bytes
    of the policy *)
Definition wasm_encrypt_header (size : N) (policy_file : list byte) : test :=
  let* e := unwrapped (w_encrypt_hybrid_header P F shake S policy_from attributes_parse policy_file pub_file
              "Department::FIN, Security Level::Top Secret" (js_uid size) random s nonce) in
  let* h := unwrapped (eh_dec S P e) in
  let* uk := unwrapped (user_dec F P user_file) in
  let* _ := unwrapped (decrypt_hybrid_header S F shake P uk (eh_bytes h)) in
  Ok True.

(** test_encrypt_hybrid_block, wasm_bindgen/tests.rs:219-247; the key and the uid are
    those of the file, of 32 bytes each *)
Definition wasm_encrypt_block (key u : list byte) : test :=
  let* key' := unwrapped (array_from (key_length S) key) in
  let* c := unwrapped (w_encrypt_hybrid_block S key (Some u) (Some 0) [x01; x02; x03; x04; x05; x06; x07; x08] nonce) in
  let* _ := unwrapped (decrypt_hybrid_block S 1073741824 key' u 0 c) in
  Ok True.
End Files.
