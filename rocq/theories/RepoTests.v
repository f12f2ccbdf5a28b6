(** The tests of the repository that need no curve arithmetic, run on the model:
    /repo/src/core/tests and the key files kept there. Examples only: they compare
    the model with results the repository records for the program. *)
From Coq Require Import String Ascii NArith ZArith Bool Strings.Byte List.
From Verif Require Import Prelude Field Msp Bilinear Scheme Codec SchemeCodec Primality Zp ExpModel Bls Parser ParserSpec
  Policy PolicySpec Engine PropertiesParser PropertiesScheme PropertiesCodec PropertiesEngine.
Import ListNotations.
Local Open Scope N_scope.

Local Ltac vmr x := vm_cast_no_check (eq_refl x).

(** the helper to_msp of msp_tests.rs:12-14 *)
Definition text_to_msp (s : string) : outcome (msp Z) := let* f := parse pf64 (codes s) in to_msp pf64 f.
Definition is_ok {A} (o : outcome A) : bool := match o with Ok _ => true | _ => false end.
Definition is_error {A} (o : outcome A) : bool := match o with Err _ => true | _ => false end.

(** parsing, msp_tests.rs:16-44 *)
Example test_parsing :
  text_to_msp "1" = to_msp pf64 (Leaf 1) /\
  Forall (fun s => text_to_msp s = to_msp pf64 (And (Leaf 1) (Leaf 2)))
    ["1&2"; "(1&2)"; "((1&2))"; "((1)&(2))"; "((1))&((2))"; "(((1))&((2)))"]%string /\
  text_to_msp " 1 | 2 " = to_msp pf64 (Or (Leaf 1) (Leaf 2)) /\
  text_to_msp "1 & (4 | (2 & 3))" = to_msp pf64 (And (Leaf 1) (Or (Leaf 4) (And (Leaf 2) (Leaf 3)))) /\
  is_ok (text_to_msp "1 & (4 | (2 & 3))") = true /\ is_ok (text_to_msp "((1))&((2))") = true.
Proof.
  split; [vm_compute; reflexivity|]. split; [repeat (apply Forall_cons; [vm_compute; reflexivity|]); apply Forall_nil|].
  split; [vm_compute; reflexivity|]. split; [vm_compute; reflexivity|]. split; vm_compute; reflexivity.
Qed.

(** test_equality, msp_tests.rs:46-62 *)
Example test_equality :
  text_to_msp "1 & (4 | (2 & 3))" <> text_to_msp "1 & 2" /\ text_to_msp "1&2" <> text_to_msp "1|2".
Proof. split; vm_compute; discriminate. Qed.

(** parsing_multi, msp_tests.rs:64-72 *)
Example test_parsing_multi :
  forallb (fun s => is_ok (parse pf64 (codes s)))
    ["1 & (4 | (2 & 3))"; "(1 & 2) | (2 & 3)"; "1 | 2"; "1 | (2 & 3)"; "(1 & 2) | 3"]%string = true.
Proof. vm_compute. reflexivity. Qed.

(** parsing_fail, parsing_with_failures and parsing_with_bad_formula (which panic by
    unwrapping the error), msp_tests.rs:74-98 *)
Example test_parsing_fail :
  forallb (fun s => is_error (parse pf64 (codes s)))
    ["1 & 4 | (2 & 3))"; "(1 & 2)  (2 & 3)"; "1 | "; "1 | 2 & 3)"; "1 && (4 | (2 & 3))"; "1 && ((4 | 2 & 3)))"]%string = true.
Proof. vm_compute. reflexivity. Qed.

(** msp_as_bytes, msp_tests.rs:114-135 *)
Example test_msp_as_bytes : exists m b,
  to_msp pf64 (And (Leaf 1) (Or (Leaf 4) (And (Leaf 2) (Leaf 3)))) = Ok m /\
  msp_enc pf64 i32_codec m = Ok b /\ msp_dec pf64 i32_codec b = Ok m.
Proof.
  eexists _, _. split; [vm_compute; reflexivity|]. split; [vm_compute; reflexivity|]. vm_compute. reflexivity.
Qed.

(** leaf_already_inserted, msp_tests.rs:137-141: the formula is read, the program
    refused, unwrapping the error panics *)
Example test_leaf_already_inserted :
  is_ok (parse pf64 (codes "3 & (4 | (2 & 3))")) = true /\ is_error (text_to_msp "3 & (4 | (2 & 3))") = true.
Proof. split; vm_compute; reflexivity. Qed.

(** encrypt_decrypt_with_multiple_key_pair, gpsw_tests.rs:127-182, with the exponents
    modulo 101 in the place of the points *)
Definition text_key (s : string) : outcome (decryption_key toy) :=
  let* m := text_to_msp s in key_generation m (priv_key ex_mk) ex_kdraw.
Definition text_decrypt (s : string) : outcome (option (Gt toy)) :=
  let* k := text_key s in
  let* ct := encrypt pf64 ex_msg [1; 2] (pub_key ex_mk) ex_s in
  decrypt ct k.
Example test_multiple_key_pair :
  Forall (fun s => text_decrypt s = Ok (Some ex_msg)) ["1 | 2"; "1 & 2"; "1"; "1 | 3"]%string /\
  text_decrypt "1 & 3" = Ok None.
Proof.
  split.
  - repeat (apply Forall_cons; [vmr (@Ok (option (Gt toy)) (Some ex_msg))|]). apply Forall_nil.
  - vmr (@Ok (option (Gt toy)) None).
Qed.

(** policy_group_from_java, policy_tests.rs:86-106: after one rotation of
    Department::HR the values kept are 10, the current one, and 6 *)
Definition java_ops : list op :=
  [AddAxis "Security Level" ["level 1"; "level 2"; "level 3"; "level 4"; "level 5"] true;
   AddAxis "Department" ["HR"; "MKG"; "R&D"; "fin"] false; Rotate ("Department", "HR")]%string.
Definition java_policy : policy := run (new_policy 0) (run_ops java_ops (new_policy 1000)).
Example test_policy_group_from_java :
  run_ops java_ops (new_policy 1000) = Ok java_policy /\
  last_attribute_value java_policy = 10 /\ max_attribute_creations java_policy = 1000 /\
  axis_get java_policy "Department" = Some (["HR"; "MKG"; "R&D"; "fin"]%string, false) /\
  Forall (fun e => heap_get java_policy (fst e) = Some (snd e))
    [(("Security Level", "level 5"), [5]); (("Security Level", "level 3"), [3]); (("Department", "HR"), [10; 6]);
     (("Department", "R&D"), [8]); (("Security Level", "level 4"), [4]); (("Security Level", "level 1"), [1]);
     (("Department", "MKG"), [7]); (("Security Level", "level 2"), [2]); (("Department", "fin"), [9])]%string.
Proof.
  split; [vm_compute; reflexivity|]. split; [vm_compute; reflexivity|]. split; [vm_compute; reflexivity|].
  split; [vm_compute; reflexivity|]. repeat (apply Forall_cons; [vm_compute; reflexivity|]). apply Forall_nil.
Qed.

(** verify_access_policy, policy_tests.rs:169-204 *)
Definition verify_policy : policy := run (new_policy 0) (run_ops
  [AddAxis "Level"%string ["level 1"%string; "level 2"%string; "level 3"%string; "level 4"%string; "level 5"%string] true;
   AddAxis "Department"%string ["R&D"%string; "HR"%string; "MKG"%string; "fin"%string] false] (new_policy 1000)).
Definition verify_ap (a : attribute) : access_policy :=
  AAnd (AOr (AAttr a) (AAttr ("Department"%string, "R&D"%string))) (AAttr ("Level"%string, "level 2"%string)).
Example test_verify_access_policy :
  is_ok (policy_to_msp it_rev pf64 verify_policy (verify_ap ("Department"%string, "HR"%string))) = true /\
  is_error (policy_to_msp it_rev pf64 verify_policy (verify_ap ("Axis_Name_Not_Existing_in_Policy"%string, "HR"%string))) = true /\
  is_error (policy_to_msp it_rev pf64 verify_policy
    (verify_ap ("Department"%string, "Attribute_Value_Not_Existing_in_Policy"%string))) = true.
Proof. split; [vm_compute; reflexivity|]. split; vm_compute; reflexivity. Qed.

(** complex_access_policy_test, engine_tests.rs:161-254, with the exponents modulo
    101 and a limit of 20 values instead of 100 (draws of this instance are not all
    invertible beyond) *)
Definition bnppf_policy : policy := run (new_policy 0) (run_ops
  [AddAxis "Entity"%string ["BCEF"%string; "BNPPF"%string; "CIB"%string; "CashMgt"%string] false;
   AddAxis "Country"%string ["France"%string; "Germany"%string; "Italy"%string; "Hungary"%string; "Spain"%string; "Belgium"%string] false] (new_policy 20)).
Definition country (c : string) : access_policy := AAttr ("Country"%string, c).
Definition bnppf_ap : access_policy :=
  AAnd (AAttr ("Entity"%string, "BNPPF"%string))
       (AOr (country "France"%string) (AOr (country "Germany"%string) (AOr (country "Italy"%string) (AOr (country "Hungary"%string)
         (AOr (country "Spain"%string) (country "Belgium"%string)))))).
Definition bnppf_run (l : list attribute) : outcome (option (Gt toy)) :=
  let* mk := @eng_master_key toy bnppf_policy ex_draw in
  let* uk := eng_user_key pf64 it_rev bnppf_policy (priv_key mk) bnppf_ap ex_kdraw in
  let* ct := eng_encrypt pf64 bnppf_policy (pub_key mk) l ex_msg ex_s in
  eng_decrypt ct uk.
Example test_complex_access_policy :
  bnppf_run [("Entity"%string, "BNPPF"%string); ("Country"%string, "France"%string)] = Ok (Some ex_msg) /\
  is_error (bnppf_run [("Bad_Entity"%string, "BNPPF"%string); ("Country"%string, "France"%string)]) = true.
Proof. split; [vmr (@Ok (option (Gt toy)) (Some ex_msg))|vmr true]. Qed.

(** ** The key files kept beside the tests
    They were written by the program itself. What does not need the curve is checked
    here: the layout of the bytes, the scalars, the program of the key. *)

(** hex::decode on the files; pairs of lower case digits *)
Definition nibble (c : ascii) : option N :=
  let n := N_of_ascii c in
  if (48 <=? n) && (n <=? 57) then Some (n - 48) else if (97 <=? n) && (n <=? 102) then Some (n - 87) else None.
Fixpoint unhex (s : string) : list byte :=
  match s with
  | String a (String b t) =>
      match nibble a, nibble b with
      | Some x, Some y => byte_of (16 * x + y) :: unhex t
      | _, _ => []
      end
  | _ => []
  end.

(** The scalars of the curve; points are kept as the bytes read. No law is claimed
    for this instance: only encodings are computed with it. *)
Definition raw_points : BilinearMap := mkBilinearMap bls_K (list byte) (list byte) (list byte) (list byte)
  (msg_scalar bls_scalar_form) (fun _ => ([], [])) (fun _ => []) (fun a _ => (a, a)) (fun a _ => a)
  (fun _ => []) (fun a _ => a) (fun _ => []) (fun a _ => a) (fun a _ => a) (fun a _ => a) (fun _ _ _ => []) (fun a => a).
Definition raw_form : compressed (list byte) := mkCompressed (fun b => b) Some.
Definition raw_forms : byte_forms raw_points := mkForms raw_points bls_scalar_form raw_form raw_form raw_form 104 200 576.

(** symmetric_key_test, engine_tests.rs:118-158: user_decryption_key.txt *)
Definition file_user_key : list byte := unhex (
   "00000007a1b4fb791d4d3e5c31d2867f3f1f91c6f6b9ce242a07c7edc0e24f88716443836ed0f044632feb99e5d6a5e1c97cb3f109faac76123d7e3d2dd8755a" ++
   "9106e434e8add3ae1c7e3e1b47b4133a084192b75324c8e847436b17378d2db8f9b1d7cf8961aece1c0a8ab8c8b3007961d85ccd7114339c190845f97dd82871" ++
   "8e4d0c48fc7810fcd42d4772112906c2b6b00dea06507b66e7407cbccce3e06861146b0f6287c4df26dfb722fc2699f47bc040b4b15090c0d755b6087003ce1d" ++
   "02485f72ac80b905a093c3b79e80847a54e6dd0f65b525e55bc6f8bc7df992d6188ea959e0a966c9559e068254afdc1700fe31220ca58c1c44c710aa2dd6cf31" ++
   "76e7d5879a8b8a9c801ecccdb8aa04d112d54f5bf14662a1edd54cc5d1fda8098149ee6eb43275bd2de46713946bb64ca70f41cb0d79a11f455dccbb63da78c2" ++
   "eba3cf390a4f4b02f95b79f4ca158d2a307a897d1197986db80764f898d42bb49367295ae43c226403cb71b71df5a322e4278784f15de818ffde874c550a7dc4" ++
   "6cf51ef992f517f8e6edb223a9dbc3c0e2b85f01bd88610bd5e140ede1e979e4d6b23b54aabf09981354c95bb9506e148fe2f5ef1041d1287545cca94e2e1801" ++
   "c29de3cde6900a20f4b41b44a6c8af1a8863070fb7697f06b95fae9bbb9fc9f4c7f5d7ce8f2f90ace84c1836e8cfea952fd332d7df4c9e57749e3ff8213233c9" ++
   "6320808aa9f3cdd89f91cff7e87501d33f3aa66008e17c937319edd5b8e72c43acb99e8d6028e578274af6fd23cb23cd83f6865a78fa86dcdbc152d1fddb45c5" ++
   "4ab4a2dcb3f667107a91fbf44d3c610531a47a072f2208331863537ac06770dc52597d754a021b6abfc403ad32f36d8bc811bfd115e96d0d15fa8150b1c60d2b" ++
   "9c02a969b6d6766090b3c2acc624a63d454046159743201849cfcbe400181e345752484200000007000000020000000400000008000000090000000300000002" ++
   "00000005000000010100000000000000000000000000000000000000000000000000000000000000020000000000000000000000000000000000000000000000" ++
   "0000000000000000000000000000000000000000000000000000000000000000000000000000000000000000fffffffffe5bfeff02a4bd5305d8a10908d83933" ++
   "487d9d2953a7ed73000000000000000000000000000000000000000000000000000000000000000000000000fffffffffe5bfeff02a4bd5305d8a10908d83933" ++
   "487d9d2953a7ed730100000000000000000000000000000000000000000000000000000000000000020000000000000000000000000000000000000000000000" ++
   "00000000000000000100000000000000000000000000000000000000000000000000000000000000020000000000000000000000000000000000000000000000" ++
   "00000000000000000100000000000000000000000000000000000000000000000000000000000000020000000000000000000000000000000000000000000000" ++
   "00000000000000000100000000000000000000000000000000000000000000000000000000000000020000000000000000000000000000000000000000000000" ++
   "0000000000000000")%string.
(** test_aes_hybrid_encryption, /repo/src/interfaces/hybrid_crypto/tests/mod.rs:26-101:
    fin_top_secret_user_key.json *)
Definition file_user_key2 : list byte := unhex (
   "00000007985947b2a8578c3ad8a61edeb4380fcf2ebaebe066342ce931418f6dddb0ac239f1940e730c09192ddf3ab106734f5cd05069f18120c82b1c04bbb8e" ++
   "cbd29e2132657e311ea62be78587abf71eb19cf577df512971751bf2b9d69c26b1354733b60bbe12ccc9b65eac57fdc9deb80bf657a66c553c89a2b130c38545" ++
   "63b7c202cd146181966377380941ea3911811787065fb654183c57d9f296f0d1b02695be9623fc5ac214893cba8b93da76f344a254c8b406e59af4dfb659592c" ++
   "96aba19c834b0b02e94f0c483a7163d6db1143aed06ce9fe7938b9c6fc9241643ccd1ae7e941455527e82814f234309ac553b92c043d7ab9c77752b597400d85" ++
   "5e623183071919c85d6f5b7161bf60ce93102beb463d998171f2869e2777edd886f895ee8f8afef73ca83248ce107fa058c323af71969c446f592ae8cfcb769f" ++
   "286ed017035b0e774f564cad038e2fb26c0324c90e926a6393d2a65d8136a3d45819f15027800dfe4e2571945f7c9aaab6b9e26e1cf0c431e25dbf537b3e1695" ++
   "99d0aa09b49c9647fe8c5aad87564f765059a2f69eed3e62b885dcc6683a5df6cc823e35d8de2982af7642655aca8f66513f301a1349c4b4728a6d199e9fef93" ++
   "2213c8d01e99605859960ac4a862fd9da0fd94043bd457ba89dba257a164d63529d20cf3ae2c4a76ca584e0bd3ca3dd51e2fbf581361ef79024a47a2f268b79d" ++
   "8603b9f46de2086a6976c7c3291a147d97dcddb7193a44e1d0f869d3823c7318343a92e50f1e1a7f6d3142bc1b30d9590ce6760aae296e1ea152f5daf75066af" ++
   "55b403588495f0fde53b8198ad1b3761f7de5b08efd4a7b676841629d70e5acc4385764d8f6c2de48b9f503b7d51084cfe859c4308050240f7291ce738e75a15" ++
   "594da555b842ae36c37e5255f0f9e3a13d72cf030b3642878af35e72c0403abfcc6a7a2300000007000000020000000400000008000000090000000300000002" ++
   "00000005000000010100000000000000000000000000000000000000000000000000000000000000020000000000000000000000000000000000000000000000" ++
   "0000000000000000000000000000000000000000000000000000000000000000000000000000000000000000fffffffffe5bfeff02a4bd5305d8a10908d83933" ++
   "487d9d2953a7ed73000000000000000000000000000000000000000000000000000000000000000000000000fffffffffe5bfeff02a4bd5305d8a10908d83933" ++
   "487d9d2953a7ed730100000000000000000000000000000000000000000000000000000000000000020000000000000000000000000000000000000000000000" ++
   "00000000000000000100000000000000000000000000000000000000000000000000000000000000020000000000000000000000000000000000000000000000" ++
   "00000000000000000100000000000000000000000000000000000000000000000000000000000000020000000000000000000000000000000000000000000000" ++
   "00000000000000000100000000000000000000000000000000000000000000000000000000000000020000000000000000000000000000000000000000000000" ++
   "0000000000000000")%string.

(** policy.txt: the policy of the two key pairs *)
Definition file_policy : policy := run (new_policy 0) (run_ops
  [AddAxis "Security Level" ["Protected"; "Low Secret"; "Medium Secret"; "High Secret"; "Top Secret"] true;
   AddAxis "Department" ["R&D"; "HR"; "MKG"; "FIN"] false]%string (new_policy 100)).
(** An access policy which leads to the program in the two files; the one they were
    issued for is not recorded. *)
Definition file_ap : access_policy :=
  AAnd (AAttr (level "Top Secret")) (AOr (AAttr (dept "MKG")) (AAttr (dept "FIN"))).

(** rows of the program as integers, -1 for the scalar r-1 *)
Definition small (s : zp bls_mod) : Z := if (zval s <? 1000)%Z then zval s else (zval s - bls_r)%Z.
Definition shown (m : msp bls_K) : msp Z := msp_map (fun x : zp bls_mod => small x) m.
Definition same_bytes (a b : list byte) : bool := if list_eq_dec Byte.byte_eq_dec a b then true else false.

Definition check_file (bytes : list byte) : outcome (N * list N * list (list Z) * bool) :=
  let* k := user_dec raw_forms pf64 bytes in
  let* b := user_enc raw_forms pf64 k in
  Ok (N.of_nat (length (raw_d k)), row_to_attr (dk_msp k), matrix (shown (dk_msp k)), same_bytes b bytes).

(** Both files are read, with seven points and a program of seven rows, and written
    back to the same bytes. *)
Example file_keys_read : 
  let expected := Ok (7, [4; 8; 9; 3; 2; 5; 1], [[1; 2]; [0; -1]; [0; -1]; [1; 2]; [1; 2]; [1; 2]; [1; 2]]%Z, true) in
  check_file file_user_key = expected /\ check_file file_user_key2 = expected.
Proof. split; vm_compute; reflexivity. Qed.

(** The program in them is the one the model computes, row for row. *)
Example file_keys_program : exists m,
  policy_to_msp it_rev pf64 file_policy file_ap = Ok m /\
  row_to_attr m = [4; 8; 9; 3; 2; 5; 1] /\
  matrix m = [[1; 2]; [0; -1]; [0; -1]; [1; 2]; [1; 2]; [1; 2]; [1; 2]]%Z /\ nb_row m = 7%nat /\ nb_col m = 2%nat.
Proof. eexists. split; [vm_compute; reflexivity|]. repeat split. Qed.

(** The values used by symmetric_key_test. *)
Example file_policy_values : attributes_values file_policy [dept "FIN"; level "Top Secret"] = Ok [9; 5] /\
  last_attribute_value file_policy = 9.
Proof. split; vm_compute; reflexivity. Qed.

(** With the exponents modulo 101 and 20 values, the key for the same access policy opens what
    symmetric_key_test encrypts. *)
Definition file_run : outcome (option (Gt toy)) :=
  let* mk := @generate_master_key toy 20 ex_draw in
  let* uk := eng_user_key pf64 it_rev file_policy (priv_key mk) file_ap ex_kdraw in
  let* ct := eng_encrypt pf64 file_policy (pub_key mk) [dept "FIN"; level "Top Secret"] ex_msg ex_s in
  eng_decrypt ct uk.
Example test_symmetric_key : file_run = Ok (Some ex_msg).
Proof. vmr (@Ok (option (Gt toy)) (Some ex_msg)). Qed.
