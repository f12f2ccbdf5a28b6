{
 "claims": [
  {
   "property": "C01",
   "status": "proved",
   "theorems": [
    "C01_authorised_decrypts",
    "C01_pipeline"
   ],
   "note": "for every instance of the bilinear map laws; C01_pipeline shows that every step succeeds under explicit conditions on the draws and the attribute range"
  },
  {
   "property": "C02",
   "status": "proved",
   "theorems": [
    "C02_unauthorised_never_decrypts"
   ],
   "note": "both outcomes (None, error) are characterised exactly"
  },
  {
   "property": "C03",
   "status": "proved",
   "theorems": [
    "C03_span_program_computes_formula"
   ],
   "note": "for every field and every set of attributes, also undecidable ones"
  },
  {
   "property": "C04",
   "status": "proved",
   "theorems": [
    "C04_span_solver",
    "C04_empty_matrix_is_an_error",
    "C04_errors_exactly",
    "C04_short_row_panics",
    "C04_long_rows_are_cut",
    "C04_panics_exactly"
   ],
   "note": "soundness, completeness, totality and absence of panics on non-empty rectangular matrices; matrices without rows or columns are errors; ragged matrices: a row shorter than the first makes it panic, what exceeds the length of the first row is ignored"
  },
  {
   "property": "C05",
   "status": "proved",
   "theorems": [
    "C05_policy_access_control",
    "C05_pipeline"
   ],
   "note": "for every policy made by add_axis and rotate; the contract of abe_policy is part of the model"
  },
  {
   "property": "C06",
   "status": "proved",
   "theorems": [
    "C06_more_attributes_keep_access"
   ],
   "note": "also for delegated and randomised keys"
  },
  {
   "property": "C07",
   "status": "proved",
   "theorems": [
    "C07_order_and_repetition_irrelevant"
   ],
   "note": "also for delegated and randomised keys"
  },
  {
   "property": "C08",
   "status": "proved",
   "theorems": [
    "C08_unsatisfying_shares_hide_secret"
   ],
   "note": "the offset of the draws does not depend on the draws, so it is a bijection between the draws for the two secrets"
  },
  {
   "property": "C09",
   "status": "proved",
   "theorems": [
    "C09_collusion_useless"
   ],
   "note": "exact (equivalence), for fields with more than two elements; exponents of the strategy are fixed before the secrets are drawn; third parties delegate to narrower formulas only, the attacker delegates as it likes"
  },
  {
   "property": "C10",
   "status": "proved",
   "theorems": [
    "C10_delegation_to_restriction"
   ],
   "note": "includes that the delegation succeeds"
  },
  {
   "property": "C100",
   "status": "proved",
   "theorems": [
    "C100_exact",
    "C100_unchanged_attributes",
    "C100_separate_rotations_refuted",
    "C100_reordered_axes_refuted"
   ],
   "note": "settled negatively for separate rotations and reordered axes, with the exact condition; proved for attributes that the copy leaves alone. Names on an axis are distinct"
  },
  {
   "property": "C101",
   "status": "proved",
   "theorems": [
    "C101_encryption",
    "C101_key_generation",
    "C101_refresh",
    "C101_refuted"
   ],
   "note": "settled negatively for encryption and refreshing, with the exact condition; key generation reports. Names on an axis are distinct"
  },
  {
   "property": "C102",
   "status": "proved",
   "theorems": [
    "C102_only_zero_secrets",
    "C102_zero_secret_refuted",
    "C102_refuted"
   ],
   "note": "settled negatively, with the exact condition. Names on an axis are distinct"
  },
  {
   "property": "C103",
   "status": "proved",
   "theorems": [
    "C103_refresh",
    "C103_delegation",
    "C103_refuted"
   ],
   "note": "settled negatively for refreshing, with the exact condition; delegation proved safe for keys with a part per row"
  },
  {
   "property": "C104",
   "status": "proved",
   "theorems": [
    "C104_rarely_told_apart",
    "C104_negligible",
    "C104_one_answer",
    "C104_entitled_tell_apart"
   ],
   "note": "attackers that only multiply, raise to powers, pair and compare elements; one encryption; C104_negligible from the contract of the curve library"
  },
  {
   "property": "C105",
   "status": "proved",
   "theorems": [
    "C105_exact",
    "C105_headers",
    "C105_refuted"
   ],
   "note": "settled negatively, with the exact condition"
  },
  {
   "property": "C106",
   "status": "proved",
   "theorems": [
    "C106_never_crash",
    "C106_master_keys",
    "C106_user_key",
    "C106_user_key_crashes",
    "C106_encrypt_header",
    "C106_decrypt_header",
    "C106_refuted"
   ],
   "note": "settled negatively, with the exact conditions; user keys: only zero secrets, and these whenever a key of the same size gives a user key. Release build for 64 bits; names on an axis are distinct"
  },
  {
   "property": "C107",
   "status": "proved",
   "theorems": [
    "C107_rarely_told_apart",
    "C107_negligible",
    "C107_one_answer"
   ],
   "note": "attackers that only multiply, raise to powers, pair and compare elements; any number of encryptions; C107_negligible from the contract of the curve library"
  },
  {
   "property": "C108",
   "status": "proved",
   "theorems": [
    "C108_never_panic",
    "C108_master_keys",
    "C108_user_key",
    "C108_user_key_panics",
    "C108_encrypt_header",
    "C108_encrypt",
    "C108_decrypt_header",
    "C108_decrypt",
    "C108_refreshed_key",
    "C108_delegated_key",
    "C108_delegated_key_panics",
    "C108_refuted"
   ],
   "note": "settled negatively, with the exact conditions; user keys and delegation: necessary conditions that are sufficient where the same call gives a key for other bytes. Release build for 64 bits; names on an axis are distinct"
  },
  {
   "property": "C109",
   "status": "proved",
   "theorems": [
    "C109_oversized",
    "C109_never_panic",
    "C109_master_keys",
    "C109_user_key",
    "C109_user_key_panics",
    "C109_encrypt_header",
    "C109_decrypt_header",
    "C109_caches",
    "C109_short_keys",
    "C109_refuted"
   ],
   "note": "settled negatively, with the exact conditions; user keys: necessary conditions, the one on zeros sufficient where the same call gives a key for other bytes. Release build for 32 bits or more; names on an axis are distinct"
  },
  {
   "property": "C11",
   "status": "proved",
   "theorems": [
    "C11_or_to_and_refuted",
    "C11_or_to_and_gives_wrong_message"
   ],
   "note": "settled negatively: the documented behaviour is refuted by a witness, and for all draws with a non-trivial mask the delegated key returns a wrong message"
  },
  {
   "property": "C110",
   "status": "proved",
   "theorems": [
    "C110_rarely_noticed",
    "C110_negligible",
    "C110_one_answer",
    "C110_entitled"
   ],
   "note": "attackers that only multiply, raise to powers, pair, compare and hash elements; the hash function is ideal; C110_negligible from the contract of the curve library"
  },
  {
   "property": "C111",
   "status": "proved",
   "theorems": [
    "C111_solver_counts",
    "C111_attacker_solves",
    "C111_many_texts"
   ],
   "note": "the attributes of the ciphertexts are fixed before the keys are made; keys of others are delegated to narrower formulas; the problem is the one in asymmetric groups"
  },
  {
   "property": "C112",
   "status": "proved",
   "theorems": [
    "C112_headers"
   ],
   "note": "as C111; unrelated symmetric keys are hashes of random elements"
  },
  {
   "property": "C113",
   "status": "proved",
   "theorems": [
    "C113_hybrid",
    "C113_fair"
   ],
   "note": "as C112; the bound has the advantage against the symmetric scheme as a term"
  },
  {
   "property": "C114",
   "status": "proved",
   "theorems": [
    "C114_master_keys",
    "C114_user_keys",
    "C114_refreshed_keys",
    "C114_delegated_keys",
    "C114_headers",
    "C114_blocks",
    "C114_c_headers",
    "C114_c_blocks",
    "C114_c_master_keys",
    "C114_c_user_keys",
    "C114_py_headers",
    "C114_py_blocks",
    "C114_py_messages",
    "C114_py_master_keys",
    "C114_py_user_keys",
    "C114_py_delegated_keys",
    "C114_w_headers",
    "C114_w_blocks",
    "C114_w_master_keys",
    "C114_w_user_keys"
   ],
   "note": "user keys are compared for one iteration order of the hash maps; blocks are assumed to start with their nonce"
  },
  {
   "property": "C115",
   "status": "proved",
   "theorems": [
    "C115_older_key",
    "C115_newer_key",
    "C115_blocks",
    "C115_python_messages",
    "C115_header_size",
    "C115_messages"
   ],
   "note": "the external symmetric scheme is assumed to be the same on all machines; functions with caches through C52 and C79"
  },
  {
   "property": "C116",
   "status": "proved",
   "theorems": [
    "C116_enough_room",
    "C116_same_or_aborted",
    "C116_too_deep_refuted",
    "C116_all_exact",
    "C116_every_stack_refuted"
   ],
   "note": "settled negatively, with an upper and a lower bound of the needed depth, exact for the key for all attributes"
  },
  {
   "property": "C117",
   "status": "proved",
   "theorems": [
    "C117_master_keys",
    "C117_user_keys",
    "C117_refreshed_keys",
    "C117_any_user_key",
    "C117_headers",
    "C117_made_masters",
    "C117_made_user_keys",
    "C117_c_room",
    "C117_made_headers"
   ],
   "note": "the external symmetric scheme is assumed to add a tag of constant size"
  },
  {
   "property": "C118",
   "status": "proved",
   "theorems": [
    "C118_accepted_exactly",
    "C118_same_front",
    "C118_outsiders",
    "C118_padded",
    "C118_exchanged",
    "C118_stripped_refuted",
    "C118_exchanged_refuted",
    "C118_padded_refuted",
    "C118_stripped_message",
    "C118_exchanged_message_refuted",
    "C118_readers"
   ],
   "note": "settled negatively, with an exact description of the accepted bytes"
  },
  {
   "property": "C119",
   "status": "proved",
   "theorems": [
    "C119_decrypt_result",
    "C119_parse_result",
    "C119_to_msp_result",
    "C119_decrypt",
    "C119_access_policies",
    "C119_bytes",
    "C119_parse",
    "C119_parse_at_least",
    "C119_to_msp"
   ],
   "note": ""
  },
  {
   "property": "C12",
   "status": "proved",
   "theorems": [
    "C12_delegating_to_all_rerandomises"
   ],
   "note": "for keys obtained by any generations, delegations to any formula and randomisations"
  },
  {
   "property": "C120",
   "status": "proved",
   "theorems": [
    "C120_chosen_attributes",
    "C120_one_of_each_axis",
    "C120_chosen_headers",
    "C120_chosen_seals"
   ],
   "note": ""
  },
  {
   "property": "C121",
   "status": "proved",
   "theorems": [
    "C121_library",
    "C121_python",
    "C121_wasm",
    "C121_wasm_caches",
    "C121_c",
    "C121_no_difference",
    "C121_decoders",
    "C121_refuted"
   ],
   "note": "the last part is settled negatively, as stated; release builds for 32 bits are the subject of C77"
  },
  {
   "property": "C122",
   "status": "proved",
   "theorems": [
    "C122_history",
    "C122_delegation",
    "C122_delegation_error",
    "C122_included_sound",
    "C122_header"
   ],
   "note": "the exact error is given for policies within the slots of the master key; the case outside is C41"
  },
  {
   "property": "C123",
   "status": "proved",
   "theorems": [
    "C123_not_narrower",
    "C123_working_delegations",
    "C123_from_disjunction",
    "C123_conjunction_wrong",
    "C123_key_for_all",
    "C123_demo_refuted"
   ],
   "note": "C123_demo_refuted: what the comments of the demonstration say of the super delegate does not hold"
  },
  {
   "property": "C124",
   "status": "proved",
   "theorems": [
    "C124_demo",
    "C124_unused_key",
    "C124_refusals",
    "C124_beyond",
    "C124_delegable"
   ],
   "note": ""
  },
  {
   "property": "C125",
   "status": "proved",
   "theorems": [
    "C125_keeps",
    "C125_exactly",
    "C125_included"
   ],
   "note": ""
  },
  {
   "property": "C126",
   "status": "proved",
   "theorems": [
    "C126_private_key",
    "C126_delegation_key",
    "C126_user_key",
    "C126_interfaces",
    "C126_exchanged",
    "C126_refuted"
   ],
   "note": "the part about user keys given as delegation keys is refuted"
  },
  {
   "property": "C127",
   "status": "proved",
   "theorems": [
    "C127_master_keys",
    "C127_user_key",
    "C127_refreshed_key",
    "C127_delegated_key",
    "C127_message",
    "C127_session"
   ],
   "note": ""
  },
  {
   "property": "C128",
   "status": "proved",
   "theorems": [
    "C128_demo"
   ],
   "note": ""
  },
  {
   "property": "C129",
   "status": "proved",
   "theorems": [
    "C129_master_keys",
    "C129_user_key",
    "C129_header",
    "C129_session"
   ],
   "note": ""
  },
  {
   "property": "C13",
   "status": "proved",
   "theorems": [
    "C13_no_new_attribute"
   ],
   "note": "never Ok; the exact error when the attributes are within the key range"
  },
  {
   "property": "C130",
   "status": "proved",
   "theorems": [
    "C130_refusals",
    "C130_notebook"
   ],
   "note": ""
  },
  {
   "property": "C131",
   "status": "proved",
   "theorems": [
    "C131_texts",
    "C131_same_calls",
    "C131_block_text_refuted"
   ],
   "note": "The last clause is a refutation: the words are wrong for blocks that Python fails to decrypt."
  },
  {
   "property": "C132",
   "status": "proved",
   "theorems": [
    "C132_block",
    "C132_pieces",
    "C132_refreshed_key",
    "C132_delegated_key",
    "C132_message"
   ],
   "note": ""
  },
  {
   "property": "C133",
   "status": "proved",
   "theorems": [
    "C133_decrypting_tests",
    "C133_encoding_tests",
    "C133_engine_test",
    "C133_file_tests",
    "C133_block_test",
    "C133_key_test"
   ],
   "note": ""
  },
  {
   "property": "C134",
   "status": "proved",
   "theorems": [
    "C134_direct_test",
    "C134_cached_test"
   ],
   "note": ""
  },
  {
   "property": "C135",
   "status": "proved",
   "theorems": [
    "C135_headers",
    "C135_same_shape",
    "C135_opened",
    "C135_withheld_refuted",
    "C135_retry_refuted",
    "C135_blocks",
    "C135_blocks_safe"
   ],
   "note": "the statement includes the two cases where reuse goes wrong"
  },
  {
   "property": "C136",
   "status": "proved",
   "theorems": [
    "C136_result",
    "C136_bytes",
    "C136_user_key",
    "C136_any_key",
    "C136_user_key_refuted"
   ],
   "note": "the statement includes the bytes that take 128 GiB; counts of allocations, not what the system does with them"
  },
  {
   "property": "C137",
   "status": "proved",
   "theorems": [
    "C137_user_key",
    "C137_key_for_all",
    "C137_delegation",
    "C137_encryption",
    "C137_python",
    "C137_key_refused",
    "C137_encryption_refused"
   ],
   "note": "errors are those of the library, as values; the axes list no name twice and the master keys have a slot for every value"
  },
  {
   "property": "C138",
   "status": "proved",
   "theorems": [
    "C138_result",
    "C138_master_keys",
    "C138_user_key",
    "C138_delegated_key",
    "C138_refreshed_key",
    "C138_encryption",
    "C138_decryption",
    "C138_reached",
    "C138_most",
    "C138_any_decryption"
   ],
   "note": "counts of the operations of the trait BilinearMap and of the two loops of prod_gt_exp; what one operation costs is not modelled"
  },
  {
   "property": "C139",
   "status": "proved",
   "theorems": [
    "C139_unique",
    "C139_ciphertext",
    "C139_key",
    "C139_top"
   ],
   "note": "the order in which the README numbers its axes is that of a policy to which Department was added first"
  },
  {
   "property": "C14",
   "status": "proved",
   "theorems": [
    "C14_delegation_chains_stay_exact",
    "C14_chain_steps_succeed"
   ],
   "note": "chains of any length"
  },
  {
   "property": "C140",
   "status": "proved",
   "theorems": [
    "C140_edit",
    "C140_history",
    "C140_rotations",
    "C140_interfaces",
    "C140_c",
    "C140_usable"
   ],
   "note": "which edits are refused follows the model of the external crate abe_policy; texts of policies and attributes are read and written by any functions, and policies can always be written; C callers offer a buffer that is large enough"
  },
  {
   "property": "C141",
   "status": "proved",
   "theorems": [
    "C141_inclusion",
    "C141_attributes",
    "C141_headers",
    "C141_laws"
   ],
   "note": "keys and ciphertexts of one version of the policy"
  },
  {
   "property": "C15",
   "status": "proved",
   "theorems": [
    "C15_delegation_gives_no_access"
   ],
   "note": "stated along one direction of the key generation draws: at most one draw on each line gives a delegated key that returns the message"
  },
  {
   "property": "C16",
   "status": "proved",
   "theorems": [
    "C16_private_key_roundtrip"
   ],
   "note": "64-bit usize; 1 to 2^32-2 slots; byte forms of the curve library as in forms_ok"
  },
  {
   "property": "C17",
   "status": "proved",
   "theorems": [
    "C17_public_key_roundtrip",
    "C17_delegation_key_roundtrip"
   ],
   "note": "64-bit usize; 1 to 2^32-2 slots; Gt value for which the library's compression round trips"
  },
  {
   "property": "C18",
   "status": "proved",
   "theorems": [
    "C18_user_key_roundtrip"
   ],
   "note": "every key obtained by generation, delegation and randomisation; at most 2^27 leaves, 64-bit usize"
  },
  {
   "property": "C19",
   "status": "proved",
   "theorems": [
    "C19_ciphertext_roundtrip"
   ],
   "note": "64-bit usize"
  },
  {
   "property": "C20",
   "status": "proved",
   "theorems": [
    "C20_empty_ciphertext_refuted",
    "C20_no_bytes_decode_to_empty_refuted"
   ],
   "note": "settled negatively: the encoding of a ciphertext without attributes never decodes to it"
  },
  {
   "property": "C21",
   "status": "proved",
   "theorems": [
    "C21_announced_length",
    "C21_announced_length_refuted"
   ],
   "note": "true for n >= 1; settled negatively for n = 0 (288 bytes, 296 announced)"
  },
  {
   "property": "C22",
   "status": "proved",
   "theorems": [
    "C22_decoding_never_panics",
    "C22_only_overflow_panics",
    "C22_refuted"
   ],
   "note": "true without overflow checks; settled negatively with overflow checks (zero element count); 64-bit usize; exhaustion of memory not modelled"
  },
  {
   "property": "C23",
   "status": "proved",
   "theorems": [
    "C23_decrypting_decoded_never_panics",
    "C23_decoded_key_never_panics",
    "C23_refuted"
   ],
   "note": "true when the counts agree; settled negatively when the ciphertext lists more attributes than group elements"
  },
  {
   "property": "C24",
   "status": "proved",
   "theorems": [
    "C24_trailing_bytes_ignored",
    "C24_concatenation_splits"
   ],
   "note": "the empty delegation key is the exception"
  },
  {
   "property": "C25",
   "status": "proved",
   "theorems": [
    "C25_private_key_injective",
    "C25_public_key_injective",
    "C25_delegation_key_injective",
    "C25_user_key_injective",
    "C25_ciphertext_injective"
   ],
   "note": ""
  },
  {
   "property": "C26",
   "status": "proved",
   "theorems": [
    "C26_zero_count_rejected",
    "C26_zero_count_refuted"
   ],
   "note": "true for elements of more than four bytes, or with overflow checks; settled negatively for four-byte elements without overflow checks"
  },
  {
   "property": "C27",
   "status": "proved",
   "theorems": [
    "C27_hex_display_lossless",
    "C27_displayed_private_key",
    "C27_displayed_public_key",
    "C27_displayed_delegation_key",
    "C27_displayed_user_key",
    "C27_display_never_errors",
    "C27_display_panics"
   ],
   "note": ""
  },
  {
   "property": "C28",
   "status": "proved",
   "theorems": [
    "C28_scalar_decoding",
    "C28_scalar_roundtrip",
    "C28_scalar_in_keys"
   ],
   "note": "for the scalars modulo the order of BLS12-381, proved prime (bls_r_prime); the contract of Scalar::to_bytes/from_bytes of the curve library is part of the model"
  },
  {
   "property": "C29",
   "status": "proved",
   "theorems": [
    "C29_equal_plaintexts_same_padded",
    "C29_message_encoding_refuted",
    "C29_accepted_messages"
   ],
   "note": "settled negatively: trailing zero bytes are lost; injective up to them"
  },
  {
   "property": "C30",
   "status": "proved",
   "theorems": [
    "C30_from_i32"
   ],
   "note": ""
  },
  {
   "property": "C31",
   "status": "proved",
   "theorems": [
    "C31_parser_accepts_the_grammar",
    "C31_grammar_unambiguous",
    "C31_deep_refuted"
   ],
   "note": "texts below 2^31 characters (the parenthesis counter is an i32); C31_deep_refuted shows that beyond this nesting a release build refuses texts of the grammar; exhaustion of the stack is the subject of C98"
  },
  {
   "property": "C32",
   "status": "proved",
   "theorems": [
    "C32_parser_never_panics",
    "C32_refuted",
    "C32_foreign_character",
    "C32_only_spaces",
    "C32_number_too_large"
   ],
   "note": "true below 2^31 characters; settled negatively beyond, with overflow checks; exhaustion of the stack not modelled"
  },
  {
   "property": "C33",
   "status": "proved",
   "theorems": [
    "C33_print_parse",
    "C33_print_injective"
   ],
   "note": "full and minimal parentheses, spaces anywhere; texts below 2^31 characters"
  },
  {
   "property": "C34",
   "status": "proved",
   "theorems": [
    "C34_compiles_iff_distinct"
   ],
   "note": ""
  },
  {
   "property": "C35",
   "status": "proved",
   "theorems": [
    "C35_unknown_attributes_refused"
   ],
   "note": "for every policy made by add_axis and rotate"
  },
  {
   "property": "C36",
   "status": "proved",
   "theorems": [
    "C36_all_inside_formula_refused",
    "C36_all_inside_formula_error"
   ],
   "note": "never a key on any policy; an error on every policy made by add_axis and rotate"
  },
  {
   "property": "C37",
   "status": "proved",
   "theorems": [
    "C37_rotation_revokes"
   ],
   "note": "exact outcome for a key older than the ciphertext"
  },
  {
   "property": "C38",
   "status": "proved",
   "theorems": [
    "C38_refreshed_key"
   ],
   "note": "exact outcome for a key newer than the ciphertext"
  },
  {
   "property": "C39",
   "status": "proved",
   "theorems": [
    "C39_all_key_decrypts"
   ],
   "note": ""
  },
  {
   "property": "C40",
   "status": "proved",
   "theorems": [
    "C40_refuted",
    "C40_all_key_revoked",
    "C40_all_key_exact"
   ],
   "note": "settled negatively: refused whenever all attributes were rotated; exact condition given"
  },
  {
   "property": "C41",
   "status": "proved",
   "theorems": [
    "C41_refuted",
    "C41_full_policy_refuted",
    "C41_every_attribute_usable_below"
   ],
   "note": "settled negatively for every policy filled to its limit; positive below the limit"
  },
  {
   "property": "C42",
   "status": "proved",
   "theorems": [
    "C42_too_many_attributes_refused",
    "C42_no_slot_refuted"
   ],
   "note": "true for public keys with at least one slot; with no slot and overflow checks the computation of the error message panics (refuted corner)"
  },
  {
   "property": "C43",
   "status": "proved",
   "theorems": [
    "C43_master_key_generation"
   ],
   "note": ""
  },
  {
   "property": "C44",
   "status": "proved",
   "theorems": [
    "C44_symmetric_key_roundtrip",
    "C44_key_depends_on_drawn_element"
   ],
   "note": "64-bit usize; Shake256 is an arbitrary function with outputs of the requested length"
  },
  {
   "property": "C45",
   "status": "proved",
   "theorems": [
    "C45_unauthorised_symmetric_key"
   ],
   "note": "64-bit usize; non-empty attribute list"
  },
  {
   "property": "C46",
   "status": "proved",
   "theorems": [
    "C46_header_roundtrip"
   ],
   "note": "64-bit usize; over every lawful symmetric scheme; non-empty attribute list"
  },
  {
   "property": "C47",
   "status": "proved",
   "theorems": [
    "C47_unauthorised_header",
    "C47_truncated_header"
   ],
   "note": "64-bit usize"
  },
  {
   "property": "C48",
   "status": "proved",
   "theorems": [
    "C48_encrypted_header_roundtrip",
    "C48_clear_header_roundtrip",
    "C48_decoding_panics_iff",
    "C48_refuted"
   ],
   "note": "round trips proved; the absence of panics is settled negatively, with the exact set of byte strings that panic"
  },
  {
   "property": "C49",
   "status": "proved",
   "theorems": [
    "C49_block_roundtrip",
    "C49_limits"
   ],
   "note": "over every lawful symmetric scheme"
  },
  {
   "property": "C50",
   "status": "proved",
   "theorems": [
    "C50_handles_unique",
    "C50_live_handle",
    "C50_handle_keys",
    "C50_destroyed_handle"
   ],
   "note": "up to 2^32 creations; calls that fail before touching the cache are not modelled"
  },
  {
   "property": "C51",
   "status": "proved",
   "theorems": [
    "C51_refuted"
   ],
   "note": "settled negatively: the counter wraps after 2^32 creations and a live cache is replaced"
  },
  {
   "property": "C52",
   "status": "proved",
   "theorems": [
    "C52_cached_encryption",
    "C52_cached_decryption",
    "C52_unknown_handle",
    "C52_concurrent_encryption",
    "C52_concurrent_decryption"
   ],
   "note": ""
  },
  {
   "property": "C53",
   "status": "proved",
   "theorems": [
    "C53_key_functions_memory_safe",
    "C53_block_functions_memory_safe",
    "C53_header_functions_memory_safe",
    "C53_negative_length_refuted",
    "C53_negative_block_length_refuted"
   ],
   "note": "proved for good arguments (length pointers not null, announced lengths non-negative and present); settled negatively for negative lengths"
  },
  {
   "property": "C54",
   "status": "proved",
   "theorems": [
    "C54_second_call",
    "C54_master_keys",
    "C54_user_key",
    "C54_rotation",
    "C54_encrypt_header",
    "C54_decrypt_header",
    "C54_encrypt_block_refuted",
    "C54_decrypt_block_refuted",
    "C54_empty_buffer_refuted"
   ],
   "note": "true for positive announced lengths; settled negatively for the block functions and for an announced length of 0"
  },
  {
   "property": "C55",
   "status": "proved",
   "theorems": [
    "C55_last_error",
    "C55_refuted"
   ],
   "note": "true for messages without NUL bytes; settled negatively for the others"
  },
  {
   "property": "C56",
   "status": "proved",
   "theorems": [
    "C56_master_keys_split"
   ],
   "note": "64-bit usize"
  },
  {
   "property": "C57",
   "status": "proved",
   "theorems": [
    "C57_header_size",
    "C57_refuted"
   ],
   "note": "settled negatively, with the exact result on every buffer"
  },
  {
   "property": "C58",
   "status": "proved",
   "theorems": [
    "C58_roundtrip",
    "C58_metadata_preserved",
    "C58_decrypt_panics",
    "C58_other_panics",
    "C58_block_limits",
    "C58_refuted"
   ],
   "note": "settled negatively for the second part: a header size larger than the message panics (C58_refuted), the exact set of panics is given; 64-bit usize, messages below 2^32 bytes"
  },
  {
   "property": "C59",
   "status": "proved",
   "theorems": [
    "C59_recovery_uses_minimal_subset"
   ],
   "note": ""
  },
  {
   "property": "C60",
   "status": "proved",
   "theorems": [
    "C60_delegated_policy_keys"
   ],
   "note": ""
  },
  {
   "property": "C61",
   "status": "proved",
   "theorems": [
    "C61_private_key",
    "C61_public_key",
    "C61_delegation_key",
    "C61_user_key",
    "C61_ciphertext",
    "C61_ciphertext_refuted",
    "C61_curve_scalars"
   ],
   "note": "settled negatively for ciphertexts without overflow checks; proved for keys and all other ciphertexts, on any target of at least 32 bits; assumes that the compressed forms of the curve library are canonical, which is proved for the scalars"
  },
  {
   "property": "C62",
   "status": "proved",
   "theorems": [
    "C62_key_exists_iff"
   ],
   "note": "up to the range of the master key, see C41"
  },
  {
   "property": "C63",
   "status": "proved",
   "theorems": [
    "C63_made_policies_never_panic",
    "C63_crafted_policy_refuted"
   ],
   "note": "settled negatively for crafted policies; true for policies made by add_axis and rotate"
  },
  {
   "property": "C64",
   "status": "proved",
   "theorems": [
    "C64_framing_never_panics",
    "C64_only_uneven_ciphertexts_panic",
    "C64_refuted"
   ],
   "note": "settled negatively: a header with an uneven ciphertext panics; without overflow checks nothing else does"
  },
  {
   "property": "C65",
   "status": "proved",
   "theorems": [
    "C65_trailing_bytes_ignored",
    "C65_bare_header_not_extendable"
   ],
   "note": ""
  },
  {
   "property": "C66",
   "status": "proved",
   "theorems": [
    "C66_program_roundtrip",
    "C66_refuted"
   ],
   "note": "round trip proved; second part settled negatively"
  },
  {
   "property": "C67",
   "status": "proved",
   "theorems": [
    "C67_null_pointers",
    "C67_null_length_refuted"
   ],
   "note": "true for inputs and buffers; settled negatively for the length pointers"
  },
  {
   "property": "C68",
   "status": "proved",
   "theorems": [
    "C68_functions_work_together"
   ],
   "note": "64-bit usize; the JSON readers are arbitrary functions; compressed forms of the target group as in C17 and C19"
  },
  {
   "property": "C69",
   "status": "proved",
   "theorems": [
    "C69_exclusion",
    "C69_stable",
    "C69_progress"
   ],
   "note": ""
  },
  {
   "property": "C70",
   "status": "proved",
   "theorems": [
    "C70_block_roundtrip",
    "C70_refused_block",
    "C70_block_numbers"
   ],
   "note": ""
  },
  {
   "property": "C71",
   "status": "proved",
   "theorems": [
    "C71_rotation_history",
    "C71_impossible_rotation",
    "C71_unknown_attribute"
   ],
   "note": ""
  },
  {
   "property": "C72",
   "status": "proved",
   "theorems": [
    "C72_header_after_rotation",
    "C72_header_before_rotation"
   ],
   "note": "64-bit usize; compressed forms of the target group as in C17 and C19"
  },
  {
   "property": "C73",
   "status": "proved",
   "theorems": [
    "C73_older_key",
    "C73_newer_key"
   ],
   "note": "64-bit usize, key bytes below 2^31, messages below 2^32 bytes, 1 to 2^32-2 attribute creations; JSON readers and the access policy parser are arbitrary functions"
  },
  {
   "property": "C74",
   "status": "proved",
   "theorems": [
    "C74_policy_history",
    "C74_rotation_history",
    "C74_limit_truncated",
    "C74_refuted"
   ],
   "note": "settled negatively for limits of 2^32 or more; proved below"
  },
  {
   "property": "C75",
   "status": "proved",
   "theorems": [
    "C75_delegated_as_fresh",
    "C75_randomised_as_fresh",
    "C75_derived_iff_generated"
   ],
   "note": "narrower formulas only (for the others see C11)"
  },
  {
   "property": "C76",
   "status": "proved",
   "theorems": [
    "C76_private_key",
    "C76_public_key",
    "C76_delegation_key",
    "C76_ciphertext",
    "C76_user_key",
    "C76_header"
   ],
   "note": "sizes below half the address space; compressed forms of the target group as in C17 and C19"
  },
  {
   "property": "C77",
   "status": "proved",
   "theorems": [
    "C77_only_capacity_panics",
    "C77_header_refuted",
    "C77_user_key_refuted",
    "C77_most_rows",
    "C77_too_many_rows_refuted"
   ],
   "note": "settled negatively, with the exact kind of panics"
  },
  {
   "property": "C78",
   "status": "proved",
   "theorems": [
    "C78_master_keys",
    "C78_older_key",
    "C78_newer_key"
   ],
   "note": "fewer than 2^19 attribute creations, user keys below 50 MB, headers below 2^31 bytes; the JSON readers and the parsers of texts are arbitrary functions; compressed forms of the target group as in C17 and C19"
  },
  {
   "property": "C79",
   "status": "proved",
   "theorems": [
    "C79_cached_encryption",
    "C79_cached_decryption",
    "C79_handles_distinct",
    "C79_empty_uid_refuted"
   ],
   "note": "proved for a non-empty uid and attribute text, settled negatively for an empty uid; headers below four bytes are refused by both functions, with different messages; at most 2^32 creations of a kind for the last part"
  },
  {
   "property": "C80",
   "status": "proved",
   "theorems": [
    "C80_unknown_handle_refuted",
    "C80_blocked_after_trap",
    "C80_free_otherwise"
   ],
   "note": "settled negatively; panics do not unwind on this target"
  },
  {
   "property": "C81",
   "status": "proved",
   "theorems": [
    "C81_hostile_header_refuted"
   ],
   "note": "settled negatively; 32-bit usize"
  },
  {
   "property": "C82",
   "status": "proved",
   "theorems": [
    "C82_block_roundtrip",
    "C82_block_limits"
   ],
   "note": ""
  },
  {
   "property": "C83",
   "status": "proved",
   "theorems": [
    "C83_rotation_history"
   ],
   "note": ""
  },
  {
   "property": "C84",
   "status": "proved",
   "theorems": [
    "C84_header_size",
    "C84_short",
    "C84_older_key",
    "C84_newer_key"
   ],
   "note": "limits as in C78"
  },
  {
   "property": "C85",
   "status": "proved",
   "theorems": [
    "C85_clear_exactly_when_zero",
    "C85_message_in_clear_refuted"
   ],
   "note": "settled negatively, with the exact condition"
  },
  {
   "property": "C86",
   "status": "proved",
   "theorems": [
    "C86_one_message",
    "C86_one_message_refuted"
   ],
   "note": "proved with at least one attribute, settled negatively without"
  },
  {
   "property": "C87",
   "status": "proved",
   "theorems": [
    "C87_message_can_be_changed",
    "C87_attributes_can_be_removed",
    "C87_modified_not_detected_refuted",
    "C87_bare_header_refuted",
    "C87_metadata_protects"
   ],
   "note": "settled negatively for messages and headers without metadata; proved for replaced encapsulated keys of headers with metadata, under a hypothesis on the symmetric scheme"
  },
  {
   "property": "C88",
   "status": "proved",
   "theorems": [
    "C88_same_outcome",
    "C88_at_most_one",
    "C88_one_attribute",
    "C88_wrong_message_refuted",
    "C88_bare_header_refuted"
   ],
   "note": "settled negatively, with the outcome of decryption in each case"
  },
  {
   "property": "C89",
   "status": "proved",
   "theorems": [
    "C89_product",
    "C89_prepared",
    "C89_laws",
    "C89_access"
   ],
   "note": "from the contract of the curve library: cyclic groups of prime order with a pairing and the law of multi_miller_loop"
  },
  {
   "property": "C90",
   "status": "proved",
   "theorems": [
    "C90_header_size",
    "C90_attributes_hidden_refuted"
   ],
   "note": "settled negatively: the attributes are computed from the header; non-empty attribute lists"
  },
  {
   "property": "C91",
   "status": "proved",
   "theorems": [
    "C91_threads_isolated",
    "C91_message_comes_back",
    "C91_bad_message",
    "C91_message_with_zero",
    "C91_texts",
    "C91_null_pointers",
    "C91_empty_buffer"
   ],
   "note": ""
  },
  {
   "property": "C92",
   "status": "proved",
   "theorems": [
    "C92_delivered_text",
    "C92_always_text_refuted"
   ],
   "note": "proved for large enough buffers, settled negatively for the others"
  },
  {
   "property": "C93",
   "status": "proved",
   "theorems": [
    "C93_formula_text",
    "C93_program_text",
    "C93_text_parses_refuted"
   ],
   "note": "proved for the first two parts, settled negatively for the last"
  },
  {
   "property": "C94",
   "status": "proved",
   "theorems": [
    "C94_accepted",
    "C94_program_of_text"
   ],
   "note": "texts below 2^31 characters"
  },
  {
   "property": "C95",
   "status": "proved",
   "theorems": [
    "C95_encrypt_header",
    "C95_decrypt_header",
    "C95_blocks",
    "C95_keys",
    "C95_negative_length_refuted",
    "C95_negative_uid_refuted",
    "C95_negative_data_refuted",
    "C95_null_handle_refuted"
   ],
   "note": "proved for announced lengths inside the memory, settled negatively for negative lengths and null handles; memory objects below half of the address space"
  },
  {
   "property": "C96",
   "status": "proved",
   "theorems": [
    "C96_roundtrip",
    "C96_every_resource",
    "C96_announced_overhead",
    "C96_rearranged",
    "C96_truncation_refuted"
   ],
   "note": "proved for every lawful symmetric scheme, settled negatively for missing blocks at the end; the refusal of rearrangements needs a scheme that binds the block number"
  },
  {
   "property": "C97",
   "status": "proved",
   "theorems": [
    "C97_equal_keys",
    "C97_refreshed_keys",
    "C97_different_keys_refuted"
   ],
   "note": "proved for the characterisation by the draws, settled negatively for formulas without a conjunction"
  },
  {
   "property": "C98",
   "status": "proved",
   "theorems": [
    "C98_enough_room",
    "C98_same_or_aborted",
    "C98_deep_formulas_refuted",
    "C98_long_formulas_refuted"
   ],
   "note": "settled negatively, with an upper and a lower bound of the needed depth; texts below 2^31 characters for the lower bound"
  },
  {
   "property": "C99",
   "status": "proved",
   "theorems": [
    "C99_rarely_found",
    "C99_negligible"
   ],
   "note": "plans that multiply pairings and powers with exponents fixed beforehand; the second theorem from the contract of the curve library. Keys that are entitled find every message: C09"
  }
 ]
}