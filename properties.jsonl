{"id": "C01", "title": "An authorised key recovers the message", "statement": "If a user key is generated from a master key for a boolean formula and a message is encrypted under the matching public key for a list of attributes that satisfies the formula, then decrypt returns Ok(Some(message)), the very message that was encrypted.", "quantifier": "for every And/Or formula with pairwise distinct attributes, every master key with non-zero attribute secrets, every message, every attribute list within the key range, and every value of all random draws (master key, key generation, encryption)", "why_tests_cant": "tests fix a handful of formulas and draw one random value each; the set of formulas and of random draws is infinite", "anchors": ["src/core/gpsw/scheme.rs: generate_master_key, key_generation, encrypt, decrypt, prod_scal", "src/core/msp.rs: Node::to_msp"]}
{"id": "C02", "title": "An unauthorised key never decrypts", "statement": "If the attribute list of a ciphertext does not satisfy the formula of a generated key, decrypt never returns a plaintext: it returns Ok(None) when the key and the ciphertext share at least one attribute and an error when they share none.", "quantifier": "for every formula, attribute list, message and all random draws", "why_tests_cant": "absence of a plaintext for all unsatisfying lists is a universal negative; tests only try a few lists", "anchors": ["src/core/gpsw/scheme.rs: decrypt, span_coefs", "src/core/msp.rs: Node::to_msp"]}
{"id": "C03", "title": "The span program built from a formula computes exactly that formula", "statement": "For the program produced by Node::to_msp, the rows labelled by a set of attributes span the all-ones vector if and only if the set satisfies the formula, over every field.", "quantifier": "for every formula with distinct leaves, every set of attributes, every field (all characteristics)", "why_tests_cant": "to_msp is a queue-driven loop with a shared column counter; its correctness for all tree shapes is inductive", "anchors": ["src/core/msp.rs: Node::to_msp, MonotoneSpanProgram"]}
{"id": "C04", "title": "The span solver is sound, complete, total and panic free", "statement": "span_coefs on any non-empty rectangular matrix terminates without panicking; it returns Some(coefficients) exactly when the rows span the all-ones vector, and the coefficients it returns do combine the rows to the all-ones vector, one coefficient per row. On rows of different lengths it panics exactly if a row is shorter than a non-empty first row, and ignores what exceeds the length of the first row; its only error is for inputs without a first entry.", "quantifier": "for every list of rows of any sizes over any field", "why_tests_cant": "Gauss-Jordan elimination has in-place updates that skip columns, an extraction loop and an explicit panic branch; tests run a few matrices", "anchors": ["src/core/gpsw/scheme.rs: span_coefs"]}
{"id": "C05", "title": "Policy level access control, including hierarchical axes", "statement": "A user key generated for an access policy decrypts a message encrypted for a list of policy attributes exactly when the access policy is true on the list, where an attribute of a hierarchical axis is also satisfied by any attribute placed below it on its axis.", "quantifier": "for every well formed policy (any number of axes, attributes, rotations), every access policy that mentions no attribute value twice, every list of policy attributes and all random draws", "why_tests_cant": "tests cover one or two fixed policies; the statement ranges over all policies and access policies", "anchors": ["src/core/engine.rs: generate_user_key, encrypt, decrypt", "src/core/msp.rs: policy_to_msp, policy_to_formula, policy_to_node"]}
{"id": "C06", "title": "Adding encryption attributes never takes access away", "statement": "If a generated key decrypts a message encrypted for an attribute list, it also decrypts the message encrypted for any list that contains it.", "quantifier": "for every formula, every pair of lists one included in the other, all random draws of both encryptions", "why_tests_cant": "monotonicity relates two runs with different inputs and randomness; no finite test set covers it", "anchors": ["src/core/gpsw/scheme.rs: encrypt, decrypt", "src/core/msp.rs: Node::to_msp"]}
{"id": "C07", "title": "Order and repetition of encryption attributes are irrelevant", "statement": "Two encryptions of the same message for lists holding the same attributes, in any order and with any repetitions, are decrypted with the same outcome (plaintext, None or error) by every generated key.", "quantifier": "for every formula, every two lists with the same elements, all random draws", "why_tests_cant": "relational statement over pairs of inputs with independent randomness", "anchors": ["src/core/gpsw/scheme.rs: encrypt, decrypt, span_coefs"]}
{"id": "C08", "title": "Shares of an unsatisfying attribute set reveal nothing about the master secret", "statement": "For an attribute set that does not satisfy the formula of a key, the key shares of that set are consistent with every value of the master secret: for any other secret there are other key-generation random draws that give exactly the same key elements on that set.", "quantifier": "for every formula, every unsatisfying set, every pair of master secrets and every draw", "why_tests_cant": "it is an information-theoretic statement that compares all possible runs", "anchors": ["src/core/gpsw/scheme.rs: key_generation", "src/core/msp.rs: Node::to_msp"]}
{"id": "C09", "title": "Colluding keys cannot be combined to decrypt", "statement": "No linear combination of the pairings available to an adversary who holds the public key, the delegation key, a ciphertext and any number of user keys yields the mask of the message identically in the secrets, unless one of these keys on its own has a formula satisfied by the ciphertext attributes.", "quantifier": "for every number of user keys, all formulas, all attribute lists, all choices of combination coefficients", "why_tests_cant": "quantifies over all algebraic strategies of an attacker", "anchors": ["src/core/gpsw/scheme.rs: generate_master_key, key_generation, encrypt"]}
{"id": "C10", "title": "Delegation to a restriction of the policy gives a working key", "statement": "Delegating a user key to a formula obtained by replacing Or nodes by one of their children (also up to reordering and regrouping of Or and And operands) yields a key that decrypts exactly the ciphertexts whose attributes satisfy the new formula, and returns the original message.", "quantifier": "for every source formula, every restriction of it, every ciphertext and all random draws (master, key, delegation, encryption)", "why_tests_cant": "ranges over pairs of formulas and four independent random streams", "anchors": ["src/core/engine.rs: delegate_user_key", "src/core/gpsw/scheme.rs: key_delegation"]}
{"id": "C11", "title": "Delegation that replaces an Or node by an And node gives a working key", "statement": "The documentation of delegate_user_key allows changing an Or node into an And node. The delegated key should then decrypt to the original message when the And is satisfied. (Expected by the documentation; it is false.)", "quantifier": "for every key, every ciphertext satisfying the And and all random draws", "why_tests_cant": "no test decrypts with such a key; that the plaintext is wrong for all random draws needs a proof", "anchors": ["src/core/engine.rs: delegate_user_key", "src/core/gpsw/scheme.rs: key_delegation, decrypt"]}
{"id": "C12", "title": "Delegating to All only re-randomises the key", "statement": "delegate_user_key with the access policy All returns a key over the same formula that decrypts exactly the same ciphertexts to the same messages as the source key, whatever that source key is.", "quantifier": "for every generated or delegated key, every ciphertext, all random draws", "why_tests_cant": "equality of behaviour on all ciphertexts", "anchors": ["src/core/engine.rs: delegate_user_key", "src/core/gpsw/scheme.rs: key_randomization"]}
{"id": "C13", "title": "Delegation cannot introduce an attribute", "statement": "Delegating a user key to a formula that mentions an attribute the key does not have returns an error; no key is produced.", "quantifier": "for every key, every formula within the key range, all random draws", "why_tests_cant": "universal over all formulas and keys", "anchors": ["src/core/gpsw/scheme.rs: key_delegation"]}
{"id": "C14", "title": "Any chain of delegations and randomisations keeps the key correct", "statement": "A key obtained by any finite sequence of delegations to restrictions and of randomisations decrypts exactly the ciphertexts whose attributes satisfy the last formula, to the original messages.", "quantifier": "for every length of the chain, every choice of steps and all random draws of every step", "why_tests_cant": "unbounded histories", "anchors": ["src/core/gpsw/scheme.rs: key_delegation, key_randomization, decrypt"]}
{"id": "C15", "title": "A delegated key gives no access beyond its source key", "statement": "For any delegation of a key, to any formula, and for ciphertext attributes that do not satisfy the formula of the source key, the delegated key is no better than a guess: along one fixed direction of the key generation draws, at most one draw gives a delegated key that returns the message.", "quantifier": "for every source formula, every target formula, every unsatisfying list and every delegation draw", "why_tests_cant": "security claim over all delegations", "anchors": ["src/core/gpsw/scheme.rs: key_delegation, decrypt"]}
{"id": "C16", "title": "Master private key survives serialisation", "statement": "try_from_bytes(try_into_bytes(k)) = k for every master private key with at least one attribute slot, and try_into_bytes never fails on it; len_bytes is the exact size.", "quantifier": "for every key with 1 to 2^32-2 slots and all scalar values", "why_tests_cant": "infinite key space", "anchors": ["src/core/gpsw/scheme.rs: GpswMasterPrivateKey AsBytes", "src/core/gpsw/mod.rs: Vec AsBytes", "src/core/bilinear_map/bls12_381.rs: Scalar AsBytes"]}
{"id": "C17", "title": "Master public key and delegation key survive serialisation", "statement": "try_from_bytes(try_into_bytes(k)) = k for every public key and every delegation key with at least one attribute slot; len_bytes is the exact size.", "quantifier": "for every key with 1 to 2^32-2 slots", "why_tests_cant": "infinite key space", "anchors": ["src/core/gpsw/scheme.rs: GpswMasterPublicKey AsBytes, GpswMasterPublicDelegationKey AsBytes", "src/core/gpsw/mod.rs: Vec AsBytes"]}
{"id": "C18", "title": "User decryption key survives serialisation", "statement": "try_from_bytes(try_into_bytes(k)) = k, prepared elements included, for every user key that key generation, delegation or randomisation can produce.", "quantifier": "for every formula and all random draws", "why_tests_cant": "infinite key space; needs facts about the shape of every span program", "anchors": ["src/core/gpsw/scheme.rs: GpswDecryptionKey AsBytes", "src/core/msp.rs: MonotoneSpanProgram AsBytes"]}
{"id": "C19", "title": "Ciphertext survives serialisation when it has at least one attribute", "statement": "try_from_bytes(try_into_bytes(c)) = c for every ciphertext produced by encrypt for a non-empty attribute list.", "quantifier": "for every message, attribute list of length 1 to 2^32-2 and random draw", "why_tests_cant": "infinite ciphertext space", "anchors": ["src/core/gpsw/scheme.rs: GpswCipherText AsBytes, encrypt"]}
{"id": "C20", "title": "Ciphertext for an empty attribute list survives serialisation", "statement": "encrypt accepts an empty attribute list; its ciphertext should decode back to itself. (False: the decoder never returns it.)", "quantifier": "for every public key, message and random draw", "why_tests_cant": "the failure for every possible Gt encoding is a universal statement", "anchors": ["src/core/gpsw/scheme.rs: encrypt, GpswCipherText AsBytes", "src/core/gpsw/mod.rs: Vec AsBytes"]}
{"id": "C21", "title": "ciphertext_len announces the exact ciphertext size", "statement": "AbeScheme::ciphertext_len(n) equals the number of bytes of a serialised ciphertext with n attributes. (True for n >= 1, false for n = 0.)", "quantifier": "for every n and every ciphertext", "why_tests_cant": "unbounded n", "anchors": ["src/core/gpsw/scheme.rs: ciphertext_len, GpswCipherText AsBytes"]}
{"id": "C22", "title": "Decoding untrusted bytes never panics", "statement": "Decoding a master key, user key or ciphertext from arbitrary bytes returns a value or an error and never panics. (True without overflow checks; false with overflow checks, when a vector announces zero elements.)", "quantifier": "for every byte string of any length below the address space, both overflow modes", "why_tests_cant": "fuzzing samples; absence of panics on all inputs needs a proof", "anchors": ["src/core/gpsw/mod.rs: Vec AsBytes", "src/core/gpsw/scheme.rs: try_from_bytes of every key type and GpswCipherText", "src/core/msp.rs: MonotoneSpanProgram::try_from_bytes"]}
{"id": "C23", "title": "Decrypting a decoded ciphertext never panics", "statement": "Decrypting any ciphertext that decodes successfully, with a generated key, returns a value or an error. (False when the ciphertext lists more attributes than group elements; true when both counts agree.)", "quantifier": "for every decodable ciphertext and every generated key", "why_tests_cant": "needs the exact condition for the index panic over all ciphertexts", "anchors": ["src/core/gpsw/scheme.rs: decrypt, GpswCipherText::try_from_bytes"]}
{"id": "C24", "title": "Decoders ignore trailing bytes", "statement": "Appending any bytes after a serialised non-empty key or ciphertext does not change what it decodes to, so concatenated encodings can be split by their own lengths.", "quantifier": "for every value and every suffix", "why_tests_cant": "infinite suffixes", "anchors": ["src/core/gpsw/mod.rs: Vec AsBytes", "src/core/gpsw/scheme.rs: AsBytes impls", "src/interfaces/ffi/generate_gpsw_keys.rs: h_generate_master_keys"]}
{"id": "C25", "title": "Encodings are injective", "statement": "Two different keys (or ciphertexts) of the same kind never have the same bytes.", "quantifier": "for every pair of values with at least one element", "why_tests_cant": "pairs of infinite sets", "anchors": ["src/core/gpsw/scheme.rs: AsBytes impls", "src/core/gpsw/mod.rs: Vec AsBytes"]}
{"id": "C26", "title": "A vector header announcing zero elements is rejected", "statement": "No bytes with an element count of zero decode to a non-empty vector. (False for 4-byte elements when overflow checks are off: one element is returned.)", "quantifier": "for every byte string with a zero count, all element types and both overflow modes", "why_tests_cant": "depends on wrap-around arithmetic at a corner value", "anchors": ["src/core/gpsw/mod.rs: Vec<T>::try_from_bytes"]}
{"id": "C27", "title": "Hexadecimal display of keys is lossless", "statement": "hex decoding the Display output of a key gives exactly its serialised bytes, hence the key itself.", "quantifier": "for every key with at least one slot", "why_tests_cant": "infinite key space", "anchors": ["src/core/gpsw/scheme.rs: Display impls"]}
{"id": "C28", "title": "Scalar encoding is a canonical 32-byte little-endian encoding", "statement": "Decoding succeeds exactly on strings of at least 32 bytes whose first 32 bytes are the little-endian encoding of an integer below the group order, and re-encoding the result gives these 32 bytes back.", "quantifier": "for every byte string and every scalar", "why_tests_cant": "2^256 inputs; boundary at the 255-bit group order", "anchors": ["src/core/bilinear_map/bls12_381.rs: Scalar AsBytes"]}
{"id": "C29", "title": "Message encoding distinguishes messages", "statement": "msg_encode maps different messages to different plaintexts. (False: trailing zero bytes are lost; true for messages of equal length, and equality of plaintexts implies equality up to trailing zero bytes.)", "quantifier": "for all pairs of messages of at most 32 bytes", "why_tests_cant": "pairs of messages", "anchors": ["src/core/bilinear_map/bls12_381.rs: msg_to_scalar", "src/core/bilinear_map/mod.rs: msg_to_gt", "src/core/gpsw/scheme.rs: msg_encode"]}
{"id": "C30", "title": "Conversion of matrix entries to scalars is a ring morphism on the values used", "statement": "From<i32> maps every i32 to the residue of that integer modulo the group order, i32::MIN included.", "quantifier": "for all 2^32 values of i32", "why_tests_cant": "exhaustive testing with a 255-bit modulus is impractical; the corner i32::MIN has no absolute value", "anchors": ["src/core/bilinear_map/bls12_381.rs: From<i32> for Scalar"]}
{"id": "C31", "title": "The formula parser accepts exactly the intended grammar", "statement": "Node::parse succeeds on a string exactly when, spaces removed, it is an expression of the grammar: term, or term operator expression, a term being a decimal integer below 2^32 or a parenthesised expression; the tree returned is the derivation (operators associate to the right with equal priority).", "quantifier": "for every string of less than 2^31 characters, the range of the counter of parentheses (beyond it texts of the grammar can be refused)", "why_tests_cant": "the input space is all strings; soundness and completeness are inductive", "anchors": ["src/core/msp.rs: Node::parse"]}
{"id": "C32", "title": "The formula parser never panics and always terminates", "statement": "Node::parse returns Ok or Err on every string, unbalanced parentheses included; no slice is taken out of range. A text that is empty or holds any character other than digits, spaces, parentheses, & and | is refused as an unexpected character; one of spaces only as ending too early; one that starts with a number of 2^32 or more as a bad number.", "quantifier": "for every string", "why_tests_cant": "all strings", "anchors": ["src/core/msp.rs: Node::parse"]}
{"id": "C33", "title": "Printing a formula with full parentheses and parsing it gives the formula back", "statement": "For any formula over u32 attributes, the fully parenthesised infix text parses to exactly that formula, with any number of spaces inserted between tokens.", "quantifier": "for every formula", "why_tests_cant": "infinite set of formulas", "anchors": ["src/core/msp.rs: Node::parse"]}
{"id": "C34", "title": "A formula can be compiled exactly when no attribute is repeated", "statement": "to_msp succeeds if and only if the leaves of the formula are pairwise distinct; otherwise it returns the error 'leaf already inserted'. On success the program has one row per leaf and one column plus one per And node, and all its entries lie in {-1,0,1,2}.", "quantifier": "for every formula", "why_tests_cant": "universal characterisation of success, with shape invariants", "anchors": ["src/core/msp.rs: Node::to_msp"]}
{"id": "C35", "title": "Unknown attributes are refused", "statement": "Key generation for an access policy that mentions an axis or attribute not in the policy returns an error, and so does encryption for an attribute not in the policy; no key or ciphertext is produced.", "quantifier": "for every policy and access policy", "why_tests_cant": "universal over policies", "anchors": ["src/core/msp.rs: policy_to_node, policy_to_formula", "src/core/engine.rs: generate_user_key, encrypt"]}
{"id": "C36", "title": "All is not accepted inside a formula", "statement": "An access policy that contains All below an And or Or never yields a key.", "quantifier": "for every policy and every such access policy", "why_tests_cant": "all nestings", "anchors": ["src/core/msp.rs: policy_to_formula, policy_to_msp"]}
{"id": "C37", "title": "A rotation revokes keys generated before it", "statement": "After rotating an attribute, a ciphertext made for the attribute under the rotated policy is not decrypted by a key generated before the rotation unless the key's access policy is satisfied by the other attributes of the ciphertext alone.", "quantifier": "for every history of axis creations and rotations, every access policy, every attribute list and all random draws", "why_tests_cant": "unbounded policy histories", "anchors": ["src/core/engine.rs: encrypt, generate_user_key", "src/interfaces/ffi/generate_gpsw_keys.rs: h_rotate_attributes", "README.md: attribute rotation", "src/core/demo.rs"]}
{"id": "C38", "title": "Keys refreshed after a rotation decrypt old and new ciphertexts", "statement": "A key generated after any number of rotations decrypts every ciphertext made for a satisfying attribute list under the current policy or under any earlier version of the policy.", "quantifier": "for every policy history, every earlier version, every access policy and attribute list", "why_tests_cant": "unbounded policy histories", "anchors": ["src/core/engine.rs: encrypt, generate_user_key", "src/core/msp.rs: policy_to_node", "src/core/demo.rs"]}
{"id": "C39", "title": "A key for All decrypts every ciphertext of its policy version", "statement": "A key generated with the access policy All decrypts every ciphertext made with a non-empty attribute list under the same policy or any earlier version of it.", "quantifier": "for every policy history, every attribute list, all random draws", "why_tests_cant": "unbounded policy histories", "anchors": ["src/core/msp.rs: policy_to_msp", "src/core/engine.rs: generate_user_key"]}
{"id": "C40", "title": "A key for All is not affected by later rotations", "statement": "The demo states that All carries no attribute and is not subject to attribute revocation. (False: a ciphertext whose attributes were all rotated after the key was generated is refused.)", "quantifier": "for every later rotation and ciphertext", "why_tests_cant": "the demo's ciphertext keeps an unrotated attribute, which hides the failure", "anchors": ["src/core/demo.rs", "src/core/msp.rs: policy_to_msp"]}
{"id": "C41", "title": "Every attribute a policy can create is usable", "statement": "With a policy allowing N attribute values and master keys generated for it, keys and ciphertexts can be made for every attribute of the policy. (False for the attribute that receives the value N: encryption panics and key generation fails.)", "quantifier": "for every N and every policy history that stays within N", "why_tests_cant": "boundary condition relating the policy library and the key size", "anchors": ["src/core/engine.rs: generate_master_key, encrypt", "src/core/gpsw/scheme.rs: encrypt, key_generation"]}
{"id": "C42", "title": "Encryption with too many attributes is refused", "statement": "encrypt returns an error, and no ciphertext, when the number of attributes is not below the number of slots of the public key; it never succeeds with an attribute value outside the slots.", "quantifier": "for every public key and attribute list", "why_tests_cant": "universal", "anchors": ["src/core/gpsw/scheme.rs: encrypt"]}
{"id": "C43", "title": "Master key generation fails only on a zero attribute secret", "statement": "generate_master_key returns a key with exactly one slot per allowed attribute value unless one of the drawn secrets is zero, in which case the division panics.", "quantifier": "for every size and every draw", "why_tests_cant": "probability 2^-255 event, impossible to hit by tests", "anchors": ["src/core/gpsw/scheme.rs: generate_master_key", "src/core/bilinear_map/bls12_381.rs: Div for Scalar"]}
{"id": "C44", "title": "Symmetric key encapsulation round trip", "statement": "decrypt_symmetric_key applied to the encapsulation made by generate_symmetric_key for a non-empty satisfying attribute list returns the same symmetric key, of the requested length.", "quantifier": "for every policy, access policy, satisfying list, key length and all random draws", "why_tests_cant": "infinite space; composes codec and scheme", "anchors": ["src/core/engine.rs: generate_symmetric_key, decrypt_symmetric_key"]}
{"id": "C45", "title": "Symmetric key decapsulation by an unauthorised key is an error", "statement": "decrypt_symmetric_key returns an error, never a key, when the attributes of the encapsulation do not satisfy the key's formula.", "quantifier": "for every formula, list, key length and draws", "why_tests_cant": "universal negative", "anchors": ["src/core/engine.rs: decrypt_symmetric_key"]}
{"id": "C46", "title": "Hybrid header round trip", "statement": "decrypt_hybrid_header on the bytes made by encrypt_hybrid_header for a satisfying non-empty attribute list returns the same symmetric key and the same metadata (the default metadata when none was given).", "quantifier": "for every metadata, policy, list and draws, assuming the symmetric scheme decrypts what it encrypts", "why_tests_cant": "infinite space; framing of variable-length fields", "anchors": ["src/interfaces/hybrid_crypto/statics.rs: encrypt_hybrid_header, decrypt_hybrid_header"]}
{"id": "C47", "title": "Hybrid header decryption is refused to unauthorised keys and to truncated headers", "statement": "decrypt_hybrid_header returns an error for an unauthorised key, and for every strict prefix of a header that carries metadata except the one that ends right before the nonce, which decodes with default metadata.", "quantifier": "for every header and every prefix length", "why_tests_cant": "all truncations of all headers", "anchors": ["src/interfaces/hybrid_crypto/statics.rs: decrypt_hybrid_header"]}
{"id": "C48", "title": "Clear and encrypted header containers survive serialisation and never panic on decoding", "statement": "ClearTextHeader and EncryptedHeader decode to what was encoded, and decoding arbitrary bytes returns a value or an error. (The second part is false: a key length larger than the buffer panics.)", "quantifier": "for every header and every byte string", "why_tests_cant": "all byte strings", "anchors": ["src/interfaces/hybrid_crypto/statics.rs: ClearTextHeader, EncryptedHeader"]}
{"id": "C49", "title": "Hybrid block round trip and limits", "statement": "decrypt_hybrid_block inverts encrypt_hybrid_block for the same key, uid and block number; empty plaintexts, empty ciphertexts and oversize inputs are errors.", "quantifier": "for every plaintext, uid, block number, nonce and size limit", "why_tests_cant": "infinite space", "anchors": ["src/interfaces/hybrid_crypto/statics.rs: encrypt_hybrid_block, decrypt_hybrid_block"]}
{"id": "C50", "title": "Cache handles are unique and isolated", "statement": "Under any interleaving of threads that create, use and destroy caches, a handle returned by a create call designates exactly the keys given to that call until that handle is destroyed, as long as fewer than 2^32 caches were created; destroying a handle affects no other.", "quantifier": "for every number of threads, every interleaving of atomic steps", "why_tests_cant": "concurrency: the number of interleavings is unbounded", "anchors": ["src/interfaces/ffi/hybrid_gpsw_aes.rs: h_aes_create_encryption_cache, h_aes_destroy_encryption_cache, h_aes_encrypt_header_using_cache", "src/interfaces/ffi/hybrid_gpsw_aes.rs: decryption cache counterparts"]}
{"id": "C51", "title": "Cache handles are never reused", "statement": "Two create calls never return the same handle. (False after 2^32 creations: the 32-bit counter wraps and a live cache is silently replaced.)", "quantifier": "for every number of creations", "why_tests_cant": "needs 2^32 calls", "anchors": ["src/interfaces/ffi/hybrid_gpsw_aes.rs: NEXT_ENCRYPTION_CACHE_ID, NEXT_DECRYPTION_CACHE_ID"]}
{"id": "C52", "title": "Header functions with and without cache are equivalent", "statement": "h_aes_encrypt_header_using_cache on a live handle behaves as h_aes_encrypt_header on the keys the cache was created with, and likewise for decryption; on a destroyed or unknown handle it returns 1 with an error set and touches no output buffer.", "quantifier": "for every input and every cache state", "why_tests_cant": "relational, all inputs", "anchors": ["src/interfaces/ffi/hybrid_gpsw_aes.rs: h_aes_encrypt_header, h_aes_encrypt_header_using_cache, h_aes_decrypt_header, h_aes_decrypt_header_using_cache"]}
{"id": "C53", "title": "FFI functions never write outside the announced buffer", "statement": "For a non-negative announced length the header, key and block functions write at most that many bytes, leave the rest of the buffer untouched, and report the number of bytes written. (False for a negative announced length, which is accepted.)", "quantifier": "for every buffer size, announced length and result", "why_tests_cant": "memory safety over all sizes", "anchors": ["src/interfaces/ffi/hybrid_gpsw_aes.rs: output protocol of every function", "src/interfaces/ffi/generate_gpsw_keys.rs: output protocol"]}
{"id": "C54", "title": "A too small output buffer is reported with the required size", "statement": "When an output buffer is too small the function returns 1, writes nothing into that buffer and sets the length to the size needed, so that a second call with that size succeeds. (True for the header and key functions when the announced length is positive; false for an announced length of 0, which is refused without saying the size, and for the block functions, which never say it.)", "quantifier": "for every buffer size and result", "why_tests_cant": "all sizes; claimed in CHANGELOG 1.1.1 for all functions", "anchors": ["src/interfaces/ffi/hybrid_gpsw_aes.rs: h_aes_encrypt_header, h_aes_decrypt_header, h_aes_encrypt_block, h_aes_decrypt_block", "src/interfaces/ffi/generate_gpsw_keys.rs: h_generate_master_keys", "CHANGELOG.md 1.1.1"]}
{"id": "C55", "title": "The last error is delivered once and always NUL terminated", "statement": "get_last_error copies the message, cut to the buffer, always NUL terminated and zero filled, reports the number of message bytes copied, and clears the error so that the next call reports an empty message.", "quantifier": "for every message and buffer length", "why_tests_cant": "all messages and sizes", "anchors": ["src/interfaces/ffi/error.rs: set_last_error, get_last_error, take_last_error"]}
{"id": "C56", "title": "Generated master keys can be split from the FFI output", "statement": "The output of h_generate_master_keys splits, by its 4-byte length prefix, into exactly the private and the public key.", "quantifier": "for every key pair with at least one slot", "why_tests_cant": "infinite key space", "anchors": ["src/interfaces/ffi/generate_gpsw_keys.rs: h_generate_master_keys"]}
{"id": "C57", "title": "Encrypted header size query never crashes", "statement": "h_get_encrypted_header_size on any buffer returns the size or an error. (False: buffers of 1 to 3 bytes panic, and the error code 1 is also a possible size.)", "quantifier": "for every buffer", "why_tests_cant": "all buffers", "anchors": ["src/interfaces/ffi/hybrid_gpsw_aes.rs: h_get_encrypted_header_size"]}
{"id": "C58", "title": "Python encrypt and decrypt are inverse and robust", "statement": "decrypt(encrypt(x)) = x for an authorised key, with metadata preserved, and decrypt of arbitrary bytes raises an error rather than panicking. (Second part false: a header size larger than the message panics.)", "quantifier": "for every plaintext, metadata and byte string", "why_tests_cant": "all inputs", "anchors": ["src/interfaces/pyo3/hybrid_gpsw_aes.rs: encrypt, decrypt"]}
{"id": "C59", "title": "Recovery coefficients select a minimal authorised subset", "statement": "The attributes given a non-zero coefficient during decryption satisfy the formula by themselves and all coefficients are one, so decryption pairs only elements of a minimal authorised set.", "quantifier": "for every formula and satisfying list", "why_tests_cant": "needs the structure of all solutions of the span system", "anchors": ["src/core/gpsw/scheme.rs: decrypt, span_coefs", "src/core/msp.rs: Node::to_msp"]}
{"id": "C60", "title": "Delegation and refresh at the level of access policies stay exact", "statement": "A user key obtained from a generated key by any sequence of refreshes (delegation with All) and delegations to access policies in which Or nodes were replaced by one of their operands decrypts exactly the ciphertexts whose attribute list satisfies its last access policy; the order in which the library happens to visit attribute values does not matter.", "quantifier": "for every policy history, every sequence of delegations, every order of iteration of hash maps and heaps in each call, every list and all draws", "why_tests_cant": "hash map order changes from run to run and delegation chains are unbounded", "anchors": ["src/core/engine.rs: delegate_user_key, generate_user_key, encrypt, decrypt", "src/core/msp.rs: policy_to_msp, policy_to_formula, policy_to_node"]}
{"id": "C61", "title": "Accepted encodings are canonical", "statement": "If a byte string decodes to a key or ciphertext, the encoding of the decoded value is the beginning of that byte string: no value has two different accepted encodings (apart from trailing bytes). (False for ciphertexts in builds without overflow checks: every ciphertext for one attribute has a second encoding of the same size, which announces no attribute. True for all keys, and for ciphertexts that announce one.)", "quantifier": "for every byte string", "why_tests_cant": "all byte strings", "anchors": ["src/core/gpsw/scheme.rs: try_from_bytes, try_into_bytes", "src/core/gpsw/mod.rs: AsBytes for Vec", "src/core/msp.rs: AsBytes for MonotoneSpanProgram"]}
{"id": "C62", "title": "Exactly the access policies without overlapping requirements have keys", "statement": "Key generation accepts an access policy if and only if every attribute it mentions is in the policy, All does not occur inside it and no attribute satisfies two of its mentions; an access policy that names an attribute twice, or two attributes of the same hierarchical axis, is refused with an error although it is meaningful.", "quantifier": "for every policy history without repeated names on an axis, every access policy and every order of iteration", "why_tests_cant": "universal statement on all access policies", "anchors": ["src/core/msp.rs: policy_to_msp, policy_to_node, Node::to_msp"]}
{"id": "C63", "title": "Key generation from a policy read from a file never panics", "statement": "generate_user_key on any policy value returns a key or an error. (True for the policies that the administrator's operations can make, false for a policy whose axes name an attribute without value, which the JSON interface accepts.)", "quantifier": "for every policy, access policy and draws", "why_tests_cant": "all policies including inconsistent ones", "anchors": ["src/core/msp.rs: policy_to_node", "src/core/engine.rs: generate_user_key"]}
{"id": "C64", "title": "Decrypting hostile header bytes with a genuine key never panics", "statement": "decrypt_hybrid_header on arbitrary bytes with a key obtained from the library returns a header or an error. (False: a header holding a ciphertext with fewer attribute parts than attributes panics; without overflow checks this is the only way.)", "quantifier": "for every byte string below 2^63 bytes and every key obtained by generation, delegation and refresh", "why_tests_cant": "all byte strings", "anchors": ["src/interfaces/hybrid_crypto/statics.rs: decrypt_hybrid_header", "src/core/gpsw/scheme.rs: decrypt"]}
{"id": "C65", "title": "Bytes that follow a header are ignored exactly when the header carries metadata", "statement": "If a header with metadata decrypts, the same bytes followed by anything (for example the encrypted blocks) decrypt to the same header; a header without metadata followed by 1 to nonce length + 3 bytes is refused.", "quantifier": "for every header, key and trailing bytes", "why_tests_cant": "all byte strings and suffixes", "anchors": ["src/interfaces/hybrid_crypto/statics.rs: decrypt_hybrid_header"]}
{"id": "C66", "title": "Integer span programs survive serialisation", "statement": "Decoding the bytes of a span program with i32 entries, followed by anything, gives the span program back; decoding fewer bytes than a whole program returns an error. (Second part false: an entry cut short panics.)", "quantifier": "for every well-formed span program below the size limits and every byte string", "why_tests_cant": "all span programs and byte strings", "anchors": ["src/core/msp.rs: AsBytes for MonotoneSpanProgram", "src/core/gpsw/mod.rs: AsBytes for i32"]}
{"id": "C67", "title": "Null pointers given to the C functions are reported", "statement": "When a required input pointer or an output buffer pointer is null, the C functions return 1 and leave every output argument as it was. (False for the pointers to the output lengths: a null length pointer is followed.)", "quantifier": "for every combination of null and non-null arguments", "why_tests_cant": "all combinations of arguments", "anchors": ["src/interfaces/ffi/hybrid_gpsw_aes.rs: h_aes_encrypt_header, h_aes_decrypt_header, h_aes_encrypt_block, h_aes_decrypt_block", "src/interfaces/ffi/generate_gpsw_keys.rs: h_generate_master_keys, h_generate_user_private_key, h_rotate_attributes", "src/interfaces/ffi/error.rs: ffi_not_null"]}
{"id": "C68", "title": "The C functions work together", "statement": "Master keys generated by h_generate_master_keys and cut in two by their length prefix, a user key generated by h_generate_user_private_key from the private half, and a header made by h_aes_encrypt_header with the public half: h_aes_decrypt_header returns the symmetric key, the uid and the additional data if the attributes satisfy the access policy, and returns 1 leaving its outputs untouched if they do not.", "quantifier": "for every policy history, access policy, attribute list, metadata, draws and buffers that are large enough", "why_tests_cant": "a chain of four functions over all policies, attributes and draws", "anchors": ["src/interfaces/ffi/generate_gpsw_keys.rs: h_generate_master_keys, h_generate_user_private_key", "src/interfaces/ffi/hybrid_gpsw_aes.rs: h_aes_encrypt_header, h_aes_decrypt_header"]}
{"id": "C69", "title": "The cache functions never deadlock and never change keys in use", "statement": "Under any interleaving of threads, a thread that creates or destroys a cache is alone with the map, the keys that a header function found stay in the cache until it returns, and whenever calls are in progress one of them can go on.", "quantifier": "for every number of threads and every interleaving", "why_tests_cant": "schedules cannot be enumerated", "anchors": ["src/interfaces/ffi/hybrid_gpsw_aes.rs: h_aes_create_encryption_cache, h_aes_destroy_encryption_cache, h_aes_encrypt_header_using_cache, h_aes_create_decryption_cache, h_aes_destroy_decryption_cache, h_aes_decrypt_header_using_cache"]}
{"id": "C70", "title": "Blocks written and read through the C interface", "statement": "A block made by h_aes_encrypt_block is opened by h_aes_decrypt_block with the same key, uid and block number, gives the plaintext back, and is longer than it by the constant overhead; a null uid and an empty uid are the same. When the symmetric scheme refuses a block, the function returns 1 and leaves the output untouched. Different block numbers given by the caller, negative ones included, are different block numbers of the scheme.", "quantifier": "for every key, uid, block number of the C int type, plaintext, nonce and buffer", "why_tests_cant": "all inputs, negative numbers and both forms of a missing uid", "anchors": ["src/interfaces/ffi/hybrid_gpsw_aes.rs: h_aes_encrypt_block, h_aes_decrypt_block"]}
{"id": "C71", "title": "Rotating attributes through the C interface", "statement": "h_rotate_attributes returns the policy in which every attribute of the list was rotated once per mention, in this order; if one of these rotations is impossible (an unknown attribute, no creation left) it returns 1 and leaves the output untouched.", "quantifier": "for every policy history, attribute list and buffer", "why_tests_cant": "all histories and lists, repeated attributes included", "anchors": ["src/interfaces/ffi/generate_gpsw_keys.rs: h_rotate_attributes"]}
{"id": "C72", "title": "Revocation holds for hybrid headers", "statement": "A key made before some rotations and new axes opens a header made after them exactly if the attributes of the header that were not rotated satisfy its access policy; a key made after them opens a header made before exactly if the attributes of the header satisfy its access policy. Opening gives the symmetric key and the metadata; otherwise an error is returned.", "quantifier": "for every policy history, later operations, access policy, attribute list, metadata and draws", "why_tests_cant": "all histories and all combinations of key and header versions", "anchors": ["src/interfaces/hybrid_crypto/statics.rs: encrypt_hybrid_header, decrypt_hybrid_header", "src/core/engine.rs: generate_symmetric_key, decrypt_symmetric_key"]}
{"id": "C73", "title": "The Python functions work together", "statement": "With master keys from generate_master_keys, user keys from generate_user_private_key, refreshed or delegated to narrower access policies by generate_delegated_key any number of times, and messages from encrypt, all exchanged as bytes: decrypt returns the plaintext exactly if the attributes (those not rotated since, for a key older than the message) satisfy the access policy of the key, and raises an exception otherwise.", "quantifier": "for every policy history, access policies, chain of delegations, attribute list, plaintext, metadata and draws", "why_tests_cant": "chains of calls of any length over all policies and draws", "anchors": ["src/interfaces/pyo3/generate_gpsw_keys.rs: generate_master_keys, generate_user_private_key, generate_delegated_key", "src/interfaces/pyo3/hybrid_gpsw_aes.rs: encrypt, decrypt"]}
{"id": "C74", "title": "Policies made by the Python functions are the ones asked for", "statement": "generate_policy returns the policy with the given limit and axes, rotate_attributes the policy with every listed attribute rotated, and they raise an exception when this is impossible. (False for limits of 2^32 or more: they are reduced modulo 2^32 without an error.)", "quantifier": "for every list of axes, limit, policy history and list of attributes", "why_tests_cant": "all limits and lists", "anchors": ["src/interfaces/pyo3/generate_gpsw_keys.rs: generate_policy, rotate_attributes"]}
{"id": "C75", "title": "A delegated key is distributed like a freshly generated one", "statement": "Delegating a key to a narrower formula, or randomising it, gives exactly the key that key generation for that formula gives with the draws moved by an offset that depends on the source key only. So the keys that any chain of delegations can give are exactly the ones generation can give, with the same frequencies, and a delegated key tells nothing about the key it came from.", "quantifier": "for every master key, source key obtained by any chain of delegations, narrower formula and draws", "why_tests_cant": "equality of the sets and the frequencies of all keys over all draws", "anchors": ["src/core/gpsw/scheme.rs: key_generation, key_delegation, key_randomization"]}
{"id": "C76", "title": "Encodings and headers work on 32-bit machines too", "statement": "On any target with at least 32-bit sizes (WebAssembly is one), a key, ciphertext or header that fits in memory can be written and read back unchanged, and a header opens exactly for the keys whose access policy its attributes satisfy. User keys have a size known in advance from their formula.", "quantifier": "for every width of at least 32 bits, checked or unchecked arithmetic, policy history, formula, attribute list and draws", "why_tests_cant": "all widths and sizes up to the limit of the address space", "anchors": ["src/core/gpsw/scheme.rs: AsBytes implementations", "src/core/msp.rs: AsBytes for MonotoneSpanProgram", "src/interfaces/hybrid_crypto/statics.rs: encrypt_hybrid_header, decrypt_hybrid_header"]}
{"id": "C77", "title": "Hostile bytes do not stop a program on 32-bit machines", "statement": "On a 32-bit target, reading keys, ciphertexts and headers from any bytes returns a value or an error. (False: a header of twelve bytes stops the program whatever the key is, and so does a user key of 108 bytes: they announce vectors that cannot exist in memory. The panics possible when reading are exactly of this kind, apart from checked overflows.)", "quantifier": "for every byte string and every width of at least 32 bits", "why_tests_cant": "all byte strings", "anchors": ["src/core/gpsw/scheme.rs: AsBytes implementations, Vec::try_from_bytes", "src/core/msp.rs: try_from_bytes", "src/interfaces/hybrid_crypto/statics.rs: decrypt_hybrid_header"]}
{"id": "C78", "title": "The WebAssembly functions work together", "statement": "With master keys from webassembly_generate_master_keys, cut by the size at their front, user keys from webassembly_generate_user_private_key and headers from webassembly_encrypt_hybrid_header, all exchanged as bytes: webassembly_decrypt_hybrid_header returns the symmetric key and the metadata exactly if the attributes (those not rotated since, for a key older than the header) satisfy the access policy of the key, and throws otherwise.", "quantifier": "for every policy history and version, access policy, attribute list, uid and draws, on 32-bit and wider targets", "why_tests_cant": "chains of calls over all policies, keys and draws", "anchors": ["src/interfaces/wasm_bindgen/generate_gpsw_keys.rs: webassembly_generate_master_keys, webassembly_generate_user_private_key", "src/interfaces/wasm_bindgen/hybrid_gpsw_aes_encryption.rs: webassembly_encrypt_hybrid_header", "src/interfaces/wasm_bindgen/hybrid_gpsw_aes_decryption.rs: webassembly_decrypt_hybrid_header"]}
{"id": "C79", "title": "WebAssembly caches answer like the functions without a cache", "statement": "In every sequence of cache calls, a header function called with a handle gives the same result as the function without a cache called with the bytes given when the handle was created, as long as it was not destroyed and no creation or destruction trapped; handles returned by creations are different from each other. (False for an empty uid or empty attributes, which only the function without a cache refuses; true for all others.)", "quantifier": "for every sequence of calls, with fewer than 2^32 creations for the last part", "why_tests_cant": "all interleavings of creations, destructions and uses", "anchors": ["src/interfaces/wasm_bindgen/hybrid_gpsw_aes_encryption.rs: webassembly_create_encryption_cache, webassembly_destroy_encryption_cache, webassembly_encrypt_hybrid_header_using_cache", "src/interfaces/wasm_bindgen/hybrid_gpsw_aes_decryption.rs: webassembly_create_decryption_cache, webassembly_destroy_decryption_cache, webassembly_decrypt_hybrid_header_using_cache"]}
{"id": "C80", "title": "WebAssembly reports an unknown cache handle as an error", "statement": "A header function called with a handle that was never returned, or was destroyed, throws an error and leaves the module usable. (False: it traps, and since the lock it holds is never released, no cache of this kind can be created or destroyed from then on. Nothing else prevents creations and destructions.)", "quantifier": "for every sequence of calls and every handle", "why_tests_cant": "all sequences of calls", "anchors": ["src/interfaces/wasm_bindgen/hybrid_gpsw_aes_encryption.rs: webassembly_encrypt_hybrid_header_using_cache, webassembly_create_encryption_cache, webassembly_destroy_encryption_cache", "src/interfaces/wasm_bindgen/hybrid_gpsw_aes_decryption.rs: webassembly_decrypt_hybrid_header_using_cache, webassembly_create_decryption_cache, webassembly_destroy_decryption_cache"]}
{"id": "C81", "title": "A hostile header does not disable WebAssembly caches", "statement": "Whatever bytes a program gives to a decryption cache as a header, caches can still be created and destroyed afterwards. (False: a header of twelve bytes traps for every key and disables creating and destroying decryption caches for good.)", "quantifier": "for every key, every earlier and every later sequence of calls", "why_tests_cant": "all sequences of calls before and after", "anchors": ["src/interfaces/wasm_bindgen/hybrid_gpsw_aes_decryption.rs: webassembly_decrypt_hybrid_header_using_cache, webassembly_create_decryption_cache, webassembly_destroy_decryption_cache"]}
{"id": "C82", "title": "WebAssembly blocks come back", "statement": "A block encrypted with a key of 32 bytes is decrypted to the same data with the same key, uid and number, a missing uid standing for an empty one and a missing number for 0; keys of other sizes, empty data and more than 2^30 bytes of data throw an error.", "quantifier": "for every key, uid, number, nonce and data", "why_tests_cant": "all inputs and both forms of missing arguments", "anchors": ["src/interfaces/wasm_bindgen/hybrid_gpsw_aes_encryption.rs: webassembly_encrypt_hybrid_block", "src/interfaces/wasm_bindgen/hybrid_gpsw_aes_decryption.rs: webassembly_decrypt_hybrid_block"]}
{"id": "C83", "title": "Rotating attributes through WebAssembly", "statement": "webassembly_rotate_attributes returns the policy in which every attribute of the list was rotated once per mention, in this order, and throws if one of these rotations is impossible.", "quantifier": "for every policy history and attribute list", "why_tests_cant": "all histories and lists, repeated attributes included", "anchors": ["src/interfaces/wasm_bindgen/generate_gpsw_keys.rs: webassembly_rotate_attributes"]}
{"id": "C84", "title": "Messages through WebAssembly", "statement": "A message made of the size of a header, the header and a block encrypted with its key can be cut with webassembly_get_encrypted_header_size and then decrypted with the header and block functions: the data come back exactly for the keys whose access policy the attributes satisfy (those not rotated since, for older keys), and the others get an error.", "quantifier": "for every policy history and version, access policy, attribute list, uid, block number, data and draws", "why_tests_cant": "chains of calls over all policies, keys and draws", "anchors": ["src/interfaces/wasm_bindgen/hybrid_gpsw_aes_decryption.rs: webassembly_get_encrypted_header_size, webassembly_decrypt_hybrid_header, webassembly_decrypt_hybrid_block", "src/interfaces/wasm_bindgen/hybrid_gpsw_aes_encryption.rs: webassembly_encrypt_hybrid_header, webassembly_encrypt_hybrid_block"]}
{"id": "C85", "title": "Ciphertexts do not carry the message in clear", "statement": "No ciphertext made under a generated master key contains its message as it is. (False: the value y and the encryption scalar are drawn among all field elements, zero included, and the message is in clear exactly when one of these two is zero. For a master key whose y is zero, which generation accepts although it refuses zero attribute secrets, this is so for every ciphertext.)", "quantifier": "for every size, draws, message, attribute list and encryption scalar", "why_tests_cant": "the bad draw has a probability of about 2^-255 in a test", "anchors": ["src/core/gpsw/scheme.rs: generate_master_key, encrypt", "src/core/bilinear_map/bls12_381.rs: gen_random_scalar"]}
{"id": "C86", "title": "A ciphertext stands for one message", "statement": "A ciphertext with at least one attribute can be the encryption of a single message, for a single attribute list and a single scalar, so two keys that open it agree. (With no attribute it can be the encryption of any message, and no key opens it.)", "quantifier": "for every master key, messages, attribute lists and scalars", "why_tests_cant": "all pairs of messages and draws", "anchors": ["src/core/gpsw/scheme.rs: encrypt"]}
{"id": "C87", "title": "Modified ciphertexts are detected", "statement": "Decrypting a ciphertext modified after its creation gives an error or the original message. (False for messages and symmetric keys: multiplying one element of the ciphertext multiplies the message obtained by every key, attributes can be removed without a trace, and a header without metadata accepts the same change. True for headers with metadata: another encapsulated key is refused, as long as the encrypted metadata do not decrypt under another symmetric key.)", "quantifier": "for every key, ciphertext and change of the element e_prime, for every header and replacement of its encapsulated key", "why_tests_cant": "all modifications of all ciphertexts and headers", "anchors": ["src/core/gpsw/scheme.rs: decrypt, encrypt", "src/interfaces/hybrid_crypto/statics.rs: encrypt_hybrid_header, decrypt_hybrid_header"]}
{"id": "C88", "title": "A key of another master key does not decrypt", "statement": "A user key made under one master key gives an error or nothing on a ciphertext made under another. (False: it decides exactly as a key of the right master key would, and when its formula is satisfied it gives a message without any error, the wrong one except when the scalars happen to agree. For a header without metadata it gives a wrong symmetric key without any error.)", "quantifier": "for every pair of master keys, of any sizes, formula, key obtained by generation and delegations, attribute list and message", "why_tests_cant": "all pairs of master keys and draws", "anchors": ["src/core/gpsw/scheme.rs: decrypt", "src/interfaces/hybrid_crypto/statics.rs: decrypt_hybrid_header"]}
{"id": "C89", "title": "The implementation over BLS12-381 is a bilinear map", "statement": "The operations of Bls12_381 satisfy the laws the scheme relies on: products of pairings with exponents, taken with prepared elements kept next to the elements of the second group, are the sum of the pairings, and an element and its prepared form always stand for the same point. So a key decrypts a ciphertext exactly when its formula is satisfied, for this implementation, as soon as the curve library is a pairing between groups of the right prime order.", "quantifier": "for every list of elements and scalars, for every implementation of the curve library that is a pairing", "why_tests_cant": "equalities over groups of about 2^255 elements and lists of any length", "anchors": ["src/core/bilinear_map/bls12_381.rs: impl BilinearMap for Bls12_381", "src/core/bilinear_map/mod.rs: BilinearMap"]}
{"id": "C90", "title": "Headers hide their attributes", "statement": "Someone without any key cannot tell from a header under which attributes it was made. (False: the attribute numbers are in clear at a fixed position, and with the policy they give exactly the attributes, even with a later version of the policy. The size of a header shows at least their number: 300 bytes and 52 per attribute without metadata, 304 bytes, 52 per attribute, the nonce and the encrypted metadata with.)", "quantifier": "for every policy history, later history, attribute list, metadata and draws", "why_tests_cant": "all policies and all attribute lists", "anchors": ["src/interfaces/hybrid_crypto/statics.rs: encrypt_hybrid_header", "src/core/gpsw/scheme.rs: AsBytes for Ciphertext"]}
{"id": "C91", "title": "Each thread of a C program has its own last error", "statement": "An error message stored by a thread with set_error is the one this thread reads with get_last_error, after the prefix \"FFI error: \", whatever other threads do in between; a message that is not UTF-8 is replaced by a fixed message and reported with the code 1. An error whose text contains a zero byte is not delivered: the call reports 1 and leaves the buffer alone, and the next call delivers an explanation.", "quantifier": "for every interleaving of calls of any number of threads and every message", "why_tests_cant": "all interleavings and all messages", "anchors": ["src/interfaces/ffi/error.rs: set_error, get_last_error, set_last_error, LAST_ERROR"]}
{"id": "C92", "title": "Error messages given to C programs are text", "statement": "Whenever get_last_error succeeds, the bytes it wrote are valid UTF-8. (True if the buffer has room for the message; false otherwise: the message is cut at the size of the buffer, which may be inside a character, and the call still returns 0.)", "quantifier": "for every message and buffer", "why_tests_cant": "all messages and buffer sizes", "anchors": ["src/interfaces/ffi/error.rs: get_last_error"]}
{"id": "C93", "title": "Texts of formulas and span programs are faithful", "statement": "Two formulas shown by the same text are equal, and no text of a formula continues another one; two span programs compiled from formulas and shown by the same text are equal; the text of a formula is read by Node::parse as this formula. (The last part is false: the parser refuses the text of every formula.)", "quantifier": "for every pair of formulas and of compiled programs", "why_tests_cant": "all pairs of formulas", "anchors": ["src/core/msp.rs: Display for Node, Display for MonotoneSpanProgram, BitAnd for Node, BitOr for Node"]}
{"id": "C94", "title": "Span programs read from texts", "statement": "MonotoneSpanProgram::parse returns a program exactly for the texts of formulas in which no attribute occurs twice, an error for all other texts and never panics; the rows of the program combine to the row of ones exactly for the sets of attributes that satisfy the formula of the text.", "quantifier": "for every text below 2^31 characters, every set of attributes and every field", "why_tests_cant": "all texts and all sets of attributes", "anchors": ["src/core/msp.rs: MonotoneSpanProgram::parse, Node::parse, Node::to_msp"]}
{"id": "C95", "title": "C functions read exactly the announced inputs", "statement": "Each function of the C interface reads, of each argument, the announced number of bytes or the text before the first NUL, and nothing behind them: its result depends only on these. A negative length or a null pointer where a value is required is reported as an error. (The last part is false: a negative length of a key, header, uid, additional data or block content leads to reading outside of the memory, as does a null pointer for the handle of a new cache; only a negative length of the uid of a block is treated, as an absent uid.)", "quantifier": "for every memory content, announced length, platform of at least 32 bits, state of the caches and parsers of the documents", "why_tests_cant": "all memory contents and lengths; the failing cases are undefined behaviour that a test may not notice", "anchors": ["src/interfaces/ffi/hybrid_gpsw_aes.rs: h_aes_encrypt_header, h_aes_decrypt_header, h_aes_encrypt_block, h_aes_decrypt_block, h_aes_create_encryption_cache, h_aes_create_decryption_cache, h_get_encrypted_header_size", "src/interfaces/ffi/generate_gpsw_keys.rs: h_generate_master_keys, h_generate_user_private_key, h_rotate_attributes"]}
{"id": "C96", "title": "Resources of any length in blocks", "statement": "A program that cuts a resource every MAX bytes and encrypts piece i as block i, then joins the blocks, gets bytes of length |resource| + overhead for each block, with the overhead announced by symmetric_encryption_overhead and the C interface; cutting them every MAX + overhead bytes and decrypting block i under number i gives the resource back. A reader notices when blocks are exchanged, repeated, left out or removed at the end. (The last part is false for the end: a resource cut after any block is read without an error. All other rearrangements of the blocks of a resource are refused if the symmetric scheme binds the block number.)", "quantifier": "for every resource, key, uid, block size and choice of nonces; for every selection of its blocks in any order", "why_tests_cant": "resources of any length and all rearrangements of their blocks", "anchors": ["src/interfaces/hybrid_crypto/statics.rs: encrypt_hybrid_block, decrypt_hybrid_block, symmetric_encryption_overhead", "src/interfaces/ffi/hybrid_gpsw_aes.rs: h_aes_symmetric_encryption_overhead"]}
{"id": "C97", "title": "Keys of different users differ", "statement": "Two user keys generated for the same access formula, with different randomness, are different, so that a leaked key can be traced to its owner; refreshing a key gives a different key. (False for formulas without a conjunction: all their keys derived from one master key, by generation, delegation or refresh, are one and the same. For the other formulas two keys are equal exactly if all drawn values agree, and there is one drawn value for each conjunction.)", "quantifier": "for every setup, formula and choice of randomness", "why_tests_cant": "all formulas and all randomness; a test compares a few keys", "anchors": ["src/core/gpsw/scheme.rs: key_generation, key_delegation, key_randomization", "src/core/msp.rs: Node::to_msp"]}
{"id": "C98", "title": "Formulas of any length are parsed without exhausting the stack", "statement": "Node::parse gives a formula or an error for every text, however small the stack. (False: for every stack with room for d nested calls, a text of 2d+1 characters, 1&1&...&1, aborts the process, as does every text of a formula with a path of d operators from its root to an attribute. One call for each operator and opening parenthesis of the text is always enough, and with less room the answer is the same or the process is aborted, never another formula or error.)", "quantifier": "for every text, platform and number of nested calls the stack has room for", "why_tests_cant": "all texts and all sizes of the stack; an aborted process cannot be caught by a test", "anchors": ["src/core/msp.rs: Node::parse, MonotoneSpanProgram::parse"]}
{"id": "C99", "title": "Keys that are not entitled find a random message only by a negligible accident", "statement": "People who put together any user keys none of which is satisfied by the attributes of a ciphertext, with the public key, the delegation key and the ciphertext, and who compute by a plan fixed beforehand, find the encrypted message for at most 3 in q-1 of all draws of the master key, of the keys, of the encryption and of the message, where q is the order of the group: for the group that the library uses, less than one draw in 2 to the power of 253. This also holds when the keys were delegated or randomised from one another.", "quantifier": "for every number of slots, every history of generated, delegated and randomised keys, every choice of the keys held, every list of attributes none of the held formulas accepts, every plan that multiplies pairings and powers of the known elements, every finite field", "why_tests_cant": "The bound is a count over all draws, more than 2 to the power of 1000 of them; a test that draws some keys never meets one of the rare accidents and cannot tell a probability of 2 to the power of -253 from one of 2 to the power of -20.", "anchors": ["src/core/gpsw/scheme.rs: generate_master_key, key_generation, key_delegation, key_randomization, encrypt"]}
{"id": "C100", "title": "Keys and ciphertexts made with different copies of a policy keep the meaning of the attributes", "statement": "A policy is copied and the copies are changed separately, by rotating attributes or adding axes. (False as a user would read it: if HR is rotated in one copy and FIN in the other, a key for HR made with the first decrypts what was encrypted for FIN with the second. The same happens if two people declare the same axes in another order. Exactly: an attribute stands for the place at which it was last numbered in the history of the policy used to encrypt, and a key decrypts if it is satisfied by the attributes that stand at these places in the history of its own policy. Attributes declared before the copy and not rotated in the copy used to encrypt keep their meaning.)", "quantifier": "for every two histories of policies, every access policy and key, every list of attributes, message and draw", "why_tests_cant": "all pairs of histories; the demo has a single policy, so its numbers always agree", "anchors": ["src/core/engine.rs: generate_user_key, encrypt, decrypt", "src/core/msp.rs: policy_to_node"]}
{"id": "C101", "title": "Using master keys made for another policy is reported as an error", "statement": "Encrypting, making a user key or refreshing a user key with a policy and a public, private or delegation key that was made for a smaller policy returns an error if a needed value is missing. (False for encryption and for refreshing: both panic with an index out of bounds, precisely if the current number of an attribute of the ciphertext, or a number of an attribute of the key, is not below the number of slots; undeclared attributes and too long lists are errors. Making a user key returns an error.)", "quantifier": "for every history of the policy, every number of slots, every list of attributes, access policy, genuine user key and draw", "why_tests_cant": "all histories and sizes; tests use the keys made for the policy at hand", "anchors": ["src/core/engine.rs: generate_user_key, delegate_user_key, encrypt", "src/core/gpsw/scheme.rs: encrypt, key_generation, key_randomization"]}
{"id": "C102", "title": "Making user keys with a private key read from bytes never panics", "statement": "Whatever bytes a master private key was read from, making a user key for an access policy of a policy made by the library returns a key or an error. (False: bytes in which the secret of an attribute is zero are accepted, and making a key that needs this attribute panics with a division by zero; no other private key makes it panic.)", "quantifier": "for every private key, every history of the policy, every access policy, order of iteration and draw", "why_tests_cant": "all private keys that decode; the tests only read back keys they have written", "anchors": ["src/core/gpsw/scheme.rs: key_generation, AsBytes for GpswMasterPrivateKey", "src/core/engine.rs: generate_user_key"]}
{"id": "C103", "title": "Refreshing or delegating a user key read from bytes never panics", "statement": "Whatever bytes a user key and a delegation key were read from, refreshing the user key or delegating from it returns a key or an error. (False: a user key that lists more attributes than it has parts, or no attribute at all, or attributes beyond the slots of the delegation key is accepted, and refreshing it panics with an index out of bounds, precisely in these cases. Delegation does not panic if the user key has a part for each of its rows and the delegation key has a slot for each needed attribute.)", "quantifier": "for every byte string below 2^63 bytes, every delegation key, every history of the policy, access policy, order of iteration and draw; 64-bit usize", "why_tests_cant": "all byte strings; the tests only read back keys they have written", "anchors": ["src/core/gpsw/scheme.rs: key_delegation, key_randomization, AsBytes for GpswDecryptionKey", "src/core/engine.rs: delegate_user_key"]}
{"id": "C104", "title": "Nobody without an entitled key can tell which of two chosen messages was encrypted", "statement": "An attacker asks for user keys to be generated, delegated and refreshed and is shown those it wants, chooses two messages and a list of attributes, is given the encryption of one of the messages, asks for further keys, and decides every step by what the comparisons of elements it computed have shown so far. If no key shown to it is satisfied by the attributes, its answer depends on which message was encrypted for at most 2 c (2 k + n + 2) in q-1 of all draws, where c is the number of comparisons, k the number of slots, n the number of values drawn for the keys and q the order of the group: with the group of the library, less than one draw in 2 to the power of 127 as long as 2 c (2 k + n + 2) is at most 2 to the power of 127. A satisfied key tells the messages apart with one comparison, whatever is drawn.", "quantifier": "for every attacker that multiplies, raises to powers, pairs and compares the elements it knows, every number of slots, requests and comparisons, every finite field; the messages are products of known elements", "why_tests_cant": "all attackers and a count over all draws; a test can only run some attacker with some draws", "anchors": ["src/core/gpsw/scheme.rs: generate_master_key, key_generation, key_delegation, key_randomization, encrypt"]}
{"id": "C105", "title": "Decrypting never panics, whatever bytes the key and the ciphertext were read from", "statement": "Decrypting any bytes that were read as a ciphertext, or a hybrid header around them, with any bytes that were read as a user key returns a message, an error or no result. (False: the decoders check neither that a ciphertext has a part for each attribute it lists nor that a key has one for each of its rows. Decryption panics with an index out of bounds precisely if an attribute listed by both lacks one of its two parts, or if the key announces no columns and its first attribute is listed but not the only common one. It also holds for header decryption in a build without overflow checks.)", "quantifier": "for every byte string below 2^63 bytes read as a user key, every ciphertext or header; 64-bit usize", "why_tests_cant": "all pairs of byte strings; the tests only decrypt what they have encrypted", "anchors": ["src/core/gpsw/scheme.rs: decrypt, AsBytes for GpswDecryptionKey, AsBytes for GpswCipherText", "src/interfaces/hybrid_crypto/statics.rs: decrypt_hybrid_header"]}
{"id": "C106", "title": "The C functions report bad keys and ciphertexts and never bring the program down", "statement": "Whatever a program passes to the C functions, they return a code. (False: the functions do not catch panics, and a panic that reaches a C caller ends the program at best. Block encryption, block decryption and rotation never panic. The others do precisely in these cases: generating master keys if a secret is drawn as zero; making a user key if the private key has a zero for a needed attribute; encrypting a header if the public key has no slot for a listed attribute but more slots than attributes are listed; decrypting a header if the decryption panics for these bytes. Nothing else that a release build for 64 bits is given makes it panic.)", "quantifier": "for every pointer (null or not), every byte string below 2^63 bytes (private keys below 2^32), every buffer, draw and nonce; policies made by the library; the JSON and AES libraries return errors", "why_tests_cant": "all byte strings and buffers; the tests pass what the library has written", "anchors": ["src/interfaces/ffi/hybrid_gpsw_aes.rs: h_aes_decrypt_header, h_aes_encrypt_header, h_aes_encrypt_block, h_aes_decrypt_block", "src/interfaces/ffi/generate_gpsw_keys.rs: h_generate_master_keys, h_generate_user_private_key, h_rotate_attributes"]}
{"id": "C107", "title": "Nobody without entitled keys can tell which of two chosen messages was encrypted, however many are encrypted", "statement": "The attacker of C104 asks for any number of encryptions: each time it chooses two messages and a list of attributes, which may depend on all it has seen, and either always the first or always the second message is encrypted. A message may be built from earlier ciphertexts and keys, and products may combine elements of several ciphertexts. If no key shown to it, before or after, is satisfied by the attributes of a ciphertext, its answer depends on which messages were encrypted for at most 2 c (2 k + n + m + 1) in q-1 of all draws, where c is the number of comparisons, k the number of slots, n the number of values drawn for the keys, m the number of encryptions and q the order of the group: with the group of the library, less than one draw in 2 to the power of 127 as long as 2 c (2 k + n + m + 1) is at most 2 to the power of 127.", "quantifier": "for every attacker that multiplies, raises to powers, pairs and compares the elements it knows, every number of slots, requests, encryptions and comparisons, every finite field", "why_tests_cant": "all attackers and a count over all draws; a test can only run some attacker with some draws", "anchors": ["src/core/gpsw/scheme.rs: generate_master_key, key_generation, key_delegation, key_randomization, encrypt"]}
{"id": "C108", "title": "The Python functions raise ordinary exceptions on bad keys, policies and messages", "statement": "Whatever a program passes to the Python functions, they return a value or raise an exception that `except Exception` catches. (False: a panic of the library becomes a PanicException, which `except Exception` does not catch. Generating and rotating policies, reading the size of a header, and encrypting and decrypting blocks never panic. The others do precisely in these cases: generating master keys if a secret is drawn as zero; encrypting if the list has fewer attributes than the public key has slots but one of them has a number beyond these slots; decrypting if the message is shorter than it announces, or if its header holds a ciphertext on which decryption stops, see C105; refreshing a user key with at least one column if it has no attribute, or one that the delegation key or the parts of the user key do not cover. Making a user key panics only if the private key has a zero for a needed attribute, and then whenever a private key of the same size gives a user key. Delegating panics only if a needed attribute is not covered, and then whenever the user key has all the needed attributes.)", "quantifier": "for every byte string below 2^63 bytes (private and user keys below 2^32 when they are extended), every draw and nonce; policies made by the library; the JSON, AES and access policy libraries return errors", "why_tests_cant": "all byte strings; the tests pass what the library has written", "anchors": ["src/interfaces/pyo3/hybrid_gpsw_aes.rs: get_encrypted_header_size, encrypt_hybrid_header, decrypt_hybrid_header, encrypt_hybrid_block, decrypt_hybrid_block, encrypt, decrypt", "src/interfaces/pyo3/generate_gpsw_keys.rs: generate_master_keys, generate_user_private_key, generate_delegated_key, generate_policy, rotate_attributes"]}
{"id": "C109", "title": "The WebAssembly functions raise JavaScript exceptions on bad keys, policies and messages", "statement": "Whatever a program passes to the WebAssembly functions, they return a value or throw. (False: a panic traps. Rotating policies, reading the size of a header, and encrypting and decrypting blocks never panic. The others do precisely in these cases: generating master keys if a secret is drawn as zero; encrypting a header or making an encryption cache if the public key announces so many points that their size wraps around and memory cannot hold them, or if the list has fewer attributes than the public key has slots but one of them has a number beyond these slots; decrypting a header or making a decryption cache if the user key or the ciphertext announces more than memory can hold, or if decryption stops on them, see C105. Making a user key panics only if the private key announces more than memory can hold or has 8192 secrets or more, or has a zero for a needed attribute; in the last case it does whenever a private key of the same size gives a user key. With 32 bits, a private key of 37 bytes, a public key of 53 or a header of 12 is enough.)", "quantifier": "for every byte string that fits in memory (private keys below 2^32 bytes), every draw and nonce; release builds for 32 bits or more; policies made by the library; the JSON, AES and access policy libraries return errors", "why_tests_cant": "all byte strings; the tests pass what the library has written and run on 64 bits", "anchors": ["src/interfaces/wasm_bindgen/hybrid_gpsw_aes_encryption.rs: webassembly_encrypt_hybrid_header, webassembly_create_encryption_cache, webassembly_encrypt_hybrid_block", "src/interfaces/wasm_bindgen/hybrid_gpsw_aes_decryption.rs: webassembly_decrypt_hybrid_header, webassembly_create_decryption_cache, webassembly_decrypt_hybrid_block, webassembly_get_encrypted_header_size", "src/interfaces/wasm_bindgen/generate_gpsw_keys.rs: webassembly_generate_master_keys, webassembly_generate_user_private_key, webassembly_rotate_attributes"]}
{"id": "C110", "title": "The symmetric keys of headers look random to whoever holds no entitled key", "statement": "An attacker asks for any number of headers for lists of attributes it chooses, and for user keys, and is told the symmetric key of each header. These are either the real keys, or values that have nothing to do with the headers. The hash function that makes a symmetric key from the encrypted element is taken as ideal, and the attacker can have any element it computes hashed. If no key shown to it, before or after, is satisfied by the attributes of a header, its answer depends on which keys it was told for at most 5 (c + (h + m)^2) (2 k + n + m + 1) in q-1 of all draws, where c, h and m are the numbers of comparisons, hashes and headers, k the number of slots, n the number of values drawn for keys and q the size of the field. For BLS12-381 this is less than one in 2^127 unless the numbers are astronomical. With a satisfied key the attacker always tells them apart.", "quantifier": "for every attacker that multiplies, raises to powers, pairs, compares and hashes the elements it knows, every number of slots, requests, headers, hashes and comparisons, every finite field, every sequence of values of the hash function", "why_tests_cant": "all attackers and a count over all draws; a test can only run some attacker with some draws", "anchors": ["src/core/engine.rs: generate_symmetric_key, decrypt_symmetric_key", "src/core/gpsw/scheme.rs: generate_master_key, key_generation, key_delegation, key_randomization, encrypt"]}
{"id": "C111", "title": "Breaking the scheme is as hard as the decisional bilinear Diffie-Hellman problem", "statement": "An attacker, which may compute in any way it likes with the elements it is given, has the public key and the delegation key, asks for user keys one after another in view of what it has seen, generated, delegated or refreshed from keys that others hold, and for ciphertexts of one of two messages it chooses, for lists of attributes fixed beforehand that satisfy the formula of none of its keys. If it tells whether the first or the second messages were encrypted, then it can be turned into a program that solves the decisional bilinear Diffie-Hellman problem in the same groups: the program runs the attacker once and does no more than the operations of the groups and of the library. Its advantage is at least half that of the attacker for one ciphertext, and at least the 2m-th part for m ciphertexts.", "quantifier": "for every attacker (any function of the bit strings of the elements, with any coins), every number of slots, of keys and of ciphertexts, all formulas and messages, every pairing over a finite field", "why_tests_cant": "all attackers and a count over all draws; a test can only run some attacker with some draws", "anchors": ["src/core/gpsw/scheme.rs: generate_master_key, key_generation, key_delegation, key_randomization, encrypt, span_coefs", "src/core/msp.rs: to_msp"]}
{"id": "C112", "title": "Telling symmetric keys of headers from others is as hard as the decisional bilinear Diffie-Hellman problem", "statement": "An attacker as in the previous property asks for headers instead, for lists of attributes fixed beforehand, and is told a symmetric key with each header. If it tells whether these belong to the headers or are made from unrelated random elements, then it can be turned into a solver of the decisional bilinear Diffie-Hellman problem in the same groups, with at least the 2m-th part of its advantage for m headers. Nothing is assumed about the hash function.", "quantifier": "for every attacker (any function of the bytes and elements, with any coins), every number of slots, of keys and of headers, all policies, attributes and formulas, every length of symmetric keys, every hash function, every pairing over a finite field", "why_tests_cant": "all attackers and a count over all draws; a test can only run some attacker with some draws", "anchors": ["src/core/engine.rs: generate_symmetric_key, encrypt", "src/core/gpsw/scheme.rs: generate_master_key, key_generation, key_delegation, key_randomization, encrypt"]}
{"id": "C113", "title": "Metadata and blocks are as secret as the bilinear Diffie-Hellman problem and the symmetric scheme make them", "statement": "An attacker, which may compute in any way it likes, has the public key and the delegation key, asks for user keys as in the previous properties, for headers with one of two metadata it chooses, for lists of attributes fixed beforehand, and for blocks with one of two plaintexts of the same size it chooses, encrypted with the key of a header it names, in any order and in view of what it has seen. If none of its keys is satisfied by the attributes of a header and it tells whether the first or the second were encrypted, then it can be turned into a solver of the decisional bilinear Diffie-Hellman problem or into an attacker of the symmetric scheme alone, which sees nothing but ciphertexts for pairs of its choice under keys hashed from random elements: the advantage of the attacker is at most 2m times those of two solvers plus that against the symmetric scheme, for m headers.", "quantifier": "for every attacker (any function of the bytes and elements, with any coins), every number of slots, keys, headers and blocks, all policies, attributes, formulas, metadata and plaintexts, every symmetric scheme, every hash function with outputs of the requested size, every pairing over a finite field", "why_tests_cant": "all attackers and a count over all draws; a test can only run some attacker with some draws", "anchors": ["src/interfaces/hybrid_crypto/statics.rs: encrypt_hybrid_header, encrypt_hybrid_block", "src/core/engine.rs: generate_symmetric_key", "src/core/gpsw/scheme.rs: generate_master_key, key_generation, key_delegation, key_randomization, encrypt"]}
{"id": "C114", "title": "Nothing drawn at random is ignored", "statement": "Two headers made with one public key are the same bytes only if the drawn element, the drawn scalar and the drawn nonce were the same, whatever metadata and attributes they are for; two encrypted blocks only if their nonces were; two messages of the Python encrypt only if all four draws were. Two master key pairs have the same private or public key only if all draws were the same, two delegation keys only if all those of the attributes were. Two user keys for one access policy are the same exactly if as many draws as the policy has conjunctions were the same; so are two keys refreshed or delegated from one key. All this holds for what the callers of the C, Python and WebAssembly functions receive, with and without caches.", "quantifier": "for every policy made by the library, every access policy, list of attributes, metadata, plaintext and block number, all draws, every iteration order of the hash maps and heaps", "why_tests_cant": "a test that encrypts twice and compares sees a difference if any one of the draws differs; that each of them is used is a statement about all pairs of draws", "anchors": ["src/core/gpsw/scheme.rs: generate_master_key, key_generation, key_delegation, key_randomization, encrypt", "src/core/engine.rs: generate_symmetric_key, delegate_user_key", "src/interfaces/hybrid_crypto/statics.rs: encrypt_hybrid_header, encrypt_hybrid_block", "src/interfaces/ffi/hybrid_gpsw_aes.rs: h_aes_encrypt_header, h_aes_encrypt_header_using_cache, h_aes_encrypt_block", "src/interfaces/ffi/generate_gpsw_keys.rs: h_generate_master_keys, h_generate_user_private_key", "src/interfaces/pyo3/hybrid_gpsw_aes.rs: encrypt, encrypt_hybrid_header, encrypt_hybrid_block", "src/interfaces/pyo3/generate_gpsw_keys.rs: generate_master_keys, generate_user_private_key, generate_delegated_key", "src/interfaces/wasm_bindgen/hybrid_gpsw_aes_encryption.rs: webassembly_encrypt_hybrid_header, webassembly_encrypt_hybrid_block", "src/interfaces/wasm_bindgen/generate_gpsw_keys.rs: webassembly_generate_master_keys, webassembly_generate_user_private_key"]}
{"id": "C115", "title": "The three interfaces work together", "statement": "Master keys, user keys, headers and blocks are bytes that pass between the C, Python and WebAssembly interfaces, also between 32-bit and 64-bit machines. Whichever interface made the master keys, the user key (possibly refreshed or delegated through Python afterwards) and the header: all three interfaces open the header, with the symmetric key and the metadata it was made with, if the attributes of the header that were not rotated since the key was made satisfy its access policy; otherwise all three report an error. A block made by any of them is read by all of them under the same key, uid and block number. The message of the Python encrypt is the size of the header, the header and block 0; the size functions of the three interfaces find the header in it; and such a message, put together from a header and a block of any two interfaces, is read by Python and WebAssembly programs exactly with the keys that open the header.", "quantifier": "for every history of the policy before and after the key, at most 524287 attribute values, every access policy, list of attributes, metadata, plaintext and block number, all draws and iteration orders, user keys below 50 MB and headers below 2 GB, machines with words of at least 32 bits, each interface on its own", "why_tests_cant": "apart from one stored block and two stored keys the tests of an interface use what the same interface or the core functions made in the same run; the combinations of makers, readers and machines are never run", "anchors": ["src/interfaces/ffi/hybrid_gpsw_aes.rs: h_aes_encrypt_header, h_aes_decrypt_header, h_aes_encrypt_block, h_aes_decrypt_block, h_get_encrypted_header_size", "src/interfaces/ffi/generate_gpsw_keys.rs: h_generate_master_keys, h_generate_user_private_key", "src/interfaces/pyo3/hybrid_gpsw_aes.rs: encrypt, decrypt, encrypt_hybrid_header, decrypt_hybrid_header, encrypt_hybrid_block, decrypt_hybrid_block, get_encrypted_header_size", "src/interfaces/pyo3/generate_gpsw_keys.rs: generate_master_keys, generate_user_private_key, generate_delegated_key", "src/interfaces/wasm_bindgen/hybrid_gpsw_aes_encryption.rs: webassembly_encrypt_hybrid_header, webassembly_encrypt_hybrid_block", "src/interfaces/wasm_bindgen/hybrid_gpsw_aes_decryption.rs: webassembly_decrypt_hybrid_header, webassembly_decrypt_hybrid_block, webassembly_get_encrypted_header_size", "src/interfaces/wasm_bindgen/generate_gpsw_keys.rs: webassembly_generate_master_keys, webassembly_generate_user_private_key"]}
{"id": "C116", "title": "Keys are made whatever the number of rotations, without exhausting the stack", "statement": "Key generation and delegation give a key or an error however often the attributes were rotated and however small the stack. (False: the access policy is translated into a tree which is released by nested calls, and the tree of one attribute is a chain of all its values. For every stack with room for d nested calls, the key of an attribute rotated d times aborts the process, though the same key is made with a larger stack. The key for all attributes needs room for exactly one call per attribute value ever created. Room for the depth of the access policy plus one call per value created, and one more, is always enough; with less room the answer is the same or the process is aborted, never another key or error.)", "quantifier": "for every policy made by the library, access policy, iteration order, private key, draws, platform and number of nested calls the stack has room for", "why_tests_cant": "all histories and all sizes of the stack; an aborted process cannot be caught by a test, and the tests rotate an attribute a few times", "anchors": ["src/core/msp.rs: policy_to_msp, policy_to_formula, policy_to_node, Node", "src/core/engine.rs: generate_user_decryption_key, delegate_user_decryption_key"]}
{"id": "C117", "title": "The sizes of keys and headers can be computed beforehand", "statement": "The bytes of a master key depend on the maximal number of attribute values n of the policy only: 36+32n for the private key, 292+48n for the public key, 4+96n for the delegation key. The bytes of a user key depend only on the number v of values which the attributes needed by its access policy, those below them on hierarchical axes included, ever got (one more than their rotations), and on the number c of conjunctions written in the access policy: 12+100v+32v(c+1). They depend neither on drawn values nor on the iteration order nor on the interface, and not on whether the key was generated, delegated from any key or refreshed; a C program offering a buffer of exactly this size gets the key at once, one offering less is told this size. The bytes of a header depend on the number a of listed attributes, repetitions counted, and on the size of the metadata only: 300+52a, and with metadata the nonce, four bytes, the metadata and the tag.", "quantifier": "for every history of the policy, access policy, list of attributes, metadata, all draws and iteration orders, at most 4294967295 attribute values (524287 for the statements on interfaces), user keys below 50 MB for the chains of interfaces and below 2 GB for the C buffers", "why_tests_cant": "tests compare lengths with those which the code itself announces, for a few policies; no formula is checked", "anchors": ["src/interfaces/ffi/hybrid_gpsw_aes.rs: h_aes_encrypt_header", "src/interfaces/ffi/generate_gpsw_keys.rs: h_generate_master_keys, h_generate_user_private_key", "src/interfaces/pyo3/generate_gpsw_keys.rs: generate_master_keys, generate_user_private_key, generate_delegated_key", "src/interfaces/wasm_bindgen/generate_gpsw_keys.rs: webassembly_generate_master_keys, webassembly_generate_user_private_key", "src/core/engine.rs: generate_user_decryption_key, delegate_user_decryption_key", "src/interfaces/hybrid_crypto/statics.rs: encrypt_hybrid_header"]}
{"id": "C118", "title": "A header that opens is the header that was made", "statement": "Bytes that a user key opens as a header are those of the maker, and the metadata found are those the maker gave. (False. Anybody can put bytes behind the encapsulated key, change the announced size accordingly and put anything after the metadata: all interfaces answer as before, whatever the key. Anybody can cut the metadata off: all readers find the same symmetric key and empty metadata; a Python message so changed is read as one of the resource without uid. Every reader can exchange the metadata: the bytes are those the maker would have made with the other metadata, and with a block of the reader all readers accept the whole message. This is all: the accepted bytes are described exactly, and with the encapsulated key unchanged and no forged metadata a header opens to the symmetric key and metadata of the maker or, without any further byte, to the symmetric key and empty metadata.)", "quantifier": "for every header below 2 GB made by any interface, every user key, all inserted and appended bytes, metadata, blocks and draws, machines with words of at least 32 bits, each interface on its own", "why_tests_cant": "all changed byte strings; tests flip or cut a few bytes", "anchors": ["src/interfaces/hybrid_crypto/statics.rs: encrypt_hybrid_header, decrypt_hybrid_header", "src/core/engine.rs: decrypt_symmetric_key", "src/interfaces/ffi/hybrid_gpsw_aes.rs: h_aes_decrypt_header", "src/interfaces/pyo3/hybrid_gpsw_aes.rs: decrypt_hybrid_header, decrypt", "src/interfaces/wasm_bindgen/hybrid_gpsw_aes_decryption.rs: webassembly_decrypt_hybrid_header"]}
{"id": "C119", "title": "Decryption takes a bounded amount of work, whatever the bytes", "statement": "Decrypting handles at most 20 * c^2 * (a + 1) entries, where a is the number of attributes of the ciphertext, repetitions counted, and c is one more than the number of conjunctions of the access policy of the key: rotations, hierarchies and disjunctions do not count. At most c pairings are computed, and at most a. The same holds for a key read from any bytes, c being its number of columns, which is at most the number of its bytes divided by 32; a ciphertext read from bytes has at most a quarter as many attributes as bytes. Parsing a formula looks at no more than 4 * (n + 1)^2 characters for a text of n characters, and the square cannot be avoided: 1&1&...&1 needs n^2 / 2. Making a span program handles at most 10 * (number of nodes) * (number of conjunctions + 1) entries.", "quantifier": "for every key, ciphertext, text and formula; keys and ciphertexts read from bytes on machines with 64-bit words", "why_tests_cant": "all inputs including hostile ones; benchmarks time a few honest ones", "anchors": ["src/core/gpsw/scheme.rs: decrypt, span_coefs", "src/core/msp.rs: Node::parse, Node::to_msp", "src/core/bilinear_map/bls12_381.rs: prod_gt_exp"]}
{"id": "C120", "title": "Choosing the attributes of a ciphertext late helps an attacker little", "statement": "An attacker as in C111 to C113 does not fix the lists of attributes beforehand, but chooses each of them when it asks for the ciphertext or header, in view of the public key and of the keys it holds, among N lists. No key it asks for, before or after, is satisfied by the attributes of one of its ciphertexts. If it tells which messages were encrypted, or whether symmetric keys belong to their headers, or which metadata and blocks were encrypted, then it can be turned into a solver of the decisional bilinear Diffie-Hellman problem (or an attacker of the symmetric scheme alone) with at least the 2 m N-th part of its advantage for m ciphertexts. If each ciphertext has one attribute of every axis, N is the product of the sizes of the axes.", "quantifier": "for every attacker, number of ciphertexts, set of lists of attributes, policy, hash function and symmetric scheme", "why_tests_cant": "a statement about all attackers and all draws", "anchors": ["src/core/gpsw/scheme.rs: encrypt, key_generation, abe_key_delegation", "src/core/engine.rs: generate_symmetric_key", "src/interfaces/hybrid_crypto/statics.rs: encrypt_hybrid_header, encrypt_hybrid_block"]}
{"id": "C121", "title": "What a debug build does, a release build does, and a larger machine too", "statement": "Every function of the library and of the three interfaces does the same, for the same arguments and draws, in a build with overflow checks (debug) and in one without (release), on a machine of the same or a larger word size (C functions: the same), unless the build with checks stops with an arithmetic overflow, or the smaller machine because a vector exceeds its address space. A program calling the WebAssembly functions with caches sees the same results up to the first such stop. Formulas, span programs, user keys, delegated keys and ciphertexts are made exactly alike, for texts below 2^31 characters and public keys with a slot. On 64 bits all decoders do exactly the same in both builds on bytes that announce no empty vector, user keys below 2^28 bytes. They differ on others: a ciphertext whose number of attributes was changed from 1 to 0 stops the debug build and is opened by the release build.", "quantifier": "for every argument, draw, sequence of calls and pair of builds; words of at least 32 bits", "why_tests_cant": "tests run in one build on one machine", "anchors": ["src/core/gpsw/mod.rs: Vec::try_from_bytes", "src/core/msp.rs: Node::parse, Node::to_msp, MonotoneSpanProgram::try_from_bytes", "src/core/gpsw/scheme.rs: try_from_bytes, encrypt", "src/interfaces/hybrid_crypto/statics.rs: EncryptedHeader::try_from_bytes, decrypt_hybrid_header", "src/interfaces/ffi/hybrid_gpsw_aes.rs: h_aes_encrypt_header, h_aes_decrypt_header", "src/interfaces/pyo3/hybrid_gpsw_aes.rs: decrypt", "src/interfaces/wasm_bindgen/hybrid_gpsw_aes_encryption.rs: webassembly_encrypt_hybrid_header"]}
{"id": "C122", "title": "Keys refreshed and delegated across versions of a policy keep their meaning", "statement": "A policy is changed by any sequence of rotations and new axes. Keys are generated with any version of it, refreshed with any policy at all, and delegated with any version, earlier or later than the one they were made with, to access policies that ask for less: an operand of an Or, an attribute below on a hierarchical axis, some attributes of a disjunction or of All. Every such key stands for one version, the earliest of those used to make it and to delegate it. It decrypts a ciphertext or opens a header of any version exactly if the attributes that were not rotated between its version and the one of the ciphertext satisfy its access policy. Delegation succeeds exactly if the policy given has the attributes asked for and none that the new access policy needs was rotated since the version of the key; otherwise an error is returned. So with the current policy a user cannot pass on the old access to a rotated attribute, and refreshing does not change this.", "quantifier": "for every history, versions, access policies, sequences of generation, refresh and delegation, orders of iteration, ciphertexts and draws; axes without repeated names", "why_tests_cant": "histories and sequences of delegations are unbounded and tests use one policy version", "anchors": ["src/core/engine.rs: generate_user_key, delegate_user_key, encrypt, decrypt", "src/core/gpsw/scheme.rs: key_delegation, key_randomization", "src/core/msp.rs: policy_to_msp, policy_to_formula, policy_to_node", "src/interfaces/hybrid_crypto/statics.rs: encrypt_hybrid_header, decrypt_hybrid_header"]}
{"id": "C123", "title": "Exactly the delegations that give a working key", "statement": "Delegation succeeds for every access policy that names no new attribute, also when the new key cannot work. A delegation always gives a key that decrypts what satisfies its policy exactly if every smallest set of attributes satisfying the new formula is a smallest set satisfying the formula of the source key. For a set where this fails, at most one value along some direction of the random draws of the source key gives a delegated key that returns the message. A key for which each attribute suffices alone, as the one for the access policy All, computes for another formula the message divided by a power of the public key that depends on the number of attributes used. So the key for All delegated to an access policy that no attribute satisfies alone, such as a level and a department as in the demonstration program, is made without error, and returns a wrong message without error for everything its policy allows: it never returns the message.", "quantifier": "for every formula, access policy, history of the policy, iteration order, master key with a non-zero secret, message, attributes and draws; fields in which no number up to the number of attributes is zero", "why_tests_cant": "the demonstration makes such a key and never uses it; the failure is a wrong message and not an error, and for other formulas it depends on the draws", "anchors": ["src/core/gpsw/scheme.rs: key_delegation, key_generation, decrypt", "src/core/engine.rs: delegate_user_key", "src/core/demo.rs: abe"]}
{"id": "C124", "title": "The quick start program does what it says, with every randomness", "statement": "The demonstration program of the repository, which the README gives as quick start, ends without an error or a panic and all the messages it compares are equal, whatever is drawn and in whatever order maps are visited, provided the drawn secrets of the attributes are not zero. What it shows follows from rules: a key refuses a ciphertext with None if one of the attributes of the ciphertext, not rotated since, satisfies one of the requirements of its access policy, and with an error otherwise; a key can be delegated with any version of the policy to exactly the access policies that have keys in that version and whose requirements are satisfied only by attributes that satisfy a requirement of its own access policy and were not rotated since its version, however they are combined, and a delegation to an access policy with a further attribute is an error, not a panic. The one key that the program makes and does not use never gives the message of a ciphertext.", "quantifier": "for every bilinear instance, draws, messages, scalars and iteration orders; the rules for every history, key, ciphertext and access policy; the last statement for fields in which no number from 1 to 100 is zero", "why_tests_cant": "the program is itself a test and runs with one randomness and one iteration order at a time; it does not tell which of its assertions hold by a rule", "anchors": ["src/core/demo.rs: abe", "src/core/engine.rs: generate_user_key, delegate_user_key, encrypt, decrypt", "src/core/gpsw/scheme.rs: key_delegation, decrypt", "README.md: Quick start"]}
{"id": "C125", "title": "Exactly the access policies a key can be delegated to with success", "statement": "A key delegated to an access policy decrypts everything the new access policy allows, and nothing else, whenever every smallest set of attributes that satisfies the new access policy is also a smallest set satisfying the access policy of the source key; this holds for keys obtained in any way, for ciphertexts of every version of the policy, with hierarchical axes and rotated attributes. Only for these access policies do newly made keys always give working delegated keys: for any other access policy to which a key can be delegated, there are draws with which the delegated key does not decrypt something its access policy allows. The access policies obtained by choosing alternatives, going down a hierarchy, reordering and regrouping are among them, others too, such as two of the four pairs of two alternatives.", "quantifier": "for every history, access policies, iteration orders, draws, attributes and messages; for the converse, master keys with a non-zero secret and fields in which no number up to the limit of the policy is zero", "why_tests_cant": "the condition speaks of all sets of attributes; a delegated key that fails does so only for some draws and some attributes, with a wrong message and no error", "anchors": ["src/core/engine.rs: delegate_user_key, generate_user_key, decrypt", "src/core/gpsw/scheme.rs: key_delegation, decrypt", "src/core/msp.rs: policy_to_msp, Node::to_msp"]}
{"id": "C126", "title": "Keys given in place of keys of another kind", "statement": "The bytes of a master private key are never accepted as a public key, as a delegation key or as a user key, so a program that mixes them up gets an error instead of encrypting or decrypting with them, in each of the interfaces. The bytes of a delegation key are never accepted as a user key; exchanging the two keys given to the Python delegation function is reported. Claimed too, and false: a user key given in place of the delegation key is reported. Its bytes are always accepted as a delegation key, and the delegated key made with it does not decrypt what it should, or the call panics.", "quantifier": "for every master key of at most 2^32-2 values, every user key, and all other arguments of the calls, on 64-bit platforms", "why_tests_cant": "keys carry no tag: whether bytes of one kind are read as another depends on the lengths and values of all their parts, over all numbers of attributes", "anchors": ["src/core/gpsw/scheme.rs: AsBytes for GpswMasterPrivateKey, AsBytes for GpswMasterPublicKey, AsBytes for GpswMasterPublicDelegationKey, AsBytes for GpswDecryptionKey", "src/interfaces/pyo3/generate_gpsw_keys.rs: generate_user_private_key, generate_delegated_key", "src/interfaces/hybrid_crypto/statics.rs: encrypt_hybrid_header", "src/interfaces/ffi/generate_gpsw_keys.rs: h_generate_user_private_key", "src/interfaces/ffi/hybrid_gpsw_aes.rs: h_aes_encrypt_header", "src/interfaces/wasm_bindgen/generate_gpsw_keys.rs: webassembly_generate_user_private_key", "src/interfaces/wasm_bindgen/hybrid_gpsw_aes_encryption.rs: webassembly_encrypt_hybrid_header"]}
{"id": "C127", "title": "Correct calls succeed", "statement": "With the Python interface a program that uses one history of a policy correctly never gets an error: master keys are made for any version; a user key is made for any access policy of declared attributes without 'All' inside it and without overlapping requirements; a held key is re-randomised, or delegated to an included access policy none of whose attributes were rotated in between; any non-empty plaintext of at most 2^30 bytes is encrypted for any non-empty list of declared attributes; and each of the byte strings returned is accepted by the next call. The message then opens for exactly the keys whose access policy the attributes not rotated since satisfy.", "quantifier": "for every history of at most 2^24 attribute creations, not all used up, all versions, access policies, attribute lists shorter than that number, metadata, plaintexts and random draws (nonzero for the master key), on 64-bit platforms", "why_tests_cant": "an error on a correct call could come from any of the checks, conversions and size limits on the way, for particular policies, keys, sizes or draws only", "anchors": ["src/interfaces/pyo3/generate_gpsw_keys.rs: generate_master_keys, generate_user_private_key, generate_delegated_key", "src/interfaces/pyo3/hybrid_gpsw_aes.rs: encrypt, decrypt, encrypt_hybrid_header, decrypt_hybrid_header"]}
{"id": "C128", "title": "The Python demonstration program", "statement": "The demonstration program of the Python interface runs to its end: none of its calls fails outside a try, each of its assertions holds, and each of the three decryptions it expects to be refused raises an exception (the program would not notice if one succeeded). The delegated key it makes at the end without using it opens the messages of Low Secret made before the rotation, for MKG and for FIN, and is refused with an error the message of Top Secret and the one made after the rotation.", "quantifier": "for all random choices of the calls (nonzero for the master key) and all orders of iteration, on 64-bit platforms", "why_tests_cant": "one run of the program samples one set of random choices and one order of iteration, and the try blocks pass whether or not the decryption is refused", "anchors": ["src/interfaces/pyo3/tests/demo.py", "src/interfaces/pyo3/generate_gpsw_keys.rs: generate_policy, rotate_attributes, generate_delegated_key", "src/interfaces/pyo3/hybrid_gpsw_aes.rs: encrypt, decrypt"]}
{"id": "C129", "title": "Correct calls succeed through every interface", "statement": "With at most 1024 attribute values, master keys, user keys and hybrid headers asked for with correct arguments are made by the C, the Python and the WebAssembly interface alike, each on its own machine: the three return the same bytes (through WebAssembly only headers with a nonempty identifier and without additional data can be asked for; the C functions deliver them when the buffers are large enough, and otherwise ask for the exact size), every machine reads them back, and all three open the header with the key exactly when the access policy of the key is satisfied by the attributes of the header that were not rotated between the two. Correct means: attributes declared in the version of the policy given, a place left in the policy for the next value, an access policy without All inside and without an attribute occurring twice, fewer attributes than values.", "quantifier": "for all histories of the policy, versions used for the master keys, the key and the header, access policies, attributes, metadata, random choices (nonzero for the master key) and orders of iteration, on 32- and 64-bit machines in any combination", "why_tests_cant": "a test runs one interface on one machine with one policy; that no correct call fails or gives different bytes elsewhere cannot be sampled", "anchors": ["src/interfaces/ffi/generate_gpsw_keys.rs: h_generate_master_keys, h_generate_user_private_key", "src/interfaces/ffi/hybrid_gpsw_aes.rs: h_aes_encrypt_header, h_aes_decrypt_header", "src/interfaces/pyo3/generate_gpsw_keys.rs: generate_master_keys, generate_user_private_key", "src/interfaces/pyo3/hybrid_gpsw_aes.rs: encrypt_hybrid_header, decrypt_hybrid_header", "src/interfaces/wasm_bindgen: webassembly_generate_master_keys, webassembly_generate_user_private_key, webassembly_encrypt_hybrid_header, webassembly_decrypt_hybrid_header"]}
{"id": "C130", "title": "The notebook, and which error a refusal is", "statement": "Through the Python interface, decrypting a message the key does not suffice for raises the error 'invalid encrypted data' if one of the attributes of the message, not rotated between the version of the key and that of the message, occurs in the access policy of the key or lies below one of its hierarchical attributes, and the error 'empty input matrix' otherwise. The cells of the notebook on access to confidential data, run in their order, end without an exception; each line they print about a decryption is the one recorded in the notebook, with the recorded error; both delegations beyond the authority of the delegate raise an exception; the two keys delegated to the marketing user open the first message of the notebook and none of the others.", "quantifier": "for all keys, messages and histories of the policy (first part); for all random choices of the calls (nonzero for the master key) and all orders of iteration, on 64-bit platforms", "why_tests_cant": "the recorded output is one run with one set of random choices; which of the two errors appears depends on the rows of the key that match the message", "anchors": ["src/interfaces/pyo3/tests/notebooks/confidential-data-access.ipynb", "src/interfaces/pyo3/hybrid_gpsw_aes.rs: encrypt, decrypt", "src/interfaces/pyo3/generate_gpsw_keys.rs: generate_delegated_key, rotate_attributes", "src/core/engine.rs: decrypt_symmetric_key"]}
{"id": "C131", "title": "The text of an error tells why a key does not open a header", "statement": "Opening a header the key does not suffice for fails through C, Python and WebAssembly, with the key given in its bytes or kept in a cache, and the text the caller reads is, after words fixed by the interface, 'invalid encrypted data' if one of the attributes of the header, not rotated between the version of the key and that of the header, occurs in the access policy of the key or lies below one of its hierarchical attributes, and 'empty input matrix' otherwise. The words are 'FFI error: ' for C (read with get_last_error, the outputs of the call being untouched), 'Error decrypting header: ' for Python, also when a whole message is decrypted, and 'Error decrypting hybrid header: ' for WebAssembly. That the words always name the operation is refuted: decrypting an empty block through Python raises 'Error encrypting block: Empty ciphertext'.", "quantifier": "for all keys, headers made by any of the interfaces and histories of the policy, on platforms of 32 bits and more; all buffers given to get_last_error that have room for the text", "why_tests_cant": "the text depends on which rows of the key match the header, for all access policies and rotations, and passes through three layers of error types", "anchors": ["src/error.rs: FormatErr", "src/interfaces/ffi/error.rs: FfiError, ffi_unwrap, get_last_error", "src/interfaces/ffi/hybrid_gpsw_aes.rs: h_aes_decrypt_header, h_aes_decrypt_header_using_cache", "src/interfaces/pyo3/hybrid_gpsw_aes.rs: decrypt, decrypt_hybrid_header, decrypt_hybrid_block", "src/interfaces/wasm_bindgen/hybrid_gpsw_aes_decryption.rs: webassembly_decrypt_hybrid_header, webassembly_decrypt_hybrid_header_using_cache"]}
{"id": "C132", "title": "Blocks, whole messages and delegation succeed on 32-bit machines too", "statement": "For a policy of at most 1024 attribute values, on machines of 32 bits and more: a block of 1 to 2^30 bytes is encrypted without error by C, Python and WebAssembly, which return the same bytes (C in a buffer with room for the block; a smaller one is left as it is, with an error that does not tell the size) and which all read it back; a text cut into such pieces, the piece at place j encrypted as block j by any of the interfaces, is read back piece by piece by any of them; Python's delegation to all attributes and to any included access policy, declared in the given version and free of attributes rotated since, succeeds and gives a key of that access policy in bytes read on every machine, however often it is repeated; and Python's encryption of a whole message succeeds, Python and WebAssembly reading the message with exactly the keys whose access policy is satisfied by the attributes of the message not rotated in between.", "quantifier": "for all clear texts of at most 2^30 bytes, keys made, refreshed or narrowed in any order, histories of the policy, attributes and metadata, on platforms of 32 bits and more", "why_tests_cant": "the sizes at which 32-bit lengths would overflow, and the sequences of delegations and rotations, are unbounded or too large to run", "anchors": ["src/interfaces/ffi/hybrid_gpsw_aes.rs: h_aes_encrypt_block, h_aes_decrypt_block", "src/interfaces/pyo3/hybrid_gpsw_aes.rs: encrypt, decrypt, encrypt_hybrid_block, decrypt_hybrid_block", "src/interfaces/pyo3/generate_gpsw_keys.rs: generate_delegated_key", "src/interfaces/wasm_bindgen/hybrid_gpsw_aes_encryption.rs: webassembly_encrypt_hybrid_block", "src/interfaces/wasm_bindgen/hybrid_gpsw_aes_decryption.rs: webassembly_decrypt_hybrid_block", "src/core/engine.rs: delegate_user_key"]}
{"id": "C133", "title": "The repository's randomised tests pass whatever they draw", "statement": "The tests of the repository that draw keys, messages and nonces at random pass for every draw in which the attribute secrets of the master key are not zero, not only for the draws of one run: the two decrypting and the five encoding tests of gpsw_tests.rs, complex_access_policy_test and symmetric_key_test of engine_tests.rs, test_aes_hybrid_encryption of the hybrid tests, and the keys, header and block tests of the WebAssembly interface. The tests that read key files pass for every public key and user key in the files such that the user key, however it was made, refreshed or narrowed, is for an access policy satisfied by Department::FIN and Security Level::Top Secret, neither rotated since. They pass on machines of 32 bits and more and for every order of iteration of the hash maps.", "quantifier": "for all draws with attribute secrets not zero, orders of iteration, groupings of the ors of the access policy, key files as described, platforms of 32 bits and more", "why_tests_cant": "a run of a randomised test shows one draw", "anchors": ["src/core/tests/gpsw_tests.rs: encrypt_decrypt, user_key_as_bytes, ciphertext_as_bytes, master_public_key_as_bytes, encrypt_decrypt_with_multiple_key_pair, master_private_key_as_bytes, master_public_delegation_key_as_bytes", "src/core/tests/engine_tests.rs: symmetric_key_test, complex_access_policy_test", "src/interfaces/hybrid_crypto/tests/mod.rs: test_aes_hybrid_encryption", "src/interfaces/wasm_bindgen/tests.rs: test_generate_keys, test_decrypt_hybrid_header, test_encrypt_hybrid_header, test_encrypt_hybrid_block", "src/core/gpsw/scheme.rs: encrypt, decrypt, key_generation", "src/interfaces/hybrid_crypto/statics.rs: encrypt_hybrid_header, decrypt_hybrid_header"]}
{"id": "C134", "title": "The tests of the C interface pass whatever is drawn, beside any other use of the caches", "statement": "The two tests of the C interface, which make a header through h_aes_encrypt_header or through a cache and open it again with buffers of 32 and 4096 bytes, pass for every draw, for all key files as in C133 and for all uids and additional data of at most 4096 bytes each, if and only if the header has room in its buffer, i.e. 408 bytes, the nonce, the encoded metadata and the tag are at most 4096 bytes. The test that uses the caches passes whatever other threads of the process create, look up and destroy at the same time, as long as nobody destroys its handle and at most 2^32 caches are made. No pointer is read or written past the memory of the test, and empty additional data come back empty.", "quantifier": "for all draws, key files as described, metadata of at most 4096 bytes for each part, interleavings with other threads, platforms of 32 bits and more", "why_tests_cant": "the tests run once, with nine and five bytes of metadata, two caches and one draw", "anchors": ["src/interfaces/ffi/tests.rs: encrypt_header, decrypt_header, unwrap_ffi_error, encrypt_header_using_cache, decrypt_header_using_cache, test_ffi_hybrid_header, test_ffi_hybrid_header_using_cache", "src/interfaces/ffi/hybrid_gpsw_aes.rs: h_aes_encrypt_header, h_aes_decrypt_header, h_aes_encrypt_header_using_cache, h_aes_decrypt_header_using_cache, h_aes_create_encryption_cache, h_aes_create_decryption_cache"]}
{"id": "C135", "title": "Output buffers and length variables may be used again exactly while results do not grow", "statement": "A C caller that passes the same buffers and length variables to one call after the other, without setting the lengths again, gets every symmetric key and every header if and only if no header is longer than the one before it and the first is not longer than announced; in particular for headers of one number of attributes and one encoded size of metadata, as in the benchmarks, whatever is drawn. When headers are opened in this way, every uid and all additional data come back if and only if neither grows from header to header. Once a header has no additional data, those of all later headers are silently left out though every call returns 0. A caller that only repeats the call after a header was refused because its buffer is too small has the header written past the buffer. For blocks the same condition holds, a length of zero being refused, and repeating calls on the same buffer never writes past it.", "quantifier": "for all sequences of calls of the header functions, with and without caches, and of the block functions, all draws, all buffers of less than 2^31 bytes, platforms of 32 bits and more", "why_tests_cant": "the benchmarks repeat one call with the same arguments; a test cannot try all sequences of sizes, and writing past a buffer may go unnoticed", "anchors": ["benches/benches.rs: bench_ffi_header_encryption, bench_ffi_header_encryption_using_cache, bench_ffi_header_decryption, bench_ffi_header_decryption_using_cache", "src/interfaces/ffi/hybrid_gpsw_aes.rs: h_aes_encrypt_header, h_aes_decrypt_header, h_aes_encrypt_header_using_cache, h_aes_decrypt_header_using_cache, h_aes_encrypt_block, h_aes_decrypt_block"]}
{"id": "C136", "title": "Reading keys and ciphertexts takes memory in proportion to their bytes, except for user keys", "statement": "On machines of 64 bits, reading master keys, delegation keys and ciphertexts from any bytes, well formed or not, asks for memory that is at most a fixed multiple of the number of bytes given. So does reading a user key that is well formed. Bytes that are no user key can make the reader ask for up to 128 GiB more before it returns an ordinary error: 108 bytes that announce no rows and n columns are refused only after room for n scalars was asked for, for every n below 2^32. As a failed allocation ends the process, every function that takes a user key as bytes can be stopped by 108 bytes.", "quantifier": "for all bytes (fewer than 2^63), all sizes of points in memory, all platforms of 64 bits", "why_tests_cant": "tests read keys that were written before or a few altered ones; they do not measure memory, and on machines that promise more memory than there is the allocation goes unnoticed", "anchors": ["src/core/gpsw/mod.rs: AsBytes for Vec (try_from_bytes)", "src/core/msp.rs: MonotoneSpanProgram::try_from_bytes", "src/core/gpsw/scheme.rs: try_from_bytes of GpswMasterPrivateKey, GpswMasterPublicKey, GpswDelegationKey, GpswDecryptionKey, GpswCipherText"]}
{"id": "C137", "title": "Every way in which making or delegating a key and encrypting can end", "statement": "Making a key for an access policy other than All ends in exactly one of three ways: with the error about the first requirement, from left to right, that is All, names an unknown axis or an attribute its axis does not have; else with the error about a leaf inserted twice, if some attribute satisfies two of the requirements; else with a key. For All there is a key as soon as one attribute is declared and a missing attribute error otherwise. Delegating a key to an access policy other than All, narrower than that of the key or not, ends with one of the same two errors, else with \"new attribute is not allowed\" if some attribute that satisfies a requirement is not in the key or was rotated since the key was made, else with a key; Python receives these errors. Encrypting ends with an error if some attribute is not declared, else with another one if at least as many attributes are given as the master key has slots, else with a ciphertext. None of them panics. The refusals to make a key and to encrypt a header reach callers in Python, in the browser and in C, where nothing is written.", "quantifier": "for all histories of policies whose axes list no name twice, all versions of them, all master keys with a slot for each of their values, all access policies and lists of attributes, all keys made or delegated by the library, all orders of iteration, all random draws, all platforms", "why_tests_cant": "tests look for one error at a time, mostly with is_err(); that the cases exclude each other, leave nothing out, and which of several reasons is reported depends on all policies and all histories", "anchors": ["src/core/engine.rs: generate_user_key, delegate_user_key, encrypt", "src/core/gpsw/scheme.rs: key_generation, key_delegation, encrypt", "src/core/msp.rs: policy_to_node, policy_to_formula, Node::to_msp", "src/interfaces/pyo3/generate_gpsw_keys.rs: generate_user_private_key, generate_delegated_key", "src/interfaces/hybrid_crypto/statics.rs: encrypt_hybrid_header", "src/interfaces/ffi/generate_gpsw_keys.rs: h_generate_user_private_key", "src/interfaces/ffi/hybrid_gpsw_aes.rs: h_aes_encrypt_header", "src/interfaces/wasm_bindgen/generate_gpsw_keys.rs: webassembly_generate_user_private_key", "src/interfaces/wasm_bindgen/hybrid_gpsw_aes_encryption.rs: webassembly_encrypt_hybrid_header"]}
{"id": "C138", "title": "How many group operations each call makes, in particular how many pairings decryption takes", "statement": "Master keys for n values take one power in the target group, n powers in G2 and n in the group of the delegation key. A user key takes one power for each value of an attribute that satisfies one of its requirements, delegating and refreshing one power and one multiplication for each such value. Encrypting takes one power and one multiplication in the target group and one power for each attribute; when encryption is refused no group operation is made. Decrypting takes t powers, t Miller loops, one final exponentiation and one division, where t is no more than the number of attributes of the largest set that satisfies the access policy and from which none can be left out, and no less than that of the smallest, and both numbers are reached for every access policy; in particular no more than the conjunctions plus one, however many attributes the ciphertext and the key share. When the key does not satisfy the access policy no group operation is made. For a key and a ciphertext read from any bytes, no more powers and Miller loops than the ciphertext has attributes, and none unless an element is returned.", "quantifier": "for all bilinear maps, all histories of policies whose axes list no name twice, all access policies and lists of attributes, all keys made, refreshed or delegated by the library, all orders of iteration, all random draws, all platforms", "why_tests_cant": "the benchmarks of the repository measure a few sizes of policies; a bound on the number of pairings holds for every access policy and every set of attributes or not at all", "anchors": ["src/core/gpsw/scheme.rs: generate_master_key, key_generation, key_delegation, key_randomization, encrypt, decrypt", "src/core/bilinear_map/bls12_381.rs: prod_gt_exp", "src/core/engine.rs: generate_master_key, generate_user_key, delegate_user_key, encrypt, decrypt"]}
{"id": "C139", "title": "Attribute values and the formulas of keys are those the README describes", "statement": "The attributes of a policy have unique values, numbered from 1 in the order in which the axes and their names are added; a rotation gives the next number. A ciphertext lists the last value of each of its attributes, in the order given. A user key for an access policy other than All holds the span program of a formula that reads as the access policy, each requirement being replaced by an alternative between all values of the attributes that satisfy it: the attribute itself and, on a hierarchical axis, the attributes before it. When none of them was rotated the formula is exactly the one of the README, the value of the attribute followed by those of the lower ones in the order of the axis, whatever the order of iteration of the hash maps. A key for the highest attribute of a hierarchical axis opens everything encrypted with any attribute of that axis.", "quantifier": "for all policies made by adding axes that list no name twice and by rotations, all access policies, all lists of attributes, all orders of iteration, all random draws, all platforms", "why_tests_cant": "tests check the values of one or two policies; that the numbering has no gap or repetition and the formula never depends on the iteration order of a hash map is a statement about all of them", "anchors": ["README.md: Policies, Key-Policy", "src/core/msp.rs: policy_to_node, policy_to_formula, policy_to_msp", "src/core/engine.rs: generate_user_key, encrypt"]}
{"id": "C140", "title": "How many rotations a policy and its keys bear", "statement": "A policy for N values accepts a list of edits exactly when the names of the axes and the rotations are together no more than N, no axis is added twice, and only attributes are rotated whose axis was added before. An edit that is not accepted is refused with an error that tells why, a full policy being reported first. So rotations are accepted exactly while values are left, also through the functions of the Python, WebAssembly and C interfaces, which refuse the whole list otherwise; the C function then leaves the buffer of the caller and its length as they were. The keys bear one value less: with master keys made for N values, every attribute of the policy can be given a key and be encrypted for exactly while at least one value is left.", "quantifier": "for all N, all lists of edits, all policies made by adding axes and by rotations, all lists of attributes; for the keys, all policies whose axes list no name twice, all random draws that give master keys, all orders of iteration, all messages, all platforms", "why_tests_cant": "tests rotate a few attributes of a policy with room for many more; where the last accepted edit lies, and that it is one too many for the keys, concerns the limit", "anchors": ["src/core/engine.rs: generate_master_key, generate_user_key, encrypt", "src/interfaces/pyo3/generate_gpsw_keys.rs: rotate_attributes", "src/interfaces/wasm_bindgen/generate_gpsw_keys.rs: webassembly_rotate_attributes"]}
{"id": "C141", "title": "When one key opens everything another key opens", "statement": "Of two user keys made with the same policy and master key, the first opens every ciphertext the second opens exactly when its access policy follows from that of the second: every set of attributes of the policy that satisfies the second satisfies the first. It then opens every hybrid header the second opens, with the same symmetric key and metadata. So adding a requirement with And never opens more, adding an alternative with Or never opens less, a key for All opens whatever any key opens, and the order of operands and the placing of parentheses make no difference. A key for one attribute opens everything a key for another one opens exactly when they are the same or the other one is lower on the same hierarchical axis.", "quantifier": "for all policies made by adding axes and by rotations, all master keys, all pairs of access policies that have keys, all random draws, all orders of iteration, all platforms; the comparison is over all lists of attributes, messages and randomness", "why_tests_cant": "whether two access policies give the same rights is a statement about all ciphertexts; tests decrypt a few", "anchors": ["src/core/engine.rs: generate_user_key, encrypt, decrypt", "src/core/msp.rs: policy_to_formula, policy_to_node"]}
