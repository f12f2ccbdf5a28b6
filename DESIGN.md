# Formal model of cosmian_abe_gpsw: design

The subject is the Rust crate in `/repo` (cosmian_abe_gpsw 2.0.3). The model and
the proofs are in `rocq/theories`, for Coq 8.16.1. This file says what is
modelled, how each property of `properties.jsonl` is stated and proved, and what
has to be trusted.

## 1. Method

The Rust functions are transcribed one by one into total Gallina functions
(files without `Proofs` in their name). Every definition cites the file and the
lines it comes from, and says what it leaves out. Conventions:

* A Rust `Result<T, FormatErr>` that may also panic becomes `outcome T`, with the
  three cases `Ok v`, `Err e` and `Panic p`. Indexing out of range, division by
  zero, `unwrap` on `None`, and arithmetic overflow in checked builds are explicit
  `Panic` values, so "does not panic" is a statement that can be proved or refuted.
* Integers of type `u32` are `N`, `i32` are `Z`, lengths are `nat`. Arithmetic of type
  `usize` that can overflow goes through functions that take a `platform` (width of
  `usize`, overflow checks on or off). Arithmetic that cannot overflow is plain.
* Randomness is an argument: every function that draws takes the stream of drawn
  values. Theorems quantify over all streams, so they hold for every draw, not
  with high probability.
* The trait `BilinearMap` is a record of operations `BilinearMap`; its algebraic
  laws are a second record `BilinearLaws`. Theorems hold for every instance. The
  laws are those of a prime-order pairing group given by discrete logarithms, a
  field for the scalars and fixed-length codecs for the elements. `Bls.v`
  gives an instance over the real BLS12-381 scalar field (the order is proved
  prime inside Coq), which shows the laws are consistent and lets the examples run.
* A `HashMap` is an association list and a `BinaryHeap` a list; iteration goes
  through an argument (`iteration`) that gives any permutation of the elements, so theorems hold
  for every iteration order. `peek` is the maximum.
* The specification (`Spec*.v`) is separate from the model: truth of a formula,
  grammar of formulas, linear combinations, meaning of an access policy, and so on.
  Property theorems are stated with the model's entry points and these
  definitions only.
* Each property theorem is in a file `Properties*.v` or next to its proof, and is
  followed by an `Example` with concrete non-trivial data that meets its hypotheses.
* A property that is false of the code has a theorem ending in `_refuted` with a
  witness, and, where the property holds under a condition, a positive theorem.

## 2. Trusted base

* The Coq kernel (and `coqchk`).
* The axioms listed by `Print Assumptions`. The development aims at
  "Closed under the global context" for every theorem; section 5 lists exceptions, if any.
* The transcription from Rust to Gallina, which is by hand and is not checked by
  a tool. It covers the functions listed in section 3.
* The laws assumed of parts that are not in `/repo`; they are hypotheses of the
  theorems (record fields), never axioms:
  * `cosmian_bls12_381`: field and group laws, bilinearity, non-degeneracy,
    `multi_miller_loop` followed by `final_exponentiation` computes the product of
    pairings, compressed encodings are of fixed length and decode to what was encoded.
  * `abe_policy` 1.0: behaviour of `Policy::new`, `add_axis`, `rotate`,
    `attributes_values`, modelled in `Policy.v` from their use in `/repo`, the README and the
    JSON of `core/tests/policy_tests.rs` (values start at 1, are given in
    increasing order, never exceed `max_attribute_creations`, and the current value is the greatest).
    The source is not available here.
  * `cosmian_crypto_base`: the symmetric scheme decrypts what it encrypted,
    `BytesScanner` reads big-endian and fails on short input, metadata decodes to what was encoded.
  * `sha3`: Shake256 is a deterministic function whose shorter outputs are prefixes
    of longer ones.
  * `serde_json`: used as an oracle from bytes to values.

## 3. What is modelled

| Rust | model | specification | proofs | theorems |
| --- | --- | --- | --- | --- |
| `core/msp.rs` Node, to_msp, MonotoneSpanProgram | `Msp.v` | `Spec.v` | `MspProofs.v`, `Minimal.v`, `MspTheorems.v` | `PropertiesScheme.v` |
| `core/gpsw/scheme.rs` span_coefs | `Gauss.v` | `SchemeSpec.v` | `LinAlg.v`, `GaussProofs.v` | `PropertiesScheme.v` |
| `core/gpsw/scheme.rs` keys, generation, delegation, randomisation, encrypt, decrypt, ciphertext_len; trait of `core/bilinear_map/mod.rs` | `Field.v`, `Bilinear.v`, `Scheme.v` | `SchemeSpec.v` | `SchemeProofs.v`, `SchemeTheorems.v` | `PropertiesScheme.v` |
| `core/gpsw/mod.rs` AsBytes, `core/gpsw/scheme.rs` AsBytes and Display, codec of `core/msp.rs` | `Codec.v`, `SchemeCodec.v` | | `CodecProofs.v`, `SchemeCodecProofs.v` | `PropertiesCodec.v` |
| `core/bilinear_map/bls12_381.rs` scalars, message encoding | `Bls.v` | | `Primality.v`, `Zp.v`, `ExpModel.v` | `PropertiesBls.v` |
| `core/msp.rs` Node::parse | `Parser.v` | `ParserSpec.v` | `ParserProofs.v` | `PropertiesParser.v` |
| `core/msp.rs` policy_to_msp, policy_to_formula, policy_to_node; contract of `abe_policy` | `Policy.v` | `PolicySpec.v` | `PolicyProofs.v` | `PropertiesEngine.v` |
| `core/engine.rs` | `Engine.v` | `EngineSpec.v` | `EngineProofs.v` | `PropertiesEngine.v` |
| `interfaces/hybrid_crypto/statics.rs` | `Hybrid.v` | `HybridSpec.v` | | `PropertiesHybrid.v` |
| `interfaces/ffi/*.rs` buffers, errors, framing | `Ffi.v` | `FfiSpec.v` | | `PropertiesFfi.v` |
| `interfaces/ffi/hybrid_gpsw_aes.rs` caches with threads | `FfiCache.v` | `CacheSpec.v` | | `PropertiesCache.v` |
| `core/msp.rs` codec of integer span programs | `Codec.v` | | `CodecProofs.v` | `PropertiesPrograms.v` |
| `interfaces/hybrid_crypto/statics.rs` across policy versions | `Hybrid.v` | `PolicySpec.v` | | `PropertiesVersions.v` |
| canonical encodings | `Codec.v`, `SchemeCodec.v` | | `CodecProofs.v` | `PropertiesCanonical.v` |
| the encodings and headers on 32-bit targets | `Codec.v`, `SchemeCodec.v`, `Hybrid.v` | | `CodecProofs.v` | `Properties32.v` |
| `interfaces/wasm_bindgen/*.rs` | `Wasm.v` | | | `PropertiesWasm.v` |
| `interfaces/ffi` blocks and rotation | `Ffi.v` | `FfiSpec.v` | | `PropertiesFfiBlocks.v` |
| `core/gpsw/scheme.rs` delegation against generation | `Scheme.v` | `SchemeSpec.v` | | `PropertiesDelegation.v` |
| `core/gpsw/scheme.rs` colluding keys | `Scheme.v` | `CollusionSpec.v` | | `PropertiesCollusion.v` |
| `interfaces/pyo3/*.rs` | `Python.v` | | | `PropertiesPython.v` |
| modified ciphertexts, foreign keys, zero secrets | `Scheme.v`, `Hybrid.v` | `SchemeSpec.v` | | `PropertiesTamper.v` |
| `core/bilinear_map/bls12_381.rs` operations of the trait | `Curve.v` | `Curve.v` (`contract`) | `Curve.v` | `PropertiesCurve.v` |
| what headers reveal | `Hybrid.v` | `PropertiesLeaks.v` | | `PropertiesLeaks.v` |
| `interfaces/ffi/error.rs` errors of threads | `FfiErrors.v` | | | `PropertiesErrors.v` |
| `core/msp.rs` texts and `MonotoneSpanProgram::parse` | `Display.v` | `ParserSpec.v` | | `PropertiesDisplay.v` |
| `interfaces/ffi` raw arguments (pointers and lengths) | `FfiRaw.v` | | | `PropertiesFfiRaw.v` |
| `hybrid_crypto/statics.rs` blocks of long resources | `Hybrid.v` | | | `PropertiesResource.v` |
| `key_generation`, `key_randomization` equality of keys | `Scheme.v` | | | `PropertiesPersonal.v` |
| `Node::parse` depth of the recursion | `Parser.v` | `PropertiesStack.v` | | `PropertiesStack.v` |
| how often a strategy finds the message | `Scheme.v` | `CollusionSpec.v`, `LuckSpec.v` | | `PropertiesLuck.v` |
| several policies with one master key | `Policy.v`, `Engine.v` | `CopiesSpec.v` | | `PropertiesCopies.v` |
| keys read from hostile bytes | `Scheme.v`, `SchemeCodec.v`, `Engine.v` | `CopiesSpec.v` | | `PropertiesHostileKeys.v` |
| telling two messages apart | `Scheme.v` | `CollusionSpec.v`, `GameSpec.v` | | `PropertiesGame.v` |
| decrypting hostile bytes | `Scheme.v`, `SchemeCodec.v`, `Hybrid.v` | `PropertiesHostileDecrypt.v` | | `PropertiesHostileDecrypt.v` |
| crashes of the C functions | `Ffi.v` | `PropertiesFfiHostile.v` | | `PropertiesFfiHostile.v` |
| hostile inputs of the Python functions | `Python.v` | `CopiesSpec.v`, `HybridSpec.v` | | `PropertiesPyHostile.v` |
| hostile inputs of the WebAssembly functions | `Wasm.v` | `CopiesSpec.v`, `HybridSpec.v` | | `PropertiesWasmHostile.v` |
| telling many messages apart | `Scheme.v` | `GameSpec.v`, `ManySpec.v` | | `PropertiesMany.v` |
| the solver on ragged matrices | `Gauss.v` | | | `PropertiesSolver.v` |
| telling symmetric keys from random bytes | `Scheme.v` | `ManySpec.v`, `HashSpec.v` | | `PropertiesHash.v` |
| reduction to bilinear Diffie-Hellman | `Scheme.v` | `ReductionSpec.v` | | `PropertiesReduction.v` |
| reduction for metadata and blocks | `Hybrid.v` | `SealSpec.v` | | `PropertiesSeal.v` |
| use of the drawn values | all of the above | | | `PropertiesDraws.v` |
| depth of calls of key generation | `PropertiesDepth.v` | | | `PropertiesDepth.v` |
| sizes of keys and headers | `PropertiesSizes.v` | | | `PropertiesSizes.v` |
| changed headers | `Hybrid.v`, `Ffi.v`, `Python.v`, `Wasm.v` | `PropertiesAltered.v` | | `PropertiesAltered.v` |
| amount of work | `PropertiesWork.v` | | | `PropertiesWork.v` |
| late choice of attributes | `AdaptiveSpec.v` (experiments) | `AdaptiveSpec.v` | | `PropertiesAdaptive.v` |
| builds and machines | all model files | `PropertiesBuilds.v` | | `PropertiesBuilds.v` |
| keys and versions of the policy | `Policy.v`, `Engine.v` | `PropertiesHistory.v` | `HistorySpec.v` | `PropertiesHistory.v` |
| delegations that work | `Scheme.v`, `Engine.v` | `PropertiesWorking.v` | `Spec.v`, `HistorySpec.v` | `PropertiesWorking.v` |
| the quick start program | `Demo.v` | `PropertiesDemo.v` | `PolicySpec.v`, `HistorySpec.v` | `PropertiesDemo.v` |
| delegation, access policies | `Engine.v` | `PropertiesSmallest.v` | same file, `HistorySpec.v` | `PropertiesSmallest.v` |
| kinds of keys | `SchemeCodec.v`, `Python.v`, `Wasm.v`, `Ffi.v` | `PropertiesKinds.v` | same file | `PropertiesKinds.v` |
| correct programs | `Python.v`, `Engine.v`, `Policy.v` | `PropertiesLive.v`, `HistorySpec.v` | same file | `PropertiesLive.v` |
| Python demonstration | `PyDemo.v` | `PropertiesPyDemo.v` | same file | `PropertiesPyDemo.v` |
| correct calls of all interfaces | `Ffi.v`, `Python.v`, `Wasm.v` | `PropertiesLive.v` | same file | `PropertiesLiveAll.v`, `PropertiesLiveMore.v` |
| notebook | `Notebook.v` | `PropertiesNotebook.v` | same file | `PropertiesNotebook.v` |
| texts of errors | `ErrorTexts.v` | `PropertiesErrorTexts.v` | same file | `PropertiesErrorTexts.v` |
| randomised tests of the repository | `TestPrograms.v` | `PropertiesTests.v` | same file | `PropertiesTests.v` |
| tests of the C interface | `FfiTestPrograms.v` | `PropertiesFfiTests.v` | same file | `PropertiesFfiTests.v` |
| memory asked for when reading | `Memory.v` | `PropertiesMemory.v` | same file | `PropertiesMemory.v` |
| which error is returned | `Engine.v`, `Python.v`, `Wasm.v`, `Ffi.v` | `PropertiesWhy.v` | same file | `PropertiesWhy.v` |
| group operations made | `Cost.v` | `PropertiesCost.v` | same file | `PropertiesCost.v` |
| values and formulas of the README | `Policy.v`, `Engine.v` | `PropertiesReadme.v` | same file | `PropertiesReadme.v` |
| edits of a policy and the limit | `Policy.v`, `Engine.v`, `Python.v`, `Wasm.v`, `Ffi.v` | `PropertiesEdits.v` | same file | `PropertiesEdits.v`, `PropertiesEditsC.v` |
| comparing keys | `Policy.v`, `Engine.v` | `PropertiesPower.v` | same file | `PropertiesPower.v` |
| the interfaces together | `Ffi.v`, `Python.v`, `Wasm.v` | | | `PropertiesTogether.v` |
| the repository's own tests and key files | all | | | `RepoTests.v` (examples only) |

Assumptions that appear as hypotheses of theorems:

* `contract C` (`Curve.v`), only for C89, C99 and C104: the curve library gives cyclic groups of the
  BLS12-381 order and a pairing; `BilinearLaws` is proved from it for the implementation in `/repo`.
* `BilinearLaws B` (`Bilinear.v`): the laws of the groups; `ExpModel.v` gives an
  instance for every prime field, used with order 101 in the examples and with the
  order of BLS12-381 in `Bls.v`.
* `forms_ok F fine` (`SchemeCodecProofs.v`): compressed forms of group elements have
  the sizes 32, 48, 96 and 288 and decode to what was encoded; for the target group only on
  the elements satisfying `fine`, because the torus compression of the library is
  not defined everywhere.
* `canonical_forms F` (`PropertiesCanonical.v`), only for C61: a byte string accepted as the
  compressed form of an element is the one written for it.
* `64 <= usize_bits P` for the codec theorems: on a 32-bit machine some size
  computations can overflow.
* Texts below 2^31 characters for the parser, whose parenthesis counter is an i32.
* `sym_laws`, `sym_total` (`HybridSpec.v`): the symmetric scheme decrypts what it
  encrypted, block ciphertexts are longer than plaintexts by a constant, metadata decode to what was
  encoded, and none of these functions panics. A toy instance is given for the examples.
* `iteration_ok it`: iterating a hash map or a heap visits each element once, in
  any order, a different one for each call.

Not modelled: JSON texts, the benchmarks (except for their use of buffers, C135), the notebook confidential-data-access-full.ipynb (it calls a module `abe` that is not in the repository), the text of error messages when it contains
formatted data, memory allocation (running out of memory, and the capacities reserved; those taken from counts in
decoded bytes are modelled, see `reserve` in `Codec.v`, and C136 counts what readers ask for), stack depth of the
recursive functions other than `Node::parse` (C98) and those of key generation (C116), the time taken (C119 counts steps and C138 group operations only) and other side channels, and zeroisation of secrets.
Raw pointers are modelled as buffers with a size known to the caller only.

Computational security (indistinguishability under a hardness assumption) is stated by counting runs, without a
complexity theory: C111 to C113 turn an attacker, any function of what it sees, into a solver of the decisional
bilinear Diffie-Hellman problem and count how often each succeeds. The running time of the solver is not
expressed; it is a definition one can read in `ReductionSpec.v`.

How the model was compared with the program, besides reading:

* `RepoTests.v` runs the repository's unit tests of parser, span programs, scheme, policy and engine on the model
  (the ones about the text form of access policies belong to the external crate), and reads the two user keys
  kept in `/repo/src/core/tests` and `/repo/src/interfaces/hybrid_crypto/tests`, which the program wrote: the
  model reads them, writes back the same bytes, and computes the very span program they contain.
* Outside Coq, a pairing on BLS12-381 written independently in Python was applied to the same two key pairs. The shares
  of the user keys, paired with the public key elements at the positions given by the attribute values, multiply to
  the public value `y` for each of the satisfying pairs of rows tried, so the index conventions, the all-ones target vector
  and the byte layouts of the model agree with the program.
* The sizes of headers printed by the benchmarks and quoted in `/repo/README.md`, 404 and 508 bytes, are those of
  the closed formula of C117 for the two and four attributes used there.
* In the same way the encrypted block of `test_non_reg_decrypt_hybrid_block` decrypts with the associated data
  `uid || block number on 8 bytes`, nonce first and tag last: the block number and the resource identifier are
  authenticated, as `sym_laws` and the theorems on blocks suppose.

## 4. Properties

The status of each property is in `MANIFEST.json`. For each one: what is modelled and how it is proved.

* **C01** An authorised key recovers the message. `Scheme.v` encrypt, decrypt, key_generation over an arbitrary lawful group. Proof: the coefficients found by span_coefs (C04) combine the rows to ones, so the exponents of the pairings sum to y*s.
* **C02** An unauthorised key never decrypts. Same model. Proof: C03 gives that no combination exists, C04 that span_coefs says so; empty intersection is the empty-matrix error.
* **C03** The span program built from a formula computes exactly that formula. `Msp.v` to_msp with its queue. Proof: invariant on (queue, done rows, counter): a combination of rows gives w*e1 iff the coefficients are a consistent weighting of the tree; for unsatisfied sets an orthogonal vector is carried along the loop.
* **C04** The span solver is sound, complete, total and panic free. `Gauss.v`, monadic transcription with every index checked. Proof: refinement to matrices as functions, reduced row echelon invariant, kernel preserved by each step, extraction loop returns the basic solution. Ragged matrices (`span_coefs` is public) in `PropertiesSolver.v`: a short column can be neither searched nor swapped past its end; every step commutes with cutting the columns.
* **C05** Policy level access control, including hierarchical axes. `Policy.v`, `Engine.v`. Proof: meaning of access policies in `Spec`, policy_to_formula computes it, then C01/C02.
* **C06** Adding encryption attributes never takes access away. From C01, C02 and monotonicity of formulas.
* **C07** Order and repetition of encryption attributes are irrelevant. From the exact outcome of decrypt as a function of the set of attributes.
* **C08** Shares of an unsatisfying attribute set reveal nothing about the master secret. Orthogonal vector of C03 shifts the key draws.
* **C09** Colluding keys cannot be combined to decrypt. `CollusionSpec.v`: a strategy is a product of pairings and target group elements with fixed exponents; keys come from a history of generations and delegations, some of them held by the attacker. Stated as an equivalence. Proof: by C75 histories give independent fresh keys; comparing coefficients of the randomness of the ciphertext and of the message; then secrets outside the ciphertext are scaled while the shares of the ciphertext attributes are kept zero (C08).
* **C10** Delegation to a restriction of the policy gives a working key. `Restr` relation on formulas in the spec; weights of a restriction are weights of the source; keys are correct when every weighting of the formula recovers y.
* **C11** Delegation that replaces an Or node by an And node gives a working key. Refuted: witness formula a|b delegated to a&b, decrypt returns Some of a different message for every draw with y*s non zero.
* **C12** Delegating to All only re-randomises the key. Shares of a randomised key differ by shares of zero.
* **C13** Delegation cannot introduce an attribute. Induction on rows of key_delegation.
* **C14** Any chain of delegations and randomisations keeps the key correct. Induction on the chain with the invariant of C10.
* **C15** A delegated key gives no access beyond its source key. Exact expression of the delegated decryption, then the shift of C08.
* **C16** Master private key survives serialisation. `Codec.v`; vector codec round trip by induction.
* **C17** Master public key and delegation key survive serialisation. as C16.
* **C18** User decryption key survives serialisation. as C16 plus the span program codec and the shape facts of C34.
* **C19** Ciphertext survives serialisation when it has at least one attribute. as C16.
* **C20** Ciphertext for an empty attribute list survives serialisation. Refuted for every ciphertext with no attribute: the decoder returns an empty vector only on empty input.
* **C21** ciphertext_len announces the exact ciphertext size. Length computation; refuted at 0.
* **C22** Decoding untrusted bytes never panics. Panic analysis of every decoder, both overflow modes; refuted in checked mode.
* **C23** Decrypting a decoded ciphertext never panics. Refuted by a ciphertext with two attributes and one element; positive theorem when the counts agree.
* **C24** Decoders ignore trailing bytes. Prefix stability of every decoder.
* **C25** Encodings are injective. From round trips.
* **C26** A vector header announcing zero elements is rejected. Refuted in wrap mode for u32; positive in checked mode and for elements longer than 4 bytes.
* **C27** Hexadecimal display of keys is lossless. Model of hex encode and decode.
* **C28** Scalar encoding is a canonical 32-byte little-endian encoding. `Bls.v`, integers modulo the proved-prime order.
* **C29** Message encoding distinguishes messages. `Bls.v`; refuted by trailing zero; positive for equal lengths.
* **C30** Conversion of matrix entries to scalars is a ring morphism on the values used. `Bls.v`.
* **C31** The formula parser accepts exactly the intended grammar. `Parser.v`; grammar as an inductive relation in the spec; both directions by induction on length. `C31_deep_refuted`: without overflow checks the counter wraps to a negative number at the 2^31st nested parenthesis.
* **C32** The formula parser never panics and always terminates. The parser model has explicit slice panics; proved unreachable.
* **C33** Printing a formula with full parentheses and parsing it gives the formula back. Printer in the spec; consequence of C31.
* **C34** A formula can be compiled exactly when no attribute is repeated. Loop invariant of to_msp.
* **C35** Unknown attributes are refused. Case analysis of policy_to_formula and attributes_values.
* **C36** All is not accepted inside a formula. Induction on the access policy.
* **C37** A rotation revokes keys generated before it. Policy histories as an inductive relation; values are never reassigned.
* **C38** Keys refreshed after a rotation decrypt old and new ciphertexts. Values only grow along a history.
* **C39** A key for All decrypts every ciphertext of its policy version. All is the disjunction of all values.
* **C40** A key for All is not affected by later rotations. Refuted with a concrete history.
* **C41** Every attribute a policy can create is usable. Refuted with a concrete history; positive below the boundary.
* **C42** Encryption with too many attributes is refused. Case analysis of encrypt.
* **C43** Master key generation fails only on a zero attribute secret. Case analysis of generate_master_key.
* **C44** Symmetric key encapsulation round trip. C05 composed with C19 and a deterministic hash.
* **C45** Symmetric key decapsulation by an unauthorised key is an error. C02 composed with C19.
* **C46** Hybrid header round trip. `Hybrid.v` over an abstract symmetric scheme.
* **C47** Hybrid header decryption is refused to unauthorised keys and to truncated headers. Scanner model; case analysis on the cut.
* **C48** Clear and encrypted header containers survive serialisation and never panic on decoding. Round trip; refuted by an oversize length.
* **C49** Hybrid block round trip and limits. Block model over an abstract symmetric scheme.
* **C50** Cache handles are unique and isolated. `FfiCache.v`: every thread is a sequence of atomic steps (fetch_add, taking the lock, insert, remove, lookup, dropping the lock); invariant over all schedules: the k-th creation owns the k-th handle, no two pending or returned creations share a handle, a handle that was not destroyed is in the map. Stated on the calls and returns that the callers see.
* **C51** Cache handles are never reused. Refuted by the wrap of the counter: after 2^32 creations handle 0 is given again and replaces a live cache.
* **C52** Header functions with and without cache are equivalent. Both functions share the body; equality by case analysis, then composed with C50 for threads.
* **C53** FFI functions never write outside the announced buffer. `Ffi.v`: an output argument is a buffer with a real size and a length cell, a call that writes past the end is `Undefined`; every function is proved to stay within the announced length. Refuted for a negative length.
* **C54** A too small output buffer is reported with the required size. Output protocol, for each function; a second call with the size asked for succeeds. Refuted for an announced length of 0 and for the block functions.
* **C55** The last error is delivered once and always NUL terminated. Model of take, set and get of the thread's error; refuted for messages with a NUL byte.
* **C56** Generated master keys can be split from the FFI output. Exact bytes delivered, the 4-byte prefix is not truncated below 2^31 bytes, then C16 and C17.
* **C57** Encrypted header size query never crashes. Exact result on every buffer; refuted by a short buffer and by the value 1.
* **C58** Python encrypt and decrypt are inverse and robust. `Python.v`; framing over C72 and C49; the panics are traced through the calls to the header size, the decoding of the key and C64; refuted by a large size.
* **C59** Recovery coefficients select a minimal authorised subset. Basic solutions of the span system have independent support; a consistent weighting with independent support is the indicator of a minimal set.
* **C60** Delegation and refresh at the level of access policies stay exact. `user_key` relation in `EngineSpec.v`; formulas of one access policy under two orders of iteration restrict each other; then C14.
* **C61** Accepted encodings are canonical. Inversion of the decoders: each element is read from its own block of bytes, and these blocks are what the encoder writes; the wrapped arithmetic of a zero count is followed exactly, it is accepted only for elements of four bytes. Assumes that the accepted compressed forms are canonical (proved for the scalars).
* **C62** Exactly the access policies without overlapping requirements have keys. Values of different attributes differ along every history, so leaves repeat exactly when requirements overlap; then C34.
* **C63** Key generation from a policy read from a file never panics. Invariant of histories; refuted with an inconsistent policy.
* **C64** Decrypting hostile header bytes with a genuine key never panics. Every read of the header scanner is checked; what remains is C22 and C23; refuted by an uneven ciphertext.
* **C65** Bytes that follow a header are ignored exactly when the header carries metadata. Extension lemmas of the scanner.
* **C66** Integer span programs survive serialisation. `Codec.v` with the i32 codec; round trip as in C18; refuted by a program cut inside an entry.
* **C67** Null pointers given to the C functions are reported. Case analysis of each function; refuted for null length pointers, which are read without a check.
* **C68** The C functions work together. Inversion of each successful call down to the bytes delivered, then C56, C16-C18, C46 and C47.
* **C69** The cache functions never deadlock and never change keys in use. Same model as C50 with the lock explicit; invariant: the lock records exactly the threads that are in their critical section.
* **C70** Blocks written and read through the C interface. Inversion of a successful call, then C49; block numbers by the specification of sign extension.
* **C71** Rotating attributes through the C interface. The loop is `run_ops` on rotations; C54 for the delivery.
* **C72** Revocation holds for hybrid headers. A header opens for exactly the keys that decrypt its ciphertext; then C37 and C38.
* **C73** The Python functions work together. Keys as an inductive relation over calls on bytes; each of them decodes to a `user_key` (C16, C18), then C37, C38 and the framing of C58.
* **C74** Policies made by the Python functions are the ones asked for. The loops are `run_ops`; refuted by a limit of 2^32 + 1.
* **C75** A delegated key is distributed like a freshly generated one. Any consistent sharing comes from a vector (solvability of linear systems, by induction on the columns), so the shares of the source key are absorbed in the draws.
* **C76** Encodings and headers work on 32-bit machines too. Round trips with sizes bounded by half the address space, on any width of at least 32 bits; the size of a user key from the rows and columns of the matrix of its formula.
* **C77** Hostile bytes do not stop a program on 32-bit machines. Every decoder is shown to panic only by a capacity overflow or a checked overflow; refuted by an announced count whose size wraps around 2^32.
* **C78** The WebAssembly functions work together. Inversion of each call down to the bytes, then C76 for reading them back and C37, C38 for the access decision.
* **C79** WebAssembly caches answer like the functions without a cache. `Wasm.v`: state of the two caches and a list of calls; the map is shown to be the one read off the calls and results, the counter to be injective below 2^32.
* **C80** WebAssembly reports an unknown cache handle as an error. The lock as the integer the standard library uses without threads; invariant: it is free exactly if no use trapped. Refuted by the trap of an unknown handle.
* **C81** A hostile header does not disable WebAssembly caches. C77 and C80.
* **C82** WebAssembly blocks come back. C49.
* **C83** Rotating attributes through WebAssembly. The loop is `run_ops` on rotations.
* **C84** Messages through WebAssembly. C78 and C82, and the layout of the message.
* **C85** Ciphertexts do not carry the message in clear. The exponent of `e_prime` is that of the message plus y·s; a product is zero when a factor is. The witness of the refutation is a master key with y zero.
* **C86** A ciphertext stands for one message. An element of the ciphertext for an attribute determines the scalar since secrets are not zero; the rest follows. Without attributes the scalar is solved for.
* **C87** Modified ciphertexts are detected. `e_prime` occurs once in decryption, as a factor. For headers, the layout lemma of C46 gives the position of `e_prime`; with metadata, the hypothesis on the symmetric scheme (no decryption under another key) is stated in the theorem for this header only.
* **C88** A key of another master key does not decrypt. A key of another master key is described as a key of the first one with other shares (`foreign_rep`): the rows and the solver only see attributes, the product of pairings gives another exponent. `C88_one_attribute` gives the exact condition for one attribute; `C88_at_most_one` shows that changing y changes the result.
* **C89** The implementation over BLS12-381 is a bilinear map. `Curve.v` models the implementation over a record of operations of the curve library, with prepared elements kept apart; `contract` says that these are groups of the BLS12-381 order with a pairing. `BilinearLaws` is derived from it, hence all theorems on the scheme hold for this implementation; `C89_access` instantiates C14.
* **C90** Headers hide their attributes. The front of a header is the size, the number of attributes and, for each, its number; `numbers` reads them. Values of a policy are never reused (invariant of C35), so a later policy still identifies the attribute.
* **C91** Each thread of a C program has its own last error. `FfiErrors.v`: a map from threads to last errors; induction on interleavings.
* **C92** Error messages given to C programs are text. UTF-8 validity is an executable check following RFC 3629; the truncating case is a concrete message.
* **C93** Texts of formulas and span programs are faithful. `Display.v`; the texts are shown to be uniquely decodable from the left (`show_node_cut`, `show_line_cut`). The first character of the text of a formula is refused by the parser.
* **C94** Span programs read from texts. From C03, C31, C32 and C34, with the combination stated on the program over the field.
* **C95** C functions read exactly the announced inputs. `FfiRaw.v`: pointers are memories with an announced length, strings end at a NUL, and a slice outside of the memory is undefined behaviour. The functions are shown equal to those of `Ffi.v` on the bytes the arguments stand for, so C52-C57, C68 and C70-C71 hold for raw arguments.
* **C96** Resources of any length in blocks. `cut` says what it means to cut bytes every n; existence and uniqueness are proved, so the reader needs no knowledge of the writer. Induction on the pieces with C49 for each block.
* **C97** Keys of different users differ. The columns of a compiled program are linearly independent (induction over the loop of `to_msp`), so the rows determine the sharing vector, and equal keys have equal draws.
* **C98** Formulas of any length are parsed without exhausting the stack. The fuel of the parser model is read as the number of nested calls there is room for. Each recursive call loses an operator or an opening parenthesis (upper bound), and the tree of calls is at least as deep as the formula (lower bound). The bytes taken by one call are not modelled.
* **C99** Keys that are not entitled find a random message only by a negligible accident. `LuckSpec.v`: all draws are lists of field elements, a strategy of C09 finds the message with some of them. Proof by counting: every finding draw is moved along a line (the message, the scalar of the ciphertext, y together with the draws of the keys, or the secrets of the attributes that are not in the ciphertext) and two finding draws of one class never meet, so each of at most three classes has at most one in q-1 of the draws. Histories are counted through C75 and C97: delegated keys are fresh keys with shifted draws, injectively.
* **C100** Keys and ciphertexts made with different copies of a policy keep the meaning of the attributes. `CopiesSpec.v` lists the attributes in the order in which they get numbers. Invariant of `run_ops`: the heap of an attribute holds the places of the list at which it stands. So both policies are related through places, and C05 for one policy gives the exact condition.
* **C101** Using master keys made for another policy is reported as an error. The same list of places gives the numbers that encryption and key generation look up; a `mapM` of which one element panics and the others succeed panics.
* **C102** Making user keys with a private key read from bytes never panics. Exact outcome of the loop over the rows for any list of secrets; the round trip of C16 puts a zero into a key that decodes.
* **C103** Refreshing or delegating a user key read from bytes never panics. Exact outcome of the loop over the rows for any program of the shape that decoding guarantees (proved for C22).
* **C104** Nobody without an entitled key can tell which of two chosen messages was encrypted. The attacker is a decision tree (`GameSpec.v`) whose leaves are answers and whose nodes compare two products of known elements, ask for a key or ask for the encryption. The keys are carried over to generated ones by C75 and C97, so every product has an exponent which is, as a function of each single draw, at most of the form a/x + b + c x; by a count of zeros line by line such a function is zero everywhere or for few draws. If the masked message takes part, the exponent is not zero everywhere (the argument of C99); if it does not, the exponent does not depend on the message. Group elements are only used by the operations of the groups and by comparisons: an attacker that uses the representation of the elements is not expressed.
* **C105** Decrypting never panics, whatever bytes the key and the ciphertext were read from. `stops` says on the attribute lists and part counts alone when decryption stops; the loop over the common rows and the elimination are followed for any program of the shape that decoding guarantees (C22).
* **C106** The C functions report bad keys and ciphertexts and never bring the program down. Each C function is followed step by step in the monad of `Ffi.v`, where a panic is the result `Crash`; the exact conditions come from C43, C101, C102 and C105, and everything in between is shown not to crash. The JSON and AES libraries are hypotheses (they return errors).
* **C107** Nobody without entitled keys can tell which of two chosen messages was encrypted, however many are encrypted. The experiment of C104 with a list of ciphertexts (`ManySpec.v`): a product is one strategy for each ciphertext. The exponent of a product is a sum over the ciphertexts. If a masked message takes part, take the last ciphertext whose masked message does: the coefficient of its scalar is that of a single ciphertext, because earlier messages do not depend on that scalar and later ciphertexts only use their own, and the argument of C104 applies. Otherwise the product does not depend on the messages.
* **C108** The Python functions raise ordinary exceptions on bad keys, policies and messages. From C22 (decoding never panics), C43, C58, C74, C101 to C103 and C105 and the lemmas of `PropertiesFfiHostile.v`. A user key read from fewer than 2^32 bytes has at most 2^27 rows and columns if its parts cover its rows, so that encoding the refreshed or delegated key does not panic.
* **C109** The WebAssembly functions raise JavaScript exceptions on bad keys, policies and messages. The exact condition under which reading a vector panics in a release build (`oversized`) is computed from the arithmetic modulo 2^bits; then as C108, with the shape of decoded keys on 32 bits from the proof of C77.
* **C110** The symmetric keys of headers look random to whoever holds no entitled key. The experiment of C107 with headers instead of chosen messages and an ideal hash function (`HashSpec.v`): the hashes are the values of an arbitrary sequence, handed out in order. For fixed exponents of the encrypted elements the attacker becomes an attacker of C107: the table of hashes is kept as products, and a hash is a chain of comparisons with the table. C107 is used twice, to encrypt other elements than those hashed and to go back; in between, the keys are random unless an exponent repeats or is hashed by chance, and such exponents are counted. The cases are not decidable, but the claim is an inequality of numbers, so no axiom is needed. That SHAKE behaves like an ideal hash function, and attackers that hash bytes which are no elements they computed, are outside the model.
* **C111** Breaking the scheme is as hard as the decisional bilinear Diffie-Hellman problem. An attacker is a tree of requests (`ReductionSpec.v`): each continuation is an arbitrary function of the answer; keys may be made for others and delegated or refreshed from theirs. The experiment runs the model of the library on all draws and counts the answers `true`. A puzzle is h, h^a, g2^b, g2^c and an element of the target group, with h^b the generator of the third group; it is genuine if the element is gt^(ac), and the advantage of a solver is counted over all puzzles and all its coins. The solver is written out: secrets r_x for attributes of the ciphertext and b r_x for the others, a user key from the shares of a vector orthogonal to the rows of the ciphertext (found by the span solver itself), the ciphertext from g2^c. Proved: on genuine puzzles the solver counts as the experiment, by permuting the draws; on random ones the message does not matter; hence the bound (`C111_solver_counts`, `C111_attacker_solves`). Many ciphertexts by a sequence of experiments in which the attacker makes all but one itself (`C111_many_texts`). Derived keys are generated ones with moved draws (C75). The lists of attributes are fixed before the keys, as in the paper of the scheme (C120 lets the attacker choose them late).
* **C112** Telling symmetric keys of headers from others is as hard as the decisional bilinear Diffie-Hellman problem. `ReductionSpec.v`, last part: the attacker hears the result of `generate_symmetric_key`, or the header of one element with the symmetric key of another. It becomes an attacker of C111 that chooses both elements itself and always tells the symmetric key of the first (`speaks`); the counts are equal, and C111 is applied (`C112_headers`). The hash function is arbitrary, so the unrelated symmetric key is the hash of a random element and not said to be uniform.
* **C113** Metadata and blocks are as secret as the bilinear Diffie-Hellman problem and the symmetric scheme make them. `SealSpec.v`: `play_client` answers requests for keys, headers (`encrypt_hybrid_header`) and blocks (`encrypt_hybrid_block`) with the first or the second of each pair; `play_sealer` is the experiment with the symmetric scheme alone. The attacker becomes a listener of C112 that encrypts metadata and blocks itself with the keys it is told (`listens`): with the real keys this is the experiment (`listens_real`), with unrelated keys it is the one with the symmetric scheme, where everything else is made by the attacker left over (`separate`, `listens_apart`). `C113_hybrid` applies C112 on both sides, `C113_fair` shows that what is left over asks for pairs of equal size with a new nonce each. What AES-GCM and SHAKE do with keys from random elements is not modelled.
* **C114** Nothing drawn at random is ignored. `PropertiesDraws.v`. The draws are arguments of the model. Headers: the layout of the bytes (C46) and the readability of the ciphertext (C19) give equal ciphertexts, hence equal elements and scalars (C86). User keys: the formula of an access policy has as many And as the policy has conjunctions (`key_formula_count`), then C97, with C75 for delegated keys. Master keys: the generators have injective powers. The interfaces are inverted down to the core functions and the keys they return read back (C56, C68, C73, C78). For blocks the external scheme is asked to start its output with the nonce (`shows_nonce`), as Block::to_encrypted_bytes does. That the generator of random numbers is good is not modelled.
* **C115** The three interfaces work together. `PropertiesTogether.v`. Three platforms, one per interface, none narrower than 32 bits. `masters`, `issued`, `sealed` and `block_made` say which interface made what; `opened`, `stays_closed` and `block_read` say what all three make of it. Master and user keys encode to the same bytes on all machines and read back on all (`masters_decode`, `key_everywhere`, with C76); headers are the same on all (`header_any`); then C37, C38, C54 and the layout of headers. The functions with caches are not repeated here: C52 and C79 equate them with the others. The external symmetric scheme, whose code is not in the repository, is assumed to be one and the same on all machines; did it encode block numbers in the width of the machine, blocks would not pass between widths. The tests speak for the assumption: `test_non_reg_decrypt_hybrid_block` reads one stored block on a native machine (`hybrid_crypto/tests/mod.rs`) and in WebAssembly (`wasm_bindgen/tests.rs`).
* **C116** Keys are made whatever the number of rotations, without exhausting the stack. `PropertiesDepth.v`. `drop_node`, `formula_room`, `msp_room`, `user_key_room` and `delegate_room` are the model's functions with room for a number of nested calls, the destructor of the tree included (`to_msp` is a loop). The height of the tree is bounded from above through the distinct numbers of a policy and from below through the values of one attribute (`numbered_history` of `PropertiesCopies.v`). The bytes taken by one call are not modelled.
* **C117** The sizes of keys and headers can be computed beforehand. `PropertiesSizes.v`. The sizes are closed formulas. The rows of a user key are the distinct numbers of the needed attributes (`key_numbers` of `PropertiesCopies.v`, counted by `leaves_count`), its columns one more than the conjunctions. Through the interfaces with `masters`, `issued` and `sealed` of `PropertiesTogether.v`. The constant size of the tag is a hypothesis on the external symmetric scheme; for AES-GCM nonce and tag have 12 and 16 bytes.
* **C118** A header that opens is the header that was made. `PropertiesAltered.v`. `opens` is a relation between bytes and results, equivalent to decryption without hypotheses (`C118_accepted_exactly`). `padded`, `front` and the bytes with other metadata are made from the bytes of a header alone, without keys, policy or draws. `reader` is met by all entitled keys (`C118_readers`). That outsiders cannot forge metadata is a hypothesis on the external symmetric scheme, on the bytes at hand only. Changes of the encapsulated key itself: C87.
* **C119** Decryption takes a bounded amount of work, whatever the bytes. `PropertiesWork.v`. `span_coefsC`, `decryptC`, `parseC` and `to_mspC` are the functions of the model with a count of steps; that they return what the model returns is proved for all inputs (`C119_decrypt_result`, `C119_parse_result`, `C119_to_msp_result`). What counts as a step is said at each definition: an entry of a matrix or vector handled, a character a pass can meet, an attribute looked up. Proof: a turn of the elimination either finds a pivot (at most one for each row) or looks at one column; the extraction takes one value for each row. The time of a step and of the operations on groups is not modelled.
* **C120** Choosing the attributes of a ciphertext late helps an attacker little. `AdaptiveSpec.v`: the experiments of C111, C112 and C113 with the list of attributes in the request. The attacker `guessing` guesses which list one of the ciphertexts will have, asks for this one, makes all others itself, and gives up when the guess is wrong or becomes impossible. For all draws, what the attacker shows by one ciphertext is the sum of what the guesses show (`guesses_play`), and every guess is an attacker of C111 for fixed attributes (`guessing_lawful`). Headers, metadata and blocks as in C112 and C113. The factor N is that of the argument, not a known loss.
* **C121** What a debug build does, a release build does, and a larger machine too. `PropertiesBuilds.v`. The model takes the word size and the overflow checks as an argument (`platform`). Agreement of two builds is preserved by sequencing, so it follows for each function from the agreement of the additions, multiplications and reservations of memory. Exact equality from C32, C34 and the absence of overflows when no count is zero. The difference is that of C26.
* **C122** Keys refreshed and delegated across versions of a policy keep their meaning. `HistorySpec.v` (versions of a policy, access policies that ask for less, the keys that exist during a history), `PropertiesHistory.v`. The formula of an attribute is a disjunction of values; a disjunction of some of the values is a restriction in the sense of C10, whatever the order. So the formula at an earlier version, or of an attribute below, is a restriction, and rotated attributes bring a value the key does not have (C13).
* **C123** Exactly the delegations that give a working key. `PropertiesWorking.v`. The coefficients that decryption finds are the indicator of a smallest set T of the new formula and do not depend on the key. The sum of the source shares over T is a linear form in the random vector: either it is the secret, which makes T a smallest set of the source, or a wrong multiple of it, or some direction of the draws changes it.
* **C124** The quick start program does what it says, with every randomness. `Demo.v` (the program, call by call), `PropertiesDemo.v`. The rules are proved for all histories from the formula each key stands for (C122); on the history of the program the access decisions are then computed by functions proved equivalent to `covers`, `needed` and `satisfied`. Left out of the program: printing, and the reading of the access policies from texts, which is in the external crate.
* **C125** Exactly the access policies a key can be delegated to with success. `PropertiesSmallest.v`. A smallest set of values of the formula has one value of each attribute of a smallest set of the access policy (`transversal`), whatever the rotations, so C123 and the characterisation of delegation by smallest sets (`narrows`) carry over from formulas to access policies.
* **C126** Keys given in place of keys of another kind. `PropertiesKinds.v`. A vector read from bytes that start with a count takes the space of that many elements; elements of the other kinds need more than the bytes of a private key, and nothing is left for the span program after a delegation key. The case of the user key follows from the order of the parts. Nothing is claimed of the other mixtures (a public key read as a private key, say), which depend on the values of the bytes.
* **C127** Correct calls succeed. `PropertiesLive.v`. Each call is followed to its result: the checks it makes are decided by the hypotheses, the sizes by the limit on attribute creations. The record `serves` says what is asked of the external symmetric scheme besides `sym_laws`: it encrypts what it is given and adds little to it. `C127_session` puts the calls of a whole program together.
* **C128** The Python demonstration program. `PyDemo.v` is the program, call by call, with the texts it writes left to parameters; the record `texts` of `PropertiesPyDemo.v` says that the external readers give back what the program wrote. The theorem follows the program with the theorems of C127.
* **C129** Correct calls succeed through every interface. `PropertiesLiveAll.v`: the key and the header are made as in C127 and transported to the other machines by the theorems of C76 and C115; the C calls follow the protocol of C54. The random choices are the same arguments for the three interfaces. The assumption `serves` of C127 says that the external symmetric cipher does not fail.
* **C130** The notebook, and which error a refusal is. `Notebook.v` is the notebook, cell by cell; the texts are read by external crates, of which the record `nb_texts` asks that they give back what was written (the four departments of one access policy grouped from the left or from the right). The printed lines are compared with the outputs stored in the notebook file: the theorem gives the same twelve lines with the same errors. The refusals follow from C124_refusals through the layout of messages.
* **C131** The text of an error tells why a key does not open a header. `ErrorTexts.v` adds to the decryption calls of the three interfaces the text of their errors: Display of FormatErr where it is fixed by the source (the others stay a parameter), the words of map_err, the error of the thread for C. C131_same_calls shows that apart from the texts these are the calls of the other files. The reading of the text by get_last_error is that of C91.
* **C132** Blocks, whole messages and delegation succeed on 32-bit machines too. The models are those of C115, C127 and C129; the limit of 1024 values bounds the size of a key by 50 MB, so that all lengths fit 32 bits. The laws of the symmetric scheme, including that it encrypts any block of at most 2^30 bytes, are hypotheses. What C returns is `protocol_late` (C54_encrypt_block_refuted): with room the buffer is filled; with too little the call fails and, unlike the other C functions, does not write the size needed.
* **C133** The repository's randomised tests pass whatever they draw. `TestPrograms.v` has each test as a program that ends with the propositions it asserts, its random values being arguments; `passes` says that the program ends without error or panic and that the assertions hold. What a test prints is left out, and with it the last lines of symmetric_key_test, which only print. Key files and the policies beside them are arguments; that they hold keys as described is the hypothesis `files`, and so is that the texts are read as the access policies and attributes they show (external crate). `new Uint8Array("12345678")` of the WebAssembly test is an array of that many zero bytes. The hypothesis on the encoding of `test` as a group element, and on group elements whose bytes can be read back, are those of C16 to C19. The tests that read no random value are run in `RepoTests.v`.
* **C134** The tests of the C interface pass whatever is drawn, beside any other use of the caches. `FfiTestPrograms.v` has the two tests as programs over the raw pointers of `FfiRaw.v`; undefined behaviour counts as a panic, so a test that passes has none. The caches are those of `FfiCache.v`: what the test finds under its handle is an argument, and the hypothesis `held_handle` says that it comes from an execution with any number of threads in which the handle was given to the thread of the test. `tagged` says that the encrypted metadata are longer than the metadata by a constant, as in C117. That JSON is read back as it was written and has no NUL is a hypothesis on the policy and the attributes of the test (external crates). The text of an error is left out.
* **C135** Output buffers and length variables may be used again exactly while results do not grow. `session` runs a list of calls of the functions of `Ffi.v` on the same output arguments, each getting the memory and the lengths that the one before it left. `seals`, `opens` and `turns` say which calls are meant and what their result is. The contents of the length variable after each call decide everything: it is set to the size of the result, also when the header functions refuse (so that a repeated call believes in a larger buffer), and a length of zero means for uid and additional data that they are not wanted. `C135_withheld_refuted` and `C135_retry_refuted` are the two traps.
* **C136** Reading keys and ciphertexts takes memory in proportion to their bytes, except for user keys. `Memory.v` repeats the readers of `Codec.v` and `SchemeCodec.v` with a count of the bytes asked for (vectors, the table of the attributes with its real size, rows, prepared points); `C136_result` shows that they return what those return. The bounds follow from the checks made before each reservation; the columns of a program are reserved before any check, hence `C136_user_key_refuted`. For a program that was read, the columns fit into the bytes (`columns_fit`, C119), hence `C136_user_key`. The sizes of points in memory are parameters; texts of errors are not counted.
* **C137** Every way in which making or delegating a key and encrypting can end. `first_complaint` reads the access policy from left to right without looking at the translation; `translation` shows that the walk of the code stops exactly there. `to_msp_cases` gives the error for values occurring twice, `policy_to_formula_nodup` relates it to `no_overlap`. For delegation, `values_in_key` compares the values of the new formula with those in the key, whatever the two access policies are (C122 needs the new one to be included in the old one). In the last case of `C137_delegation` the key is one of the library; that the interface returns its bytes is C132.
* **C138** How many group operations each call makes, in particular how many pairings decryption takes. `Cost.v` repeats the functions of `Scheme.v` and `Engine.v` with a list of the operations made, in order; `C138_result` shows that they return the same. `fewest` and `most` are defined on the access policy. That the coefficients found by the elimination are not zero exactly on a set from which no attribute can be left out is `recovery_minimal` (C59); `minimal_size` bounds the size of such a set, and `C138_reached` gives, for every access policy other than `All` (for which both bounds are 1), attributes for which encryption succeeds and each of the two bounds is reached. What one operation costs is not modelled: the group operations are those of the trait, and `prod_gt_exp` counts as one power and one Miller loop for each term and one final exponentiation, as written in bls12_381.rs.
* **C139** Attribute values and the formulas of keys are those the README describes. `number_of` is the place in `numbering` (C100), which lists the attributes in the order of the history; `reads_as` and `written` follow the access policy and do not mention the translation. The formula is unique up to order after rotations and exactly determined without. The table of values in the README is that of a policy to which Department was added first, although the JSON text above it starts with Security Level: `C139_example` shows both orders. The numbering itself belongs to the crate abe_policy, modelled from its use.
* **C140** How many rotations a policy and its keys bear. `acceptable` is stated on the list of edits alone: `values_taken` adds up names and rotations, `declared` looks at the edits before. The refusals follow the model of abe_policy (an external crate, modelled from its use, as said for `Policy.v`); what is about the code of the repository is that master keys have as many slots as the policy has values although values start at 1 (C41), and the loops of the interfaces. `C140_c` is for a caller who offers a buffer with room for the text of the result; without room the function follows the protocol of C54.
* **C141** When one key opens everything another key opens. `opens_all_of` compares two keys on every ciphertext that can be made, `implied` compares two access policies by `satisfied` (C05). From left to right a ciphertext is needed for every list of attributes: repetitions and the attributes that do not count for the key are removed, and encryption then succeeds (`encryptable`), also for a full policy (C140) and for master keys made for another one. `C141_laws` is about access policies alone; a law applies to keys when both sides have keys (C62).

## 5. Axioms

None expected; `Print Assumptions` output is recorded at the end of each properties file during the build.
