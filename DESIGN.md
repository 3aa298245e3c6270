# Formal model of distributed_point_functions in Rocq (Coq 8.16.1)

## 1. Approach

The C++ sources are modelled function by function as total, computable Gallina
functions over `N`, `Z`, `list`, `option` and records.  Status codes, crashes
(`ABSL_CHECK`, uncaught exceptions) and undefined behaviour (out-of-range reads and
writes, misaligned vector accesses, signed overflow, shifts by 128 or more, division by
zero) are distinct outcomes of one result type (`Base.v`): `Ok`, `Err code`, `Crash`,
`UB`.  128-bit words are `N` with explicit wrap-around, `int` and `int64_t` conversions
are explicit.  Protos are inductive types that contain the "unset" cases, so malformed
messages can be expressed.  Byte strings are lists of `N`.

External functions are universally quantified arguments (Section variables that are
discharged, never axioms): AES, SHA-256, `RAND_bytes`, the choices of the Mersenne
twister, the caller's encryption, decryption and forwarding callbacks, the protobuf
serialisation of requests, allocator addresses and capacities, and the results of
floating-point computations.  Where a theorem needs something about them it is a
hypothesis of the theorem (for example: decryption inverts encryption), and an `Example`
beside the theorem shows that it can be met.

Layout (`rocq/theories`):

* `Base.v`, `ListUtil.v` - results, words, byte strings, list helpers.
* `*Model.v` - models of the code; every definition cites file and lines in /repo.
* `*Spec.v` - specifications, independent of the model's helpers.
* `*Proofs.v`, `Dpf*.v`, `Dcf*.v`, `Hwy*.v` and `SampleJoint.v` - lemmas and proofs.
* `DpfExamples.v`, `ChannelExample.v` - concrete inputs for the non-vacuity examples.
* `Properties*.v` - the property theorems, each followed by `Print Assumptions` and by
  examples that meet its hypotheses.

## 2. What is modelled

| source (/repo) | model | comment |
|----------------|-------|---------|
| dpf/internal/value_type_helpers.{h,cc}, tuple.h, xor_wrapper.h, int_mod_n.{h,cc} | `ValueTypesModel.v` | integers, tuples, IntModN, XorWrapper; conversion from bytes; sampling; BitsNeeded; proto conversion and validation |
| GetSecurityLevel (dpf/int_mod_n.cc), the security parameter of tuple elements (value_type_helpers.cc), ceil(log2(n)) (proto_validator.cc and the PIR clients and servers) | `FloatModel.v` | operations on doubles are arguments, with the errors that `accurate` (`FloatSpec.v`) allows |
| The functions of the DPF, the DCF and the interval gate that call OpenSSL, with the checks of the return values; GenerateSeed | `FaultModel.v` | the return value of every call is an argument, as are the bytes of successful calls of RAND_bytes; EvaluateSeeds is the scalar version |
| The PIR clients and servers with the return values of the OpenSSL calls they make | `FaultPirModel.v` | the calls of the sender are not counted; SHA-256 and AES-CTR do not fail |
| the branches of value_type_helpers.h and int_mod_n.h for hosts that are not little-endian | `EndianModel.v` | integers and XorWrappers |
| dpf/internal/proto_validator.{h,cc} | `DpfModel.v` | all validation functions |
| dpf/aes_128_fixed_key_hash.{h,cc} | `DpfModel.v`, `PrgMemModel.v` | batches of 64 blocks; one AES block is a function argument; `PrgMemModel.v` with overlapping spans |
| dpf/internal/evaluate_prg_hwy.cc (scalar part) | `DpfModel.v` | batches of 64 |
| dpf/internal/evaluate_prg_hwy.cc (vector part), aes_128_fixed_key_hash_hwy.h | `HwyModel.v` | every vector width; lanes, masks, loads and stores with alignment |
| dpf/distributed_point_function.{h,cc} | `DpfModel.v` | Create, GenerateKeys, contexts, EvaluateUntil/Next/At/AndApply |
| the wire format of DpfKey, CorrectionWord, Value and the request of the Helper (dpf/distributed_point_function.proto, pir/private_information_retrieval.proto; HandleHelperRequest and CreateRequest use it) | `KeyWireModel.v` | the format and the parser are those of the protocol buffer library, which is not in /repo: merging of repeated fields, unknown fields, groups, the recursion limit and the size limit included |
| the wire format of EvaluationContext, PartialEvaluation, DpfParameters and ValueType (dpf/distributed_point_function.proto) | `ContextWireModel.v` | as `KeyWireModel.v`; the 64 bits of a double are two arbitrary functions (bits of a double, double of bits), theorems assume that they agree on the security parameters of the DPF; IEEE 754 is used in the examples |
| the wire format of PirRequest, PirResponse, PirRequestClientState, PirServerPublicParams, HashFamilyConfig (pir), DcfKey and MicKey (dcf) | `MessageWireModel.v` | as `KeyWireModel.v`; the hash family in the parameters and the keys inside DcfKey and MicKey are always set, as the code that makes these messages does; connections (`remote` in `MessageWireSpec.v`) are not part of the repository: a server behind one parses what it gets and serializes what it returns |
| the overloads of GenerateKeys(Incremental) and ToValue (dpf/distributed_point_function.h) | `OverloadModel.v` | which overload a call selects is up to the compiler |
| SerializeValueTypeDeterministically, RegisterValueTypeImpl, GetValueCorrectionFunction (dpf/distributed_point_function.{h,cc}) and the wire format of ValueType | `WireModel.v` | no unknown fields |
| dcf/distributed_comparison_function.{h,cc} | `DcfModel.v` | |
| dcf/fss_gates/multiple_interval_containment.{h,cc} | `DcfModel.v` | |
| pir/internal/inner_product_hwy.cc, pir/dense_dpf_pir_database.{h,cc} | `PirDbModel.v` | addresses, alignment and partial vectors included |
| pir/prng/aes_128_ctr_seeded_prng.{h,cc}, pir/dpf_pir_server.{h,cc}, pir/dpf_pir_client.h, pir/dense_dpf_pir_{client,server}.{h,cc} | `PirModel.v` | |
| pir/hashing (hash_family, hash_family_config, sha256_hash_family, the three hash tables) | `HashModel.v` | |
| pir/{cuckoo,simple}_hashed_dpf_pir_database.{h,cc}, pir/{cuckoo,simple}_hashing_sparse_dpf_pir_{server,client}.{h,cc} | `SparseModel.v` | with the protobuf wire format of HashedPirDatabaseBucket |
| CreateLeader, CreateHelper, GetPublicParams and the encryption contexts of the three PIR servers and clients | `PirRolesModel.v` | |
| pir/testing/{pir_selection_bits,request_generator,mock_pir_database}.{h,cc}, pir/hashing/farm_hash_family.{h,cc}, dcf/fss_gates/prng/basic_rng.h | `TestingModel.v` | |
| experiments/synthetic_data_benchmarks.cc | `ExperimentModel.v` | a file is the list of its lines, a line the list of its fields, a field the result of SimpleAtoi; doubles are rationals with a rounding function and log2 as arguments; one iteration; no timing or logging |

Simplifications (each is repeated at the definition concerned):

* Memory allocation succeeds, except for the explicit `RESOURCE_EXHAUSTED` case of the
  evaluation.  OpenSSL calls and `RAND_bytes` do not fail
  (except in `FaultModel.v` and `FaultPirModel.v`, C83 to C85).
* Little-endian hosts (C76 is about the two branches for other hosts).
* Doubles: finite doubles are rationals; sums with logarithms and the comparison with a
  security level are arbitrary functions (`fops`), so the theorems hold for any rounding.
  `ceil(log2(n))` of the PIR code is an arbitrary function `clog` that theorems assume to
  round the logarithm up or down (`clog_ok`); proto_validator.cc's is exact. C80 and C81 prove
  what these functions are for doubles with relative errors of at most 2^-52.
* Int overflow in BitsNeeded is undefined behaviour; the int result of GetNumBytesRequired is
  unbounded, and an int64_t of BitsNeeded that does not fit into an int counts as undefined.
* Scalar `EvaluateSeeds` gets output buffers of the size of its inputs.
* XORing strings of 2^31 bytes or more is treated as undefined.
* Sparse databases are built over DenseDpfPirDatabase only. What `Build` leaves in a builder is
  arbitrary in the model (the theorems hold whatever it is).
* DpfPirHelper keeps its encryption context as a string_view (dpf_pir_server.h:163); the model
  copies the string, so a dangling reference is not modelled.
* The parser of HashedPirDatabaseBucket accepts varints of up to ten bytes as tags and sizes.

Not modelled: threads and timing, the mocks and the fake
encryption of pir/testing, the benchmark code, get_hwy_mode, unknown fields of protocol
buffers, text format, Tink.  Computational security is not expressible in this model; C48 to
C52 and C79 treat AES as an ideal cipher (a function that may be chosen).

## 3. Trusted base

* Coq's kernel.  `Print Assumptions` stands below every property theorem and prints
  "Closed under the global context" for each of them: no axioms, not even those of the
  standard library.  There are no `Admitted` proofs and no section-less variables.
* The faithfulness of the models to the C++ text; every definition cites its source.
* The reading of the properties in the theorem statements and `*Spec.v` files.

## 4. Properties

"refuted" means that the statement in `properties.jsonl` is false of the code; the theorem
`..._refuted` gives a witness, and `..._partial` proves what remains true.

| id  | status | how, and what is not true |
|-----|--------|---------------------------|
| C01 | proved | path invariant (on-path control bits differ, off-path states are equal) by induction on tree levels; value correction algebra; EvaluateAt refined to a per-point walk |
| C02 | proved | context invariant (cached seeds are root walks) preserved by every call; induction on histories |
| C03 | proved | induction over levels, seeds of key i are walks of key i; callback is any stateful function; points beyond the domain are reduced |
| C04 | proved | all three evaluations refined to the same per-point walk, for any key that validates; types without enough reserved bytes never evaluate |
| C05 | proved | context invariant of C02; `C05_exact` for points that are no extensions |
| C06 | proved | index arithmetic of the re-ordering, block layout |
| C07 | partial | case analysis against an independent specification; C07_exact gives every outcome. Refuted: key generation aborts for registered types without enough reserved bytes |
| C08 | proved | induction over levels |
| C09 | partial | equivalence with a declarative predicate. Refuted: an empty tuple type is undefined behaviour, a tuple with two different IntModN types is UNIMPLEMENTED, a tuple of 2^24 128-bit integers overflows an int |
| C10 | proved | induction over the parameter list; `C10_least` (`PropertiesLevels.v`) compares the depths with every assignment of depths that is strictly increasing and fits the blocks |
| C11 | partial | evaluation of arbitrary keys is never undefined and never crashes, for exactly the types for which Create reserves enough bytes. For all others (C17) EvaluateAt never returns a value and aborts on valid keys |
| C12 | partial | arbitrary contexts. Refuted: a negative partial_evaluations_level passes validation and indexes out of bounds; `C12_exact`: no call with such a level returns a value |
| C13 | partial | one theorem per rejection. Refuted: for packed types, prefixes are compared only up to their block. `C13_exact`: exactly the prefixes in stored blocks are accepted, and their values are right |
| C14 | proved | induction on types, modular arithmetic |
| C15 | proved | induction on types |
| C16 | partial | refuted: Uint128To compares the low 64 bits only; the exact behaviour is proved |
| C17 | partial | refuted for nested tuples; proved for a syntactic class of types; for every type the exact number of bytes consumed is proved |
| C18 | partial | exact distance of one sample by counting; joint distance of n samples by induction on n (the distribution of the carried word is a mixture of uniform distributions on initial segments). Refuted for SampleFromBytes with 128-bit base integers: the next word is ORed into the quotient |
| C19 | proved | loop invariant over batches of 64 |
| C20 | proved | refinement of the vector code to the scalar walk, for any vector width |
| C21 | proved | induction on levels |
| C22 | proved | loop invariant over batches |
| C23 | proved | state returned on every error path |
| C24 | partial | reduction to C03. Refuted for XorWrapper: SetToZero does not zero it. `C24_*_exact` covers all types by an invariant over the levels, with the parity of the zeros on the path of alpha for XorWrapper |
| C25 | partial | case analysis. Refuted: log_domain_size 129 and the security parameter are not rejected; beta is not validated when alpha is 0. `C25_*_exact` says what is accepted |
| C26 | proved | from the refinement of C03; types without room never return a value on either side (C26_all_types) |
| C27 | proved | arithmetic modulo the group order, composition with C24 |
| C28 | partial | refuted: bounds given as value_uint64 are read as 0. Every parameters message is treated as the same message with each bound as read (`C28_create_exact`) |
| C29 | partial | refuted: too few output mask shares are read out of bounds: a batch with such a key is undefined behaviour unless another defect of a key is reported first (`C29_short_exact`) |
| C30 | partial | loop invariants, any vector width. Refuted: the int block base wraps from 2^25 blocks on, and overflows (UB) from 2^24 blocks in the scalar code. `C30_exact` gives the outcome for every size |
| C31 | proved | simulation of builder histories by a list specification |
| C32 | partial | composition of C02, C30 and C34. Refuted: more than 2^30 elements are rejected by the servers. C32_exact gives every outcome below 2^31 |
| C33 | partial | refuted: from 2^31 elements on the size is truncated to int, for all sizes (`C33_queries_exact`) |
| C34 | proved | list XOR algebra, pad stream positions |
| C35 | proved | sender is an arbitrary function |
| C36 | proved | stream invariant of CTR mode |
| C37 | proved | multiset invariant for all random choices. Finding: a failing Insert may drop an element inserted earlier |
| C38 | partial | refuted: stashed records are ignored, so Build succeeds and loses keys |
| C39 | partial | end to end. Refuted: keys that differ in trailing zeros are confused; a database of empty values is rejected. The answer to every query is characterised (`C39_C40_exact`), and every outcome of the exchange (`C39_C40_outcomes`) |
| C40 | partial | end to end. Refuted: queries that extend the longest key, all-zero and empty queries are answered. The answer to every query is characterised (`C39_C40_exact`), and every outcome of the exchange (`C39_C40_outcomes`) |
| C41 | partial | end to end, with the wire format of buckets. Refuted: the empty database answers INVALID_ARGUMENT. C41_exact gives every outcome below 2^31 |
| C42 | partial | refuted: the bucket size limit is exceeded when hash functions collide |
| C43 | proved | state machine refinement |
| C44 | proved | long-division identity |
| C45 | proved | case analysis on both servers |
| C46 | partial | proved for EvaluateAt. Refuted: EvaluateAndApply and the DCF do not check points; `C46_apply_reduces` and `C46_dcf_reduces` say that they use the points modulo the domain size |
| C47 | proved | shape of both keys, shared fields, success independent of seeds and cipher |
| C48 | proved | the cipher is an argument of GenerateKeys. Given keys for (alpha, beta), a table of at most `length (path_uses …)` entries reprograms it so that the same keys come out for (alpha', beta') |
| C49 | proved | the same table, chosen so that the exchange is its own inverse. IntModN is left out: its samples are only close to uniform (C18) |
| C50 | proved | the requests are lists of keys; C48 and C49 are applied to one key pair after the other, keeping the blocks of the others (DpfBatch.v). Sparse requests are dense requests for the buckets, and so is the exchange (PropertiesPirSparseView.v). The encryption of the helper's request is not modelled |
| C51 | proved | the keys are DPF keys for alpha / 2 and values that depend on alpha; C48 and C49 hold for all values |
| C52 | proved | C51 for the DCF key; the mask shares of party 1 are kept by shifting the random values |
| C53 | partial | EvaluateUntil and EvaluateNext: proved for every context. EvaluateAt: proved for generated keys and types with another number of elements per block. Refuted otherwise: EvaluateAt never compares T with the level, so it returns unrelated values (`C53_at_refuted`), aborts (`C53_at_abort_refuted`) or, for a crafted key, reads out of bounds (`C53_at_ub_refuted`). `C53_at_exact` says which of the four happens, for every key that passes validation, every T and all points in the domain |
| C54 | partial | The key of a request is expanded to an error or to one block per element (C11, C12 for contexts, C06 for the length), after which the inner product has valid arguments. Proved up to the size limits of C30 and C32. Refuted beyond: without vector instructions 2^24 + 1 elements give undefined behaviour for every well-formed request (`C54_scalar_refuted`); C72 says exactly when |
| C55 | partial | Dense and cuckoo clients: proved for every response and state. Simple client: proved if no unmasked bucket has more keys than values; refuted otherwise, `bucket.values(j)` is read out of bounds (`C55_simple_refuted`), exactly when the first key equal to the query has no value (`C55_simple_exact`) |
| C56 | partial | from C38 and C41, for SHA-256 and fewer than 2^31 buckets. Refuted: GenerateParams accepts unknown hash families and sizes for which no database can be built; `C56_exact` proves this of all of them |
| C57 | proved | PackSelectionBits and InnerProductWithUnpacked of pir/testing (TestingModel.v); the bits of a packed block by induction over its positions, the loop over the records by induction, then C30 |
| C58 | proved | the loop of the generator, which checks each index before its keys, is rewritten into the client's check followed by its key generation |
| C59 | proved | little-endian decoding is inverted by encoding |
| C60 | proved | arithmetic; the farmhash library is a pair of arbitrary functions |
| C61 | proved | induction over the digits; the draws of absl::Uniform are an arbitrary function with values in its range |
| C62 | partial | refuted for log_domain_size 2^31 - 1, proved for all others. ComputePrefixes, ReadUniqueValuesFromFile and ValidateFlags (ExperimentModel.v); sets are increasing lists, induction over the insertions and over the levels |
| C63 | partial (refuted) | the loop is a function of its last level, so a repeated level would mean it never ends (no level occurs twice); it ends for a factor of at least 3 because every step makes progress in spite of rounding (`rounding_ok`, `log2_ok`; proved for 53-bit rounding). False for the default factor 2: with five buckets log2(5) is rounded such that the loop stays at level 2 (`C63_exact`: this is the only other outcome) |
| C64 | partial (refuted) | the calls of the program are a valid history of C02 (every bucket's prefix is among the previous outputs); false for one bucket with the default flags (first level 0), for levels that do not increase, for several levels without an input, and for one level below log_domain_size without an input (`C64_level_refuted`) |
| C65 | partial (refuted) | C01 at the only level; the flags about levels are not ignored: two levels make it abort (`C65_exact` says when it aborts) |
| C66 | proved | by induction over the clients, C01 at each, and the commutative group laws of the value type |
| C67 | proved | the registered types are used only by key generation, and a type descriptor denotes one C++ type |
| C68 | proved | by cases on each check, with the totality of what follows the checks (C25 for Create, hash functions, fingerprint) |
| C69 | proved | reduction to C32, C39 to C41 with the context of the class |
| C70 | proved | C38 and C41 for the successful case; an empty key is found at whatever step of the insertion it comes |
| C71 | proved | by induction over the types |
| C72 | proved | the expansion of any key is EvaluateAt at every block (C04, C53_at_exact), the answer is the inner product of C30 (`C30_exact`, so for all sizes below 2^31 elements); the roles by case analysis |
| C73 | proved | the request part is C50; the pad is changed at its counter blocks by the XOR of the two plain replies (`PirMask.v`), which have the same sizes by C30; key generation and evaluation only use the three fixed AES keys (`DpfExt.v`), so they do not notice the change of the pad. For sparse PIR the injective exchange comes from one lemma about any exchange of requests (`view_exchange`, PropertiesPirSparseView.v). The encrypted request is the same because the Helper's request is; that it hides the pad's seed is a property of the encryption, which is not modelled: the theorem excludes adversaries that ask for the pad's blocks |
| C74 | proved | `WireModel.v` models the wire format of ValueType (with the presence of sub-messages) and the hash map keyed by it; varints and length-delimited fields are prefix-free, so serialization is injective by induction on messages. `C74_model`: the list of types that the DPF model keeps finds the same function, so the DPF model does not assume anything about serialization. Unknown fields are not modelled. |
| C75 | partial (refuted) | `PrgMemModel.v` has one memory in which the two spans lie anywhere. Proved if the output does not start after the input, if the spans are disjoint, or for at most one batch of 64 blocks; for all other overlaps there is a cipher for which a block is wrong, because a batch overwrites the input of a later one (`C75_overlap_refuted`, `C75_exact` describes the memory afterwards for all positions). The library only overlaps spans in place (`C75_in_place`: this is the hash of the DPF model). Sizes beyond an int are not rejected (`C75_large_refuted`) |
| C76 | partial (refuted) | `EndianModel.v` models the branches for hosts that are not little-endian. Proved for little-endian hosts. Refuted for others: the loop shifts once after the last byte, so the number is multiplied by 256 (`C76_big_exact`) and the low byte of every value correction does not depend on the seeds (`C76_leak_refuted`); keys for 8-bit types contain beta |
| C77 | partial (refuted) | `OverloadModel.v` models the overloads (conversion, registration, delegation to the version for Value protos). Proved by reduction to C07 and C01, for types with enough reserved bytes; `C77_agree` covers all other arguments. The documented position ("lowest bits of alpha") is refuted: beta[i] is at the highest bits (`C77_lowest_exact`) |
| C78 | partial (refuted) | Counts over all contents of the other party's bytes. `CorrectionProofs.v` shows that the correction is a bijection of the other party's elements, and that nested tuples are sampled like the list of their leaves; `SampleMixed.v` bounds the joint distance of samples with different moduli by coupling. Exact for direct types. For sampled types the bound depends on the type only (`bias_cost`) and is meaningless for large integers after an IntModN, where `C78_refuted` gives an advantage of 1/4 |
| C79 | proved | `KeyDist.v`: for a key of the right shape and a content of the other party's bytes, the cipher is programmed as for C48 and yields the key with the value corrections computed from that content; every cipher that leaves the rest as it is has this form. `KeyDistProofs.v`: C78 for all contents of the bytes of a level, and a hybrid argument over the levels. Specification in `KeyDistSpec.v` (`contents`, `expansion`, `same_tree`) and `CorrectionSpec.v` (`type_bias`) |
| C80 | proved | `FloatProofs.v`: inequalities between integer powers stand for inequalities between logarithms, Bernoulli's inequality for the error of converting integers; the rounding errors add up to less than 2^-40 bits. With the distance of C18 and the bias of C79 (`FloatLevel.v`). Specification in `FloatSpec.v`; a logarithm with 60 binary places meets it |
| C81 | proved | `FloatProofs.v`: the logarithm of 2^k + 1 exceeds k by 2^-k at least, which is more than its error for k < 46 |
| C82 | proved | C79 at the DPF inside the comparison function, whose levels all have the same value type (`dcf_keys_eq`), and C80 for the default security level of its levels. Specification as for C79 and C80 |
| C83 | partial | Every function of `FaultModel.v` against its counterpart without failures: `reported` (`FaultSpec.v`) is closed under sequencing and loops (`FaultProofs.v`). Context after a failure: the stored partial evaluations are those from which the repetition recomputes the same (`FaultRetry.v`, with the context invariant of C05). Refuted: failures of RAND_bytes, and repetition of EvaluateUntil after a failure in HashExpandedSeeds |
| C84 | proved | Counter of calls in `FaultModel.v`. `does m P k` (`CostProofs.v`: a successful run satisfies P and makes k calls) is closed under sequencing, maps and folds; formulas in `CostSpec.v`. The sum over tree levels of key generation is turned into one over hierarchy levels with `wf`; contexts with the invariant of C05. The scalar `EvaluateSeedsNoHwy` is meant: the Highway version evaluates seeds without OpenSSL. |
| C85 | partial | `FaultPirModel.v`: the functions of `PirModel.v` and `SparseModel.v` with the calls to OpenSSL in the order of the code. `reported` as in C83 (`FaultPirProofs.v`); for the Leader with the error of the sender. Creation of requests: exact outcome for every first failing call, from the call counts of C84 and the fact that a run depends only on the results of the calls it makes (`local`). Refuted: failures of RAND_bytes; `C85_leader_reads` composes the unnoticed failure with C32. What the sender calls is outside the machine |
| C86 | proved | `KeyWireModel.v`: serialization and the parser of protocol buffers for these messages. Round trip by induction on values with the recursion limit (`KeyWireProofs.v`): `parse (write x) = Some x` if the depth of x (`KeyWireSpec.v`) is within the limit and `None` otherwise; ranges of parsed messages by an invariant of merging fields. Generated keys with C47. PIR: sizes of requests, then the exchange with serialized requests equals that of C32, C39 to C41, whose assumption on the channel is thereby discharged (`PropertiesKeyWirePir.v`) |
| C87 | proved | `ContextWireModel.v` on top of `KeyWireModel.v`. Round trip by induction on value types with the recursion limit (`ContextWireProofs.v`). Ranges of the contexts that calls lead to: the invariant of contexts of C05 (`DpfCtx.v`, `DpfReach.v`) says that partial evaluations are nodes of the tree of the key at the level, and nodes are blocks if the key and AES are. Programs (`ContextWireSpec.v`): lists of calls, with the context kept or stored between them, by induction on the calls. |
| C88 | proved | `MessageWireModel.v` on top of `KeyWireModel.v`. Round trips from the lists of fields that the messages consist of (`MessageWireProofs.v`). Exchanges: Leader, Helper and the client's stored state are wrapped in serialization and parsing (`remote`, `remote_exchange`), and the requests of the clients are shown to have fields in range and nesting at most 8, so that the exchange equals the one in memory of C32, C39 to C41. For dense PIR the sizes are bounded by the numbers of queries and elements and the longest record (`C88_dense_records`: responses have the sizes of the answers of C72); for sparse PIR they are hypotheses (`all_fit`).  Generated DCF and MIC keys: shape and blocks of the keys (C47). |
| C89 | partial | No new model: `validate_dpf_key`, `parameters_are_equal` and `validate_evaluation_context` of `DpfModel.v` against the shape of keys and contexts in `AcceptSpec.v`, which is stated with the parameters passed to Create. Missing and false: EvaluateAt does not compare the parameters of its context; `C89_evaluate_at` proves that its result does not depend on them, and `C89_evaluate_at_refuted` evaluates the context of a DPF with two levels with a DPF that has one. |

## 5. Tests of the theorems

`seeded/LOG.jsonl` lists wrong programs: one edit of a model each, the claim it breaks and
the theorems that failed.  Entries marked as controls are edits that do not change any
claim.
