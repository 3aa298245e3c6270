{"id": "C01", "title": "EvaluateAt shares reconstruct the point function at every hierarchy level", "statement": "If Create/CreateIncremental accepted the parameters and GenerateKeysIncremental(alpha, betas) returned (k0,k1), then for every hierarchy level h and every list of in-range points, EvaluateAt<T>(k0,h,pts) and EvaluateAt<T>(k1,h,pts) both succeed and their element-wise sum in the value group is beta_h at the points equal to the prefix of alpha at level h and the group zero everywhere else.", "quantifier": "all parameter lists accepted by Create, all supported value types, all alpha, all beta vectors, all random seeds, all PRGs, all levels, all point lists", "why_tests_cant": "2^128 domains, arbitrary seeds, hierarchies and nested value types; a test only samples keys and points", "anchors": ["dpf/distributed_point_function.cc:GenerateKeysIncremental", "dpf/distributed_point_function.cc:GenerateNext", "dpf/distributed_point_function.cc:ComputeValueCorrection", "dpf/distributed_point_function.h:EvaluateAt", "dpf/distributed_point_function.h:EvaluateAtImpl"]}
{"id": "C02", "title": "Hierarchical evaluation (EvaluateUntil/EvaluateNext) reconstructs the point function for every history", "statement": "For a pair of contexts created from a generated key pair and taken through the same sequence of EvaluateUntil/EvaluateNext calls (increasing levels, prefixes that extend previously evaluated prefixes), every call succeeds and the outputs of the two parties sum to beta_h at the unique extension that is alpha's prefix and to zero elsewhere.", "quantifier": "all accepted parameters, key pairs, and all finite call histories with any choice of levels and prefix lists", "why_tests_cant": "the number of histories (subsets of prefixes at each level) is exponential; tests cover a few shapes", "anchors": ["dpf/distributed_point_function.h:EvaluateUntil", "dpf/distributed_point_function.h:EvaluateNext", "dpf/distributed_point_function.cc:ExpandAndUpdateContext", "dpf/distributed_point_function.cc:ComputePartialEvaluations"]}
{"id": "C03", "title": "EvaluateAndApply reconstructs the point function level by level for a batch of keys", "statement": "For a batch of generated key pairs, the values passed to `op` at each hierarchy level by the two parties sum, for the i-th key, to beta_h when evaluation_points[i] shifted to level h equals alpha's prefix, else zero; op is called once per level in order and evaluation stops as soon as op returns false.", "quantifier": "all accepted parameters, all batches of keys/points, all right shifts used, all callbacks", "why_tests_cant": "unbounded batch sizes and callbacks with state", "anchors": ["dpf/distributed_point_function.h:EvaluateAndApply"]}
{"id": "C04", "title": "All evaluation APIs agree", "statement": "On the same valid key (honest or not) the value EvaluateUntil returns for prefix p and suffix s, the value EvaluateAt returns at point p||s, and the value EvaluateAndApply passes to op at that level are identical.", "quantifier": "all parameters, all keys that pass validation (including adversarial ones), all points, prefixes and histories", "why_tests_cant": "needs equality over every key proto, not only generated ones", "anchors": ["dpf/distributed_point_function.h:EvaluateUntil", "dpf/distributed_point_function.h:EvaluateAtImpl", "dpf/distributed_point_function.h:EvaluateAndApply"]}
{"id": "C05", "title": "Resuming from an EvaluationContext is equivalent to starting from the root", "statement": "EvaluateAt with a context, after any sequence of earlier EvaluateAt/EvaluateUntil calls on that context that it extends, returns exactly what EvaluateAt without a context returns.", "quantifier": "all histories of context-updating calls, all extension points", "why_tests_cant": "state carried between calls: cached prefixes, levels skipped, duplicates", "anchors": ["dpf/distributed_point_function.cc:ComputePartialEvaluations", "dpf/distributed_point_function.h:EvaluateAtImpl"]}
{"id": "C06", "title": "EvaluateUntil output order and size", "statement": "The result of EvaluateUntil(h, prefixes) has exactly |prefixes|*2^(ld_h-ld_prev) elements (2^ld_h when no prefixes), and the block for prefixes[i] starts at i*2^(ld_h-ld_prev) with its suffixes in increasing order, whatever order or multiplicity prefixes have.", "quantifier": "all prefix lists (unsorted, duplicated), all packed value types", "why_tests_cant": "packing several outputs per block interacts with de-duplication of tree prefixes in ways a handful of tests cannot enumerate", "anchors": ["dpf/distributed_point_function.h:EvaluateUntil"]}
{"id": "C07", "title": "Key generation rejects invalid inputs", "statement": "GenerateKeysIncremental returns INVALID_ARGUMENT (and no key) whenever the number of betas differs from the number of levels, some beta does not match its level's value type or range, or alpha is outside the last level's domain; and it succeeds for every valid alpha/beta of a registered type.", "quantifier": "all alphas (128 bit), all beta protos, all parameters", "why_tests_cant": "the space of malformed Value protos is infinite", "anchors": ["dpf/distributed_point_function.cc:GenerateKeysIncremental", "dpf/internal/proto_validator.cc:ValidateValue"]}
{"id": "C08", "title": "Generated keys are well formed and consistent", "statement": "Both keys returned by GenerateKeysIncremental pass the validation performed by CreateEvaluationContext/EvaluateAt, have parties 0 and 1, and differ only in party and root seed: all correction words and value corrections are identical.", "quantifier": "all parameters, alphas, betas, random seeds", "why_tests_cant": "must hold for all parameters", "anchors": ["dpf/distributed_point_function.cc:GenerateKeysIncremental", "dpf/internal/proto_validator.cc:ValidateDpfKey"]}
{"id": "C09", "title": "Create accepts exactly the documented parameters", "statement": "CreateIncremental succeeds iff the parameter list is non-empty, every log_domain_size is in [0,128] and strictly larger than the previous one, value types are set and well formed, bit sizes are powers of two in [1,128], security parameters are in range; otherwise it returns INVALID_ARGUMENT - never undefined behaviour or a crash.", "quantifier": "all lists of DpfParameters protos", "why_tests_cant": "infinite family of protos incl. recursive tuple types", "anchors": ["dpf/internal/proto_validator.cc:ValidateParameters", "dpf/internal/proto_validator.cc:Create"]}
{"id": "C10", "title": "Hierarchy levels map to distinct tree levels that fit the domain and the packing", "statement": "For accepted parameters the evaluation-tree depth of each output level is strictly increasing, never exceeds log_domain_size, and the number of outputs addressed inside one tree leaf (2^(log_domain_size - depth)) never exceeds the number of values stored in the leaf's block. When every level has a C++ value type, no other such choice of depths is shallower at any level, and a key has one correction word for every depth below the last.", "quantifier": "all accepted parameter lists", "why_tests_cant": "arithmetic invariant over all lists of levels and bit sizes", "anchors": ["dpf/internal/proto_validator.cc:Create", "dpf/distributed_point_function.cc:DomainToTreeIndex", "dpf/distributed_point_function.cc:DomainToBlockIndex"]}
{"id": "C11", "title": "Evaluation never crashes or has undefined behaviour on untrusted keys", "statement": "For every DpfKey proto, level and points, EvaluateAt/EvaluateAndApply/CreateEvaluationContext return a value or an error status; they never read outside the key, crash or invoke undefined behaviour.", "quantifier": "all key protos, all integer levels, all points", "why_tests_cant": "robustness against arbitrary deserialised input", "anchors": ["dpf/distributed_point_function.h:EvaluateAtImpl", "dpf/internal/proto_validator.cc:ValidateDpfKey", "dpf/internal/value_type_helpers.h:ValuesToArray"]}
{"id": "C12", "title": "Evaluation with an untrusted EvaluationContext never has undefined behaviour", "statement": "For every EvaluationContext proto, EvaluateUntil and EvaluateAt(ctx) return a value or an error status without out-of-bounds accesses.", "quantifier": "all context protos incl. arbitrary level fields and partial evaluations", "why_tests_cant": "robustness against arbitrary deserialised input", "anchors": ["dpf/internal/proto_validator.cc:ValidateEvaluationContext", "dpf/distributed_point_function.cc:ComputePartialEvaluations"]}
{"id": "C13", "title": "EvaluateUntil rejects invalid calls", "statement": "EvaluateUntil returns INVALID_ARGUMENT when the level is out of range, not larger than the previous level, T mismatches the level's value type, prefixes are given on the first call or missing on later calls, a prefix is out of range or is not an extension of a previously evaluated prefix.", "quantifier": "all contexts, levels and prefix lists", "why_tests_cant": "negative space is infinite", "anchors": ["dpf/distributed_point_function.h:EvaluateUntil", "dpf/distributed_point_function.cc:ComputePartialEvaluations"]}
{"id": "C14", "title": "Value types form abelian groups and operations stay in range", "statement": "For unsigned integers, IntModN, XorWrapper and arbitrarily nested Tuples, + is associative and commutative with T{} as zero, unary - is the inverse, a-b = a+(-b), and results are always valid values of the type (IntModN results are < modulus).", "quantifier": "all values of all supported types, any nesting", "why_tests_cant": "2^128-sized carriers, unbounded nesting", "anchors": ["dpf/int_mod_n.h:operator+", "dpf/int_mod_n.h:operator-", "dpf/tuple.h", "dpf/xor_wrapper.h"]}
{"id": "C15", "title": "Value proto conversion round-trips", "statement": "FromValue<T>(ToValue(x)) = x for every T and x, and ToValue(x) always passes ValidateValue for ToValueType<T>().", "quantifier": "all types and values", "why_tests_cant": "infinite carriers", "anchors": ["dpf/internal/value_type_helpers.h:ToValue", "dpf/internal/value_type_helpers.h:FromValue", "dpf/internal/proto_validator.cc:ValidateValue"]}
{"id": "C16", "title": "FromValue rejects values that do not fit the type", "statement": "FromValue<T>(v) returns INVALID_ARGUMENT whenever the integer encoded in v is not representable in T.", "quantifier": "all Value protos, all integer-like types", "why_tests_cant": "128-bit protos", "anchors": ["dpf/internal/value_type_helpers.h:Uint128To", "dpf/internal/value_type_helpers.h:FromValue"]}
{"id": "C17", "title": "BitsNeeded reserves enough pseudorandom bytes for every value type", "statement": "For every value type accepted by Create, converting the reserved blocks_needed*16 bytes to values never runs out of bytes (no crash) in key generation or evaluation.", "quantifier": "all value types incl. nested tuples with IntModN in any position", "why_tests_cant": "unbounded type nesting", "anchors": ["dpf/internal/value_type_helpers.cc:BitsNeeded", "dpf/internal/value_type_helpers.h:FromBytes", "dpf/int_mod_n.cc:GetNumBytesRequired"]}
{"id": "C18", "title": "IntModN sampling stays in range and within the promised statistical distance", "statement": "Samples produced from pseudorandom bytes are always < N, and when the bytes are uniform the distribution of a sample is within 2^-security_level total-variation distance of uniform (GetSecurityLevel).", "quantifier": "all moduli, all byte strings, any number of samples", "why_tests_cant": "probability statement over 2^128 inputs", "anchors": ["dpf/int_mod_n.h:SampleFromBytes", "dpf/int_mod_n.h:UnsafeSampleFromBytes", "dpf/int_mod_n.cc:GetSecurityLevel"]}
{"id": "C19", "title": "Batched tree walk is equivalent to independent per-seed walks", "statement": "EvaluateSeeds on n seeds yields for each seed exactly the result of walking that seed alone: results do not depend on batch size, on other seeds, or on the internal reordering by path bits; with per-seed correction words each seed uses its own.", "quantifier": "all n, all depths, all paths, all correction words", "why_tests_cant": "unbounded batch sizes crossing the internal batch boundary (64)", "anchors": ["dpf/internal/evaluate_prg_hwy.cc:EvaluateSeedsNoHwy", "dpf/distributed_point_function.cc:EvaluateSeeds"]}
{"id": "C20", "title": "SIMD and scalar tree walks agree", "statement": "The vectorised implementation of EvaluateSeeds produces the same seeds and control bits as the scalar fallback for every input and every vector width.", "quantifier": "all inputs, all vector lane counts", "why_tests_cant": "depends on hardware width, remainder handling and lane shuffles", "anchors": ["dpf/internal/evaluate_prg_hwy.cc:EvaluateSeedsHwy", "dpf/internal/aes_128_fixed_key_hash_hwy.h"]}
{"id": "C21", "title": "Full expansion enumerates leaves in order", "statement": "ExpandSeeds of n roots by d levels returns n*2^d seeds/control bits, where position i*2^d+j is the walk of root i along the d-bit path j.", "quantifier": "all n, d, correction words", "why_tests_cant": "exponential output; batch boundary at 64", "anchors": ["dpf/distributed_point_function.cc:ExpandSeeds"]}
{"id": "C22", "title": "Fixed-key hash is a pointwise function of each block", "statement": "Aes128FixedKeyHash::Evaluate applies x -> AES_k(sigma(x)) xor sigma(x) to each block independently of batch position and rejects spans of different size; sigma is a linear bijection on blocks.", "quantifier": "all span lengths and contents", "why_tests_cant": "batch boundary (64), aliasing", "anchors": ["dpf/aes_128_fixed_key_hash.cc:Evaluate"]}
{"id": "C23", "title": "Failed evaluation calls report an error and no partial output", "statement": "Whenever EvaluateUntil rejects its arguments up front (validation, level, prefix checks) the caller's EvaluationContext is unchanged and can be reused.", "quantifier": "all contexts and erroneous calls", "why_tests_cant": "state after every error path", "anchors": ["dpf/distributed_point_function.h:EvaluateUntil"]}
{"id": "C24", "title": "DCF correctness", "statement": "For DCF keys generated for (alpha,beta), the two parties' Evaluate/BatchEvaluate results at x sum to beta if x < alpha and to zero otherwise.", "quantifier": "all domain sizes in [1,128], all alpha, beta, x, all value types supported by Create, all seeds, all batches", "why_tests_cant": "128-bit domains", "anchors": ["dcf/distributed_comparison_function.cc:GenerateKeys", "dcf/distributed_comparison_function.h:BatchEvaluate"]}
{"id": "C25", "title": "DCF argument validation", "statement": "DCF Create rejects log_domain_size < 1 and anything the DPF rejects; GenerateKeys rejects alpha outside the domain or beta not matching the value type; BatchEvaluate rejects span size mismatches and points out of the domain.", "quantifier": "all inputs", "why_tests_cant": "infinite negative space", "anchors": ["dcf/distributed_comparison_function.cc:Create", "dcf/distributed_comparison_function.h:BatchEvaluate"]}
{"id": "C26", "title": "DCF batch evaluation equals single evaluations", "statement": "BatchEvaluate(keys, points)[i] = Evaluate(keys[i], points[i]) for all i, and output buffers' previous contents do not matter.", "quantifier": "all batches", "why_tests_cant": "unbounded batch sizes", "anchors": ["dcf/distributed_comparison_function.h:BatchEvaluate", "dcf/distributed_comparison_function.h:Evaluate"]}
{"id": "C27", "title": "Multiple interval containment gate correctness", "statement": "For MIC keys generated with (r_in, r_out), the two parties' Eval outputs for interval j at masked input x+r_in mod N sum mod N to r_out[j] + (1 if p_j <= x <= q_j else 0).", "quantifier": "all group sizes 2^1..2^127, intervals, masks, inputs, seeds", "why_tests_cant": "128-bit case analysis over wrap-around configurations", "anchors": ["dcf/fss_gates/multiple_interval_containment.cc:Gen", "dcf/fss_gates/multiple_interval_containment.cc:BatchEval"]}
{"id": "C28", "title": "MIC gate parameter validation honours the interval bounds the caller set", "statement": "Create either rejects the parameters or builds a gate for exactly the interval bounds encoded in the protos, whichever of the integer encodings (value_uint64 or value_uint128) is used; out-of-group bounds, p>q and missing bounds are rejected.", "quantifier": "all MicParameters protos", "why_tests_cant": "infinite protos", "anchors": ["dcf/fss_gates/multiple_interval_containment.cc:Create"]}
{"id": "C29", "title": "MIC evaluation never has undefined behaviour on malformed keys", "statement": "BatchEval returns INVALID_ARGUMENT for invalid keys (e.g. too few output mask shares), size mismatches or out-of-group points, without out-of-bounds accesses.", "quantifier": "all MicKey protos", "why_tests_cant": "robustness", "anchors": ["dcf/fss_gates/multiple_interval_containment.cc:BatchEval"]}
{"id": "C30", "title": "XOR inner product is exactly the XOR of the selected records", "statement": "InnerProduct returns for each selection vector the byte-wise XOR of all records whose selection bit is set, zero-padded to max_value_size, independent of memory alignment, vector width and of the other selection vectors.", "quantifier": "all databases, selections, alignments, vector widths", "why_tests_cant": "alignment- and width-dependent code paths, 2^n selections", "anchors": ["pir/internal/inner_product_hwy.cc:InnerProduct", "pir/internal/inner_product_hwy.cc:InnerProductHwy", "pir/internal/inner_product_hwy.cc:XorPartialString"]}
{"id": "C31", "title": "Dense database builder histories", "statement": "After any sequence of Insert/Clear/Clone/Build calls, a successful Build returns a database whose records are exactly the values inserted since creation/last Clear, in order; a second Build without Clear fails with FAILED_PRECONDITION; the internal 'should not happen' errors are unreachable.", "quantifier": "all finite call histories and values of any size", "why_tests_cant": "history property", "anchors": ["pir/dense_dpf_pir_database.cc:Build", "pir/dense_dpf_pir_database.cc:Append", "pir/dense_dpf_pir_database.cc:Clone"]}
{"id": "C32", "title": "Dense PIR returns the queried records end to end", "statement": "For any database with at least one non-empty record and any list of in-range indices, the responses of two servers to the client's requests (plain or Leader/Helper) decode on the client to the queried records, zero-padded to the largest record size.", "quantifier": "all databases, query batches, DPF seeds, one-time-pad seeds", "why_tests_cant": "composition of DPF, inner product and masking over all sizes", "anchors": ["pir/dense_dpf_pir_client.cc:CreatePlainRequests", "pir/dense_dpf_pir_client.cc:HandleResponse", "pir/dense_dpf_pir_server.cc:HandlePlainRequest", "pir/dpf_pir_server.cc:HandleLeaderRequest", "pir/dpf_pir_server.cc:HandleHelperRequest"]}
{"id": "C33", "title": "Dense PIR client rejects out-of-range queries and only those", "statement": "CreatePlainRequests returns INVALID_ARGUMENT iff some index is negative or >= num_elements.", "quantifier": "all configs (int64 num_elements) and int query lists", "why_tests_cant": "64-bit range", "anchors": ["pir/dense_dpf_pir_client.cc:CreatePlainRequests", "pir/dense_dpf_pir_client.h"]}
{"id": "C34", "title": "Helper masking hides and is removed exactly once", "statement": "The Helper's reply is its plain reply XOR a pad derived only from the client's seed; the Leader's combination XORs both replies; the client's unmasking yields leader XOR helper plain replies; mismatching sizes are reported as INTERNAL.", "quantifier": "all responses of any count and lengths, all seeds", "why_tests_cant": "pad stream position depends on lengths of all earlier entries", "anchors": ["pir/dpf_pir_server.cc", "pir/dense_dpf_pir_client.cc:HandleResponse"]}
{"id": "C35", "title": "Leader protocol obligations", "statement": "The Leader returns an error if the sender does not run the callback, if the sender fails, or if its own evaluation fails; it never returns a response combining fewer than both parties' answers.", "quantifier": "all sender behaviours", "why_tests_cant": "callback can behave arbitrarily", "anchors": ["pir/dpf_pir_server.cc:HandleLeaderRequest"]}
{"id": "C36", "title": "CTR PRNG output is a fixed stream, independent of call boundaries", "statement": "For a given seed (and nonce) the concatenation of GetRandomBytes outputs depends only on the total length requested.", "quantifier": "all seeds, all call sequences", "why_tests_cant": "all splits of the stream", "anchors": ["pir/prng/aes_128_ctr_seeded_prng.cc:GetRandomBytes"]}
{"id": "C37", "title": "Cuckoo table invariant", "statement": "After any sequence of Insert calls, every inserted element is stored exactly once (as a multiset) either in the table at the position given by one of its hash functions or in the stash (elements dropped only when Insert returns INTERNAL), and the stash never exceeds its limit.", "quantifier": "all hash functions, insertion sequences, random choices, limits", "why_tests_cant": "eviction chains of any length, random walk", "anchors": ["pir/hashing/cuckoo_hash_table.cc:Insert"]}
{"id": "C38", "title": "Cuckoo hashed database keeps every record", "statement": "If Build succeeds, every inserted key-value pair (first value per key) is stored in some bucket and can be retrieved.", "quantifier": "all record sets, hash functions, parameters, random choices", "why_tests_cant": "depends on the eviction walk for every key set", "anchors": ["pir/cuckoo_hashed_dpf_pir_database.cc:Build"]}
{"id": "C39", "title": "Cuckoo sparse PIR retrieves the value of a present key", "statement": "Querying a key stored in the table returns its value padded with zero bytes, end to end.", "quantifier": "all databases, hash functions, key sets, query batches", "why_tests_cant": "composition", "anchors": ["pir/cuckoo_hashing_sparse_dpf_pir_client.cc", "pir/cuckoo_hashing_sparse_dpf_pir_server.cc"]}
{"id": "C40", "title": "Cuckoo sparse PIR reports absent keys as absent", "statement": "Querying a key that was never inserted returns nullopt.", "quantifier": "all databases, hash functions, queries", "why_tests_cant": "all strings incl. empty, zero bytes, longer than any key", "anchors": ["pir/cuckoo_hashing_sparse_dpf_pir_client.cc:HandleResponse", "pir/cuckoo_hashing_sparse_dpf_pir_client.cc:IsPrefixPaddedWithZeros"]}
{"id": "C41", "title": "Simple hashed sparse PIR end to end", "statement": "Querying a key returns the value first inserted for it, or nullopt when the key was never inserted, for every database and hash function.", "quantifier": "all databases, bucket loads, hash functions, queries", "why_tests_cant": "relies on parsing a zero-padded serialized bucket of any size", "anchors": ["pir/simple_hashed_dpf_pir_database.cc:Build", "pir/simple_hashing_sparse_dpf_pir_client.cc:HandleResponse"]}
{"id": "C42", "title": "Simple hash table stores all-or-nothing within the bucket bound", "statement": "Insert either appends the element to the bucket of every hash function or returns INTERNAL and leaves the table unchanged; buckets contain exactly the inserted elements hashing to them; documented maximum bucket size is never exceeded.", "quantifier": "all insertion histories, hash functions, limits", "why_tests_cant": "history property", "anchors": ["pir/hashing/simple_hash_table.cc:Insert"]}
{"id": "C43", "title": "Multiple choice hash table places elements in a least-loaded candidate bucket", "statement": "Insert stores the element once, in a candidate bucket of minimal load, never exceeding max_bucket_size; it fails with INTERNAL only when every candidate bucket is full.", "quantifier": "all insertion histories", "why_tests_cant": "history property", "anchors": ["pir/hashing/multiple_choice_hash_table.cc:Insert"]}
{"id": "C44", "title": "SHA-256 hash reduction", "statement": "SHA256HashFunction(seed)(input, n) is in [0,n) and equals the digest, read as a little-endian 256-bit integer, modulo n; hash functions from a family depend only on seed||index||input.", "quantifier": "all digests, all positive n", "why_tests_cant": "256-bit long division with 64-bit digits", "anchors": ["pir/hashing/sha256_hash_family.cc", "pir/hashing/hash_family.h:WrapWithSeed"]}
{"id": "C45", "title": "Sparse servers reject requests made for different hash seeds", "statement": "A request carrying a non-zero fingerprint different from the server's is rejected with INVALID_ARGUMENT; a request created from the server's public params is never rejected for its fingerprint.", "quantifier": "all seeds, all requests", "why_tests_cant": "all hash values incl. zero", "anchors": ["pir/cuckoo_hashing_sparse_dpf_pir_server.cc:HandlePlainRequest", "pir/simple_hashing_sparse_dpf_pir_server.cc:HandlePlainRequest"]}
{"id": "C46", "title": "Evaluation points out of range are rejected by every evaluation API", "statement": "EvaluateAt, EvaluateAndApply and DCF BatchEvaluate return INVALID_ARGUMENT if some evaluation point is outside the domain.", "quantifier": "all points (128 bit)", "why_tests_cant": "negative space", "anchors": ["dpf/distributed_point_function.h:EvaluateAtImpl", "dpf/distributed_point_function.h:EvaluateAndApply", "dcf/distributed_comparison_function.h:BatchEvaluate"]}
{"id": "C47", "title": "Shape of generated keys", "statement": "Every pair of keys returned by GenerateKeys(Incremental) has the shape fixed by the DPF parameters alone: party 0/1, a seed, one correction word per tree level but the first, with the lowest bit of the seed correction cleared, value corrections (one per element of a block, valid for the level's type) exactly in the correction words of tree levels with outputs and in last_level_value_correction. The keys share all correction words and differ only in seed and party. Success does not depend on the seeds or on AES.", "quantifier": "all parameter lists, alpha, beta, seeds, block ciphers", "why_tests_cant": "tests look at a few parameter sets; the shape must not depend on alpha or beta", "anchors": ["dpf/distributed_point_function.cc:GenerateKeysIncremental", "dpf/distributed_point_function.cc:GenerateNext", "dpf/distributed_point_function.proto:DpfKey"]}
{"id": "C48", "title": "A single key is consistent with every alpha and beta (ideal cipher)", "statement": "For keys generated for (alpha, beta) and any other accepted (alpha', beta'), there is a block cipher that differs only at the blocks the other party encrypts along its path, for which the same seeds give the same keys for (alpha', beta'); a program that has one party's key and uses the cipher as an oracle behaves the same unless it asks for one of those blocks. Any key of the right shape, with any seeds for the other party's path, is a possible key for every accepted (alpha, beta).", "quantifier": "all parameters, alpha, beta, seeds, parties, block ciphers without coincidences between the two parties' blocks, all oracle programs", "why_tests_cant": "privacy is a statement about all inputs and all distinguishers", "anchors": ["README.md:15", "dpf/distributed_point_function.cc:GenerateKeysIncremental", "dpf/distributed_point_function.cc:GenerateNext", "dpf/distributed_point_function.cc:ComputeValueCorrection"]}
{"id": "C49", "title": "A single key has the same distribution for every alpha and beta (ideal cipher, no IntModN)", "statement": "For value types without IntModN, exchanging (alpha, beta) with (alpha', beta') is a bijection on the block ciphers in which the two parties' blocks do not coincide; it keeps the keys, and everything a party computes without asking for the other party's blocks.", "quantifier": "all parameters without IntModN, all accepted pairs, seeds, parties", "why_tests_cant": "a statement about distributions over all block ciphers", "anchors": ["README.md:15", "dpf/distributed_point_function.cc:GenerateKeysIncremental", "dpf/internal/value_type_helpers.h:ComputeValueCorrectionFor"]}
{"id": "C50", "title": "PIR requests do not reveal the queries to one server (ideal cipher)", "statement": "The request CreatePlainRequests produces for one server (leader: plain request; helper: plain request and one-time pad seed) has a shape that depends only on the number of queries. For any other valid queries of the same number there is a block cipher, differing only at blocks the other server encrypts along the paths of the queries, for which the same randomness gives the same requests; a program that has one server's request and the cipher as an oracle behaves the same unless it asks for one of those blocks. The exchange is injective on ciphers without coincidences, and the exchanged cipher has none either. All this also holds for the requests of cuckoo and simple hashing sparse PIR and arbitrary query strings.", "quantifier": "all database sizes up to 2^31 - 1, numbers of queries, queries, seeds, parties, SHA-256 functions, block ciphers without coincidences, oracle programs", "why_tests_cant": "privacy is a statement about all queries and all distinguishers", "anchors": ["pir/dense_dpf_pir_client.cc:CreatePlainRequests", "pir/cuckoo_hashing_sparse_dpf_pir_client.cc:CreatePlainRequests", "pir/simple_hashing_sparse_dpf_pir_client.cc:CreatePlainRequests"]}
{"id": "C51", "title": "A single DCF key does not reveal alpha or beta (ideal cipher)", "statement": "The shape of the keys of DistributedComparisonFunction::GenerateKeys depends on the parameters only. For keys generated for (alpha, beta) and any other accepted (alpha', beta') there is a block cipher, differing only at the blocks the other party encrypts along its path, for which the same seeds give the same keys; programs with one key and oracle access behave the same unless they ask for one of those blocks. For value types without IntModN the exchange is a bijection on ciphers without coincidences.", "quantifier": "all DCF parameters up to 128 bits, alpha, beta, seeds, parties, ciphers without coincidences, oracle programs", "why_tests_cant": "privacy is a statement about all inputs and all distinguishers", "anchors": ["dcf/distributed_comparison_function.cc:GenerateKeys", "dcf/distributed_comparison_function.h:GenerateKeys"]}
{"id": "C52", "title": "A single gate key does not reveal the masks (ideal cipher)", "statement": "For keys of MultipleIntervalContainmentGate::Gen for masks (r_in, r_out) and any other valid masks, exchanging the block cipher at the other party's blocks and shifting the random shares by constants gives the same key for one party, and both maps are invertible; programs with that key and oracle access behave the same unless they ask for one of those blocks.", "quantifier": "all gates, masks, seeds, random shares, parties, ciphers without coincidences, oracle programs", "why_tests_cant": "privacy is a statement about all masks and all distinguishers", "anchors": ["dcf/fss_gates/multiple_interval_containment.cc:Gen"]}
{"id": "C53", "title": "Evaluating with a type other than the level's value type is rejected", "statement": "EvaluateUntil<T> and EvaluateNext<T> return INVALID_ARGUMENT and leave the context unchanged, for every context, whenever T is not the value type of the hierarchy level. EvaluateAt<T> likewise returns INVALID_ARGUMENT for every T that is not the value type of the level.", "quantifier": "all DPFs, contexts, keys, types T, levels, prefixes and points", "why_tests_cant": "the space of types and crafted keys is infinite, and the tests use matching types", "anchors": ["dpf/distributed_point_function.h:EvaluateUntil", "dpf/distributed_point_function.h:EvaluateNext", "dpf/distributed_point_function.h:EvaluateAtImpl"]}
{"id": "C54", "title": "PIR servers survive every request", "statement": "For every PirRequest, including wrong kinds, missing fields, malformed or adversarial DPF keys, any number of keys, any fingerprint, and for every role (plain, leader, helper), HandleRequest of a dense, cuckoo or simple hashing server created over a built database returns a response or a status. It never aborts and has no undefined behaviour.", "quantifier": "all requests, keys, roles, databases, ciphers, targets", "why_tests_cant": "requests are untrusted and the space of malformed keys is infinite", "anchors": ["pir/dpf_pir_server.cc:HandleRequest", "pir/dense_dpf_pir_server.cc:HandlePlainRequest", "pir/cuckoo_hashing_sparse_dpf_pir_server.cc:HandlePlainRequest", "pir/simple_hashing_sparse_dpf_pir_server.cc:HandlePlainRequest"]}
{"id": "C55", "title": "PIR clients survive every response", "statement": "For every PirResponse and every client state, HandleResponse of a dense, cuckoo or simple hashing client returns records or a status. It never aborts and has no undefined behaviour.", "quantifier": "all responses, client states, ciphers", "why_tests_cant": "responses are untrusted; tests only use responses of correct servers", "anchors": ["pir/dense_dpf_pir_client.cc:HandleResponse", "pir/cuckoo_hashing_sparse_dpf_pir_client.cc:HandleResponse", "pir/simple_hashing_sparse_dpf_pir_client.cc:HandleResponse"]}
{"id": "C56", "title": "Generated parameters of sparse PIR are usable", "statement": "GenerateParams of both sparse PIR servers rejects configurations of another kind, with a non-positive size or an unspecified hash family with INVALID_ARGUMENT. For every other configuration, the returned parameters carry the hash family and the fresh seed, have at least as many buckets as configured elements, and are usable: Build succeeds on a builder with these parameters and any pairs with non-empty keys, a server can be created from the result, a client can be created from the parameters, and client and server have the same fingerprint.", "quantifier": "For all configurations, random seeds, builder histories and SHA-256 functions.", "why_tests_cant": "Tests use a handful of small sizes and the one supported hash family; they do not reach sizes at which the int64 bucket count no longer fits the int used by the databases.", "anchors": ["pir/cuckoo_hashing_sparse_dpf_pir_server.cc:50-75", "pir/simple_hashing_sparse_dpf_pir_server.cc:48-72", "pir/cuckoo_hashed_dpf_pir_database.cc", "pir/simple_hashed_dpf_pir_database.cc", "pir/hashing/hash_family_config.cc"]}
{"id": "C57", "title": "Packed and unpacked inner products agree", "statement": "PackSelectionBits stores bit i of the selection in bit i mod 128 of block i / 128 and nothing else. InnerProductWithUnpacked rejects vectors of different sizes with INVALID_ARGUMENT and otherwise returns the XOR of the selected values, padded to the longest value. For every dense database, InnerProductWith on the packed bits returns the result of InnerProductWithUnpacked on the records.", "quantifier": "all selections with fewer than 2^31 bits, all records and databases holding them, all vector targets", "why_tests_cant": "this is the oracle that the tests of the inner product trust; a test cannot check its own oracle", "anchors": ["pir/testing/pir_selection_bits.h:PackSelectionBits", "pir/testing/pir_selection_bits.cc:InnerProductWithUnpacked", "pir/dense_dpf_pir_database.cc:InnerProductWith"]}
{"id": "C58", "title": "The test request generator makes the client's requests", "statement": "RequestGenerator::Create rejects exactly the database sizes that are not positive. With the same random seeds, CreateDpfPirPlainRequests returns the two plain requests of DenseDpfPirClient for the same number of elements, or INVALID_ARGUMENT exactly if an index is out of range; the encrypted leader requests agree as well.", "quantifier": "all database sizes below 2^31, index lists, random seeds, serializations and encryptions", "why_tests_cant": "requests are random, so tests compare only their number and decoded results", "anchors": ["pir/testing/request_generator.cc", "pir/dense_dpf_pir_client.cc:CreatePlainRequests"]}
{"id": "C59", "title": "BasicRng is a bijection of the bytes drawn", "statement": "Rand8, Rand64 and Rand128 of BasicRng return each value of their range for exactly one output of RAND_bytes, so uniform bytes give uniform values; a failure of RAND_bytes is reported as INTERNAL.", "quantifier": "all widths and outputs of RAND_bytes", "why_tests_cant": "a test sees a few random values, not the map from bytes to values", "anchors": ["dcf/fss_gates/prng/basic_rng.h:Rand"]}
{"id": "C60", "title": "FarmHashFunction returns bucket numbers", "statement": "For every positive bound, FarmHashFunction returns the 128-bit hash of the input, keyed with the hash of the seed, modulo the bound. The result is in [0, bound).", "quantifier": "all seeds, inputs, positive bounds and hash functions with two 64-bit halves", "why_tests_cant": "128-bit hash values cannot be enumerated", "anchors": ["pir/hashing/farm_hash_family.cc:operator()", "pir/hashing/farm_hash_family.h"]}
{"id": "C61", "title": "Generators of test databases", "statement": "GenerateCountingStrings returns the requested number of distinct strings, the prefix followed by 0, 1, 2, ... in decimal without leading zeros. GenerateRandomStrings and its variants return strings of the requested sizes (at most max_size_diff away from the average). Negative arguments and sizes are rejected with INVALID_ARGUMENT.", "quantifier": "all numbers of elements, prefixes, sizes and random draws", "why_tests_cant": "all sizes and draws", "anchors": ["pir/testing/mock_pir_database.cc"]}
{"id": "C62", "title": "The experiment computes the prefixes of all buckets", "statement": "When the experiment program gets past reading its input file, it has for every length i from 1 to log_domain_size exactly the distinct i-bit prefixes of the buckets in the file, in increasing order. It gets past reading the file iff the flags are in their documented ranges and every line starts with an integer; otherwise it exits with a message.", "quantifier": "all flags and all input files", "why_tests_cant": "all files and domains of up to 2^31 bits", "anchors": ["experiments/synthetic_data_benchmarks.cc:ComputePrefixes", "experiments/synthetic_data_benchmarks.cc:ReadUniqueValuesFromFile", "experiments/synthetic_data_benchmarks.cc:ValidateFlags"]}
{"id": "C63", "title": "The experiment chooses its hierarchy levels in finitely many steps", "statement": "For every allowed max_expansion_factor (at least 2) and every non-empty input, ComputeLevelsToEvaluate returns. Its levels increase, end with log_domain_size, and no level is more than log2(number of buckets) + log2(max_expansion_factor) bits above the previous one.", "quantifier": "all inputs, flags, and implementations of log2 and of double rounding within the stated accuracy", "why_tests_cant": "depends on the rounding of logarithms of all possible bucket counts; non-termination is not observable by a test", "anchors": ["experiments/synthetic_data_benchmarks.cc:ComputeLevelsToEvaluate"]}
{"id": "C64", "title": "The experiment evaluates all buckets hierarchically", "statement": "For all allowed flags without --only_nonzeros and inputs inside the domain, the experiment program runs through without aborting. At every level the outputs of the two keys are shares of 1 at the prefix of alpha and of 0 at all other evaluated elements, and the evaluated elements include the prefixes of all buckets.", "quantifier": "all flags, inputs, levels, alphas, seeds and block ciphers", "why_tests_cant": "all inputs and hierarchies of up to 128 levels", "anchors": ["experiments/synthetic_data_benchmarks.cc:main", "experiments/synthetic_data_benchmarks.cc:RunHierarchicalEvaluation"]}
{"id": "C65", "title": "The experiment evaluates the buckets directly with --only_nonzeros", "statement": "With --only_nonzeros, whatever the flags about hierarchy levels are, the experiment program evaluates a DPF with one level at exactly the buckets of the input; the outputs of the two keys are shares of 1 at alpha and of 0 elsewhere.", "quantifier": "all inputs inside the domain, alphas, seeds and block ciphers", "why_tests_cant": "all inputs and domains of up to 128 bits", "anchors": ["experiments/synthetic_data_benchmarks.cc:main", "experiments/synthetic_data_benchmarks.cc:RunBatchedSinglePointEvaluation"]}
{"id": "C66", "title": "Sums of the evaluations of many keys are shares of the aggregate", "statement": "If many clients generate key pairs for the same parameters and each of two servers adds up what EvaluateAt returns for its keys, then for every evaluated element the two sums are shares, in the value type's group, of the sum of the betas of exactly those clients whose alpha has that element as its prefix.", "quantifier": "all numbers of clients, alphas, betas, seeds, parameters, levels, evaluated elements, value types and block ciphers", "why_tests_cant": "the number of clients and the combinations of their inputs are unbounded", "anchors": ["dpf/distributed_point_function.h:EvaluateAt", "dpf/distributed_point_function.cc:GenerateKeysIncremental"]}
{"id": "C67", "title": "Objects created from the same parameters are interchangeable", "statement": "Two DistributedPointFunction objects created from the same parameters, whatever value types were registered with either, return the same result for every evaluation call and evaluation context, and generate the same keys from the same random bytes if both accept; so keys generated by one party's object can be evaluated with the objects of others, which need not register any type.", "quantifier": "all parameters, registered types, keys, contexts, levels, points and callbacks", "why_tests_cant": "all pairs of registrations and all inputs", "anchors": ["dpf/distributed_point_function.h:RegisterValueType", "dpf/distributed_point_function.cc:GetValueCorrectionFunction", "dpf/distributed_point_function.h:EvaluateUntil"]}
{"id": "C68", "title": "Clients, servers and hash tables are created exactly from valid arguments", "statement": "Create, CreatePlain, CreateLeader and CreateHelper of the dense, cuckoo-hashed and simple-hashed PIR classes and Create of the three hash tables succeed exactly if their arguments are valid (positive sizes, a database of the configured size, the matching configuration, hash functions, and the function for sending, encrypting or decrypting set) and return INVALID_ARGUMENT otherwise. A created server serves the database given, has the parameters given as its public parameters, and uses the function given; a created table is empty.", "quantifier": "all configurations, parameters, databases (or none), functions (or none), limits, SHA-256 functions and floating-point environments", "why_tests_cant": "all combinations of arguments", "anchors": ["pir/dense_dpf_pir_server.cc:CreateLeader", "pir/dense_dpf_pir_server.cc:CreateHelper", "pir/cuckoo_hashing_sparse_dpf_pir_server.cc:CreatePlain", "pir/simple_hashing_sparse_dpf_pir_server.cc:CreatePlain", "pir/dense_dpf_pir_client.cc:Create", "pir/cuckoo_hashing_sparse_dpf_pir_client.cc:Create", "pir/simple_hashing_sparse_dpf_pir_client.cc:Create", "pir/hashing/cuckoo_hash_table.cc:Create", "pir/hashing/simple_hash_table.cc:Create", "pir/hashing/multiple_choice_hash_table.cc:Create"]}
{"id": "C69", "title": "Servers and clients created with default arguments work together", "statement": "A Leader and a Helper created by CreateLeader and CreateHelper and a client created with the default encryption context and the Leader's public parameters answer queries like the protocol with one explicitly shared context: the encryption context of a client is the one its Helper decrypts with, and the contexts of the three kinds of PIR are different.", "quantifier": "all databases, parameters, queries, seeds, targets and channels that can decrypt what they encrypt with the context", "why_tests_cant": "all databases, queries and channels", "anchors": ["pir/dense_dpf_pir_server.h:kEncryptionContextInfo", "pir/cuckoo_hashing_sparse_dpf_pir_server.h:kEncryptionContextInfo", "pir/simple_hashing_sparse_dpf_pir_server.h:kEncryptionContextInfo", "pir/dense_dpf_pir_client.h:Create", "pir/cuckoo_hashing_sparse_dpf_pir_server.h:GetPublicParams"]}
{"id": "C70", "title": "Every outcome of Build of a sparse database", "statement": "After any calls on a builder, Build of a sparse database returns FAILED_PRECONDITION if the builder was built and not cleared since; otherwise INVALID_ARGUMENT if the parameters are invalid or a key is empty; otherwise INTERNAL if the number of buckets of a cuckoo database does not fit into an int or a bucket of a simple-hashed database does not fit into 2^31 - 1 bytes; and otherwise a database with the number of buckets of the parameters (converted to int) and as many records as distinct keys (cuckoo) or inserted pairs (simple).", "quantifier": "all histories of calls on builders, random choices, SHA-256 functions and addresses of buffers", "why_tests_cant": "histories are unbounded and the limits beyond what tests allocate", "anchors": ["pir/cuckoo_hashed_dpf_pir_database.cc:Build", "pir/simple_hashed_dpf_pir_database.cc:Build"]}
{"id": "C71", "title": "ValueTypesAreEqual decides whether two descriptions describe the same type", "statement": "ValueTypesAreEqual returns true for two descriptions of C++ types exactly if the types are the same, however their moduli are encoded. On all ValueType messages it is symmetric, transitive and never fails for complete ones; a message is equal to itself exactly if every part of it is set, and the only error is INVALID_ARGUMENT.", "quantifier": "all ValueType messages, including nested tuples and unset fields", "why_tests_cant": "types are nested without bound", "anchors": ["dpf/internal/value_type_helpers.cc:ValueTypesAreEqual"]}
{"id": "C72", "title": "Every outcome of HandleRequest", "statement": "For any keys, including ones no client makes, the answer of a plain server is for each key the XOR of the records selected by the bits that EvaluateAt returns for it, as long as the longest record. (From 2^32 elements covered by the key on, record numbers are taken modulo 2^32, see C30.) A plain request is rejected, with INVALID_ARGUMENT, exactly if it has no keys, a key that EvaluateAt rejects, a wrong non-zero fingerprint (sparse servers), all records are empty, or the key covers 2^31 blocks or more. The only undefined behaviour is that of the scalar code on an acceptable request when the key covers more than 2^24 blocks. A Helper passes on the status of its decrypter and of the plain server, rejects a plaintext that is not a HelperRequest or has a seed of another size than 16 bytes with INVALID_ARGUMENT, and otherwise answers with the masked response. Requests addressed to another role are rejected with INVALID_ARGUMENT.", "quantifier": "all requests, keys, roles, databases of byte records with fewer than 2^31 elements, ciphers, targets and hash functions", "why_tests_cant": "keys and requests are untrusted and there are infinitely many; tests only send keys made by the client", "anchors": ["pir/dpf_pir_server.cc:HandleRequest", "pir/dense_dpf_pir_server.cc:HandlePlainRequest", "pir/cuckoo_hashing_sparse_dpf_pir_server.cc:HandlePlainRequest", "pir/simple_hashing_sparse_dpf_pir_server.cc:HandlePlainRequest"]}
{"id": "C73", "title": "The Leader learns nothing from its request and the Helper's reply (ideal cipher)", "statement": "Everything the Leader receives in one exchange - its plain request, the encrypted request for the Helper and the Helper's reply - is produced from the same randomness for any other valid queries of the same number, under a block cipher that differs only at the blocks of the Helper's keys along the paths of the queries and at the counter blocks of the one-time pad. A program that is given all of this and the cipher as an oracle behaves the same unless it asks for one of those blocks. The exchange of the ciphers is injective where no blocks coincide, so that what the Leader receives has as many causes for the one queries as for the other. In particular the status and the sizes of the Helper's reply do not depend on the queries. For any Helper, whatever its derived class computes, the masked reply is consistent with every other plain reply of the same sizes.", "quantifier": "all databases of byte records with fewer than 2^31 elements, fewer than 2^64 queries, all seeds, pads whose seed is not one of the three fixed AES keys, channels, targets, hash functions; dense, cuckoo hashed and simple hashed PIR", "why_tests_cant": "indistinguishability quantifies over all queries, ciphers and adversaries", "anchors": ["pir/dpf_pir_server.cc:HandleHelperRequest", "pir/dense_dpf_pir_client.cc:CreatePlainRequests", "pir/cuckoo_hashing_sparse_dpf_pir_client.cc:CreatePlainRequests", "pir/simple_hashing_sparse_dpf_pir_client.cc:CreatePlainRequests", "pir/prng/aes_128_ctr_seeded_prng.cc:GetRandomBytes"]}
{"id": "C74", "title": "Value correction functions are found by type", "statement": "The keys of the table of value correction functions, serialized ValueType messages, are different for different messages. After any sequence of registrations the function returned for a message is that of the registered C++ type whose ToValueType is this very message, and FAILED_PRECONDITION if there is none; neither the order of the registrations nor registering a type twice matters. Registering fails only, with INTERNAL, for a type whose message has 2^31 bytes or more. A message that describes a registered type but writes a modulus below 2^64 as a 128-bit number is not found, although ValueTypesAreEqual says it is equal.", "quantifier": "all sequences of registrations of instantiable C++ types, all messages without unknown fields", "why_tests_cant": "injectivity of a serialization and independence of the order of all registration histories", "anchors": ["dpf/distributed_point_function.cc:SerializeValueTypeDeterministically", "dpf/distributed_point_function.cc:GetValueCorrectionFunction", "dpf/distributed_point_function.h:RegisterValueTypeImpl", "dpf/distributed_point_function.proto:ValueType"]}
{"id": "C75", "title": "The fixed-key hash may be evaluated on overlapping spans", "statement": "Aes128FixedKeyHash::Evaluate(in, out) leaves in out[j] the hash of what was in in[j] before the call, for every j, and changes nothing else, also if the two spans overlap in memory; it returns INVALID_ARGUMENT if the sizes of the spans differ or exceed an int in bytes.", "quantifier": "all memories, positions and sizes of the two spans, all keys and block ciphers", "why_tests_cant": "the tests only call it in place or on separate buffers of few blocks; the failing overlaps need more than one batch", "anchors": ["dpf/aes_128_fixed_key_hash.h:Evaluate", "dpf/aes_128_fixed_key_hash.cc:Evaluate"]}
{"id": "C76", "title": "Bytes are converted to integers in little-endian order on every host", "statement": "The conversion of pseudorandom bytes to an integer of a value type (ValueTypeHelper::DirectlyFromBytes, IntModNBase::ConvertBytesTo) returns the number with these bytes in little-endian order, whatever the byte order of the host, so that shares are uniform and a key hides beta.", "quantifier": "all byte strings of the size of the type, all unsigned integer types and XorWrappers, both branches of the code", "why_tests_cant": "the branch for other hosts is not compiled on the machines that run the tests", "anchors": ["dpf/internal/value_type_helpers.h:DirectlyFromBytes", "dpf/int_mod_n.h:ConvertBytesTo"]}
{"id": "C77", "title": "Key generation from integers and C++ values", "statement": "Besides Value protos, GenerateKeys and GenerateKeysIncremental take 128-bit integers, a span of values of a C++ type, or several values of different C++ types. Without any call of RegisterValueType, if the values have the types declared for the levels, keys for exactly these values at every level are returned, and evaluate also with objects that never registered a type; integers are accepted if and only if there is one per level that fits into the level's integer type (and alpha is in the domain), otherwise the result is INVALID_ARGUMENT; the versions for one level reject objects with several. For each level i the DPF evaluates to beta[i] at the lowest log_domain_size bits of alpha, as documented.", "quantifier": "all created objects and registered types, alphas, C++ values of any supported type, 128-bit integers, seeds and levels", "why_tests_cant": "the tests use few types and register them by hand; the documented position of beta[i] at inner levels is never compared with the actual one", "anchors": ["dpf/distributed_point_function.h:GenerateKeys", "dpf/distributed_point_function.h:GenerateKeysIncremental", "dpf/distributed_point_function.h:ToValue"]}
{"id": "C78", "title": "A value correction does not reveal beta beyond the promised statistical distance", "statement": "The value correction in a key is computed from the expansions of both seeds and from beta. Over all contents of the bytes that the other party's seed expands to, every test on the correction accepts (almost) equally often, whatever beta, the position of alpha in the block, the control bit and the own expansion are: exactly equally often for types that are converted directly, and for types that are sampled up to the statistical distance that the security parameter promises, for any tuple of types that Create accepts.", "quantifier": "all supported value types incl. nested tuples of different elements, both parties, own expansions, betas, positions, control bits, and all tests on the correction", "why_tests_cant": "a test cannot measure the distribution over 2^128 and more seed contents, and uniformity is only tested for a few sampled types", "anchors": ["dpf/internal/value_type_helpers.h:ComputeValueCorrectionFor", "dpf/internal/value_type_helpers.h:SampleAndUpdateBytes", "dpf/internal/value_type_helpers.h:FromBytes", "dpf/distributed_point_function.cc:DistributedPointFunction::ComputeValueCorrection"]}
{"id": "C79", "title": "A single key has nearly the same distribution for every alpha and beta, IntModN included", "statement": "Fix one party's key except its value corrections, the seeds of the other party along the path to alpha, and the block cipher except at the blocks that the other party encrypts on that path. Then the possible ciphers correspond one to one to the contents of the bytes that the other party's seeds expand to, for every accepted alpha and beta alike; and over all these contents, any program that gets the key and queries the cipher (not at the other party's blocks) outputs 1 equally often for any two accepted alphas and betas, up to a fraction of the contents that is the sum over the levels of the bias of the level's value type - 0 for integers and XorWrappers, and the statistical distance of modular sampling for types with IntModN.", "quantifier": "all created objects with any number of levels and any value types, both parties, keys of the generated shape, seeds, block ciphers, accepted alphas and betas, and all adaptive programs", "why_tests_cant": "the distribution is over 2^128 and more contents per level, and the property is about all distinguishing programs", "anchors": ["dpf/distributed_point_function.cc:DistributedPointFunction::GenerateKeysIncremental", "dpf/distributed_point_function.cc:DistributedPointFunction::GenerateNext", "dpf/distributed_point_function.cc:DistributedPointFunction::ComputeValueCorrection", "dpf/internal/value_type_helpers.h:ComputeValueCorrectionFor"]}
{"id": "C80", "title": "The security level computed with doubles bounds the real statistical distance", "statement": "Whatever the rounding of the double arithmetic (relative error at most 2^-52 per operation), GetNumBytesRequired accepts n samples modulo N with a security parameter only if N*n*(n+1)/2^131 <= 2^-(security_parameter - 2^-40), and accepts whenever N*n*(n+1)/2^131 <= 2^-(security_parameter + 2^-40). So the statistical distance of accepted samples from uniform is at most 2^-security_parameter, up to 2^-40 bits; and if Create accepts a level whose IntModN elements come last, the advantage of telling two betas apart by the level's value correction is at most 2^-security_parameter, up to a factor of two and 2^-40 bits, where an unset parameter means 40 + log_domain_size.", "quantifier": "all double arithmetics with the stated accuracy, moduli, numbers of samples (an int), security parameters, and parameters accepted by Create", "why_tests_cant": "the level is a rounded real number, and the distance is over 2^128 inputs and more; a test can only compare it with another rounded computation", "anchors": ["dpf/int_mod_n.cc:IntModNBase::GetSecurityLevel", "dpf/int_mod_n.cc:IntModNBase::CheckParameters", "dpf/int_mod_n.cc:IntModNBase::GetNumBytesRequired", "dpf/internal/value_type_helpers.cc:BitsNeeded", "dpf/internal/proto_validator.cc:ProtoValidator::Create"]}
{"id": "C81", "title": "ceil(log2(n)) with doubles is exact for the sizes in use", "statement": "For n from 1 to 2^46, static_cast<int>(ceil(log2(n))) computed with doubles is the least k with n <= 2^k: a PIR domain of that many bits has room for all elements and is less than twice as large, and the tree levels that Create assigns are those of exact arithmetic. For larger n it is the exact logarithm rounded up or down to an integer.", "quantifier": "all double arithmetics with relative error at most 2^-52 per operation, whose logarithm does not step over an integer; all n below 2^127", "why_tests_cant": "too many n, and a test runs on one math library only", "anchors": ["dpf/internal/proto_validator.cc:ProtoValidator::Create", "pir/dense_dpf_pir_server.cc:DenseDpfPirServer::CreatePlain", "pir/dense_dpf_pir_client.cc:DenseDpfPirClient::Create", "pir/cuckoo_hashing_sparse_dpf_pir_server.cc:CuckooHashingSparseDpfPirServer::CreatePlain", "pir/simple_hashing_sparse_dpf_pir_server.cc:SimpleHashingSparseDpfPirServer::CreatePlain"]}
{"id": "C82", "title": "A whole DCF key hides alpha and beta, IntModN included", "statement": "Let a comparison function be created for up to 128 bits and any value type. Fix everything of one party's key but the value corrections, and the other party's seeds along the path. The contents of the blocks that the other party encrypts determine the key; every content occurs exactly once, and whichever (alpha, beta) was used, no program given the key (and the cipher elsewhere) distinguishes two accepted (alpha, beta) with an advantage above the number of levels times the bias of the type. If the IntModN elements come last in the type, that is at most about 2^-39 - although the security_parameter of the DCF's parameters is ignored.", "quantifier": "all parameters, alphas, betas, keys of the right shape, seeds, programs with unbounded queries outside the other party's blocks, double arithmetics of the stated accuracy", "why_tests_cant": "a statement about distributions over all ciphers and all distinguishers", "anchors": ["dcf/distributed_comparison_function.cc:DistributedComparisonFunction::Create", "dcf/distributed_comparison_function.cc:DistributedComparisonFunction::GenerateKeys"]}
{"id": "C83", "title": "Failures of calls to OpenSSL are reported and can be repeated", "statement": "If one of the calls to OpenSSL made by Create, GenerateKeys, EvaluateUntil, EvaluateNext, EvaluateAt, EvaluateAndApply, or by the DCF and the interval gate built on them, fails, then the call returns an INTERNAL error and makes no further calls; if none fails, it returns what it does on a machine without failures. A failed call leaves an evaluation context with which the same call gives the same result as before. (False where RAND_bytes fails - key generation then uses uninitialised seeds, GenerateSeed returns 16 zero bytes, BasicRng takes -1 for success - and where EvaluateUntil fails while hashing: its context already names the level as evaluated, so its values can no longer be obtained from it.)", "quantifier": "all positions and return values of failing calls, all arguments, contexts reached by any history of calls, AES functions and random numbers", "why_tests_cant": "calls to OpenSSL do not fail in tests; every call can be the one that fails", "anchors": ["dpf/aes_128_fixed_key_hash.cc:Aes128FixedKeyHash::Evaluate", "dpf/distributed_point_function.cc:DistributedPointFunction::GenerateKeysIncremental", "dpf/distributed_point_function.h:DistributedPointFunction::EvaluateUntil", "dpf/distributed_point_function.h:DistributedPointFunction::EvaluateAtImpl", "dcf/fss_gates/prng/basic_rng.h:BasicRng::Rand128", "pir/prng/aes_128_ctr_seeded_prng.cc:Aes128CtrSeededPrng::GenerateSeed"]}
{"id": "C84", "title": "The number of calls to OpenSSL depends on no secret", "statement": "A successful call of Create, GenerateKeys, EvaluateUntil, EvaluateNext, EvaluateAt, EvaluateAndApply (if the callback never stops it), or of the DCF and the interval gate, makes a number of calls to OpenSSL that is fixed by public data: the parameters, the hierarchy levels involved, the number of points or keys, and the number of tree nodes that contain the prefixes. GenerateKeys makes two for the seeds, two per tree level and one per 64 blocks of the values of both seeds at every hierarchy level, for all alpha, beta, seeds and control bits; evaluations make two per tree level and 64 nodes and one per 64 blocks of values. In particular two keys that were evaluated at the same prefixes so far take the same number of calls for the same request.", "quantifier": "all parameters, alpha, beta, seeds, keys, points, prefixes, histories of calls with a context, AES functions and results of OpenSSL", "why_tests_cant": "the number must not depend on secret data; a dependency through a control bit or seed would appear only for some of 2^128 seeds", "anchors": ["dpf/distributed_point_function.cc:DistributedPointFunction::GenerateKeysIncremental", "dpf/distributed_point_function.cc:DistributedPointFunction::ExpandSeeds", "dpf/distributed_point_function.cc:DistributedPointFunction::HashExpandedSeeds", "dpf/internal/evaluate_prg_hwy.cc:EvaluateSeedsNoHwy", "dpf/aes_128_fixed_key_hash.cc:Aes128FixedKeyHash::Evaluate"]}
{"id": "C85", "title": "Failures of calls to OpenSSL in private information retrieval", "statement": "If one of the calls to OpenSSL made while a PIR client or server is created, while a request is created, while a server in any role answers, or while a client decodes a response, fails, then the call returns an INTERNAL error (for a Leader: unless the sender failed too, whose error is then returned) and makes no further calls; if none fails, it returns what it does on a machine without failures. Creating a request for m dense queries to n records takes m * (3 + 2 * ceil(log2(n))) calls and one more for the one-time pad; answering takes a number of calls that depends only on the number of keys and the size of the database. (False where RAND_bytes fails: a failing seed of a key leaves the key uninitialised, and a failing seed of the one-time pad goes unnoticed, the pad is that of a zero seed and the Leader can read the records that were asked for; GenerateParams of the sparse servers then uses a zero hash seed.)", "quantifier": "all positions and return values of failing calls, all clients and servers of the three kinds, databases, queries, requests, responses, AES and hash functions, random numbers and senders", "why_tests_cant": "calls to OpenSSL do not fail in tests; every call can be the one that fails, and an unnoticed failure leaves the results correct", "anchors": ["pir/dense_dpf_pir_client.cc:DenseDpfPirClient::CreatePlainRequests", "pir/dense_dpf_pir_client.cc:DenseDpfPirClient::HandleResponse", "pir/dpf_pir_server.cc:DpfPirServer::HandleHelperRequest", "pir/dpf_pir_server.cc:DpfPirServer::HandleLeaderRequest", "pir/dense_dpf_pir_server.cc:DenseDpfPirServer::HandlePlainRequest", "pir/prng/aes_128_ctr_seeded_prng.cc:Aes128CtrSeededPrng::GenerateSeed"]}
{"id": "C86", "title": "Keys and requests survive serialization", "statement": "A DpfKey serialized with the wire format of protocol buffers and parsed again is the same key, unless its messages are nested deeper than the recursion limit of the parser or the key is larger than 2^31 - 17 bytes; in the first case parsing fails. For keys generated by GenerateKeysIncremental the nesting is at most 2 plus that of the value type (2 for integers, IntModN and XorWrapper, two more for each enclosing tuple), so with the default limit of 100 all keys of fewer than 49 nested tuples can be parsed, and keys of 50 nested tuples that GenerateKeys does produce cannot. Different keys have different serializations. Whatever bytes a Helper decrypts, the parsed request has all fields in their ranges. The requests of the dense, cuckoo and simple hashing PIR clients that fit in 2^31 - 17 bytes (m keys for n elements need at most m * (110 + 66 * ceil(log2(n))) + 100) reach the Helper unchanged with any recursion limit of at least 6, so that C32, C39, C40 and C41 hold with serialized requests.", "quantifier": "all keys with fields in range, all recursion limits, all byte strings, all value types, all PIR databases, queries, seeds, pads and invertible encryptions", "why_tests_cant": "the tests serialize a few keys of one shape; the claim is about every key, every nesting of value types and every byte string", "anchors": ["dpf/distributed_point_function.proto:DpfKey", "dpf/distributed_point_function.proto:CorrectionWord", "dpf/distributed_point_function.proto:Value", "pir/private_information_retrieval.proto:DpfPirRequest", "pir/dpf_pir_client.h:DpfPirClient::CreateRequest", "pir/dpf_pir_server.cc:DpfPirServer::HandleHelperRequest"]}
{"id": "C87", "title": "Evaluation contexts survive serialization", "statement": "An EvaluationContext with fields in their ranges, serialized with the wire format of protocol buffers and parsed again, is the same context, unless its messages are nested deeper than the recursion limit of the parser or it is larger than 2^31 - 17 bytes; in the first case parsing fails. Every context that CreateEvaluationContext returns for a key and that any sequence of calls to EvaluateUntil and EvaluateAt, successful or not, leads to has fields in range and is nested no deeper than 1 plus the key and 3 plus the value types. A program that serializes the context after every call and parses it before the next one therefore gets the same results, errors included, as a program that keeps it in memory. Parsed contexts always have fields in range, but not all of them are safe to use: some bytes parse to a context that passes the checks of the DPF and makes EvaluateUntil and EvaluateAt read out of bounds.", "quantifier": "all contexts with fields in range, all byte strings, all recursion limits, all parameters, keys, levels, prefixes and sequences of calls", "why_tests_cant": "the tests keep contexts in memory; the claim is about all contexts that any sequence of calls can lead to and all byte strings", "anchors": ["dpf/distributed_point_function.proto:EvaluationContext", "dpf/distributed_point_function.proto:PartialEvaluation", "dpf/distributed_point_function.proto:DpfParameters", "dpf/distributed_point_function.proto:ValueType", "dpf/distributed_point_function.cc:DistributedPointFunction::CreateEvaluationContext", "dpf/distributed_point_function.cc:DistributedPointFunction::ComputePartialEvaluations", "dpf/distributed_point_function.h:DistributedPointFunction::EvaluateUntil"]}
{"id": "C88", "title": "Messages between the parties survive serialization", "statement": "PIR requests, responses, client states and public parameters, DCF keys and keys of multiple interval containment gates with fields in their ranges, serialized with the wire format of protocol buffers and parsed again, are the same messages, unless they are nested deeper than the recursion limit of the parser, in which case parsing fails, or larger than 2^31 - 17 bytes. Whatever bytes are parsed, the fields are in range. An exchange of dense or sparse PIR in which the Leader and the Helper are behind connections that carry bytes, the client stores its state as bytes between request and response and the sparse client gets the public parameters as bytes has, with a recursion limit of at least 8, the same result, errors included, as the exchange in memory; for dense PIR this is the requested records. Every generated DCF key and every generated key of a gate survives serialization, the former with a recursion limit of 3 plus the nesting of the value type and the latter with 6.", "quantifier": "all messages with fields in range, all byte strings, all recursion limits, all databases, queries, seeds and ciphers, all DCFs and gates and their keys", "why_tests_cant": "the tests pass messages in memory; the claim is about all messages and all byte strings", "anchors": ["pir/private_information_retrieval.proto:PirRequest", "pir/private_information_retrieval.proto:PirResponse", "pir/private_information_retrieval.proto:PirRequestClientState", "pir/private_information_retrieval.proto:PirServerPublicParams", "pir/hashing/hash_family_config.proto:HashFamilyConfig", "dcf/distributed_comparison_function.proto:DcfKey", "dcf/fss_gates/multiple_interval_containment.proto:MicKey", "pir/dpf_pir_server.cc:DpfPirServer::HandleLeaderRequest", "pir/dpf_pir_server.cc:DpfPirServer::HandleHelperRequest", "pir/dpf_pir_client.h:DpfPirClient::CreateRequest"]}
{"id": "C89", "title": "Keys and contexts of other DPFs are rejected", "statement": "A DpfKey is accepted exactly if it has a seed, a value correction of the last level, one correction word for each tree level, and a value correction in the correction word of each other hierarchy level; CreateEvaluationContext, EvaluateAt and EvaluateAndApply return INVALID_ARGUMENT for every other key. EvaluateUntil, EvaluateNext and EvaluateAt go on with a context exactly if it has such a key, its parameters are those of the DPF (same domains, value types that differ at most in the encoding of moduli, security parameters that differ by at most 1/10000 or are not set where the DPF has the default), it has levels left and no partial evaluations beyond its previous level; they return INVALID_ARGUMENT for every other context and do not change it.", "quantifier": "all DPFs, all key protos, all context protos incl. NaN and infinite security parameters, all calls", "why_tests_cant": "tests try a few malformed keys and contexts; the claim is that there are no others", "anchors": ["dpf/internal/proto_validator.cc:ProtoValidator::ValidateDpfKey", "dpf/internal/proto_validator.cc:ProtoValidator::ValidateEvaluationContext", "dpf/internal/proto_validator.cc:ParametersAreEqual", "dpf/distributed_point_function.h:DistributedPointFunction::EvaluateUntil", "dpf/distributed_point_function.h:DistributedPointFunction::EvaluateAtImpl", "dpf/distributed_point_function.cc:DistributedPointFunction::CreateEvaluationContext"]}
