{"claims": [
  {"property": "C01", "status": "proved", "theorems": ["C01_evaluate_at_shares", "C01_levels_typed", "C01_outputs_in_range"], "note": ""},
  {"property": "C02", "status": "proved", "theorems": ["C02_histories", "C02_small_gaps"], "note": "The memory condition expansion_fits (below 2^31 tree nodes per prefix, 2^60 in total) is part of valid_history; C02_small_gaps shows that it holds for levels at most 26 bits apart."},
  {"property": "C03", "status": "proved", "theorems": ["C03_apply_shares", "C03_apply_all_points"], "note": "num_keys * (last log_domain_size + 1) is below 2^31, as the code stores the product in an int. Points beyond the domain stand for their remainder (C03_apply_all_points)."},
  {"property": "C04", "status": "proved", "theorems": ["C04_until_is_at", "C04_apply_is_at", "C04_apply_all_points", "C04_without_room"], "note": "Any key that passes validation; for value types with room (C11_roomy says which). For the other types none of the evaluation functions returns a value, whatever the key and arguments (C04_without_room). Same memory conditions as C02 and C03. Points of EvaluateAndApply beyond the domain: C04_apply_all_points."},
  {"property": "C05", "status": "proved", "theorems": ["C05_resume", "C05_exact"], "note": "C05_exact also covers the points that extend no stored element: those in the block of one are evaluated correctly, the others are rejected."},
  {"property": "C06", "status": "proved", "theorems": ["C06_output_order"], "note": "Expansions that fit into memory (see C02)."},
  {"property": "C07", "status": "partial", "theorems": ["C07_keygen_rejects_partial", "C07_keygen_accepts_partial", "C07_exact", "C07_documented", "C07_keygen_refuted"], "note": "False for registered types for which Create reserves too few bytes: key generation aborts on valid arguments (C07_keygen_refuted). The partial theorems are for types with enough bytes (see C11_roomy, C17). C07_exact describes every outcome for every created DPF, with or without registered types and enough bytes."},
  {"property": "C08", "status": "proved", "theorems": ["C08_generated_keys"], "note": ""},
  {"property": "C09", "status": "partial", "theorems": ["C09_create_rejects", "C09_no_crash_partial", "C09_create_accepts_partial", "C09_create_refuted"], "note": "Undocumented parameters are always rejected with INVALID_ARGUMENT. The converse is false: an empty tuple type causes undefined behaviour, a tuple of two different IntModN types is rejected with UNIMPLEMENTED, and the bits of a tuple of 2^24 128-bit integers overflow an int. Create is proved not to crash for types without empty tuples and with fewer than 2^23 leaves, and to accept all of these whose IntModN elements are uniform and can be sampled with the security parameter."},
  {"property": "C10", "status": "proved", "theorems": ["C10_tree_levels", "C10_least", "C10_keys"], "note": "C10_least: the depths are the least at every level. C10_keys: the correction words of generated keys."},
  {"property": "C11", "status": "partial", "theorems": ["C11_untrusted_keys_partial", "C11_untrusted_keys_refuted", "C11_roomy", "C11_without_room"], "note": "All keys, levels and points; the template argument matches the level's type. Proved for exactly the types for which Create reserves as many bytes as the conversion consumes. For the others EvaluateAt never returns a value: it fails or aborts (C11_without_room, refutation)."},
  {"property": "C12", "status": "partial", "theorems": ["C12_untrusted_contexts_partial", "C12_exact", "C12_untrusted_contexts_refuted"], "note": "All contexts whose partial_evaluations_level, where it is read, is a level (exact: otherwise a call is rejected or reads out of bounds, C12_exact), and all types for which Create reserves enough bytes (C11_roomy, C11_without_room); expansions that fit into memory. A negative partial_evaluations_level passes validation and causes an out-of-bounds read (refutation)."},
  {"property": "C13", "status": "partial", "theorems": ["C13_until_rejects", "C13_not_extension", "C13_not_extension_partial", "C13_not_extension_refuted", "C13_exact"], "note": "All rejections except that for packed value types prefixes are only compared up to the block that holds them (refutation). C13_exact: a call is accepted exactly when all prefixes are in stored blocks, and then returns the values of EvaluateAt."},
  {"property": "C14", "status": "proved", "theorems": ["C14_value_groups"], "note": ""},
  {"property": "C15", "status": "proved", "theorems": ["C15_value_round_trip"], "note": ""},
  {"property": "C16", "status": "partial", "theorems": ["C16_from_value_rejects_partial", "C16_from_value_in_range", "C16_from_value_rejects_refuted", "C16_from_value_exact"], "note": "False in full: Uint128To compares only the low 64 bits, so 2^64+5 is accepted as a uint64. Proved when the type has no integer narrower than 128 bits or no number in the proto reaches 2^64. C16_from_value_exact says which values are accepted and as what, for every type and proto."},
  {"property": "C17", "status": "partial", "theorems": ["C17_bits_needed_enough_partial", "C17_bits_needed_enough_refuted", "C17_consumption"], "note": "False in full for some nested tuples (witness in the refutation). Proved for directly convertible types, IntModN, and tuples of directly convertible elements followed by leaves. C17_consumption covers every type: the conversion succeeds exactly when there are at least as many bytes as the type consumes (given by a separate formula) and crashes otherwise."},
  {"property": "C18", "status": "partial", "theorems": ["C18_sampling_partial", "C18_sampling_refuted"], "note": "Range and acceptance for all inputs. The joint distance of n samples is at most m*n*(n+1)/2^131 for any n: proved for SampleFromBytes with base integers below 128 bits and for FromBytes of tuples of n equal IntModN types of any width. False for SampleFromBytes with 128-bit base integers and n >= 2 (refutation)."},
  {"property": "C19", "status": "proved", "theorems": ["C19_shared_corrections", "C19_single_calls", "C19_own_corrections"], "note": ""},
  {"property": "C20", "status": "proved", "theorems": ["C20_simd_is_scalar", "C20_no_levels"], "note": "HwyModel.v: vectors of any size as lists of 64-bit lanes, loads, stores and masks; agreement with the scalar walk for all inputs, in place or not, aligned or not, whatever the scratch buffer contains."},
  {"property": "C21", "status": "proved", "theorems": ["C21_expand_order", "C21_expand_is_evaluate"], "note": ""},
  {"property": "C22", "status": "proved", "theorems": ["C22_hash_pointwise", "C22_sigma_linear_bijection"], "note": ""},
  {"property": "C23", "status": "proved", "theorems": ["C23_rejected_unchanged", "C23_generated_key_unchanged"], "note": ""},
  {"property": "C24", "status": "partial", "theorems": ["C24_single_partial", "C24_batch_partial", "C24_register", "C24_xor_refuted", "C24_single_exact", "C24_batch_exact"], "note": "Proved for every value type without XorWrapper, all domain sizes 1..128, all batches whose key count times levels fits an int. False for XorWrapper types: SetToZero does not zero them (C24_xor_refuted). C24_single_exact and C24_batch_exact cover every value type and every point: XorWrapper components add up to beta or zero according to the parity of the zeros of x on the path of alpha."},
  {"property": "C25", "status": "partial", "theorems": ["C25_create_rejects_partial", "C25_create_accepts", "C25_create_refuted", "C25_keygen_rejects_partial", "C25_keygen_accepts", "C25_keygen_refuted", "C25_batch_rejects_sizes", "C25_create_exact", "C25_create_129", "C25_keygen_exact"], "note": "Rejections and acceptances proved, except where the code does not reject: log_domain_size 129 and the security parameter (C25_create_refuted), beta when alpha is 0 (C25_keygen_refuted), points out of the domain (C46_dcf_refuted). C25_create_exact, C25_create_129 and C25_keygen_exact say exactly what is accepted: Create what the DPF accepts as a hierarchy, GenerateKeys with alpha = 0 any beta built like a value of the type."},
  {"property": "C26", "status": "proved", "theorems": ["C26_batch_is_single", "C26_batch_positions", "C26_output_ignored", "C26_all_types"], "note": "For all keys, valid or not, keys times levels below 2^31. Types for which Create reserves enough bytes (C11_roomy, C17): the two are the same outcome (C26_batch_is_single). All types: one returns a value exactly when the other does, and then the same (C26_all_types)."},
  {"property": "C27", "status": "proved", "theorems": ["C27_batch", "C27_eval", "C27_gen"], "note": "All groups, intervals in the value_uint128 encoding (the other encoding is the subject of C28), masks, inputs and batches with keys * intervals * log_group_size below 2^31."},
  {"property": "C28", "status": "partial", "theorems": ["C28_create_partial", "C28_refuted", "C28_create_exact", "C28_gate_exact"], "note": "Exact characterisation for bounds encoded as value_uint128; bounds encoded as value_uint64 are silently read as 0 (C28_refuted). C28_create_exact and C28_gate_exact: any parameters behave as those with every bound replaced by what is read."},
  {"property": "C29", "status": "partial", "theorems": ["C29_rejects", "C29_malformed_partial", "C29_refuted", "C29_short_exact"], "note": "Size mismatches and points out of the group are rejected for all keys; keys with enough shares never cause undefined behaviour; a key with too few output mask shares is read out of bounds (C29_refuted). C29_short_exact: a batch with such a key is undefined behaviour unless another defect of a key is reported first."},
  {"property": "C30", "status": "partial", "theorems": ["C30_inner_product_partial", "C30_rejects", "C30_refuted", "C30_scalar_refuted", "C30_exact"], "note": "Proved for every target, address and number of selection vectors as long as selection vectors have at most 2^25 blocks (2^24 for the scalar code). Beyond that the claim is false: the int block base wraps (C30_refuted) or overflows (C30_scalar_refuted). C30_exact gives the outcome for every number of blocks: rejected from 2^31 on, undefined in the scalar code above 2^24, otherwise the XOR of the selected records with record numbers taken modulo 2^32."},
  {"property": "C31", "status": "proved", "theorems": ["C31_builder_histories"], "note": "All histories of New/Insert/Clear/Clone/Build on any number of builders with fewer than 2^62 inserted bytes (int64 counter), any allocator that reserves at least what is asked."},
  {"property": "C32", "status": "partial", "theorems": ["C32_plain_partial", "C32_leader_helper_partial", "C32_refuted", "C32_exact"], "note": "Plain and Leader/Helper flow, all seeds, batches, allocators and targets, for up to 2^30 elements (2^24 when the inner product is not vectorised). Beyond 2^30 the servers reject every request (C32_refuted). An empty batch of queries is rejected by the servers. Serialisation and encryption are any functions that invert each other. C32_exact describes every outcome of the exchange below 2^31 elements."},
  {"property": "C33", "status": "partial", "theorems": ["C33_created", "C33_queries_partial", "C33_refuted", "C33_queries_exact"], "note": "Out-of-range queries are rejected for every int64 number of elements; in-range queries are accepted for fewer than 2^31 elements. With more the size is truncated to int and valid queries are rejected (C33_refuted). C33_queries_exact gives the accepted queries for every number of elements below 2^63."},
  {"property": "C34", "status": "proved", "theorems": ["C34_helper_reply", "C34_helper_only", "C34_leader_combines", "C34_unmasked"], "note": ""},
  {"property": "C35", "status": "proved", "theorems": ["C35_both_answers", "C35_failures", "C35_malformed"], "note": ""},
  {"property": "C36", "status": "proved", "theorems": ["C36_stream", "C36_boundaries", "C36_rejects"], "note": ""},
  {"property": "C37", "status": "proved", "theorems": ["C37_cuckoo_table", "C37_failed_insert"], "note": "For all hash functions into the buckets, insertion sequences, random choices, relocation and stash limits. Finding: a failing Insert drops an arbitrary earlier element, not necessarily its argument."},
  {"property": "C38", "status": "partial", "theorems": ["C38_partial", "C38_all_stored_partial", "C38_build_succeeds", "C38_overfull", "C38_refuted"], "note": "Contents of a built database characterised for all histories; the claim that no key is lost is false (keys left in the stash are dropped and Build succeeds), witness in C38_refuted."},
  {"property": "C39", "status": "partial", "theorems": ["C39_partial", "C39_C40_text_partial", "C39_refuted", "C39_empty_values_refuted", "C39_C40_exact", "C39_C40_outcomes"], "note": "End to end through both servers. Proved for stored keys that are not all zeros and that no other stored key equals up to trailing zeros, with a non-empty stored value and within the dense PIR size limits; refuted for keys that differ in trailing zeros and for databases whose values are all empty. C39_C40_exact gives the answer to every query. C39_C40_outcomes describes every outcome of the exchange, including empty tables, values and overflow."},
  {"property": "C40", "status": "partial", "theorems": ["C40_partial", "C39_C40_text_partial", "C40_refuted", "C39_C40_exact", "C39_C40_outcomes"], "note": "Proved for queries whose first bytes (up to the longest stored key) match no stored key up to trailing zeros; refuted for queries that extend the longest key and for all-zero and empty queries. C39_C40_exact gives the answer to every query. C39_C40_outcomes describes every outcome of the exchange, including empty tables, values and overflow."},
  {"property": "C41", "status": "partial", "theorems": ["C41_partial", "C41_build_succeeds", "C41_refuted", "C41_exact"], "note": "End to end for all histories with at least one record, within the size limits of dense PIR (fewer than 2^31 buckets, DPF of fewer than 2^31 blocks); a database without records answers INVALID_ARGUMENT (C41_refuted). C41_exact describes every outcome of the exchange below 2^31 buckets."},
  {"property": "C42", "status": "partial", "theorems": ["C42_contents", "C42_all_or_nothing", "C42_bound_partial", "C42_bound_refuted"], "note": "Contents and all-or-nothing are proved in full. The documented maximum bucket size is false when two hash functions agree on an element (C42_bound_refuted); C42_bound_partial proves it otherwise, and a bound of max + number of functions - 1 in general."},
  {"property": "C43", "status": "proved", "theorems": ["C43_least_loaded", "C43_contents"], "note": "For all insertion histories, hash functions into the buckets and limits."},
  {"property": "C44", "status": "proved", "theorems": ["C44_value", "C44_family", "C44_config"], "note": "SHA-256 itself is an arbitrary function to 32-byte strings."},
  {"property": "C45", "status": "proved", "theorems": ["C45_rejects", "C45_accepts_cuckoo", "C45_accepts_simple"], "note": "Both sparse servers; fingerprint stated as SHA-256 of the seed modulo 2^31 - 1."},
  {"property": "C46", "status": "partial", "theorems": ["C46_evaluate_at_partial", "C46_evaluate_and_apply_refuted", "C46_dcf_refuted", "C46_apply_reduces", "C46_dcf_reduces"], "note": "EvaluateAt with and without context rejects; EvaluateAndApply and the DCF do not check points (refuted with witnesses) but use them modulo the domain size (C46_apply_reduces, C46_dcf_reduces: for all points, keys and callbacks)."},
  {"property": "C47", "status": "proved", "theorems": ["C47_shape", "C47_shared", "C47_blocks", "C47_total"], "note": "Shape of both keys, fields shared by the two keys, block ranges, success independent of cipher and seeds."},
  {"property": "C48", "status": "proved", "theorems": ["C48_consistent", "C48_hides"], "note": "Ideal-cipher statement: AES is a function argument; the hypothesis 'apart' excludes coincidences between the blocks the two parties encrypt along the path. Computational security of AES itself is outside the model."},
  {"property": "C49", "status": "proved", "theorems": ["C49_bijection"], "note": "Explicit inverse on block ciphers without coincidences; types without IntModN only, as stated in the property."},
  {"property": "C50", "status": "proved", "theorems": ["C50_shape", "C50_dense_hides", "C50_dense_bijection", "C50_cuckoo_hides", "C50_simple_hides", "C50_cuckoo_bijection", "C50_simple_bijection"], "note": "Database sizes below 2^31. The encryption of the helper's request (Tink) is not modelled."},
  {"property": "C51", "status": "proved", "theorems": ["C51_shape", "C51_hides", "C51_bijection"], "note": ""},
  {"property": "C52", "status": "proved", "theorems": ["C52_bijection"], "note": "Rand128 is an argument; the shift of the random values is explicit and invertible."},
  {"property": "C53", "status": "partial", "theorems": ["C53_until", "C53_next", "C53_at_partial", "C53_at_exact", "C53_at_refuted", "C53_at_abort_refuted", "C53_at_ub_refuted"], "note": "Proved in full for EvaluateUntil and EvaluateNext. EvaluateAt does not compare T with the level's type: C53_at_exact says, for every key that passes validation and every T, when it returns values of T, INVALID_ARGUMENT, aborts, or reads out of bounds. The claim that it rejects a wrong T is proved for generated keys when the number of elements per block differs, and refuted otherwise."},
  {"property": "C54", "status": "partial", "theorems": ["C54_dense_partial", "C54_cuckoo_partial", "C54_simple_partial", "C54_scalar_refuted", "C72_dense", "C72_cuckoo", "C72_simple"], "note": "Proved for every request and role up to 2^30 elements (2^24 without vector instructions). Missing: larger databases, where the scalar inner product is undefined behaviour (witness for an honest request). C72_dense, C72_cuckoo and C72_simple say exactly when a request is undefined behaviour: an acceptable request, scalar code, and a key that covers more than 2^24 blocks."},
  {"property": "C55", "status": "partial", "theorems": ["C55_dense", "C55_cuckoo", "C55_simple_partial", "C55_simple_refuted", "C55_simple_exact"], "note": "Proved in full for the dense and cuckoo clients. The simple hashing client reads values(j) without checking values_size: safe if every bucket has as many values as keys, refuted otherwise. C55_simple_exact says exactly when it reads out of bounds, and that it never aborts."},
  {"property": "C56", "status": "partial", "theorems": ["C56_accepts", "C56_cuckoo_partial", "C56_simple_partial", "C56_refuted", "C56_exact"], "note": "Proved for the SHA-256 family and fewer than 2^31 buckets. False otherwise: GenerateParams accepts hash family numbers it does not know and sizes that no builder can build (C56_refuted). C56_exact: for every accepted configuration, either the parameters are usable or no server can be created from any database built with them."},
  {"property": "C57", "status": "proved", "theorems": ["C57_pack", "C57_unpacked", "C57_agrees"], "note": "Selections of fewer than 2^31 bits (int loop variables); the database must hold at least one non-empty record."},
  {"property": "C58", "status": "proved", "theorems": ["C58_create", "C58_requests", "C58_leader"], "note": "Database sizes are ints."},
  {"property": "C59", "status": "proved", "theorems": ["C59_bijection"], "note": "Little-endian host."},
  {"property": "C60", "status": "proved", "theorems": ["C60_range"], "note": "Bound 0 is a division by zero in the code, as in C44."},
  {"property": "C61", "status": "proved", "theorems": ["C61_counting", "C61_random", "C61_equal", "C61_variable"], "note": "Random bytes and draws are universally quantified. The maximum of the variable sizes itself is never drawn, because absl::Uniform excludes its upper bound."},
  {"property": "C62", "status": "partial", "theorems": ["C62_prefixes", "C62_accepted_partial", "C62_rejected_partial", "C62_refuted"], "note": "All inputs; SimpleAtoi and the file reader are given by their results. Accepted and rejected inputs for every log_domain_size below 2^31 - 1; for 2^31 - 1 an int overflows (C62_refuted)."},
  {"property": "C63", "status": "partial", "theorems": ["C63_levels_partial", "C63_returns_partial", "C63_returns_refuted", "C63_exact"], "note": "False for max_expansion_factor 2 (the default): the loop does not end for some inputs because of rounding (witness with 53-bit rounding). Proved for factors of at least 3 and domains of 1 to 128 bits. C63_exact: for every factor it returns such levels or, only for the factor 2, stays at one level forever."},
  {"property": "C64", "status": "partial", "theorems": ["C64_good_levels_partial", "C64_main_partial", "C64_main_refuted", "C64_one_level", "C64_default", "C64_level_refuted"], "note": "False: one bucket with default flags aborts, unordered levels abort, levels without input read out of bounds. Proved for increasing levels from 1 to log_domain_size in steps of at most 26 bits, and for the whole program with factors of at least 4, or 3 if there are two buckets. Without an input (C64_one_level, C64_default): the whole domain of the only level is expanded correctly if alpha is in it, otherwise the program aborts; so a level below log_domain_size makes it abort for most alphas (C64_level_refuted)."},
  {"property": "C65", "status": "partial", "theorems": ["C65_batched_partial", "C65_levels_ignored_refuted", "C65_exact"], "note": "False as documented: the flags about levels are not ignored. Proved without them. C65_exact: the buckets are evaluated if there is at most one level and alpha and all buckets are in its domain; otherwise the program aborts."},
  {"property": "C66", "status": "proved", "theorems": ["C66_aggregation"], "note": ""},
  {"property": "C67", "status": "proved", "theorems": ["C67_interchangeable", "C67_other_objects"], "note": ""},
  {"property": "C68", "status": "proved", "theorems": ["C68_dense_server", "C68_cuckoo_server", "C68_simple_server", "C68_dense_roles", "C68_cuckoo_roles", "C68_simple_roles", "C68_dense_client", "C68_cuckoo_client", "C68_simple_client", "C68_tables"], "note": "exact for each constructor; the number of elements is below 2^63 and its logarithm correctly computed (size_ok). The sparse servers check neither the seed nor that the family is SHA-256."},
  {"property": "C69", "status": "proved", "theorems": ["C69_dense", "C69_cuckoo", "C69_simple", "C69_simple_answers", "C69_contexts"], "note": "the channel must decrypt what it encrypts with the context in use"},
  {"property": "C70", "status": "proved", "theorems": ["C70_cuckoo", "C70_simple"], "note": "exact for both databases; the cuckoo database has less than 2^62 bytes in total (address arithmetic)"},
  {"property": "C71", "status": "proved", "theorems": ["C71_equal", "C71_complete", "C71_reflexive", "C71_symmetric", "C71_transitive", "C71_same", "C71_error"], "note": ""},
  {"property": "C72", "status": "proved", "theorems": ["C72_dense", "C72_cuckoo", "C72_simple", "C72_helper", "C72_other_role"], "note": "The failures and answers of the Leader role are C35 and C34."},
  {"property": "C73", "status": "proved", "theorems": ["C73_helper", "C73_dense", "C73_dense_bijection", "C73_cuckoo", "C73_simple", "C73_cuckoo_bijection", "C73_simple_bijection"], "note": "Databases of fewer than 2^31 elements. That the encryption of the Helper's request (Tink) hides the pad's seed is not modelled: the adversary may not ask for the pad's blocks."},
  {"property": "C74", "status": "proved", "theorems": ["C74_keys", "C74_register", "C74_lookup", "C74_model", "C74_spelling"], "note": "Table of value correction functions keyed by serialized messages."},
  {"property": "C75", "status": "partial", "theorems": ["C75_exact", "C75_overlap_partial", "C75_overlap_refuted", "C75_in_place", "C75_sizes", "C75_large_refuted"], "note": "Refuted for outputs that start inside the input and more than 64 blocks; proved for all other positions, and C75_exact describes all of them. Sizes beyond an int are not rejected."},
  {"property": "C76", "status": "partial", "theorems": ["C76_little_partial", "C76_big_exact", "C76_big_refuted", "C76_leak_refuted"], "note": "Proved for little-endian hosts; refuted for the branch of the code for other hosts, which shifts the number by one byte too many."},
  {"property": "C77", "status": "partial", "theorems": ["C77_pack_partial", "C77_span_partial", "C77_agree", "C77_integers", "C77_one_level", "C77_lowest_exact", "C77_lowest_refuted"], "note": "False as documented: at inner levels beta is at the highest bits of alpha, not the lowest (C77_lowest_refuted, C77_lowest_exact). C77_pack_partial and C77_span_partial need types with enough reserved bytes (C07_keygen_refuted); everything else of the claim is proved in full."},
  {"property": "C78", "status": "partial", "theorems": ["C78_direct", "C78_sampled", "C78_mod_cost", "C78_refuted"], "note": "Exact for direct types; for all sampled types, nested tuples included, every test accepts equally often up to bias_cost/2^129, where bias_cost is the sum of i*m_i from the first IntModN on (C78_mod_cost: m*n*(n+1)/2 for n equal IntModN). False as stated for tuples with a large integer after an IntModN: the correction then reveals a bit of beta with advantage 1/4 (C78_refuted)."},
  {"property": "C79", "status": "proved", "theorems": ["C79_key"], "note": "Whole keys, any number of levels, IntModN included: explicit one-to-one enumeration of the ciphers by contents, and the advantage of every program is at most the sum of the levels' type_bias (bias_cost of C78, 0 for direct types) over 2^129. Ideal cipher where the other party uses it; programs that ask for one of those blocks are excluded, as in C48/C49."},
  {"property": "C80", "status": "proved", "theorems": ["C80_level", "C80_distance", "C80_key"], "note": "For every double arithmetic with relative errors of at most 2^-52 (the record accurate in FloatSpec.v, met by a logarithm with 60 binary places). The slack is 2^-40 bits."},
  {"property": "C81", "status": "proved", "theorems": ["C81_ceil_log2", "C81_tree_levels"], "note": "For every double arithmetic that meets the record accurate in FloatSpec.v."},
  {"property": "C82", "status": "proved", "theorems": ["C82_dcf_key", "C82_dcf_level"], "note": "C79 and C80 for the comparison function. AES as an ideal cipher at the other party's blocks. The DCF does not pass its security_parameter on; the bound 2^-39 comes from the default 40 + i of its levels."},
  {"property": "C83", "status": "partial", "theorems": ["C83_create", "C83_keys_partial", "C83_evaluate_at", "C83_evaluate_and_apply", "C83_evaluate_until", "C83_evaluate_next", "C83_evaluate_at_context", "C83_dcf_keys_partial", "C83_dcf_evaluate", "C83_mic_keys_partial", "C83_mic_evaluate", "C83_repeat_at", "C83_repeat_partial", "C83_keys_refuted", "C83_keys_rand", "C83_seed_refuted", "C83_mic_keys_refuted", "C83_repeat_refuted"], "note": "Failures of AES calls are reported everywhere; EvaluateAt can always be repeated, EvaluateUntil unless the failure happens while hashing. False in general: the return value of RAND_bytes is not checked (uninitialised seeds, zero seed, -1 taken for success), and EvaluateUntil updates previous_hierarchy_level before hashing, so that level is lost after a failure there."},
  {"property": "C84", "status": "proved", "theorems": ["C84_create", "C84_keys", "C84_evaluate_at", "C84_evaluate_at_context", "C84_evaluate_until", "C84_evaluate_next", "C84_evaluate_and_apply", "C84_dcf_keys", "C84_dcf_evaluate", "C84_mic_keys", "C84_mic_evaluate", "C84_keys_independent", "C84_evaluate_independent"], "note": "Exact numbers of calls of successful runs, in terms of public data; EvaluateAndApply for callbacks that never stop it. Scalar EvaluateSeeds (the Highway version calls no OpenSSL)."},
  {"property": "C85", "status": "partial", "theorems": ["C85_create", "C85_plain", "C85_handle_request", "C85_response", "C85_dense_requests", "C85_cuckoo_requests", "C85_simple_requests", "C85_params", "C85_answer_calls", "C85_pad_refuted", "C85_leader_reads", "C85_seed_refuted"], "note": "Exact outcomes for every failing call. False in general: the return value of RAND_bytes is not checked, so keys may come from uninitialised seeds, and the one-time pad and the hash seed from zeros without an error; with a zero pad the Leader obtains the records."},
  {"property": "C86", "status": "proved", "theorems": ["C86_key_exact", "C86_request_exact", "C86_key_injective", "C86_parsed", "C86_parsed_key", "C86_generated", "C86_nested_refuted", "C86_dense", "C86_cuckoo", "C86_simple", "C86_dense_records", "C86_cuckoo_values", "C86_simple_values"], "note": "The wire format and the parser of the protocol buffer library are modelled, the library itself is not part of the repository. C86_nested_refuted: keys of 50 nested tuples are generated but cannot be parsed with the default recursion limit."},
  {"property": "C87", "status": "proved", "theorems": ["C87_context_exact", "C87_parsed", "C87_reached", "C87_stored", "C87_generated", "C87_bytes_refuted"], "note": "The wire format and the parser of the protocol buffer library are modelled, the library itself is not part of the repository. C87_bytes_refuted: bytes that parse to a context with an invalid partial_evaluations_level (C12)."},
  {"property": "C88", "status": "proved", "theorems": ["C88_request_exact", "C88_response_exact", "C88_state_exact", "C88_params_exact", "C88_dcf_key_exact", "C88_mic_key_exact", "C88_parsed", "C88_dense", "C88_cuckoo", "C88_simple", "C88_dense_records", "C88_cuckoo_values", "C88_simple_values", "C88_dcf_generated", "C88_mic_generated", "C88_generated_params"], "note": "Round trips are exact in the recursion limit. For the sparse protocols the sizes of messages are hypotheses (all_fit: every message of the exchange is at most 2^31 - 17 bytes); for dense PIR they are bounded by the numbers of queries and elements and the longest record. Connections that lose or alter bytes are out of scope; C88_parsed covers arbitrary bytes."},
  {"property": "C89", "status": "partial", "theorems": ["C89_keys", "C89_contexts_partial", "C89_fresh", "C89_evaluate_at", "C89_evaluate_at_refuted"], "note": "Exact for keys in all functions and for contexts in EvaluateUntil and EvaluateNext. EvaluateAt on a context validates only the key: its result is the same whatever the parameters and the previous level in the context are (C89_evaluate_at), so that it evaluates contexts of other DPFs (refutation)."}
]}
