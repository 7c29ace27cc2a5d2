{
 "claims": [
  {
   "property": "C01",
   "status": "proved",
   "theorems": [
    "C01_chunking"
   ],
   "note": "All 21 algorithms (10 MD-style, hmac over each, siphash x2, xxhash x2, fnv1a x2, murmur3 x2, spooky2) and any surrounding program of update/result/hash_append; spooky2 while its size_t counter does not wrap."
  },
  {
   "property": "C02",
   "status": "proved",
   "theorems": [
    "C02_md5"
   ],
   "note": "SpecMd5.v is RFC 1321; all environments, any chunking, any length."
  },
  {
   "property": "C03",
   "status": "proved",
   "theorems": [
    "C03_sha1"
   ],
   "note": ""
  },
  {
   "property": "C04",
   "status": "proved",
   "theorems": [
    "C04_sha256",
    "C04_sha224"
   ],
   "note": ""
  },
  {
   "property": "C05",
   "status": "proved",
   "theorems": [
    "C05_sha512",
    "C05_sha384",
    "C05_sha512_224",
    "C05_sha512_256",
    "C05_long_refuted"
   ],
   "note": "Below 2^64 bits; C05_long_refuted: from 2^64 bits on the padding differs from FIPS 180-4."
  },
  {
   "property": "C06",
   "status": "proved",
   "theorems": [
    "C06_ripemd160"
   ],
   "note": ""
  },
  {
   "property": "C07",
   "status": "proved",
   "theorems": [
    "C07_ripemd128",
    "C07_truncation_refuted"
   ],
   "note": ""
  },
  {
   "property": "C08",
   "status": "proved",
   "theorems": [
    "C08_siphash64",
    "C08_siphash32"
   ],
   "note": ""
  },
  {
   "property": "C09",
   "status": "proved",
   "theorems": [
    "C09_xxh32",
    "C09_xxh32_default",
    "C09_xxh64",
    "C09_xxh64_default"
   ],
   "note": "xxhash_32 counts bytes in a size_t: messages below 2^width of size_t."
  },
  {
   "property": "C10",
   "status": "proved",
   "theorems": [
    "C10_fnv32",
    "C10_fnv64",
    "C10_result_is_FF"
   ],
   "note": ""
  },
  {
   "property": "C11",
   "status": "proved",
   "theorems": [
    "C11_murmur32",
    "C11_murmur32_default",
    "C11_murmur128",
    "C11_murmur128_default",
    "C11_two_seeds",
    "C11_murmur128_two_seeds"
   ],
   "note": "Messages below 2^width of size_t."
  },
  {
   "property": "C12",
   "status": "proved",
   "theorems": [
    "C12_spooky",
    "C12_spooky_default",
    "C12_spooky_bytes",
    "C12_two_seeds",
    "C12_spooky_two_seeds",
    "C12_spooky_exact"
   ],
   "note": "Messages below 2^width of size_t (beyond, the class trips its own assertion: C18)."
  },
  {
   "property": "C13",
   "status": "proved",
   "theorems": [
    "C13_hmac"
   ],
   "note": "For the ten H with a block size; 512-bit family below 2^64 bits."
  },
  {
   "property": "C14",
   "status": "proved",
   "theorems": [
    "C14_zero_seed"
   ],
   "note": ""
  },
  {
   "property": "C15",
   "status": "proved",
   "theorems": [
    "C15_le_seed",
    "C15_le_seed_murmur128",
    "C15_le_seed_spooky",
    "C15_le_seed_murmur32",
    "C15_siphash64",
    "C15_siphash32"
   ],
   "note": ""
  },
  {
   "property": "C16",
   "status": "proved",
   "theorems": [
    "C16_xxhash32_observable",
    "C16_siphash64",
    "C16_siphash32",
    "C16_xxhash64",
    "C16_murmur128",
    "C16_spooky",
    "C16_xxhash64_observable",
    "C16_murmur32_observable",
    "C16_murmur128_observable",
    "C16_xxhash32_refuted",
    "C16_xxhash32_collisions",
    "C16_fnv32_refuted",
    "C16_fnv64_refuted",
    "C16_murmur32_refuted",
    "C16_results32_refuted"
   ],
   "note": "Documented requirement; the _refuted theorems are findings."
  },
  {
   "property": "C17",
   "status": "proved",
   "theorems": [
    "C17_md_refuted",
    "C17_xx64",
    "C17_xx32",
    "C17_fnv",
    "C17_every_algorithm_refuted",
    "C17_siphash64_zero_key",
    "C17_siphash32_zero_key",
    "C17_hmac_padding",
    "C17_hmac_long_key",
    "C17_murmur32_tail",
    "C17_murmur128_tail",
    "C17_murmur32_padding",
    "C17_murmur128_padding",
    "C17_spooky_padding",
    "C17_siphash64_keys",
    "C17_siphash32_keys"
   ],
   "note": "Documented requirement; the C17 theorems give the families of colliding seeds (findings)."
  },
  {
   "property": "C18",
   "status": "proved",
   "theorems": [
    "C18_no_failure",
    "C18_spooky_overflow_refuted"
   ],
   "note": "spooky2 under the hypothesis that the count does not pass the range of size_t; C18_spooky_overflow_refuted shows that it then fails its own assertion (finding)."
  },
  {
   "property": "C19",
   "status": "proved",
   "theorems": [
    "C19_append_empty_refuted",
    "C19_empty_update",
    "C19_sha2_null_refuted"
   ],
   "note": "C19_empty_update: every algorithm, null pointers except for sha2; C19_sha2_null_refuted / C19_append_empty_refuted: the finding."
  },
  {
   "property": "C20",
   "status": "proved",
   "theorems": [
    "C20_result_clears",
    "C20_no_stale_bytes"
   ],
   "note": ""
  },
  {
   "property": "C21",
   "status": "proved",
   "theorems": [
    "C21_segments",
    "C21_virtual_message"
   ],
   "note": ""
  },
  {
   "property": "C22",
   "status": "proved",
   "theorems": [
    "C22_fnv32",
    "C22_fnv64",
    "C22_fnv32_period",
    "C22_fnv64_period"
   ],
   "note": ""
  },
  {
   "property": "C23",
   "status": "proved",
   "theorems": [
    "C23_murmur32",
    "C23_murmur128",
    "C23_murmur32_unaligned_refuted",
    "C23_murmur128_unaligned_refuted"
   ],
   "note": "The _unaligned_refuted theorems are findings."
  },
  {
   "property": "C24",
   "status": "proved",
   "theorems": [
    "C24_constexpr",
    "C24_memcpy",
    "C24_memcpy_0",
    "C24_memset",
    "C24_memcpy_effect",
    "C24_memset_effect",
    "C24_memcmp",
    "C24_read"
   ],
   "note": ""
  },
  {
   "property": "C25",
   "status": "proved",
   "theorems": [
    "C25_portable"
   ],
   "note": "NaN payloads: either excluded or propagated the same way by both platforms."
  },
  {
   "property": "C26",
   "status": "proved",
   "theorems": [
    "C26_scalars",
    "C26_enc",
    "C26_provided",
    "C26_float32",
    "C26_float64",
    "C26_float32_plus_zero",
    "C26_float64_plus_zero",
    "append_feeds"
   ],
   "note": "C26_float*: bit-level v + 0 of the model equals IEEE 754 addition (Flocq), in round-to-nearest."
  },
  {
   "property": "C27",
   "status": "proved",
   "theorems": [
    "C27_equal_values",
    "C27_downward_refuted",
    "C27_floats32",
    "C27_floats64",
    "C27_float32_nan",
    "C27_float64_nan",
    "C27_float32_equal",
    "C27_float64_equal"
   ],
   "note": "Unless rounding towards -inf (C27_downward_refuted)."
  },
  {
   "property": "C28",
   "status": "proved",
   "theorems": [
    "C28_parse",
    "C28_sequences",
    "C28_recorded",
    "C28_index_first_refuted"
   ],
   "note": " Index-first discriminated unions are excluded ([decodable]) and refuted (C28_index_first_refuted)."
  },
  {
   "property": "C29",
   "status": "proved",
   "theorems": [
    "C29_nonempty",
    "C29_recorded"
   ],
   "note": ""
  },
  {
   "property": "C30",
   "status": "proved",
   "theorems": [
    "C30_iteration_order",
    "query_exists"
   ],
   "note": ""
  },
  {
   "property": "C31",
   "status": "proved",
   "theorems": [
    "C31_sequences",
    "C31_arrays"
   ],
   "note": ""
  },
  {
   "property": "C32",
   "status": "proved",
   "theorems": [
    "C32_tuple",
    "C32_described",
    "C32_array",
    "C32_range",
    "C32_variant",
    "append_feeds",
    "append_feeds_ordered",
    "append_records"
   ],
   "note": ""
  },
  {
   "property": "C33",
   "status": "proved",
   "theorems": [
    "C33_identity",
    "C33_injective",
    "C33_balanced",
    "C33_16_to_8_refuted",
    "C33_16_to_8_wrapping"
   ],
   "note": "16 -> 8 bits is undefined for large results (C33_16_to_8_refuted, a finding); balanced if the overflow wraps."
  },
  {
   "property": "C34",
   "status": "proved",
   "theorems": [
    "C34_digest",
    "C34_first_bytes"
   ],
   "note": ""
  },
  {
   "property": "C35",
   "status": "proved",
   "theorems": [
    "C35_equality",
    "C35_constructed",
    "C35_elements",
    "C35_default",
    "C35_iteration",
    "C35_assignment"
   ],
   "note": ""
  },
  {
   "property": "C36",
   "status": "proved",
   "theorems": [
    "C36_to_chars",
    "C36_array",
    "C36_to_string",
    "C36_stream",
    "C36_decodes",
    "C36_injective",
    "C36_lowercase"
   ],
   "note": ""
  },
  {
   "property": "C37",
   "status": "proved",
   "theorems": [
    "C37_read32le",
    "C37_read64le",
    "C37_read32be",
    "C37_read64be",
    "C37_write_le",
    "C37_write_be",
    "C37_read_write_le",
    "C37_read_write_be",
    "C37_write_read"
   ],
   "note": ""
  },
  {
   "property": "C38",
   "status": "proved",
   "theorems": [
    "C38_rotl",
    "C38_rotr",
    "C38_inverse",
    "C38_table_counts"
   ],
   "note": ""
  },
  {
   "property": "C39",
   "status": "proved",
   "theorems": [
    "C39_hmac_history"
   ],
   "note": ""
  },
  {
   "property": "C40",
   "status": "proved",
   "theorems": [
    "C40_size",
    "C40_recorded",
    "C40_provided",
    "C40_container",
    "C40_provided_distinct"
   ],
   "note": ""
  },
  {
   "property": "C41",
   "status": "proved",
   "theorems": [
    "C41_range",
    "C41_sized_range",
    "C41_unordered_range",
    "C41_size",
    "append_feeds"
   ],
   "note": ""
  },
  {
   "property": "C42",
   "status": "proved",
   "theorems": [
    "C42_as_documented",
    "C42_compiles",
    "C42_ambiguous_refuted",
    "C42_unsupported",
    "C42_model",
    "C42_model_total",
    "C42_array_is_range"
   ],
   "note": "C42_ambiguous_refuted: documented priority of tag_invoke is an ambiguity in the code (finding)."
  },
  {
   "property": "C43",
   "status": "proved",
   "theorems": [
    "C43_cube_roots",
    "C43_primes",
    "C43_sha256_K",
    "C43_sha512_K",
    "C43_sha2_IV",
    "C43_fnv_basis",
    "C43_md5_sines",
    "C43_md5_constants"
   ],
   "note": "C43_md5_constants over the reals of the standard library; the others by integer inequalities that characterise the roots. SHA-1/RIPEMD constants are integer square/cube roots in the specification itself (SpecSha1.v, SpecRipemd.v); SHA-512/t initial states are computed by the FIPS procedure in SpecSha2.v."
  },
  {
   "property": "C44",
   "status": "proved",
   "theorems": [
    "C44_only_optimisation",
    "C44_contiguous",
    "C44_order_refuted",
    "C44_enum_refuted"
   ],
   "note": "C44_only_optimisation and C44_contiguous prove it; C44_order_refuted and C44_enum_refuted show that the documented conditions on the traits do not suffice."
  },
  {
   "property": "C45",
   "status": "proved",
   "theorems": [
    "C45_feeds",
    "C45_query",
    "C45_equal_values",
    "C45_no_failure",
    "C45_library",
    "C45_iteration_order",
    "C45_sequences",
    "C45_arrays",
    "C45_tuple",
    "C45_described",
    "C45_range",
    "C45_direct",
    "C45_collisions"
   ],
   "note": "hash_algorithm/all_results (UserAlg.v) state the documented requirements; C45_library shows the library's algorithms meet them (spooky2_128 only below 2^w bytes, hence C18)."
  },
  {
   "property": "C46",
   "status": "proved",
   "theorems": [
    "C46_hmac_any",
    "C46_hmac",
    "C46_closed",
    "C46_nested"
   ],
   "note": "C46_hmac_any covers digests longer than the block, where the code cuts the hashed key (RFC 2104 leaves this undefined); C46_closed gives nesting."
  },
  {
   "property": "C47",
   "status": "proved",
   "theorems": [
    "C47_values",
    "C47_equal_keys",
    "C47_collisions_integer",
    "C47_collisions_digest",
    "C47_forms",
    "C47_32_64",
    "C47_user_values",
    "C47_user_equal_keys",
    "C47_user_collisions",
    "C47_user_forms"
   ],
   "note": "key_result is stated through runs, i.e. the same programs as C01-C44."
  },
  {
   "property": "C48",
   "status": "proved",
   "theorems": [
    "C48_algorithm",
    "C48_value",
    "C48_equal_values"
   ],
   "note": "boost::endian::store_little_u64 is taken as a little-endian store."
  },
  {
   "property": "C49",
   "status": "proved",
   "theorems": [
    "C49_file",
    "C49_md5sum",
    "C49_hash2sum",
    "C49_unknown"
   ],
   "note": "Standard output and exit code only (messages on stderr are not modelled); buffer contents arbitrary bytes."
  },
  {
   "property": "C50",
   "status": "proved",
   "theorems": [
    "C50_murmur32",
    "C50_murmur128_refuted",
    "C50_xxh32",
    "C50_xxh32_wrapped",
    "C50_xxh32_refuted",
    "C50_murmur32_ex_half",
    "C50_murmur128_refuted_ex_half",
    "C50_xxh32_ex_half"
   ],
   "note": "The statement with its exceptions is proved; C50_xxh32_refuted, C50_xxh32_wrapped and C50_murmur128_refuted are findings (the reference implementations of murmur take an int length, so the last is an extrapolation of the reference to long messages)."
  },
  {
   "property": "C51",
   "status": "proved",
   "theorems": [
    "C51_calls",
    "C51_same_calls",
    "C51_update",
    "C51_class_X",
    "C51_class_X_distinct",
    "C51_inline_string",
    "C51_inline_string_distinct"
   ],
   "note": "tag_invoke is an arbitrary function from the object to a list of calls; direct calls of update are covered by C51_update."
  },
  {
   "property": "C52",
   "status": "proved",
   "theorems": [
    "C52_unfolding",
    "C52_distinct",
    "C52_tree",
    "C52_json"
   ],
   "note": "A recursive type is represented by its finite unfoldings, which is proved immaterial (C52_unfolding)."
  },
  {
   "property": "C53",
   "status": "proved",
   "theorems": [
    "C53_xxh64_keys_refuted",
    "C53_fnv32",
    "C53_fnv64",
    "C53_murmur32",
    "C53_murmur128",
    "C53_xxh32",
    "C53_xxh64_tail",
    "C53_xxh64_stripe_refuted",
    "C53_fnv32_history",
    "C53_fnv64_history",
    "C53_murmur32_history",
    "C53_murmur128_history",
    "C53_xxh64_tail_history",
    "C53_xxh32_history",
    "C53_units_history",
    "C53_keys_history",
    "C53_integers_history",
    "C53_units",
    "C53_keys",
    "C53_integers"
   ],
   "note": "For complete stripes of xxhash_64 the claim is false and refuted by explicit messages."
  },
  {
   "property": "C54",
   "status": "proved",
   "theorems": [
    "C54_murmur32_anywhere",
    "C54_murmur128_anywhere",
    "C54_murmur32",
    "C54_murmur128",
    "C54_murmur32_keys",
    "C54_murmur128_keys",
    "C54_distinct"
   ],
   "note": "A negative property: it refutes the documented use of seeds for murmur3."
  },
  {
   "property": "C55",
   "status": "proved",
   "theorems": [
    "C55_hash",
    "C55_messages",
    "C55_values"
   ],
   "note": "Assumes nothing about the compression functions; the collision is located in the computation of the two digests, so the statement has content also for algorithms with known collisions. The concrete case is the MD5 collision of Wang et al."
  },
  {
   "property": "C56",
   "status": "proved",
   "theorems": [
    "C56_xxhash64_refuted",
    "C56_xxhash32_always",
    "C56_repeated",
    "C56_seeds",
    "C56_hmac_keys",
    "C56_hmac_seeds",
    "C56_xxhash32_refuted",
    "C56_siphash32_refuted"
   ],
   "note": "Assumes nothing about the compression functions. Counterexamples for siphash_32, xxhash_32 and xxhash_64; the latter two for every integer seed."
  },
  {
   "property": "C57",
   "status": "proved",
   "theorems": [
    "C57_xxh64_anywhere",
    "C57_xxh32_anywhere",
    "C57_distinct",
    "C57_xxh64_few",
    "C57_xxh32_few",
    "C57_xxh64",
    "C57_xxh32",
    "C57_xxh64_keys",
    "C57_xxh32_keys"
   ],
   "note": "A negative property. The choice of the 2^n colliding messages among the 3^n fixed ones depends on the seed."
  },
  {
   "property": "C58",
   "status": "proved",
   "theorems": [
    "C58_objects",
    "C58_schedule",
    "C58_copy"
   ],
   "note": "Interleaving is sequential (one call at a time); data races on one object are outside the model, as they are undefined behaviour in C++."
  },
  {
   "property": "C59",
   "status": "proved",
   "theorems": [
    "C59_extension",
    "C59_predict",
    "C59_collisions",
    "C59_forever"
   ],
   "note": "A negative property."
  },
  {
   "property": "C60",
   "status": "proved",
   "theorems": [
    "C60_fnv32",
    "C60_fnv64",
    "C60_murmur32",
    "C60_murmur128",
    "C60_xxh64",
    "C60_xxh32",
    "C60_xxh32_seeds"
   ],
   "note": "Negative in part. Spooky2, SipHash and the seeds of the cryptographic algorithms are not covered; for xxHash only short messages."
  },
  {
   "property": "C61",
   "status": "proved",
   "theorems": [
    "C61_fnv32",
    "C61_fnv64"
   ],
   "note": "A negative property."
  },
  {
   "property": "C62",
   "status": "proved",
   "theorems": [
    "C62_perfect",
    "C62_integral",
    "C62_low_bits",
    "C62_perfect_history",
    "C62_even_history"
   ],
   "note": "Existence by the pigeonhole principle from the injectivity of C53."
  },
  {
   "property": "C63",
   "status": "proved",
   "theorems": [
    "C63_sets",
    "C63_integers"
   ],
   "note": "A negative property. fnv1a_32 is not covered: its results are widened before they are added."
  },
  {
   "property": "C64",
   "status": "proved",
   "theorems": [
    "C64_md5",
    "C64_hmac"
   ],
   "note": "The pointers to an array are never null, so for the empty string the environment's null pointer case is excluded."
  },
  {
   "property": "C65",
   "status": "proved",
   "theorems": [
    "C65_values",
    "C65_equal_keys",
    "C65_strings"
   ],
   "note": "is_contiguous_range (Boost.ContainerHash) is taken to hold for the vector, string and array types of the model."
  },
  {
   "property": "C66",
   "status": "proved",
   "theorems": [
    "C66_fnv32",
    "C66_fnv64",
    "C66_murmur32",
    "C66_murmur128",
    "C66_siphash64",
    "C66_siphash32",
    "C66_siphash64_keys",
    "C66_siphash32_keys",
    "C66_spooky",
    "C66_spooky_long",
    "C66_spooky_lengths",
    "C66_xxhash64_refuted",
    "C66_xxhash32_refuted"
   ],
   "note": "Holds for fnv1a, murmur3, siphash and spooky2 (spooky2: counter within size_t; long seeds that differ only after their first 16 bytes can merge with each other already in the constructor, so are excluded); refuted for xxhash. For siphash and spooky2 the claim is about the objects, since their result functions are not injective."
  },
  {
   "property": "C67",
   "status": "proved",
   "theorems": [
    "C67_fnv32_odd",
    "C67_fnv32_run",
    "C67_fnv32_run_limit",
    "C67_fnv32_blocks",
    "C67_fnv64_odd",
    "C67_fnv64_run",
    "C67_fnv64_run_limit",
    "C67_fnv64_blocks"
   ],
   "note": "Generalises test_seq_length of test/quality.cpp for fnv1a; no such claim is made (or expected to be provable) for xxhash and siphash."
  },
  {
   "property": "C68",
   "status": "proved",
   "theorems": [
    "C68_bytes",
    "C68_integers",
    "C68_fnv",
    "C68_murmur32",
    "C68_murmur128",
    "C68_spooky"
   ],
   "note": "hmac integer seeds: C15; zero and empty seeds: C14."
  },
  {
   "property": "C69",
   "status": "proved",
   "theorems": [
    "C69_fixed",
    "C69_ranges"
   ],
   "note": "Types with a discriminated union or a tag_invoke making arbitrary calls are excluded (their number of bytes depends on the value)."
  },
  {
   "property": "C70",
   "status": "proved",
   "theorems": [
    "C70_values",
    "C70_integers",
    "C70_collision",
    "C70_user_values",
    "C70_user_collision"
   ],
   "note": "The sets exist by counting; none is exhibited (for fnv1a_64, C63 exhibits them)."
  },
  {
   "property": "C71",
   "status": "proved",
   "theorems": [
    "C71_sets",
    "C71_balanced",
    "C71_onto"
   ],
   "note": "xxhash_64 messages with fewer than 8 bytes after the last stripe are not covered: there the hash is not one-to-one in any one word (C53_xxh64_stripe_refuted)."
  },
  {
   "property": "C72",
   "status": "proved",
   "theorems": [
    "C72_uniform",
    "C72_integral",
    "C72_low_bits",
    "C72_keys",
    "C72_murmur128"
   ],
   "note": "A statement about one key at a time: pairs of keys are not independent (C54: some pairs collide for every seed)."
  },
  {
   "property": "C73",
   "status": "proved",
   "theorems": [
    "C73_same",
    "C73_exact",
    "C73_exchange",
    "C73_replace",
    "C73_xxh64",
    "C73_integers",
    "C73_user_same",
    "C73_user_hashes"
   ],
   "note": "The converse is only claimed for xxhash_64 and murmur3_128, by C53 (the sum is one unit of their message)."
  },
  {
   "property": "C74",
   "status": "proved",
   "theorems": [
    "C74_value",
    "C74_range",
    "C74_bytes",
    "C74_scalar",
    "C74_size",
    "C74_container"
   ],
   "note": "storage_hashable and storage_size restate the documentation of is_contiguously_hashable and sizeof; added after a mutant of the comparison of byte orders survived (seeded/LOG.jsonl)."
  },
  {
   "property": "C75",
   "status": "proved",
   "theorems": [
    "C75_calls",
    "C75_any",
    "C75_total",
    "C75_message"
   ],
   "note": "C75_calls is for types without unordered containers, whose calls depend on the results of the algorithm; C75_any and C75_message cover them."
  },
  {
   "property": "C76",
   "status": "proved",
   "theorems": [
    "C76_single_pass",
    "C76_ranges",
    "C76_container",
    "C76_unordered",
    "C76_operations",
    "C76_sources",
    "C76_distance",
    "C76_distance_refuted",
    "C76_conversion_refuted"
   ],
   "note": "The documented equivalence of hash_append_sized_range fails for other widths of the size_type and for iterators that convert to their value_type: C76_distance_refuted, C76_conversion_refuted."
  },
  {
   "property": "C77",
   "status": "proved",
   "theorems": [
    "C77_programs",
    "C77_prefix",
    "C77_unordered",
    "C77_points",
    "C77_range",
    "C77_sized",
    "C77_list",
    "C77_tuple",
    "C77_tag_invoke",
    "C77_user_calls"
   ],
   "note": "Operations on pointers, bool conversions of results and members of described classes do not throw; the library's own hash algorithms do not throw. The documentation does not mention exceptions."
  },
  {
   "property": "C78",
   "status": "proved",
   "theorems": [
    "C78_calls",
    "C78_any",
    "C78_unordered",
    "C78_exact",
    "C78_programs",
    "C78_prefix",
    "C78_never",
    "C78_copies"
   ],
   "note": "Each exception leaves the call at once (no function of the library catches). The copies are destroyed; their destructors do not throw. get_integral_result does not throw."
  },
  {
   "property": "C79",
   "status": "proved",
   "theorems": [
    "C79_murmur32",
    "C79_murmur128",
    "C79_short",
    "C79_murmur128_values",
    "C79_murmur32_values",
    "C79_murmur128_keys"
   ],
   "note": "For murmur3_128 the byte counter is that of size_t; the theorem holds for both widths and for messages of any length."
  },
  {
   "property": "C80",
   "status": "proved",
   "theorems": [
    "C80_fnv32",
    "C80_fnv64",
    "C80_values",
    "C80_keys",
    "C80_integers",
    "C80_strings",
    "C80_four_refuted",
    "C80_seven_refuted",
    "C80_int32_refuted",
    "C80_int64_refuted"
   ],
   "note": "The _refuted theorems are the counterexamples for one byte more."
  },
  {
   "property": "C81",
   "status": "proved",
   "theorems": [
    "C81_sequence",
    "C81_iterators",
    "C81_tuples",
    "C81_invoke",
    "C81_copies",
    "C81_any",
    "C81_unordered",
    "C81_programs",
    "C81_prefix",
    "C81_never",
    "C81_algorithm_only",
    "C81_users_only"
   ],
   "note": "C81_algorithm_only and C81_users_only identify the models of C78 and C77 as special cases."
  },
  {
   "property": "C82",
   "status": "proved",
   "theorems": [
    "C82_low",
    "C82_after",
    "C82_byte",
    "C82_even",
    "C82_case",
    "C82_table",
    "C82_parity",
    "C82_anagram",
    "C82_sequences"
   ],
   "note": "get_integral_result keeps the agreement of low bits when it widens (C82_table), not when it narrows (fnv1a_64 with a 32-bit std::size_t takes upper bits of a product)."
  }
 ]
}