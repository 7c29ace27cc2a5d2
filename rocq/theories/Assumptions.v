(* What the property theorems rest on (generated from MANIFEST.json).  One Print Assumptions for
   the tuple of all theorems outside the real-number files: "Closed under the global context"
   for the tuple means that each component is.  The theorems that go through the reals (Flocq)
   list the axioms of the standard library's real numbers. *)
From Verif Require Import PropsAlg PropsAnywhere PropsAppend PropsBalance PropsBench PropsCalls PropsConstants PropsCount PropsCrowd PropsCtors PropsDigest PropsDispatch PropsDocs PropsEven PropsEvenHistory PropsExtend PropsExtra PropsFix PropsFlavors PropsFloat PropsFlood PropsFnvRuns PropsFnvSets PropsForever PropsHistory PropsIntegral PropsInvoke PropsIter PropsLocal PropsLocal64 PropsLocalHistory PropsLocalKeys PropsLong PropsLowBits PropsMany PropsMerge PropsObjects PropsPrims PropsRandom PropsReduce PropsRepeat PropsResults PropsReveal PropsSeeds PropsSeeds32 PropsSets PropsSpooky PropsTails PropsThrow PropsThrowAlg PropsThrowBoth PropsTools PropsTraits PropsUnord PropsUpdates PropsUser PropsUserAppend PropsUserHmac PropsUserObjects PropsUserSets PropsWindow PropsZero ProofFloat.
Definition without_reals :=
  (@C01_chunking,
   @C02_md5,
   @C03_sha1,
   @C04_sha256,
   @C04_sha224,
   @C05_sha512,
   @C05_sha384,
   @C05_sha512_224,
   @C05_sha512_256,
   @C05_long_refuted,
   @C06_ripemd160,
   @C07_ripemd128,
   @C07_truncation_refuted,
   @C08_siphash64,
   @C08_siphash32,
   @C09_xxh32,
   @C09_xxh32_default,
   @C09_xxh64,
   @C09_xxh64_default,
   @C10_fnv32,
   @C10_fnv64,
   @C10_result_is_FF,
   @C11_murmur32,
   @C11_murmur32_default,
   @C11_murmur128,
   @C11_murmur128_default,
   @C11_two_seeds,
   @C11_murmur128_two_seeds,
   @C12_spooky,
   @C12_spooky_default,
   @C12_spooky_bytes,
   @C12_two_seeds,
   @C12_spooky_two_seeds,
   @C12_spooky_exact,
   @C13_hmac,
   @C14_zero_seed,
   @C15_le_seed,
   @C15_le_seed_murmur128,
   @C15_le_seed_spooky,
   @C15_le_seed_murmur32,
   @C15_siphash64,
   @C15_siphash32,
   @C16_xxhash32_observable,
   @C16_siphash64,
   @C16_siphash32,
   @C16_xxhash64,
   @C16_murmur128,
   @C16_spooky,
   @C16_xxhash64_observable,
   @C16_murmur32_observable,
   @C16_murmur128_observable,
   @C16_xxhash32_refuted,
   @C16_xxhash32_collisions,
   @C16_fnv32_refuted,
   @C16_fnv64_refuted,
   @C16_murmur32_refuted,
   @C16_results32_refuted,
   @C17_md_refuted,
   @C17_xx64,
   @C17_xx32,
   @C17_fnv,
   @C17_every_algorithm_refuted,
   @C17_siphash64_zero_key,
   @C17_siphash32_zero_key,
   @C17_hmac_padding,
   @C17_hmac_long_key,
   @C17_murmur32_tail,
   @C17_murmur128_tail,
   @C17_murmur32_padding,
   @C17_murmur128_padding,
   @C17_spooky_padding,
   @C17_siphash64_keys,
   @C17_siphash32_keys,
   @C18_no_failure,
   @C18_spooky_overflow_refuted,
   @C19_append_empty_refuted,
   @C19_empty_update,
   @C19_sha2_null_refuted,
   @C20_result_clears,
   @C20_no_stale_bytes,
   @C21_segments,
   @C21_virtual_message,
   @C22_fnv32,
   @C22_fnv64,
   @C22_fnv32_period,
   @C22_fnv64_period,
   @C23_murmur32,
   @C23_murmur128,
   @C23_murmur32_unaligned_refuted,
   @C23_murmur128_unaligned_refuted,
   @C24_constexpr,
   @C24_memcpy,
   @C24_memcpy_0,
   @C24_memset,
   @C24_memcpy_effect,
   @C24_memset_effect,
   @C24_memcmp,
   @C24_read,
   @C25_portable,
   @C26_scalars,
   @C26_enc,
   @C26_provided,
   @append_feeds,
   @C27_equal_values,
   @C27_downward_refuted,
   @C28_parse,
   @C28_sequences,
   @C28_recorded,
   @C28_index_first_refuted,
   @C29_nonempty,
   @C29_recorded,
   @C30_iteration_order,
   @query_exists,
   @C31_sequences,
   @C31_arrays,
   @C32_tuple,
   @C32_described,
   @C32_array,
   @C32_range,
   @C32_variant,
   @append_feeds_ordered,
   @append_records,
   @C33_identity,
   @C33_injective,
   @C33_balanced,
   @C33_16_to_8_refuted,
   @C33_16_to_8_wrapping,
   @C34_digest,
   @C34_first_bytes,
   @C35_equality,
   @C35_constructed,
   @C35_elements,
   @C35_default,
   @C35_iteration,
   @C35_assignment,
   @C36_to_chars,
   @C36_array,
   @C36_to_string,
   @C36_stream,
   @C36_decodes,
   @C36_injective,
   @C36_lowercase,
   @C37_read32le,
   @C37_read64le,
   @C37_read32be,
   @C37_read64be,
   @C37_write_le,
   @C37_write_be,
   @C37_read_write_le,
   @C37_read_write_be,
   @C37_write_read,
   @C38_rotl,
   @C38_rotr,
   @C38_inverse,
   @C38_table_counts,
   @C39_hmac_history,
   @C40_size,
   @C40_recorded,
   @C40_provided,
   @C40_container,
   @C40_provided_distinct,
   @C41_range,
   @C41_sized_range,
   @C41_unordered_range,
   @C41_size,
   @C42_as_documented,
   @C42_compiles,
   @C42_ambiguous_refuted,
   @C42_unsupported,
   @C42_model,
   @C42_model_total,
   @C42_array_is_range,
   @C43_cube_roots,
   @C43_primes,
   @C43_sha256_K,
   @C43_sha512_K,
   @C43_sha2_IV,
   @C43_fnv_basis,
   @C44_only_optimisation,
   @C44_contiguous,
   @C44_order_refuted,
   @C44_enum_refuted,
   @C45_feeds,
   @C45_query,
   @C45_equal_values,
   @C45_no_failure,
   @C45_library,
   @C45_iteration_order,
   @C45_sequences,
   @C45_arrays,
   @C45_tuple,
   @C45_described,
   @C45_range,
   @C45_direct,
   @C45_collisions,
   @C46_hmac_any,
   @C46_hmac,
   @C46_closed,
   @C46_nested,
   @C47_values,
   @C47_equal_keys,
   @C47_collisions_integer,
   @C47_collisions_digest,
   @C47_forms,
   @C47_32_64,
   @C47_user_values,
   @C47_user_equal_keys,
   @C47_user_collisions,
   @C47_user_forms,
   @C48_algorithm,
   @C48_value,
   @C48_equal_values,
   @C49_file,
   @C49_md5sum,
   @C49_hash2sum,
   @C49_unknown,
   @C50_murmur32,
   @C50_murmur128_refuted,
   @C50_xxh32,
   @C50_xxh32_wrapped,
   @C50_xxh32_refuted,
   @C50_murmur32_ex_half,
   @C50_murmur128_refuted_ex_half,
   @C50_xxh32_ex_half,
   @C51_calls,
   @C51_same_calls,
   @C51_update,
   @C51_class_X,
   @C51_class_X_distinct,
   @C51_inline_string,
   @C51_inline_string_distinct,
   @C52_unfolding,
   @C52_distinct,
   @C52_tree,
   @C52_json,
   @C53_xxh64_keys_refuted,
   @C53_fnv32,
   @C53_fnv64,
   @C53_murmur32,
   @C53_murmur128,
   @C53_xxh32,
   @C53_xxh64_tail,
   @C53_xxh64_stripe_refuted,
   @C53_fnv32_history,
   @C53_fnv64_history,
   @C53_murmur32_history,
   @C53_murmur128_history,
   @C53_xxh64_tail_history,
   @C53_xxh32_history,
   @C53_units_history,
   @C53_keys_history,
   @C53_integers_history,
   @C53_units,
   @C53_keys,
   @C53_integers,
   @C54_murmur32_anywhere,
   @C54_murmur128_anywhere,
   @C54_murmur32,
   @C54_murmur128,
   @C54_murmur32_keys,
   @C54_murmur128_keys,
   @C54_distinct,
   @C55_hash,
   @C55_messages,
   @C55_values,
   @C56_xxhash64_refuted,
   @C56_xxhash32_always,
   @C56_repeated,
   @C56_seeds,
   @C56_hmac_keys,
   @C56_hmac_seeds,
   @C56_xxhash32_refuted,
   @C56_siphash32_refuted,
   @C57_xxh64_anywhere,
   @C57_xxh32_anywhere,
   @C57_distinct,
   @C57_xxh64_few,
   @C57_xxh32_few,
   @C57_xxh64,
   @C57_xxh32,
   @C57_xxh64_keys,
   @C57_xxh32_keys,
   @C58_objects,
   @C58_schedule,
   @C58_copy,
   @C59_extension,
   @C59_predict,
   @C59_collisions,
   @C59_forever,
   @C60_fnv32,
   @C60_fnv64,
   @C60_murmur32,
   @C60_murmur128,
   @C60_xxh64,
   @C60_xxh32,
   @C60_xxh32_seeds,
   @C61_fnv32,
   @C61_fnv64,
   @C62_perfect,
   @C62_integral,
   @C62_low_bits,
   @C62_perfect_history,
   @C62_even_history,
   @C63_sets,
   @C63_integers,
   @C64_md5,
   @C64_hmac,
   @C65_values,
   @C65_equal_keys,
   @C65_strings,
   @C66_fnv32,
   @C66_fnv64,
   @C66_murmur32,
   @C66_murmur128,
   @C66_siphash64,
   @C66_siphash32,
   @C66_siphash64_keys,
   @C66_siphash32_keys,
   @C66_spooky,
   @C66_spooky_long,
   @C66_spooky_lengths,
   @C66_xxhash64_refuted,
   @C66_xxhash32_refuted,
   @C67_fnv32_odd,
   @C67_fnv32_run,
   @C67_fnv32_run_limit,
   @C67_fnv32_blocks,
   @C67_fnv64_odd,
   @C67_fnv64_run,
   @C67_fnv64_run_limit,
   @C67_fnv64_blocks,
   @C68_bytes,
   @C68_integers,
   @C68_fnv,
   @C68_murmur32,
   @C68_murmur128,
   @C68_spooky,
   @C69_fixed,
   @C69_ranges,
   @C70_values,
   @C70_integers,
   @C70_collision,
   @C70_user_values,
   @C70_user_collision,
   @C71_sets,
   @C71_balanced,
   @C71_onto,
   @C72_uniform,
   @C72_integral,
   @C72_low_bits,
   @C72_keys,
   @C72_murmur128,
   @C73_same,
   @C73_exact,
   @C73_exchange,
   @C73_replace,
   @C73_xxh64,
   @C73_integers,
   @C73_user_same,
   @C73_user_hashes,
   @C74_value,
   @C74_range,
   @C74_bytes,
   @C74_scalar,
   @C74_size,
   @C74_container,
   @C75_calls,
   @C75_any,
   @C75_total,
   @C75_message,
   @C76_single_pass,
   @C76_ranges,
   @C76_container,
   @C76_unordered,
   @C76_operations,
   @C76_sources,
   @C76_distance,
   @C76_distance_refuted,
   @C76_conversion_refuted,
   @C77_programs,
   @C77_prefix,
   @C77_unordered,
   @C77_points,
   @C77_range,
   @C77_sized,
   @C77_list,
   @C77_tuple,
   @C77_tag_invoke,
   @C77_user_calls,
   @C78_calls,
   @C78_any,
   @C78_unordered,
   @C78_exact,
   @C78_programs,
   @C78_prefix,
   @C78_never,
   @C78_copies,
   @C79_murmur32,
   @C79_murmur128,
   @C79_short,
   @C79_murmur128_values,
   @C79_murmur32_values,
   @C79_murmur128_keys,
   @C80_fnv32,
   @C80_fnv64,
   @C80_values,
   @C80_keys,
   @C80_integers,
   @C80_strings,
   @C80_four_refuted,
   @C80_seven_refuted,
   @C80_int32_refuted,
   @C80_int64_refuted,
   @C81_sequence,
   @C81_iterators,
   @C81_tuples,
   @C81_invoke,
   @C81_copies,
   @C81_any,
   @C81_unordered,
   @C81_programs,
   @C81_prefix,
   @C81_never,
   @C81_algorithm_only,
   @C81_users_only,
   @C82_low,
   @C82_after,
   @C82_byte,
   @C82_even,
   @C82_case,
   @C82_table,
   @C82_parity,
   @C82_anagram,
   @C82_sequences).
Print Assumptions without_reals.
Definition with_reals :=
  (@C26_float32,
   @C26_float64,
   @C26_float32_plus_zero,
   @C26_float64_plus_zero,
   @C27_floats32,
   @C27_floats64,
   @C27_float32_nan,
   @C27_float64_nan,
   @C27_float32_equal,
   @C27_float64_equal,
   @C43_md5_sines,
   @C43_md5_constants).
Print Assumptions with_reals.
