{
 "claims": [
  {
   "property": "C01",
   "status": "proved",
   "theorems": [
    "C01_mul_is_field_product",
    "C01_field_product_unique",
    "C01_poly_product_exists_unique"
   ],
   "note": ""
  },
  {
   "property": "C02",
   "status": "proved",
   "theorems": [
    "C02_clmul_agrees_with_portable"
   ],
   "note": ""
  },
  {
   "property": "C03",
   "status": "proved",
   "theorems": [
    "C03_field_laws"
   ],
   "note": ""
  },
  {
   "property": "C04",
   "status": "proved",
   "theorems": [
    "C04_inverse"
   ],
   "note": ""
  },
  {
   "property": "C05",
   "status": "proved",
   "theorems": [
    "C05_generator"
   ],
   "note": ""
  },
  {
   "property": "C06",
   "status": "proved",
   "theorems": [
    "C06_gf128_conversions",
    "C06_emp_block_conversions"
   ],
   "note": ""
  },
  {
   "property": "C07",
   "status": "proved",
   "theorems": [
    "C07_create",
    "C07_create_fails_only",
    "C07_tree_unique"
   ],
   "note": ""
  },
  {
   "property": "C08",
   "status": "proved",
   "theorems": [
    "C08_get_value_at_node",
    "C08_get_value_at_leaf"
   ],
   "note": ""
  },
  {
   "property": "C09",
   "status": "proved",
   "theorems": [
    "C09_sibling_wise_xor"
   ],
   "note": ""
  },
  {
   "property": "C10",
   "status": "proved",
   "theorems": [
    "C10_reconstruct"
   ],
   "note": ""
  },
  {
   "property": "C11",
   "status": "proved",
   "theorems": [
    "C11_ignores_path_entries"
   ],
   "note": ""
  },
  {
   "property": "C12",
   "status": "proved",
   "theorems": [
    "C12_rejects",
    "C12_valid_succeeds",
    "C12_few_keys_undefined",
    "C12_row_count_asserts",
    "C12_negative_index_accepted_refuted",
    "C12_extra_keys_accepted_refuted"
   ],
   "note": ""
  },
  {
   "property": "C13",
   "status": "proved",
   "theorems": [
    "C13_xor_overflow",
    "C13_xor_safe",
    "C13_reconstruct_overflow"
   ],
   "note": ""
  },
  {
   "property": "C14",
   "status": "proved",
   "theorems": [
    "C14_all_but_one",
    "C14_single"
   ],
   "note": ""
  },
  {
   "property": "C15",
   "status": "proved",
   "theorems": [
    "C15_receiver_checks",
    "C15_single_receiver_checks"
   ],
   "note": ""
  },
  {
   "property": "C16",
   "status": "proved",
   "theorems": [
    "C16_sender_oblivious",
    "C16_any_indices"
   ],
   "note": ""
  },
  {
   "property": "C17",
   "status": "proved",
   "theorems": [
    "C17_batched",
    "C17_single",
    "C17_sized",
    "C17_sized_negative"
   ],
   "note": ""
  },
  {
   "property": "C18",
   "status": "proved",
   "theorems": [
    "C18_value_checks",
    "C18_index_checks",
    "C18_single_index_checks"
   ],
   "note": ""
  },
  {
   "property": "C19",
   "status": "proved",
   "theorems": [
    "C19_only_masked_values",
    "C19_transcript",
    "C19_mask_is_one_time_pad"
   ],
   "note": ""
  },
  {
   "property": "C20",
   "status": "proved",
   "theorems": [
    "C20_packing_lossless"
   ],
   "note": ""
  },
  {
   "property": "C21",
   "status": "proved",
   "theorems": [
    "C21_bit_decomposition"
   ],
   "note": ""
  },
  {
   "property": "C22",
   "status": "proved",
   "theorems": [
    "C22_scalar_types"
   ],
   "note": ""
  },
  {
   "property": "C23",
   "status": "proved",
   "theorems": [
    "C23_shares_of_the_product",
    "C23_returned_vectors"
   ],
   "note": ""
  },
  {
   "property": "C24",
   "status": "proved",
   "theorems": [
    "C24_vector_checks",
    "C24_value_checks",
    "C24_length_checks"
   ],
   "note": ""
  },
  {
   "property": "C25",
   "status": "proved",
   "theorems": [
    "C25_view_hides_vector_1of2",
    "C25_view_hides_vector_cot"
   ],
   "note": ""
  },
  {
   "property": "C26",
   "status": "proved",
   "theorems": [
    "C26_can_be_hashed_into_128_sound",
    "C26_large_modulus_refuted"
   ],
   "note": ""
  },
  {
   "property": "C27",
   "status": "proved",
   "theorems": [
    "C27_hash_bits_64_sound",
    "C27_integers_sound",
    "C27_packed_check_accepts_every_modulus",
    "C27_hash_bits_below_128_refuted"
   ],
   "note": ""
  },
  {
   "property": "C28",
   "status": "proved",
   "theorems": [
    "C28_bucket_numbers",
    "C28_no_buckets",
    "C28_create"
   ],
   "note": ""
  },
  {
   "property": "C29",
   "status": "proved",
   "theorems": [
    "C29_simple_hashing",
    "C29_bucket_counts",
    "C29_bucket_members",
    "C29_bucket_sorted",
    "C29_errors"
   ],
   "note": ""
  },
  {
   "property": "C30",
   "status": "proved",
   "theorems": [
    "C30_perfect_placement"
   ],
   "note": ""
  },
  {
   "property": "C31",
   "status": "proved",
   "theorems": [
    "C31_outcomes",
    "C31_two_inputs",
    "C31_distinct_first_hashes",
    "C31_third_try"
   ],
   "note": ""
  },
  {
   "property": "C32",
   "status": "proved",
   "theorems": [
    "C32_consistent"
   ],
   "note": ""
  },
  {
   "property": "C33",
   "status": "proved",
   "theorems": [
    "C33_shares_of_the_function",
    "C33_distinct_indices"
   ],
   "note": ""
  },
  {
   "property": "C34",
   "status": "proved",
   "theorems": [
    "C34_index_provider_checks",
    "C34_value_provider_checks",
    "C34_plain_variants_unimplemented",
    "C34_index_at_end_rejected_late",
    "C34_negative_index_misplaced"
   ],
   "note": ""
  },
  {
   "property": "C35",
   "status": "proved",
   "theorems": [
    "C35_cache_is_coherent",
    "C35_value_provider_like_new",
    "C35_index_provider_like_new"
   ],
   "note": ""
  },
  {
   "property": "C36",
   "status": "proved",
   "theorems": [
    "C36_what_is_sent",
    "C36_masks_hide"
   ],
   "note": ""
  },
  {
   "property": "C37",
   "status": "proved",
   "theorems": [
    "C37_failed_hashing",
    "C37_twice_the_same",
    "C37_repeated_and_accepted"
   ],
   "note": ""
  },
  {
   "property": "C38",
   "status": "proved",
   "theorems": [
    "C38_counter_mode"
   ],
   "note": ""
  },
  {
   "property": "C39",
   "status": "proved",
   "theorems": [
    "C39_odd_buffer_size"
   ],
   "note": ""
  },
  {
   "property": "C40",
   "status": "proved",
   "theorems": [
    "C40_reseed_forgets",
    "C40_short_seed_changes_nothing",
    "C40_first_32_bytes"
   ],
   "note": ""
  },
  {
   "property": "C41",
   "status": "proved",
   "theorems": [
    "C41_reseed_limit",
    "C41_values_after_the_exception"
   ],
   "note": ""
  },
  {
   "property": "C42",
   "status": "proved",
   "theorems": [
    "C42_correlation"
   ],
   "note": "w = u*delta + v and the lengths for every pair of Run calls of any two-party session, every schedule; the rest of a session after an error only one party has is not covered (a party that failed alone stops)"
  },
  {
   "property": "C43",
   "status": "proved",
   "theorems": [
    "C43_delta_of_latest_precomputation",
    "C43_delta_stays"
   ],
   "note": ""
  },
  {
   "property": "C44",
   "status": "proved",
   "theorems": [
    "C44_sender_elements_used_once",
    "C44_receiver_elements_used_once"
   ],
   "note": "for the receiver under the hypothesis that its calls succeeded; see C60 for the failing case"
  },
  {
   "property": "C45",
   "status": "proved",
   "theorems": [
    "C45_lock_step"
   ],
   "note": ""
  },
  {
   "property": "C46",
   "status": "proved",
   "theorems": [
    "C46_schedule_independence",
    "C46_unique_outcome"
   ],
   "note": ""
  },
  {
   "property": "C47",
   "status": "proved",
   "theorems": [
    "C47_sender_expansions",
    "C47_receiver_expansions"
   ],
   "note": ""
  },
  {
   "property": "C48",
   "status": "proved",
   "theorems": [
    "C48_same_generator",
    "C48_generator_shape",
    "C48_generator_elements",
    "C48_other_order",
    "C48_different_orders_refuted"
   ],
   "note": "same generator, shape and elements of the generator, and the swap of the halves with the other evaluation order; the _refuted theorem is a session of two parties with different evaluation orders whose result is wrong"
  },
  {
   "property": "C49",
   "status": "proved",
   "theorems": [
    "C49_batch_size_not_positive",
    "C49_size_not_positive_first",
    "C49_size_zero",
    "C49_negative_size_refuted"
   ],
   "note": "the _refuted theorem: a negative size after precomputation is undefined behaviour"
  },
  {
   "property": "C50",
   "status": "proved",
   "theorems": [
    "C50_zero_generator_after_failure",
    "C50_insecure_output_refuted"
   ],
   "note": "the property users rely on is false of the code: witness in C50_insecure_output_refuted; C50_zero_generator_after_failure says what holds in every such history"
  },
  {
   "property": "C51",
   "status": "proved",
   "theorems": [
    "C51_num_bits_cache",
    "C51_num_bits_value"
   ],
   "note": ""
  },
  {
   "property": "C52",
   "status": "proved",
   "theorems": [
    "C52_hash",
    "C52_create_trees",
    "C52_receive_trees",
    "C52_unpack",
    "C52_value_provider",
    "C52_index_provider",
    "C52_bucket_search",
    "C52_overlapping_outputs_race"
   ],
   "note": "every division of the iterations among threads and every interleaving of single memory accesses; race freedom is part of the statement; the region of HashSimple, whose threads use private vectors merged in thread order, is C29"
  },
  {
   "property": "C53",
   "status": "proved",
   "theorems": [
    "C53_products_defined",
    "C53_packing_products_defined",
    "C53_uint16_products",
    "C53_uint16_products_refuted"
   ],
   "note": ""
  },
  {
   "property": "C54",
   "status": "proved",
   "theorems": [
    "C54_signed_packing",
    "C54_signed_packing_refuted"
   ],
   "note": ""
  },
  {
   "property": "C55",
   "status": "proved",
   "theorems": [
    "C55_total_is_wrapped_sum",
    "C55_exact_below_2_31",
    "C55_check_sound_below_2_31",
    "C55_check_failure",
    "C55_wrap_accepts_refuted",
    "C55_wrap_rejects_refuted"
   ],
   "note": ""
  },
  {
   "property": "C56",
   "status": "proved",
   "theorems": [
    "C56_too_many_transfers",
    "C56_too_long",
    "C56_vector_provider_sends_zeros"
   ],
   "note": ""
  },
  {
   "property": "C57",
   "status": "proved",
   "theorems": [
    "C57_number_of_buckets"
   ],
   "note": ""
  },
  {
   "property": "C58",
   "status": "proved",
   "theorems": [
    "C58_random_ot_receiver",
    "C58_spfss_index_provider",
    "C58_gilboa_value_provider"
   ],
   "note": ""
  },
  {
   "property": "C59",
   "status": "proved",
   "theorems": [
    "C59_create_agrees",
    "C59_equal_ids_wait_forever",
    "C59_negative_security"
   ],
   "note": ""
  },
  {
   "property": "C60",
   "status": "proved",
   "theorems": [
    "C60_cache_after_failure",
    "C60_uninitialised_output_refuted"
   ],
   "note": "refuted, with an exact description of the cache after a failure and a session of honest parties for every content of uninitialised memory"
  },
  {
   "property": "C61",
   "status": "proved",
   "theorems": [
    "C61_generator_of_other_role",
    "C61_other_precomputation_refuted",
    "C61_both_roles_refuted"
   ],
   "note": "refuted by a session of honest parties; the general theorem says when Run fails"
  },
  {
   "property": "C62",
   "status": "proved",
   "theorems": [
    "C62_failed_sender_discards",
    "C62_retry_refuted"
   ],
   "note": "refuted by a session of honest parties; the general theorem says that a failed RunSender empties the cache"
  },
  {
   "property": "C63",
   "status": "proved",
   "theorems": [
    "C63_served_from_cache"
   ],
   "note": ""
  },
  {
   "property": "C64",
   "status": "proved",
   "theorems": [
    "C64_generator_close_to_uniform"
   ],
   "note": "the check of Precompute* with the soundness of CanBeHashedInto (C26)"
  },
  {
   "property": "C65",
   "status": "proved",
   "theorems": [
    "C65_random_delta"
   ],
   "note": ""
  },
  {
   "property": "C66",
   "status": "proved",
   "theorems": [
    "C66_implicit_sender",
    "C66_implicit_receiver",
    "C66_after_failures_sender",
    "C66_after_failures_receiver"
   ],
   "note": ""
  },
  {
   "property": "C67",
   "status": "proved",
   "theorems": [
    "C67_expansion_is_fresh"
   ],
   "note": "states one expansion and that the rest of the call is again a RunSender; see UseSpec.v for `fresh`"
  },
  {
   "property": "C68",
   "status": "proved",
   "theorems": [
    "C68_first_seed_is_random"
   ],
   "note": "stated through the log s_made, which C44 relates to outputs, seeds and cache"
  },
  {
   "property": "C69",
   "status": "proved",
   "theorems": [
    "C69_orderly_calls_succeed",
    "C69_secure_types"
   ],
   "note": "C61_both_roles_refuted shows that the condition on the roles is needed"
  },
  {
   "property": "C70",
   "status": "proved",
   "theorems": [
    "C70_levels",
    "C70_create",
    "C70_supported",
    "C70_check"
   ],
   "note": "IEEE 754 doubles with rounding to nearest (Flocq); log and pow are arbitrary functions with an error below one ulp."
  },
  {
   "property": "C71",
   "status": "proved",
   "theorems": [
    "C71_sound",
    "C71_complete",
    "C71_negative",
    "C71_exact",
    "C71_passed_on",
    "C71_together"
   ],
   "note": "Relates the double computation to the exact comparison with a rational K that the other models use."
  },
  {
   "property": "C72",
   "status": "proved",
   "theorems": [
    "C72_simple",
    "C72_cuckoo",
    "C72_accepts",
    "C72_rejects",
    "C72_simple_together",
    "C72_cuckoo_together"
   ],
   "note": "Uniformity is stated for the first hash function; the others rehash with AES."
  },
  {
   "property": "C73",
   "status": "proved",
   "theorems": [
    "C73_three_hash_functions"
   ],
   "note": "The error function is characterised by its derivative; its existence is proved."
  },
  {
   "property": "C74",
   "status": "proved",
   "theorems": [
    "C74_two_hash_functions",
    "C74_termination_refuted"
   ],
   "note": "C74_termination_refuted: adding 1 to 2^53 changes nothing, the security stays below 225."
  },
  {
   "property": "C75",
   "status": "proved",
   "theorems": [
    "C75_library_parameters",
    "C75_library_draws",
    "C75_sessions"
   ],
   "note": "Connects C70-C73 with good_setting; assumes an in-range uniform distribution."
  },
  {
   "property": "C76",
   "status": "proved",
   "theorems": [
    "C76_create",
    "C76_accepted_values",
    "C76_nan_refuted",
    "C76_hasher_refuted"
   ],
   "note": "C76_nan_refuted and C76_hasher_refuted state what is accepted although it makes no sense."
  },
  {
   "property": "C77",
   "status": "proved",
   "theorems": [
    "C77_vole",
    "C77_gilboa_vector",
    "C77_gilboa_value",
    "C77_spfss_value",
    "C77_spfss_index",
    "C77_mpfss_value",
    "C77_mpfss_index",
    "C77_same"
   ],
   "note": "A relation between two executions that is preserved by every member function. An execution stops at its first error; oblivious transfers count as steps with their number, the messages inside them are not modelled."
  },
  {
   "property": "C78",
   "status": "proved",
   "theorems": [
    "C78_gilboa_vector",
    "C78_gilboa_value",
    "C78_spfss_value",
    "C78_spfss_index",
    "C78_precompute_sender",
    "C78_precompute_receiver",
    "C78_run_sender",
    "C78_run_receiver",
    "C78_transfers"
   ],
   "note": "Counts messages and their lengths in elements; bytes on the wire and the base OTs inside the OT library are not modelled. The sizes of the buckets depend on the hash function, so their number, sum and sign are stated and not each size."
  },
  {
   "property": "C79",
   "status": "proved",
   "theorems": [
    "C79_precompute_sender",
    "C79_precompute_receiver",
    "C79_run_sender",
    "C79_run_receiver",
    "C79_first_run_sender",
    "C79_first_run_receiver",
    "C79_level",
    "C79_spfss_index",
    "C79_spfss_value",
    "C79_gilboa_vector",
    "C79_gilboa_value",
    "C79_wrong_length_refuted"
   ],
   "note": "Contents of messages and of oblivious transfers are arbitrary, kinds and numbers of elements are as the protocol expects (C79_wrong_length_refuted shows what happens otherwise: the code does not check them). Deserialisation inside mpc_utils is not modelled."
  },
  {
   "property": "C80",
   "status": "proved",
   "theorems": [
    "C80_sessions",
    "C80_orderly_sessions",
    "C80_all_but_one",
    "C80_spfss",
    "C80_gilboa",
    "C80_mpfss",
    "C80_mpfss_create",
    "C80_any_policy",
    "C80_crossing_messages_refuted",
    "C80_out_of_order_refuted"
   ],
   "note": "A transport is modelled as two queues per direction (ordinary messages and those of oblivious transfers, or one queue for both) that may store a message or pass it on directly when the other party waits for it. An oblivious transfer that is passed on directly is a step both parties take together, so an interactive implementation is covered, too. Messages are stored or passed on as a whole. With separate connections the keys of the trees count as ordinary messages (in the code they use the connection of the oblivious transfers; both parties use all messages in the same order)."
  },
  {
   "property": "C81",
   "status": "proved",
   "theorems": [
    "C81_distance",
    "C81_full_range",
    "C81_small",
    "C81_sizes_8_and_16",
    "C81_one_transfer_per_element_refuted",
    "C81_middle_sizes_refuted"
   ],
   "note": "The blocks that the correlated OT outputs to its sender are uniform and independent, and the receiver sees exactly one message per transfer, as in the ideal functionality. Probabilities are exact fractions of the lists of 128-bit blocks."
  },
  {
   "property": "C82",
   "status": "proved",
   "theorems": [
    "C82_missing_elements_hidden"
   ],
   "note": "The other run has another function as block cipher, changed at one input per missing leaf (another seed for a tree with one leaf); random-function argument, the strength of AES is not modelled. OT is ideal."
  },
  {
   "property": "C83",
   "status": "proved",
   "theorems": [
    "C83_value_shares_hidden",
    "C83_empty_output_refuted"
   ],
   "note": "Same argument as C82. C83_empty_output_refuted shows the value provider's share in the view of the index provider of an empty output."
  },
  {
   "property": "C84",
   "status": "proved",
   "theorems": [
    "C84_value_hidden"
   ],
   "note": "The VOLE correlation is an input, as in the API. Same argument as C82; the hash functions use another key and are unchanged."
  },
  {
   "property": "C85",
   "status": "proved",
   "theorems": [
    "C85_every_vector_once",
    "C85_gf128_randomize",
    "C85_long_spans",
    "C85_long_spans_refuted",
    "C85_failure_refuted"
   ],
   "note": "RAND_bytes is modelled by its documented contract (fills num bytes, or fails and leaves the buffer). NTL's random_vec is not modelled."
  },
  {
   "property": "C86",
   "status": "proved",
   "theorems": [
    "C86_hash",
    "C86_archive",
    "C86_foreign_archive",
    "C86_print",
    "C86_print_injective"
   ],
   "note": "Archives are sequences of numbers; the encodings of Boost's archives, Abseil's hash and stream flags are not modelled."
  },
  {
   "property": "C87",
   "status": "proved",
   "theorems": [
    "C87_conversions",
    "C87_same_conversion"
   ],
   "note": "NTL's arithmetic is exact. C87_same_conversion links the stateful conversion to the one of the scalar type used by all other properties."
  },
  {
   "property": "C88",
   "status": "proved",
   "theorems": [
    "C88_delta_hidden"
   ],
   "note": "Passive security in the ideal-cipher style: the sender follows the protocol, and the other explanation may replace the cipher under keys drawn by the receiver (it need not be a permutation). Oblivious transfer is ideal (the sender learns nothing about choices)."
  },
  {
   "property": "C89",
   "status": "proved",
   "theorems": [
    "C89_numbers",
    "C89_independent",
    "C89_uniform_set",
    "C89_noise",
    "C89_rows",
    "C89_library_buffers",
    "C89_odd_buffer_refuted",
    "C89_draws_are_good"
   ],
   "note": "The library function is transcribed from libstdc++ (two versions), which is not part of /repo. Uniformity is stated by bijections between streams, not with a probability measure. C89_odd_buffer_refuted: an odd number of noise positions would always include position 0 with GCC up to 10; the library's parameters are even."
  },
  {
   "property": "C90",
   "status": "proved",
   "theorems": [
    "C90_create",
    "C90_unpack",
    "C90_sender_products",
    "C90_receiver_products",
    "C90_generator_rows",
    "C90_foreign_thread_refuted"
   ],
   "note": "Eigen's loop is transcribed from SparseDenseProduct.h of Eigen 3.3, which is not part of /repo. That OpenMP keeps the threads between regions (as it promises for teams of the same size) is a hypothesis; C90_foreign_thread_refuted shows what happens with a thread outside the team."
  },
  {
   "property": "C91",
   "status": "proved",
   "theorems": [
    "C91_sender_hidden"
   ],
   "note": "Covers the first expansion. In later expansions the masks are outputs of earlier ones, so hiding rests on the LPN assumption, which cannot be stated without probabilities and computation bounds."
  },
  {
   "property": "C92",
   "status": "proved",
   "theorems": [
    "C92_blocks_differ"
   ],
   "note": "With an odd buffer size the words are those of C39. That AES is a permutation under every key is a hypothesis."
  },
  {
   "property": "C93",
   "status": "proved",
   "theorems": [
    "C93_mpfss",
    "C93_all_but_one",
    "C93_elements",
    "C93_buckets",
    "C93_receiver_overflows_refuted",
    "C93_sender_overflows_refuted",
    "C93_too_many_refuted",
    "C93_wrapped_refuted",
    "C93_spfss",
    "C93_spfss_index_overflows_refuted",
    "C93_spfss_value_overflows_refuted",
    "C93_spfss_wrapped_refuted"
   ],
   "note": "The claim that every batch is correct or refused is refuted at the boundary: C93_receiver_overflows_refuted, C93_sender_overflows_refuted and C93_wrapped_refuted, and the same for single-point functions (C93_spfss_*_refuted)."
  },
  {
   "property": "C94",
   "status": "proved",
   "theorems": [
    "C94_elements_together",
    "C94_random_ot",
    "C94_generator",
    "C94_independent"
   ],
   "note": "Hybrid argument over the elements. Probabilities are exact fractions of the lists of 128-bit values (JointSpec.v). C71_together and C72_*_together are the same for the checks with doubles."
  },
  {
   "property": "C95",
   "status": "proved",
   "theorems": [
    "C95_sessions",
    "C95_all_but_one",
    "C95_spfss",
    "C95_gilboa",
    "C95_mpfss",
    "C95_mpfss_create"
   ],
   "note": "The connection stays open when a party stops (exceptions of mpc_utils when the peer closes it are not modelled). Lost messages are the last ones of each connection. Messages are lost or delivered as a whole."
  },
  {
   "property": "C96",
   "status": "proved",
   "theorems": [
    "C96_sessions"
   ],
   "note": "Nothing is said about the answers of further calls that do not match."
  },
  {
   "property": "C97",
   "status": "proved",
   "theorems": [
    "C97_same_behaviour",
    "C97_correlation",
    "C97_lock_step"
   ],
   "note": "The parameter table of the library satisfies the hypotheses (C40, C70)."
  },
  {
   "property": "C98",
   "status": "proved",
   "theorems": [
    "C98_role_changes_succeed",
    "C98_same_level",
    "C98_orderly_sessions"
   ],
   "note": "Extends C69 (C98_orderly_sessions: its sessions satisfy the condition). The condition is sufficient: a Run that finds enough cached elements needs no code generator."
  },
  {
   "property": "C99",
   "status": "proved",
   "theorems": [
    "C99_sender",
    "C99_receiver"
   ],
   "note": "A call before any precomputation is excluded: it precomputes for its own size, so a split request leads to other batch sizes."
  },
  {
   "property": "C100",
   "status": "proved",
   "theorems": [
    "C100_divided_differently",
    "C100_same_positions_refuted"
   ],
   "note": "The user of the model stops at the first error."
  }
 ]
}