{
 "claims": [
  {
   "property": "C01",
   "status": "proved",
   "theorems": [
    "C01_small_numbers_roundtrip",
    "C01_u32_roundtrip",
    "C01_i32_roundtrip"
   ],
   "note": ""
  },
  {
   "property": "C02",
   "status": "proved",
   "theorems": [
    "C02_guest_words_accepted_iff_well_formed",
    "C02_accepted_words_decode_uniquely",
    "C02_accepted_words_distinct"
   ],
   "note": ""
  },
  {
   "property": "C03",
   "status": "proved",
   "theorems": [
    "C03_short_symbols_roundtrip",
    "C03_in_word_form_exists_iff_short_and_valid",
    "C03_short_symbols_injective",
    "C03_good_symbol_words_spell_valid_strings",
    "C03_symbol_words_not_canonical_refuted"
   ],
   "note": "includes a refutation: accepted symbol words are not canonical (C03_symbol_words_not_canonical_refuted)"
  },
  {
   "property": "C04",
   "status": "proved",
   "theorems": [
    "C04_symbols_sort_as_strings",
    "C04_typed_symbol_comparison_refuted"
   ],
   "note": ""
  },
  {
   "property": "C05",
   "status": "proved",
   "theorems": [
    "C05_error_roundtrip",
    "C05_accepted_error_words_are_xdr_errors"
   ],
   "note": ""
  },
  {
   "property": "C06",
   "status": "proved",
   "theorems": [
    "C06_u128_pieces",
    "C06_i128_pieces",
    "C06_u256_pieces",
    "C06_i256_pieces",
    "C06_pieces_order"
   ],
   "note": ""
  },
  {
   "property": "C07",
   "status": "proved",
   "theorems": [
    "C07_load_then_read_is_identity",
    "C07_representable_values_load",
    "C07_unrepresentable_values_refused",
    "C07_loading_disturbs_nothing",
    "C07_read_then_load_is_equal",
    "C07_storage_refuses_muxed_addresses"
   ],
   "note": ""
  },
  {
   "property": "C08",
   "status": "proved",
   "theorems": [
    "C08_compare_reflexive",
    "C08_compare_antisymmetric_transitive",
    "C08_compare_is_the_documented_order",
    "C08_compare_fails_only_for_depth",
    "C08_loaded_tables_are_well_formed"
   ],
   "note": ""
  },
  {
   "property": "C09",
   "status": "proved",
   "theorems": [
    "C09_host_order_is_xdr_order",
    "C09_accepted_maps_are_sorted_in_xdr_order"
   ],
   "note": ""
  },
  {
   "property": "C10",
   "status": "proved",
   "theorems": [
    "C10_handles_resolve_only_to_granted_objects",
    "C10_handles_stay_valid",
    "C10_out_and_back",
    "C10_out_and_back_needs_the_bound_refuted",
    "C10_bad_handles_are_refused",
    "C10_bad_results_are_refused",
    "C10_mistyped_arguments_are_refused",
    "C10_objects_never_change",
    "C10_granted_objects_exist",
    "C10_frames_are_isolated",
    "C10_guest_calls_follow_their_meaning"
   ],
   "note": "the round trip of a handle needs a frame to hold at most 2^31 objects; beyond it C10_out_and_back_needs_the_bound_refuted"
  },
  {
   "property": "C11",
   "status": "proved",
   "theorems": [
    "C11_histories_follow_the_finite_map_meaning",
    "C11_values_never_change",
    "C11_each_call_follows_its_meaning",
    "C11_put_del_get_laws",
    "C11_map_values_are_sorted",
    "C11_same_contents_same_representation",
    "C11_any_key_type"
   ],
   "note": ""
  },
  {
   "property": "C12",
   "status": "proved",
   "theorems": [
    "C12_from_entries_iff_ascending",
    "C12_map_from_slices_iff_ascending"
   ],
   "note": ""
  },
  {
   "property": "C13",
   "status": "proved",
   "theorems": [
    "C13_map_unpack"
   ],
   "note": ""
  },
  {
   "property": "C14",
   "status": "proved",
   "theorems": [
    "C14_vec_calls_are_exact",
    "C14_vec_calls_need_no_depth",
    "C14_put",
    "C14_del",
    "C14_insert",
    "C14_append",
    "C14_slice",
    "C14_ends",
    "C14_first_and_last_index"
   ],
   "note": ""
  },
  {
   "property": "C15",
   "status": "proved",
   "theorems": [
    "C15_binary_search_is_correct",
    "C15_logarithmic_comparisons",
    "C15_vec_binary_search"
   ],
   "note": ""
  },
  {
   "property": "C16",
   "status": "proved",
   "theorems": [
    "C16_byte_calls_are_exact",
    "C16_byte_operations",
    "C16_copy_to_memory",
    "C16_copy_from_memory",
    "C16_new_from_memory",
    "C16_copy_out_then_in_restores",
    "C16_symbol_index",
    "C16_vec_from_memory",
    "C16_vec_to_memory",
    "C16_vec_out_then_in_restores",
    "C16_map_from_memory",
    "C16_map_to_memory"
   ],
   "note": "every linear-memory copy (bytes, strings, symbols, vectors, maps) and every byte-string operation"
  },
  {
   "property": "C17",
   "status": "proved",
   "theorems": [
    "C17_footprint_enforced",
    "C17_refused_without_effect",
    "C17_contracts"
   ],
   "note": ""
  },
  {
   "property": "C18",
   "status": "proved",
   "theorems": [
    "C18_reads_return_last_write",
    "C18_storage_is_a_store",
    "C18_keys_independent"
   ],
   "note": ""
  },
  {
   "property": "C19",
   "status": "proved",
   "theorems": [
    "C19_recorded_footprint_replays",
    "C19_contracts_replay"
   ],
   "note": ""
  },
  {
   "property": "C20",
   "status": "proved",
   "theorems": [
    "C20_extend_ttl",
    "C20_bounds",
    "C20_succeeds"
   ],
   "note": ""
  },
  {
   "property": "C21",
   "status": "proved",
   "theorems": [
    "C21_extend_ttl_v2",
    "C21_succeeds"
   ],
   "note": ""
  },
  {
   "property": "C22",
   "status": "proved",
   "theorems": [
    "C22_reads_are_live",
    "C22_recording_is_live",
    "C22_expired_temporary_is_missing",
    "C22_archived_is_restored"
   ],
   "note": ""
  },
  {
   "property": "C23",
   "status": "proved",
   "theorems": [
    "C23_put_contract_data",
    "C23_put_succeeds",
    "C23_get_has_del",
    "C23_durabilities_independent"
   ],
   "note": ""
  },
  {
   "property": "C24",
   "status": "proved",
   "theorems": [
    "C24_failed_call_leaves_no_trace",
    "C24_failed_invocation_leaves_no_trace"
   ],
   "note": ""
  },
  {
   "property": "C25",
   "status": "proved",
   "theorems": [
    "C25_try_call",
    "C25_fatal_errors_abort",
    "C25_fail_with_error",
    "C25_returned_errors",
    "C25_no_error_values"
   ],
   "note": ""
  },
  {
   "property": "C26",
   "status": "proved",
   "theorems": [
    "C26_call_stacks",
    "C26_bound_irrelevant"
   ],
   "note": ""
  },
  {
   "property": "C27",
   "status": "proved",
   "theorems": [
    "C27_events"
   ],
   "note": ""
  },
  {
   "property": "C28",
   "status": "proved",
   "theorems": [
    "C28_within_limits",
    "C28_consumption_is_exact",
    "C28_charge_outcome",
    "C28_price_exact",
    "C28_never_decreases",
    "C28_charge_never_lowers",
    "C28_exceeded_stays_exceeded"
   ],
   "note": ""
  },
  {
   "property": "C29",
   "status": "proved",
   "theorems": [
    "C29_shadow_work_is_invisible",
    "C29_shadow_changes_nothing_metered"
   ],
   "note": ""
  },
  {
   "property": "C30",
   "status": "proved",
   "theorems": [
    "C30_fuel_matches_remaining_budget",
    "C30_settling_fuel_never_exceeds",
    "C30_no_fuel_when_exhausted"
   ],
   "note": "settlement assumes WasmInsnExec has no memory cost (as in every network configuration)"
  },
  {
   "property": "C31",
   "status": "proved",
   "theorems": [
    "C31_depth_restored",
    "C31_too_deep_fails",
    "C31_within_depth_runs"
   ],
   "note": ""
  },
  {
   "property": "C32",
   "status": "proved",
   "theorems": [
    "C32_resource_fees_nonnegative",
    "C32_resource_fees_monotone",
    "C32_resource_fees_exact"
   ],
   "note": ""
  },
  {
   "property": "C33",
   "status": "proved",
   "theorems": [
    "C33_rent_nonnegative",
    "C33_no_change_no_rent",
    "C33_rent_monotone",
    "C33_rent_monotone_in_entries",
    "C33_rent_covers_each_entry",
    "C33_splitting_never_cheaper",
    "C33_code_discount",
    "C33_rent_exact",
    "C33_rent_unique"
   ],
   "note": ""
  },
  {
   "property": "C34",
   "status": "proved",
   "theorems": [
    "C34_rent_write_fee_minimum",
    "C34_rent_write_fee_monotone",
    "C34_rent_write_fee_end_points",
    "C34_rent_write_fee_slopes",
    "C34_monotone_needs_sane_config_refuted"
   ],
   "note": "monotonicity needs a sane configuration (low rate <= high rate); without it C34_monotone_needs_sane_config_refuted"
  },
  {
   "property": "C35",
   "status": "proved",
   "theorems": [
    "C35_require_auth_needs_a_match",
    "C35_entries_authorize_what_they_list"
   ],
   "note": ""
  },
  {
   "property": "C36",
   "status": "proved",
   "theorems": [
    "C36_each_node_used_once"
   ],
   "note": ""
  },
  {
   "property": "C37",
   "status": "proved",
   "theorems": [
    "C37_nonces_consumed_once",
    "C37_authenticated_entries_consume",
    "C37_no_replay"
   ],
   "note": ""
  },
  {
   "property": "C38",
   "status": "proved",
   "theorems": [
    "C38_failed_call_gives_everything_back",
    "C38_failed_transaction"
   ],
   "note": ""
  },
  {
   "property": "C39",
   "status": "proved",
   "theorems": [
    "C39_used_entries_are_authenticated_once",
    "C39_not_while_authenticating"
   ],
   "note": ""
  },
  {
   "property": "C40",
   "status": "proved",
   "theorems": [
    "C40_account_signatures",
    "C40_each_key_once",
    "C40_missing_account"
   ],
   "note": ""
  },
  {
   "property": "C41",
   "status": "proved",
   "theorems": [
    "C41_payload_determines",
    "C41_preimage_determines",
    "C41_payload_depends_on_nothing_else",
    "C41_same_tree_is_tracked"
   ],
   "note": ""
  },
  {
   "property": "C42",
   "status": "proved",
   "theorems": [
    "C42_call_moves",
    "C42_failure_changes_nothing",
    "C42_supply",
    "C42_supply_issuer",
    "C42_history"
   ],
   "note": ""
  },
  {
   "property": "C43",
   "status": "proved",
   "theorems": [
    "C43_negative_refused",
    "C43_history",
    "C43_holdings"
   ],
   "note": ""
  },
  {
   "property": "C44",
   "status": "proved",
   "theorems": [
    "C44_parties_authorized",
    "C44_set_authorized",
    "C44_only_set_authorized",
    "C44_clawback_settled",
    "C44_clawback_only_enabled",
    "C44_clawback_works"
   ],
   "note": ""
  },
  {
   "property": "C45",
   "status": "proved",
   "theorems": [
    "C45_read",
    "C45_approve",
    "C45_spend",
    "C45_total_bound",
    "C45_never_negative",
    "C45_nothing_after_expiry"
   ],
   "note": ""
  },
  {
   "property": "C46",
   "status": "partial",
   "theorems": [
    "C46_refuted",
    "C46_usable_partial",
    "C46_fresh_partial"
   ],
   "note": "the full claim is false of the code (C46_refuted): an approval of 0 naming a future ledger leaves a value whose live-until ledger outruns the entry's TTL, and the next approval does not extend it; proved when no such approval was made for the pair, or when the pair's previous entry names an earlier ledger"
  },
  {
   "property": "C47",
   "status": "proved",
   "theorems": [
    "C47_which_inputs",
    "C47_one_change_per_key",
    "C47_ledger_gets_the_final_state",
    "C47_lifetimes_never_shrink"
   ],
   "note": ""
  },
  {
   "property": "C48",
   "status": "proved",
   "theorems": [
    "C48_rent_of_a_transaction"
   ],
   "note": ""
  },
  {
   "property": "C49",
   "status": "proved",
   "theorems": [
    "C49_failed_transaction",
    "C49_published_events"
   ],
   "note": ""
  },
  {
   "property": "C50",
   "status": "proved",
   "theorems": [
    "C50_instance_storage"
   ],
   "note": ""
  },
  {
   "property": "C51",
   "status": "proved",
   "theorems": [
    "C51_no_second_creation",
    "C51_creation",
    "C51_arguments_need_constructor",
    "C51_constructors_once",
    "C51_instances_stay",
    "C51_failed_creation_propagates"
   ],
   "note": ""
  },
  {
   "property": "C52",
   "status": "proved",
   "theorems": [
    "C52_executable_references",
    "C52_references_stay_valid"
   ],
   "note": ""
  },
  {
   "property": "C53",
   "status": "partial",
   "theorems": [
    "C53_linear_memory_accounting",
    "C53_invocation_returns_all_linear_memory",
    "C53_memory_lost_when_stack_full_refuted"
   ],
   "note": "proved for every call tree in which each instantiated VM gets its frame; refuted otherwise: a VM instantiated at a full context stack loses its linear memory (C53_memory_lost_when_stack_full_refuted)"
  },
  {
   "property": "C54",
   "status": "proved",
   "theorems": [
    "C54_isolated_streams",
    "C54_range",
    "C54_shuffle"
   ],
   "note": ""
  },
  {
   "property": "C55",
   "status": "proved",
   "theorems": [
    "C55_adjustment_never_lowers",
    "C55_adjustment_value",
    "C55_no_adjustment",
    "C55_no_adjustment_above_2_53_refuted",
    "C55_extend",
    "C55_extend_when",
    "C55_extend_overflows_refuted",
    "C55_restore",
    "C55_restore_when",
    "C55_restoring_snapshot",
    "C55_invoke",
    "C55_invoke_answers"
   ],
   "note": ""
  },
  {
   "property": "C56",
   "status": "proved",
   "theorems": [
    "C56_contract_addresses",
    "C56_addresses_are_not_payloads"
   ],
   "note": ""
  },
  {
   "property": "C57",
   "status": "proved",
   "theorems": [
    "C57_events_tell_holdings",
    "C57_calls_announce"
   ],
   "note": ""
  },
  {
   "property": "C58",
   "status": "proved",
   "theorems": [
    "C58_calls_are_authorized",
    "C58_admin",
    "C58_holdings_fall_by_consent",
    "C58_nothing_lost_without_consent"
   ],
   "note": ""
  },
  {
   "property": "C59",
   "status": "proved",
   "theorems": [
    "C59_transfer_works"
   ],
   "note": ""
  },
  {
   "property": "C60",
   "status": "proved",
   "theorems": [
    "C60_trust"
   ],
   "note": ""
  },
  {
   "property": "C61",
   "status": "proved",
   "theorems": [
    "C61_simulation_predicts",
    "C61_exact_if_no_call_failed",
    "C61_simulation_is_exact_refuted"
   ],
   "note": "unconditional exactness of the announced changes is false of the code (C61_simulation_is_exact_refuted): keys touched only in a failed try_call are announced by name only"
  },
  {
   "property": "C62",
   "status": "proved",
   "theorems": [
    "C62_filled_account"
   ],
   "note": ""
  },
  {
   "property": "C63",
   "status": "proved",
   "theorems": [
    "C63_recorded_entries_authorize",
    "C63_recorded_entries_authorize_here",
    "C63_root_only",
    "C63_two_handles_refuted",
    "C63_failed_call_refuted",
    "C63_check_auth_between_refuted",
    "C63_every_recording_replays_refuted"
   ],
   "note": "for replayable recordings (stated in AuthRecSpec.v) and accounts that accept their signatures; C63_two_handles_refuted, C63_failed_call_refuted and C63_check_auth_between_refuted show recordings outside that do not replay"
  },
  {
   "property": "C64",
   "status": "proved",
   "theorems": [
    "C64_table",
    "C64_accepts_iff",
    "C64_imports_bound_by_name",
    "C64_cache_is_transparent",
    "C64_simulation_runs_the_same",
    "C64_upgrades_keep_modules",
    "C64_no_later_functions",
    "C64_called_function"
   ],
   "note": ""
  },
  {
   "property": "C65",
   "status": "proved",
   "theorems": [
    "C65_counts_are_exact",
    "C65_order_is_irrelevant",
    "C65_parsing_is_charged_as_rent_counts",
    "C65_more_never_costs_less"
   ],
   "note": ""
  },
  {
   "property": "C66",
   "status": "proved",
   "theorems": [
    "C66_meaning",
    "C66_unordered_delegates_are_refused",
    "C66_only_listed_delegates",
    "C66_each_signature_once",
    "C66_kept_checks_passed",
    "C66_authority_flows_down",
    "C66_failure_keeps_nothing"
   ],
   "note": ""
  },
  {
   "property": "C67",
   "status": "proved",
   "theorems": [
    "C67_arithmetic_is_modular",
    "C67_inverse",
    "C67_orders_are_prime",
    "C67_only_residues_matter",
    "C67_field_laws"
   ],
   "note": ""
  },
  {
   "property": "C68",
   "status": "proved",
   "theorems": [
    "C68_poseidon_meaning",
    "C68_poseidon2_meaning",
    "C68_only_scalars_accepted",
    "C68_poseidon_permutes",
    "C68_poseidon2_permutes",
    "C68_small_states_ignore_the_diagonal"
   ],
   "note": ""
  },
  {
   "property": "C69",
   "status": "proved",
   "theorems": [
    "C69_exact_or_refused",
    "C69_one_meaning",
    "C69_other_types_refused",
    "C69_quotient_and_remainder",
    "C69_from_bytes",
    "C69_to_bytes",
    "C69_bytes_of_other_types_refused",
    "C69_bytes_round_trip",
    "C69_number_objects",
    "C69_pieces"
   ],
   "note": ""
  },
  {
   "property": "C70",
   "status": "proved",
   "theorems": [
    "C70_encodings_are_unique",
    "C70_accepted_exactly",
    "C70_parameters",
    "C70_is_on_curve",
    "C70_is_in_subgroup",
    "C70_add",
    "C70_mul",
    "C70_msm",
    "C70_pairing",
    "C70_map",
    "C70_hash",
    "C70_results_are_arguments"
   ],
   "note": ""
  },
  {
   "property": "C71",
   "status": "proved",
   "theorems": [
    "C71_secp256r1",
    "C71_secp256k1",
    "C71_ed25519",
    "C71_refused",
    "C71_not_malleable",
    "C71_keys_are_unique",
    "C71_parameters"
   ],
   "note": ""
  },
  {
   "property": "C72",
   "status": "proved",
   "theorems": [
    "C72_address_to_strkey",
    "C72_muxed_address_to_strkey",
    "C72_strkey_to_address",
    "C72_strkey_to_muxed_address",
    "C72_refused",
    "C72_round_trip",
    "C72_one_spelling",
    "C72_shape",
    "C72_mistakes",
    "C72_muxed_parts",
    "C72_three_letters_refuted"
   ],
   "note": "three neighbouring letters can go undetected (C72_three_letters_refuted, F15); the claim is about two"
  },
  {
   "property": "C73",
   "status": "proved",
   "theorems": [
    "C73_initialize",
    "C73_refused",
    "C73_every_asset",
    "C73_describes_its_asset",
    "C73_description_is_final",
    "C73_administrator",
    "C73_set_admin",
    "C73_lumens_have_no_administrator",
    "C73_names_identify",
    "C73_symbols_identify_refuted",
    "C73_one_contract_per_asset",
    "C73_get_asset_contract_id",
    "C73_display"
   ],
   "note": "symbols alone do not identify assets (C73_symbols_identify_refuted, F16); names do"
  },
  {
   "property": "C74",
   "status": "proved",
   "theorems": [
    "C74_serialize",
    "C74_equal_bytes_iff_equal_values",
    "C74_deserialize",
    "C74_round_trip",
    "C74_reserialize",
    "C74_prefix_free",
    "C74_one_encoding",
    "C74_refused"
   ],
   "note": ""
  },
  {
   "property": "C75",
   "status": "proved",
   "theorems": [
    "C75_one_right_answer",
    "C75_every_request_is_answered_rightly",
    "C75_refusals",
    "C75_nonce_failures",
    "C75_signed_tree_authorizes_its_calls"
   ],
   "note": ""
  },
  {
   "property": "C76",
   "status": "proved",
   "theorems": [
    "C76_tree_of_calls",
    "C76_off",
    "C76_report_is_exact",
    "C76_shortened_entries_panic",
    "C76_reading_costs_no_rent",
    "C76_counters_add_up",
    "C76_limits",
    "C76_estimated_fee",
    "C76_estimated_rent",
    "C76_bumps",
    "C76_estimated_rent_fee",
    "C76_metering_completes_refuted",
    "C76_reading_costs_nothing_refuted"
   ],
   "note": "two stronger claims are false and shown so: C76_metering_completes_refuted (F17), C76_reading_costs_nothing_refuted (F18)"
  },
  {
   "property": "C77",
   "status": "proved",
   "theorems": [
    "C77_write",
    "C77_read",
    "C77_round_trip",
    "C77_injective",
    "C77_field_order",
    "C77_read_exact",
    "C77_read_exact_refuted",
    "C77_dispatch",
    "C77_dispatch_count",
    "C77_dispatch_unknown",
    "C77_asset_contract",
    "C77_asset_keys",
    "C77_contexts",
    "C77_contexts_error",
    "C77_contexts_tell",
    "C77_contexts_tell_refuted",
    "C77_account_signature",
    "C77_invoker_entry",
    "C77_invoker_trees",
    "C77_address_executable"
   ],
   "note": "two stronger claims are false and shown so: C77_read_exact_refuted (F20), C77_contexts_tell_refuted (F21)"
  },
  {
   "property": "C78",
   "status": "proved",
   "theorems": [
    "C78_call",
    "C78_transaction",
    "C78_every_ledger",
    "C78_ledger_moves",
    "C78_nothing_else",
    "C78_instance_ttl",
    "C78_balance_ttl"
   ],
   "note": ""
  },
  {
   "property": "C79",
   "status": "proved",
   "theorems": [
    "C79_every_budget_meters",
    "C79_vector_reads",
    "C79_vector_updates",
    "C79_vector_searches",
    "C79_map_operations",
    "C79_storage_maps",
    "C79_comparisons",
    "C79_clones",
    "C79_call_comparison",
    "C79_call_arguments_refuted",
    "C79_creation_comparison",
    "C79_constructor_arguments_refuted",
    "C79_long_tags_refuted",
    "C79_equality_reads_everything",
    "C79_equal_objects_were_read",
    "C79_new_vectors_were_built",
    "C79_clones_were_copied"
   ],
   "note": "the three exceptions named in the statement are shown unbounded by C79_call_arguments_refuted, C79_constructor_arguments_refuted and C79_long_tags_refuted (F23-F25)"
  },
  {
   "property": "C80",
   "status": "proved",
   "theorems": [
    "C80_shape",
    "C80_unambiguous",
    "C80_events_tell_holdings"
   ],
   "note": ""
  },
  {
   "property": "C81",
   "status": "proved",
   "theorems": [
    "C81_diagnostics_are_invisible",
    "C81_diagnostics_tell_the_calls"
   ],
   "note": ""
  },
  {
   "property": "C82",
   "status": "proved",
   "theorems": [
    "C82_emulation_only_reads",
    "C82_authentication_finds_its_entries",
    "C82_recorded_run_authenticates",
    "C82_recorded_run",
    "C82_moved_reference_refuted"
   ],
   "note": "the claim with its proviso is proved; without the proviso it is refuted (C82_moved_reference_refuted, finding F26)"
  },
  {
   "property": "C83",
   "status": "proved",
   "theorems": [
    "C83_loads_exactly_when_configured",
    "C83_only_the_settings_matter",
    "C83_prices_are_the_networks",
    "C83_rent_and_lifetimes_are_the_networks",
    "C83_rent_grows_with_the_state",
    "C83_limits_are_the_networks",
    "C83_capped_average_refuted",
    "C83_negative_limit_refuted"
   ],
   "note": "proved with the stated conditions on the settings; C83_capped_average_refuted and C83_negative_limit_refuted show that they are needed"
  },
  {
   "property": "C84",
   "status": "proved",
   "theorems": [
    "C84_extends_exactly",
    "C84_succeeds",
    "C84_callable_later",
    "C84_always_extend_to_refuted"
   ],
   "note": "proved; C84_always_extend_to_refuted records what a success does not promise"
  },
  {
   "property": "C85",
   "status": "proved",
   "theorems": [
    "C85_converts",
    "C85_reads_exactly",
    "C85_there_and_back",
    "C85_distinct",
    "C85_there_and_back_refuted"
   ],
   "note": "proved for the Rust types listed, with Error as the error type of a Result; C85_there_and_back_refuted records what happens to nested Options and Results"
  },
  {
   "property": "C86",
   "status": "proved",
   "theorems": [
    "C86_fair_draw",
    "C86_redraw",
    "C86_fair_shuffle"
   ],
   "note": "the rejection and shuffle loops are those of rand 0.8.5, whose source is neither in /repo nor in the sandbox: they are written from recollection and unchecked against it; the generator is not modelled: its outputs are counted, not assumed random"
  },
  {
   "property": "C87",
   "status": "proved",
   "theorems": [
    "C87_tallies_exact",
    "C87_tallies_add_up"
   ],
   "note": "each figure saturates at the largest value of its field; that the cpu figures add up to the consumption is proved for cpu limits below the largest 64-bit value"
  }
 ]
}