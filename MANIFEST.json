{
 "claims": [
  {
   "property": "C01",
   "status": "proved",
   "theorems": [
    "C01_name_is_def_or_alias"
   ],
   "note": ""
  },
  {
   "property": "C02",
   "status": "proved",
   "theorems": [
    "C02_options_follow_history",
    "C02_return_type_defaults_to_node_type_refuted",
    "C02_last_define_wins",
    "C02_definitions_come_from_define",
    "C02_calls_are_independent"
   ],
   "note": ""
  },
  {
   "property": "C03",
   "status": "proved",
   "theorems": [
    "C03_properties_follow_history",
    "C03_properties_absent",
    "C03_set_property_through_alias_refuted"
   ],
   "note": "Proved for every key other than the reserved \"callsite\". A companion theorem refutes the natural reading that SetProperty works through aliases."
  },
  {
   "property": "C04",
   "status": "proved",
   "theorems": [
    "C04_alias_resolution",
    "C04_alias_terminates_refuted"
   ],
   "note": "Companion theorem exhibits an accepted alias cycle on which GetDef diverges."
  },
  {
   "property": "C05",
   "status": "proved",
   "theorems": [
    "C05_wiring_specs_are_canonical",
    "C05_built_once",
    "C05_got_was_built",
    "C05_same_node",
    "C05_got_again",
    "C05_cycle_refuted",
    "C05_put_refuted",
    "C05_failed_alias_refuted"
   ],
   "note": "see NS_Props.v; companion _refuted theorems record what fails outside the guards"
  },
  {
   "property": "C06",
   "status": "proved",
   "theorems": [
    "C06_get_leads_to_nearest",
    "C06_nodes_are_accepted",
    "C06_edges_are_outer",
    "C06_at_most_once",
    "C06_got_is_held_or_linked",
    "C06_instantiate_then_get_refuted",
    "C06_proxy_then_get_refuted",
    "C06_put_refuted"
   ],
   "note": "see NS_Props.v; companion _refuted theorems record what fails outside the guards"
  },
  {
   "property": "C07",
   "status": "proved",
   "theorems": [
    "C07_done_means_all_ran",
    "C07_run_once",
    "C07_fails_at_first_error",
    "C07_one_at_a_time",
    "C07_back_runs_after",
    "C07_front_runs_before",
    "C07_request_gets_its_node",
    "C07_requests_run_in_reverse"
   ],
   "note": "see NS_Props.v; companion _refuted theorems record what fails outside the guards"
  },
  {
   "property": "C08",
   "status": "proved",
   "theorems": [
    "C08_first_free_port",
    "C08_preferred_ports",
    "C08_clear",
    "C08_clear_then_assign_again",
    "C08_assign_ports_correct",
    "C08_assign_ports_terminates",
    "C08_assign_ports_conflict",
    "C08_nonzero_without_room_refuted",
    "C08_always_terminates_refuted"
   ],
   "note": "Companion theorems show that when the 16-bit port space wraps a bind can get port 0, and when all ports are taken the search never ends."
  },
  {
   "property": "C09",
   "status": "proved",
   "theorems": [
    "C09_alphabet",
    "C09_case",
    "C09_func_name",
    "C09_clean_name_legal",
    "C09_clean_name_idempotent",
    "C09_legal_names_unchanged",
    "C09_content_preserved",
    "C09_env_var",
    "C09_injective_refuted",
    "C09_no_spaces_refuted",
    "C09_replace_suffix"
   ],
   "note": "Spaces survive (contrary to the doc comment), a name can become empty, and distinct names can collide: stated as refuted companions."
  },
  {
   "property": "C10",
   "status": "proved",
   "theorems": [
    "C10_pointer_is_recorded",
    "C10_visibility_is_defined",
    "C10_added_to_namespace",
    "C10_client_side",
    "C10_server_side",
    "C10_pointer_starts_at_client_side",
    "C10_destination_is_checked",
    "C10_modifier_added_twice_refuted",
    "C10_namespace_called_dst_refuted",
    "C10_early_pointer_unchecked_refuted"
   ],
   "note": "Needs each client-side modifier added once and the pointer's own names left alone; what happens otherwise is shown by the refuted theorems."
  },
  {
   "property": "C11",
   "status": "proved",
   "theorems": [
    "C11_unique_within_granularity",
    "C11_check_succeeds_once",
    "C11_check_returns_the_node",
    "C11_no_spurious_errors"
   ],
   "note": "The check's build functions run inside the model of BuildIR; all other code is arbitrary."
  },
  {
   "property": "C12",
   "status": "proved",
   "theorems": [
    "C12_built_exactly_once",
    "C12_never_built_twice",
    "C12_right_builder",
    "C12_succeeds_iff",
    "C12_stops_at_the_first_error",
    "C12_each_builder_gets_all_its_nodes",
    "C12_independent_of_map_order_refuted",
    "C12_generators_have_their_own_directories_refuted"
   ],
   "note": "Builders, generators and the file system are arbitrary oracles. Refuted companions: map order decides for ambiguous nodes; generators with one clean name share a directory."
  },
  {
   "property": "C13",
   "status": "proved",
   "theorems": [
    "C13_preorder",
    "C13_no_duplicates",
    "C13_no_duplicates_for_shared_nodes_refuted",
    "C13_filters_partition",
    "C13_filters_agree",
    "C13_visited_first_time"
   ],
   "note": "A node shared by two namespaces is listed once per place (refuted companion)."
  },
  {
   "property": "C14",
   "status": "proved",
   "theorems": [
    "C14_precedence",
    "C14_argument_functional",
    "C14_child_namespace",
    "C14_read_once",
    "C14_empty_flag_refuted",
    "C14_redeclaration_panics"
   ],
   "note": "All quantified cases; findings stated as _refuted theorems."
  },
  {
   "property": "C15",
   "status": "proved",
   "theorems": [
    "C15_built_at_most_once",
    "C15_not_rebuilt",
    "C15_same_instance",
    "C15_handed_out_after_built",
    "C15_started_exactly_once",
    "C15_failure_not_cached",
    "C15_nearest_definition_answers",
    "C15_reentrant_build_refuted",
    "C15_concurrent_build_refuted"
   ],
   "note": "All quantified cases; findings stated as _refuted theorems."
  },
  {
   "property": "C16",
   "status": "proved",
   "theorems": [
    "C16_await",
    "C16_context_ends",
    "C16_grandchildren_refuted"
   ],
   "note": "All quantified cases; findings stated as _refuted theorems."
  },
  {
   "property": "C17",
   "status": "proved",
   "theorems": [
    "C17_plain_literal_matches_same_value",
    "C17_filter_means_query",
    "C17_integer_bound_matches_floats_refuted",
    "C17_evaluation_never_panics_refuted",
    "C17_ne_matches_missing_field_refuted",
    "C17_unknown_operators_are_rejected",
    "C17_unknown_condition_is_rejected",
    "C17_unknown_condition_beside_exists_refuted"
   ],
   "note": "Theorem for the whole supported query grammar; three divergences from MongoDB stated as refutations."
  },
  {
   "property": "C18",
   "status": "proved",
   "theorems": [
    "C18_exists_false_tests_operator_name",
    "C18_exists_false_excludes_present_refuted",
    "C18_exists_true_rejected"
   ],
   "note": "The documented meaning is refuted; what the code does is characterised exactly."
  },
  {
   "property": "C19",
   "status": "proved",
   "theorems": [
    "C19_array_literal_is_prefix",
    "C19_array_literal_exact_refuted",
    "C19_empty_literal_matches_anything"
   ],
   "note": "Exact matching is refuted; prefix semantics proved for every literal."
  },
  {
   "property": "C20",
   "status": "proved",
   "theorems": [
    "C20_add_to_set_is_by_value",
    "C20_update_effect_and_frame",
    "C20_field_paths_fit",
    "C20_update_succeeds",
    "C20_unset_effect_and_frame",
    "C20_failure_keeps_completed_prefix",
    "C20_set_keeps_later_elements_refuted",
    "C20_unset_keeps_later_elements_refuted",
    "C20_update_document_is_atomic_refuted",
    "C20_pull_makes_no_fields_refuted",
    "C20_updates_reach_where_queries_do_refuted"
   ],
   "note": "Frame and effect proved under the end-of-array proviso; truncation, non-atomicity and other surprises stated as refutations."
  },
  {
   "property": "C21",
   "status": "proved",
   "theorems": [
    "C21_malformed_updates_are_rejected",
    "C21_inc_wraps_at_size",
    "C21_inc_adds_modulo_width",
    "C21_inc_there_and_back"
   ],
   "note": "All widths, all amounts, including overflow."
  },
  {
   "property": "C22",
   "status": "proved",
   "theorems": [
    "C22_collection_is_ordered_list",
    "C22_every_call_meets_its_specification",
    "C22_malformed_filter_is_reported",
    "C22_inserted_documents_have_ids",
    "C22_replacemany_reports_malformed_filter_refuted",
    "C22_failed_replacement_keeps_document_refuted",
    "C22_documents_always_have_ids_refuted",
    "C22_ids_are_unique_refuted"
   ],
   "note": "Refinement to an ordered list over all histories; four expectations refuted."
  },
  {
   "property": "C23",
   "status": "proved",
   "theorems": [
    "C23_upsert_replaces_or_inserts",
    "C23_upsert_converges",
    "C23_upsertid_converges",
    "C23_upsertid_converges_without_id_refuted"
   ],
   "note": "Converges when the document satisfies the query; refuted for UpsertID without _id."
  },
  {
   "property": "C24",
   "status": "proved",
   "theorems": [
    "C24_cache_is_last_write",
    "C24_get_reply",
    "C24_mget_reply",
    "C24_mget_stops_at_error",
    "C24_mset_reply",
    "C24_other_keys_untouched",
    "C24_incr_reply"
   ],
   "note": "atomic-map histories; values copied with the CopyResult model"
  },
  {
   "property": "C25",
   "status": "proved",
   "theorems": [
    "C25_counter_bounds",
    "C25_serial_increments_counted",
    "C25_increments_not_lost_refuted"
   ],
   "note": "bounds for all interleavings; lost update refutation included"
  },
  {
   "property": "C26",
   "status": "proved",
   "theorems": [
    "C26_queue_fifo",
    "C26_failure_only_if_cancelled",
    "C26_progress",
    "C26_blocks",
    "C26_popped_items_are_received_refuted"
   ],
   "note": "all interleavings; finding: item lost on incompatible destination"
  },
  {
   "property": "C27",
   "status": "proved",
   "theorems": [
    "C27_pool_limit",
    "C27_no_client_shared",
    "C27_push_never_blocks",
    "C27_statistics_exact"
   ],
   "note": "all interleavings of atomic steps, any number of goroutines; callers push only clients they hold"
  },
  {
   "property": "C28",
   "status": "proved",
   "theorems": [
    "C28_waiter_can_be_served",
    "C28_waiter_can_be_served_despite_failures",
    "C28_waiter_takes_returned_client",
    "C28_no_waiter_below_capacity_refuted"
   ],
   "note": "possibility of progress; finding: stranded waiter after a failed build"
  },
  {
   "property": "C29",
   "status": "proved",
   "theorems": [
    "C29_slots_match_proportions",
    "C29_valid_means_100",
    "C29_valid_suffices_refuted"
   ],
   "note": "any sort order; finding: negative proportions accepted"
  },
  {
   "property": "C30",
   "status": "proved",
   "theorems": [
    "C30_every_request_accounted",
    "C30_no_panic",
    "C30_no_deadlock"
   ],
   "note": "all interleavings incl. no-deadlock"
  },
  {
   "property": "C31",
   "status": "proved",
   "theorems": [
    "C31_get_cached",
    "C31_first_registered_wins",
    "C31_setdefault_wins",
    "C31_unknown_default_reported",
    "C31_none_registered_reported",
    "C31_early_setdefault_obeyed_refuted",
    "C31_concurrent_get_refuted"
   ],
   "note": "sequential histories; findings: early SetDefault overridden, unsynchronised Get"
  },
  {
   "property": "C32",
   "status": "proved",
   "theorems": [
    "C32_retry_first_success",
    "C32_fixed_delay",
    "C32_success_means_called_refuted",
    "C32_sleep_only_between_tries_refuted"
   ],
   "note": "Companions refute: success implies the service was called (Max<=0), and sleeping only between tries."
  },
  {
   "property": "C33",
   "status": "proved",
   "theorems": [
    "C33_exponential_backoff",
    "C33_zero_delay_terminates_refuted",
    "C33_jitter_never_panics_refuted"
   ],
   "note": "Companions: zero starting delay never terminates; jitter with a 1ns delay panics."
  },
  {
   "property": "C34",
   "status": "proved",
   "theorems": [
    "C34_rate_limit_budget",
    "C34_rate_limited_request",
    "C34_rate_per_second_refuted",
    "C34_zero_is_unlimited_refuted",
    "C34_attempt_numbers_refuted",
    "C34_retry_numbers",
    "C34_concurrent_budget_refuted"
   ],
   "note": "Exact arithmetic instead of float64. Companions refute the documented readings and the bound under concurrent requests (acquireToken takes no lock)."
  },
  {
   "property": "C35",
   "status": "proved",
   "theorems": [
    "C35_bucket_bounds_retries",
    "C35_request",
    "C35_lifetime_bound",
    "C35_drained_forever"
   ],
   "note": "Exact arithmetic instead of float64, one request at a time."
  },
  {
   "property": "C36",
   "status": "proved",
   "theorems": [
    "C36_round_robin",
    "C36_fair",
    "C36_consecutive_distinct",
    "C36_no_clients_refuted"
   ],
   "note": ""
  },
  {
   "property": "C37",
   "status": "proved",
   "theorems": [
    "C37_completed_result",
    "C37_result_or_timeout_atomic_reads",
    "C37_timeout_only_after_deadline",
    "C37_returns_after_deadline",
    "C37_timeout_reported",
    "C37_result_or_timeout_refuted",
    "C37_no_goroutine_leak_refuted"
   ],
   "note": "Small-step model of goroutine, caller and timer with separate writes and reads of the named results. Companions refute the unguarded reading and show the goroutine leak."
  },
  {
   "property": "C38",
   "status": "proved",
   "theorems": [
    "C38_import_names_are_unique",
    "C38_import_names_are_stable",
    "C38_local_package_has_no_qualifier",
    "C38_no_other_imports"
   ],
   "note": "A package's own name is taken to be the last component of its path."
  },
  {
   "property": "C39",
   "status": "proved",
   "theorems": [
    "C39_modules_have_their_own_directories",
    "C39_listed_once",
    "C39_no_redeclaration",
    "C39_generated_modules_can_clash_refuted",
    "C39_a_failed_module_is_remembered_refuted"
   ],
   "note": "theories/Workspace_*.v"
  },
  {
   "property": "C40",
   "status": "proved",
   "theorems": [
    "C40_generated_file",
    "C40_redeclaration",
    "C40_constructor_arguments",
    "C40_bad_arguments",
    "C40_argument_names_refuted",
    "C40_literals_are_not_escaped_refuted"
   ],
   "note": "theories/NsBuild_*.v"
  },
  {
   "property": "C41",
   "status": "proved",
   "theorems": [
    "C41_one_write",
    "C41_last_write",
    "C41_failed_write",
    "C41_stale_end_refuted"
   ],
   "note": "theories/WrapGen_*.v"
  },
  {
   "property": "C42",
   "status": "proved",
   "theorems": [
    "C42_dials_reach_servers",
    "C42_order_independent",
    "C42_errors",
    "C42_terminates",
    "C42_hostnames_distinct",
    "C42_order_independent_for_shared_address_refuted",
    "C42_colliding_names_refuted"
   ],
   "note": ""
  },
  {
   "property": "C43",
   "status": "proved",
   "theorems": [
    "C43_every_variable_resolves",
    "C43_unusable_arguments_are_errors",
    "C43_client_only_container_is_told_refuted",
    "C43_pod_names"
   ],
   "note": "guard: containers with at least one directly set variable; the unconditional claim is refuted"
  },
  {
   "property": "C44",
   "status": "proved",
   "theorems": [
    "C44_bind_and_dial_agree",
    "C44_distinct_addresses_distinct_ports",
    "C44_order_independent",
    "C44_no_other_variable",
    "C44_ports_nonzero_refuted",
    "C44_every_bind_has_a_variable_refuted",
    "C44_variable_names_collide_refuted"
   ],
   "note": ""
  },
  {
   "property": "C45",
   "status": "proved",
   "theorems": [
    "C45_arguments_exact",
    "C45_missing_variable_starts_nothing",
    "C45_independent_processes_start_once",
    "C45_dependencies_start_first",
    "C45_body_extracted",
    "C45_each_process_starts_once_refuted",
    "C45_failed_dependency_stops_dependents_refuted"
   ],
   "note": "start-once for shared processes and failure propagation are refuted"
  },
  {
   "property": "C46",
   "status": "proved",
   "theorems": [
    "C46_delay_in_range",
    "C46_delay_exact",
    "C46_latency_exact",
    "C46_failure_probability",
    "C46_failure_extremes",
    "C46_failure_count",
    "C46_delay_never_panics_refuted"
   ],
   "note": ""
  },
  {
   "property": "C47",
   "status": "proved",
   "theorems": [
    "C47_lines",
    "C47_indent_lines",
    "C47_indent_composes",
    "C47_reindent_shifts"
   ],
   "note": ""
  },
  {
   "property": "C48",
   "status": "proved",
   "theorems": [
    "C48_copy_preserves_data",
    "C48_copy_succeeds",
    "C48_panics_only_on_nil",
    "C48_only_into_pointers",
    "C48_never_panics_refuted"
   ],
   "note": "finding: panics on nil source into non-nilable destination"
  },
  {
   "property": "C49",
   "status": "proved",
   "theorems": [
    "C49_namespace_gets_all_children",
    "C49_pointer_instantiates_server",
    "C49_pointer_instantiates_only_if_needed",
    "C49_pointer_fails_for_a_reason",
    "C49_server_error_lost_refuted"
   ],
   "note": "The dropped error is C49_server_error_lost_refuted."
  },
  {
   "property": "C50",
   "status": "proved",
   "theorems": [
    "C50_variadic_names_mean_their_types",
    "C50_names_mean_their_types",
    "C50_names_are_stable",
    "C50_equals",
    "C50_channel_of_receive_channels_refuted",
    "C50_ellipsis_refuted"
   ],
   "note": "Texts are token sequences; Go's grammar of types is the specification. Refuted companions: channel of receive-only channels; ellipsis."
  },
  {
   "property": "C51",
   "status": "proved",
   "theorems": [
    "C51_modules_find_each_other",
    "C51_reports_failed_updates_refuted"
   ],
   "note": "theories/Workspace_*.v"
  },
  {
   "property": "C52",
   "status": "proved",
   "theorems": [
    "C52_modules_are_required_once",
    "C52_local_modules_are_copied",
    "C52_both_modules_of_a_service_refuted"
   ],
   "note": "theories/Workspace_*.v"
  },
  {
   "property": "C53",
   "status": "proved",
   "theorems": [
    "C53_wrappers_behave_as_asked",
    "C53_client_pools_refuted",
    "C53_circuit_breakers_refuted",
    "C53_retriers_refuted",
    "C53_grpc_and_thrift_refuted",
    "C53_same_interface_name_refuted"
   ],
   "note": "theories/WrapGen_*.v"
  },
  {
   "property": "C54",
   "status": "proved",
   "theorems": [
    "C54_artifacts_iff_compiles",
    "C54_exit_codes",
    "C54_stages_in_order",
    "C54_registrations_accumulate",
    "C54_port_in_range",
    "C54_err_reports_all_errors",
    "C54_recorded_errors_stop_the_build_refuted",
    "C54_port_validated_refuted"
   ],
   "note": "Stage functions are oracles. Recorded errors being ignored and port truncation are stated as refuted."
  },
  {
   "property": "C55",
   "status": "proved",
   "theorems": [
    "C55_grpc_values_arrive",
    "C55_thrift_values_arrive",
    "C55_what_arrives",
    "C55_maps_never_arrive",
    "C55_pointers_crash",
    "C55_delivered_or_crash",
    "C55_thrift_int_truncated",
    "C55_second_name_lost_refuted",
    "C55_embedded_field_lost"
   ],
   "note": ""
  },
  {
   "property": "C56",
   "status": "proved",
   "theorems": [
    "C56_generation_terminates",
    "C56_messages_for_used_structs"
   ],
   "note": ""
  },
  {
   "property": "C57",
   "status": "proved",
   "theorems": [
    "C57_grpc_like_local",
    "C57_thrift_like_local",
    "C57_http_like_local",
    "C57_errors_indistinguishable"
   ],
   "note": ""
  },
  {
   "property": "C58",
   "status": "proved",
   "theorems": [
    "C58_success_means_done_grpc",
    "C58_success_means_done_thrift",
    "C58_success_means_done_http",
    "C58_failure_is_reported",
    "C58_at_most_once",
    "C58_http_runs_again",
    "C58_deadline"
   ],
   "note": ""
  },
  {
   "property": "C59",
   "status": "proved",
   "theorems": [
    "C59_package_matches_source",
    "C59_meaning_is_unique",
    "C59_embedding_drops_functions",
    "C59_file_order_is_irrelevant_refuted",
    "C59_parses_what_compiles_refuted",
    "C59_undeclared_names_are_reported_refuted"
   ],
   "note": ""
  },
  {
   "property": "C60",
   "status": "proved",
   "theorems": [
    "C60_implements_means_satisfies",
    "C60_implements_is_sound",
    "C60_implements_from_source",
    "C60_generic_types_cannot_be_compared",
    "C60_no_panic_refuted",
    "C60_function_types_are_told_apart_refuted",
    "C60_identical_types_are_recognised_refuted"
   ],
   "note": ""
  },
  {
   "property": "C61",
   "status": "proved",
   "theorems": [
    "C61_found_service_is_for_type",
    "C61_service_is_found",
    "C61_otherwise_an_error",
    "C61_lookup_is_deterministic",
    "C61_every_struct_satisfies_the_empty_interface",
    "C61_always_deterministic_refuted"
   ],
   "note": ""
  },
  {
   "property": "C62",
   "status": "proved",
   "theorems": [
    "C62_arguments_match_constructor",
    "C62_fails_only_for_a_reason",
    "C62_string_arguments_are_values_refuted",
    "C62_client_interface"
   ],
   "note": ""
  },
  {
   "property": "C63",
   "status": "proved",
   "theorems": [
    "C63_one_module_per_directory",
    "C63_one_directory_per_module",
    "C63_modules_stay",
    "C63_snapshot",
    "C63_add_modules_succeeds_iff",
    "C63_add_modules_adds_exactly",
    "C63_redeclaration_rejected",
    "C63_redeclaration_rejected_refuted",
    "C63_names_are_consistent",
    "C63_names_complete_refuted",
    "C63_get_package",
    "C63_parents_end",
    "C63_get_package_deterministic",
    "C63_get_package_deterministic_refuted",
    "C63_add_marks_module",
    "C63_add_succeeds_iff",
    "C63_add_never_panics_refuted",
    "C63_sets_are_independent_refuted",
    "C63_sets_are_current_refuted",
    "C63_new_set"
   ],
   "note": ""
  },
  {
   "property": "C64",
   "status": "proved",
   "theorems": [
    "C64_redis_gets_see_what_was_written",
    "C64_memcached_gets_see_what_was_written",
    "C64_redis_mgets_see_what_was_written",
    "C64_memcached_mgets_see_what_was_written",
    "C64_acknowledged_puts_are_read"
   ],
   "note": ""
  },
  {
   "property": "C65",
   "status": "proved",
   "theorems": [
    "C65_redis_replaces_simplecache",
    "C65_memcached_replaces_simplecache",
    "C65_redis_mget_of_a_missing_key_fails",
    "C65_mget_of_a_missing_key_refuted",
    "C65_memcached_needs_the_key",
    "C65_missing_keys_refuted",
    "C65_counter_range_refuted",
    "C65_int_counter_refuted",
    "C65_interface_destination_refuted",
    "C65_lengths_refuted",
    "C65_memcached_limits_refuted",
    "C65_unencodable_values_refuted",
    "C65_memcached_repeated_keys_refuted"
   ],
   "note": ""
  },
  {
   "property": "C66",
   "status": "proved",
   "theorems": [
    "C66_redis_counts",
    "C66_memcached_counts",
    "C66_calm_increments_are_acknowledged"
   ],
   "note": ""
  },
  {
   "property": "C67",
   "status": "proved",
   "theorems": [
    "C67_messages_are_accounted_for",
    "C67_acknowledged_items_arrive",
    "C67_one_client_is_fifo",
    "C67_pop_takes_the_first",
    "C67_giving_up_needs_cancellation",
    "C67_messages_stay_with_their_client",
    "C67_waiting_pops_receive_items_refuted",
    "C67_lost_connections_fail_for_ever"
   ],
   "note": ""
  },
  {
   "property": "C68",
   "status": "proved",
   "theorems": [
    "C68_only_json_data_is_received",
    "C68_ints_and_structs_are_never_received",
    "C68_surviving_items_are_received",
    "C68_every_item_is_received_refuted"
   ],
   "note": ""
  },
  {
   "property": "C69",
   "status": "proved",
   "theorems": [
    "C69_valid_means_not_all_zero",
    "C69_span_context_round_trip",
    "C69_accepted_contexts_are_valid",
    "C69_panics_exactly_without_flags",
    "C69_servers_survive_all_texts_refuted"
   ],
   "note": ""
  },
  {
   "property": "C70",
   "status": "proved",
   "theorems": [
    "C70_spans_are_the_calls",
    "C70_errors_are_handed_on",
    "C70_deployment_does_not_matter",
    "C70_unsampled_requests_leave_no_spans"
   ],
   "note": ""
  },
  {
   "property": "C71",
   "status": "proved",
   "theorems": [
    "C71_clocks_tell_what_happened_before",
    "C71_clocks_are_distinct",
    "C71_own_component_counts",
    "C71_a_call_is_ordered",
    "C71_a_restart_is_not_ordered_refuted"
   ],
   "note": ""
  },
  {
   "property": "C72",
   "status": "proved",
   "theorems": [
    "C72_everything_is_reported",
    "C72_each_once",
    "C72_one_connected_trace",
    "C72_events_are_linked",
    "C72_a_call_is_a_chain",
    "C72_calls_in_a_row_are_ordered_refuted",
    "C72_end_comes_after_the_calls_refuted"
   ],
   "note": ""
  },
  {
   "property": "C73",
   "status": "proved",
   "theorems": [
    "C73_build_succeeds",
    "C73_application",
    "C73_process_contents",
    "C73_process_configuration",
    "C73_one_instance",
    "C73_arguments",
    "C73_remote_calls",
    "C73_sharing_refuted"
   ],
   "note": "sharing condition shown necessary by C73_sharing_refuted"
  },
  {
   "property": "C74",
   "status": "proved",
   "theorems": [
    "C74_sequential",
    "C74_final",
    "C74_merge_exactly",
    "C74_merge_with_itself",
    "C74_merge_refuted",
    "C74_price_refuted"
   ],
   "note": "Claims that quantities always add up or that a price follows AddItem are refuted."
  },
  {
   "property": "C75",
   "status": "proved",
   "theorems": [
    "C75_well_formed",
    "C75_isolated",
    "C75_lost_update_refuted",
    "C75_all_or_nothing",
    "C75_merge_failures",
    "C75_retry_safe",
    "C75_retry_refuted"
   ],
   "note": "Lost updates and doubled retries are refuted claims."
  },
  {
   "property": "C76",
   "status": "proved",
   "theorems": [
    "C76_orders",
    "C76_answers",
    "C76_alone",
    "C76_other_carts",
    "C76_total",
    "C76_unknown_refuted",
    "C76_cart_refuted",
    "C76_meanwhile_refuted",
    "C76_retry_refuted"
   ],
   "note": "Order_Props.v; guarantees NewOrder does not give are refuted by reachable witnesses"
  },
  {
   "property": "C77",
   "status": "proved",
   "theorems": [
    "C77_accounted",
    "C77_stays_shipped",
    "C77_delivery",
    "C77_blocked",
    "C77_stuck_modified",
    "C77_blocked_refuted"
   ],
   "note": "Order_Props.v; delivery under the stated guard, both ways of blocking proved and exhibited"
  },
  {
   "property": "C78",
   "status": "proved",
   "theorems": [
    "C78_image",
    "C78_mixed",
    "C78_starts",
    "C78_deployment",
    "C78_deployment_iff",
    "C78_generated",
    "C78_names_refuted",
    "C78_containers_refuted"
   ],
   "note": "Docker is modelled by the instructions the generated Dockerfiles use; compiling one process's own sources is assumed to succeed (the subject of C40, C51); names outside the conditions are refuted by concrete witnesses."
  },
  {
   "property": "C79",
   "status": "proved",
   "theorems": [
    "C79_transparent",
    "C79_rejects_only_after",
    "C79_healthy",
    "C79_rejects_while",
    "C79_trips",
    "C79_recovers",
    "C79_reopens",
    "C79_interval_refuted",
    "C79_rate_refuted",
    "C79_panic_refuted"
   ],
   "note": "The library go-circuitbreaker is modelled after its documentation, with what it leaves open as parameters; the rate is exact arithmetic. What the plugin's documentation promises beyond the statement is refuted (interval, rate, panics)."
  },
  {
   "property": "C80",
   "status": "proved",
   "theorems": [
    "C80_exchange",
    "C80_counts",
    "C80_order_invisible",
    "C80_filters",
    "C80_upsert_refuted",
    "C80_count_refuted",
    "C80_duplicate_refuted",
    "C80_replace_id_refuted",
    "C80_lost_id_refuted",
    "C80_insert_many_refuted",
    "C80_cursor_refuted",
    "C80_projection_refuted",
    "C80_replace_many_refuted"
   ],
   "note": "Simulation between the in-memory collection and the MongoDB adapter over a server whose query and update languages are parameters; conditions stated call by call in Mongo_Spec.v. The _refuted theorems show each difference outside them."
  },
  {
   "property": "C81",
   "status": "proved",
   "theorems": [
    "C81_registers_exactly",
    "C81_files",
    "C81_generates",
    "C81_tests_reach_application",
    "C81_one_suiting_service",
    "C81_other_registries_unchanged",
    "C81_deterministic_refuted",
    "C81_local_code_is_overridden_refuted",
    "C81_registries_are_found_refuted",
    "C81_found_in_every_order_refuted",
    "C81_embedding_refuted",
    "C81_test_packages_refuted",
    "C81_compiles_refuted",
    "C81_modules_combine_refuted",
    "C81_generic_types_refuted"
   ],
   "note": "Full statement for modules the parser handles; the excluded behaviours have refutation theorems."
  },
  {
   "property": "C82",
   "status": "proved",
   "theorems": [
    "C82_never_overbooked",
    "C82_one_at_a_time",
    "C82_answered",
    "C82_concurrent_refuted",
    "C82_check_refuted",
    "C82_evicted_refuted",
    "C82_negative_refuted",
    "C82_overflow_refuted",
    "C82_no_nights_refuted",
    "C82_bad_date_refuted",
    "C82_ignored_error_refuted",
    "C82_failed_refuted",
    "C82_restart_refuted"
   ],
   "note": "Full statement (integers taken as unbounded; overflow has its own refutation)."
  },
  {
   "property": "C83",
   "status": "proved",
   "theorems": [
    "C83_when_equal",
    "C83_increasing",
    "C83_answered",
    "C83_early",
    "C83_machine_id",
    "C83_next_millisecond_refuted",
    "C83_sixteen_ids_refuted",
    "C83_one_millisecond_refuted",
    "C83_containers_refuted",
    "C83_past_refuted"
   ],
   "note": "Collision characterised exactly; uniqueness itself is refuted for present-day clocks by companion theorems."
  },
  {
   "property": "C84",
   "status": "proved",
   "theorems": [
    "C84_answers",
    "C84_symmetric",
    "C84_database",
    "C84_acknowledged",
    "C84_read_errors",
    "C84_concurrent_follows_refuted",
    "C84_concurrent_read_refuted",
    "C84_eviction_refuted",
    "C84_eviction_follow_refuted",
    "C84_cache_error_refuted",
    "C84_failed_follow_refuted",
    "C84_unknown_users_refuted",
    "C84_large_ids_refuted"
   ],
   "note": "For histories without overlapping calls on one list, failures and evictions; the other cases are refuted by companion theorems."
  },
  {
   "property": "C85",
   "status": "proved",
   "theorems": [
    "C85_panics_iff",
    "C85_consumer_interface",
    "C85_compiles_iff",
    "C85_implements",
    "C85_transparent",
    "C85_any_order_refuted",
    "C85_argument_names_refuted",
    "C85_unnamed_arguments_refuted",
    "C85_own_health_refuted",
    "C85_ret_names_refuted",
    "C85_two_stacks_refuted"
   ],
   "note": "C85_panics_iff: for every stack and interface, exact condition for the compiler's panic. C85_consumer_interface: exact methods. C85_compiles_iff: exact condition (modulo ret names) for all generated code to pass the modelled Go checks. C85_transparent: every call, all extra values. Refuted companions: order, argument names, unnamed arguments, own Health method, ret names, two stacks of one type."
  },
  {
   "property": "C86",
   "status": "proved",
   "theorems": [
    "C86_names",
    "C86_panics_iff",
    "C86_calls",
    "C86_calls_possible",
    "C86_local_calls",
    "C86_local_modifiers_refuted"
   ],
   "note": "C86_names, C86_panics_iff, C86_calls (exact path of every call), C86_calls_possible, C86_local_calls; refuted: the balancer's modifiers are bypassed in the consumer's own process."
  },
  {
   "property": "C87",
   "status": "proved",
   "theorems": [
    "C87_login_sound",
    "C87_one_owner",
    "C87_unregistered",
    "C87_creator_sound",
    "C87_ends",
    "C87_login_complete",
    "C87_creator_complete",
    "C87_register_ok",
    "C87_taken",
    "C87_unique",
    "C87_register_complete",
    "C87_race_refuted",
    "C87_taken_id_refuted",
    "C87_failed_register_refuted"
   ],
   "note": "Hash abstract (premises: injective, never empty); names, token signature and expiry left out; companion refutations for what fails."
  },
  {
   "property": "C88",
   "status": "proved",
   "theorems": [
    "C88_nothing_invented",
    "C88_delivered",
    "C88_appended",
    "C88_write_works",
    "C88_read",
    "C88_race_refuted",
    "C88_author_refuted",
    "C88_retry_refuted",
    "C88_page_refuted"
   ],
   "note": "The posts that ReadPosts returns are thrown away by the code, so only its failure is modelled; companion refutations for what fails."
  },
  {
   "property": "C89",
   "status": "proved",
   "theorems": [
    "C89_login_sound",
    "C89_not_shared",
    "C89_own",
    "C89_item_deleted",
    "C89_user_deleted",
    "C89_created",
    "C89_posted",
    "C89_no_dangling",
    "C89_login_complete",
    "C89_dangling_refuted",
    "C89_lost_insert_refuted",
    "C89_unknown_user_refuted",
    "C89_same_name_refuted",
    "C89_short_card_refuted",
    "C89_db_failure_refuted",
    "C89_orphan_refuted",
    "C89_early_delete_refuted"
   ],
   "note": "Listing calls (GetUsers, GetCards, GetAddresses) are not modelled; of cards only the number, of addresses only a text is kept."
  },
  {
   "property": "C90",
   "status": "proved",
   "theorems": [
    "C90_added",
    "C90_added_id",
    "C90_deleted",
    "C90_origin",
    "C90_answered",
    "C90_list",
    "C90_pages",
    "C90_get",
    "C90_add_get",
    "C90_tags",
    "C90_tags_once",
    "C90_untagged_refuted",
    "C90_update_refuted",
    "C90_tags_twice_refuted",
    "C90_page_refuted",
    "C90_comma_refuted",
    "C90_order_refuted",
    "C90_overlap_refuted"
   ],
   "note": "catalogue with interleaved SQL statements, refusals, lost answers and kills; joins, grouping, paging and comma splitting modelled; what fails is in the _refuted theorems"
  },
  {
   "property": "C91",
   "status": "proved",
   "theorems": [
    "C91_post_sound",
    "C91_post_complete",
    "C91_posts_sound",
    "C91_posts_complete",
    "C91_posts_once",
    "C91_cache_invisible",
    "C91_machines",
    "C91_large_id_refuted",
    "C91_other_id_refuted",
    "C91_order_refuted",
    "C91_retry_refuted"
   ],
   "note": "All for every history with interleaving, failures, lost answers and evictions; bulk reads for ids up to 2^53. The refuted theorems show what fails for larger ids."
  },
  {
   "property": "C92",
   "status": "proved",
   "theorems": [
    "C92_read_sound",
    "C92_stored",
    "C92_written",
    "C92_read_all",
    "C92_breaks",
    "C92_broken",
    "C92_part_refuted",
    "C92_eviction_refuted",
    "C92_overlap_refuted",
    "C92_two_documents_refuted",
    "C92_cursor_refuted",
    "C92_retry_refuted",
    "C92_large_refuted"
   ],
   "note": "Soundness for every history; the stored order for one writer per user with failures; the exact answers for calls one after the other; the breaking of timelines as theorems over all later histories."
  },
  {
   "property": "C93",
   "status": "proved",
   "theorems": [
    "C93_characters",
    "C93_cut",
    "C93_stored",
    "C93_exchanged",
    "C93_beginning_refuted",
    "C93_host_refuted",
    "C93_colon_refuted",
    "C93_path_refuted",
    "C93_twice_refuted",
    "C93_failed_refuted"
   ],
   "note": "cut of a text at its links exists and is unique; links stored and returned; replacement exact under stated conditions; counterexamples for each condition"
  },
  {
   "property": "C94",
   "status": "proved",
   "theorems": [
    "C94_characters",
    "C94_sound",
    "C94_complete",
    "C94_once",
    "C94_names",
    "C94_answers",
    "C94_unknown_refuted",
    "C94_twice_refuted",
    "C94_order_refuted",
    "C94_mail_refuted"
   ],
   "note": "invariant over all histories of interleaved calls; counterexamples for unknown names, repeated names, order, mail addresses"
  },
  {
   "property": "C95",
   "status": "proved",
   "theorems": [
    "C95_acknowledged",
    "C95_traced",
    "C95_refused",
    "C95_once",
    "C95_atomic_refuted",
    "C95_order_refuted",
    "C95_time_refuted"
   ],
   "note": "invariants over all histories of interleaved calls; counterexamples for atomicity, order of writes and the post's time"
  },
  {
   "property": "C96",
   "status": "proved",
   "theorems": [
    "C96_sound",
    "C96_exact",
    "C96_search",
    "C96_failed",
    "C96_cached_failure_refuted",
    "C96_two_instances_refuted",
    "C96_unknown_refuted"
   ],
   "note": "Nearby is modelled only as the projection of rates to hotel ids; the geo service is not. The refuted parts are proved as C96_cached_failure_refuted, C96_two_instances_refuted and C96_unknown_refuted."
  }
 ]
}