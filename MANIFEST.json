{
 "claims": [
  {
   "property": "C01",
   "status": "partial",
   "theorems": [
    "C01_directives_decide_partial",
    "C01_exact_decision",
    "C01_skip_and_include_refuted",
    "C01_include_false_refuted",
    "C01_unwanted_fields_are_pruned",
    "C01_only_wanted_resolvers_run",
    "C01_wanted_root_resolvers_run"
   ],
   "note": "Proved for every pair of directives except a variable @skip combined with an @include that is not constantly true; C01_exact_decision gives the exact behaviour for all pairs, and the two refuted theorems show the code answers fields that were excluded."
  },
  {
   "property": "C02",
   "status": "partial",
   "theorems": [
    "C02_no_null_where_forbidden_partial",
    "C02_null_from_resolver_is_an_error",
    "C02_alias_leaks_null_refuted",
    "C02_alias_panics_refuted",
    "C02_list_nullability_refuted"
   ],
   "note": "Proved for every plan whose resolver-less fields with resolvers below are not aliased; the refuted theorems show null leaking (and an index panic) with such an alias, and list nullability not being enforced."
  },
  {
   "property": "C03",
   "status": "proved",
   "theorems": [
    "C03_response_members",
    "C03_response_is_an_object",
    "C03_object_names"
   ],
   "note": ""
  },
  {
   "property": "C04",
   "status": "proved",
   "theorems": [
    "C04_schedule_independent",
    "C04_same_response",
    "C04_same_evaluations"
   ],
   "note": ""
  },
  {
   "property": "C05",
   "status": "proved",
   "theorems": [
    "C05_one_call_per_applicable_element",
    "C05_result_at_each_position",
    "C05_error_is_first_failing_element"
   ],
   "note": ""
  },
  {
   "property": "C06",
   "status": "proved",
   "theorems": [
    "C06_checks_in_front",
    "C06_unauthenticated_runs_nothing",
    "C06_authenticated_changes_nothing",
    "C06_rewritten_resolver_is_the_same"
   ],
   "note": ""
  },
  {
   "property": "C07",
   "status": "partial",
   "theorems": [
    "C07_origin_of_cached_responses",
    "C07_cached_is_fresh_partial",
    "C07_guarded_is_never_cached_partial",
    "C07_mixed_protection_refuted",
    "C07_variables_refuted",
    "C07_operation_name_refuted"
   ],
   "note": "Proved: where every cached response comes from, that fully guarded operations are never cached, and that for constant plans without guards and variable conditions the cached response is the fresh one. Refuted: mixed guarded/unguarded constant operations are served to unauthenticated callers; variables and operation name are not part of the key."
  },
  {
   "property": "C08",
   "status": "partial",
   "theorems": [
    "C08_plan_of_the_same_text",
    "C08_cache_is_transparent_partial",
    "C08_failures_are_not_hidden_partial",
    "C08_other_operation_refuted",
    "C08_unknown_operation_refuted"
   ],
   "note": "Proved under: distinct texts have distinct hashes and each text is sent with one operation name. Refuted without the latter: the plan of another operation of the document is used, and unknown operation names succeed."
  },
  {
   "property": "C09",
   "status": "partial",
   "theorems": [
    "C09_own_answer_partial",
    "C09_unshared_members_partial",
    "C09_batch_members_mixed_up_refuted",
    "C09_batch_poisons_the_cache_refuted"
   ],
   "note": "Proved when operation identifiers tell operations apart, or when plans may not be shared. Refuted for batches: all members share one identifier, so a member that joins another's execution gets the other's data, which may then be cached for everybody."
  },
  {
   "property": "C10",
   "status": "proved",
   "theorems": [
    "C10_calls_get_their_own_values",
    "C10_failures_are_the_batchs_failures",
    "C10_an_ended_batch_answers_its_members",
    "C10_answers_are_final",
    "C10_nobody_is_forgotten",
    "C10_cached_values_were_fed_or_loaded",
    "C10_every_cache_on_offer_obeys_the_laws"
   ],
   "note": ""
  },
  {
   "property": "C11",
   "status": "proved",
   "theorems": [
    "C11_unanswered_calls_are_worked_on_once",
    "C11_batch_keys_are_its_members_keys",
    "C11_waiting_calls_have_a_timer",
    "C11_single_key_calls_never_overfill",
    "C11_batches_can_exceed_the_configured_size_refuted"
   ],
   "note": "The size bound is proved for calls with one key; for larger calls it is refuted by a witness (the loader never splits a batch)."
  },
  {
   "property": "C12",
   "status": "proved",
   "theorems": [
    "C12_one_execution_per_key_at_a_time",
    "C12_a_call_joins_a_running_execution",
    "C12_joined_calls_get_the_result",
    "C12_a_finished_execution_releases_the_waiting",
    "C12_a_dropped_execution_releases_the_waiting",
    "C12_a_call_executes_when_nobody_else_does",
    "C12_nobody_waits_in_vain",
    "C12_where_results_come_from",
    "C12_stored_results_are_returned",
    "C12_stored_results_agree"
   ],
   "note": ""
  },
  {
   "property": "C13",
   "status": "partial",
   "theorems": [
    "C13_callers_get_the_records_of_their_own_id",
    "C13_the_merged_get_call",
    "C13_the_merged_call_with_bodies",
    "C13_when_a_batch_fails",
    "C13_like_its_own_call_partial",
    "C13_ungrouped_calls_are_their_own",
    "C13_every_group_has_path_and_key",
    "C13_headers_of_another_caller_refuted",
    "C13_parameters_of_another_caller_refuted",
    "C13_a_failure_of_another_caller_refuted"
   ],
   "note": "Each caller gets the records grouped under its own id: proved in full. \"What its own call would have returned\" is proved for services that select records by the ids listed and look at nothing else; refuted in general (headers and other parameters of the first caller are used for all; one failing ungrouped call fails all)."
  },
  {
   "property": "C14",
   "status": "proved",
   "theorems": [
    "C14_group_is_the_records_with_that_id",
    "C14_matches_total_and_unique",
    "C14_one_group_per_id",
    "C14_large_ids_refuted"
   ],
   "note": ""
  },
  {
   "property": "C15",
   "status": "proved",
   "theorems": [
    "C15_succeeds_iff_boolean_combination",
    "C15_error_is_some_providers_error",
    "C15_alternatives_report_most_severe",
    "C15_conjunction_reports_first_failure",
    "C15_conjunction_severity_refuted",
    "C15_outcome_laws",
    "C15_config_requires_every_provider",
    "C15_config_without_providers"
   ],
   "note": ""
  },
  {
   "property": "C16",
   "status": "proved",
   "theorems": [
    "C16_accepts_exactly_permitted_tokens",
    "C16_claim_checks",
    "C16_config_permits_every_claim"
   ],
   "note": ""
  },
  {
   "property": "C17",
   "status": "proved",
   "theorems": [
    "C17_written_templates_are_read",
    "C17_anything_else_is_text",
    "C17_rendering_replaces_expressions_only",
    "C17_print_then_read",
    "C17_constant_renders_to_itself",
    "C17_constant_ignores_context",
    "C17_partial_all_present",
    "C17_partial_none_present",
    "C17_lone_quote_refuted"
   ],
   "note": ""
  },
  {
   "property": "C18",
   "status": "partial",
   "theorems": [
    "C18_declared_shape",
    "C18_exact_behaviour",
    "C18_matches_iff_fits_partial",
    "C18_fitting_requests_match",
    "C18_longer_requests_do_not_match",
    "C18_first_match_answers",
    "C18_served_partial",
    "C18_not_found",
    "C18_shorter_requests_match_refuted",
    "C18_api_removed_everywhere_refuted",
    "C18_foreign_paths_are_answered_refuted"
   ],
   "note": "Proved for requests with at least as many segments as declared whose path contains \"/api\" only in front; the exact behaviour is characterised for all. Refuted: shorter requests match with parameters unset, \"/api\" is removed everywhere, and /apiary is answered."
  },
  {
   "property": "C19",
   "status": "partial",
   "theorems": [
    "C19_query_parameters_partial",
    "C19_query_is_ignored",
    "C19_parameters_lost_refuted",
    "C19_typed_by_another_variable_refuted",
    "C19_renamed_parameter_rejected_refuted"
   ],
   "note": "Proved for the matcher alone when the parameter and its variable have the same declared type. Refuted through the server, which drops the query string (proved for every URL), and for renamed parameters."
  },
  {
   "property": "C20",
   "status": "partial",
   "theorems": [
    "C20_merging_is_associative",
    "C20_empty_is_neutral",
    "C20_right_wins_on_single_settings",
    "C20_lists_are_concatenated",
    "C20_sets_are_united",
    "C20_unmentioned_batch_delay_refuted",
    "C20_unmentioned_route_refuted",
    "C20_json_members",
    "C20_json_associative_partial",
    "C20_json_associative_refuted"
   ],
   "note": ""
  },
  {
   "property": "C21",
   "status": "partial",
   "theorems": [
    "C21_inputs_are_accepted_by_each_subgraph",
    "C21_arguments_are_accepted_by_each_subgraph",
    "C21_nothing_else_is_refused",
    "C21_type_references",
    "C21_disjoint_input_types_refuted",
    "C21_enum_aliases_refuted"
   ],
   "note": "Proved for any number of subgraphs: what the merged schema accepts as input every subgraph accepts; for two, nothing else is refused. Premises: names mean the same kind of thing, input types share a field, types served only through an interface are no inputs, equal enum aliases (for the converse). Refuted without them: input types without a common field become a scalar that accepts anything; enum values whose aliases differ are dropped."
  },
  {
   "property": "C22",
   "status": "partial",
   "theorems": [
    "C22_outputs_of_each_subgraph_conform",
    "C22_type_references",
    "C22_interface_implementers_refuted"
   ],
   "note": "Proved for any number of subgraphs under the same premises. Refuted: a type that is an output only through its interface is not seen as one and loses fields when another subgraph uses it as input."
  },
  {
   "property": "C23",
   "status": "proved",
   "theorems": [
    "C23_shaking_terminates",
    "C23_types_kept_iff_reachable",
    "C23_unions_kept_iff_reachable",
    "C23_rest_untouched",
    "C23_no_new_dangling_reference",
    "C23_shaking_is_idempotent",
    "C23_subscription_root_refuted",
    "C23_interface_implementer_refuted"
   ],
   "note": ""
  },
  {
   "property": "C24",
   "status": "proved",
   "theorems": [
    "C24_search_terminates",
    "C24_reports_are_real",
    "C24_some_report_if_any_path",
    "C24_every_first_offender_reported"
   ],
   "note": ""
  },
  {
   "property": "C25",
   "status": "partial",
   "theorems": [
    "C25_max_age_is_a_lower_bound",
    "C25_private_is_kept",
    "C25_no_cache_is_kept_partial",
    "C25_order_is_irrelevant",
    "C25_batches_agree",
    "C25_batch_age_suits_every_member",
    "C25_batch_keeps_no_cache_and_private",
    "C25_errors_are_not_cacheable",
    "C25_threads_leave_a_policy",
    "C25_uninterrupted_updates_leave_the_smallest",
    "C25_parallel_updates_refuted",
    "C25_reused_answers_refuted",
    "C25_no_store_refuted",
    "C25_no_cache_lost_refuted"
   ],
   "note": "Max-age, private and order independence are proved in full for the answers the request fetched; no-cache when all ages are below 2^31. Refuted: larger ages wrap, no-store is ignored, answers taken over from a cache or from another request are not counted, and the update of the minimum is not atomic."
  },
  {
   "property": "C26",
   "status": "partial",
   "theorems": [
    "C26_accepted_is_substitutable_partial",
    "C26_any_field_refuted",
    "C26_validation_decides_conformance",
    "C26_enum_validation_refuted",
    "C26_reflexive",
    "C26_transitive"
   ],
   "note": ""
  },
  {
   "property": "C27",
   "status": "proved",
   "theorems": [
    "C27_parser_round_trip",
    "C27_same_values",
    "C27_representations_injective",
    "C27_operations_change_one_layer",
    "C27_operations_keep_the_name",
    "C27_with_name_only_renames"
   ],
   "note": ""
  },
  {
   "property": "C28",
   "status": "proved",
   "theorems": [
    "C28_discrimination_is_the_specified_one",
    "C28_assigned_type_is_declared",
    "C28_upstream_typename_refuted",
    "C28_discrimination_is_stable",
    "C28_construction"
   ],
   "note": ""
  },
  {
   "property": "C29",
   "status": "partial",
   "theorems": [
    "C29_only_allowed_origins",
    "C29_allowed_origins_are_answered",
    "C29_no_wildcard_with_credentials",
    "C29_wildcards_refused_at_start",
    "C29_without_configuration",
    "C29_wildcard_in_a_list_refuted",
    "C29_static_headers_bypass_refuted"
   ],
   "note": "Proved when the static response headers set no CORS header. Refuted: a wildcard that is one item of several is accepted next to credentials; a static allow-origin header survives for origins that are not allowed."
  },
  {
   "property": "C30",
   "status": "partial",
   "theorems": [
    "C30_one_pair_for_each_element",
    "C30_one_pair_with_commas",
    "C30_query_of_the_url",
    "C30_every_parameter_is_given_one_thing",
    "C30_query_is_well_formed",
    "C30_plain_urls_are_untouched",
    "C30_absent_values_refuted",
    "C30_arguments_add_parameters_refuted",
    "C30_path_arguments_add_parameters_refuted",
    "C30_characters_change_refuted",
    "C30_configured_query_changes_refuted",
    "C30_parts_are_lost_refuted"
   ],
   "note": "Proved for keys and values without &, %, + and line ends (and = in keys). Refuted: absent, null and empty values send a bare key; arguments with & or ? add parameters; + and % arrive changed; the query of the configured URL is decoded and not encoded again; only the first part of a value template is used."
  },
  {
   "property": "C31",
   "status": "partial",
   "theorems": [
    "C31_http_same_key_same_request",
    "C31_http_resolvers_partial",
    "C31_grpc_same_url_and_body_partial",
    "C31_graphql_same_body_partial",
    "C31_kinds_do_not_share",
    "C31_encoding_not_in_key_refuted",
    "C31_graphql_credentials_refuted",
    "C31_graphql_servers_refuted",
    "C31_grpc_credentials_refuted"
   ],
   "note": "Full for evaluations of one HTTP resolver and for HTTP resolvers with the same body encoding (assuming no hash collision). Refuted: the encoding is not part of the key; GraphQL keys leave out the URL and all headers, gRPC keys the headers."
  },
  {
   "property": "C32",
   "status": "proved",
   "theorems": [
    "C32_evaluation_follows_the_rules",
    "C32_parts_can_be_replaced",
    "C32_no_call_behind_a_failed_guard"
   ],
   "note": ""
  },
  {
   "property": "C33",
   "status": "proved",
   "theorems": [
    "C33_every_call_is_wrapped_and_nothing_else",
    "C33_caching_changes_no_result"
   ],
   "note": ""
  },
  {
   "property": "C34",
   "status": "proved",
   "theorems": [
    "C34_no_stale_value",
    "C34_kept_until_expiry",
    "C34_hit_rate_counts_lookups"
   ],
   "note": ""
  },
  {
   "property": "C35",
   "status": "proved",
   "theorems": [
    "C35_normalisation_terminates",
    "C35_members_are_the_leaves",
    "C35_no_union_inside_a_union",
    "C35_rest_untouched",
    "C35_recursive_rejected",
    "C35_accepted_iff_no_repeated_member",
    "C35_only_recursive_rejected_refuted"
   ],
   "note": ""
  },
  {
   "property": "C36",
   "status": "partial",
   "theorems": [
    "C36_uses_found",
    "C36_no_type_on_both_sides",
    "C36_outputs_unchanged",
    "C36_same_shapes",
    "C36_enum_arguments_refuted",
    "C36_existing_input_type_refuted",
    "C36_interface_implementers_refuted"
   ],
   "note": "Proved for configurations whose made-up names are free, without unions as inputs (an earlier pass removes them) and without enum arguments inside ambiguous types, for every hash order. Refuted otherwise: such an enum argument is renamed to an enum that does not exist; an existing XInput is overwritten; a type that is an output only through an interface stays both."
  },
  {
   "property": "C37",
   "status": "partial",
   "theorems": [
    "C37_renaming_is_consistent_partial",
    "C37_fails_only_on_missing_names",
    "C37_clash_drops_a_type_refuted",
    "C37_subscription_root_refuted",
    "C37_shared_root_refuted",
    "C37_chained_union_member_refuted"
   ],
   "note": ""
  },
  {
   "property": "C38",
   "status": "partial",
   "theorems": [
    "C38_required_present",
    "C38_given_values_kept",
    "C38_default_as_if_given",
    "C38_members_like_arguments",
    "C38_accepted_exactly",
    "C38_ends",
    "C38_variables_replaced",
    "C38_every_argument_of_the_request",
    "C38_null_default_refuted",
    "C38_list_items_refuted",
    "C38_endless_default_refuted",
    "C38_optional_variable_refuted"
   ],
   "note": "Proved for every argument of every field: what was given is kept, defaults are as if given, required fields are present at every depth, accepted exactly characterised. Refuted: null defaults of non-null types, items of lists are checked against the list type, defaults that contain themselves never end, an omitted optional variable fails the request."
  },
  {
   "property": "C39",
   "status": "partial",
   "theorems": [
    "C39_copied_headers",
    "C39_exactly_the_allowed_headers_partial",
    "C39_nothing_else_is_forwarded",
    "C39_allowed_headers_are_sent",
    "C39_repeated_values_lost_refuted"
   ],
   "note": "The copied headers are characterised exactly; they are all allowed ones when no header is repeated. Refuted: only the last value of a repeated header is forwarded."
  },
  {
   "property": "C40",
   "status": "partial",
   "theorems": [
    "C40_graphql_answers_are_split_by_position",
    "C40_graphql_batch_body_is_the_array_of_bodies",
    "C40_graphql_batch_fails_with_its_call",
    "C40_graphql_unbatched_calls_are_their_own",
    "C40_graphql_unbatched_calls_fail_together",
    "C40_grpc_callers_get_the_first_record_of_their_own_id",
    "C40_grpc_when_a_batch_fails",
    "C40_grpc_ungrouped_calls_are_their_own",
    "C40_callers_are_answered_as_themselves_refuted",
    "C40_grpc_callers_get_all_their_records_refuted"
   ],
   "note": "Splitting by position (GraphQL) and by id (gRPC) is proved for every batch and answer. Two parts are refuted by the code: a batch carries the first caller's headers, and of several gRPC records with the caller's id only the first is handed out. Protobuf conversion is a parameter."
  },
  {
   "property": "C41",
   "status": "partial",
   "theorems": [
    "C41_every_call_has_its_own_loader_partial",
    "C41_no_two_calls_share_a_loader",
    "C41_nothing_but_the_indices_changes",
    "C41_calls_of_object_types_find_their_loader",
    "C41_calls_of_interface_types_refuted"
   ],
   "note": "Proved for every call in fields of object types; refuted for fields of interface types, which are passed over at start-up."
  },
  {
   "property": "C42",
   "status": "proved",
   "theorems": [
    "C42_batch_body_is_the_list",
    "C42_single_body_is_unchanged",
    "C42_rest_body_is_unwrapped",
    "C42_rest_errors_have_a_status",
    "C42_cache_header_needs_success"
   ],
   "note": ""
  },
  {
   "property": "C43",
   "status": "partial",
   "theorems": [
    "C43_plan_is_the_expansion",
    "C43_expansion_is_unique",
    "C43_only_selected_fields",
    "C43_every_selected_name",
    "C43_one_field_per_name_partial",
    "C43_always_planned",
    "C43_operation_by_name",
    "C43_merging_refuted",
    "C43_excluded_hides_refuted",
    "C43_one_per_name_with_fragments_refuted",
    "C43_fragment_skip_refuted",
    "C43_cyclic_fragment_refuted",
    "C43_where_a_type_stands"
   ],
   "note": "The plan is proved to be the expansion of the document; the refuted theorems show where that expansion departs from the GraphQL rules (field merging, excluded fields, fragments, cyclic fragments)."
  },
  {
   "property": "C44",
   "status": "proved",
   "theorems": [
    "C44_pipeline",
    "C44_pipeline_laws",
    "C44_collected_folds",
    "C44_chained_folds",
    "C44_fold_laws",
    "C44_fold_maps",
    "C44_folds_on_a_part",
    "C44_fold_errors_associativity_refuted"
   ],
   "note": "Pipelines: proved in full. Folds: success and reported errors are characterised for collected lists and for chains; refuted that bracketing does not matter for the errors reported."
  },
  {
   "property": "C45",
   "status": "proved",
   "theorems": [
    "C45_lookup_follows_path",
    "C45_lookup_composes"
   ],
   "note": ""
  },
  {
   "property": "C46",
   "status": "partial",
   "theorems": [
    "C46_error_path_locates_field_partial",
    "C46_path_of_another_field_refuted"
   ],
   "note": "Proved when resolvers return lists exactly for list-typed fields; refuted otherwise (the path is not popped on an early return)."
  },
  {
   "property": "C47",
   "status": "partial",
   "theorems": [
    "C47_body_carries_the_operation_partial",
    "C47_apostrophes_refuted"
   ],
   "note": "Proved for texts of printable ASCII without apostrophes. Refuted: an apostrophe (or anything beyond ASCII) makes the body invalid JSON."
  },
  {
   "property": "C48",
   "status": "partial",
   "theorems": [
    "C48_selection_is_forwarded_partial",
    "C48_names_asked_upstream_partial",
    "C48_union_members_refuted",
    "C48_aliases_refuted",
    "C48_second_field_of_a_type_refuted",
    "C48_calls_ask_for_what_is_wanted_partial",
    "C48_request_carries_the_selection_partial",
    "C48_variables_in_arguments_refuted",
    "C48_aliases_collide_refuted",
    "C48_union_fragments_refuted",
    "C48_own_resolvers_refuted",
    "C48_excluded_fields_refuted",
    "C48_braces_in_arguments_refuted",
    "C48_strings_in_directives_refuted",
    "C48_underscored_variables_refuted",
    "C48_directive_variables_refuted",
    "C48_merged_calls_refuted"
   ],
   "note": "Proved for every planned GraphQL call outside a merge: exactly the paths the upstream serves and the client selected, with arguments and directives, for selections without variables in arguments and with printable texts; and that the request carries this text. For calls without a planned selection: proved for selections without aliases when every object type below the field is met once. The refuted theorems show what goes wrong otherwise."
  },
  {
   "property": "C49",
   "status": "partial",
   "theorems": [
    "C49_definitions_are_kept",
    "C49_lone_definitions_are_unchanged",
    "C49_members_are_kept",
    "C49_roots_and_settings_partial",
    "C49_settings_of_later_files_refuted",
    "C49_other_roots_refuted",
    "C49_custom_scalars_refuted"
   ],
   "note": "Definitions are kept: proved in full. Refuted: settings of later files are dropped, operations of a later file with another root name are unreachable, and files declaring the same custom scalar cannot be merged."
  },
  {
   "property": "C50",
   "status": "partial",
   "theorems": [
    "C50_writing_ends",
    "C50_what_comes_back",
    "C50_written_configuration_is_read_back",
    "C50_what_is_read_is_stored",
    "C50_document_keeps_its_meaning",
    "C50_telemetry_is_kept_refuted",
    "C50_discriminator_is_kept_refuted",
    "C50_argument_modification_is_kept_refuted",
    "C50_interface_arguments_are_kept_refuted",
    "C50_union_documentation_is_kept_refuted",
    "C50_type_used_as_input_is_kept_refuted",
    "C50_second_round_loses_nothing_refuted"
   ],
   "note": "Exactly what comes back is characterised for every configuration (C50_what_comes_back), and the round trip is the identity for all that use nothing a document cannot say. Refuted: telemetry, discriminators, argument modifications, arguments of interface fields, documentation of unions and the interfaces and settings of types also used as inputs are lost although documents can say them; a second round can lose more. The serde encoding of the settings of a directive is a parameter assumed to round-trip."
  },
  {
   "property": "C51",
   "status": "partial",
   "theorems": [
    "C51_types_behind_an_interface",
    "C51_found_exactly_without_cycles",
    "C51_every_document_has_its_map_refuted"
   ],
   "note": "The map is exact whenever it is found, and it is found exactly if no type implements itself. Refuted: a document with such a cycle is read without an error and the recursion then never ends."
  },
  {
   "property": "C52",
   "status": "partial",
   "theorems": [
    "C52_only_what_it_stands_for",
    "C52_everything_it_stands_for_partial",
    "C52_graphql_expressions",
    "C52_enums_get_lost_refuted"
   ],
   "note": "Soundness is proved in full, completeness except for enumeration values in replaced arguments or values. Refuted there: they render as nothing."
  },
  {
   "property": "C53",
   "status": "proved",
   "theorems": [
    "C53_http_call_is_the_configured_one",
    "C53_when_no_http_call_is_made",
    "C53_grpc_call_is_the_configured_one",
    "C53_content_type_of_the_client_refuted",
    "C53_graphql_headers_are_quoted_refuted"
   ],
   "note": "Method, URL and body of HTTP and gRPC calls are proved to be the configured ones. Refuted for headers: a content type allowed from the client replaces the call's own; headers of GraphQL upstreams arrive in quotes."
  },
  {
   "property": "C54",
   "status": "partial",
   "theorems": [
    "C54_what_may_be_shared_partial",
    "C54_what_is_shared",
    "C54_mutations_are_never_shared",
    "C54_protected_operations",
    "C54_inner_calls_refuted",
    "C54_mapped_calls_refuted"
   ],
   "note": "Soundness proved for root resolvers without enum mappings, completeness, mutations and protection in full. Refuted: calls of inner fields, and calls below an enum mapping, are not looked at."
  },
  {
   "property": "C55",
   "status": "partial",
   "theorems": [
    "C55_experimental_header_arrives",
    "C55_no_other_header_arrives",
    "C55_cookies_partial",
    "C55_static_headers_accepted",
    "C55_experimental_headers_accepted",
    "C55_experimental_headers_are_extra",
    "C55_every_cookie_arrives_refuted",
    "C55_second_cookie_arrives_refuted",
    "C55_shared_answer_counts_once_refuted",
    "C55_configured_cookie_is_kept_refuted",
    "C55_unreadable_cookie_arrives_refuted",
    "C55_order_of_answers_does_not_matter_refuted"
   ],
   "note": "Experimental, configured and own headers are proved in full. Cookies arrive joined in one header; refuted: every cookie arrives as a cookie, each counts once, configured cookies are kept."
  },
  {
   "property": "C56",
   "status": "partial",
   "theorems": [
    "C56_operation_is_read_partial",
    "C56_other_bodies_are_unchanged",
    "C56_every_operation_is_read_refuted",
    "C56_content_type_parameters_refuted",
    "C56_control_characters_are_read_refuted"
   ],
   "note": "Proved for texts of printable characters, tabs and line ends without a backslash. Refuted: any backslash makes the body unreadable; control characters; content types with parameters."
  },
  {
   "property": "C57",
   "status": "proved",
   "theorems": [
    "C57_graphql",
    "C57_endpoints",
    "C57_showcase",
    "C57_status",
    "C57_metrics",
    "C57_configured_route_is_served_refuted",
    "C57_api_is_a_segment_refuted"
   ],
   "note": "One equivalence for each handler. Refuted: that every configured route is served; those starting with /api are not."
  },
  {
   "property": "C58",
   "status": "partial",
   "theorems": [
    "C58_small_integers",
    "C58_big_integers",
    "C58_texts",
    "C58_scalars_in_responses",
    "C58_enum_values",
    "C58_aliases_are_replaced",
    "C58_every_alias_is_replaced",
    "C58_resolvers_with_aliases",
    "C58_built_in_scalars_refuted",
    "C58_lists_of_scalars_refuted",
    "C58_int64_numbers_refuted",
    "C58_alias_without_resolver_refuted",
    "C58_null_among_enum_values_refuted",
    "C58_shared_alias_is_reported_refuted"
   ],
   "note": "Custom scalars and resolved enum fields are proved. Refuted: built-in scalars are not checked at all, lists of custom scalars are always rejected, aliases in fields without a resolver are not replaced."
  },
  {
   "property": "C59",
   "status": "partial",
   "theorems": [
    "C59_links_are_loaded",
    "C59_a_link_that_cannot_be_loaded_is_reported",
    "C59_several_files",
    "C59_several_files_are_read",
    "C59_links_inside_linked_configurations_refuted",
    "C59_where_a_link_is_written_does_not_matter_refuted",
    "C59_proto_files_keep_their_own_imports_refuted"
   ],
   "note": "What one configuration and several configurations load is proved in full. Refuted: links inside linked configurations are not followed, of several keys, scripts or operations in one configuration only the last counts, and proto files importing a file of the same name share it."
  },
  {
   "property": "C60",
   "status": "partial",
   "theorems": [
    "C60_imports_exact",
    "C60_missing_imports_are_reported",
    "C60_reading_ends",
    "C60_every_file_once_refuted"
   ],
   "note": "Exactness, errors and termination are proved. Refuted: a file on an import cycle is returned twice under two names."
  },
  {
   "property": "C61",
   "status": "partial",
   "theorems": [
    "C61_every_read_is_current",
    "C61_a_file_is_read_once_refuted",
    "C61_the_file_asked_for_refuted"
   ],
   "note": "Proved: every read gives the current file unless a path equals the hash of another. Refuted: the cache is never hit, so reading again may give something else, and a file named like a hash is taken for another."
  },
  {
   "property": "C62",
   "status": "partial",
   "theorems": [
    "C62_every_leaf_has_a_resolver_partial",
    "C62_accepted_exactly",
    "C62_reported_fields_lack_a_resolver",
    "C62_every_field_without_resolver_is_reported_refuted",
    "C62_every_leaf_has_a_resolver_refuted"
   ],
   "note": "An exact characterisation is proved for every configuration; it is the property when no scalars are declared. Refuted: a field of a declared scalar needs no resolver, and of several root fields of one type only the first is reported."
  },
  {
   "property": "C63",
   "status": "partial",
   "theorems": [
    "C63_plain_fields_hold_their_parents_data_partial",
    "C63_fields_with_nothing_but_resolvers_below",
    "C63_declared_scalars_refuted",
    "C63_objects_of_resolvers_refuted"
   ],
   "note": "Proved for types that are not enums, unions or interfaces (for enums see C58, for unions C28). Refuted: fields of declared scalars and objects of resolvers only are an empty object whatever the parent holds."
  },
  {
   "property": "C64",
   "status": "partial",
   "theorems": [
    "C64_refused_requests",
    "C64_accepted_requests",
    "C64_bad_protections_are_reported",
    "C64_ids_of_the_output_type_refuted",
    "C64_members_of_unions_refuted",
    "C64_added_fields_refuted",
    "C64_providers_with_one_id_refuted"
   ],
   "note": "Refusal is proved in full, acceptance when the mark is not on the type of the value. Refuted: ids on the type of the value are ignored, members of unions and added fields are not guarded, one of two providers with the same id is not asked."
  },
  {
   "property": "C65",
   "status": "partial",
   "theorems": [
    "C65_paths_into_resolved_fields",
    "C65_paths_into_the_parents_data_partial",
    "C65_types_partial",
    "C65_own_fields_shadow_refuted",
    "C65_paths_that_lead_nowhere_refuted",
    "C65_lists_refuted",
    "C65_protected_sources_refuted",
    "C65_renamed_sources_refuted",
    "C65_enums_refuted",
    "C65_empty_paths_refuted"
   ],
   "note": "Values are proved for sources with a resolver and for plain ones, types for paths through objects whose names are not those of the enclosing type. Refuted: shadowed names, paths that lead nowhere, lists, protected and renamed sources, enums, empty paths."
  },
  {
   "property": "C66",
   "status": "partial",
   "theorems": [
    "C66_key_names_what_is_used_partial",
    "C66_arguments_are_refused",
    "C66_the_key_is_enough_partial",
    "C66_off",
    "C66_accepted_exactly_partial",
    "C66_types_keep_what_they_have_partial",
    "C66_entities_can_be_asked_for_partial",
    "C66_the_rest_stays",
    "C66_whole_representation_refuted",
    "C66_value_and_part_refuted",
    "C66_later_steps_refuted",
    "C66_headers_are_not_checked_refuted"
   ],
   "note": "Proved for resolvers with readable settings, calls of one step; that the key is enough is proved for HTTP, when neither the whole representation nor a value and a part of it are used. Refuted: those two cases, later steps of a call, fields that do not exist in headers (bodies and gRPC likewise)."
  },
  {
   "property": "C67",
   "status": "partial",
   "theorems": [
    "C67_steps_run_in_turn",
    "C67_accepted_exactly",
    "C67_protection_is_kept",
    "C67_loops_are_not_accepted",
    "C67_defaults_refuted",
    "C67_renamed_roots_refuted",
    "C67_loops_are_reported_refuted"
   ],
   "note": "All of the statement is proved of calls of fields of types named Query and Mutation. Refuted: defaults of arguments are not used, root types of other names cannot be called, loops exhaust the stack instead of being reported."
  },
  {
   "property": "C68",
   "status": "partial",
   "theorems": [
    "C68_accepted_exactly",
    "C68_accepted_fields",
    "C68_addresses_are_complete_partial",
    "C68_through_lists_refuted",
    "C68_through_resolvers_refuted",
    "C68_below_arguments_refuted",
    "C68_null_for_a_default_refuted",
    "C68_headers_and_bodies_refuted",
    "C68_with_select_refuted",
    "C68_enums_are_refused_refuted",
    "C68_misspelt_expressions_refuted"
   ],
   "note": "Acceptance is characterised exactly. Completeness of addresses is proved when paths lead through the parent's own data and no lists, arguments are used as a whole, and arguments with a default are not null. Refuted without each of these; also refuted: headers and bodies of @http, resolvers with select, misspelt expressions."
  },
  {
   "property": "C69",
   "status": "partial",
   "theorems": [
    "C69_accepted_exactly",
    "C69_one_call",
    "C69_selected_parts_refuted",
    "C69_select_of_two_parts_refuted",
    "C69_past_scalars_refuted",
    "C69_batches_tell_their_requests_apart_refuted",
    "C69_batch_parameter_refuted",
    "C69_own_scalars_refuted"
   ],
   "note": "Acceptance and the one call are proved in full; select is proved for parts of the answer that survive being written as text. Refuted: null and texts that are JSON do not; several expressions in one text; batches whose requests cannot be told apart."
  },
  {
   "property": "C70",
   "status": "partial",
   "theorems": [
    "C70_schema_is_closed",
    "C70_names_are_new_refuted",
    "C70_samples_fit_partial",
    "C70_numbers_fit_refuted",
    "C70_big_numbers_fit_refuted",
    "C70_mixed_lists_fit_refuted",
    "C70_nested_lists_fit_refuted",
    "C70_later_members_fit_refuted",
    "C70_objects_and_scalars_fit_refuted",
    "C70_schema_is_detailed",
    "C70_known_if_known_anywhere"
   ],
   "note": "That the schema is closed is proved for all samples, and that any item that tells decides a scalar member. That the sample fits is proved for regular samples; refuted for fractions, big numbers, mixed and nested lists, members only later items have."
  },
  {
   "property": "C71",
   "status": "partial",
   "theorems": [
    "C71_path",
    "C71_query",
    "C71_guess_is_unique",
    "C71_request_comes_back_partial",
    "C71_field_is_added",
    "C71_numbers_are_ints_refuted",
    "C71_uuids_stay_whole_refuted",
    "C71_segments_stay_refuted",
    "C71_braces_are_text_refuted",
    "C71_directive_is_made_refuted",
    "C71_keys_keep_apart_refuted",
    "C71_keys_are_sent_refuted",
    "C71_method_is_kept_refuted",
    "C71_list_bodies_fit_refuted"
   ],
   "note": "How path and query become arguments, the guessed types and the added field are proved for all samples. That the request comes back is proved (up to percent-decoding of the address) if the decoded address has no brace or quote and the keys are distinct names in camel case; refuted otherwise."
  },
  {
   "property": "C72",
   "status": "partial",
   "theorems": [
    "C72_arguments_partial",
    "C72_types_stay",
    "C72_new_types",
    "C72_always_ends",
    "C72_recursive_types_refuted",
    "C72_lists_refuted",
    "C72_field_names_refuted",
    "C72_type_names_refuted",
    "C72_empty_union_refuted"
   ],
   "note": "Proved for arguments whose types have no cycle, no list above a union and no union without members, and for names that do not clash with generated ones; refuted for each of these. That the rest stays and that the pass ends is proved for all configurations with plain names."
  },
  {
   "property": "C73",
   "status": "partial",
   "theorems": [
    "C73_switched_off",
    "C73_guards_come_first",
    "C73_which_ask",
    "C73_both_answers",
    "C73_nothing_said",
    "C73_questions_are_answered_partial",
    "C73_in_a_fragment_refuted",
    "C73_failed_is_null_refuted",
    "C73_type_by_variable_refuted"
   ],
   "note": "Proved for questions outside fragments and operations whose own answer is an object, with any answer of the library; refuted for questions in fragments, for failed operations and for types asked for by a variable."
  },
  {
   "property": "C74",
   "status": "partial",
   "theorems": [
    "C74_merged_partial",
    "C74_paths_partial",
    "C74_leaf_types_partial",
    "C74_same_kind",
    "C74_ends_partial",
    "C74_rounds_end",
    "C74_paths_refuted",
    "C74_ends_refuted",
    "C74_roots_refuted",
    "C74_protection_refuted",
    "C74_fresh_names_refuted",
    "C74_resolvers_refuted"
   ],
   "note": "Proved for every walk, threshold and number of rounds: the result is a quotient of the configuration, and it ends without interfaces. Paths need that merged types agree; leaves need threshold 1.0. Refuted: paths at threshold 1.0, the end with interfaces, roots, protection, the name GEN__M1, resolvers of types."
  },
  {
   "property": "C75",
   "status": "partial",
   "theorems": [
    "C75_ends",
    "C75_unchanged",
    "C75_kept_partial",
    "C75_introspection_kept",
    "C75_closed_partial",
    "C75_unused_removed_partial",
    "C75_once",
    "C75_arguments_refuted",
    "C75_parents_refuted",
    "C75_unused_refuted"
   ],
   "note": "Kept and closed need distinct names and interfaces that are implemented as the GraphQL specification asks; unused definitions are removed if no enum value is the name of a definition. Refuted without these. The end, order and idempotence hold for every blueprint."
  },
  {
   "property": "C76",
   "status": "partial",
   "theorems": [
    "C76_one_call",
    "C76_rewritten",
    "C76_rewritten_once_partial",
    "C76_not_rewritten",
    "C76_ends_partial",
    "C76_unusable",
    "C76_identity_partial",
    "C76_parameters_refuted",
    "C76_signs_refuted",
    "C76_repeated_refuted",
    "C76_batching_refuted",
    "C76_user_refuted",
    "C76_failure_refuted",
    "C76_rewritten_once_refuted",
    "C76_ends_refuted",
    "C76_empty_response_refuted"
   ],
   "note": "Calls, answers and rewriting are proved for all scripts; the identity needs a request that is simple (no repeated names, no special characters in parameters, no user). Refuted: escapes, repeated names, user, batching value, failing scripts, one rewriting, the end of redirects, responses without body."
  },
  {
   "property": "C77",
   "status": "partial",
   "theorems": [
    "C77_distinct",
    "C77_most_used",
    "C77_no_choice",
    "C77_consistent_partial",
    "C77_scalars_refuted",
    "C77_enums_refuted",
    "C77_unknown_types_refuted",
    "C77_stable_refuted"
   ],
   "note": "Names are proved distinct, new and most used for all configurations; consistency needs that types of fields are defined and that no name found is that of an enum, a union or a predefined scalar. Refuted without: scalars, enums, unknown types; also refuted: a good name stays."
  },
  {
   "property": "C78",
   "status": "partial",
   "theorems": [
    "C78_ends",
    "C78_exact",
    "C78_types_partial",
    "C78_enums_refuted",
    "C78_resolvers_refuted",
    "C78_lists_refuted",
    "C78_arguments_refuted",
    "C78_twice_refuted"
   ],
   "note": "Exactly which fields are left out and added is proved for all configurations; that the new field has the type of the value needs a way without lists and resolvers that ends in a scalar. Refuted without: enums, resolvers, lists, arguments; and running it twice."
  },
  {
   "property": "C79",
   "status": "partial",
   "theorems": [
    "C79_defined",
    "C79_messages",
    "C79_methods",
    "C79_enums_partial",
    "C79_nothing_else",
    "C79_apart",
    "C79_messages_refuted",
    "C79_enums_refuted",
    "C79_comments_refuted",
    "C79_members_refuted",
    "C79_calls_partial",
    "C79_calls_refuted",
    "C79_scalars_partial",
    "C79_scalars_refuted"
   ],
   "note": "Success and definedness are proved for all well-formed files; messages and methods for those whose names are apart, which is proved of tidy names; enums for files without comments. Refuted: clashing names, comments of values and of other files, members without fields, services without package, fixed64 and fixed32."
  },
  {
   "property": "C80",
   "status": "partial",
   "theorems": [
    "C80_sound_partial",
    "C80_undeclared",
    "C80_malformed",
    "C80_generated_partial",
    "C80_recursive_refuted",
    "C80_fieldless_refuted",
    "C80_int64_refuted",
    "C80_loose_refuted",
    "C80_names_refuted",
    "C80_batch_partial",
    "C80_single_key_refuted",
    "C80_batch_refuted"
   ],
   "note": "Soundness is proved for messages with 32 bit numbers, texts, booleans, enums, maps and messages, camel case JSON names and no required fields of other scalars; acceptance of generated configurations for messages that do not contain themselves and have fields. Refuted: recursive messages, 64 bit integers, other scalars, JSON names, messages without fields, batch keys."
  },
  {
   "property": "C81",
   "status": "partial",
   "theorems": [
    "C81_conversion",
    "C81_same_call_partial",
    "C81_generated",
    "C81_slash_refuted",
    "C81_batch_refuted"
   ],
   "note": "Conversion and generated calls in full; the comparison of requests without batch key, final slash in the address and query. Refuted: final slash, batch keys."
  },
  {
   "property": "C82",
   "status": "partial",
   "theorems": [
    "C82_entities",
    "C82_service",
    "C82_the_rest_stays",
    "C82_off",
    "C82_accepted_partial",
    "C82_renamed_refuted",
    "C82_added_refuted",
    "C82_protected_refuted"
   ],
   "note": "Entities, service, what stays and the case of federation off in full; acceptance for query types without renamed or added fields. Refuted: renamed fields, added fields, a protected query type."
  },
  {
   "property": "C83",
   "status": "partial",
   "theorems": [
    "C83_roots",
    "C83_as_written_partial",
    "C83_met_partial",
    "C83_closed",
    "C83_scalars_of_fields",
    "C83_refused",
    "C83_names_of_fields_refuted",
    "C83_scalars_of_arguments_refuted",
    "C83_interfaces_refuted",
    "C83_documentation_refuted",
    "C83_renamed_arguments_refuted",
    "C83_declared_twice_refuted"
   ],
   "note": "Everything stated, with the specification of interfaces (no arguments, no interfaces, no documentation), arguments and unions (no documentation) as the code has it; presence for schemas whose interfaces are implemented as the GraphQL specification asks. Refuted: distinct field names, scalars of arguments, interfaces in full, documentation, renamed arguments, names declared twice. Without federation."
  },
  {
   "property": "C84",
   "status": "partial",
   "theorems": [
    "C84_read_back_partial",
    "C84_nothing_else_lost",
    "C84_each_type",
    "C84_nothing_added",
    "C84_default_and_directive_refuted",
    "C84_settings_refuted",
    "C84_lines_refuted",
    "C84_long_refuted",
    "C84_long_texts_are_whole",
    "C84_left_out_refuted",
    "C84_empty_refuted"
   ],
   "note": "For documents as described, with documentation of single lines without quotes and backslashes (of at most 80 characters at scalars, inputs and their fields), and input fields not with both default and directives. Refuted beyond that: defaults with directives, settings without roots, lines, long documentation, what is left out, empty types. Without definitions of directives."
  },
  {
   "property": "C85",
   "status": "partial",
   "theorems": [
    "C85_text_is_read_back_partial",
    "C85_text_keeps_its_meaning",
    "C85_different_texts",
    "C85_texts_can_be_read_refuted",
    "C85_documentation_is_kept_refuted",
    "C85_settings_are_kept_refuted"
   ],
   "note": "For configurations as in C50 whose documentation has single lines, with a query or mutation, without scalars in unions, without documentation at arguments and interfaces, input fields not with both default and directives. Refuted beyond that: C85_texts_can_be_read_refuted, C85_documentation_is_kept_refuted, C85_settings_are_kept_refuted."
  },
  {
   "property": "C86",
   "status": "partial",
   "theorems": [
    "C86_samples_are_answered_partial",
    "C86_fields_of_files_are_kept",
    "C86_headers_and_links",
    "C86_roots",
    "C86_succeeds",
    "C86_generated_files_can_be_used_again_refuted",
    "C86_samples_can_be_asked_refuted"
   ],
   "note": "Without transformers. Files must not use the numbered names and later sources must not give the field. Refuted beyond that: C86_generated_files_can_be_used_again_refuted, C86_samples_can_be_asked_refuted."
  },
  {
   "property": "C87",
   "status": "partial",
   "theorems": [
    "C87_names",
    "C87_renaming_is_consistent_partial",
    "C87_ends",
    "C87_waits",
    "C87_names_are_new_refuted",
    "C87_scalars_stay_scalars_refuted",
    "C87_always_ends_refuted",
    "C87_waits_are_limited_refuted"
   ],
   "note": "Consistent renaming if no suggestion is the name of an enum or union. Refuted beyond that: C87_names_are_new_refuted, C87_scalars_stay_scalars_refuted, C87_always_ends_refuted, C87_waits_are_limited_refuted."
  },
  {
   "property": "C88",
   "status": "proved",
   "theorems": [
    "C88_links_are_accepted",
    "C88_link_faults_are_told",
    "C88_telemetry_is_accepted",
    "C88_telemetry_faults_are_told",
    "C88_no_exporter",
    "C88_all_is_told_at_once_refuted",
    "C88_request_headers_are_kept_refuted"
   ],
   "note": "Refuted beyond that: C88_all_is_told_at_once_refuted, C88_request_headers_are_kept_refuted."
  },
  {
   "property": "C89",
   "status": "partial",
   "theorems": [
    "C89_report",
    "C89_reported",
    "C89_can_be_read",
    "C89_configuration",
    "C89_always_reported_refuted",
    "C89_descriptions_are_told_refuted",
    "C89_all_sources_are_told_refuted",
    "C89_can_always_be_read_refuted",
    "C89_all_coloured_refuted"
   ],
   "note": "Reading back for texts of one line. Refuted beyond that: C89_always_reported_refuted, C89_descriptions_are_told_refuted, C89_all_sources_are_told_refuted, C89_can_always_be_read_refuted, C89_all_coloured_refuted."
  },
  {
   "property": "C90",
   "status": "partial",
   "theorems": [
    "C90_error_is_told",
    "C90_can_be_told",
    "C90_errors_are_passed_on",
    "C90_values",
    "C90_all_askers_are_told_refuted",
    "C90_kept_with_errors_refuted",
    "C90_passed_on_as_is_refuted",
    "C90_all_can_be_told_refuted"
   ],
   "note": "Requests that run the fetch themselves. Refuted beyond that: C90_all_askers_are_told_refuted, C90_kept_with_errors_refuted, C90_passed_on_as_is_refuted, C90_all_can_be_told_refuted."
  },
  {
   "property": "C91",
   "status": "partial",
   "theorems": [
    "C91_files_are_kept",
    "C91_only_its_own_files",
    "C91_success_is_whole",
    "C91_without_agreement",
    "C91_folder_declined",
    "C91_settings_are_kept",
    "C91_unasked_refuted",
    "C91_atomic_refuted",
    "C91_again_refuted",
    "C91_one_schema_refuted"
   ],
   "note": "Files that can be read. Refuted beyond that: C91_unasked_refuted, C91_atomic_refuted, C91_again_refuted, C91_one_schema_refuted."
  },
  {
   "property": "C92",
   "status": "partial",
   "theorems": [
    "C92_constants_are_checked",
    "C92_fitting_constants_are_accepted",
    "C92_accepted_constants_fit_partial",
    "C92_check_ends",
    "C92_check_is_one",
    "C92_templates_are_filled",
    "C92_enums_refuted",
    "C92_null_refuted",
    "C92_int_refuted",
    "C92_recursive_refuted"
   ],
   "note": "Types without enums for what is accepted. Refuted beyond that: C92_enums_refuted, C92_null_refuted, C92_int_refuted, C92_recursive_refuted."
  },
  {
   "property": "C93",
   "status": "partial",
   "theorems": [
    "C93_paths_are_refused",
    "C93_nothing_named",
    "C93_what_is_named_is_served",
    "C93_no_files_are_read_partial",
    "C93_schemes_refuted",
    "C93_links_refuted",
    "C93_environment_refuted",
    "C93_panics_refuted"
   ],
   "note": "Configurations without linked files and proto files. Refuted beyond that: C93_schemes_refuted, C93_links_refuted, C93_environment_refuted, C93_panics_refuted."
  },
  {
   "property": "C94",
   "status": "partial",
   "theorems": [
    "C94_only_the_output_is_written",
    "C94_success_is_written",
    "C94_one_request_per_input",
    "C94_thresholds",
    "C94_places_are_of_the_file",
    "C94_not_graphql",
    "C94_links_lead_to_protos_partial",
    "C94_links_refuted",
    "C94_formats_refuted"
   ],
   "note": "Links are proved for paths without `..`. Refuted beyond that: C94_links_refuted, C94_formats_refuted."
  },
  {
   "property": "C95",
   "status": "partial",
   "theorems": [
    "C95_all_of_the_services_partial",
    "C95_failures",
    "C95_reading_ends",
    "C95_environment_is_kept_partial",
    "C95_sent_together_refuted",
    "C95_environment_refuted",
    "C95_reading_ends_refuted"
   ],
   "note": "Servers whose names have no templates and whose files have the names they are asked by. Refuted beyond that: C95_environment_refuted, C95_sent_together_refuted, C95_reading_ends_refuted."
  },
  {
   "property": "C96",
   "status": "partial",
   "theorems": [
    "C96_served_is_checked",
    "C96_checked_is_served_partial",
    "C96_refused_is_refused",
    "C96_url",
    "C96_workers_refuted"
   ],
   "note": "Configurations that do not ask for zero workers; beyond that refuted by C96_workers_refuted."
  },
  {
   "property": "C97",
   "status": "partial",
   "theorems": [
    "C97_all_is_printed_partial",
    "C97_every_text",
    "C97_tidy_is_kept",
    "C97_descriptions_refuted"
   ],
   "note": "What is left out are the lines that begin like the built-in definitions, which may be lines of a description: C97_descriptions_refuted."
  },
  {
   "property": "C98",
   "status": "partial",
   "theorems": [
    "C98_without_exporter",
    "C98_once_and_what_is_told",
    "C98_nothing_else",
    "C98_telemetry_is_passive",
    "C98_upstream_once",
    "C98_statuses_without_url_partial",
    "C98_answers_are_passed_on",
    "C98_urls_refuted",
    "C98_route_refuted"
   ],
   "note": "That errors do not tell URLs holds for answers with error statuses; refuted for upstreams that cannot be reached (C98_urls_refuted). Routes: C98_route_refuted."
  },
  {
   "property": "C99",
   "status": "partial",
   "theorems": [
    "C99_read_as_written",
    "C99_written_is_read",
    "C99_missing",
    "C99_endpoints",
    "C99_order_partial",
    "C99_checked_variables_partial",
    "C99_checked_types",
    "C99_order_refuted",
    "C99_required_query_refuted",
    "C99_constants_refuted"
   ],
   "note": "The order plays no role for requests that fit at most one endpoint (refuted beyond that: C99_order_refuted); required variables in the query: C99_required_query_refuted; constants: C99_constants_refuted."
  },
  {
   "property": "C100",
   "status": "partial",
   "theorems": [
    "C100_lambda_request_partial",
    "C100_lambda_given_on",
    "C100_lambda_query_refuted",
    "C100_lambda_methods_refuted",
    "C100_worker_request",
    "C100_responses",
    "C100_contexts_partial",
    "C100_contexts_interleaved",
    "C100_asked_again",
    "C100_failures_are_forgotten",
    "C100_nothing_named",
    "C100_stale_refuted",
    "C100_kept_texts_partial",
    "C100_kept_values",
    "C100_kept_objects_refuted",
    "C100_kept_too_long_refuted",
    "C100_tracking",
    "C100_tracking_refuted"
   ],
   "note": "The URL on Lambda is only the path given as `proxy` (C100_lambda_query_refuted, C100_lambda_methods_refuted); a kept configuration may be an older version (C100_stale_refuted); kept objects and the time they are kept: C100_kept_objects_refuted, C100_kept_too_long_refuted; other words for no: C100_tracking_refuted. What the hosts' crates do is assumed."
  },
  {
   "property": "C101",
   "status": "partial",
   "theorems": [
    "C101_untracked",
    "C101_command",
    "C101_read_once",
    "C101_told_partial",
    "C101_addresses",
    "C101_collectors_refuted",
    "C101_arguments_refuted"
   ],
   "note": "PostHog is told only what Google Analytics took (C101_collectors_refuted); arguments are told as they are (C101_arguments_refuted)."
  },
  {
   "property": "C102",
   "status": "partial",
   "theorems": [
    "C102_rest_partial",
    "C102_rest_in_time",
    "C102_rest_validated",
    "C102_questions_partial",
    "C102_graphql_refuted",
    "C102_checked"
   ],
   "note": "Holds for REST endpoints and questions about the schema; for GraphQL operations the settings are without effect (C102_graphql_refuted)."
  },
  {
   "property": "C103",
   "status": "partial",
   "theorems": [
    "C103_warnings",
    "C103_quiet",
    "C103_number_refuted",
    "C103_once_refuted",
    "C103_level",
    "C103_level_refuted",
    "C103_logged"
   ],
   "note": "Warnings and events proved; the level as far as the first variable that is set names one, see C103_level_refuted."
  }
 ]
}