{
 "claims": [
  {
   "property": "C01",
   "status": "proved",
   "theorems": [
    "c01_compose_is_rfc6901",
    "c01_split_is_rfc6901",
    "c01_pieces_exist",
    "c01_roundtrip_base",
    "c01_roundtrip_nobase",
    "c01_roundtrip_nobase_exception",
    "c01_incremental",
    "c01_none_and_string"
   ],
   "note": ""
  },
  {
   "property": "C02",
   "status": "proved",
   "theorems": [
    "c02_compose_injective",
    "c02_compose_injective_nobase",
    "c02_token_no_slash"
   ],
   "note": ""
  },
  {
   "property": "C03",
   "status": "proved",
   "theorems": [
    "c03_compose",
    "c03_compose_absent",
    "c03_compose_assoc",
    "c03_split_compose",
    "c03_split_compose_disjoint",
    "c03_split_absent",
    "c03_split_any_name_refuted"
   ],
   "note": "The side condition on the separator is necessary: c03_split_any_name_refuted."
  },
  {
   "property": "C04",
   "status": "proved",
   "theorems": [
    "c04_getitem_iff_lookup",
    "c04_getitem_tuple"
   ],
   "note": ""
  },
  {
   "property": "C05",
   "status": "proved",
   "theorems": [
    "c05_table",
    "c05_reachable",
    "c05_nothing_else"
   ],
   "note": ""
  },
  {
   "property": "C06",
   "status": "proved",
   "theorems": [
    "c06_deref_end",
    "c06_deref_cycle",
    "c06_deref_guarded",
    "c06_total"
   ],
   "note": ""
  },
  {
   "property": "C07",
   "status": "proved",
   "theorems": [
    "c07_walk",
    "c07_walk_generic",
    "c07_walk_unique"
   ],
   "note": ""
  },
  {
   "property": "C08",
   "status": "proved",
   "theorems": [
    "c08_detect_exact",
    "c08_strict_iff",
    "c08_otherwise_ok",
    "c08_not_strict",
    "c08_edges_complete",
    "c08_edges_sound"
   ],
   "note": ""
  },
  {
   "property": "C09",
   "status": "proved",
   "theorems": [
    "c09_empty_iff_same",
    "c09_empty_equal",
    "c09_self",
    "c09_no_exception",
    "c09_reported_real",
    "c09_order_independent",
    "c09_mixed_list_refuted"
   ],
   "note": ""
  },
  {
   "property": "C10",
   "status": "proved",
   "theorems": [
    "c10_datetime",
    "c10_date",
    "c10_date_of_datetime"
   ],
   "note": ""
  },
  {
   "property": "C11",
   "status": "proved",
   "theorems": [
    "c11_cover",
    "c11_reject",
    "c11_date",
    "c11_datetime",
    "c11_valid",
    "c11_offset_range_refuted"
   ],
   "note": ""
  },
  {
   "property": "C12",
   "status": "proved",
   "theorems": [
    "c12_relative",
    "c12_removes_dots_unique",
    "c12_removes_dots_exists",
    "c12_no_dots_left",
    "c12_local",
    "c12_absolute",
    "c12_idempotent",
    "c12_no_document",
    "c12_root_document_refuted",
    "c12_absolute_path_refuted"
   ],
   "note": ""
  },
  {
   "property": "C13",
   "status": "proved",
   "theorems": [
    "c13_parse_show",
    "c13_split",
    "c13_no_hash",
    "c13_recombine",
    "c13_local"
   ],
   "note": ""
  },
  {
   "property": "C14",
   "status": "proved",
   "theorems": [
    "c14_url_join",
    "c14_trims",
    "c14_dirname_other",
    "c14_dirname_file"
   ],
   "note": ""
  },
  {
   "property": "C15",
   "status": "proved",
   "theorems": [
    "c15_get",
    "c15_contains",
    "c15_spelling",
    "c15_items",
    "c15_unique",
    "c15_len",
    "c15_del_error",
    "c15_update"
   ],
   "note": ""
  },
  {
   "property": "C16",
   "status": "proved",
   "theorems": [
    "c16_named",
    "c16_others",
    "c16_names",
    "c16_idempotent"
   ],
   "note": ""
  },
  {
   "property": "C17",
   "status": "proved",
   "theorems": [
    "c17_update_with",
    "c17_update_with_error",
    "c17_unknown_name",
    "c17_history",
    "c17_history_set",
    "c17_header",
    "c17_query",
    "c17_query_untouched",
    "c17_idempotent",
    "c17_header_dict"
   ],
   "note": ""
  },
  {
   "property": "C18",
   "status": "proved",
   "theorems": [
    "c18_candidates",
    "c18_none",
    "c18_default",
    "c18_preferred",
    "c18_bad_type",
    "c18_string_argument_ignores_preference"
   ],
   "note": "Request.scheme is only consulted when prepare gets a list (what the bundled clients pass); c18_string_argument_ignores_preference records the other case."
  },
  {
   "property": "C19",
   "status": "proved",
   "theorems": [
    "c19_decodes",
    "c19_characters",
    "c19_plain",
    "c19_format",
    "c19_missing",
    "c19_no_breakout",
    "c19_request"
   ],
   "note": ""
  },
  {
   "property": "C20",
   "status": "proved",
   "theorems": [
    "c20_round_trip",
    "c20_request"
   ],
   "note": ""
  },
  {
   "property": "C21",
   "status": "proved",
   "theorems": [
    "c21_multipart",
    "c21_request",
    "c21_quote_refuted"
   ],
   "note": "Names must not contain double quotes or line breaks, which the code does not escape: c21_quote_refuted."
  },
  {
   "property": "C22",
   "status": "proved",
   "theorems": [
    "c22_again",
    "c22_again_plain",
    "c22_streams",
    "c22_streams_data_refuted"
   ],
   "note": "For file-like objects the data differs the second time: c22_streams_data_refuted."
  },
  {
   "property": "C23",
   "status": "proved",
   "theorems": [
    "c23_success",
    "c23_succeeds",
    "c23_unknown",
    "c23_missing",
    "c23_missing_never"
   ],
   "note": ""
  },
  {
   "property": "C24",
   "status": "proved",
   "theorems": [
    "c24_apply",
    "c24_failure",
    "c24_raw_needs_status",
    "c24_history"
   ],
   "note": ""
  },
  {
   "property": "C25",
   "status": "proved",
   "theorems": [
    "c25_total",
    "c25_lookup",
    "c25_same_name",
    "c25_marshal",
    "c25_unmarshal",
    "c25_unregister"
   ],
   "note": ""
  },
  {
   "property": "C26",
   "status": "proved",
   "theorems": [
    "c26_integer",
    "c26_number",
    "c26_integer_refused",
    "c26_number_refused",
    "c26_integer_own",
    "c26_number_own",
    "c26_composed",
    "c26_zero_member_refuted",
    "c26_integer_multiple_refuted",
    "c26_untyped_own_refuted"
   ],
   "note": ""
  },
  {
   "property": "C27",
   "status": "proved",
   "theorems": [
    "c27_text",
    "c27_unchanged",
    "c27_refused",
    "c27_composed",
    "c27_email",
    "c27_email_members_refuted"
   ],
   "note": ""
  },
  {
   "property": "C28",
   "status": "proved",
   "theorems": [
    "c28_list",
    "c28_text",
    "c28_unknown_format",
    "c28_count_refused",
    "c28_no_items_refuted"
   ],
   "note": ""
  },
  {
   "property": "C29",
   "status": "proved",
   "theorems": [
    "c29_text",
    "c29_elements",
    "c29_multi",
    "c29_single",
    "c29_unknown_format",
    "c29_roundtrip",
    "c29_empty_first_refuted"
   ],
   "note": ""
  },
  {
   "property": "C30",
   "status": "proved",
   "theorems": [
    "c30_contents",
    "c30_required",
    "c30_accepted",
    "c30_readonly_refused",
    "c30_missing_refused",
    "c30_not_dict_refused",
    "c30_nested_readonly_refuted"
   ],
   "note": ""
  },
  {
   "property": "C31",
   "status": "proved",
   "theorems": [
    "c31_required",
    "c31_values",
    "c31_only_member",
    "c31_nested_refuted",
    "c31_first_member_refuted",
    "c31_own_required_refuted"
   ],
   "note": ""
  },
  {
   "property": "C32",
   "status": "proved",
   "theorems": [
    "c32_roundtrip",
    "c32_alphabet",
    "c32_padded",
    "c32_injective",
    "c32_made",
    "c32_not_decoded_refuted"
   ],
   "note": ""
  },
  {
   "property": "C33",
   "status": "proved",
   "theorems": [
    "c33_equal",
    "c33_dict_left",
    "c33_reflexive",
    "c33_symmetric",
    "c33_not_equal",
    "c33_total",
    "c33_other_refuted"
   ],
   "note": ""
  },
  {
   "property": "C34",
   "status": "proved",
   "theorems": [
    "c34_kept",
    "c34_exact",
    "c34_altered_refuted",
    "c34_null_refuted"
   ],
   "note": ""
  },
  {
   "property": "C35",
   "status": "proved",
   "theorems": [
    "c35_visits",
    "c35_once",
    "c35_resolves",
    "c35_outside_first",
    "c35_depth_first",
    "c35_last_first",
    "c35_parsed"
   ],
   "note": ""
  },
  {
   "property": "C36",
   "status": "proved",
   "theorems": [
    "c36_accepted",
    "c36_refused",
    "c36_plain_field",
    "c36_one_child",
    "c36_list_child",
    "c36_dict_child",
    "c36_is_set",
    "c36_parents",
    "c36_no_parent"
   ],
   "note": ""
  },
  {
   "property": "C37",
   "status": "proved",
   "theorems": [
    "c37_merged",
    "c37_is_set",
    "c37_mine",
    "c37_theirs",
    "c37_copy",
    "c37_dicts",
    "c37_lists",
    "c37_excluded",
    "c37_nothing",
    "c37_possible",
    "c37_parents",
    "c37_parsed",
    "c37_enum_refuted"
   ],
   "note": ""
  },
  {
   "property": "C38",
   "status": "proved",
   "theorems": [
    "c38_reflexive",
    "c38_same",
    "c38_difference",
    "c38_exception",
    "c38_longer_refuted"
   ],
   "note": ""
  },
  {
   "property": "C39",
   "status": "proved",
   "theorems": [
    "c39_kept",
    "c39_inherited",
    "c39_security",
    "c39_schemes",
    "c39_parameters",
    "c39_url",
    "c39_others",
    "c39_rest",
    "c39_names",
    "c39_chosen",
    "c39_possible",
    "c39_location_refuted"
   ],
   "note": ""
  },
  {
   "property": "C40",
   "status": "proved",
   "theorems": [
    "c40_chain",
    "c40_made",
    "c40_first",
    "c40_objects",
    "c40_dicts",
    "c40_lists",
    "c40_possible",
    "c40_broken",
    "c40_terminates",
    "c40_final",
    "c40_path_item",
    "c40_others"
   ],
   "note": ""
  },
  {
   "property": "C41",
   "status": "proved",
   "theorems": [
    "c41_terminates",
    "c41_possible",
    "c41_composed",
    "c41_only",
    "c41_unchanged",
    "c41_document",
    "c41_nearest_refuted",
    "c41_alone",
    "c41_read"
   ],
   "note": "References and members may be circular; merging can fail on lists mixed with other values (c41_terminates), not in regular documents (c41_possible). Between several members a property need not come from the nearest one: c41_nearest_refuted. c41_alone: for a schema without allOf the composed schema is a full copy of it. c41_read: what is read for a copy inside a composed schema is a copy of what the original refers to, which is the relation C46 (c46_prepared) asks for."
  },
  {
   "property": "C42",
   "status": "proved",
   "theorems": [
    "c42_once",
    "c42_cached",
    "c42_absent",
    "c42_got",
    "c42_part",
    "c42_source",
    "c42_negative_refuted"
   ],
   "note": "Indexes that are no plain decimals select list elements, too: c42_negative_refuted."
  },
  {
   "property": "C43",
   "status": "proved",
   "theorems": [
    "c43_empty",
    "c43_local",
    "c43_shortcut",
    "c43_shortcut_base",
    "c43_whole",
    "c43_part",
    "c43_new",
    "c43_same",
    "c43_created",
    "c43_kept",
    "c43_ends",
    "c43_prefix_refuted",
    "c43_twice_refuted",
    "c43_endless_refuted",
    "c43_beyond_refuted",
    "c43_shortcut_method_refuted"
   ],
   "note": "The parts of a document are looked up by string prefixes, so one name continuing another misleads the lookup: c43_prefix_refuted, c43_twice_refuted, c43_endless_refuted; tokens below plain values are passed over: c43_beyond_refuted."
  },
  {
   "property": "C44",
   "status": "proved",
   "theorems": [
    "c44_document",
    "c44_converts",
    "c44_first",
    "c44_operation",
    "c44_no_other",
    "c44_model",
    "c44_subtype",
    "c44_authorization",
    "c44_clash_refuted",
    "c44_hosts_refuted",
    "c44_empty_refuted",
    "c44_info_refuted",
    "c44_order_refuted",
    "c44_name_refuted"
   ],
   "note": "For listings whose operations are all below one address, or below none (`based`). The claim without it is false: c44_hosts_refuted. Operations sharing path and method leave one (c44_first, c44_clash_refuted), parameters are turned round (c44_order_refuted), names are escaped (c44_name_refuted), and documents without operations or general information fail (c44_empty_refuted, c44_info_refuted). c44_converts says exactly which documents are converted."
  },
  {
   "property": "C45",
   "status": "proved",
   "theorems": [
    "c45_old_reports",
    "c45_old_once",
    "c45_old_fails",
    "c45_old_valid",
    "c45_old_invalid",
    "c45_old_reports_refuted",
    "c45_reports",
    "c45_each",
    "c45_strict",
    "c45_valid",
    "c45_invalid",
    "c45_fails",
    "c45_parsed"
   ],
   "note": "Rules for 2.0 documents (c45_reports ...) and for 1.2 documents (c45_old_...). For 1.2, validating fails exactly if an operation names an undefined authorization (KeyError) or has a file parameter without a searchable consumes (TypeError): c45_old_fails, c45_old_reports_refuted."
  },
  {
   "property": "C46",
   "status": "proved",
   "theorems": [
    "c46_aggregated",
    "c46_copied",
    "c46_prepared",
    "c46_conforms",
    "c46_conforming_accepted",
    "c46_accepted",
    "c46_object",
    "c46_required",
    "c46_excluded",
    "c46_values",
    "c46_max_parameter",
    "c46_minimal_parameter",
    "c46_template",
    "c46_returns",
    "c46_all_returns",
    "c46_falsy_enum_refuted",
    "c46_falsy_enum_accepted_refuted",
    "c46_zero_bound_refuted",
    "c46_multiple_refuted",
    "c46_additional_refuted",
    "c46_collision_refuted",
    "c46_max_properties_refuted",
    "c46_unique_refuted",
    "c46_readonly_refuted",
    "c46_endless_refuted"
   ],
   "note": "Unconditionally the claim is false of the code; each condition of `sound` is shown necessary by a c46_*_refuted theorem. Acceptance is for reading contexts; a readOnly property is refused when writing (c46_readonly_refuted). Prepared applications keep a composed copy (final) of every schema, which the renderer uses: c46_copied and c46_prepared state that what is rendered from the copies satisfies, and is taken by, the schemas themselves. c46_aggregated: for documents without allOf whose enums list texts, composed by the model of Aggregate (C41), what is rendered for a schema satisfies it and is taken by it."
  },
  {
   "property": "C47",
   "status": "proved",
   "theorems": [
    "c47_url_known_name",
    "c47_url_folder",
    "c47_url_file",
    "c47_url_completed",
    "c47_url_nothing",
    "c47_known_name",
    "c47_folder",
    "c47_given_file",
    "c47_completed",
    "c47_nothing",
    "c47_format",
    "c47_loaded",
    "c47_folder_ext_refuted",
    "c47_patch_path_base",
    "c47_patch_path_own",
    "c47_patch_path_default"
   ],
   "note": "The extension of a folder can mislead it: c47_folder_ext_refuted."
  },
  {
   "property": "C48",
   "status": "proved",
   "theorems": [
    "c48_texts",
    "c48_lookup",
    "c48_json",
    "c48_integers",
    "c48_missing",
    "c48_collision_refuted",
    "c48_others_refuted"
   ],
   "note": "An integer and its own text as keys leave one response: c48_collision_refuted; keys of other types stay as they are: c48_others_refuted."
  },
  {
   "property": "C49",
   "status": "proved",
   "theorems": [
    "c49_none",
    "c49_list",
    "c49_dict",
    "c49_join",
    "c49_other_types",
    "c49_case_insensitive_refuted"
   ],
   "note": "Names are compared exactly; the stronger case-insensitive reading is refuted by c49_case_insensitive_refuted."
  },
  {
   "property": "C50",
   "status": "proved",
   "theorems": [
    "c50_content_type",
    "c50_body",
    "c50_accept",
    "c50_accept_outside",
    "c50_consume_outside",
    "c50_consume_form_refuted"
   ],
   "note": "For form requests an explicit Content-Type choice is ignored: c50_consume_form_refuted."
  },
  {
   "property": "C51",
   "status": "proved",
   "theorems": [
    "c51_old",
    "c51_new",
    "c51_fragment",
    "c51_other",
    "c51_no_object_refuted"
   ],
   "note": "Documents that are no JSON object raise AttributeError instead: c51_no_object_refuted."
  },
  {
   "property": "C52",
   "status": "proved",
   "theorems": [
    "c52_get",
    "c52_is_primitive",
    "c52_others",
    "c52_initial",
    "c52_new_type_refuted"
   ],
   "note": ""
  },
  {
   "property": "C53",
   "status": "proved",
   "theorems": [
    "c53_normalised",
    "c53_fails"
   ],
   "note": ""
  },
  {
   "property": "C54",
   "status": "proved",
   "theorems": [
    "c54_calls",
    "c54_routes",
    "c54_order",
    "c54_refused"
   ],
   "note": ""
  },
  {
   "property": "C55",
   "status": "proved",
   "theorems": [
    "c55_listing",
    "c55_listing_loads",
    "c55_object",
    "c55_object_loads",
    "c55_operations",
    "c55_duplicate",
    "c55_shape",
    "c55_parents",
    "c55_nested"
   ],
   "note": ""
  },
  {
   "property": "C56",
   "status": "proved",
   "theorems": [
    "c56_sends",
    "c56_response",
    "c56_no_answer",
    "c56_again",
    "c56_url",
    "c56_url_options",
    "c56_query",
    "c56_header",
    "c56_caller_options",
    "c56_caller_headers",
    "c56_tornado_content_type_refuted",
    "c56_flask_disk_refuted",
    "c56_flask_fields_refuted",
    "c56_same_options_refuted",
    "c56_same_headers_refuted",
    "c56_credentials_stay_refuted",
    "c56_streams_again_refuted"
   ],
   "note": "Part of the claim is false of the code and shown so: tornado decodes every answer as JSON (c56_tornado_content_type_refuted); flask uploads files given by name empty and keeps one value of a repeated field beside a file (c56_flask_disk_refuted, c56_flask_fields_refuted); opt and headers dicts cannot be reused (c56_same_options_refuted, c56_same_headers_refuted); credentials stay in the request for later clients (c56_credentials_stay_refuted); file-like objects are empty the second time (c56_streams_again_refuted). c56_again is for one security object and files on disk."
  },
  {
   "property": "C57",
   "status": "proved",
   "theorems": [
    "c57_document",
    "c57_completed",
    "c57_rest",
    "c57_kept",
    "c57_url",
    "c57_inherited",
    "c57_security",
    "c57_schemes",
    "c57_responses",
    "c57_parameters",
    "c57_others",
    "c57_found",
    "c57_found_tag",
    "c57_only",
    "c57_distinct",
    "c57_models",
    "c57_reported",
    "c57_resolves",
    "c57_strict",
    "c57_alias_refuted",
    "c57_alias_parameter_refuted"
   ],
   "note": "Documents of version 2.0. Theorems assume that the application has been created (create_app = Ok); C43, C39, C45 say when the steps succeed. c57_alias_refuted and c57_alias_parameter_refuted: path items that refer to path items of the same document make known operations twice or leave their parameters incomplete. Aggregated schemas and cycles are the subject of C41 and C08."
  },
  {
   "property": "C58",
   "status": "proved",
   "theorems": [
    "c58_document",
    "c58_rest",
    "c58_operation",
    "c58_no_other",
    "c58_found",
    "c58_only",
    "c58_models",
    "c58_authorization",
    "c58_reported",
    "c58_resolves",
    "c58_foreign_model_refuted",
    "c58_separator_refuted"
   ],
   "note": "Theorems assume that the application has been created (create_app = Ok). Those on operations and models also assume that all operations of the listing are below one scheme and host, as C44 does (c44_hosts_refuted shows why). Of several operations with one path and method only the first is offered (first_at; c44_clash_refuted). c58_foreign_model_refuted: types are looked for among the models of the same resource only. c58_separator_refuted: with a separator of one's own, models do not get their ids as names. c57_strict holds for 1.2 too."
  },
  {
   "property": "C59",
   "status": "proved",
   "theorems": [
    "c59_found",
    "c59_call",
    "c59_sends",
    "c59_possible",
    "c59_response",
    "c59_method",
    "c59_url",
    "c59_query",
    "c59_header",
    "c59_body",
    "c59_form",
    "c59_no_body",
    "c59_files"
   ],
   "note": "Theorems assume that the application has been created, that the path item has no reference, that every parameter says its name and one of the five locations (usable) and that parameters and responses refer into the document (C57's completed says nothing else about other documents). Values, primitives, codecs and the HTTP library are parameters of the theorems (C23-C29 are about primitives, C48 about codecs). c59_method to c59_files say what the message is that c59_sends speaks of (requested, faithful)."
  },
  {
   "property": "C60",
   "status": "proved",
   "theorems": [
    "c60_integer",
    "c60_number",
    "c60_boolean",
    "c60_boolean_sent",
    "c60_date",
    "c60_datetime",
    "c60_date_back",
    "c60_datetime_back",
    "c60_uuid",
    "c60_file",
    "c60_file_refused",
    "c60_unknown",
    "c60_none",
    "c60_date_only_refuted",
    "c60_uuid_members_refuted"
   ],
   "note": "c60_date_only_refuted: a date schema given a datetime keeps it, and sends the time of day too. c60_uuid_members_refuted: a UUID schema with allOf refuses every value. int(), float(), uuid.UUID() of texts and timestamps are parameters; floats are exact rationals (no NaN or infinity)."
  },
  {
   "property": "C61",
   "status": "proved",
   "theorems": [
    "c61_strict",
    "c61_reported",
    "c61_refused",
    "c61_listed",
    "c61_old_strict",
    "c61_old_reported",
    "c61_old_listed"
   ],
   "note": "About the application's own document, for 2.0 documents and converted 1.2 listings, when its schemas refer to schemas of the same document (several texts may name the same place). Cycles that lead through other documents are covered by C08 as a graph of texts only."
  },
  {
   "property": "C62",
   "status": "proved",
   "theorems": [
    "c62_old_reads",
    "c62_old_listing",
    "c62_old_no_other",
    "c62_reads",
    "c62_operation_docs_refuted"
   ],
   "note": "S_Swagger20.v and S_Swagger12.v write down the fields of the two specifications independently of the tables of the model (t_fields, t_child, o_fields, o_child) and what it means that an object says what a document says; c62_reads and c62_old_reads prove this of whatever is parsed, c62_old_listing of resource listings, c62_old_no_other that 1.2 objects have no other fields. c62_operation_docs_refuted: the externalDocs of an operation are not parsed as an object."
  },
  {
   "property": "C63",
   "status": "proved",
   "theorems": [
    "c63_told_apart",
    "c63_composed",
    "c63_old_told_apart",
    "c63_old_composed"
   ],
   "note": "For applications of a single document, with schemas that refer to schemas of this document and path items that are no references; C41 has the composition of any schemas of a heap."
  },
  {
   "property": "C64",
   "status": "proved",
   "theorems": [
    "c64_leads",
    "c64_fails",
    "c64_decimal",
    "c64_one_integer",
    "c64_front",
    "c64_back",
    "c64_in_turn",
    "c64_local",
    "c64_unchanged",
    "c64_local_fails"
   ],
   "note": "int() is modelled for ASCII texts; attributes of objects that are neither fields nor internal fields (methods) are not modelled."
  },
  {
   "property": "C65",
   "status": "proved",
   "theorems": [
    "c65_outcome",
    "c65_created",
    "c65_strict",
    "c65_refused",
    "c65_old_outcome"
   ],
   "note": "Documents that refer to other documents and path items that are references are outside of `acceptable`; so are schemas where one field has lists in one schema and other values in another (the code fails only if such schemas are composed)."
  },
  {
   "property": "C66",
   "status": "proved",
   "theorems": [
    "c66_made",
    "c66_refused",
    "c66_one",
    "c66_written",
    "c66_combined",
    "c66_call",
    "c66_header",
    "c66_zero_refuted",
    "c66_enum_refuted",
    "c66_pattern_refuted"
   ],
   "note": "Body schemas are a parameter of the theorem about calls. Texts to numbers, dates of timestamps, uuid parsing and the e-mail check are parameters, as in C29-C31."
  },
  {
   "property": "C67",
   "status": "proved",
   "theorems": [
    "c67_made",
    "c67_accepted",
    "c67_refused",
    "c67_document",
    "c67_simple",
    "c67_required",
    "c67_composed",
    "c67_body",
    "c67_data",
    "c67_readonly_refuted",
    "c67_readonly_target_refuted",
    "c67_null_refuted",
    "c67_default_refuted",
    "c67_any_refuted",
    "c67_nothing_refuted"
   ],
   "note": "The equivalence is for schemas not composed by allOf; for composed ones it is proved what objects have (c67_required, c67_composed), under the conditions of C31, whose refutations show where the code does otherwise. Texts to numbers, dates of timestamps, uuid parsing and the e-mail check are parameters, as in C29-C31. The recursion limit is a parameter: acceptance is for all limits from some one on."
  },
  {
   "property": "C68",
   "status": "proved",
   "theorems": [
    "c68_text",
    "c68_list",
    "c68_injective",
    "c68_call",
    "c68_sent",
    "c68_header",
    "c68_boolean_refuted",
    "c68_separator_refuted",
    "c68_unique_refuted",
    "c68_empty_refuted",
    "c68_message"
   ],
   "note": "That Python's int, float, uuid.UUID and UTF-8 read what str writes is a condition on the value that is sent (they are parameters of the model). Booleans and other values whose texts do not come back are refuted cases. c68_message is about messages: in the query, the form and the headers that are sent there is that text, once, and it is read again as the same."
  },
  {
   "property": "C69",
   "status": "proved",
   "theorems": [
    "c69_shows",
    "c69_one",
    "c69_back",
    "c69_same",
    "c69_plain",
    "c69_straight",
    "c69_bytes_refuted",
    "c69_date_refuted",
    "c69_unique_refuted",
    "c69_sent",
    "c69_received"
   ],
   "note": "json.dumps and json.loads are modelled between primitives and JSON documents; that the text of a well-formed document is read as that document is a hypothesis. Schemas are not composed by allOf (as in c67_made). Bytes, datetimes given for dates and items unique only before conversion are refuted cases. c69_sent is about the messages of calls: the payload of a message that using an operation with one body parameter sends as JSON is the document of what the schema of the body makes of the value, and is read again by it. c69_received is the same for the data of responses."
  },
  {
   "property": "C70",
   "status": "proved",
   "theorems": [
    "c70_address",
    "c70_total",
    "c70_unique",
    "c70_again",
    "c70_path_source",
    "c70_path_found",
    "c70_path_other",
    "c70_existing_path_refuted",
    "c70_path_opened",
    "c70_folder_opened"
   ],
   "note": "os.path.abspath is a parameter of the model, and so is as_uri except in T_AsUri.v. urlparse is modelled as in M_Url.v: newer Python releases also check what is between the brackets of a host. Paths with characters that URLs quote are a refuted case (c70_existing_path_refuted)."
  }
 ]
}