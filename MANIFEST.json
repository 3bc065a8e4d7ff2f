{
 "claims": [
  {
   "property": "C01",
   "status": "proved",
   "theorems": [
    "C01_encoder_emits_standard_utf8",
    "C01_utf8_round_trip",
    "C01_decoder_resumable"
   ],
   "note": "All code point sequences; both signed and unsigned byte sources."
  },
  {
   "property": "C02",
   "status": "proved",
   "theorems": [
    "C02_string_round_trip_utf8"
   ],
   "note": "Exact: the two infinity words are the only exceptions. Both signed and unsigned byte sources."
  },
  {
   "property": "C03",
   "status": "proved",
   "theorems": [
    "C03_escaped_output_ascii",
    "C03_string_round_trip_escaped",
    "C03_supplementary_planes_refuted"
   ],
   "note": "Round trip iff all code points are in the BMP; witness U+1F600 for the failure above it."
  },
  {
   "property": "C04",
   "status": "proved",
   "theorems": [
    "C04_integer_text",
    "C04_integer_round_trip"
   ],
   "note": ""
  },
  {
   "property": "C05",
   "status": "proved",
   "theorems": [
    "C05_digits_exact",
    "C05_negative_digits_exact",
    "C05_negative_large",
    "C05_overflow_detected"
   ],
   "note": ""
  },
  {
   "property": "C06",
   "status": "proved",
   "theorems": [
    "C06_document_round_trip",
    "C06_equal",
    "C06_text"
   ],
   "note": ""
  },
  {
   "property": "C07",
   "status": "proved",
   "theorems": [
    "C07_parsed_objects_sorted",
    "C07_duplicates_rejected",
    "C07_accepted_documents"
   ],
   "note": "Sortedness for every input; duplicate rejection for every text of the JSON grammar, both number modes."
  },
  {
   "property": "C08",
   "status": "partial",
   "theorems": [
    "C08_malformed_escape_refuted",
    "C08_unknown_escape_rejected_partial",
    "C08_literals_partial"
   ],
   "note": "False of the code: a throw is missing in parseUnicode, so \\uZZZZ is accepted. Proved instead: the exact set of accepted literals (any four characters may follow \\u, fewer are an error; unknown escape letters are rejected)."
  },
  {
   "property": "C09",
   "status": "proved",
   "theorems": [
    "C09_key_order",
    "C09_lookup_exact",
    "C09_lookup_safe"
   ],
   "note": ""
  },
  {
   "property": "C10",
   "status": "proved",
   "theorems": [
    "C10_sort_last_wins",
    "C10_object_from_members",
    "C10_last_binding_meaning"
   ],
   "note": ""
  },
  {
   "property": "C11",
   "status": "proved",
   "theorems": [
    "C11_read",
    "C11_commit",
    "C11_commit_as_diff",
    "C11_dirty",
    "C11_list_constructor",
    "C11_commit_determined"
   ],
   "note": "Refinement of a base-plus-changes map over histories on two builders; copies, assignments, moves, clear, revert, setBaseObject included."
  },
  {
   "property": "C12",
   "status": "proved",
   "theorems": [
    "C12_layers_safe"
   ],
   "note": "Invariant: the unordered layer never exceeds 8 members before an ordered layer exists."
  },
  {
   "property": "C13",
   "status": "proved",
   "theorems": [
    "C13_iteration_shows",
    "C13_iteration_current",
    "C13_iteration_after_clear_refuted"
   ],
   "note": "The statement is the exact behaviour; iterate, clear, iterate shows the old content (refuted theorem has the witness)."
  },
  {
   "property": "C14",
   "status": "proved",
   "theorems": [
    "C14_builder_is_list",
    "C14_insert_set_refuted",
    "C14_set_base"
   ],
   "note": "insertSet fills the wrong slots; the theorem excludes exactly that use."
  },
  {
   "property": "C15",
   "status": "proved",
   "theorems": [
    "C15_array_slice_start",
    "C15_array_slice_range",
    "C15_array_slice_exact",
    "C15_array_slice_negative_refuted",
    "C15_value_slice",
    "C15_value_slice_negative_refuted"
   ],
   "note": "Exact behaviour for every start and end; the usual meaning of negative positions fails, shown by the refuted theorems."
  },
  {
   "property": "C16",
   "status": "proved",
   "theorems": [
    "C16_split_partitions",
    "C16_read_inside",
    "C16_read_past_end_refuted"
   ],
   "note": "Sizes below 2^31."
  },
  {
   "property": "C17",
   "status": "proved",
   "theorems": [
    "C17_put_get",
    "C17_get_put",
    "C17_elsewhere",
    "C17_delete",
    "C17_index_past_end_refuted",
    "C17_index_into_object_refuted"
   ],
   "note": "Exact domain in fits: indexes are applied to arrays (or create one) and are at most the size. The refuted theorems show what an index past the end and an index into an object do."
  },
  {
   "property": "C18",
   "status": "proved",
   "theorems": [
    "C18_antisymmetric",
    "C18_equal",
    "C18_transitive",
    "C18_leaf_first",
    "C18_components",
    "C18_round_trip"
   ],
   "note": "path_ok is how the constructors build components."
  },
  {
   "property": "C19",
   "status": "proved",
   "theorems": [
    "C19_round_trip",
    "C19_equal",
    "C19_doubles",
    "C19_continuation_byte_refuted",
    "C19_diff_refuted"
   ],
   "note": "Statement reworded to the exact behaviour; the refuted theorems show the two losses."
  },
  {
   "property": "C20",
   "status": "proved",
   "theorems": [
    "C20_session",
    "C20_preload_twice_refuted",
    "C20_wraparound_refuted"
   ],
   "note": "Statement reworded to exclude repeated preloading and the wraparound of the key counter, both refuted."
  },
  {
   "property": "C21",
   "status": "proved",
   "theorems": [
    "C21_small",
    "C21_large",
    "C21_sign_refuted"
   ],
   "note": "Statement reworded: the sign of large negative integers is lost."
  },
  {
   "property": "C22",
   "status": "proved",
   "theorems": [
    "C22_bounded",
    "C22_otherwise_never",
    "C22_end_of_stream_refuted",
    "C22_cut_array_refuted",
    "C22_cut_text_refuted"
   ],
   "note": "Statement reworded: the original claim (always ends) is refuted."
  },
  {
   "property": "C23",
   "status": "proved",
   "theorems": [
    "C23_base64_round_trip",
    "C23_base64_shape",
    "C23_base64_bad_length",
    "C23_buffers",
    "C23_decoded_once"
   ],
   "note": ""
  },
  {
   "property": "C24",
   "status": "proved",
   "theorems": [
    "C24_base64url_round_trip",
    "C24_base64url_letters",
    "C24_decoded_tag",
    "C23_buffers"
   ],
   "note": "C24_decoded_tag records that the decoded value is tagged base64."
  },
  {
   "property": "C25",
   "status": "proved",
   "theorems": [
    "C25_url_round_trip",
    "C25_decoded_size",
    "C25_form_text"
   ],
   "note": "isalnum in the C locale."
  },
  {
   "property": "C26",
   "status": "proved",
   "theorems": [
    "C26_utf8_round_trip",
    "C26_valid_text",
    "C26_invalid_text_refuted"
   ],
   "note": "Decoding arbitrary (invalid) text can overflow its buffer; shown by the refuted theorem."
  },
  {
   "property": "C27",
   "status": "proved",
   "theorems": [
    "C27_round_trip",
    "C27_utf8_printable",
    "C27_bytes",
    "C27_document",
    "C27_refuses",
    "C27_broken_text_refuted"
   ],
   "note": "All eight masks, any length; broken sequences refuted."
  },
  {
   "property": "C28",
   "status": "proved",
   "theorems": [
    "C28_sharing_irrelevant",
    "C28_reflexive",
    "C28_symmetric",
    "C28_transitive",
    "C28_transitive_large_refuted",
    "C28_undefined_refuted"
   ],
   "note": "Reworded to the exact domain; the unrestricted law fails, shown by the refuted theorems."
  },
  {
   "property": "C29",
   "status": "proved",
   "theorems": [
    "C29_antisymmetric",
    "C29_transitive",
    "C29_zero_iff_equal",
    "C29_transitive_large_refuted",
    "C29_zero_nan_refuted",
    "C29_order"
   ],
   "note": "Reworded to the exact domain; the unrestricted law fails, shown by the refuted theorems."
  },
  {
   "property": "C30",
   "status": "proved",
   "theorems": [
    "C30_same_form",
    "C30_same_form_equal",
    "C30_hash_input",
    "C30_one_byte",
    "C30_number_refuted",
    "C30_precise_refuted",
    "C30_array_keys_refuted",
    "C30_binary_refuted"
   ],
   "note": "equal values of different form hash differently: shown by the _refuted theorems"
  },
  {
   "property": "C31",
   "status": "proved",
   "theorems": [
    "C31_apply_diff",
    "C31_apply_diff_equal",
    "C31_self_empty"
   ],
   "note": "Recursion limit 0, the default."
  },
  {
   "property": "C32",
   "status": "proved",
   "theorems": [
    "C32_recursive_diff_refuted",
    "C32_nested_change_lost",
    "C32_empty_key_added",
    "C32_flat",
    "C32_recursive_merge",
    "C32_recursive_merge_leaf"
   ],
   "note": "The original law is false (refuted theorem); the property now states what happens."
  },
  {
   "property": "C33",
   "status": "proved",
   "theorems": [
    "C33_sort",
    "C33_merge",
    "C33_merge_with",
    "C33_intersection",
    "C33_intersection_with",
    "C33_complement",
    "C33_symdiff"
   ],
   "note": "std::stable_sort is represented by insertion sort; the capacity of the result container is modelled and never reached"
  },
  {
   "property": "C34",
   "status": "proved",
   "theorems": [
    "C34_find",
    "C34_bounds",
    "C34_uniq",
    "C34_group"
   ],
   "note": "lowerBound of a needle without equal items is the end"
  },
  {
   "property": "C35",
   "status": "proved",
   "theorems": [
    "C35_tokens",
    "C35_cover",
    "C35_no_slash",
    "C35_json",
    "C35_slash_quote_refuted"
   ],
   "note": "The stream is a list of characters followed by end marks. C35_slash_quote_refuted shows the exception for a quote after a lone slash."
  },
  {
   "property": "C36",
   "status": "proved",
   "theorems": [
    "C36_date",
    "C36_time",
    "C36_timez",
    "C36_datetime",
    "C36_format",
    "C36_offset",
    "C36_offset_refuted"
   ],
   "note": "The offset minutes are computed from the hours (o = O*10 + digit), so the documented meaning of 'O' and 'o' is refuted and the exact behaviour proved."
  },
  {
   "property": "C37",
   "status": "proved",
   "theorems": [
    "C37_template",
    "C37_in_order",
    "C37_only_objects",
    "C37_wild_refuted",
    "C37_empty_key_refuted",
    "C37_order_refuted"
   ],
   "note": "Exact characterisation; the simpler reading is refuted for an empty object with a wildcard, for the empty key and for keys made of percent signs."
  },
  {
   "property": "C38",
   "status": "proved",
   "theorems": [
    "C38_one_verdict",
    "C38_alternatives",
    "C38_alternatives_some",
    "C38_not",
    "C38_all",
    "C38_compare",
    "C38_minsize",
    "C38_maxsize",
    "C38_mixed_refuted"
   ],
   "note": "Operands of comparisons go through get_var of the model (variables and paths). A signed against an unsigned integer is compared as doubles (refuted as exact comparison)."
  },
  {
   "property": "C39",
   "status": "proved",
   "theorems": [
    "C39_at_most_one",
    "C39_notification_silent",
    "C39_final",
    "C39_identifier",
    "C39_server_answers",
    "C39_dropped",
    "C39_reentrant_refuted",
    "C39_throwing_refuted",
    "C39_callbacks_refuted"
   ],
   "note": "Peers that answer or throw while being handed a result get two responses (refuted without that condition); callback requests call every time."
  },
  {
   "property": "C40",
   "status": "proved",
   "theorems": [
    "C40_only_enabled",
    "C40_refused",
    "C40_before_response",
    "C40_refused_for_ever_refuted",
    "C40_callbacks_refuted"
   ],
   "note": "A refusal is lifted by an accepted response when both flags are set, against the documentation."
  },
  {
   "property": "C41",
   "status": "proved",
   "theorems": [
    "C41_once",
    "C41_response",
    "C41_cancel",
    "C41_cancel_all",
    "C41_filter",
    "C41_identifiers",
    "C41_fresh"
   ],
   "note": "One thread; map keys match when hash and value are equal."
  },
  {
   "property": "C42",
   "status": "proved",
   "theorems": [
    "C42_update",
    "C42_nothing",
    "C42_always"
   ],
   "note": ""
  },
  {
   "property": "C43",
   "status": "proved",
   "theorems": [
    "C43_verified",
    "C43_total",
    "C43_round_trip",
    "C43_method_round_trip",
    "C43_kid"
   ],
   "note": "The crypto object is an arbitrary argument. Payloads of the round trip are those of C06 (doc_ok)."
  },
  {
   "property": "C44",
   "status": "proved",
   "theorems": [
    "C44_window",
    "C44_negative_refuted"
   ],
   "note": "C44_negative_refuted shows the exception for negative limits."
  },
  {
   "property": "C45",
   "status": "proved",
   "theorems": [
    "C45_sound",
    "C45_keeps",
    "C45_size",
    "C45_latest_refuted",
    "C45_short_refuted"
   ],
   "note": "The refuted theorems show why 'most recently stored' and short tokens are excluded."
  },
  {
   "property": "C46",
   "status": "proved",
   "theorems": [
    "C46_by_name",
    "C46_find",
    "C46_by_value",
    "C46_inverse",
    "C46_all_enums",
    "C46_all_enums_refuted",
    "C46_message"
   ],
   "note": ""
  },
  {
   "property": "C47",
   "status": "proved",
   "theorems": [
    "C47_precise_text_kept",
    "C47_precise_integer_exact",
    "C47_precise_overflow_detected",
    "C47_precise_overflow_refuted"
   ],
   "note": "Also shown: overflow is recognised up to a tenth beyond 2^64; further above the cached integer can be wrong."
  },
  {
   "property": "C48",
   "status": "proved",
   "theorems": [
    "C48_objects",
    "C48_deep_sorted",
    "C48_arrays",
    "C48_script",
    "C48_strings",
    "C48_script_refuted"
   ],
   "note": "eq is any function giving results operator== can give; C48_script_refuted: a script that ends in an exception"
  },
  {
   "property": "C49",
   "status": "proved",
   "theorems": [
    "C49_not_arrays",
    "C49_one_result",
    "C49_arrays",
    "C49_never",
    "C49_extended",
    "C49_refuted",
    "C49_self"
   ],
   "note": "the original claim (always returns) is refuted; exact condition proved"
  },
  {
   "property": "C50",
   "status": "proved",
   "theorems": [
    "C50_returns",
    "C50_content",
    "C50_update",
    "C50_duplicate_refuted"
   ],
   "note": "std::sort as any sorted permutation"
  },
  {
   "property": "C51",
   "status": "proved",
   "theorems": [
    "C51_join",
    "C51_string_form",
    "C51_join_empty",
    "C51_join_empty_refuted",
    "C51_split",
    "C51_split_unique",
    "C51_rejoin"
   ],
   "note": "the claim for no items is refuted by C51_join_empty_refuted"
  },
  {
   "property": "C52",
   "status": "proved",
   "theorems": [
    "C52_push",
    "C52_pop",
    "C52_unshift",
    "C52_shift",
    "C52_reverse"
   ],
   "note": ""
  },
  {
   "property": "C53",
   "status": "proved",
   "theorems": [
    "C53_split",
    "C53_empty_refuted"
   ],
   "note": ""
  },
  {
   "property": "C54",
   "status": "proved",
   "theorems": [
    "C54_container"
   ],
   "note": "No null crypto object in the list."
  },
  {
   "property": "C55",
   "status": "proved",
   "theorems": [
    "C55_objects",
    "C55_arrays",
    "C55_arrays_refuted",
    "C55_bools",
    "C55_strings",
    "C55_numbers"
   ],
   "note": "C55_numbers is about whole numbers up to 2^53; other sums are rounded. It uses the axioms of the standard library's real numbers."
  },
  {
   "property": "C56",
   "status": "proved",
   "theorems": [
    "C56_insert",
    "C56_replace",
    "C56_replace_wraps",
    "C56_replace_refuted",
    "C56_split_at",
    "C56_left_right"
   ],
   "note": "replacing to the end of the text with size npos is refuted by C56_replace_refuted and exact in C56_replace_wraps; splitAt with a negative position for strings shorter than 2^31"
  },
  {
   "property": "C57",
   "status": "proved",
   "theorems": [
    "C57_request",
    "C57_prepared",
    "C57_completed",
    "C57_result",
    "C57_error",
    "C57_null_error_refuted",
    "C57_undefined_result_refuted"
   ],
   "note": "Same conditions on peers as C39."
  },
  {
   "property": "C58",
   "status": "proved",
   "theorems": [
    "C58_registry",
    "C58_method",
    "C58_unknown",
    "C58_invalid",
    "C58_raises",
    "C58_params"
   ],
   "note": "Errors as formatted by the server's services; a proxy or an exception handler are covered by C39 only."
  },
  {
   "property": "C59",
   "status": "proved",
   "theorems": [
    "C59_items",
    "C59_tuple"
   ],
   "note": ""
  },
  {
   "property": "C60",
   "status": "proved",
   "theorems": [
    "C60_any_state",
    "C60_restores",
    "C60_emits",
    "C60_validate",
    "C60_listed_refuted",
    "C60_again_refuted",
    "C60_throw_refuted"
   ],
   "note": "Expectations about the completeness of the rejection list are refuted."
  },
  {
   "property": "C61",
   "status": "proved",
   "theorems": [
    "C61_class_decided",
    "C61_rule_decided",
    "C61_validate",
    "C61_check",
    "C61_loop_refuted",
    "C61_split_loop_refuted"
   ],
   "note": "Proved by well-founded induction on rank, weight of the subject and rule. Equality with an unset variable as a rule is outside the condition. Without the condition a class can run for ever: the refuted theorems."
  },
  {
   "property": "C62",
   "status": "proved",
   "theorems": [
    "C62_set",
    "C62_negated",
    "C62_empty",
    "C62_only_strings",
    "C62_single",
    "C62_dash_refuted"
   ],
   "note": "The plain reading of a range at the end of the description is refuted."
  },
  {
   "property": "C63",
   "status": "proved",
   "theorems": [
    "C63_stands_for",
    "C63_terminates",
    "C63_digits",
    "C63_precise",
    "C63_tonumber_refuted",
    "C63_double",
    "C63_not_finite",
    "C63_integers"
   ],
   "note": "Documented rejection by the rule tonumber is refuted."
  },
  {
   "property": "C64",
   "status": "proved",
   "theorems": [
    "C64_characters",
    "C64_base64",
    "C64_base64url",
    "C64_encoded",
    "C64_identifier",
    "C64_types",
    "C64_identifier_refuted",
    "C64_constant",
    "C64_comment"
   ],
   "note": ""
  },
  {
   "property": "C65",
   "status": "proved",
   "theorems": [
    "C65_ends",
    "C65_code_above",
    "C65_code_known",
    "C65_code_next",
    "C65_safe_refuted"
   ],
   "note": "Exact outcome of a code while the dictionary has below 2^31 entries; memory safety refuted."
  },
  {
   "property": "C66",
   "status": "proved",
   "theorems": [
    "C66_short_streams",
    "C66_streams_refuted"
   ],
   "note": "Short texts proved for all masks; longer ones refuted with mask 255 (the witness for 128 would take minutes to compute)."
  },
  {
   "property": "C67",
   "status": "proved",
   "theorems": [
    "C67_prefix_text",
    "C67_suffix_text",
    "C67_prefix_array",
    "C67_suffix_array",
    "C67_split_array",
    "C67_split_text",
    "C67_key",
    "C67_tostring",
    "C67_tonumber",
    "C67_explode",
    "C67_suffix_empty_refuted",
    "C67_split_end_refuted",
    "C67_tonumber_refuted"
   ],
   "note": "Array positions and lengths below 2^31; StringView::split is an argument of the model."
  },
  {
   "property": "C68",
   "status": "proved",
   "theorems": [
    "C68_operand",
    "C68_operand_one",
    "C68_operand_some",
    "C68_compare",
    "C68_setvar",
    "C68_setvar_name",
    "C68_usevar",
    "C68_usevar_unknown",
    "C68_usevar_path",
    "C68_usevar_nothing",
    "C68_equal",
    "C68_emit_verdict",
    "C68_emit",
    "C68_instance_one",
    "C68_usevar_path_refuted",
    "C68_emit_rejected_refuted",
    "C68_variables"
   ],
   "note": "Subjects and variables have objects with keys in order (all_sorted), as every value the library builds by its parser and builders."
  },
  {
   "property": "C69",
   "status": "proved",
   "theorems": [
    "C69_text",
    "C69_decimal",
    "C69_zero",
    "C69_infinite",
    "C69_small_refuted"
   ],
   "note": "Numbers between 5e-324 and 1e-307 are excluded by the magnitude bound; the last theorem shows why."
  },
  {
   "property": "C70",
   "status": "proved",
   "theorems": [
    "C70_document",
    "C70_same_text",
    "C70_exponent",
    "C70_exact",
    "C70_exact_refuted",
    "C70_largest_refuted"
   ],
   "note": "Numbers within one percent of the switches of format at 0.01 and 1e8 are not covered: there the C library decides the format."
  },
  {
   "property": "C71",
   "status": "proved",
   "theorems": [
    "C71_sound",
    "C71_complete",
    "C71_complete_precise",
    "C71_language",
    "C71_language_plain"
   ],
   "note": "What a body that is not UTF-8 denotes is left open. In ordinary mode numbers with an integer part or exponent of 2^64 or more may be rejected; whether they are depends on the C library's pow."
  },
  {
   "property": "C72",
   "status": "proved",
   "theorems": [
    "C72_index_of",
    "C72_last_index_of",
    "C72_find_index",
    "C72_rfind_index",
    "C72_find",
    "C72_rfind",
    "C72_find_pure",
    "C72_rfind_pure",
    "C72_filter"
   ],
   "note": "user functions are state-passing functions; indexOf takes any equality allowed by C28 for its sharing of handles"
  },
  {
   "property": "C73",
   "status": "proved",
   "theorems": [
    "C73_map_array",
    "C73_map_object",
    "C73_map_same_keys",
    "C73_reduce"
   ],
   "note": ""
  },
  {
   "property": "C74",
   "status": "proved",
   "theorems": [
    "C74_walk",
    "C74_join"
   ],
   "note": ""
  },
  {
   "property": "C75",
   "status": "proved",
   "theorems": [
    "C75_refs",
    "C75_assign",
    "C75_sync"
   ],
   "note": "Refinement over all histories; C75_assign and C75_sync read off the effect of one step of the specification."
  },
  {
   "property": "C76",
   "status": "proved",
   "theorems": [
    "C76_close",
    "C76_object",
    "C76_array",
    "C76_commit_object",
    "C76_commit_array",
    "C76_commit_twice_refuted",
    "C76_clear_refuted"
   ],
   "note": "The two refuted theorems show the exceptions named in the statement."
  },
  {
   "property": "C77",
   "status": "proved",
   "theorems": [
    "C77_terminated",
    "C77_integer",
    "C77_sound",
    "C77_view_refuted"
   ],
   "note": "C77_view_refuted shows the dependence on the character behind the view."
  },
  {
   "property": "C78",
   "status": "proved",
   "theorems": [
    "C78_agree",
    "C78_utf8",
    "C78_bound_refuted",
    "C78_end_refuted"
   ],
   "note": "Exact bound; the two refuted theorems show that bytes 248..255 are read differently, and that byte 255 ends the text of a char source."
  },
  {
   "property": "C79",
   "status": "proved",
   "theorems": [
    "C79_multicall",
    "C79_determined",
    "C79_count",
    "C79_positions",
    "C79_refused",
    "C79_server",
    "C79_all_made_refuted",
    "C79_positions_refuted",
    "C79_twice_refuted",
    "C79_waits"
   ],
   "note": "Answers of a sub-request arrive before or after the counter of the loop is advanced; what follows a second answer (use of a running or deleted context) is the outcome Broken and not followed further."
  },
  {
   "property": "C80",
   "status": "proved",
   "theorems": [
    "C80_list",
    "C80_proxy"
   ],
   "note": "The order of the map is any permutation of the registered names; the proxy's answer is an argument."
  },
  {
   "property": "C81",
   "status": "proved",
   "theorems": [
    "C81_accepted",
    "C81_bare",
    "C81_refused",
    "C81_one_verdict",
    "C81_where",
    "C81_listed",
    "C81_named",
    "C81_guard_accepts",
    "C81_guard_refuses",
    "C81_guard_throws",
    "C81_listed_refuted"
   ],
   "note": "The number of rules is below 2^32 in C81_where. C81_listed_refuted: the list of rejections may be empty although an argument is rejected."
  },
  {
   "property": "C82",
   "status": "proved",
   "theorems": [
    "C82_ping",
    "C82_help",
    "C82_answer_refuted"
   ],
   "note": "C82_answer_refuted: in version 2.0 help about an unknown name leaves the call of the client pending."
  },
  {
   "property": "C83",
   "status": "proved",
   "theorems": [
    "C83_stored",
    "C83_unique",
    "C83_sign",
    "C83_first",
    "C83_sound",
    "C83_wrong_method",
    "C83_es512",
    "C83_token",
    "C83_es512_refuted",
    "C83_one_signature_refuted",
    "C83_preferred_refuted"
   ],
   "note": "OpenSSL is a record of functions given as an argument. C83_es512_refuted: with the numbers of P-521 signing with ES512 is undefined behaviour. C83_one_signature_refuted: other byte strings for the same numbers are accepted. C83_preferred_refuted: with a size other than 256, 384, 512 the preferred method signs with the empty signature."
  },
  {
   "property": "C84",
   "status": "proved",
   "theorems": [
    "C84_hmac",
    "C84_hmac_signs",
    "C84_hmac_token",
    "C84_rsa",
    "C84_rsa_signs",
    "C84_rsa_token",
    "C84_family",
    "C84_token",
    "C84_failure_refuted"
   ],
   "note": "OpenSSL is a record of functions given as an argument. C84_failure_refuted: a failed RSA_sign gives 1024 uninitialised bytes as the signature."
  },
  {
   "property": "C85",
   "status": "proved",
   "theorems": [
    "C85_no_dangling",
    "C85_history",
    "C85_no_race",
    "C85_cancels",
    "C85_cancel_own",
    "C85_sync",
    "C85_async",
    "C85_answers_given",
    "C85_calls_made",
    "C85_exception_refuted"
   ],
   "note": "Sequentially consistent interleavings; the condition that sendRequest of a waiting call does not throw is shown necessary by the refuted theorem. C85_cancels to C85_calls_made tie the programs of the threads to the history."
  },
  {
   "property": "C86",
   "status": "proved",
   "theorems": [
    "C86_quiet",
    "C86_flat",
    "C86_terminates",
    "C86_nested_refuted"
   ],
   "note": "The condition on nesting is shown necessary by the refuted theorem."
  },
  {
   "property": "C87",
   "status": "proved",
   "theorems": [
    "C87_reads",
    "C87_reads_binary_refuted",
    "C87_member",
    "C87_item",
    "C87_compare",
    "C87_equal",
    "C87_equal_refuted",
    "C87_key",
    "C87_wrap",
    "C87_wrap_member",
    "C87_no_wrap",
    "C87_past",
    "C87_integers",
    "C87_string"
   ],
   "note": "Proved as reworded; the refuted theorems are the two exceptions (wrapped binary strings, wrapped numbers)."
  },
  {
   "property": "C88",
   "status": "proved",
   "theorems": [
    "C88_data",
    "C88_encoding",
    "C88_bytes",
    "C88_encoding_refuted"
   ],
   "note": "Proved as reworded; the refuted theorem is the two exceptions."
  },
  {
   "property": "C89",
   "status": "proved",
   "theorems": [
    "C89_truth",
    "C89_numbers",
    "C89_empty_refuted",
    "C89_unread_refuted"
   ],
   "note": "Proved as reworded; the refuted theorems are the exceptions."
  },
  {
   "property": "C90",
   "status": "proved",
   "theorems": [
    "C90_numbers",
    "C90_read_first",
    "C90_alone",
    "C90_alone_answers",
    "C90_access",
    "C90_race_refuted",
    "C90_bool_refuted"
   ],
   "note": "Proved as reworded, under sequential consistency; the refuted theorems are the race and its effect."
  },
  {
   "property": "C91",
   "status": "proved",
   "theorems": [
    "C91_round_trip",
    "C91_text",
    "C91_vector",
    "C91_scalar",
    "C91_zero_refuted"
   ],
   "note": "Text: doubles and nested Values are left to C70 and C06; the least 64-bit integer is left out of the text theorem. C91_zero_refuted: Value(-0.0) is the shared zero."
  },
  {
   "property": "C92",
   "status": "proved",
   "theorems": [
    "C92_default",
    "C92_number",
    "C92_narrow",
    "C92_double",
    "C92_narrow_refuted",
    "C92_string",
    "C92_bool",
    "C92_value",
    "C92_binary_refuted"
   ],
   "note": "C92_narrow_refuted: 2^32+1 as int gives 1; C92_binary_refuted: binary strings give different texts by the two overloads. C92_double: doubles exactly, integers to the nearest double."
  },
  {
   "property": "C93",
   "status": "proved",
   "theorems": [
    "C93_request",
    "C93_response",
    "C93_completed",
    "C93_name_refuted"
   ],
   "note": "Documents of C06 (no doubles other than infinity). C93_name_refuted: method name U+221E."
  },
  {
   "property": "C94",
   "status": "proved",
   "theorems": [
    "C94_same",
    "C94_place",
    "C94_back",
    "C94_right",
    "C94_index_refuted",
    "C94_text_refuted"
   ],
   "note": "The kind of the error and the last character in the message are not modelled. C94_back asks for UTF-8 and for what follows a value not to look like a number."
  },
  {
   "property": "C95",
   "status": "proved",
   "theorems": [
    "C95_values",
    "C95_defined",
    "C95_stable",
    "C95_shown",
    "C95_apart"
   ],
   "note": "Heap of containers with explicit addresses; containers are never freed in the model (reference counting is assumed correct). C95_values: simulation of the sharing-free meaning; C95_stable and C95_shown need no meaning, only that the memory run is defined."
  },
  {
   "property": "C96",
   "status": "proved",
   "theorems": [
    "C96_exactly",
    "C96_ahead",
    "C96_calls",
    "C96_back",
    "C96_written",
    "C96_end",
    "C96_parser",
    "C96_parser_written",
    "C96_adjacent_refuted"
   ],
   "note": "Locality of the parser for all sources (C96_exactly), the look-ahead character (C96_ahead), the exact cut of a source by successive calls (C96_calls, C96_back), and round trip of sequences of serialised values for Value::parse and for a reused Parser. C96_adjacent_refuted: the lost character. What is left of a source after an error is not modelled."
  },
  {
   "property": "C97",
   "status": "proved",
   "theorems": [
    "C97_precise",
    "C97_plain",
    "C97_zero"
   ],
   "note": "Finite doubles in ordinary mode are the subject of C69 and C70."
  },
  {
   "property": "C98",
   "status": "proved",
   "theorems": [
    "C98_loop",
    "C98_iterator",
    "C98_past",
    "C98_other",
    "C98_before_refuted",
    "C98_for_each",
    "C98_walk",
    "C98_walk_everything",
    "C98_sequence",
    "C98_array",
    "C98_object",
    "C98_string"
   ],
   "note": "Views made by splitAt, which do not check the index, are left to C16; C98_before_refuted is the exception named."
  },
  {
   "property": "C99",
   "status": "proved",
   "theorems": [
    "C99_same",
    "C99_reuse",
    "C99_blind",
    "C99_error",
    "C99_stuck",
    "C99_text_refuted"
   ],
   "note": "Refines the parser models of C94 and C96; the last theorem shows the ambiguity of the text. Exceptions thrown by the source itself are not modelled."
  },
  {
   "property": "C100",
   "status": "proved",
   "theorems": [
    "C100_view",
    "C100_key",
    "C100_precise",
    "C100_read",
    "C100_fill",
    "C100_noticed",
    "C100_noticed_refuted",
    "C100_list",
    "C100_insert",
    "C100_replace",
    "C100_join",
    "C100_join_refuted",
    "C100_base64",
    "C100_base64url",
    "C100_url",
    "C100_utf8_encode",
    "C100_utf8_decode",
    "C100_utf8_decode_refuted",
    "C100_binary",
    "C100_binary_refuted",
    "C100_container",
    "C100_container_refuted"
   ],
   "note": "sizes whose true value reaches 2^64, joining nothing, and stray fill functions are the refuted readings; header contents are not modelled as bytes"
  },
  {
   "property": "C101",
   "status": "proved",
   "theorems": [
    "C101_kept",
    "C101_read",
    "C101_again",
    "C101_exact",
    "C101_plain",
    "C101_released_refuted"
   ],
   "note": "std::unordered_map of libstdc++ (hashes are kept); blocks are numbered and not reused; the naive expectation that a sent value may be released is refuted"
  },
  {
   "property": "C102",
   "status": "proved",
   "theorems": [
    "C102_copy",
    "C102_determined",
    "C102_root",
    "C102_no_memory",
    "C102_by_value",
    "C102_root_by_value_refuted"
   ],
   "note": "Sizes of the objects and the allocator are arguments; addresses do not wrap, the block fits in 64 bits"
  },
  {
   "property": "C103",
   "status": "proved",
   "theorems": [
    "C103_bounds",
    "C103_exact",
    "C103_inexact_refuted"
   ],
   "note": "The claim that the count is always exact is refuted (documented as a hint in object.h)"
  },
  {
   "property": "C104",
   "status": "proved",
   "theorems": [
    "C104_escaped",
    "C104_utf8",
    "C104_unicode",
    "C104_one_line",
    "C104_doubles",
    "C104_accepts",
    "C104_reformat",
    "C104_surrogate_refuted",
    "C104_plus_refuted"
   ],
   "note": "The RFC 8259 grammar is SpecJson.v. A string which is not UTF-8 can make UTF-8 output carry surrogates, and a number such as +1, which precise mode reads, is written as it is; both refuted with witnesses. C104_doubles uses the axioms of the standard library's reals."
  },
  {
   "property": "C105",
   "status": "proved",
   "theorems": [
    "C105_read",
    "C105_exact",
    "C105_document",
    "C105_lost_refuted"
   ],
   "note": "encodeBinaryValue of the UTF-8 encoding hands over blocks of 256 bytes and each is written with a fresh decoder, so a two-byte character across the end of a block is lost: C105_lost_refuted has 255 letters and the byte 233."
  },
  {
   "property": "C106",
   "status": "proved",
   "theorems": [
    "C106_short",
    "C106_long_refuted",
    "C106_within_refuted",
    "C106_lost_refuted"
   ],
   "note": "Same output as a new compressor after any sequence of whole texts and resets, for texts that do not fill the dictionary; witnesses for the failures otherwise."
  },
  {
   "property": "C107",
   "status": "proved",
   "theorems": [
    "C107_read",
    "C107_called",
    "C107_silent",
    "C107_as_request",
    "C107_notice_called",
    "C107_context_refuted"
   ],
   "note": "From the client's message through text to the method of a server; silence for all histories; the lost context is refuted with a witness."
  },
  {
   "property": "C108",
   "status": "proved",
   "theorems": [
    "C108_wide",
    "C108_text",
    "C108_cut_refuted"
   ],
   "note": "Both round trips as equivalences; the cut at -1 with a witness."
  },
  {
   "property": "C109",
   "status": "proved",
   "theorems": [
    "C109_same",
    "C109_exact",
    "C109_end",
    "C109_no_cycle"
   ],
   "note": "The contract of RefCntPtr (absent submodule) is assumed: a container is released when the last pointer to it is gone. Programs of ModelHeap with the end of variables and builders; an operation runs to its end before anything is released."
  },
  {
   "property": "C110",
   "status": "proved",
   "theorems": [
    "C110_through",
    "C110_keys_refuted"
   ],
   "note": "C110_keys_refuted: an object with distinct keys whose escaped text the parser rejects, because escaped output drops the plane of characters above U+FFFF."
  },
  {
   "property": "C111",
   "status": "proved",
   "theorems": [
    "C111_accurate",
    "C111_long_refuted",
    "C111_power_refuted"
   ],
   "note": "Relative errors are tracked as exponents through every rounding, pow, floor and division; the chunks of digits before the point are counted. The two refuted theorems show what happens beyond the range."
  },
  {
   "property": "C112",
   "status": "proved",
   "theorems": [
    "C112_reads",
    "C112_written",
    "C112_preloads"
   ],
   "note": "Proved of the model of the binary writer and reader against a format stated on its own in SpecWire.v. Negative numbers of magnitude 2^63 and more and the unused lower halves 14 and 15 are left out of the format."
  },
  {
   "property": "C113",
   "status": "proved",
   "theorems": [
    "C113_unclosed",
    "C113_document",
    "C113_anywhere_refuted"
   ],
   "note": "Bytes cut within a code are the refuted case (mask 128)."
  },
  {
   "property": "C114",
   "status": "proved",
   "theorems": [
    "C114_cut",
    "C114_written",
    "C114_numbers_refuted"
   ],
   "note": "Numbers are the refuted case."
  },
  {
   "property": "C115",
   "status": "proved",
   "theorems": [
    "C115_text",
    "C115_at",
    "C115_c_str",
    "C115_exact",
    "C115_plus",
    "C115_plus_empty",
    "C115_c_str_refuted"
   ],
   "note": "The terminating zero promised for c_str is the refuted case. Where the shared empty string points to is left open (its view class is absent)."
  },
  {
   "property": "C116",
   "status": "proved",
   "theorems": [
    "C116_lists",
    "C116_left",
    "C116_moved",
    "C116_moved_ops",
    "C116_reuse_refuted"
   ],
   "note": "Moved-from RefCntPtr taken as null and moved-from vector as empty (RefCntPtr's source is absent). C116_reuse_refuted: clear and push_back on a moved-from builder, then making a value, is undefined behaviour."
  },
  {
   "property": "C117",
   "status": "proved",
   "theorems": [
    "C117_export",
    "C117_round",
    "C117_public",
    "C117_private",
    "C117_zeros",
    "C117_empty",
    "C117_pair",
    "C117_sizes",
    "C117_size_refuted"
   ],
   "note": "OpenSSL's conversions are function arguments; PEM forms not modelled."
  },
  {
   "property": "C118",
   "status": "proved",
   "theorems": [
    "C118_object",
    "C118_turns",
    "C118_ordered",
    "C118_enum",
    "C118_keys",
    "C118_lower_refuted"
   ],
   "note": "std::lower_bound as implemented by libstdc++. Cost is measured by the items the answer depends on and, for objects, by turns of the loop."
  },
  {
   "property": "C119",
   "status": "proved",
   "theorems": [
    "C119_history",
    "C119_finished",
    "C119_settled",
    "C119_uses_first",
    "C119_keeps",
    "C119_self_refuted"
   ],
   "note": "C119_self_refuted shows the undefined case. Requests and answers are left out here (C39, C40)."
  },
  {
   "property": "C120",
   "status": "proved",
   "theorems": [
    "C120_count",
    "C120_freed",
    "C120_freed_refuted",
    "C120_server",
    "C120_server_refuted",
    "C120_answered",
    "C120_marks",
    "C120_self",
    "C120_self_callbacks",
    "C120_self_refuted"
   ],
   "note": "The _refuted theorems show the three exceptions the statement names."
  },
  {
   "property": "C121",
   "status": "proved",
   "theorems": [
    "C121_once",
    "C121_refused",
    "C121_marks",
    "C121_escape_refuted"
   ],
   "note": "C121_escape_refuted is the exception named in the statement."
  },
  {
   "property": "C122",
   "status": "proved",
   "theorems": [
    "C122_object",
    "C122_fine",
    "C122_assign",
    "C122_assign_refuted",
    "C122_array",
    "C122_array_assign_refuted",
    "C122_slice_refuted"
   ],
   "note": "The refuted theorems show what the exceptions named in the statement leave behind."
  },
  {
   "property": "C123",
   "status": "proved",
   "theorems": [
    "C123_writes",
    "C123_reads",
    "C123_shared",
    "C123_order",
    "C123_answers",
    "C123_settle",
    "C123_unsettled",
    "C123_refuted"
   ],
   "note": "The reading and writing sets are stated in the model and proved exact against the state change and the answer."
  },
  {
   "property": "C124",
   "status": "proved",
   "theorems": [
    "C124_once",
    "C124_wait",
    "C124_async",
    "C124_sent",
    "C124_identifiers",
    "C124_early_answer",
    "C124_history",
    "C124_copy",
    "C124_copy_calls",
    "C124_copy_refuted",
    "C124_copied_call_refuted",
    "C124_retry_refuted"
   ],
   "note": "Copies of clients, copies of prepared calls and retries after an exception are refuted with witnesses."
  },
  {
   "property": "C125",
   "status": "proved",
   "theorems": [
    "C125_received",
    "C125_relay",
    "C125_equal",
    "C125_again",
    "C125_sign_refuted",
    "C125_lookup_refuted"
   ],
   "note": "All bytes, any number of documents, nesting and sizes unbounded. no_overflow excludes exactly the documents in which the negation of the smallest Int is asked for, undefined in C++. maintain32BitComp is C21."
  },
  {
   "property": "C126",
   "status": "proved",
   "theorems": [
    "C126_exact",
    "C126_text",
    "C126_precise_refuted",
    "C126_encoding_refuted"
   ],
   "note": "The hypotheses on the value are those of C19: lengths below the limits of the format and no text that starts inside a UTF-8 sequence. The two refuted theorems show the exceptions named in the statement."
  },
  {
   "property": "C127",
   "status": "proved",
   "theorems": [
    "C127_sort_array",
    "C127_sort_object",
    "C127_sort_unique",
    "C127_group",
    "C127_value_group",
    "C127_unshift",
    "C127_stable_refuted",
    "C127_cleared_refuted",
    "C127_group_empty_refuted"
   ],
   "note": "std::sort is modelled by its contract (sort_result). The refuted theorems are the exceptions named in the statement."
  },
  {
   "property": "C128",
   "status": "proved",
   "theorems": [
    "C128_table",
    "C128_few",
    "C128_many_refuted"
   ],
   "note": "Virtual functions as implemented in RpcConnContext itself. The refuted theorem is the exception named in the statement."
  },
  {
   "property": "C129",
   "status": "proved",
   "theorems": [
    "C129_history",
    "C129_class",
    "C129_class_some",
    "C129_emits",
    "C129_version",
    "C129_version_rejection",
    "C129_throw_refuted"
   ],
   "note": "Rejections do depend on the history (C60_again_refuted)."
  },
  {
   "property": "C130",
   "status": "proved",
   "theorems": [
    "C130_when",
    "C130_reads",
    "C130_one",
    "C130_path",
    "C130_back",
    "C130_position_refuted"
   ],
   "note": "StringView of a null pointer (path.h 49) is outside of the repository and taken as the empty text."
  },
  {
   "property": "C131",
   "status": "proved",
   "theorems": [
    "C131_points",
    "C131_reads",
    "C131_variable_refuted",
    "C131_prefix_refuted"
   ],
   "note": "Templates of emit are checked for the excluded words like rules."
  },
  {
   "property": "C132",
   "status": "proved",
   "theorems": [
    "C132_sent",
    "C132_sent_anyhow",
    "C132_not_both",
    "C132_result",
    "C132_error",
    "C132_notify",
    "C132_call",
    "C132_error_object",
    "C132_handler"
   ],
   "note": "The last set parameters are stated for methods whose peer does not use the request meanwhile."
  },
  {
   "property": "C133",
   "status": "proved",
   "theorems": [
    "C133_call",
    "C133_text",
    "C133_made",
    "C133_plain",
    "C133_list",
    "C133_list_silent"
   ],
   "note": "Servers with RpcServer::formatError as it is, no proxy and no exception handler where they would be asked; the peer accepts or refuses but does not throw while it is handed the error."
  },
  {
   "property": "C134",
   "status": "proved",
   "theorems": [
    "C134_bin",
    "C134_bin_plain",
    "C134_pack",
    "C134_status",
    "C134_finite",
    "C134_unpack_ends",
    "C134_doubles",
    "C134_doubles_same",
    "C134_unpack_text",
    "C134_unbin_no_tag",
    "C134_settles",
    "C134_pack_refused",
    "C134_pack_always",
    "C134_cut_refuted",
    "C134_unpack_refuses_refuted"
   ],
   "note": "Statement includes what was refuted. Floating numbers within one percent of the switches of format at 0.01 and 1e8, or below 1e-307, are only covered for jsonbin/jsonunbin."
  },
  {
   "property": "C135",
   "status": "proved",
   "theorems": [
    "C135_verdict",
    "C135_zero",
    "C135_lines",
    "C135_told",
    "C135_version",
    "C135_not_json",
    "C135_raised",
    "C135_sound",
    "C135_files",
    "C135_silent_refuted",
    "C135_same_line_refuted",
    "C135_usage_refuted"
   ],
   "note": "Statement includes what was refuted. Definitions with rules on derived values (split, prefix, variables...): status only, places are refuted by C131."
  },
  {
   "property": "C136",
   "status": "proved",
   "theorems": [
    "C136_read",
    "C136_verdict",
    "C136_others",
    "C136_self",
    "C136_usable_refuted",
    "C136_needed_refuted"
   ],
   "note": "The file's text is part of the model and shown to be read as the definition used. Keys of the definition are not empty (an empty key is taken for the wildcard, C37)."
  }
 ]
}
