{
 "claims": [
  {
   "property": "C01",
   "status": "proved",
   "theorems": [
    "C01_encode_is_rfc4648"
   ],
   "note": ""
  },
  {
   "property": "C02",
   "status": "proved",
   "theorems": [
    "C02_decode_encode"
   ],
   "note": ""
  },
  {
   "property": "C03",
   "status": "proved",
   "theorems": [
    "C03_decode_accepts",
    "C03_decode_defined"
   ],
   "note": ""
  },
  {
   "property": "C04",
   "status": "proved",
   "theorems": [
    "C04_encode_decode",
    "C04_canonical_injective"
   ],
   "note": ""
  },
  {
   "property": "C05",
   "status": "proved",
   "theorems": [
    "C05_reads_past_end",
    "C05_in_bounds_refuted"
   ],
   "note": "Exact characterisation of the over-read; the naive expectation is refuted in C05_in_bounds_refuted. Stores outside the output buffer would also give None."
  },
  {
   "property": "C06",
   "status": "proved",
   "theorems": [
    "C06_datetime_text_round_trip",
    "C06_date_text_round_trip"
   ],
   "note": ""
  },
  {
   "property": "C07",
   "status": "proved",
   "theorems": [
    "C07_time_round_trip",
    "C07_fraction_truncated",
    "C07_range_is_four_digit_years"
   ],
   "note": ""
  },
  {
   "property": "C08",
   "status": "proved",
   "theorems": [
    "C08_datetime_accepts",
    "C08_datetime_rejects",
    "C08_date_accepts",
    "C08_date_rejects"
   ],
   "note": ""
  },
  {
   "property": "C09",
   "status": "proved",
   "theorems": [
    "C09_text_order",
    "C09_one_second_apart_refuted"
   ],
   "note": ""
  },
  {
   "property": "C10",
   "status": "proved",
   "theorems": [
    "C10_year_outside_silently_wrong"
   ],
   "note": ""
  },
  {
   "property": "C11",
   "status": "proved",
   "theorems": [
    "C11_integers_exact",
    "C11_integer_to_float_exact",
    "C11_float_to_integer_never",
    "C11_narrowing_exact",
    "C11_widening_exact"
   ],
   "note": ""
  },
  {
   "property": "C12",
   "status": "proved",
   "theorems": [
    "C12_deserialize",
    "C12_parse"
   ],
   "note": ""
  },
  {
   "property": "C13",
   "status": "proved",
   "theorems": [
    "C13_lookup",
    "C13_construction_defined",
    "C13_repeated_name_never_ends"
   ],
   "note": ""
  },
  {
   "property": "C14",
   "status": "proved",
   "theorems": [
    "C14_dispatch_by_name",
    "C14_dispatch_defined"
   ],
   "note": ""
  },
  {
   "property": "C15",
   "status": "proved",
   "theorems": [
    "C15_path_resolves",
    "C15_root_refuted",
    "C15_slash_refuted",
    "C15_tilde_refuted",
    "C15_empty_name_refuted"
   ],
   "note": ""
  },
  {
   "property": "C16",
   "status": "proved",
   "theorems": [
    "C16_first_registration_kept",
    "C16_nothing_if_never_registered"
   ],
   "note": ""
  },
  {
   "property": "C17",
   "status": "proved",
   "theorems": [
    "C17_shared",
    "C17_round_trip",
    "C17_string_pairs_refuted",
    "C17_nul_key_refuted",
    "C17_fractions_refuted"
   ],
   "note": "C17_round_trip for types without shared pointers, C17_shared with them (up to a renaming of addresses). vector<pair<string,T>> is excluded: C17_string_pairs_refuted."
  },
  {
   "property": "C18",
   "status": "proved",
   "theorems": [
    "C18_same_text",
    "C18_success_same_text",
    "C18_undefined_alike"
   ],
   "note": "The text is what rapidjson::Writer prints for a sequence of calls, an arbitrary function of it here; both ways lead to the same calls."
  },
  {
   "property": "C19",
   "status": "proved",
   "theorems": [
    "C19_write_then_parse",
    "C19_small_numbers_refuted",
    "C19_enums_refuted"
   ],
   "note": "The text is an arbitrary function of the calls of the writer; the parser reads the events of the document (C18, C37)."
  },
  {
   "property": "C20",
   "status": "proved",
   "theorems": [
    "C20_parse_then_deserialize",
    "C20_deserialize_then_parse",
    "C20_lossy_numbers_refuted"
   ],
   "note": "Numbers that floating-point types cannot count exactly separate the readers: C20_lossy_numbers_refuted."
  },
  {
   "property": "C21",
   "status": "proved",
   "theorems": [
    "C21_accepts_exactly",
    "C21_throws_otherwise",
    "C21_one_meaning"
   ],
   "note": "Byte strings, times and dates have undefined behaviour on some texts, which is why C21_throws_otherwise excludes them; C21_accepts_exactly does not."
  },
  {
   "property": "C22",
   "status": "proved",
   "theorems": [
    "C22_all_read",
    "C22_false_justified",
    "C22_classless_exact",
    "C22_last_decides",
    "C22_true_means_read_refuted"
   ],
   "note": "The expectation that true means success is refuted in C22_true_means_read_refuted."
  },
  {
   "property": "C23",
   "status": "proved",
   "theorems": [
    "C23_first_defect",
    "C23_path_leads",
    "C23_exactly",
    "C23_duplicates_refuted",
    "C23_references_refuted"
   ],
   "note": "Documents with references to shared objects are excluded (C23_references_refuted), and so are repeated names for the path (C23_duplicates_refuted). Alternatives of variants have no classes."
  },
  {
   "property": "C24",
   "status": "proved",
   "theorems": [
    "C24_sharing",
    "C24_nested_pointers_refuted",
    "C24_ref_member_refuted",
    "C24_sets_refuted",
    "C24_slash_refuted"
   ],
   "note": "The value is a tree whose addresses are consistent with a heap. Pointers to pointers, pointees with a $ref member, sets of shared pointers and keys with '/' are excluded; each is refuted separately."
  },
  {
   "property": "C25",
   "status": "proved",
   "theorems": [
    "C25_first",
    "C25_none",
    "C25_throws",
    "C25_first_anywhere"
   ],
   "note": "Exact characterisation for types without shared pointers, one direction in general."
  },
  {
   "property": "C26",
   "status": "proved",
   "theorems": [
    "C26_schema_accepts",
    "C26_enums_refuted",
    "C26_variants_refuted",
    "C26_references_refuted",
    "C26_string_pairs_refuted",
    "C26_subsecond_sets_refuted",
    "C26_shared_sets_refuted"
   ],
   "note": "C26_schema_accepts under the stated exceptions; each exception has a refutation. Classes with default members have no schema: schema.hpp does not compile for them."
  },
  {
   "property": "C27",
   "status": "proved",
   "theorems": [
    "C27_one_value",
    "C27_not_before"
   ],
   "note": "Handlers of string enumerations are the exception (C41)."
  },
  {
   "property": "C28",
   "status": "proved",
   "theorems": [
    "C28_stack_is_list",
    "C28_frames_disjoint_inside",
    "C28_each_frame_destroyed_once",
    "C28_frames_aligned",
    "C28_frames_aligned_refuted"
   ],
   "note": ""
  },
  {
   "property": "C29",
   "status": "proved",
   "theorems": [
    "C29_deserialize_ignores",
    "C29_parse_rejects"
   ],
   "note": ""
  },
  {
   "property": "C30",
   "status": "proved",
   "theorems": [
    "C30_missing_throws",
    "C30_required",
    "C30_kept",
    "C30_default",
    "C30_parse_keeps",
    "C30_parse_fewer"
   ],
   "note": ""
  },
  {
   "property": "C31",
   "status": "proved",
   "theorems": [
    "C31_deserialize",
    "C31_parse"
   ],
   "note": ""
  },
  {
   "property": "C32",
   "status": "proved",
   "theorems": [
    "C32_value_to_name_and_back",
    "C32_name_to_value_and_back",
    "C32_unknown_name_rejected",
    "C32_unlisted_value_is_empty_text"
   ],
   "note": ""
  },
  {
   "property": "C33",
   "status": "proved",
   "theorems": [
    "C33_deserialize_replaces",
    "C33_any_document_refuted",
    "C33_parse_appends",
    "C33_parse_map",
    "C33_parse_replaces"
   ],
   "note": ""
  },
  {
   "property": "C34",
   "status": "proved",
   "theorems": [
    "C34_write",
    "C34_document_fails",
    "C34_members_dropped"
   ],
   "note": "Class types without inheritance for write_to_string (C34_write); the exception for derived classes is C35."
  },
  {
   "property": "C35",
   "status": "proved",
   "theorems": [
    "C35_reading_not_checked",
    "C35_writing_not_checked"
   ],
   "note": ""
  },
  {
   "property": "C36",
   "status": "proved",
   "theorems": [
    "C36_member_first",
    "C36_map_last",
    "C36_parse_last"
   ],
   "note": ""
  },
  {
   "property": "C37",
   "status": "proved",
   "theorems": [
    "C37_valid_text",
    "C37_finite_text",
    "C37_reads_back",
    "C37_reads_exactly",
    "C37_no_text",
    "C37_unambiguous",
    "C37_text_round_trip",
    "C37_parse_round_trip",
    "C37_rejected",
    "C37_after_nul"
   ],
   "note": "RapidJSON is modelled from its documentation. Doubles are covered under the hypothesis that their digits are read as the same double (C37_double_example); the default reader of RapidJSON does not promise it. UTF-8 is not validated, as in RapidJSON by default."
  },
  {
   "property": "C38",
   "status": "proved",
   "theorems": [
    "C38_float_survives",
    "C38_double_survives",
    "C38_nearest"
   ],
   "note": ""
  },
  {
   "property": "C39",
   "status": "proved",
   "theorems": [
    "C39_handlers",
    "C39_only_exception",
    "C39_enough",
    "C39_limit"
   ],
   "note": ""
  },
  {
   "property": "C40",
   "status": "proved",
   "theorems": [
    "C40_bitset_operations",
    "C40_out_of_bounds_undefined"
   ],
   "note": ""
  },
  {
   "property": "C41",
   "status": "proved",
   "theorems": [
    "C41_rejected",
    "C41_alone",
    "C41_deserialize"
   ],
   "note": ""
  },
  {
   "property": "C42",
   "status": "proved",
   "theorems": [
    "C42_rejected",
    "C42_empty"
   ],
   "note": ""
  },
  {
   "property": "C43",
   "status": "proved",
   "theorems": [
    "C43_deserialize_array",
    "C43_deserialize_pair",
    "C43_deserialize_tuple",
    "C43_parse_count",
    "C43_parse_items"
   ],
   "note": ""
  },
  {
   "property": "C44",
   "status": "proved",
   "theorems": [
    "C44_ignored",
    "C44_silent"
   ],
   "note": ""
  },
  {
   "property": "C45",
   "status": "proved",
   "theorems": [
    "C45_throwing_constructor_corrupts"
   ],
   "note": ""
  },
  {
   "property": "C46",
   "status": "proved",
   "theorems": [
    "C46_parses_exactly"
   ],
   "note": ""
  },
  {
   "property": "C47",
   "status": "proved",
   "theorems": [
    "C47_format"
   ],
   "note": ""
  },
  {
   "property": "C48",
   "status": "proved",
   "theorems": [
    "C48_alike_names_never_end",
    "C48_distinct_names_refuted"
   ],
   "note": ""
  },
  {
   "property": "C49",
   "status": "proved",
   "theorems": [
    "C49_has_schema",
    "C49_one_schema",
    "C49_recursive",
    "C49_acyclic",
    "C49_dialect"
   ],
   "note": ""
  },
  {
   "property": "C50",
   "status": "proved",
   "theorems": [
    "C50_references_resolve",
    "C50_definitions",
    "C50_no_other_definitions",
    "C50_pointers_repeat"
   ],
   "note": ""
  },
  {
   "property": "C51",
   "status": "proved",
   "theorems": [
    "C51_accepted_is_read",
    "C51_whole_doubles_refuted",
    "C51_times_refuted",
    "C51_dates_refuted",
    "C51_read_is_accepted_refuted",
    "C51_all",
    "C51_references_refuted"
   ],
   "note": ""
  },
  {
   "property": "C52",
   "status": "proved",
   "theorems": [
    "C52_accepts_exactly",
    "C52_failure",
    "C52_json_literals",
    "C52_minus_zero_refuted",
    "C52_floats_exactly",
    "C52_floats_refuted"
   ],
   "note": ""
  },
  {
   "property": "C53",
   "status": "proved",
   "theorems": [
    "C53_deserialize",
    "C53_deserialize_throws",
    "C53_text",
    "C53_every_text",
    "C53_parse",
    "C53_parse_document",
    "C53_late_time",
    "C53_late_date",
    "C53_stray",
    "C53_late_refuted",
    "C53_references_refuted"
   ],
   "note": ""
  },
  {
   "property": "C54",
   "status": "proved",
   "theorems": [
    "C54_written_again",
    "C54_object_written_again",
    "C54_text_written_again",
    "C54_overflow_refuted",
    "C54_pairs_refuted"
   ],
   "note": ""
  },
  {
   "property": "C55",
   "status": "proved",
   "theorems": [
    "C55_round_trip",
    "C55_numbers_refuted",
    "C55_texts_refuted",
    "C55_pointers_refuted"
   ],
   "note": ""
  },
  {
   "property": "C56",
   "status": "proved",
   "theorems": [
    "C56_finite",
    "C56_acyclic",
    "C56_cyclic",
    "C56_failure_first_refuted"
   ],
   "note": ""
  },
  {
   "property": "C57",
   "status": "proved",
   "theorems": [
    "C57_dangling_reference",
    "C57_not_dropped"
   ],
   "note": ""
  },
  {
   "property": "C58",
   "status": "proved",
   "theorems": [
    "C58_same_document",
    "C58_same_object",
    "C58_dangling"
   ],
   "note": ""
  },
  {
   "property": "C59",
   "status": "proved",
   "theorems": [
    "C59_document",
    "C59_not_json",
    "C59_crash",
    "C59_enough",
    "C59_parse_bounded",
    "C59_parse_tight"
   ],
   "note": ""
  },
  {
   "property": "C60",
   "status": "proved",
   "theorems": [
    "C60_document",
    "C60_parse",
    "C60_cut",
    "C60_refusal"
   ],
   "note": ""
  },
  {
   "property": "C61",
   "status": "proved",
   "theorems": [
    "C61_thrown",
    "C61_unique",
    "C61_json",
    "C61_decides",
    "C61_same",
    "C61_document",
    "C61_faults",
    "C61_sensible_refuted"
   ],
   "note": ""
  },
  {
   "property": "C62",
   "status": "proved",
   "theorems": [
    "C62_thrown",
    "C62_one",
    "C62_true",
    "C62_exactly",
    "C62_words",
    "C62_readable_refuted",
    "C62_sensible_refuted"
   ],
   "note": ""
  },
  {
   "property": "C63",
   "status": "proved",
   "theorems": [
    "C63_same",
    "C63_owned",
    "C63_views",
    "C63_owned_refuted"
   ],
   "note": ""
  },
  {
   "property": "C64",
   "status": "proved",
   "theorems": [
    "C64_document_text",
    "C64_schema_text",
    "C64_only",
    "C64_text_accepts",
    "C64_variables"
   ],
   "note": ""
  },
  {
   "property": "C65",
   "status": "proved",
   "theorems": [
    "C65_serialize",
    "C65_write",
    "C65_deserialize",
    "C65_schema",
    "C65_traits",
    "C65_flat_serialize",
    "C65_flat_schema",
    "C65_flat_write",
    "C65_flat_write_fails",
    "C65_flat_deserialize",
    "C65_discarded_refuted",
    "C65_discarded_calls_refuted"
   ],
   "note": ""
  },
  {
   "property": "C66",
   "status": "proved",
   "theorems": [
    "C66_modelled_output",
    "C66_modelled_schema",
    "C66_modelled_read",
    "C66_modelled_parse",
    "C66_unambiguous",
    "C66_exactly",
    "C66_same",
    "C66_read_written",
    "C66_parsed_read",
    "C66_views",
    "C66_pointers",
    "C66_variants",
    "C66_defaults_schema",
    "C66_pointer_schema",
    "C66_optionals",
    "C66_dictionaries",
    "C66_parsed_read_refuted"
   ],
   "note": ""
  },
  {
   "property": "C67",
   "status": "proved",
   "theorems": [
    "C67_round_trip",
    "C67_unlisted",
    "C67_reads_exactly",
    "C67_parse_same",
    "C67_converter",
    "C67_names_only_refuted"
   ],
   "note": ""
  },
  {
   "property": "C68",
   "status": "proved",
   "theorems": [
    "C68_exclusive",
    "C68_one_thread",
    "C68_pieces",
    "C68_finishes",
    "C68_same_day",
    "C68_own_text_refuted"
   ],
   "note": ""
  },
  {
   "property": "C69",
   "status": "proved",
   "theorems": [
    "C69_carries",
    "C69_year_too_far",
    "C69_shown",
    "C69_same_as_valid",
    "C69_parsers",
    "C69_only_dates_refuted"
   ],
   "note": ""
  },
  {
   "property": "C70",
   "status": "proved",
   "theorems": [
    "C70_nothing_gone",
    "C70_buffers",
    "C70_callers",
    "C70_gone",
    "C70_uses",
    "C70_ends",
    "C70_handler_gone",
    "C70_numbered",
    "C70_callers_all_refuted"
   ],
   "note": ""
  },
  {
   "property": "C71",
   "status": "proved",
   "theorems": [
    "C71_exactly",
    "C71_compatible",
    "C71_one",
    "C71_required",
    "C71_narrow",
    "C71_parser",
    "C71_parser_compatible_refuted"
   ],
   "note": ""
  },
  {
   "property": "C72",
   "status": "proved",
   "theorems": [
    "C72_same",
    "C72_reads",
    "C72_all",
    "C72_once",
    "C72_linear",
    "C72_bound",
    "C72_exponential",
    "C72_linear_refuted"
   ],
   "note": ""
  },
  {
   "property": "C73",
   "status": "proved",
   "theorems": [
    "C73_document",
    "C73_exactly",
    "C73_parse",
    "C73_agree",
    "C73_once",
    "C73_any",
    "C73_message",
    "C73_thrown"
   ],
   "note": ""
  },
  {
   "property": "C74",
   "status": "proved",
   "theorems": [
    "C74_one",
    "C74_target",
    "C74_unresolved",
    "C74_undefined",
    "C74_document",
    "C74_document_throws",
    "C74_rfc_refuted",
    "C74_index_refuted"
   ],
   "note": ""
  },
  {
   "property": "C75",
   "status": "proved",
   "theorems": [
    "C75_addresses",
    "C75_text",
    "C75_document",
    "C75_same_text",
    "C75_slash_refuted"
   ],
   "note": ""
  },
  {
   "property": "C76",
   "status": "proved",
   "theorems": [
    "C76_bound",
    "C76_exact",
    "C76_raw",
    "C76_shared"
   ],
   "note": ""
  },
  {
   "property": "C77",
   "status": "proved",
   "theorems": [
    "C77_again",
    "C77_any",
    "C77_layers",
    "C77_rejected",
    "C77_parse_again",
    "C77_parse_refuted"
   ],
   "note": ""
  },
  {
   "property": "C78",
   "status": "proved",
   "theorems": [
    "C78_same",
    "C78_accepted",
    "C78_throwing",
    "C78_optional",
    "C78_copied",
    "C78_copied_optional",
    "C78_initialised",
    "C78_forgotten_refuted",
    "C78_variant_refuted"
   ],
   "note": ""
  },
  {
   "property": "C79",
   "status": "proved",
   "theorems": [
    "C79_object",
    "C79_returned",
    "C79_text",
    "C79_parse",
    "C79_parse_text",
    "C79_nameless_refuted"
   ],
   "note": ""
  },
  {
   "property": "C80",
   "status": "proved",
   "theorems": [
    "C80_undefined",
    "C80_write",
    "C80_defined",
    "C80_after_reading",
    "C80_after_text",
    "C80_after_parse",
    "C80_bad"
   ],
   "note": ""
  }
 ]
}