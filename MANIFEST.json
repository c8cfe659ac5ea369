{
 "claims": [
  {
   "property": "C01",
   "status": "proved",
   "theorems": [
    "C01_go_roundtrip"
   ],
   "note": "Whole schema language except direct dynamic-struct fields (C09) and constants that do not fit (C15), which are refuted separately."
  },
  {
   "property": "C02",
   "status": "proved",
   "theorems": [
    "C02_go_layout"
   ],
   "note": ""
  },
  {
   "property": "C03",
   "status": "proved",
   "theorems": [
    "C03_go_frame"
   ],
   "note": ""
  },
  {
   "property": "C04",
   "status": "proved",
   "theorems": [
    "C04_go_encode_size"
   ],
   "note": ""
  },
  {
   "property": "C05",
   "status": "proved",
   "theorems": [
    "C05_go_decode_size"
   ],
   "note": ""
  },
  {
   "property": "C06",
   "status": "proved",
   "theorems": [
    "C06_go_decode_size_prefix"
   ],
   "note": ""
  },
  {
   "property": "C07",
   "status": "proved",
   "theorems": [
    "C07_go_decode_no_panic"
   ],
   "note": ""
  },
  {
   "property": "C08",
   "status": "proved",
   "theorems": [
    "C08_go_decode_consumes",
    "C08_go_decode_fails_short"
   ],
   "note": ""
  },
  {
   "property": "C09",
   "status": "proved",
   "theorems": [
    "C09_go_direct_never_wrong",
    "C09_go_direct_last_roundtrip",
    "C09_go_direct_dynamic_struct_refuted",
    "C09_go_direct_dynamic_struct_panic_refuted"
   ],
   "note": "No wrong value and no panic on complete messages, exact round trip and DecodeSize when nothing of variable size follows; the stronger hopes (always accepted; no panic on truncated input) are refuted with witnesses."
  },
  {
   "property": "C10",
   "status": "proved",
   "theorems": [
    "C10_go_unroll_encode",
    "C10_go_unroll_decode",
    "C10_go_unroll_decode_wide_bool_refuted"
   ],
   "note": ""
  },
  {
   "property": "C11",
   "status": "proved",
   "theorems": [
    "C11_go_signext",
    "C11_go_signext_message"
   ],
   "note": ""
  },
  {
   "property": "C12",
   "status": "proved",
   "theorems": [
    "C12_go_helpers"
   ],
   "note": ""
  },
  {
   "property": "C13",
   "status": "proved",
   "theorems": [
    "C13_varint_canonical",
    "C13_go_bytes_field"
   ],
   "note": ""
  },
  {
   "property": "C14",
   "status": "proved",
   "theorems": [
    "C14_go_constant_checked",
    "C14_go_accepts_image"
   ],
   "note": ""
  },
  {
   "property": "C15",
   "status": "proved",
   "theorems": [
    "C15_go_roundtrip_iff",
    "C15_received_unsigned",
    "C15_received_signed",
    "C15_received_narrow_big",
    "C15_go_constant_too_wide_refuted",
    "C15_go_constant_big_endian_refuted"
   ],
   "note": "Exact characterisation; that every accepted constant round-trips is refuted by witnesses."
  },
  {
   "property": "C16",
   "status": "proved",
   "theorems": [
    "C16_go_decode_encode",
    "C16_go_overlong_length_refuted"
   ],
   "note": ""
  },
  {
   "property": "C17",
   "status": "proved",
   "theorems": [
    "C17_go_truncation"
   ],
   "note": ""
  },
  {
   "property": "C18",
   "status": "proved",
   "theorems": [
    "C18_cfamily_layout",
    "C18_straddling_field_loses_bit",
    "C18_straddling_field_refuted",
    "C18_js_wide_enum_refuted",
    "C18_java_nested_array_refuted"
   ],
   "note": "For the schemas named in the property; outside them refuted."
  },
  {
   "property": "C19",
   "status": "proved",
   "theorems": [
    "C19_cfamily_reads_field",
    "C19_cfamily_decodes",
    "C19_js_uint32_refuted",
    "C19_c_constant_refuted",
    "C19_narrow_float_refuted",
    "C19_negative_length_refuted",
    "C19_c_truncated_refuted"
   ],
   "note": "Exceptions refuted by witnesses."
  },
  {
   "property": "C20",
   "status": "proved",
   "theorems": [
    "C20_cfamily_any_buffer",
    "C20_cfamily_independent",
    "C20_padding_refuted",
    "C20_loop_refuted"
   ],
   "note": "For self-clearing schemas; otherwise refuted."
  },
  {
   "property": "C21",
   "status": "proved",
   "theorems": [
    "C21_python_layout",
    "C21_python_decodes",
    "C21_python_field_exact",
    "C21_python_misread",
    "C21_python_decode_refuted",
    "C21_python_raises_refuted"
   ],
   "note": "Encoding for every schema; decoding for the schemas whose fields are of the stated kinds, and exactly those: a field of any other kind misreads a value."
  },
  {
   "property": "C22",
   "status": "proved",
   "theorems": [
    "C22_kotlin_layout",
    "C22_kotlin_decodes",
    "C22_kotlin_helpers",
    "C22_kotlin_refuted"
   ],
   "note": "Exception (narrow big-endian constants) refuted."
  },
  {
   "property": "C47",
   "status": "proved",
   "theorems": [
    "C47_any_to_any",
    "C47_any_to_any_reduced",
    "C47_same_bytes",
    "C47_plain_any_to_any",
    "C47_reads_what_go_accepts"
   ],
   "note": ""
  },
  {
   "property": "C48",
   "status": "proved",
   "theorems": [
    "C48_js_string_utf8",
    "C48_js_string_from_utf8",
    "C48_js_lone_surrogate_refuted"
   ],
   "note": ""
  },
  {
   "property": "C23",
   "status": "proved",
   "theorems": [
    "C23_struct_layout",
    "C23_file",
    "C23_program",
    "C23_layout_complete",
    "C23_accepted_wf"
   ],
   "note": ""
  },
  {
   "property": "C24",
   "status": "proved",
   "theorems": [
    "C24_field_widths",
    "C24_int64_wrap_refuted",
    "C24_negative_width_refuted",
    "C24_wide_enum_refuted",
    "C24_struct_array_width_refuted"
   ],
   "note": ""
  },
  {
   "property": "C25",
   "status": "proved",
   "theorems": [
    "C25_unique_names",
    "C25_elaboration"
   ],
   "note": ""
  },
  {
   "property": "C26",
   "status": "proved",
   "theorems": [
    "C26_enum_values",
    "C26_minus_one_refuted"
   ],
   "note": ""
  },
  {
   "property": "C27",
   "status": "proved",
   "theorems": [
    "C27_terminates",
    "C27_no_cycle"
   ],
   "note": ""
  },
  {
   "property": "C28",
   "status": "proved",
   "theorems": [
    "C28_order",
    "C28_units",
    "C28_deterministic",
    "C28_accepted",
    "C28_import_lists"
   ],
   "note": ""
  },
  {
   "property": "C29",
   "status": "proved",
   "theorems": [
    "C29_packages"
   ],
   "note": ""
  },
  {
   "property": "C35",
   "status": "proved",
   "theorems": [
    "C35_unique_definitions",
    "C35_unique_names",
    "C35_no_false_clash",
    "C35_visible_types"
   ],
   "note": ""
  },
  {
   "property": "C46",
   "status": "proved",
   "theorems": [
    "C46_source_to_go_roundtrip"
   ],
   "note": ""
  },
  {
   "property": "C43",
   "status": "proved",
   "theorems": [
    "C43_no_crash",
    "C43_no_crash_files",
    "C43_lower_case_refuted"
   ],
   "note": ""
  },
  {
   "property": "C44",
   "status": "proved",
   "theorems": [
    "C44_options_accepted",
    "C44_order",
    "C44_file_head"
   ],
   "note": ""
  },
  {
   "property": "C45",
   "status": "proved",
   "theorems": [
    "C45_methods_accepted",
    "C45_method_names"
   ],
   "note": ""
  },
  {
   "property": "C30",
   "status": "proved",
   "theorems": [
    "C30_ordered_map_refines",
    "C30_ordered_map_keys_unique",
    "C30_zero_key_refuted"
   ],
   "note": "For histories that do not name the zero key; with it the property is refuted."
  },
  {
   "property": "C31",
   "status": "proved",
   "theorems": [
    "C31_relative_path",
    "C31_relative_path_strict",
    "C31_python_import",
    "C31_go_import_refuted"
   ],
   "note": ""
  },
  {
   "property": "C32",
   "status": "proved",
   "theorems": [
    "C32_normal_form",
    "C32_idempotent",
    "C32_idempotent_no_crlf",
    "C32_content_kept",
    "C32_document",
    "C32_visible_kept",
    "C32_written_once",
    "C32_idempotent_refuted"
   ],
   "note": ""
  },
  {
   "property": "C33",
   "status": "proved",
   "theorems": [
    "C33_highbit"
   ],
   "note": ""
  },
  {
   "property": "C34",
   "status": "proved",
   "theorems": [
    "C34_size_string_injective",
    "C34_size_string_dynamic_injective"
   ],
   "note": ""
  },
  {
   "property": "C36",
   "status": "proved",
   "theorems": [
    "C36_snake_idempotent",
    "C36_camel_idempotent",
    "C36_pascal_idempotent",
    "C36_allcap_idempotent",
    "C36_camel_pascal_allcap_refuted"
   ],
   "note": ""
  },
  {
   "property": "C37",
   "status": "proved",
   "theorems": [
    "C37_calc_binary",
    "C37_calc_is_operator",
    "C37_calc_conditions",
    "C37_calc_operators",
    "C37_calc_parenthesized",
    "C37_calc_sizes",
    "C37_calc_right_assoc",
    "C37_calc_usual_value_refuted",
    "C37_calc_equal_literal_refuted"
   ],
   "note": ""
  },
  {
   "property": "C49",
   "status": "proved",
   "theorems": [
    "C49_letters_kept",
    "C49_shape",
    "C49_words"
   ],
   "note": ""
  },
  {
   "property": "C38",
   "status": "proved",
   "theorems": [
    "C38_signext",
    "C38_signext_value",
    "C38_unroll",
    "C38_rmpath"
   ],
   "note": ""
  },
  {
   "property": "C41",
   "status": "proved",
   "theorems": [
    "C41_distinct_files",
    "C41_no_rmpath",
    "C41_rmpath",
    "C41_rmpath_refuted"
   ],
   "note": ""
  },
  {
   "property": "C42",
   "status": "proved",
   "theorems": [
    "C42_pascal_injective_on_canonical",
    "C42_distinct_names_refuted"
   ],
   "note": ""
  },
  {
   "property": "C39",
   "status": "proved",
   "theorems": [
    "C39_go_stream"
   ],
   "note": ""
  },
  {
   "property": "C50",
   "status": "proved",
   "theorems": [
    "C50_decode_size",
    "C50_truncated",
    "C50_receive",
    "C50_csharp_refuted",
    "C50_c_unchecked_refuted"
   ],
   "note": "C# is excluded for arrays of variable-size structs (refuted there); the C/C++ decode functions do not check the length themselves (refuted)."
  },
  {
   "property": "C51",
   "status": "proved",
   "theorems": [
    "C51_decode_size",
    "C51_any_bytes",
    "C51_same_values",
    "C51_js_string_refuted",
    "C51_c_length_refuted",
    "C51_python_raises_refuted"
   ],
   "note": "Schemas without byte strings and with unsigned constants; JavaScript without strings (refuted there)."
  },
  {
   "property": "C52",
   "status": "proved",
   "theorems": [
    "C52_int_constant",
    "C52_too_large",
    "C52_base",
    "C52_mask",
    "C52_negative_hex_refuted"
   ],
   "note": "Negative hexadecimal constants are excluded (refuted there)."
  },
  {
   "property": "C53",
   "status": "proved",
   "theorems": [
    "C53_expr",
    "C53_one_reading",
    "C53_total",
    "C53_go_conditional",
    "C53_double_minus_refuted",
    "C53_python_not_refuted",
    "C53_power_refuted"
   ],
   "note": "Three shapes excluded by the hypothesis good, each refuted. String constants inside expressions are not modelled."
  },
  {
   "property": "C40",
   "status": "proved",
   "theorems": [
    "C40_go_incremental_read"
   ],
   "note": ""
  },
  {
   "property": "C54",
   "status": "proved",
   "theorems": [
    "C54_longest_match",
    "C54_lossless",
    "C54_one_way",
    "C54_tokens_alone"
   ],
   "note": ""
  },
  {
   "property": "C55",
   "status": "proved",
   "theorems": [
    "C55_layout",
    "C55_same_tokens",
    "C55_separators",
    "C55_comment_after",
    "C55_division_comment_refuted"
   ],
   "note": ""
  },
  {
   "property": "C56",
   "status": "proved",
   "theorems": [
    "C56_names",
    "C56_integers"
   ],
   "note": ""
  },
  {
   "property": "C57",
   "status": "proved",
   "theorems": [
    "C57_import_apostrophes_refuted",
    "C57_token",
    "C57_value",
    "C57_rejected",
    "C57_every_string",
    "C57_quotes_refuted"
   ],
   "note": "For texts that are UTF-8."
  },
  {
   "property": "C58",
   "status": "proved",
   "theorems": [
    "C58_parse",
    "C58_language",
    "C58_one_tree",
    "C58_text",
    "C58_text_inv"
   ],
   "note": "ANTLR's adaptive prediction is modelled by the decisions it makes; the theorems show them to be the only right ones."
  },
  {
   "property": "C59",
   "status": "proved",
   "theorems": [
    "C59_expr",
    "C59_accepts",
    "C59_parentheses",
    "C59_grouping",
    "C59_prefix",
    "C59_power_left_refuted",
    "C59_conditional_left_refuted",
    "C59_sign_power_refuted"
   ],
   "note": "Grouping as ANTLR documents it for left-recursive rules."
  },
  {
   "property": "C60",
   "status": "proved",
   "theorems": [
    "C60_import",
    "C60_first",
    "C60_path_place",
    "C60_places",
    "C60_same_file",
    "C60_absolute_refuted",
    "C60_diamond_refuted"
   ],
   "note": "filepath on Unix; symbolic links are not followed by the code either."
  },
  {
   "property": "C61",
   "status": "proved",
   "theorems": [
    "C61_layout",
    "C61_reformat",
    "C61_position",
    "C61_located"
   ],
   "note": "From bytes to compiled units; strconv.ParseFloat is a parameter."
  },
  {
   "property": "C63",
   "status": "proved",
   "theorems": [
    "C63_said_is_seen",
    "C63_seen_is_said",
    "C63_one_meaning"
   ],
   "note": "The meaning is the relation file_says of TextSpec.v."
  },
  {
   "property": "C64",
   "status": "proved",
   "theorems": [
    "C64_expression",
    "C64_layout",
    "C64_generated"
   ],
   "note": "Expressions handled: those of ExprVisit.handled; the others are the _refuted findings of C52, C53, C65 and string constants."
  },
  {
   "property": "C65",
   "status": "proved",
   "theorems": [
    "C65_literal",
    "C65_source",
    "C65_bits",
    "C65_one_reading",
    "C65_shortest",
    "C65_six_decimals",
    "C65_at_most_six",
    "C65_small_refuted",
    "C65_inf_refuted",
    "C65_lost_refuted"
   ],
   "note": "strconv.ParseFloat and the %f, %g and shortest formats are modelled by what they are documented to compute (correct rounding)."
  },
  {
   "property": "C66",
   "status": "proved",
   "theorems": [
    "C66_layout",
    "C66_any_to_any",
    "C66_same_bytes"
   ],
   "note": "Composes C54-C65, C23-C29 and C47; the side conditions are those of C23, C24 and C47."
  },
  {
   "property": "C67",
   "status": "proved",
   "theorems": [
    "C67_text_encode",
    "C67_text_layout",
    "C67_text_decode",
    "C67_text_roundtrip",
    "C67_one_outcome"
   ],
   "note": "Fixed-size fields at fixed positions; loops, strings, bytes and nested structs only as in GoModel.v."
  },
  {
   "property": "C68",
   "status": "proved",
   "theorems": [
    "C68_text_encode",
    "C68_text_layout",
    "C68_text_decode",
    "C68_text_roundtrip",
    "C68_text_misread_refuted",
    "C68_one_outcome"
   ],
   "note": "Fixed-size fields at fixed positions, no floats; loops, strings, bytes and nested structs only as in PyTarget.v. The misread fields are a bug of the generator, proved from the printed text."
  },
  {
   "property": "C62",
   "status": "proved",
   "theorems": [
    "C62_unique_names",
    "C62_visible_types",
    "C62_no_crash",
    "C62_not_a_schema"
   ],
   "note": "C35 and C43 for texts, without their assumptions about the parser."
  },
  {
   "property": "C69",
   "status": "proved",
   "theorems": [
    "C69_files",
    "C69_each_once",
    "C69_flat_files",
    "C69_single",
    "C69_single_ignored",
    "C69_duplicate",
    "C69_order",
    "C69_no_overwrite",
    "C69_nested_refuted",
    "C69_go_overwrite_refuted",
    "C69_go_different_refused_refuted"
   ],
   "note": "Generating the code of one type is taken to succeed; -rmpath is C41's."
  },
  {
   "property": "C70",
   "status": "proved",
   "theorems": [
    "C70_closed",
    "C70_direct",
    "C70_only",
    "C70_indirect_refuted",
    "C70_go_unused_refuted",
    "C70_omitted_refuted",
    "C70_esm_names_refuted"
   ],
   "note": "Imports are names of packages; the paths printed for them are C31's."
  },
  {
   "property": "C71",
   "status": "proved",
   "theorems": [
    "C71_lines",
    "C71_no_first",
    "C71_layout",
    "C71_block",
    "C71_nested",
    "C71_exact",
    "C71_kotlin",
    "C71_last_blank_refuted"
   ],
   "note": ""
  },
  {
   "property": "C72",
   "status": "proved",
   "theorems": [
    "C72_plain",
    "C72_only_plain",
    "C72_esm",
    "C72_kotlin",
    "C72_escapes_refuted"
   ],
   "note": "ASCII strings; the readers of the literals are part of the specification (StrEmit.v). C trigraphs are not considered."
  },
  {
   "property": "C73",
   "status": "proved",
   "theorems": [
    "C73_options",
    "C73_defaults",
    "C73_only",
    "C73_targets",
    "C73_listing",
    "C73_zero",
    "C73_nothing",
    "C73_after_file",
    "C73_success",
    "C73_rmpath_empty_refuted"
   ],
   "note": "Go's flag package is modelled by its documented algorithm; I/O errors are left out."
  },
  {
   "property": "C74",
   "status": "proved",
   "theorems": [
    "C74_text_encode",
    "C74_text_layout",
    "C74_text_any",
    "C74_text_lost_bit_refuted",
    "C74_one_outcome"
   ],
   "note": "Encoding only; fixed-size fields, no floats, array loops (bb_write_field_bits), strings, bytes or nested structs in the text; comments and indentation left out."
  },
  {
   "property": "C75",
   "status": "proved",
   "theorems": [
    "C75_text_decode",
    "C75_text_any",
    "C75_text_roundtrip",
    "C75_text_negative_refuted",
    "C75_text_narrow_refuted",
    "C74_one_outcome"
   ],
   "note": "Decoding; fixed-size fields, no floats, array loops (bb_read_field_bits), strings, bytes or nested structs in the text; enums are taken to be unsigned; comments and indentation left out."
  },
  {
   "property": "C76",
   "status": "proved",
   "theorems": [
    "C76_null_refused",
    "C76_decoded_named",
    "C76_relayed_named"
   ],
   "note": ""
  }
 ]
}