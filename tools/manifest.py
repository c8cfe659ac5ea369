#!/usr/bin/env python3
# Generates /verif/MANIFEST.json and checks that every named theorem exists.
import json,re,glob
P="proved";Q="partial"
claims=[
("C01",P,["C01_go_roundtrip"],"Whole schema language except direct dynamic-struct fields (C09) and constants that do not fit (C15), which are refuted separately."),
("C02",P,["C02_go_layout"],""),
("C03",P,["C03_go_frame"],""),
("C04",P,["C04_go_encode_size"],""),
("C05",P,["C05_go_decode_size"],""),
("C06",P,["C06_go_decode_size_prefix"],""),
("C07",P,["C07_go_decode_no_panic"],""),
("C08",P,["C08_go_decode_consumes","C08_go_decode_fails_short"],""),
("C09",P,["C09_go_direct_never_wrong","C09_go_direct_last_roundtrip","C09_go_direct_dynamic_struct_refuted","C09_go_direct_dynamic_struct_panic_refuted"],"No wrong value and no panic on complete messages, exact round trip and DecodeSize when nothing of variable size follows; the stronger hopes (always accepted; no panic on truncated input) are refuted with witnesses."),
("C10",P,["C10_go_unroll_encode","C10_go_unroll_decode","C10_go_unroll_decode_wide_bool_refuted"],""),
("C11",P,["C11_go_signext","C11_go_signext_message"],""),
("C12",P,["C12_go_helpers"],""),
("C13",P,["C13_varint_canonical","C13_go_bytes_field"],""),
("C14",P,["C14_go_constant_checked","C14_go_accepts_image"],""),
("C15",P,["C15_go_roundtrip_iff","C15_received_unsigned","C15_received_signed","C15_received_narrow_big","C15_go_constant_too_wide_refuted","C15_go_constant_big_endian_refuted"],"Exact characterisation; that every accepted constant round-trips is refuted by witnesses."),
("C16",P,["C16_go_decode_encode","C16_go_overlong_length_refuted"],""),
("C17",P,["C17_go_truncation"],""),
("C18",P,["C18_cfamily_layout","C18_straddling_field_loses_bit","C18_straddling_field_refuted","C18_js_wide_enum_refuted","C18_java_nested_array_refuted"],"For the schemas named in the property; outside them refuted."),
("C19",P,["C19_cfamily_reads_field","C19_cfamily_decodes","C19_js_uint32_refuted","C19_c_constant_refuted","C19_narrow_float_refuted","C19_negative_length_refuted","C19_c_truncated_refuted"],"Exceptions refuted by witnesses."),
("C20",P,["C20_cfamily_any_buffer","C20_cfamily_independent","C20_padding_refuted","C20_loop_refuted"],"For self-clearing schemas; otherwise refuted."),
("C21",P,["C21_python_layout","C21_python_decodes","C21_python_field_exact","C21_python_misread","C21_python_decode_refuted","C21_python_raises_refuted"],"Encoding for every schema; decoding for the schemas whose fields are of the stated kinds, and exactly those: a field of any other kind misreads a value."),
("C22",P,["C22_kotlin_layout","C22_kotlin_decodes","C22_kotlin_helpers","C22_kotlin_refuted"],"Exception (narrow big-endian constants) refuted."),
("C47",P,["C47_any_to_any","C47_any_to_any_reduced","C47_same_bytes","C47_plain_any_to_any","C47_reads_what_go_accepts"],""),
("C48",P,["C48_js_string_utf8","C48_js_string_from_utf8","C48_js_lone_surrogate_refuted"],""),
("C23",P,["C23_struct_layout","C23_file","C23_program","C23_layout_complete","C23_accepted_wf"],""),
("C24",P,["C24_field_widths","C24_int64_wrap_refuted","C24_negative_width_refuted","C24_wide_enum_refuted","C24_struct_array_width_refuted"],""),
("C25",P,["C25_unique_names","C25_elaboration"],""),
("C26",P,["C26_enum_values","C26_minus_one_refuted"],""),
("C27",P,["C27_terminates","C27_no_cycle"],""),
("C28",P,["C28_order","C28_units","C28_deterministic","C28_accepted","C28_import_lists"],""),
("C29",P,["C29_packages"],""),
("C35",P,["C35_unique_definitions","C35_unique_names","C35_no_false_clash","C35_visible_types"],""),
("C46",P,["C46_source_to_go_roundtrip"],""),
("C43",P,["C43_no_crash","C43_no_crash_files","C43_lower_case_refuted"],""),
("C44",P,["C44_options_accepted","C44_order","C44_file_head"],""),
("C45",P,["C45_methods_accepted","C45_method_names"],""),
("C30",P,["C30_ordered_map_refines","C30_ordered_map_keys_unique","C30_zero_key_refuted"],"For histories that do not name the zero key; with it the property is refuted."),
("C31",P,["C31_relative_path","C31_relative_path_strict","C31_python_import","C31_go_import_refuted"],""),
("C32",P,["C32_normal_form","C32_idempotent","C32_idempotent_no_crlf","C32_content_kept","C32_document","C32_visible_kept","C32_written_once","C32_idempotent_refuted"],""),
("C33",P,["C33_highbit"],""),
("C34",P,["C34_size_string_injective","C34_size_string_dynamic_injective"],""),
("C36",P,["C36_snake_idempotent","C36_camel_idempotent","C36_pascal_idempotent","C36_allcap_idempotent","C36_camel_pascal_allcap_refuted"],""),
("C37",P,["C37_calc_binary","C37_calc_is_operator","C37_calc_conditions","C37_calc_operators","C37_calc_parenthesized","C37_calc_sizes","C37_calc_right_assoc","C37_calc_usual_value_refuted","C37_calc_equal_literal_refuted"],""),
("C49",P,["C49_letters_kept","C49_shape","C49_words"],""),
("C38",P,["C38_signext","C38_signext_value","C38_unroll","C38_rmpath"],""),
("C41",P,["C41_distinct_files","C41_no_rmpath","C41_rmpath","C41_rmpath_refuted"],""),
("C42",P,["C42_pascal_injective_on_canonical","C42_distinct_names_refuted"],""),
("C39",P,["C39_go_stream"],""),
("C50",P,["C50_decode_size","C50_truncated","C50_receive","C50_csharp_refuted","C50_c_unchecked_refuted"],"C# is excluded for arrays of variable-size structs (refuted there); the C/C++ decode functions do not check the length themselves (refuted)."),
("C51",P,["C51_decode_size","C51_any_bytes","C51_same_values","C51_js_string_refuted","C51_c_length_refuted","C51_python_raises_refuted"],"Schemas without byte strings and with unsigned constants; JavaScript without strings (refuted there)."),
("C52",P,["C52_int_constant","C52_too_large","C52_base","C52_mask","C52_negative_hex_refuted"],"Negative hexadecimal constants are excluded (refuted there)."),
("C53",P,["C53_expr","C53_one_reading","C53_total","C53_go_conditional","C53_double_minus_refuted","C53_python_not_refuted","C53_power_refuted"],"Three shapes excluded by the hypothesis good, each refuted. String constants inside expressions are not modelled."),
("C40",P,["C40_go_incremental_read"],""),
("C54",P,["C54_longest_match","C54_lossless","C54_one_way","C54_tokens_alone"],""),
("C55",P,["C55_layout","C55_same_tokens","C55_separators","C55_comment_after","C55_division_comment_refuted"],""),
("C56",P,["C56_names","C56_integers"],""),
("C57",P,["C57_import_apostrophes_refuted","C57_token","C57_value","C57_rejected","C57_every_string","C57_quotes_refuted"],"For texts that are UTF-8."),
("C58",P,["C58_parse","C58_language","C58_one_tree","C58_text","C58_text_inv"],"ANTLR's adaptive prediction is modelled by the decisions it makes; the theorems show them to be the only right ones."),
("C59",P,["C59_expr","C59_accepts","C59_parentheses","C59_grouping","C59_prefix","C59_power_left_refuted","C59_conditional_left_refuted","C59_sign_power_refuted"],"Grouping as ANTLR documents it for left-recursive rules."),
("C60",P,["C60_import","C60_first","C60_path_place","C60_places","C60_same_file","C60_absolute_refuted","C60_diamond_refuted"],"filepath on Unix; symbolic links are not followed by the code either."),
("C61",P,["C61_layout","C61_reformat","C61_position","C61_located"],"From bytes to compiled units; strconv.ParseFloat is a parameter."),
("C63",P,["C63_said_is_seen","C63_seen_is_said","C63_one_meaning"],"The meaning is the relation file_says of TextSpec.v."),
("C64",P,["C64_expression","C64_layout","C64_generated"],"Expressions handled: those of ExprVisit.handled; the others are the _refuted findings of C52, C53, C65 and string constants."),
("C65",P,["C65_literal","C65_source","C65_bits","C65_one_reading","C65_shortest","C65_six_decimals","C65_at_most_six","C65_small_refuted","C65_inf_refuted","C65_lost_refuted"],"strconv.ParseFloat and the %f, %g and shortest formats are modelled by what they are documented to compute (correct rounding)."),
("C66",P,["C66_layout","C66_any_to_any","C66_same_bytes"],"Composes C54-C65, C23-C29 and C47; the side conditions are those of C23, C24 and C47."),
("C67",P,["C67_text_encode","C67_text_layout","C67_text_decode","C67_text_roundtrip","C67_one_outcome"],"Fixed-size fields at fixed positions; loops, strings, bytes and nested structs only as in GoModel.v."),
("C68",P,["C68_text_encode","C68_text_layout","C68_text_decode","C68_text_roundtrip","C68_text_misread_refuted","C68_one_outcome"],"Fixed-size fields at fixed positions, no floats; loops, strings, bytes and nested structs only as in PyTarget.v. The misread fields are a bug of the generator, proved from the printed text."),
("C62",P,["C62_unique_names","C62_visible_types","C62_no_crash","C62_not_a_schema"],"C35 and C43 for texts, without their assumptions about the parser."),
("C69",P,["C69_files","C69_each_once","C69_flat_files","C69_single","C69_single_ignored","C69_duplicate","C69_order","C69_no_overwrite","C69_nested_refuted","C69_go_overwrite_refuted","C69_go_different_refused_refuted"],"Generating the code of one type is taken to succeed; -rmpath is C41's."),
("C70",P,["C70_closed","C70_direct","C70_only","C70_indirect_refuted","C70_go_unused_refuted","C70_omitted_refuted","C70_esm_names_refuted"],"Imports are names of packages; the paths printed for them are C31's."),
("C71",P,["C71_lines","C71_no_first","C71_layout","C71_block","C71_nested","C71_exact","C71_kotlin","C71_last_blank_refuted"],""),
("C72",P,["C72_plain","C72_only_plain","C72_esm","C72_kotlin","C72_escapes_refuted"],"ASCII strings; the readers of the literals are part of the specification (StrEmit.v). C trigraphs are not considered."),
("C73",P,["C73_options","C73_defaults","C73_only","C73_targets","C73_listing","C73_zero","C73_nothing","C73_after_file","C73_success","C73_rmpath_empty_refuted"],"Go's flag package is modelled by its documented algorithm; I/O errors are left out."),
("C74",P,["C74_text_encode","C74_text_layout","C74_text_any","C74_text_lost_bit_refuted","C74_one_outcome"],"Encoding only; fixed-size fields, no floats, array loops (bb_write_field_bits), strings, bytes or nested structs in the text; comments and indentation left out."),
("C75",P,["C75_text_decode","C75_text_any","C75_text_roundtrip","C75_text_negative_refuted","C75_text_narrow_refuted","C74_one_outcome"],"Decoding; fixed-size fields, no floats, array loops (bb_read_field_bits), strings, bytes or nested structs in the text; enums are taken to be unsigned; comments and indentation left out."),
("C76",P,["C76_null_refused","C76_decoded_named","C76_relayed_named"],""),
]
src="\n".join(open(f).read() for f in glob.glob("/verif/rocq/theories/*.v"))
names=set(re.findall(r"^(?:Theorem|Lemma|Corollary)\s+([\w']+)",src,re.M))
props=[json.loads(l)["id"] for l in open("/verif/properties.jsonl")]
for c in claims:
    for t in c[2]:
        if t not in names: print("MISSING",t)
have={c[0] for c in claims}
print("not claimed:",[p for p in props if p not in have])
json.dump({"claims":[{"property":a,"status":b,"theorems":c,"note":d} for a,b,c,d in claims]},open("/verif/MANIFEST.json","w"),indent=1)
