{
 "claims": [
  {
   "property": "C01",
   "status": "proved",
   "theorems": [
    "C01_varint_roundtrip"
   ],
   "note": ""
  },
  {
   "property": "C02",
   "status": "proved",
   "theorems": [
    "C02_varint_signed_roundtrip"
   ],
   "note": ""
  },
  {
   "property": "C03",
   "status": "proved",
   "theorems": [
    "C03_zigzag_forward",
    "C03_zigzag_backward",
    "C03_zigzag_small"
   ],
   "note": ""
  },
  {
   "property": "C04",
   "status": "proved",
   "theorems": [
    "C04_varint_size",
    "C04_varint_size_signed",
    "C04_max_sizes"
   ],
   "note": ""
  },
  {
   "property": "C05",
   "status": "proved",
   "theorems": [
    "C05_varint_canonical"
   ],
   "note": ""
  },
  {
   "property": "C06",
   "status": "proved",
   "theorems": [
    "C06_varint_decode_bounds",
    "C06_varint_decode_fails_iff"
   ],
   "note": ""
  },
  {
   "property": "C07",
   "status": "proved",
   "theorems": [
    "C07_varint_prefix_free"
   ],
   "note": ""
  },
  {
   "property": "C08",
   "status": "proved",
   "theorems": [
    "C08_varint_truncated"
   ],
   "note": ""
  },
  {
   "property": "C09",
   "status": "partial",
   "theorems": [
    "C09_varint_decode_exact",
    "C09_overlong_refuted"
   ],
   "note": "The claim (decoder rejects values that do not fit) is false of the code: C09_overlong_refuted gives a witness; C09_varint_decode_exact characterises exactly what the decoder returns."
  },
  {
   "property": "C10",
   "status": "proved",
   "theorems": [
    "C10_fieldid_roundtrip",
    "C10_fieldid_unpack"
   ],
   "note": ""
  },
  {
   "property": "C11",
   "status": "partial",
   "theorems": [
    "C11_validated_collision_refuted",
    "C11_fieldid_exact",
    "C11_large_ids_refuted"
   ],
   "note": "False for ids >= 2^29 (C11_large_ids_refuted), which the validator accepts (C11_validated_collision_refuted). C11_fieldid_exact: true exactly for ids < 2^29."
  },
  {
   "property": "C12",
   "status": "proved",
   "theorems": [
    "C12_primitives_roundtrip"
   ],
   "note": ""
  },
  {
   "property": "C13",
   "status": "partial",
   "theorems": [
    "C13_size_gap",
    "C13_size_exact_partial",
    "C13_size_refuted"
   ],
   "note": "False in general (C13_size_refuted). C13_size_gap gives the exact difference for every value; C13_size_exact_partial equality for types without maps, multi-byte-element collections and tuple fields."
  },
  {
   "property": "C14",
   "status": "partial",
   "theorems": [
    "C14_roundtrip_partial",
    "C14_roundtrip_flat_partial",
    "C14_roundtrip_refuted",
    "C14_generated_partial",
    "C14_forward_partial",
    "C14_forward_flat_partial"
   ],
   "note": "False in general (C14_roundtrip_refuted): collections whose elements have inexact sizes or occupy no byte, and id 0. Proved for every value whose announced collection lengths are right, and for every value of schemas whose collections have flat elements."
  },
  {
   "property": "C15",
   "status": "partial",
   "theorems": [
    "C15_suffix",
    "C15_local",
    "C15_terminates_partial",
    "C15_terminates_refuted"
   ],
   "note": "Suffix and locality hold unconditionally; termination fails for collections of field-less structs (C15_terminates_refuted) and is proved for all other schemas."
  },
  {
   "property": "C16",
   "status": "partial",
   "theorems": [
    "C16_no_panic_partial",
    "C16_no_panic_refuted"
   ],
   "note": "False for arrays (C16_no_panic_refuted); proved for array-free well-formed schemas and every byte string."
  },
  {
   "property": "C17",
   "status": "proved",
   "theorems": [
    "C17_non_zero",
    "C17_never_zero"
   ],
   "note": ""
  },
  {
   "property": "C18",
   "status": "partial",
   "theorems": [
    "C18_skip_partial",
    "C18_skip_refuted"
   ],
   "note": "False for structs, enums, generics and nested options (C18_skip_refuted); proved for all other field types."
  },
  {
   "property": "C19",
   "status": "partial",
   "theorems": [
    "C19_evolution_partial",
    "C19_added_fields_partial",
    "C19_unknown_struct_field_refuted"
   ],
   "note": "Fails when the unknown field is not skippable (C19_unknown_struct_field_refuted); proved otherwise, for arbitrary simultaneous changes anywhere in the schema."
  },
  {
   "property": "C20",
   "status": "partial",
   "theorems": [
    "C20_added_optional_partial",
    "C20_total_partial",
    "C20_unchanged"
   ],
   "note": "Proved for values whose announced collection lengths are right (the restriction inherited from C14)."
  },
  {
   "property": "C21",
   "status": "proved",
   "theorems": [
    "C21_missing_field",
    "C21_missing_field_variant",
    "C21_complete"
   ],
   "note": "For every well-formed payload (known fields with payloads of their type, unknown fields that can be skipped)."
  },
  {
   "property": "C22",
   "status": "proved",
   "theorems": [
    "C22_order_irrelevant",
    "C22_last_wins"
   ],
   "note": ""
  },
  {
   "property": "C23",
   "status": "proved",
   "theorems": [
    "C23_unknown_variant",
    "C23_known_variant"
   ],
   "note": ""
  },
  {
   "property": "C24",
   "status": "partial",
   "theorems": [
    "C24_unique_partial",
    "C24_unique_flat_partial",
    "C24_unique_refuted"
   ],
   "note": "False for collections of field-less structs and for ids that differ by 2^29 (C24_unique_refuted); proved under the conditions of C14."
  },
  {
   "property": "C25",
   "status": "partial",
   "theorems": [
    "C25_truncated_partial",
    "C25_truncated_error_partial"
   ],
   "note": "Proved under the conditions of C14 (no strict prefix decodes) and C15/C16 (it is an error)."
  },
  {
   "property": "C26",
   "status": "proved",
   "theorems": [
    "C26_vec_in_order",
    "C26_map_last_value",
    "C26_set_distinct"
   ],
   "note": ""
  },
  {
   "property": "C27",
   "status": "partial",
   "theorems": [
    "C27_chunked_partial",
    "C27_chunking_refuted"
   ],
   "note": "False for a varint split over chunks (C27_chunking_refuted); proved when the varint lies in the current chunk."
  },
  {
   "property": "C28",
   "status": "proved",
   "theorems": [
    "C28_ids_determined",
    "C28_emitted_ids",
    "C28_emitted_ids_distinct"
   ],
   "note": ""
  },
  {
   "property": "C29",
   "status": "proved",
   "theorems": [
    "C29_duplicate_ids_rejected",
    "C29_errors_are_true",
    "C29_field_list_exact"
   ],
   "note": "C29_errors_are_true covers all reported errors, C30-C32 included."
  },
  {
   "property": "C30",
   "status": "proved",
   "theorems": [
    "C30_duplicate_names_rejected",
    "C30_distinct_names_accepted"
   ],
   "note": ""
  },
  {
   "property": "C31",
   "status": "partial",
   "theorems": [
    "C31_generics_exact_partial",
    "C31_accepted_are_used",
    "C31_used_in_non_zero_refuted"
   ],
   "note": "False for parameters used only inside non_zero<..>, which are refused as unused (C31_used_in_non_zero_refuted); exact otherwise, and accepted schemas use every parameter."
  },
  {
   "property": "C32",
   "status": "partial",
   "theorems": [
    "C32_tuples_exact_partial",
    "C32_accepted_tuples_partial",
    "C32_tuple_in_non_zero_refuted"
   ],
   "note": "False inside non_zero<..>, which the check does not enter (C32_tuple_in_non_zero_refuted); exact outside."
  },
  {
   "property": "C33",
   "status": "partial",
   "theorems": [
    "C33_generator_exact_partial",
    "C33_generator_refuted",
    "C33_id_overflow"
   ],
   "note": "False (C33_generator_refuted: three validated schemas that panic; ids of 2^32-1 panic the validator itself). C33_generator_exact_partial characterises exactly the validated schemas for which code is generated."
  },
  {
   "property": "C34",
   "status": "partial",
   "theorems": [
    "C34_zero_exact_partial",
    "C34_zero_only_explicit_partial",
    "C34_zero_refuted",
    "C34_zero_wrap_refuted"
   ],
   "note": "False (C34_zero_refuted: @0 is accepted; C34_zero_wrap_refuted: wrap-around without overflow checks). Exact characterisation proved."
  },
  {
   "property": "C35",
   "status": "partial",
   "theorems": [
    "C35_resolution_exact_partial",
    "C35_errors_are_true",
    "C35_alias_target_refuted",
    "C35_alias_unusable"
   ],
   "note": "Exact characterisation of the accepted projects; false for alias targets and inside non_zero, which are not looked at (C35_alias_target_refuted). Aliases cannot be referred to (C35_alias_unusable)."
  },
  {
   "property": "C36",
   "status": "partial",
   "theorems": [
    "C36_type_imports_accepted_partial",
    "C36_module_imports_refuted",
    "C36_module_import_example_refuted",
    "C36_nested_import_refuted"
   ],
   "note": "True for types imported by name at the top of a schema; false for imported modules (C36_module_imports_refuted: no such reference is ever accepted) and for imports in nested modules (C36_nested_import_refuted)."
  },
  {
   "property": "C37",
   "status": "partial",
   "theorems": [
    "C37_type_round_trip",
    "C37_shadowed_refuted"
   ],
   "note": "Exact characterisation (C37_type_round_trip): types survive iff no reference starts with a path segment the parser mistakes for a built-in type; false otherwise (C37_shadowed_refuted: string_utils::B is rejected)."
  },
  {
   "property": "C38",
   "status": "partial",
   "theorems": [
    "C38_fmt_preserves_partial",
    "C38_fmt_idempotent_partial",
    "C38_invalid_untouched",
    "C38_print_parse",
    "C38_float_refuted",
    "C38_nul_refuted",
    "C38_comments_refuted"
   ],
   "note": "Proved for all schemas whose floats print with a fractional part and whose strings contain no NUL; refuted otherwise (C38_float_refuted, C38_nul_refuted), and comments on imports and attributes on aliases, constants, modules and imports are dropped (C38_comments_refuted)."
  },
  {
   "property": "C39",
   "status": "partial",
   "theorems": [
    "C39_literal_round_trip",
    "C39_float_partial"
   ],
   "note": "Exact for all literals but floats (false only for strings with NUL); floats proved when they print with a fractional part, refuted otherwise (C38_float_refuted)."
  },
  {
   "property": "C40",
   "status": "proved",
   "theorems": [
    "C40_names",
    "C40_longest_name",
    "C40_ids"
   ],
   "note": ""
  },
  {
   "property": "C41",
   "status": "partial",
   "theorems": [
    "C41_variant_id_unused_partial",
    "C41_field_id_unused_partial",
    "C41_id_unused_refuted"
   ],
   "note": "False when u32::MAX is already in use (C41_id_unused_refuted); proved for all other definitions."
  },
  {
   "property": "C42",
   "status": "partial",
   "theorems": [
    "C42_size_within_bounds",
    "C42_minimum_partial",
    "C42_maximum_partial",
    "C42_bounds_refuted"
   ],
   "note": "The bounds are right for size() (C42_size_within_bounds); as bounds on the written bytes they are refuted for tuple fields and maps/collections (C42_bounds_refuted) and proved otherwise."
  },
  {
   "property": "C43",
   "status": "partial",
   "theorems": [
    "C43_batch_partial",
    "C43_history_partial",
    "C43_batches_refuted",
    "C43_column_beyond_end_refuted"
   ],
   "note": "False for notifications with several changes (C43_batches_refuted) and for columns beyond the end of a line (C43_column_beyond_end_refuted); proved for whole-text changes and for changes sent bottom up, single ones included."
  },
  {
   "property": "C44",
   "status": "proved",
   "theorems": [
    "C44_tokens_decode",
    "C44_order_necessary",
    "C44_modifiers"
   ],
   "note": ""
  },
  {
   "property": "C45",
   "status": "partial",
   "theorems": [
    "C45_open_documents_partial",
    "C45_documents_exact",
    "C45_closed_refuted"
   ],
   "note": "False after closing (C45_closed_refuted); C45_documents_exact says what is tracked instead."
  },
  {
   "property": "C46",
   "status": "proved",
   "theorems": [
    "C46_offset_to_position",
    "C46_position_to_offset",
    "C46_roundtrip"
   ],
   "note": "For texts below 4 GiB (larger ones crash the line table)."
  },
  {
   "property": "C47",
   "status": "proved",
   "theorems": [
    "C47_source_order",
    "C47_length"
   ],
   "note": "For tuple structs with any white space; printing order is part of C38."
  },
  {
   "property": "C48",
   "status": "partial",
   "theorems": [
    "C48_go_reads_rust_partial",
    "C48_absent_option_refuted",
    "C48_present_option_refuted",
    "C48_go_reads_everything",
    "C48_trailing_refuted",
    "C48_nested_struct_refuted",
    "C48_go_payload_partial",
    "C48_go_struct_partial",
    "C48_encoding_class_refuted",
    "C48_enum_refuted",
    "C48_tuple_refuted",
    "C48_generator_refuted"
   ],
   "note": "For every Go runtime (the runtime is not in the repository and is a parameter): structs of plain non-optional fields written by the Rust code are read by the Go code, and the Go code writes the Rust payloads. Refuted beyond that: absent and present optional fields, structs as fields or followed by anything, enums, tuples, the encoding class in field ids, arrays over 32 elements. The emitted Go text is modelled by its meaning; that some of it does not compile is recorded in Go.v, not proved."
  },
  {
   "property": "C49",
   "status": "partial",
   "theorems": [
    "C49_source_partial",
    "C49_generated_partial",
    "C49_project_compiles_partial",
    "C49_project_roundtrip_partial",
    "C49_nested_import_refuted",
    "C49_inner_import_refuted",
    "C49_non_zero_reference_refuted",
    "C49_std_name_refuted",
    "C49_shadowed_type_refuted"
   ],
   "note": "C49_source_partial starts from the source text read from disk. Proved for projects with nothing wrong where the compiler does not look (inside non_zero, imports used in nested modules, names that hide others); each of these conditions is shown necessary by an accepted project whose code does not compile (C49_*_refuted). C49_generated_partial goes on to the generated Rust functions: within the limits of C69 they type check, can be instantiated if no type contains itself (C71), and running them round trips. Lifetimes, borrows and names that are Rust keywords are not modelled."
  },
  {
   "property": "C50",
   "status": "proved",
   "theorems": [
    "C50_analysis_current",
    "C50_diagnostics_current",
    "C50_diagnostics_sent"
   ],
   "note": ""
  },
  {
   "property": "C51",
   "status": "proved",
   "theorems": [
    "C51_parser_total"
   ],
   "note": "Panics by exhausting the stack on deeply nested input are outside the model."
  },
  {
   "property": "C52",
   "status": "proved",
   "theorems": [
    "C52_well_formed"
   ],
   "note": ""
  },
  {
   "property": "C53",
   "status": "proved",
   "theorems": [
    "C53_string_exactly_utf8",
    "C53_decoded_text"
   ],
   "note": ""
  },
  {
   "property": "C54",
   "status": "partial",
   "theorems": [
    "C54_encoder_partial",
    "C54_encoder_measured_partial",
    "C54_decoder_partial",
    "C54_format_function",
    "C54_manual_partial",
    "C54_manual_refuted",
    "C54_encoder_refuted"
   ],
   "note": "The format is an inductive relation written from the manual (WireDoc.v), independent of the encoder. Encoders produce it when the announced lengths are right (always for schemas with flat collection elements; refuted by a nested vector otherwise, C54_encoder_refuted); decoders read every encoding of it, unless collection elements occupy no byte; it is a total function of the value. The code and the manual differ on arrays, tuples as fields and fields of a parameter type (C54_manual_refuted); elsewhere they are the same relation."
  },
  {
   "property": "C55",
   "status": "partial",
   "theorems": [
    "C55_error_writes_nothing",
    "C55_rejects_exactly_partial",
    "C55_outputs_partial",
    "C55_stopped",
    "C55_rebuild",
    "C55_same_name_refuted",
    "C55_include_partial"
   ],
   "note": "Errors write nothing, stopping half way leaves only complete files of the new build among old ones, and rebuilding repairs. One file per schema holds for projects whose file names differ; two files of the same name in different directories overwrite each other (C55_same_name_refuted). C55_include_partial: under the same condition mabo::include! of a schema name finds the code of that schema, and of any other name what was there before; paths are those of Unix. The exact set of rejected projects is for release builds, where the validator does not panic."
  },
  {
   "property": "C56",
   "status": "partial",
   "theorems": [
    "C56_reports",
    "C56_status_refuted"
   ],
   "note": "The reports are exact; the exit status is always success (C56_status_refuted)."
  },
  {
   "property": "C57",
   "status": "partial",
   "theorems": [
    "C57_effect",
    "C57_meaning_partial",
    "C57_unreadable",
    "C57_stopped_partial",
    "C57_stopped_refuted"
   ],
   "note": "Effect exact; meaning preserved under the conditions of C38; a process stopped between truncating and writing a file loses it (C57_stopped_refuted), otherwise every file holds its old or its new content."
  },
  {
   "property": "C58",
   "status": "partial",
   "theorems": [
    "C58_links",
    "C58_complete",
    "C58_distinct_partial",
    "C58_distinct_refuted",
    "C58_stylesheet_refuted"
   ],
   "note": "Links and completeness are proved for all schemas, valid or not; pages are distinct for valid schemas with distinct file names and overwrite each other otherwise, as doc does not validate (C58_distinct_refuted); the stylesheet every page refers to is never written (C58_stylesheet_refuted)."
  },
  {
   "property": "C59",
   "status": "partial",
   "theorems": [
    "C59_modules_partial",
    "C59_same_errors",
    "C59_single_schema_partial",
    "C59_last_schema_wins_refuted"
   ],
   "note": "Proved for projects of one schema file; with several files all root definitions but those of the last are lost (C59_last_schema_wins_refuted), and every module whose path no later file has is kept (C59_modules_partial)."
  },
  {
   "property": "C60",
   "status": "partial",
   "theorems": [
    "C60_counting_is_harmless",
    "C60_time_refuted",
    "C60_no_polynomial_refuted"
   ],
   "note": "Refuted: n nested tuples in 2n+12 characters call the type parser 2(2^(n+1)-1) times, because the list parser parses every last element twice; no polynomial bounds it. Only calls of one function are counted (a lower bound on time); the counting parser is proved to return what the parser returns."
  },
  {
   "property": "C61",
   "status": "partial",
   "theorems": [
    "C61_values_partial",
    "C61_literals_unchecked_refuted",
    "C61_type_refuted",
    "C61_infinite_refuted",
    "C61_u128_refuted"
   ],
   "note": "A constant of a primitive type is emitted with its value and accepted by Rust exactly when its literal is a value of its type (C61_values_partial; box<string>/box<bytes> make the generator panic). No literal is ever checked: the verdict on a project does not depend on them (C61_literals_unchecked_refuted), so wrong ones are accepted. What rustc accepts is specified by a small relation."
  },
  {
   "property": "C62",
   "status": "partial",
   "theorems": [
    "C62_fields_partial",
    "C62_decls_partial",
    "C62_decls_refuted",
    "C62_fields_refuted",
    "C62_file_names",
    "C62_file_decls_partial",
    "C62_file_members_partial"
   ],
   "note": "Proved for usual names: fields of lower case words, capitalised type and variant names not starting with New or ending with Variant, constants distinct from them in camel case. Refuted otherwise by accepted schemas. The case conversion crate heck is not in the repository; its algorithm is modelled from its documentation, for ASCII. C62_file_* state the same on the syntax tree of the generated file, whose printed text GoConform compares with the snapshots of the repository."
  },
  {
   "property": "C63",
   "status": "proved",
   "theorems": [
    "C63_same_schema",
    "C63_names",
    "C63_nodes"
   ],
   "note": "The located parser is a second model (SpanParser.v), proved to erase to Parser.v (C63_same_schema). Locations nothing reads (inside attributes, the combined location of an import, the angles of generics) are not modelled. The location of a field or variant leaves its comment out, the one of an unnamed field may start with the blanks before it (the parser skips them inside the located part)."
  },
  {
   "property": "C64",
   "status": "proved",
   "theorems": [
    "C64_tokens",
    "C64_legend"
   ],
   "note": "Stated with an inductive reading of the text as words separated by blanks. The comment of the schema, attributes, the angles of type parameters, string and byte literals, array sizes, the double colons of an import before its element, and its semicolon get no token; the specification says so."
  },
  {
   "property": "C65",
   "status": "proved",
   "theorems": [
    "C65_outline",
    "C65_ranges"
   ],
   "note": "The range of an unnamed field is the field as the parser reads it, with leading blanks (C65_ex)."
  },
  {
   "property": "C66",
   "status": "proved",
   "theorems": [
    "C66_hover"
   ],
   "note": "The printed form of next ids and wire sizes is not modelled. Cursor positions inside a character are outside the statement."
  },
  {
   "property": "C67",
   "status": "proved",
   "theorems": [
    "C67_same_verdict",
    "C67_report",
    "C67_diagnostic"
   ],
   "note": "The location of an implied id is the whole field or variant without its comment; a tuple error marks the whole type of the field, alias or constant, not the tuple. For names the first stands before the second in the text; for ids the order is that of the list. Parse-error diagnostics are not modelled."
  },
  {
   "property": "C68",
   "status": "proved",
   "theorems": [
    "C68_accepts",
    "C68_unambiguous",
    "C68_rejects",
    "C68_free_layout_refuted"
   ],
   "note": "The grammar (Grammar.v) is relational and does not mention the parser. It includes where blanks and line breaks may stand; C68_free_layout_refuted lists layouts a user may expect to be accepted and that are not (a blank behind the angle of a built-in container, a struct without fields at the very end of the text, an empty line between a comment and its field)."
  },
  {
   "property": "C69",
   "status": "partial",
   "theorems": [
    "C69_type_checks_exact_partial",
    "C69_tuple_option_refuted",
    "C69_tuple_non_zero_refuted",
    "C69_nested_tuple_refuted",
    "C69_float_key_refuted",
    "C69_struct_key_refuted",
    "C69_generic_key_refuted",
    "C69_field_name_refuted",
    "C69_argument_refuted",
    "C69_bytes_type_refuted"
   ],
   "note": "The claim is false of the code. C69_type_checks_exact_partial: rustc accepts the functions exactly when every definition is within the limits of RustSpec.v, which are stated on the schema. The _refuted theorems give accepted projects outside: options, non_zero numbers and numbers in nested tuples, keys that cannot be hashed, fields named w, r or id, tuple and non_zero arguments, box<bytes> and bytes arguments with BytesType::Bytes. Names that are Rust keywords or that hide Encode, Decode, Size, and lifetimes and borrows, are not part of the typing model."
  },
  {
   "property": "C70",
   "status": "proved",
   "theorems": [
    "C70_size",
    "C70_encode",
    "C70_decode"
   ],
   "note": "The wire format of Codec.v, defined from the schema, is compared with an evaluator for the generated expressions (RustEval.v), for all code that type checks (C69). What follows for round trips is C14_generated_partial."
  },
  {
   "property": "C71",
   "status": "partial",
   "theorems": [
    "C71_recursive_exact",
    "C71_ordered",
    "C71_recursive_never",
    "C71_vec_refuted",
    "C71_option_refuted"
   ],
   "note": "The claim is false of the code: C71_recursive_never, and C71_vec_refuted and C71_option_refuted for whole projects. C71_recursive_exact says when code can be generated, and C71_ordered gives a condition on the schema that suffices."
  },
  {
   "property": "C72",
   "status": "proved",
   "theorems": [
    "C72_decoded_valid"
   ],
   "note": "The only condition is that structs and variants without field list have no fields, which every schema meets. C14_forward_partial: such a value can be sent on."
  },
  {
   "property": "C73",
   "status": "proved",
   "theorems": [
    "C73_syntax_error",
    "C73_parsed",
    "C73_no_panic",
    "C73_session"
   ],
   "note": "Claimed for text documents shorter than 4 GiB (the line index refuses others). With overflow checks on, an id of 2^32-1 makes validation panic (C33_id_overflow): C73_no_panic says that is the only way. ErrConform.v: the model of the errors reproduces all fourteen error reports recorded in the test suite."
  },
  {
   "property": "C74",
   "status": "partial",
   "theorems": [
    "C74_recoverable",
    "C74_not_early",
    "C74_always_recoverable_refuted"
   ],
   "note": "Claimed of every text with one exception, which is shown to be real: after the six digits of a \\u{...} escape that names no character the error can be shown behind the digits (C74_always_recoverable_refuted). Hypothesis floats_total: the float parser (std) accepts every text with the shape of a float literal."
  },
  {
   "property": "C75",
   "status": "proved",
   "theorems": [
    "C75_file_parses",
    "C75_build",
    "C75_code_parses_partial",
    "C75_resolved_paths",
    "C75_build_partial",
    "C75_keyword_refuted"
   ],
   "note": "C75_build and C75_file_parses: the whole generated file, impl blocks included, for every project of differently named files and both bytes types; 'a keyword as a name' is spelled out (takes_keyword, starts_with_try, path_keyword: the last covers the paths in aliases and non_zero that the compiler does not check). The grammar is the part of syn's in which mabo-build writes files (RustTokens.v, RustRead.v, RustFileRead.v); it accepts less than syn outside of what is written. Assumed: finite floats are printed as digits with a point. C75_code_parses_partial and C75_build_partial are the older statements about the items alone. C75_keyword_refuted: a project that passes every check still ends with InvalidCode, after other files have been written."
  },
  {
   "property": "C76",
   "status": "partial",
   "theorems": [
    "C76_no_stray",
    "C76_exact",
    "C76_answered_partial",
    "C76_lost_refuted"
   ],
   "note": "C76_no_stray holds for every stream. C76_exact says which requests are answered: those the main loop gets (heard), which are all but the arrivals swallowed by send_request (two behind initialized, one behind each change of configuration). C76_answered_partial: an editor that sends nothing but responses while the server waits has all its requests answered. C76_lost_refuted: one that does not loses requests; an initialize with invalid parameters is never answered. lsp-server (a dependency) is modelled from its source as far as the connection goes."
  },
  {
   "property": "C77",
   "status": "partial",
   "theorems": [
    "C77_documents_partial",
    "C77_query_current",
    "C77_first_open_lost_refuted",
    "C77_project_files_refuted"
   ],
   "note": "C77_documents_partial and C77_query_current for editors that wait (as in C76). C77_first_open_lost_refuted: a didOpen directly behind initialized, which is what editors send, is swallowed, and the document stays unknown however it is edited. C77_project_files_refuted: project files are stored under their paths, not under file:// URIs. The handlers behind queries are a parameter here (they are modelled in LspVisit.v)."
  },
  {
   "property": "C78",
   "status": "partial",
   "theorems": [
    "C78_ids_distinct",
    "C78_settings_origin",
    "C78_timely_partial",
    "C78_late_refuted"
   ],
   "note": "C78_ids_distinct up to 2^32 requests; C78_settings_origin for every stream; C78_timely_partial for answers that are the next message and come within two seconds; C78_late_refuted: otherwise they are dropped."
  },
  {
   "property": "C79",
   "status": "partial",
   "theorems": [
    "C79_ending",
    "C79_no_crash",
    "C79_encoding_partial",
    "C79_encoding_refuted",
    "C79_protocol_refuted"
   ],
   "note": "C79_ending is exact for every conversation that opens properly; C79_no_crash reduces crashes to panics of handlers (C42-C45 say when notifications do not panic). C79_encoding_partial for utf-8, utf-16 and utf-32; C79_encoding_refuted for others. C79_protocol_refuted: exit without shutdown ends with status 0, and a request between shutdown and exit is not answered and ends the server with an error."
  },
  {
   "property": "C80",
   "status": "proved",
   "theorems": [
    "C80_factor",
    "C80_schema",
    "C80_elements",
    "C80_arrays"
   ],
   "note": "weight counts values, map entries and string/byte-array bytes of the returned value; temporary values that are dropped again (a field that occurs twice, equal map keys) and partial values of a failed decode are not counted.  With type arguments the constant is that of any set of types closed under parts (C80_factor); the generated Rust only compiles if that set is finite."
  },
  {
   "property": "C81",
   "status": "partial",
   "theorems": [
    "C81_size_exact_partial",
    "C81_enum_refuted",
    "C81_tuple_calls_exact",
    "C81_same_types"
   ],
   "note": "Proved for all values without enums inside (C81_size_exact_partial). Refuted for enums with fields, whose Encode returns nothing (C81_enum_refuted), and for tuples: the emitted Size calls a function literal without parameters with an argument, which Go rejects, exactly if a tuple occurs in the type (C81_tuple_calls_exact; the model of Size gives such code the intended meaning). Size and Encode make the generator panic for the same types (C81_same_types)."
  },
  {
   "property": "C82",
   "status": "partial",
   "theorems": [
    "C82_same_verdict",
    "C82_report",
    "C82_points_partial",
    "C82_import_kind_refuted"
   ],
   "note": "Proved: the error is that of a problem of the files, with the places of that problem as labels (C82_report; no validation is assumed), the marked words are the names in the shown sources (C82_points_partial), and without places the results are those of C35 (C82_same_verdict). Refuted for an import of an alias or constant, whose declaration label is a place of the other file shown in the importing one (C82_import_kind_refuted). A missing module of a reference's path is reported at the name behind the path."
  },
  {
   "property": "C83",
   "status": "partial",
   "theorems": [
    "C83_shown_is_definition_partial",
    "C83_every_item",
    "C83_shown_apart",
    "C83_unit_struct_refuted",
    "C83_float_refuted",
    "C83_nul_refuted",
    "C83_comment"
   ],
   "note": "Proved for every definition of every schema, with the final line break, for constants whose float prints with a fractional part and whose string has no NUL; these exclusions are real: 1.0 is shown as 1, a NUL is shown as an escape the parser rejects, and 'struct A' without line break is not accepted. HTML escaping and markdown rendering are not modelled."
  },
  {
   "property": "C84",
   "status": "partial",
   "theorems": [
    "C84_exact",
    "C84_exact_file",
    "C84_closed_partial",
    "C84_unused_import_refuted",
    "C84_no_struct_refuted",
    "C84_wide_integer_refuted",
    "C84_wide_const_refuted",
    "C84_path_refuted",
    "C84_reference_refuted",
    "C84_alias_refuted",
    "C84_generic_refuted",
    "C84_tuple_refuted"
   ],
   "note": "C84_exact gives, for every file of every schema, an exact condition on the schema; the full claim is false of the code: a module without non_zero or tuple leaves the import mabo unused, one without struct leaves buf unused, 128-bit integers need an import that is never written, references through a path or to an imported name, generic enums and aliases, the type parameters of generic structs and every tuple in a field leave names undeclared (each has a _refuted theorem and a witness). C84_closed_partial: a syntactic class that is closed. The model's text equals all 27 snapshots of mabo-go (GoConform.v). Not modelled: Go type checking (numbers of results and arguments, methods of aliases, enums and type parameters, comparable map keys), unused variables, what the runtime packages export."
  },
  {
   "property": "C85",
   "status": "partial",
   "theorems": [
    "C85_encode",
    "C85_size_partial",
    "C85_decode_partial",
    "C85_reads_rust_partial",
    "C85_absent_option_refuted",
    "C85_reads_everything",
    "C85_writes_partial",
    "C85_size_of_encode_partial",
    "C85_variant_encode_refuted",
    "C85_variant_decode_partial",
    "C85_nested_refuted",
    "C85_tuple_size_refuted",
    "C85_tuple_decode_refuted"
   ],
   "note": "Proved by executing the generated file's own syntax tree: Encode does, for every struct without type parameters, what the schema prescribes (full, C85_encode); Size and Decode for structs without tuples; Decode reads what Rust wrote for fields without options, references and tuples. The full claim is false of the code, with witnesses: an absent option is a missing field (C85_absent_option_refuted), Decode always takes its whole input (C85_reads_everything, C85_nested_refuted), Size of a tuple has no meaning in Go (C85_tuple_size_refuted), Decode of a tuple uses undeclared names (C85_tuple_decode_refuted), Encode of a variant returns nil (C85_variant_encode_refuted). Structs with type parameters and references to enums and aliases are not covered (the emitted file has no method for them to call: C84)."
  },
  {
   "property": "C86",
   "status": "proved",
   "theorems": [
    "C86_no_crash",
    "C86_symbols",
    "C86_tokens",
    "C86_hover",
    "C86_nothing",
    "C86_diagnostics"
   ],
   "note": "C76-C79's server with the real analysis and the real handlers in the place of the parameters (LspReal.v), so C45, C50, C63-C67, C73 and C77 hold together. Conditions in the statement: the editor waits for the server's requests and sends supported changes (without that C77 and C45 have refutations), files below 4 GiB, builds without overflow checks (a debug build panics on id 2^32-1, C73_no_panic). Project discovery and the reading of settings are parameters."
  },
  {
   "property": "C87",
   "status": "partial",
   "theorems": [
    "C87_postcard",
    "C87_postcard_signed",
    "C87_bincode",
    "C87_bincode_signed",
    "C87_vu128",
    "C87_vu128_signed",
    "C87_vu128_floats",
    "C87_u8_refuted",
    "C87_i8_refuted",
    "C87_short"
   ],
   "note": "Proved for all of them but the 8-bit numbers of vu128: decode_u8 compares with 0x0f instead of 0xf0, so 15 to 239 are decoded as whatever the next byte is (C87_u8_refuted, an exact condition; C87_i8_refuted)."
  },
  {
   "property": "C88",
   "status": "partial",
   "theorems": [
    "C88_files",
    "C88_loads_exact",
    "C88_errors",
    "C88_discover",
    "C88_directory_refuted",
    "C88_unrelated_refuted",
    "C88_broken_hides_refuted"
   ],
   "note": "Proved: the exact list of files, when loading succeeds, what each error means, what discovering finds. The full claim is false: a directory called x.mabo is taken for a file (C88_directory_refuted), an unlistable directory that no pattern selects from makes loading fail (C88_unrelated_refuted), and one bad project file hides all the others of a workspace (C88_broken_hides_refuted). The glob language, the TOML reader and the ignore rules are parameters; the error of building the set of globs is left out."
  },
  {
   "property": "C89",
   "status": "partial",
   "theorems": [
    "C89_equivalence",
    "C89_lengths",
    "C89_typed",
    "C89_relayed_partial",
    "C89_bytes_partial",
    "C89_bytes_refuted"
   ],
   "note": "Sizes, lengths and validity for all values; relaying for the values of C14 (whose announced lengths are right). Equal bytes only for types without hash maps and sets (C89_bytes_partial); refuted with them (C89_bytes_refuted)."
  },
  {
   "property": "C90",
   "status": "partial",
   "theorems": [
    "C90_build_partial",
    "C90_go_partial",
    "C90_check",
    "C90_format",
    "C90_doc",
    "C90_arguments",
    "C90_directory_refuted"
   ],
   "note": "Proved from the directory tree to the reports and writes, for projects whose files can be read (composition of C56-C58 with C88). C90_build_partial: the build script, for projects whose files have different names (see C55). C90_go_partial: the Go generator, for modules whose path is that of no module of another file (see C59). A directory called x.mabo stops check and format, so that files behind it are not looked at (C90_directory_refuted). Two names of one file through links count as two files."
  },
  {
   "property": "C91",
   "status": "proved",
   "theorems": [
    "C91_written",
    "C91_size",
    "C91_encode",
    "C91_decode"
   ],
   "note": "For definitions without Rust keywords as names (with keywords the build fails, C75). The grammar is the part of syn's that the emitted bodies use (RustRead.v); the relation between syntax trees and programs (RustMeans.v) leaves the receiver types of method calls, which rustc infers, open."
  },
  {
   "property": "C92",
   "status": "proved",
   "theorems": [
    "C92_constants",
    "C92_docs",
    "C92_members",
    "C92_unambiguous"
   ],
   "note": "What literals and doc attributes denote is specified in RustLit.v from the Rust reference, without the printers; C92_unambiguous shows that the specification gives a token at most one value. Assumed: `unprintable` only holds of Rust characters, finite floats are printed as decimals that read back (`prints`). proc_macro2's Literal::string and byte_string (a dependency, not in /repo) are modelled from their documented behaviour; prettyplease's re-printing of the tokens is not modelled. Whether item_in finds the item in the file as Rust parses it is C75/C91."
  },
  {
   "property": "C93",
   "status": "partial",
   "theorems": [
    "C93_constants_partial",
    "C93_unambiguous",
    "C93_nul_refuted",
    "C93_escape_refuted",
    "C93_negative_zero_refuted"
   ],
   "note": "C93_constants_partial: every constant is in its file, and its literal denotes the schema's value if and only if the value is a usual one (no NUL, byte order mark or character that Rust's Debug writes as \\u{..} in a string; no negative zero; no infinity). The claim is false of the others: C93_nul_refuted (NUL in front of two digits up to 7 silently becomes another character), C93_escape_refuted (\\u{..} is no Go escape: the file does not compile), C93_negative_zero_refuted (positive zero). GoLit.v specifies Go's literals from the language specification; whether the declared type has the value is left out (the compiler does not check it: C61), and constants of 128-bit types cannot compile at all (C84_wide_const_refuted). The Go compiler is not in /repo."
  },
  {
   "property": "C94",
   "status": "proved",
   "theorems": [
    "C94_files",
    "C94_links_lead",
    "C94_pages",
    "C94_read_back"
   ],
   "note": "C94_pages; C94_files: the files, titles, stylesheets and links are those of Tools.v, and C94_links_lead: every link found leads to a file of the same documentation, titled with the text of the link (for comments without links). C94_read_back: with C83, the definition shown in a page is accepted again and gives the page's definition. DocPage.v models the templates (after askama's whitespace control); DocPageEx.v compares whole pages with four of the snapshots of the tests, character by character. Html.v is the reader (tokens and nesting after the HTML Standard). The Markdown renderer (comrak) is a parameter, with the hypothesis that its output closes what it opens and has none of the elements looked for; DocPageEx.v shows one that meets it."
  },
  {
   "property": "C95",
   "status": "partial",
   "theorems": [
    "C95_ranges",
    "C95_parts",
    "C95_unambiguous",
    "C95_labels",
    "C95_box_refuted"
   ],
   "note": "C95_ranges, C95_parts (the ranges are those of Meta.wire_size, which C42 bounds), C95_unambiguous (an injectivity proof over the indented text). C95_labels: the label is the name of the type. Not as stated in the editor: C95_box_refuted, the label of box<string> and box<bytes> holds what Markdown reads as a tag (in the documentation the renderer escapes it). How Markdown renderers show nested lists is left out; usize additions are taken not to overflow, as in C42."
  }
 ]
}