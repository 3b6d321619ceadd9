{
 "claims": [
  {
   "property": "C01",
   "status": "proved",
   "theorems": [
    "C01_encoded_len_exact"
   ],
   "note": ""
  },
  {
   "property": "C02",
   "status": "proved",
   "theorems": [
    "C02_round_trip",
    "C02_decoded_message_not_decodable_refuted"
   ],
   "note": "The claim holds up to the nesting limit; a message decoded at the limit can re-encode to bytes that no longer decode (C02_decoded_message_not_decodable_refuted)."
  },
  {
   "property": "C03",
   "status": "proved",
   "theorems": [
    "C03_encode_total"
   ],
   "note": ""
  },
  {
   "property": "C04",
   "status": "proved",
   "theorems": [
    "C04_merge_total",
    "C04_decode_total"
   ],
   "note": ""
  },
  {
   "property": "C05",
   "status": "proved",
   "theorems": [
    "C05_stack_independent_of_input",
    "C05_deep_input_rejected",
    "C05_deep_unknown_groups_rejected",
    "C05_result_depth"
   ],
   "note": "Map entries do not count against the limit in the code; the bound is stated for the modelled descriptors."
  },
  {
   "property": "C06",
   "status": "proved",
   "theorems": [
    "C06_merge_is_records",
    "C06_unknown_fields_kept",
    "C06_only_unknown_numbers",
    "C06_listed_by_number",
    "C06_nested_unknown_fields_kept",
    "C06_re_encoded"
   ],
   "note": ""
  },
  {
   "property": "C07",
   "status": "proved",
   "theorems": [
    "C07_concatenation_is_merging",
    "C07_decode_concatenation"
   ],
   "note": ""
  },
  {
   "property": "C08",
   "status": "proved",
   "theorems": [
    "C08_scalar_replaced",
    "C08_scalar_value",
    "C08_list_appended",
    "C08_map_entry",
    "C08_message_merged",
    "C08_merge_at_top",
    "C08_group_merged",
    "C08_others_untouched"
   ],
   "note": ""
  },
  {
   "property": "C09",
   "status": "proved",
   "theorems": [
    "C09_packed_unpacked",
    "C09_same_list"
   ],
   "note": ""
  },
  {
   "property": "C10",
   "status": "proved",
   "theorems": [
    "C10_entry",
    "C10_entry_message",
    "C10_any_payload",
    "C10_last_wins"
   ],
   "note": ""
  },
  {
   "property": "C11",
   "status": "proved",
   "theorems": [
    "C11_oneof_exclusive",
    "C11_nested"
   ],
   "note": "Histories cover every call on DynamicMessage and merging of arbitrary bytes, including failed merges; C11_oneof_exclusive makes no assumption on the values passed in. Text and JSON parsing build messages with the same calls."
  },
  {
   "property": "C12",
   "status": "proved",
   "theorems": [
    "C12_has_field_iff_encoded",
    "C12_explicit_presence"
   ],
   "note": ""
  },
  {
   "property": "C13",
   "status": "proved",
   "theorems": [
    "C13_set",
    "C13_set_extension",
    "C13_clear_all",
    "C13_clear",
    "C13_take",
    "C13_get_mut"
   ],
   "note": ""
  },
  {
   "property": "C14",
   "status": "proved",
   "theorems": [
    "C14_fields",
    "C14_fields_order",
    "C14_extensions",
    "C14_extensions_order",
    "C14_take_fields",
    "C14_take_extensions",
    "C14_take_unknown",
    "C14_fields_mut",
    "C14_extensions_mut"
   ],
   "note": ""
  },
  {
   "property": "C15",
   "status": "proved",
   "theorems": [
    "C15_declared",
    "C15_unknown_number",
    "C15_unknown_name"
   ],
   "note": ""
  },
  {
   "property": "C16",
   "status": "proved",
   "theorems": [
    "C16_try_set",
    "C16_try_set_by_number",
    "C16_try_set_by_name",
    "C16_set_panics",
    "C16_reachable_fit",
    "C16_repeated_accepts_scalar_refuted",
    "C16_message_type_unchecked_refuted",
    "C16_get_mut_unchecked_refuted"
   ],
   "note": "The unrestricted claim is false of the code and refuted: the validity check ignores cardinality (a repeated field accepts a scalar) and message type, and get_field_mut allows any write (three _refuted theorems)."
  },
  {
   "property": "C17",
   "status": "proved",
   "theorems": [
    "C17_default"
   ],
   "note": ""
  },
  {
   "property": "C18",
   "status": "proved",
   "theorems": [
    "C18_floats_bit_exact",
    "C18_map_floats_bit_exact",
    "C18_negative_zero_refuted"
   ],
   "note": "The stronger claim without the implicit-presence exclusion is false: C18_negative_zero_refuted."
  },
  {
   "property": "C19",
   "status": "proved",
   "theorems": [
    "C19_wrong_wire_type_rejected",
    "C19_map_entry_wire_types",
    "C19_map_field_wire_type_refuted"
   ],
   "note": "The stronger claim that the wire type of a map field's own record is checked is false: C19_map_field_wire_type_refuted."
  },
  {
   "property": "C20",
   "status": "proved",
   "theorems": [
    "C20_decode_encode",
    "C20_encoded_len",
    "C20_encoded_len_set",
    "C20_decoded_is_well_formed"
   ],
   "note": ""
  },
  {
   "property": "C21",
   "status": "proved",
   "theorems": [
    "C21_full_names_unique",
    "C21_packages_apart",
    "C21_redefinition_rejected"
   ],
   "note": "Package names may coincide across files; a package never coincides with a definition (C21_packages_apart)."
  },
  {
   "property": "C22",
   "status": "partial",
   "theorems": [
    "C22_failed_add_partial",
    "C22_failed_add_unchanged",
    "C22_refuted_extension_lost",
    "C22_refuted_extension_left",
    "C22_extension_lists",
    "C22_kept_and_left",
    "C22_unchanged_iff"
   ],
   "note": "Proved: everything but extension lists is restored by any failed add, and the pool is restored altogether when listed extension indices are below the number of messages and the rejected files declare no extension. The full claim is false of the code: rollback compares extension indices with the message offset (two _refuted theorems). What happens to the lists is settled exactly (Prop_Rollback.v): C22_extension_lists gives the rule for what a message lists afterwards, C22_kept_and_left which of the pool's own extensions stay and what can be left of the rejected files, and C22_unchanged_iff that, for files without extensions or a pool with at least as many extensions as messages, nothing changes if and only if all listed indices are below the number of messages."
  },
  {
   "property": "C23",
   "status": "proved",
   "theorems": [
    "C23_known_files_skipped",
    "C23_file_lookup",
    "C23_adding_twice"
   ],
   "note": "The code compares file names only: a different file under a known name is skipped silently, so the theorem covers identical files as a special case."
  },
  {
   "property": "C24",
   "status": "proved",
   "theorems": [
    "C24_resolution",
    "C24_unambiguous",
    "C24_in_pools"
   ],
   "note": "Resolution is characterised for every name table, scope and reference against declarative rules (encloses/resolves), and connected to the kinds of the fields of every built pool. Names are those present when the field's file was added. Hypothesis: the scope is not empty. Scopes and names are arbitrary strings."
  },
  {
   "property": "C25",
   "status": "partial",
   "theorems": [
    "C25_visible_set_partial",
    "C25_only_visible",
    "C25_visible_found_partial",
    "C25_refuted_public_chain",
    "C25_extensions_only_visible",
    "C25_methods_only_visible"
   ],
   "note": "Soundness (only visible types) is proved in full, for the types of fields and extensions, extendees, and inputs and outputs of methods. Completeness is proved for the file itself, direct imports, and one level of public imports. The full claim is false of the code: C25_refuted_public_chain shows a chain of two public imports is not followed (inverted test in resolve_public_dependencies). C25_extensions_only_visible and C25_methods_only_visible are in Prop_Visible.v."
  },
  {
   "property": "C26",
   "status": "proved",
   "theorems": [
    "C26_fields_declared",
    "C26_field_lookups"
   ],
   "note": "Extension-range exclusion is proved for fields without an extendee: a field that (wrongly) sets extendee is checked as an extension by the code."
  },
  {
   "property": "C27",
   "status": "proved",
   "theorems": [
    "C27_values_declared",
    "C27_value_lookups"
   ],
   "note": "The result of binary search among equal numbers is left open (external contract search_ok), so with aliases get_value returns some value with that number."
  },
  {
   "property": "C28",
   "status": "proved",
   "theorems": [
    "C28_json_name_camel",
    "C28_every_name_is_words",
    "C28_upper",
    "C28_json_names_distinct",
    "C28_proto3_names_apart"
   ],
   "note": "The function is characterised on every string; uniqueness of JSON names in every message (proto2 and proto3), and the proto3 camel-case check."
  },
  {
   "property": "C29",
   "status": "proved",
   "theorems": [
    "C29_existing_unchanged",
    "C29_handles_are_private",
    "C29_other_handles_unaffected"
   ],
   "note": ""
  },
  {
   "property": "C30",
   "status": "proved",
   "theorems": [
    "C30_linearizable",
    "C30_program_order",
    "C30_snapshots_grow",
    "C30_no_deadlock",
    "C30_poisoned_forever"
   ],
   "note": ""
  },
  {
   "property": "C31",
   "status": "proved",
   "theorems": [
    "C31_records_kept",
    "C31_bytes_kept",
    "C31_embedded",
    "C31_encoder_output_kept",
    "C31_refuted_overlong_key",
    "C31_clear"
   ],
   "note": "The option type T is a parameter. Keys written with more bytes than needed are shortened on re-encoding, so byte identity without that condition is false: C31_refuted_overlong_key."
  },
  {
   "property": "C32",
   "status": "partial",
   "theorems": [
    "C32_inverse_of_protoc",
    "C32_accepts",
    "C32_only_escapes",
    "C32_malformed_is_error_partial",
    "C32_refuted_malformed",
    "C32_defaults_in_pools"
   ],
   "note": "Inverse of protoc escaping for every byte string; exactness of the accepted language with overflow checks; error (no panic) for ASCII strings without octal escapes above \\377. The claim for all strings is false of the code: C32_refuted_malformed (octal overflow, hex escape cut inside a character, plus sign as hex digit)."
  },
  {
   "property": "C33",
   "status": "proved",
   "theorems": [
    "C33_scalar_exact",
    "C33_scalar_total",
    "C33_default_exact",
    "C33_defaults_in_pools"
   ],
   "note": "Exact for all strings and all integer, bool, string and enum kinds; float parsing is a parameter and outside the claim."
  },
  {
   "property": "C34",
   "status": "partial",
   "theorems": [
    "C34_comes_back_partial",
    "C34_refuted_panic_and_overflow",
    "C34_with_options_partial"
   ],
   "note": "Positive half for every reachable pool and every list of files: Built or Rejected, never a panic or stack overflow, when every new file's syntax is known, no public import cycle exists, defaults of bytes fields are ASCII without octal escapes above \\377, and the options phase comes back. Each of the first three conditions is needed: C34_refuted_panic_and_overflow gives files on which the code panics (unknown syntax; octal default) or recurses without end (self public import), for every stack size. C34_with_options_partial (Prop_SafeOptions.v) replaces the assumption about the options phase by the model of it (C58): it comes back if the pool built so far is one of those C58 speaks about and the typed options of prost accept what the options mean."
  },
  {
   "property": "C35",
   "status": "proved",
   "theorems": [
    "C35_imports_exist",
    "C35_accepted_only_with_imports"
   ],
   "note": ""
  },
  {
   "property": "C36",
   "status": "proved",
   "theorems": [
    "C36_lookup_exact"
   ],
   "note": "A full name that itself starts with a dot (malformed input) is found only with the extra leading dot, hence the hypothesis in the second part."
  },
  {
   "property": "C37",
   "status": "proved",
   "theorems": [
    "C37_string_literal_round_trip",
    "C37_bytes_field_gets_the_bytes",
    "C37_literals_are_ascii"
   ],
   "note": "Whole claim: for every byte string and every following text, the printed literal lexes to one string token with the same bytes followed by the tokens of the following text; second theorem: a bytes field is given exactly these bytes through merge_text_format. fmt_string, the string lexer and all escapes are modelled; the logos-generated DFA is modelled by its token regexes with longest match. C37_literals_are_ascii: literals are printable ASCII for every byte string."
  },
  {
   "property": "C38",
   "status": "proved",
   "theorems": [
    "C38_any_round_trip",
    "C38_text_round_trip",
    "C38_float_rounded_twice_refuted",
    "C38_expanded_any_refuted",
    "C38_unknown_fields_refuted"
   ],
   "note": "For every layout option, any size and depth. Hypotheses: the schema's names are identifiers found again by the reader (text_okb, boolean), binary search finds (search_finds), the float texts in the message read back (floats_back, pointwise, boolean), negative zero in a presence-less field only when defaults are printed. C38_any_round_trip does the same with Any messages expanded, nested in each other to any depth, if Any is declared as in any.proto and every type URL is two dotted names around a slash (any_readable). Excluded by the amended statement and shown by _refuted theorems: floats rounded twice, unknown fields; C38_expanded_any_refuted shows that an Any may come back with other bytes for the same fields."
  },
  {
   "property": "C39",
   "status": "proved",
   "theorems": [
    "C39_integer_literals",
    "C39_integer_field",
    "C39_minus_zero_refuted"
   ],
   "note": "Whole claim, for every literal and every integer kind, at lexer+parser level and through merge_text_format. The first form of the property (accepted iff the value is in range) is refuted: -0 is rejected for unsigned kinds (C39_minus_zero_refuted); the statement was amended."
  },
  {
   "property": "C40",
   "status": "proved",
   "theorems": [
    "C40_text_parsing_comes_back",
    "C40_accepted_text_has_no_duplicates",
    "C40_nested_messages_have_no_duplicates",
    "C40_default_first_refuted",
    "C40_ill_typed_content_panics_refuted",
    "C40_shared_extension_number_panics_refuted",
    "C40_repeated_type_url_panics_refuted",
    "C40_any_given_twice_refuted"
   ],
   "note": "Statement narrowed; the refuted theorems show why: a default-valued field without presence can be given twice, an expanded Any can be given twice, and content that does not fit (try_set_field accepts a plain value for a repeated field), shared extension numbers or a repeated type_url make the reader panic. Stack depth is not modelled (the reader has no recursion limit)."
  },
  {
   "property": "C41",
   "status": "proved",
   "theorems": [
    "C41_any_layout",
    "C41_pretty_and_compact_agree"
   ],
   "note": "Both texts parse to the identical message. Same hypotheses as C38. C41_any_layout: also with Any messages expanded."
  },
  {
   "property": "C42",
   "status": "proved",
   "theorems": [
    "C42_json_round_trip",
    "C42_json_round_trip_no_any",
    "C42_refuted_double_value",
    "C42_refuted_null_value_number",
    "C42_refuted_empty_value",
    "C42_refuted_empty_any",
    "C42_refuted_negative_zero",
    "C42_refuted_swapped_names"
   ],
   "note": "Whole round trip through to_json and from_json for every schema and message, by induction on the message. What JSON cannot tell is excluded by `survives` and shown lost by six refuted theorems (infinite DoubleValue, NullValue number, Value without a kind, empty Any, -0 without presence, swapped field names with use_proto_field_name). The format library (serde_json) is `carried`: it keeps the document, except that numbers go through the decimal text of a float (parameters jx_carry32/64) and non-finite numbers become null; the text of times is a parameter."
  },
  {
   "property": "C43",
   "status": "proved",
   "theorems": [
    "C43_mask_string",
    "C43_mask_comes_back",
    "C43_other_paths_refuted"
   ],
   "note": "Exact: the written string gives the paths back iff every path is one a mask can hold (non-empty, no comma, no component ending in an underscore). The message-level theorem covers every pool whose FieldMask has the standard definition. C43_other_paths_refuted: the original claim without that restriction is false (\"foo_\" comes back as \"foo\", \"a,b\" as two paths, an empty path disappears); the statement was amended."
  },
  {
   "property": "C44",
   "status": "proved",
   "theorems": [
    "C44_number_accepted",
    "C44_limit_double_refuted"
   ],
   "note": "For integers given as JSON integers or doubles. C44_limit_double_refuted: the doubles 2^63 and 2^64 pass the comparison with i64::MAX/u64::MAX as f64 and are stored as the saturated maximum; the statement was amended to say so."
  },
  {
   "property": "C45",
   "status": "proved",
   "theorems": [
    "C45_bytes_written",
    "C45_bytes_read"
   ],
   "note": "All byte strings, with and without padding, both alphabets; the standard padded form is what is written."
  },
  {
   "property": "C46",
   "status": "proved",
   "theorems": [
    "C46_rfc3339_exact",
    "C46_timestamp_strict"
   ],
   "note": "Acceptance characterised exactly by an independent grammar; and a Timestamp is only read from such text."
  },
  {
   "property": "C47",
   "status": "proved",
   "theorems": [
    "C47_timestamp_written",
    "C47_duration_written",
    "C47_timestamp_read",
    "C47_timestamp_refused",
    "C47_duration_read",
    "C47_duration_refused"
   ],
   "note": "Serialized iff within the limits; only accepted within the limits, and stored as read. prost_types parsing/printing is a parameter. Pools whose Timestamp/Duration have the standard definition. Nanos of a timestamp and agreement of the signs of a duration are not checked by the code and not claimed."
  },
  {
   "property": "C48",
   "status": "proved",
   "theorems": [
    "C48_object",
    "C48_nested",
    "C48_unknown_denied",
    "C48_unknown_ignored",
    "C48_null_unset",
    "C48_null_value",
    "C48_null_enum",
    "C48_oneof_once",
    "C48_two_names",
    "C48_null_repeated_refuted"
   ],
   "note": "C48_object characterises exactly when an object is read as a message of an ordinary type and what it gives, against a spec written with the schema's field lists; the other theorems spell out the single rules. C48_null_repeated_refuted: null given to a repeated Value or NullValue field stores a single value. Documents: valid strings, and no null for such repeated fields."
  },
  {
   "property": "C49",
   "status": "proved",
   "theorems": [
    "C49_name_after_last_slash",
    "C49_no_slash_no_name",
    "C49_expanded_as_named",
    "C49_printed_name_reads_back",
    "C49_unusual_url_refuted"
   ],
   "note": "Name after the last slash for all strings; printed URL made of dotted identifiers reads back as the same domain and name. C49_unusual_url_refuted: other URLs are printed but not readable."
  },
  {
   "property": "C50",
   "status": "proved",
   "theorems": [
    "C50_transcode_preserves",
    "C50_transcode_from_merges",
    "C50_transcode_from_empty",
    "C50_transcode_same_schema"
   ],
   "note": "Compatible = same fields up to renaming message types (CompatSpec.v). The typed side of transcode is a dynamic message of its own tables."
  },
  {
   "property": "C51",
   "status": "proved",
   "theorems": [
    "C51_full_names",
    "C51_walk_exact",
    "C51_walk_once"
   ],
   "note": "C51_walk_once: no step of the walk has the file and path of another."
  },
  {
   "property": "C52",
   "status": "proved",
   "theorems": [
    "C52_sint32_bijection",
    "C52_sint64_bijection",
    "C52_packed_agrees",
    "C52_varint_round_trip"
   ],
   "note": ""
  },
  {
   "property": "C53",
   "status": "proved",
   "theorems": [
    "C53_json_reading_comes_back",
    "C53_null_list_refuted"
   ],
   "note": "from_json on every document: error or a message that fits its type, no panic, for every well-formed pool without duplicate extension numbers. C53_null_list_refuted: null for a repeated google.protobuf.Value or NullValue field stores a single value in a list field (de/mod.rs visit_none ignores cardinality), hence the proviso in the statement."
  },
  {
   "property": "C54",
   "status": "proved",
   "theorems": [
    "C54_merge_reads",
    "C54_decode_reads",
    "C54_reads_merge",
    "C54_reads_decode",
    "C54_reading_unique",
    "C54_map_wire_type_refuted",
    "C54_utf8",
    "C54_encode_writes",
    "C54_encoding_means"
   ],
   "note": "Against the independent grammar of WireSpec.v: decoding is sound (records of a map field may have any wire type, C54_map_wire_type_refuted) and complete (100 levels on both sides), the reading is unique, the encoder writes the canonical form, and the bytes written denote the message. UTF-8 validation equals the definition by code points."
  },
  {
   "property": "C55",
   "status": "proved",
   "theorems": [
    "C55_fields",
    "C55_oneofs",
    "C55_extensions",
    "C55_extension_lists",
    "C55_methods",
    "C55_packed_default_refuted",
    "C55_extension_number_refuted"
   ],
   "note": "Against a declarative reading of the file descriptor (declared_syntax, kind_shown, packed_shown, presence_shown, oneof_shown, default_shown). C55_extension_lists is for pools grown by successful adds (a failed add corrupts extension lists, see C22). C55_packed_default_refuted: any options message without packed makes a proto3 list unpacked. C55_extension_number_refuted: duplicate extension numbers are accepted, only the first is found."
  },
  {
   "property": "C56",
   "status": "proved",
   "theorems": [
    "C56_failed_merge",
    "C56_prefix_kept",
    "C56_not_atomic_refuted"
   ],
   "note": "Exact description of the message left by any failed merge (FailSpec.v is the specification); C56_prefix_kept says it in terms of calls; C56_not_atomic_refuted shows that merging is not all-or-nothing."
  },
  {
   "property": "C57",
   "status": "proved",
   "theorems": [
    "C57_tables_consistent",
    "C57_pools_are_wf",
    "C57_decode",
    "C57_round_trip",
    "C57_map_entry_unchecked_refuted"
   ],
   "note": "Every hypothesis of the theorems about dynamic messages (wf, DescrOk.v) is proved of pools built by the builder model, so that the theorems hold from files to bytes. typed_file is what Rust's types say; protoc_file (SaneSpec.v) is what protoc guarantees and the crate does not check; C57_map_entry_unchecked_refuted shows a panic without it."
  },
  {
   "property": "C58",
   "status": "proved",
   "theorems": [
    "C58_pools_ready",
    "C58_interpreted",
    "C58_one_meaning",
    "C58_read_back",
    "C58_nothing_to_interpret",
    "C58_locations",
    "C58_build",
    "C58_deep_option_refuted",
    "C58_deep_groups_refuted",
    "C58_lost_refuted",
    "C58_set_twice_refuted",
    "C58_packed_refuted"
   ],
   "note": "options.rs over the models of dynamic messages, text format and name resolution. OptSpec.v says what an option means (means, sets, interprets) and where options stand (file_options). C58_interpreted: the pass over the files does just that or rejects; C58_read_back: options() shows it; C58_locations: source locations; C58_pools_ready: pools built from files meet the hypotheses; C58_build: inside build_files. Parameter: whether prost's typed options message accepts the bytes. Five _refuted theorems: nesting over 100, lost options, setting twice, packed."
  },
  {
   "property": "C59",
   "status": "proved",
   "theorems": [
    "C59_tokens",
    "C59_tokens_unique",
    "C59_text_means",
    "C59_one_meaning",
    "C59_parse_text_means",
    "C59_rejected",
    "C59_rejected_keeps_the_fields_before"
   ],
   "note": "Two separate specifications: TextRegex.v (token patterns as regular expressions with longest match, escapes of literals) and TextMeaning.v (grammar of texts as relations on tokens; meaning of values, names, fields for a message). C59_tokens, C59_tokens_unique: the lexer against the patterns, for every text. C59_text_means: accepted exactly if the text has a meaning, which the message then holds; C59_one_meaning: meanings are unique; C59_rejected: otherwise an error; C59_rejected_keeps_the_fields_before: what is left. Decimal to double conversion is f64_parse of the float model, encoding of Any bodies is the encoder of C01/C56."
  },
  {
   "property": "C60",
   "status": "proved",
   "theorems": [
    "C60_reads",
    "C60_one_meaning",
    "C60_rejected",
    "C60_carried",
    "C60_sorted_members",
    "C60_kept_members"
   ],
   "note": "JsonMeaning.v is the specification, as relations between documents and values, with no reference to the reader. C60_reads: a message is read exactly if it is the document's meaning; C60_one_meaning: uniqueness; C60_rejected: every other document is an error. C60_carried: for pools with the standard well-known types the message carried over holds what the typed one does. C60_sorted_members, C60_kept_members: what the two helper maps of the specification hold (sorted map of a Struct, hash map of the members of an Any before its type). Decimal to double conversion is f64_parse of the float model; Duration and Timestamp text parsing are parameters (prost-types)."
  },
  {
   "property": "C61",
   "status": "proved",
   "theorems": [
    "C61_writes",
    "C61_depth",
    "C61_one_document",
    "C61_fails",
    "C61_enum_names"
   ],
   "note": "JsonWritten.v is the specification, as relations between messages and documents, without reference to the writer. C61_writes: a document is written exactly if it shows the message (for some bound on the nesting of Any, which is the fuel of the model); C61_depth: the bound changes nothing but whether writing ends; C61_one_document: uniqueness; C61_fails: no panic, and an error only if nothing shows the message; C61_enum_names: the name shown is that of a value with the number. C60_sorted_members says what sort_members in the form of Struct is, C49_name_after_last_slash what type_url_name is. That nesting of Any ends is C67. Text of Timestamp and Duration is a parameter (prost-types)."
  },
  {
   "property": "C62",
   "status": "proved",
   "theorems": [
    "C62_accepted_is_valid",
    "C62_valid_not_rejected",
    "C62_accepts_exactly_valid",
    "C62_accepts_as_collected",
    "C62_same_extension_number_accepted"
   ],
   "note": "ValidSpec.v is the specification: rules about declarations (DeclSpec.v), names (ResolveSpec.v, C24) and defaults (DefaultSpec.v, C32), without reference to the builder; the table of names is any function that gives each declared name and package a declaration of that name. C62_accepted_is_valid and C62_valid_not_rejected are the two directions for files without chains of public imports; C62_accepts_exactly_valid joins them where the call comes back (the conditions of C34) and the options are accepted; C62_accepts_as_collected is the general version, for whatever the resolver collects as visible. C62_same_extension_number_accepted: nothing compares the numbers of extensions, so two extensions of a message with one number are accepted. Float texts and byte escapes are those of the parsers (C32)."
  },
  {
   "property": "C63",
   "status": "proved",
   "theorems": [
    "C63_given_back",
    "C63_same_pool"
   ],
   "note": "Raw.v models the writes into the copies of the new files along the resolve phase; RawSpec.v says what is to come back (file_given: the rest of the file is untouched, and each field, extension and method says what the pool shows) and when pools differ in the files as given only (pool_alike). C63_given_back holds for every accepted call; C63_same_pool for files whose extensions name their extendees and whose options are accepted: the same pool, and the same descriptors again. C63_unnamed_extendee shows the excepted case: such a file can be accepted and its descriptor rejected."
  },
  {
   "property": "C64",
   "status": "proved",
   "theorems": [
    "C64_one_call",
    "C64_any_calls",
    "C64_refuted_dots"
   ],
   "note": "C64_one_call compares the pools themselves, so also indices and order; C64_any_calls follows for any number of accepted calls. JoinSpec.v says which references are settled (absolute, or without a dot), for every declaration of a file (DeclSpec). Options are compared through x_options: both calls judge them alike. C64_refuted_dots is the case outside the hypotheses: a relative reference with dots, accepted in two calls, rejected in one because the package of an unrelated file shadows it."
  },
  {
   "property": "C65",
   "status": "proved",
   "theorems": [
    "C65_made_again"
   ],
   "note": "kept pairs a pool made by accepted calls with what given_back (C63) returned for each; C65_made_again: all of it in one call on the empty pool is accepted, gives a pool equal but for the copies of the files (pool_alike of RawSpec.v), with the same tables, and the same descriptors again. Hypotheses: extensions name their extendees (C63_unnamed_extendee), options are accepted."
  },
  {
   "property": "C66",
   "status": "proved",
   "theorems": [
    "C66_writes",
    "C66_never_fails",
    "C66_depth",
    "C66_one_text",
    "C66_enum_names"
   ],
   "note": "text_of (TextWritten.v) says what documents show a message and how they are laid out, without the writer's functions: words, rows to show in order, unknown fields, Any. C66_writes: the bytes written are exactly those; C66_never_fails; C66_depth: the bound on nested Any changes nothing but whether writing ends (for its end see C67); C66_one_text; C66_enum_names. The text of floats and the binary search of std are parameters."
  },
  {
   "property": "C67",
   "status": "proved",
   "theorems": [
    "C67_text_ends",
    "C67_json_ends",
    "C67_no_depth_enough"
   ],
   "note": "C67_text_ends: every message has exactly one text, written at any depth over the length of the longest string or bytes in it; C67_json_ends: every message is written as its one document or refused, at such a depth, and refused only if no document shows it; C67_no_depth_enough: bytes of length at most 64(n+1) are read as a message that needs more than n levels, so no fixed depth is enough and the recursion limit of the decoder does not bound the writer. Assumed: a type named google.protobuf.Any has only the fields string 1 and bytes 2 (C67_plain shows it for prost-types and the example schemas), and no string has 2^64 bytes. The measure is the longest string, not the size: what is packed was read from a string of the packing message, and everything in it is shorter."
  },
  {
   "property": "C68",
   "status": "partial",
   "theorems": [
    "C68_errors_point_at_faults_partial",
    "C68_errors_point_at_faults",
    "C68_errors_point_as_collected_partial",
    "C68_refuted_reserved_value"
   ],
   "note": "C68_errors_point_at_faults_partial: every rejected call has an error, and every error is justified by the rules of FaultSpec.v at the file and path it carries, except that the path of an enum value with a reserved number ends with 3 (the number of a field) where 2 (the number of a value) is meant; C68_errors_point_at_faults: without that kind of error the full claim holds. C68_refuted_reserved_value: the full claim is false of the code. Both assume that public imports are not chained (C25); C68_errors_point_as_collected_partial does not, and judges references by the files the code collects as visible. Missing: the second label of errors that have one (where the first of two clashing elements is). Line and column are C71."
  },
  {
   "property": "C69",
   "status": "partial",
   "theorems": [
    "C69_one_implementation_partial",
    "C69_configured",
    "C69_only_messages",
    "C69_adds",
    "C69_told",
    "C69_macro",
    "C69_descriptor",
    "C69_global_partial",
    "C69_refuted_suffix",
    "C69_refuted_known_file"
   ],
   "note": "C69_one_implementation_partial: a generated message type has exactly one implementation, with its own name and the chosen source, if and only if its full name does not end in (a dot and) the full name of another message of the set; otherwise it has two or more, which does not compile. C69_refuted_suffix is a set where that happens: type_attribute is given the name without a leading dot, which prost-build matches with the end of names. C69_configured: when configure succeeds. C69_only_messages: no code for enums and oneofs. C69_macro: exactly which attributes make the macro give an implementation, and which. C69_descriptor: the lookup finds the message in every pool with its file. C69_global_partial: so does every copy of the global pool taken after the set was added, in every interleaving, if nothing else was ever added under the names of its files; C69_refuted_known_file shows that without this descriptor() panics although adding succeeded. How prost-build matches paths is external and modelled from its documentation; literals stand for their content (no escapes). C69_adds: configure keeps earlier attributes, adds only under message names, and panics exactly when the set cannot be read. C69_told: the last setter called decides."
  },
  {
   "property": "C70",
   "status": "proved",
   "theorems": [
    "C70_text_round_trip",
    "C70_layout",
    "C70_text_reading",
    "C70_json_round_trip",
    "C70_json_reading",
    "C70_text_any"
   ],
   "note": "Carries C38, C41, C40, C42 and C53 from tables that satisfy a check to all pools built from files: NamedSpec.v says what protoc guarantees of names, groups, defaults, map entries and JSON names, and pool_text_ok and pool_json_ok prove from the builder's invariant that the checks hold. What is still asked is of the message (its floats are read as themselves; no negative zero without presence; what JSON cannot carry), of google.protobuf types (their standard declarations), and, with proto field names, names_apart, which protoc does not guarantee (C42_refuted_* shows it is needed). Examples: a pool with a map, a oneof, defaults, a group, an enum and extensions. C70_text_any: the text round trip with Any messages expanded."
  },
  {
   "property": "C71",
   "status": "proved",
   "theorems": [
    "C71_located",
    "C71_located_as_collected",
    "C71_without_place",
    "C71_debug",
    "C71_unprintable",
    "C71_refuted_negative_column",
    "C71_option_errors",
    "C71_rejected_options"
   ],
   "note": "Label.v models Label::new, the getters and the Debug prefix over any source info; starts and located (Prop_Labels.v) say what they should return. C71_located: for every rejected call the first error is justified where C68 says and the getters say where that is in the text; C71_located_as_collected: for all public imports; C71_without_place: which errors have no place; C71_debug: the Debug prefix. C71_option_errors and C71_rejected_options: errors of options point at the first option with no meaning after those before it (misfit, OptSpec.v). The path of an enum value with a reserved number is wrong as in C68. C71_refuted_negative_column: spans are not checked; a column of -1 is reported as 2^64-1, and printing the error overflows, which panics in builds with overflow checks."
  },
  {
   "property": "C72",
   "status": "proved",
   "theorems": [
    "C72_imports",
    "C72_descriptor_protos",
    "C72_children",
    "C72_file_children",
    "C72_listed",
    "C72_refuted_dotted_name"
   ],
   "note": "Nav.v models the functions of api.rs over the pool and the prost copies of its files; shows (Prop_Tree.v) pairs a pool with the files it gives back after any calls. C72_descriptor_protos: every descriptor leads to what is declared at its place; C72_children and C72_file_children: the lists are exact (lists_all); C72_listed: every definition is in the list of its parent. C72_refuted_dotted_name: a message named .M in a file without package is accepted, and then messages() panics. C72_imports (Prop_Ranges.v): dependencies and public_dependencies."
  },
  {
   "property": "C73",
   "status": "proved",
   "theorems": [
    "C73_enum_ranges",
    "C73_ranges",
    "C73_members",
    "C73_refuted_negative_bound"
   ],
   "note": "C73_ranges: the ranges shown hold the declared numbers; C73_members: where the numbers of fields and extensions lie, using C26 and C55. C73_refuted_negative_bound: with a range from -5 to 100 an extension with number 50 is accepted, but the range shown is 4294967291 to 100 and holds nothing. C73_enum_ranges: the same for enums, whose bounds are shown unchanged."
  },
  {
   "property": "C74",
   "status": "proved",
   "theorems": [
    "C74_oneofs",
    "C74_containing"
   ],
   "note": "C74_oneofs compares the stored members, containing_oneof and is_synthetic (Nav.v) with the descriptor proto the pool gives back; C74_containing: every containing_oneof exists and lists the field."
  },
  {
   "property": "C75",
   "status": "proved",
   "theorems": [
    "C75_packages",
    "C75_prefix"
   ],
   "note": "C75_packages: package_name, and the full name as package, enclosing messages and name; C75_prefix: the full name starts with the package and a dot."
  }
 ]
}