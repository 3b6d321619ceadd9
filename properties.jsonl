{"id": "C01", "title": "encoded_len is exact", "statement": "For every DynamicMessage whose stored values are valid for their fields, encoded_len() returns exactly the number of bytes encode() writes, including nested messages, groups, packed and unpacked lists, maps, extensions and unknown fields. (Length prefixes of nested messages are computed from it, so an error here corrupts the stream.)", "quantifier": "all descriptor pools, all message values, all nesting depths and map iteration orders", "why_tests_cant": "length and content are computed by two separate recursions over an unbounded value type; a test samples a few values per type", "anchors": ["prost-reflect/src/dynamic/message.rs: DynamicMessage::encode_raw, encoded_len, Value::encode_field, Value::encoded_len, MapKey::encoded_len, encode_packed_list, packed_list_encoded_len", "prost-reflect/src/dynamic/unknown.rs: UnknownField::encoded_len"]}
{"id": "C02", "title": "Binary round trip", "statement": "Encoding a message and decoding the bytes with the same descriptor succeeds and gives back a message that agrees with the original on every field, extension and unknown field (has_* and get_*), provided values are in range, strings are UTF-8, implicit-presence floats are not -0.0 and nesting does not exceed the decoder's recursion limit.", "quantifier": "all pools, all valid messages, any nesting up to the recursion limit, any map order", "why_tests_cant": "unbounded recursive values; interactions of presence, packing, oneofs and maps are combinatorial", "anchors": ["prost-reflect/src/dynamic/message.rs: encode_raw, merge_field, Value::encode_field, Value::merge_field", "prost-reflect/src/dynamic/fields.rs: iter, get_mut"]}
{"id": "C03", "title": "Encoding a validated message never panics", "statement": "If every stored value is valid for its field (what try_set_field enforces and decoding produces), encode and encoded_len never hit the 'mismatch between DynamicMessage value and type' panic or an unwrap on a missing value.", "quantifier": "all pools accepted by the builder whose map-entry messages are well formed, all reachable messages", "why_tests_cant": "the panic branches are guarded only by a global invariant over all mutation histories", "anchors": ["prost-reflect/src/dynamic/message.rs: Value::encode_field, Value::encoded_len", "prost-reflect/src/dynamic/mod.rs: Value::is_valid_for_field"]}
{"id": "C04", "title": "Decoding arbitrary bytes is total", "statement": "For every byte string and every message type of a well-formed pool, DynamicMessage::decode terminates with Ok or a DecodeError: no panic, no endless loop.", "quantifier": "all byte strings, all message types, all prior contents of the message being merged into", "why_tests_cant": "the input space is all byte strings; adversarial inputs are exactly what tests miss", "anchors": ["prost-reflect/src/dynamic/message.rs: merge_field", "prost-reflect/src/dynamic/unknown.rs: decode_value", "prost-reflect/src/dynamic/fields.rs: add_unknown"]}
{"id": "C05", "title": "Nesting depth is bounded while decoding", "statement": "Decoding rejects input that nests messages or groups (known or unknown) deeper than the recursion limit (100), so stack use does not grow with the input.", "quantifier": "all byte strings, all message types", "why_tests_cant": "adversarial depth; also depends on which constructs count against the limit", "anchors": ["prost-reflect/src/dynamic/message.rs: Value::merge_field (message, group, map arms)", "prost-reflect/src/dynamic/unknown.rs: decode_value (group arm)"]}
{"id": "C06", "title": "Unknown fields survive decode and re-encode", "statement": "Every record in the input whose number is neither a field nor an extension of the message is kept: unknown_fields() lists exactly those records (per number, in input order), and re-encoding writes them back so that a second decode sees the same records. Nested messages behave the same.", "quantifier": "all byte strings that decode, all message types", "why_tests_cant": "forward compatibility must hold for bytes produced by schemas that do not exist yet", "anchors": ["prost-reflect/src/dynamic/message.rs: merge_field, encode_raw", "prost-reflect/src/dynamic/fields.rs: add_unknown, iter_unknown", "prost-reflect/src/dynamic/unknown.rs: UnknownFieldSet"]}
{"id": "C07", "title": "Decoding a concatenation is merging", "statement": "If a decodes into a message, merging b into it gives the same result (message or error) as decoding a followed by b in one buffer.", "quantifier": "all byte strings a and b, all message types, any starting message", "why_tests_cant": "protobuf streams are concatenated by users; the law ranges over all splits", "anchors": ["prost-reflect/src/dynamic/message.rs: merge_field", "prost-reflect/src/dynamic/mod.rs: DynamicMessage::decode"]}
{"id": "C08", "title": "Merge rules per field shape", "statement": "Decoding a further occurrence of a field replaces a scalar (last one wins), appends to a list, adds or replaces one map entry, merges recursively into a singular message, and leaves every other non-oneof field unchanged.", "quantifier": "all messages, fields, occurrences and payloads", "why_tests_cant": "holds per history of occurrences, interleaved arbitrarily with other fields", "anchors": ["prost-reflect/src/dynamic/message.rs: Value::merge_field", "prost-reflect/src/dynamic/fields.rs: get_mut"]}
{"id": "C09", "title": "Packed and unpacked encodings are interchangeable", "statement": "For a repeated field of packable type the decoder yields the same list whether elements arrive packed, unpacked, or in any mixture of chunks, regardless of the descriptor's packed flag.", "quantifier": "all element lists, all partitions into packed/unpacked chunks, all packable kinds", "why_tests_cant": "the number of chunkings is unbounded", "anchors": ["prost-reflect/src/dynamic/message.rs: Value::merge_field list arm, encode_packed_list", "prost-reflect/src/descriptor/mod.rs: KindIndex::is_packable"]}
{"id": "C10", "title": "Map entries decode by key with defaults and last-wins", "statement": "A map field decodes each entry independently of key/value order inside the entry, uses the type's default for a missing key or value, ignores other fields in the entry, and keeps the last value for a repeated key; keys stay unique.", "quantifier": "all entry payloads, all sequences of entries", "why_tests_cant": "entry payloads and repetition patterns are unbounded", "anchors": ["prost-reflect/src/dynamic/message.rs: Value::merge_field map arm"]}
{"id": "C11", "title": "At most one member of a oneof is set", "statement": "After any sequence of API calls (set, try_set, get_mut, clear, take, decode/merge, by name or number, text and JSON parsing) a message never has two members of the same oneof set.", "quantifier": "all messages types, all operation histories", "why_tests_cant": "an invariant over all histories, including failed merges", "anchors": ["prost-reflect/src/dynamic/fields.rs: clear_oneof_fields, set, get_mut", "prost-reflect/src/dynamic/message.rs: merge_field"]}
{"id": "C12", "title": "has_field decides presence on the wire", "statement": "has_field(f) is false exactly when the encoded bytes contain no record with f's number; in particular a field for which it is false is not encoded, and setting an explicit-presence field to its default still encodes it.", "quantifier": "all messages and fields", "why_tests_cant": "documented contract of has_field, quantified over all values", "anchors": ["prost-reflect/src/dynamic/mod.rs: DynamicMessage::has_field", "prost-reflect/src/dynamic/fields.rs: has, iter", "prost-reflect/src/dynamic/message.rs: encode_raw, Value::encode_field"]}
{"id": "C13", "title": "Field access behaves like a map", "statement": "get after set returns the value set; clear makes the field unset and get then returns the default; take returns the value iff has was true and leaves the field unset; get_mut inserts the default; none of these changes any field other than the one named and its oneof siblings.", "quantifier": "all messages, fields, values and operation sequences", "why_tests_cant": "frame conditions quantify over every other field", "anchors": ["prost-reflect/src/dynamic/fields.rs: has, get, get_mut, set, clear, take", "prost-reflect/src/dynamic/mod.rs: has_field, get_field, set_field, clear_field, take_field"]}
{"id": "C14", "title": "Field iterators are exact", "statement": "fields()/extensions()/unknown_fields() yield each item for which has_* is true exactly once, in number order; draining take_fields()/take_extensions()/take_unknown_fields() yields the same items and afterwards no such item is set while all other kinds of content are untouched.", "quantifier": "all messages", "why_tests_cant": "exactness for every content, including leftovers of earlier draining", "anchors": ["prost-reflect/src/dynamic/fields.rs: iter_fields, iter_extensions, iter_unknown, take_fields, take_extensions, take_unknown"]}
{"id": "C15", "title": "Access by name and by number agrees with access by descriptor", "statement": "The *_by_name and *_by_number variants act exactly as the descriptor variant on the field with that name or number, and on an unknown name or number they return None/false/NotFound and change nothing.", "quantifier": "all messages, names and numbers", "why_tests_cant": "must hold for every descriptor and every name", "anchors": ["prost-reflect/src/dynamic/mod.rs: *_by_name, *_by_number", "prost-reflect/src/descriptor/api.rs: MessageDescriptor::get_field, get_field_by_name"]}
{"id": "C16", "title": "try_set_field is atomic and keeps messages valid", "statement": "try_set_field (by descriptor, number or name) fails exactly when the value's type does not fit the field, and then leaves the message unchanged; set_field panics exactly in the same cases. As long as the caller passes in and writes through mutable references only values of the field's own type and cardinality, every message reachable through the API, including after failed merges of arbitrary bytes, stores only values that fit their fields, to any depth.", "quantifier": "all values, fields, histories", "why_tests_cant": "an invariant over all histories", "anchors": ["prost-reflect/src/dynamic/mod.rs: try_set_field, Value::is_valid_for_field, Value::is_valid"]}
{"id": "C17", "title": "Default values", "statement": "Reading an unset field gives the declared default if there is one, an empty list/map for repeated/map fields, the first declared value for enums, an empty message for messages, and zero/empty otherwise; such a value is always valid for the field.", "quantifier": "all pools, all fields", "why_tests_cant": "ranges over every schema", "anchors": ["prost-reflect/src/descriptor/api.rs: Kind::default_value, FieldDescriptor::default_value", "prost-reflect/src/descriptor/build/resolve.rs: visit_field"]}
{"id": "C18", "title": "Floats are transported bit-exactly", "statement": "Encoding then decoding returns every set float and double field (singular, list or extension) with the same bit pattern, including NaN payloads and signed zeros, and every map float value unless it equals an implicit-presence default. (A negative zero in an implicit-presence field counts as unset: that loss is shown separately.)", "quantifier": "all 2^32 / 2^64 bit patterns, in singular, list and map positions", "why_tests_cant": "corner bit patterns; equality-based tests cannot even observe them", "anchors": ["prost-reflect/src/dynamic/message.rs: Value::encode_field", "prost-reflect/src/dynamic/mod.rs: Value::is_default_for_field"]}
{"id": "C19", "title": "A record with the wrong wire type is rejected", "statement": "Decoding a known non-map field from a record whose wire type does not match its type (nor, for packable lists, the packed form) is an error whatever bytes follow, and so is a map entry whose key or value record has the wrong wire type. (The wire type of a map field's own record is not checked by the code; that is shown separately.)", "quantifier": "all fields, all wire types, all payloads", "why_tests_cant": "cross product of kinds, wire types and following bytes", "anchors": ["prost-reflect/src/dynamic/message.rs: Value::merge_field"]}
{"id": "C20", "title": "Unknown field values round trip", "statement": "UnknownField::decode inverts UnknownField::encode for every unknown field (nested groups included, within the recursion limit), leaves the rest of the buffer untouched, and encoded_len is exact.", "quantifier": "all unknown field trees, all trailing bytes", "why_tests_cant": "recursive groups of unbounded size", "anchors": ["prost-reflect/src/dynamic/unknown.rs: UnknownField::encode, decode, decode_value, encoded_len"]}
{"id": "C21", "title": "Full names are unique in a pool", "statement": "In every pool obtained by adding files, each full name denotes at most one definition (packages aside); a file that would redefine a name is rejected.", "quantifier": "all sequences of add calls over arbitrary file descriptors", "why_tests_cant": "invariant over all histories of a registry", "anchors": ["prost-reflect/src/descriptor/build/names.rs: NameVisitor::add_name", "prost-reflect/src/descriptor/mod.rs: DescriptorPoolInner"]}
{"id": "C22", "title": "A failed add leaves the pool unchanged", "statement": "When adding a file (or set) fails, every lookup and enumeration on the pool gives the same results as before the call.", "quantifier": "all pools, all rejected file descriptor sets", "why_tests_cant": "atomicity must hold at every failure point of a multi-pass build", "anchors": ["prost-reflect/src/descriptor/build/mod.rs: build_files, DescriptorPoolOffsets::rollback"]}
{"id": "C23", "title": "Re-adding a known file is a no-op", "statement": "Adding a file whose name is already in the pool succeeds (when it is identical) and changes nothing, so adding a set twice equals adding it once.", "quantifier": "all pools, all file sets", "why_tests_cant": "idempotence over all histories", "anchors": ["prost-reflect/src/descriptor/build/mod.rs: build_files", "prost-reflect/src/descriptor/api.rs: add_file_descriptor_set"]}
{"id": "C24", "title": "Type names resolve by protobuf scoping rules", "statement": "A reference with a leading dot resolves to exactly that full name; a relative reference resolves in the innermost enclosing scope in which its first component is declared as something that can contain the rest; a match in an outer scope never wins over an inner one.", "quantifier": "all name tables, scopes and references", "why_tests_cant": "scopes nest without bound and shadowing cases are combinatorial", "anchors": ["prost-reflect/src/descriptor/build/mod.rs: resolve_name, resolve_relative_name, resolve_name_candidate_parents"]}
{"id": "C25", "title": "Visibility follows imports", "statement": "A type reference resolves only to definitions in the same file, its direct imports, or files publicly imported (transitively) by those; and every such definition is visible.", "quantifier": "all import graphs", "why_tests_cant": "graphs of any size and shape, including cycles", "anchors": ["prost-reflect/src/descriptor/build/resolve.rs: visit_file, resolve_public_dependencies", "prost-reflect/src/descriptor/build/mod.rs: ResolveNameResult::new"]}
{"id": "C26", "title": "Field numbers and names are consistent", "statement": "In every message of an accepted pool, field numbers are unique and in the legal range, outside reserved and extension ranges (for fields that do not name an extendee); field names and JSON names are unique; lookups by number, name and JSON name return the field that carries it.", "quantifier": "all accepted file descriptors", "why_tests_cant": "invariant over all schemas", "anchors": ["prost-reflect/src/descriptor/build/resolve.rs: visit_field, check_field_number", "prost-reflect/src/descriptor/api.rs: get_field, get_field_by_name, get_field_by_json_name"]}
{"id": "C27", "title": "Enum lookups are correct", "statement": "get_value(n) returns a value with number n iff the enum declares one; get_value_by_name(s) returns the value named s iff declared; values() yields every declared value once in number order; duplicate numbers are rejected unless allow_alias.", "quantifier": "all enums, all numbers and names", "why_tests_cant": "relies on a sorted-insertion invariant over any declaration order", "anchors": ["prost-reflect/src/descriptor/build/resolve.rs: visit_enum_value", "prost-reflect/src/descriptor/api.rs: EnumDescriptor::get_value, get_value_by_name, values, default_value"]}
{"id": "C28", "title": "JSON names", "statement": "The default JSON name is the lowerCamelCase of the field name: underscores removed, the ASCII letter after each underscore upper-cased, everything else unchanged; accepted proto3 messages have no two fields whose JSON names collide.", "quantifier": "all field names", "why_tests_cant": "all strings", "anchors": ["prost-reflect/src/descriptor/build/mod.rs: to_json_name", "prost-reflect/src/descriptor/build/names.rs: check_message_field_camel_case_names"]}
{"id": "C29", "title": "Existing descriptors are unaffected by later adds", "statement": "Adding files to a pool never changes what an existing descriptor handle or a clone of the pool reports: definitions keep their index, name, fields, numbers and kinds; a clone taken before is unaffected.", "quantifier": "all pools and later additions", "why_tests_cant": "history property across copy-on-write snapshots", "anchors": ["prost-reflect/src/descriptor/api.rs: DescriptorPool::add_file_descriptor_set, build_files", "prost-reflect/src/descriptor/global.rs: global pool"]}
{"id": "C30", "title": "The global pool is linearizable and only grows", "statement": "Whatever the interleaving of threads, each snapshot of the global pool contains all files successfully added before it was taken, snapshots are totally ordered by growth, and no snapshot shows a partly added set; and no thread waits for ever for the others.", "quantifier": "all interleavings of any number of threads", "why_tests_cant": "schedules cannot be enumerated by tests", "anchors": ["prost-reflect/src/descriptor/global.rs: DescriptorPool::global, decode_global_file_descriptor_set, add_global_file_descriptor_proto"]}
{"id": "C31", "title": "Options keep their raw bytes", "statement": "Decoding a descriptor message and re-encoding it preserves every record of each options message, in order and with its payload bytes untouched, including extension options unknown to the library; the bytes are identical when the record keys are written in the shortest form; clearing options forgets them all.", "quantifier": "all encoded options, all option message types", "why_tests_cant": "all byte strings", "anchors": ["prost-reflect/src/descriptor/types.rs: Options, impl Message for Options"]}
{"id": "C32", "title": "Bytes defaults are unescaped like protoc escapes them", "statement": "The declared default of a bytes field is the exact inverse of C-escaping for every byte string, and malformed escapes are reported as an error, never a panic.", "quantifier": "all byte strings and all default_value strings", "why_tests_cant": "all strings", "anchors": ["prost-reflect/src/descriptor/build/resolve.rs: unescape_c_escape_string, parse_field_default_value"]}
{"id": "C33", "title": "Textual defaults are parsed faithfully", "statement": "A default_value string for integer, bool, string and enum fields is accepted iff it denotes a value of the field type and then equals it; otherwise the file is rejected.", "quantifier": "all default strings and kinds", "why_tests_cant": "all strings at type boundaries", "anchors": ["prost-reflect/src/descriptor/build/resolve.rs: parse_field_default_value, parse_simple_value"]}
{"id": "C34", "title": "Building a pool never crashes", "statement": "Adding any FileDescriptorProto (however malformed) returns Ok or DescriptorError: no panic, no unbounded recursion.", "quantifier": "all file descriptor protos", "why_tests_cant": "input space is all descriptors, including hostile ones", "anchors": ["prost-reflect/src/descriptor/build/names.rs: visit_file, visit_message", "prost-reflect/src/descriptor/build/resolve.rs: resolve_public_dependencies", "prost-reflect/src/descriptor/error.rs: Label::new"]}
{"id": "C35", "title": "Imports must exist", "statement": "A file is accepted only if each import names a file in the pool or the same batch; the order of files within a batch does not matter for that.", "quantifier": "all batches and orders", "why_tests_cant": "permutations of batches", "anchors": ["prost-reflect/src/descriptor/build/resolve.rs: visit_file", "prost-reflect/src/descriptor/build/mod.rs: build_files_deduped"]}
{"id": "C36", "title": "Lookup by full name is exact", "statement": "get_message_by_name / get_enum_by_name / get_extension_by_name / get_service_by_name return a definition iff one of that kind with that full name was added (with or without a leading dot), and all_messages() etc. enumerate exactly those.", "quantifier": "all pools, all names", "why_tests_cant": "must hold for every pool reachable by any history", "anchors": ["prost-reflect/src/descriptor/api.rs: get_*_by_name, all_*", "prost-reflect/src/descriptor/mod.rs: get_by_name"]}
{"id": "C37", "title": "String literals round trip in the text format", "statement": "Printing any byte string as a text-format string literal and lexing it back yields the same bytes, whatever follows the literal.", "quantifier": "all byte strings, all following text", "why_tests_cant": "escape sequences interact with following characters", "anchors": ["prost-reflect/src/dynamic/mod.rs: fmt_string", "prost-reflect/src/dynamic/text_format/parse/lex.rs: string, oct_escape, char_escape"]}
{"id": "C38", "title": "Text format round trip", "statement": "Parsing the text printed for a message (compact or pretty) with the same descriptor gives back the message, up to unknown fields, which are not printed by default. An Any message printed expanded, with a type URL that can stand between brackets, comes back with the same type URL and with the bytes of a message that agrees with the one it held. Floats whose printed decimal the parser rounds to a neighbour are outside this claim.", "quantifier": "all messages of schemas whose names are identifiers, all options of layout", "why_tests_cant": "unbounded recursive values through a printer, lexer and parser", "anchors": ["prost-reflect/src/dynamic/text_format/format.rs: Writer", "prost-reflect/src/dynamic/text_format/parse/mod.rs: Parser", "prost-reflect/src/dynamic/text_format/parse/lex.rs: Token"]}
{"id": "C39", "title": "Integer literals in the text format", "statement": "An integer literal (decimal, octal, hex, optional minus) is accepted for a field iff its mathematical value is in the field's range and it has no minus sign for an unsigned field (so -0 is refused there), and then yields that value; otherwise an error is reported.", "quantifier": "all literals, all four integer widths", "why_tests_cant": "boundary values in three radixes and two signs", "anchors": ["prost-reflect/src/dynamic/text_format/parse/mod.rs: parse_i32, parse_i64, parse_u32, parse_u64, parse_int"]}
{"id": "C40", "title": "Text parsing never panics and rejects duplicates", "statement": "Reading any text into any message whose contents fit its type, in a pool where no two extensions of a message share a number and google.protobuf.Any has its standard shape, ends in Ok or ParseError (given stack for the nesting, which the reader does not limit), and leaves the message well-typed either way. In an accepted text no singular field that is already set is given again, and no two members of one oneof are given, at the top level or in any nested message, counting what the message held before.", "quantifier": "all strings, all message types, all prior contents", "why_tests_cant": "adversarial input; interaction with previously stored values", "anchors": ["prost-reflect/src/dynamic/text_format/parse/mod.rs: parse_message, parse_field_value"]}
{"id": "C41", "title": "Pretty and compact text agree", "statement": "The pretty and compact outputs of a message parse to the same message.", "quantifier": "all messages", "why_tests_cant": "layout differences are unbounded", "anchors": ["prost-reflect/src/dynamic/text_format/format.rs: fmt_newline, fmt_padding, fmt_delimited"]}
{"id": "C42", "title": "JSON round trip", "statement": "Serializing a message to JSON and deserializing the document gives a message that agrees with it on every field and extension at every depth (unknown fields aside; the value of an Any may come back as another encoding of an agreeing message), under every combination of serialize options, provided each value is one JSON can tell: floats are read back from their decimal text, NaN is the canonical one, a NullValue is NULL_VALUE, -0 only where the field has presence or defaults are written, a Value has a kind, numbers in Value/FloatValue/DoubleValue are finite, masks and times satisfy C43 and C47, an Any holds a message of the pool; and fields are found again under the name they are written with. Outside these conditions the message does not come back (shown for each).", "quantifier": "all schemas, all messages of any size and depth, all option combinations", "why_tests_cant": "unbounded recursive values times options", "anchors": ["prost-reflect/src/dynamic/serde/ser/mod.rs: serialize", "prost-reflect/src/dynamic/serde/de/mod.rs: deserialize_message", "prost-reflect/src/dynamic/serde/de/kind.rs: visitors"]}
{"id": "C43", "title": "FieldMask paths survive JSON", "statement": "Serializing a FieldMask either fails or produces a string that deserializes to the same list of paths, provided every path can be written in a mask at all: it is not empty, contains no comma, and no component ends with an underscore. For other paths it does not come back.", "quantifier": "all lists of paths", "why_tests_cant": "all strings; the code claims to return an error when the round trip is impossible", "anchors": ["prost-reflect/src/dynamic/serde/case.rs: snake_case_to_camel_case, camel_case_to_snake_case", "prost-reflect/src/dynamic/serde/ser/wkt.rs: serialize_field_mask", "prost-reflect/src/dynamic/serde/de/wkt.rs: GoogleProtobufFieldMaskVisitor"]}
{"id": "C44", "title": "JSON numbers out of range are rejected", "statement": "A JSON number is accepted for an integer field iff it is integral and inside the field's range, and the stored value equals it; the only exceptions are the doubles 2^63 for signed and 2^64 for unsigned 64-bit fields, which are stored as the maximum of the type.", "quantifier": "all JSON numbers (integers and doubles), all integer kinds", "why_tests_cant": "boundaries where doubles are not exact", "anchors": ["prost-reflect/src/dynamic/serde/de/kind.rs: Int32Visitor, Int64Visitor, Uint32Visitor, Uint64Visitor"]}
{"id": "C45", "title": "Bytes survive base64 in JSON", "statement": "Every byte string serialized to JSON base64 is read back unchanged, with or without padding, in the standard or URL-safe alphabet.", "quantifier": "all byte strings", "why_tests_cant": "all lengths modulo 3 and all bytes", "anchors": ["prost-reflect/src/dynamic/serde/de/kind.rs: BytesVisitor", "prost-reflect/src/dynamic/serde/ser/mod.rs: Value::Bytes"]}
{"id": "C46", "title": "Strict RFC 3339 checking", "statement": "validate_strict_rfc3339 accepts exactly YYYY-MM-DDTHH:MM:SS[.digits](Z|+HH:MM|-HH:MM) with upper-case T and Z.", "quantifier": "all strings", "why_tests_cant": "all strings", "anchors": ["prost-reflect/src/dynamic/serde/de/wkt.rs: validate_strict_rfc3339"]}
{"id": "C47", "title": "Timestamps and durations in JSON are range checked", "statement": "A Timestamp/Duration is serialized or accepted only if its seconds (and nanos for durations) are within the documented limits, for all 64-bit inputs including i64::MIN.", "quantifier": "all i64 seconds, all i32 nanos", "why_tests_cant": "extreme integers (unsigned_abs of MIN)", "anchors": ["prost-reflect/src/dynamic/serde/mod.rs: check_duration, check_timestamp"]}
{"id": "C48", "title": "JSON object rules", "statement": "Members are matched by JSON name, then proto name, then extension name; two members of one oneof are an error; null leaves a field unset (except singular Value and NullValue fields); unknown members are an error iff deny_unknown_fields.", "quantifier": "all JSON objects, all message types, both option values", "why_tests_cant": "all object shapes", "anchors": ["prost-reflect/src/dynamic/serde/de/kind.rs: MessageVisitorInner::visit_map", "prost-reflect/src/dynamic/serde/de/mod.rs: OptionalFieldDescriptorSeed"]}
{"id": "C49", "title": "Any type URLs", "statement": "The message name used for an Any is everything after the last '/', a URL without '/' is an error, and re-parsing the printed form of a URL made of dotted names around one '/' names the same message.", "quantifier": "all strings", "why_tests_cant": "all strings", "anchors": ["prost-reflect/src/dynamic/mod.rs: get_type_url_message_name", "prost-reflect/src/dynamic/text_format/parse/mod.rs: FieldName::Any", "prost-reflect/src/dynamic/text_format/format.rs: as_any"]}
{"id": "C50", "title": "Transcoding preserves content", "statement": "Transcoding a message into a DynamicMessage of a compatible descriptor and back is the identity on encoded content; transcoding between a dynamic message and itself through bytes agrees with decode∘encode.", "quantifier": "all messages", "why_tests_cant": "all values", "anchors": ["prost-reflect/src/dynamic/mod.rs: transcode_from, transcode_to"]}
{"id": "C51", "title": "Paths and nesting", "statement": "Each definition's full name is its parent's full name, a dot, and its short name; the scope stack used while walking a file is restored exactly after each definition, and nothing is visited twice.", "quantifier": "all file descriptors, all nesting depths", "why_tests_cant": "unbounded nesting", "anchors": ["prost-reflect/src/descriptor/build/visit.rs: push_scope, pop_scope, visit_message"]}
{"id": "C52", "title": "Zigzag and varint primitives", "statement": "The sint32/sint64 mapping is a bijection onto u32/u64, small magnitudes map to small codes, and the library's own packed-list mapping agrees with the one used by the decoder.", "quantifier": "all 32- and 64-bit integers", "why_tests_cant": "all integers", "anchors": ["prost-reflect/src/dynamic/message.rs: from_sint32, from_sint64"]}
{"id": "C53", "title": "Reading JSON is total and gives well-formed messages", "statement": "Deserializing a JSON document into a message of any type ends with an error or with a message of that type in which every set field holds a value its descriptor accepts, map keys are distinct and at most one member of a oneof is set; it never panics. Proviso: no null is given for a repeated google.protobuf.Value or NullValue field (the code then stores a single value in a list field).", "quantifier": "every pool, message type, document tree and option", "why_tests_cant": "the set of documents is unbounded and nested, and the panics hidden in unwraps and asserts (set_field validity, map entry lookup, Any payload encoding) depend on combinations of schema and document", "anchors": ["prost-reflect/src/dynamic/serde/de/mod.rs: deserialize_message, OptionalFieldDescriptorSeed", "prost-reflect/src/dynamic/serde/de/kind.rs: MessageVisitorInner, MapVisitor, ListVisitor", "prost-reflect/src/dynamic/serde/de/wkt.rs"]}
{"id": "C54", "title": "The wire format is the protobuf wire format", "statement": "Decoding accepts exactly the byte sequences that are records of the protobuf wire format (varints of at most ten bytes, little-endian fixed fields, length-delimited fields, matching group tags, packed and unpacked lists, map entries, unknown fields), nested at most 100 deep, and gives the message that format describes; encoding writes each set field once, in its canonical form with shortest varints, and the bytes denote the message that was encoded. Exception: the wire type of a map field's record is not checked.", "quantifier": "every schema, message and byte sequence", "why_tests_cant": "a decoder and encoder that agree with each other can both be wrong, so round trips do not settle conformance; the format must hold for every kind, nesting and byte sequence", "anchors": ["prost-reflect/src/dynamic/message.rs: encode_field, merge_field", "prost-reflect/src/dynamic/unknown.rs: UnknownField::encode, decode_value", "prost::encoding (varint, key, skip_field, wire types)"]}
{"id": "C55", "title": "Descriptors say what the files declare", "statement": "In every pool, each message's fields, oneofs, extensions and each service's methods shown by the API are the declared ones, in order, with the declared number, label, type (the definition the declared name stands for), packing, presence, oneof membership, default and full name; the extensions listed for a message are exactly those that extend it. Exception: a proto3 repeated field that has any options but no packed option is shown unpacked, contrary to the proto3 rule.", "quantifier": "every history of added files, every message, field, extension, service of the pool", "why_tests_cant": "the set of files and histories is unbounded; an error would show only for some combination of syntax, label, type, options and position", "anchors": ["prost-reflect/src/descriptor/build/resolve.rs: visit_field, visit_extension, visit_method, visit_oneof", "prost-reflect/src/descriptor/api.rs: FieldDescriptor, ExtensionDescriptor, OneofDescriptor, MethodDescriptor"]}
{"id": "C56", "title": "A failed merge keeps what came before and touches one field", "statement": "When merging bytes into a message fails, every complete record before the failing one has been merged exactly as if the input had ended there; beyond that, only the field of the failing record (and the other members of its oneof, which are cleared) may differ: a string is emptied, a packed list keeps the elements that were complete, a nested message is itself left in this way, and any other value is as it was. A record with an unknown number or an unreadable key changes nothing. Merging is therefore not atomic: a record that could not be read has already cleared its oneof.", "quantifier": "every schema, message, byte string and point of failure", "why_tests_cant": "the failing record may be at any position and any nesting depth of any input", "anchors": ["prost-reflect/src/dynamic/message.rs: merge_field, Value::merge_field, MapKey::merge_field", "prost Message::merge"]}
{"id": "C57", "title": "Descriptors built from files are fit for messages", "statement": "In a pool made by successful adds, lookups by number, name and JSON name agree with the fields, kinds lead to messages and enums that exist, numbers are legal, oneofs and members agree, and defaults have the type of their field. If the files also have what protoc guarantees (repeated fields are in no oneof and not optional, map entries have a singular key of a key type and a singular value, only extensions have an extendee), then decoding any bytes for any message type of the pool returns a message or an error, and every message made by valid calls is encoded and decoded to the same message.", "quantifier": "every sequence of successful adds of any files, every message type, byte string and message", "why_tests_cant": "it joins two halves of the crate: the builder's tables must meet the needs of the codec for every schema", "anchors": ["prost-reflect/src/descriptor/build/resolve.rs: resolve_field, resolve_extension", "prost-reflect/src/descriptor/api.rs: MessageDescriptor::get_field, FieldDescriptor::kind, is_map", "prost-reflect/src/dynamic/message.rs: encode, merge_field"]}
{"id": "C58", "title": "Custom options are interpreted as written", "statement": "When files are added, every uninterpreted option (of the file, a message, field, oneof, extension range, extension, enum, enum value, service or method) either has a meaning, by its dotted name of fields and extensions in scope, its type and its value, or the add is rejected. After a successful add the options() of every item show exactly the fields given before plus what the uninterpreted options mean, in order, no uninterpreted options are left, options elsewhere are unchanged, and the source locations of the options now point at the fields they set.", "quantifier": "every pool built from files, every list of uninterpreted options at every place of every file, values of every type", "why_tests_cant": "options are arbitrary names and values against an arbitrary schema of extensions; a test sees a few of them and not that nothing else changed", "anchors": ["prost-reflect/src/descriptor/build/options.rs: resolve_options, set_option, set_option_value, set_file_option", "prost-reflect/src/descriptor/api.rs: decode_options, MessageDescriptor::options, FieldDescriptor::options"]}
{"id": "C59", "title": "A text is read as the text format specifies", "statement": "A text is cut into tokens by the longest match of the token patterns, in exactly one way. merge_text_format and parse_text_format succeed exactly if the tokens form a list of fields (names, optional colon before messages, messages in braces or angle brackets, lists in square brackets, optional comma or semicolon) that have a meaning for the message's type: numbers within the range of the field's kind, the literals of booleans, floats, strings and enums, names of fields, groups and extensions, expanded Any; and the message then holds exactly that: singular fields set once, lists extended, map entries inserted, Any packed. Otherwise an error is returned and the message holds the meaning of the fields before the error, each wholly or not at all.", "quantifier": "every pool, every message that fits its type, every byte string", "why_tests_cant": "texts are unbounded and nested; tests show that some are accepted or rejected, not that exactly the right ones are and with the right result", "anchors": ["prost-reflect/src/dynamic/text_format/parse/lex.rs: Token", "prost-reflect/src/dynamic/text_format/parse/mod.rs: Parser", "prost-reflect/src/dynamic/text_format/mod.rs: merge_text_format, parse_text_format"]}
{"id": "C60", "title": "A JSON document is read as what it means", "statement": "deserialize succeeds on a document exactly if the document has a meaning for the message's type: numbers and strings within the range of the field's kind, base64 of either alphabet, names or numbers of enum values, null for absence, keys of maps parsed by kind, members by proto name, JSON name or bracketed extension name, given at most once, at most one per oneof, unknown ones only if they are ignored, and the special forms of the well-known types, Any in whatever order its members come. The message read then holds exactly that meaning, and a document has at most one meaning; any other document gives an error.", "quantifier": "every pool, message type, JSON document and both settings of deny_unknown_fields", "why_tests_cant": "documents are unbounded and nested; round trips say nothing about the many other documents that are accepted, and nothing about which are rejected", "anchors": ["prost-reflect/src/dynamic/serde/de/mod.rs", "prost-reflect/src/dynamic/serde/de/kind.rs", "prost-reflect/src/dynamic/serde/de/wkt.rs", "prost-reflect/src/dynamic/serde/mod.rs: DeserializeOptions"]}
{"id": "C61", "title": "A message is written as JSON the way the mapping says", "statement": "serialize produces a document exactly if the document shows the message: the set fields by number, and unless defaults are skipped also those without presence, then the set extensions by number; under JSON or proto names as asked; numbers, booleans, strings, base64 with padding, 64-bit numbers as strings or numbers as asked, names for floats that are not finite, enum values by name, by number if asked or unknown, null for NullValue; maps with keys as text; and the special forms of Timestamp, Duration, FieldMask, Struct, Value, ListValue, Empty, the wrappers and Any, with the limits of Timestamp and Duration. There is at most one such document. Serializing a valid message never panics, and it fails only if no document shows the message.", "quantifier": "every pool, valid message and setting of the serialize options", "why_tests_cant": "messages are unbounded and nested; round trips through the reader cannot see an error made the same way on both sides, nor forms that the reader accepts although they are not the ones promised", "anchors": ["prost-reflect/src/dynamic/serde/ser/mod.rs", "prost-reflect/src/dynamic/serde/ser/wkt.rs", "prost-reflect/src/dynamic/serde/case.rs", "prost-reflect/src/dynamic/serde/mod.rs: SerializeOptions"]}
{"id": "C62", "title": "A pool accepts exactly the valid files", "statement": "Adding files succeeds exactly if those that are new are valid next to the files of the pool: known syntax and different file names; existing imports, public and weak ones given by their positions; no two declarations of the same full name and none of the name of a package; field numbers from 1 to 2^29-1 outside 19000-19999, not reserved, in an extension range exactly for extensions, different within a message, as are JSON names, and in proto3 names apart from case and underscores; oneof indices that exist; enums with a first value, zero in proto3, numbers not reserved and different unless aliases are allowed; references from fields, extensions and methods that stand for a visible declaration of the right sort; defaults that are texts of the type. Other files give an error, and files that are valid are refused only for their options (C58). Publicly imported files are taken to have no public imports of their own (C25 says what happens otherwise).", "quantifier": "every pool built by adding files, and every list of files added to it", "why_tests_cant": "schemas are unbounded; that nothing valid is refused and nothing invalid accepted is about all of them", "anchors": ["prost-reflect/src/descriptor/build/names.rs", "prost-reflect/src/descriptor/build/resolve.rs", "prost-reflect/src/descriptor/build/mod.rs", "prost-reflect/src/descriptor/error.rs"]}
{"id": "C63", "title": "The descriptors a pool gives back", "statement": "The file descriptors a pool gives back for files added to it are the files as given with three differences: the types of fields, the extendees of extensions and the types of methods are named by full names with a leading dot, and these are the messages and enums that the pool's descriptors show; a field with a type name says whether this is a message, an enum or a group; every field and extension has a JSON name, the one given or else the one the pool uses. Added in the place of the files they are accepted, give a pool with the same descriptors, and are given back as they are (extensions without an extendee excepted).", "quantifier": "every pool built by adding files, and every list of files it accepts", "why_tests_cant": "the references and their scopes are unbounded, and that nothing else changes and that the result means the same is about all files", "anchors": ["prost-reflect/src/descriptor/build/resolve.rs: set_type_name, resolve_name, resolve_field_json_name, find_file_field_proto_mut", "prost-reflect/src/descriptor/build/mod.rs: build_files_deduped", "prost-reflect/src/descriptor/api.rs: FileDescriptor::file_descriptor_proto, DescriptorPool::encode, file_descriptor_protos"]}
{"id": "C64", "title": "One call or several", "statement": "Files can be added to a pool in one call or in several. When one call was accepted, whose new files refer to types by absolute names or by names without dots, and further files with other names are added, this second call is accepted exactly if one call with all the files is, and the pool is the same, down to the order and the indices of everything in it. With references that have dots and are not absolute this is false: files accepted in two calls can be rejected in one.", "quantifier": "every pool built by adding files, every accepted call, and every further list of files, valid or not; any number of calls", "why_tests_cant": "it is about all ways to split all lists of files", "anchors": ["prost-reflect/src/descriptor/api.rs: DescriptorPool::add_file_descriptor_protos, add_file_descriptor_proto, add_file_descriptor_set", "prost-reflect/src/descriptor/build/mod.rs: build_files, resolve_name", "prost-reflect/src/descriptor/build/names.rs", "prost-reflect/src/descriptor/build/resolve.rs"]}
{"id": "C65", "title": "A pool can be made again from what it gives back", "statement": "Take a pool made by any number of accepted calls and the file descriptors it gives back. A new pool accepts these descriptors in one call, has the same descriptors under the same indices, and gives back exactly the same file descriptors (options that are accepted and extensions that name their extendee provided).", "quantifier": "every sequence of accepted calls with any files", "why_tests_cant": "it is about all pools; the calls that made the pool resolved references against the files known at the time, the one call does it against all of them", "anchors": ["prost-reflect/src/descriptor/api.rs: DescriptorPool::file_descriptor_protos, encode, encode_to_vec, decode", "prost-reflect/src/descriptor/build/mod.rs: build_files", "prost-reflect/src/descriptor/build/resolve.rs: set_type_name"]}
{"id": "C66", "title": "What the text format shows", "statement": "Writing a message in the text format gives exactly one text, fixed by the message, its type and the options: fields that are set (with the option, also unset ones without presence) in number or declaration order, then extensions in brackets and, if wanted, unknown fields by number; groups by the name of their type; strings with octal escapes, enums by name when there is one, maps as lists of key and value; unknown delimited fields as records when they parse as such and as strings otherwise; Any messages, if wanted, as the message packed in them; on one line with commas, or on lines of their own, indented by two. Writing never fails and never panics.", "quantifier": "every well-formed schema, every message that fits it, all options, and any nesting of messages and Any values", "why_tests_cant": "the layout of every message of every schema is fixed, including every combination of options; tests compare a few documents", "anchors": ["prost-reflect/src/dynamic/text_format/format.rs: Writer::fmt_message, fmt_value, fmt_field, fmt_unknown_field, fmt_string, fmt_message_value, as_any", "prost-reflect/src/dynamic/text_format/mod.rs: FormatOptions", "prost-reflect/src/dynamic/message.rs: DynamicMessage::to_text_format, to_text_format_with_options", "prost-reflect/src/dynamic/fields.rs: DynamicMessageFieldSet::iter"]}
{"id": "C67", "title": "Writing always ends", "statement": "Writing a message as text or JSON ends for every message, however Any messages are nested in the payloads of others: the text is written, the document is written or an error is given. How deep writing goes is bounded by the length of the longest string or bytes in the message, and by nothing less: for every depth there are short bytes, read as a flat message, that need more.", "quantifier": "every well-formed schema whose google.protobuf.Any has the standard fields, every message that fits it, all options; and every depth", "why_tests_cant": "the writer decodes the payload of an Any and writes the result, which may again hold Any messages; that this never goes on for ever is a claim about every payload, and no finite set of nestings settles it", "anchors": ["prost-reflect/src/dynamic/text_format/format.rs: Writer::fmt_message, as_any", "prost-reflect/src/dynamic/serde/ser/wkt.rs: serialize_any", "prost-reflect/src/dynamic/serde/ser/mod.rs: serialize_dynamic_message_fields"]}
{"id": "C68", "title": "Errors point at what is at fault", "statement": "When adding files is rejected there is at least one error, and each error is about a rule that the added files do break: the file it names is one of the added files, and its path leads to the element that breaks the rule and, inside that element, to the part that is wrong (its name, number, type, default, reference or import). Of two elements that clash, the error points at the later one. Errors without a place are only those about import and oneof indices, repeated file names and options.", "quantifier": "every pool reached by calls, every list of added files, every error of a rejected call", "why_tests_cant": "paths are put together by hand at each check along the walk, while other errors have already been found and the tables are incomplete; that no error is spurious and none points elsewhere is a claim about all combinations of broken files", "anchors": ["prost-reflect/src/descriptor/error.rs: DescriptorError::file, DescriptorError::path, Label::new", "prost-reflect/src/descriptor/build/names.rs: NameVisitor, add_name", "prost-reflect/src/descriptor/build/resolve.rs: ResolveVisitor, check_field_number, check_enum_number, check_message_field_names, resolve_name", "prost-reflect/src/descriptor/tag.rs"]}
{"id": "C69", "title": "Generated message types find their descriptors", "statement": "After the build helper has configured code generation for a set of protos, every generated message type implements ReflectMessage exactly once, with its own full name and the pool or bytes that were chosen; enums and oneofs get no code. descriptor() then gives the descriptor of that very message and never panics: with a pool made from the set, and with the bytes also when many threads use the global pool in any order. On types written by hand, the derive macro takes the last of each argument and refuses all else.", "quantifier": "every descriptor set, every configuration, every list of attributes; every interleaving of threads that use the global pool", "why_tests_cant": "which types an attribute reaches depends on all the names in the set together, and what descriptor() finds depends on everything any thread has added before", "anchors": ["prost-reflect-build/src/lib.rs: Builder::configure", "prost-reflect-derive/src/lib.rs: reflect_message_impl, Args::parse, Args::descriptor_pool, Args::message_name", "prost-reflect/src/descriptor/global.rs: DescriptorPool::global, decode_global_file_descriptor_set"]}
{"id": "C70", "title": "Text and JSON work for every schema that protoc accepts", "statement": "For every pool built from files that have what protoc guarantees (identifiers as names, groups named like their types, no defaults where none are allowed, regular map entries, no bracketed JSON names), and every message made by any sequence of valid calls: the text written for it is read back as a message that agrees with it in every field, the layout options do not change what is read, the JSON document written for it is read back as a message that agrees with it, and reading any text or document gives a message of the type or an error, never a panic. With field names in place of JSON names, the JSON part also needs that no field has the name of another as its JSON name.", "quantifier": "every pool reached by adding files, every message type in it, every history of the message, every option, every input", "why_tests_cant": "the schemas are unbounded, and what text and JSON ask of them (names that lex, names that are found again, defaults that are read as themselves) depends on the whole pool", "anchors": ["prost-reflect/src/descriptor/build: build_files, names, resolve", "prost-reflect/src/dynamic/text_format/format.rs: Writer", "prost-reflect/src/dynamic/text_format/parse/mod.rs: Parser", "prost-reflect/src/dynamic/serde: serialize, deserialize"]}
{"id": "C71", "title": "The line and column of a schema error are those of the element at fault", "statement": "When adding files is rejected, file(), path(), line() and column() of the error describe its first fault: the name of the file at fault, which is one of the new ones, the path of the element there, and the start of the first location that the file's source info gives for exactly this path. Without such a location, or if its span has neither three nor four numbers, there is no line and no column. An error about an option points at the first option, as written, that cannot be interpreted after those before it. Only an error about two files of one name, an import or oneof index out of range, or options whose bytes cannot be decoded has no place. The Debug form begins with file, line and column, counted from one.", "quantifier": "every history of the pool, every set of files, every source info, every uninterpreted option", "why_tests_cant": "schemas and source infos are unbounded, and the place of the first error depends on the order in which all faults of all files are found", "anchors": ["prost-reflect/src/descriptor/error.rs: DescriptorError::file, line, column, path, Debug; Label::new; DescriptorErrorKind::label", "prost-reflect/src/descriptor/build/options.rs: resolve_options, set_option"]}
{"id": "C72", "title": "Definitions, their parents, children and descriptor protos fit together", "statement": "Every descriptor of a pool (message, field, oneof, enum, enum value, extension, service, method) gives, without panicking, the descriptor proto that the files shown by the pool declare at the descriptor's path under its full name. Unless some full name starts with a dot, child_messages, child_enums and child_extensions of a message list exactly the definitions whose parent_message is that message, and messages, enums, extensions and services of a file exactly those of the file without a parent message, each once, in the order of the file; so every definition is listed by its parent message or by its file. dependencies and public_dependencies of a file list, in order and without panicking, the files its imports name.", "quantifier": "all pools made by any sequence of add calls, failed ones included, with the files they give back; all descriptors in them, at any nesting depth", "why_tests_cant": "The lookups walk paths and names of unbounded nesting, and rely on all names of the pool being found and unique after any history of calls.", "anchors": ["prost-reflect/src/descriptor/api.rs: descriptor_proto, field_descriptor_proto, enum_descriptor_proto, service_descriptor_proto, child_messages, child_enums, child_extensions, FileDescriptor::messages, enums, extensions, services, parent_message, join_name, find_message_proto_prost, dependencies, public_dependencies"]}
{"id": "C73", "title": "The extension and reserved ranges a message shows are those that govern its members", "statement": "extension_ranges and reserved_ranges of a message never panic, and hold exactly the numbers its declared ranges hold, if no declared bound is negative. Then no field and no extension of the message has a number in a reserved range it shows, its fields have numbers outside the extension ranges it shows, and the extensions of it, from whichever file, have numbers inside one of them. reserved_ranges of an enum never panics and gives its declared ranges, and no value of the enum has a number in one of them, their ends included.", "quantifier": "all pools made by any sequence of add calls, failed ones included; all messages and enums in them with any ranges; all fields, extensions and values", "why_tests_cant": "Extensions come from other files in later calls; the ranges are converted from signed to unsigned numbers, and must agree with the signed check for all bounds and numbers.", "anchors": ["prost-reflect/src/descriptor/api.rs: extension_ranges, reserved_ranges", "prost-reflect/src/descriptor/build/resolve.rs: check_field_number"]}
{"id": "C74", "title": "Oneofs and their fields agree, and synthetic oneofs are recognised", "statement": "The fields of a oneof are exactly the fields of its message that are declared to be in it, each once, in the order of the message; they are exactly those whose containing_oneof is this oneof, and every containing_oneof is a oneof of the message. is_synthetic never panics and is true if and only if the oneof has exactly one field and this field is declared with proto3_optional.", "quantifier": "all pools made by any sequence of add calls, failed ones included, with the files they give back; all messages, all their oneofs and fields", "why_tests_cant": "Membership is kept in two places, filled one field at a time while files with any number of oneofs are added.", "anchors": ["prost-reflect/src/descriptor/api.rs: OneofDescriptor::fields, is_synthetic, FieldDescriptor::containing_oneof", "prost-reflect/src/descriptor/build/resolve.rs: visit_field"]}
{"id": "C75", "title": "Full names are the package, the enclosing messages and the name, joined by dots", "statement": "package_name of a message, enum, extension or service never panics and is the package its file declares. full_name is that package, the names of the messages around the declaration from the outside in, and name, joined by dots (an empty package adds nothing); there is one enclosing message for each two further numbers of path. So a full name always starts with a package that is not empty, followed by a dot.", "quantifier": "all pools made by any sequence of add calls, failed ones included; all messages, enums, extensions and services in them at any depth", "why_tests_cant": "Names are built while declarations nested to any depth are visited, and name is cut out of the full name by a stored position.", "anchors": ["prost-reflect/src/descriptor/api.rs: package_name, full_name, name, path", "prost-reflect/src/descriptor/build/visitor.rs", "prost-reflect/src/descriptor/mod.rs: Identity"]}
