# Formal model of prost-reflect in Rocq (Coq 8.16.1)

This document says what is modelled, how each property of `properties.jsonl`
is stated and proved, what is trusted, and what was found.

## 1. Approach

* The model is plain Gallina over the standard library (`list`, `N`, `Z`,
  `nat`, records).  No other library, no axioms.
* Every model definition carries a comment with the file and lines it models.
* Bytes are `N` below 256, strings are lists of UTF-8 bytes, `f32`/`f64` are
  their bit patterns, `HashMap`s are association lists (their order is the
  iteration order, so a theorem about all lists covers all orders),
  `BTreeMap<u32,_>`s are lists sorted by key.
* A Rust panic is an explicit outcome (`Panic`), as is running out of the fuel
  that bounds a recursion (`Fuel`); theorems exclude both by name.
* Decoding through `&mut` keeps the partially updated value on error, so the
  error outcome of the model carries it too.
* Model files contain definitions only; proof files contain lemmas;
  `Prop_*.v` files contain the property theorems, each closed by
  a short proof from lemmas, followed by `Print Assumptions`, and next to it an `Example`
  showing that the hypotheses are met by a concrete case.
* A property the code violates gets a `_refuted` theorem with a witness and,
  where useful, a positive theorem under the extra hypothesis that makes it
  true.  A partly proved property has theorems ending in `_partial`.

## 2. Plan per property

| Property | Model | Proof |
|---|---|---|
| C01, C03 | `encode`, `encoded_len` for values, maps, lists, messages, unknown fields; panics explicit | induction on the value type; one lemma per wire primitive |
| C02 | `encode`, `merge` with recursion limit | induction on the value; loop lemmas for packed lists, map entries, length-delimited bodies |
| C04, C05 | `merge` on arbitrary bytes with fuel and limit | measure: every step consumes a byte; invariant: stored values fit their fields |
| C06, C20 | unknown field sets | mutual induction; per-number projection of the record list |
| C07 | `merge` loop | loop splitting lemma |
| C08, C09, C10, C19 | the arms of `Value::merge_field` | case analysis per kind, loop lemmas |
| C11 | field set operations, `merge` | invariant over operation lists |
| C12, C13, C14, C15, C16, C17 | field set operations, descriptor lookups | algebra of sorted association lists |
| C18 | float bit patterns | refuted for -0.0 with implicit presence; proved elsewhere |
| C21, C22, C23, C26, C27, C29, C35, C36 | pool builder (names, resolve passes, rollback) | invariants over the visitor folds |
| C24, C25 | `resolve_name` and dependency sets | list reasoning; graph reachability |
| C28 | `to_json_name` | list induction against an independent spec |
| C30 | mutex-protected pool as an interleaving state machine | invariant over schedules |
| C31 | `Options` wrapper | codec lemma |
| C32, C33 | default parsing | string induction |
| C34 | builder with panics explicit | refuted by witnesses; conditional theorem |
| C37-C41 | text-format writer, lexer, parser | induction on values; token-level then character-level; expanded Any messages by induction on how deep they are nested (TextAny.v) |
| C42-C48 | JSON tree serializer / deserializer, base64, field masks, ranges, RFC 3339 | induction on values / strings |
| C49 | type URL helpers | string lemmas |
| C50 | codec over two compatible schemas (`CompatSpec.v`) | encodings of compatible schemas coincide; then C02 |
| C51 | visitor scope stack | list lemma |
| C52 | zigzag, varint | bit lemmas |
| C53 | JSON deserializer on every document | invariant: what is stored fits its field |
| C54 | an inductive grammar of the wire format (WireSpec.v), independent of the code; decoder and encoder against it | soundness by induction on fuel, completeness by induction on the grammar, encoder by induction on the value |
| C55 | pool tables against the file descriptors | pool invariant, one declared item per table entry |
| C56 | the decoder's error outcomes, which carry the message as left | induction on the nesting of calls against the relation of FailSpec.v |
| C57 | the tables made by the builder model, as the dynamic messages read them | each part of `wf` from the invariant of the builder; then the theorems about messages apply |
| C58 | the options phase of a build and the options() getters, over the dynamic-message model | option by option against a relation (OptSpec.v); places against the paths of descriptor.proto; read back by C02 |
| C59 | text lexer and parser against two specifications: token patterns (TextRegex.v), grammar and meaning (TextMeaning.v) | lexer: longest match per pattern; parser: soundness by induction on fuel, completeness by induction on the number of tokens |
| C60 | JSON reader against a specification of what documents mean (JsonMeaning.v) | both directions by induction on the document; buffering of members before @type is reading the buffered document |
| C61 | JSON writer against a specification of what documents show (JsonWritten.v) | soundness by induction on values and on the nesting of Any, completeness by induction on derivations; no panic and independence of the bound by a relation closed under binding |
| C62 | names phase and resolve phase against rules of validity (ValidSpec.v) | each step pushes an error exactly if a rule is broken at its place (walk once and exactly: C51), invariants of prefixes of the walk; tables of names agree up to the choice of packages |
| C63 | the writes into the copies of new files along the resolve phase (Raw.v) against what the pool shows (RawSpec.v) | places of the walk are distinct (C51), so each place is written at one step; full names resolve to what was found; simulation of the builder on files equal but for references |
| C64 | build_files on a joined list against two calls (Build.v); which references are settled (JoinSpec.v) | the names phase of the second list runs alike before and after the first resolve phase (a graft of the tables); the first resolve phase runs alike when later names and files are already there; then both are the same two phases in a row |
| C65 | given_back (Raw.v) of every accepted call, collected, as one call on an empty pool | what is given back is written out in full, so settled; by induction over the calls with C63's simulation started in a pool that is alike and C64's join; references written out are not written over |
| C66 | text writer against a specification of documents and their layout (TextWritten.v) | words one kind at a time; soundness by induction on values and on the nesting of Any, completeness by induction on derivations; independence of the bound by a relation closed under joining |
| C67 | the bound on nested Any in both writers, and a measure of messages (EndsSize.v) | the payload of an Any is a string of it and all strings read from it are shorter (through the grammar of C54); induction on the length of the longest; a family of nested messages for the other direction |
| C68 | both phases of the builder with the file and path of each error (Build.v) against rules that say which element is at fault (FaultSpec.v) | each call of the walk adds only errors justified at its own place; an invariant of the resolve phase that holds while errors pile up (references found are right, members stored so far are those of the walked prefix); positions of the walk by C51 |
| C69 | attributes added by the build helper, path matching of prost-build, the derive macro (Generate.v), and the global pool (Global.v) | names of messages are distinct (C36), so the attributes a type gets are counted by the names its own ends in; arguments by induction from the end of the list; the copies of the global pool by C30 |
| C70 | what protoc guarantees of names, groups and defaults (NamedSpec.v), and the tables made by the builder model | each part of the schema conditions of C38 and C42 from the declarations (C58) and the invariant of the builder; then the theorems about text and JSON apply |
| C71 | labels, the getters of the error and its Debug prefix (Label.v) over any source info; option errors with the place of their label (OptResolve.v) | `find` as the first location with the path; the places of C68; for options, an induction over the uninterpreted options that stops at the first without meaning |
| C72 | the descriptor protos of descriptors, parents and children (Nav.v) over the pool and the files it gives back | paths determine what is found (NavProofs.v); the parent in each step of the walk is the message at the path without its last step; names are found by C36 |
| C73 | extension_ranges and reserved_ranges of messages and enums (Nav.v) | as_u32 keeps numbers that are not negative; numbers of members from C26, C27 and C55 |
| C74 | fields of oneofs, containing_oneof, is_synthetic (Nav.v) | the invariant of the build: members are the positions of the fields with that oneof |
| C75 | package_name (Nav.v), full_name, name and path of the stored identities | C36 gives the declaration of an identity; induction over its place in the file |

## 3. What is modelled

| Part of /repo/prost-reflect/src | Model files | Not modelled there |
|---|---|---|
| `dynamic/mod.rs`, `dynamic/fields.rs` | `Value.v`, `Fields.v` | `Debug`/`Display` wrappers around the text format, iterator adaptors |
| `dynamic/message.rs` | `Codec.v` | `Buf` chunking: a buffer is a list of bytes |
| `dynamic/unknown.rs` | `Unknown.v` | |
| `prost::encoding` (external) | `Wire.v` | only what the crate calls |
| `descriptor/mod.rs`, lookups and navigation of `descriptor/api.rs` | `Descr.v` (tables), end of `Build.v` (pools), `Nav.v` (parents, children, imports, ranges, synthetic oneofs, descriptor protos) | getters that return a stored string or number |
| `descriptor/types.rs` | `Proto.v` (plain data), `Options.v` (the option wrapper), `Label.v` (paths and spans of source code info) | text of comments |
| `descriptor/build/{mod,names,resolve,visit}.rs` | `Proto.v` (walk), `Build.v` | the options phase is a parameter of the build (`x_options`): a function that comes back or fails; C58, C71 and C34 put the model of the phase (`OptResolve.v`) in its place |
| `descriptor/build/options.rs`, `decode_options` of `descriptor/api.rs` | `OptResolve.v`; C58_build puts it in place of `x_options` | whether the typed options message of prost accepts the bytes is a parameter |
| `descriptor/tag.rs` | numbers in `Build.v` paths | |
| `descriptor/global.rs`, `Arc` sharing in `descriptor/mod.rs` | `Global.v`, `Shared.v` | memory model below the mutex |
| `descriptor/error.rs` | error constructors with the file and path of the first label (`er_at`); `Label.v` | second labels; the message; the miette feature |
| `dynamic/text_format/format.rs` | `TextFormat.v` | |
| `dynamic/text_format/parse/{lex,mod}.rs` | `TextLex.v`, `TextParse.v` | spans in error values; the generated DFA of logos |
| `dynamic/serde/**` | `Json.v`, `JsonSer.v`, `JsonDe.v` | the `Serializer`/`Deserializer` plumbing of serde: a document is a tree (`json`) |
| `prost_types` well-known types | `wkt_tables` in `JsonSer.v`, read and written through the dynamic codec | |
| `prost-reflect-derive`, `prost-reflect-build` | `Generate.v` | token streams and escapes in literals (a literal is its content); protoc and the code prost-build writes; paths of files |
| `reflect/` | | not modelled: generated code for the well-known types; `transcode_to_dynamic` is covered by C50 |

Simplifications, each also stated at the definition:

* **Pools.** `Build.v` keeps the raw file descriptors as given; the rewrites of
  `json_name`, `type`, `type_name`, `extendee`, `input_type` and `output_type` in
  the copies of the new files are modelled apart, in `Raw.v` (C63).  Indices are unbounded naturals (the code uses `u32` with a panic on
  overflow).  Float defaults are parsed by a parameter.  An error carries
  the file and path of the label that `DescriptorError::file` and `path` show.
* **Sharing.** A handle is an index into a store with reference counts; the
  global pool is a value behind a lock whose critical sections are atomic;
  poisoning is modelled.
* **Options.** The typed option message `T` is a parameter with its own
  decoder and encoder.
* **Maps.** `HashMap` is an association list; equality of maps in theorems does
  not depend on order.  JSON's map iteration order is a parameter (`jx_order`).
* **Text.** The logos lexer is modelled by its token regexes with longest
  match.  `tx_show` (shortest decimal text of a float) and `tx_search`
  (`binary_search_by`) are parameters.  Decimal to binary conversion is modelled
  as round-to-nearest-even (`Float.v`).
* **JSON.** serde_json itself is the function `carried`: it hands the document
  over unchanged, except that floats pass through their decimal text
  (`jx_carry32`, `jx_carry64`) and non-finite floats become null.  The text of
  `prost_types::{Timestamp, Duration}` is a parameter, the checks around it are
  modelled.  The base64 alphabets and padding rules are modelled.
* **Stack.** Depth of the binary decoder is modelled (C05).  The text and JSON
  readers have no limit of their own (serde_json has one); their stack use is
  not modelled.
* **Enums with aliases.** Which of several values with equal number
  `binary_search` returns is left open.

## 4. Trusted base

* Coq 8.16.1's kernel (and `coqchk`), standard library only.
* `Print Assumptions` of every property theorem says *Closed under the global
  context*: no theorem rests on any axiom.
* `coqchk` lists seven axioms of the standard library's
  `Coq.ssr.ssrunder.Under_rel` (an opaque module type instance that comes with
  `Require Import Lia`); no theorem uses them.
* The reading of the Rust source: nothing is extracted or run.  Citations at
  each definition allow it to be checked.
* The behaviour of `prost` 0.14's encoding functions, modelled in `Wire.v` from
  the published source (not in /repo); of Rust's `BTreeMap`, `HashMap`, `Vec`,
  `String`, integer and float casts; of `logos`, `serde`, `serde_json`,
  `serde_value` and `base64` as described above.
* The hypotheses written in the theorems.  The common ones: `wf t` (the tables
  are ones a pool builder makes: indices in range, sorted lookup lists,
  distinct numbers and names; boolean, checked on the examples, and proved of
  every pool built from files that have what protoc guarantees, C57), `ok_msg t m`
  (stored values fit their fields; true of every message obtained by decoding,
  C04/C11, and kept by every call with fitting values, C16), `text_okb t` and
  `json_schemab E o t` (names that lex and are found again; proved of every pool
  built from files that have what protoc guarantees, C70).

## 5. How to read a theorem file

Each `Prop_*.v` starts with the specification it needs, written without the
model's helper functions where these do more than look something up; then the
theorems; then an `Example` with a concrete schema (`ExampleSchema.v`,
`ExampleFiles.v`, `ExampleJson.v`).

Specifications kept in their own files: `RoundSpec.v` (when two messages cannot
be told apart; when they agree), `DeclSpec.v` (what a file declares),
`ResolveSpec.v` (how names are to be resolved), `DefaultSpec.v` (what a textual
default denotes), `CompatSpec.v` (compatible schemas), `ValidSpec.v` (valid
files), `RawSpec.v` (files given back), `JoinSpec.v`
(references that other files cannot change), the grammar of RFC 3339
timestamps in `JsonNumbers.v`, integer literals in `TextInts.v`.

## 6. Findings

Behaviour of the code at the pinned commit that contradicts what one would
expect.  Names in brackets are theorems with a witness.

Binary format and dynamic messages

* A message nested to the limit decodes, but if its innermost map has an entry
  without a value it re-encodes to bytes that do not decode
  [`C02_decoded_message_not_decodable_refuted`].
* `-0.0` in a float field without presence is dropped
  [`C18_negative_zero_refuted`].
* The wire type of a map field's own record is not checked
  [`C19_map_field_wire_type_refuted`, `C54_map_wire_type_refuted`].
* `try_set_field` accepts a plain value for a repeated field, and a message of
  another type; `get_field_mut` allows any write
  [`C16_repeated_accepts_scalar_refuted`, `C16_message_type_unchecked_refuted`,
  `C16_get_mut_unchecked_refuted`].
* Map entries do not count against the recursion limit (C05).
* A merge that fails on a member of a oneof has already cleared the other
  members; a failing string field is emptied [`C56_not_atomic_refuted`].
* NaN breaks `PartialEq` of messages; after `take_fields` the drained entries
  remain as `Taken`; a foreign descriptor makes `add_unknown` panic.

Pools

* Rolling back a failed add compares extension indices with the *message*
  offset: extensions of older files can be lost, new ones left behind
  [`C22_refuted_extension_lost`, `C22_refuted_extension_left`]; `C22_extension_lists`
  says exactly which extensions are in the lists afterwards.
* Chains of public imports are not followed: the test in
  `resolve_public_dependencies` is inverted [`C25_refuted_public_chain`].
* Public import of oneself recurses without end; an unknown `syntax` panics;
  an octal escape above `\377` in a bytes default overflows (panic with
  overflow checks) [`C34_refuted_panic_and_overflow`, `C32_refuted_malformed`].
* A hex escape cut inside a character panics; `+` is taken as a hex digit
  [`C32_refuted_malformed`].
* Keys of unknown options written with more bytes than needed are shortened
  [`C31_refuted_overlong_key`].
* A proto3 list that has any options but no `packed` is taken as unpacked
  [`C55_packed_default_refuted`].
* Extension numbers are not checked for duplicates
  [`C55_extension_number_refuted`, `C62_same_extension_number_accepted`]; `map_entry` messages are
  not validated, and decoding with a bad one panics
  [`C57_map_entry_unchecked_refuted`]; a different file under a known name is ignored silently; a
  name starting with a dot is found only with an extra dot; a file with package
  `.x` that fails leaves an empty-named package; a panic inside the global
  pool's lock poisons it for good [`C30_poisoned_forever`].
* An extension without an extendee refers to the empty name; next to a message of
  that name it is accepted outside the extension ranges, and the descriptor that
  the pool gives back for it is rejected [`C63_unnamed_extendee`].
* The first component of a compound name is looked up without regard to
  imports, so other files in the pool or in the same call change how names
  resolve: files accepted in two calls are rejected in one, or in another order
  [`C64_refuted_dots`].
* The error about an enum value with a reserved number points at part 3 of the
  value, its options (3 is the number of a field); the number of a value is
  part 2 [`C68_refuted_reserved_value`].
* Spans of source info are not checked: a line or column of -1 is reported as
  2^64 - 1, and formatting the error with `{:?}` overflows (a panic where overflow
  checks are on) [`C71_refuted_negative_column`].
* Names are not checked: a message named `.M` in a file without package is
  accepted, and then `FileDescriptor::messages` panics, because the lookup by full
  name drops the leading dot [`C72_refuted_dotted_name`].
* Bounds of ranges are not checked either: an extension range from -5 to 100 is
  accepted, with extensions in it, but `extension_ranges` shows it wrapped around,
  as 4294967291..100, which holds no number [`C73_refuted_negative_bound`].
* The build helper adds attributes for names without a leading dot, which
  prost-build matches with the ends of names: with messages `b.M` and `a.b.M` in
  one set, the type of `a.b.M` gets two implementations and does not compile
  [`C69_refuted_suffix`].  If the global pool knows another file under the name of
  a generated one, adding succeeds and `descriptor()` panics
  [`C69_refuted_known_file`].
* A custom option whose value is nested deeper than 100 is accepted, and
  `options()` panics on it; with groups, adding the file panics
  [`C58_deep_option_refuted`, `C58_deep_groups_refuted`].
* An uninterpreted option without a name, or with the name
  `uninterpreted_option`, is accepted and lost [`C58_lost_refuted`]; setting a
  field twice is not noticed if it has no presence and was first set to its
  default [`C58_set_twice_refuted`]; an uninterpreted `packed` shows in
  `options()` but not in `is_packed()` [`C58_packed_refuted`].

Text format

* A float is read as double and then rounded again
  [`C38_float_rounded_twice_refuted`]; an expanded Any may come
  back with other bytes for the same fields, and unknown fields do not parse back
  [`C38_expanded_any_refuted`, `C38_unknown_fields_refuted`]; Any with an
  unusual type URL [`C49_unusual_url_refuted`].
* `-0` is refused for unsigned kinds [`C39_minus_zero_refuted`].
* Duplicate detection misses default values and expanded Any; some schemas
  and contents make the parser panic [the five `C40_*_refuted`].
* A group field is found only if its name is the lowercase type name.

JSON

* Null for a repeated `Value`/`NullValue` field stores a single value in a list
  field, and encoding that message panics
  [`C53_null_list_refuted`, `C48_null_repeated_refuted`].
* A non-finite `FloatValue`/`DoubleValue` is written as null, a `NullValue` with
  another number as null, a `Value` without a kind comes back as null, an
  empty Any cannot be written, and with `use_proto_field_name` fields whose
  names are JSON names of others are swapped [six `C42_refuted_*`].
* Doubles `2^63` and `2^64` are accepted for 64-bit integers and saturate
  [`C44_limit_double_refuted`].
* Field masks with a trailing underscore, a comma or an empty path do not come
  back [`C43_other_paths_refuted`].
* Nanos of a timestamp and agreement of the signs of a duration are not
  checked; members before `@type` are buffered in a map, so duplicates merge and
  order is lost; for duplicate members outside oneofs the last one wins.
* Writing an Any decodes its payload and writes it, without a limit to the nesting
  (the recursion limit starts anew with each payload), so only the size of the
  bytes bounds the stack [`C67_no_depth_enough`]; it does end [`C67_text_ends`,
  `C67_json_ends`].
* In the text format a message inside another that has nothing to show is
  written `{}`, before it is looked at as an Any, while at the top level the Any
  comes first; so the same Any message can be shown in two ways
  [`written_nothing` in Prop_TextWritten.v].  Unknown bytes that happen to parse
  as records are shown as records (`hi` as `{13:105}`) [`written_case`].

## 7. Testing the theorems

`seeded/LOG.jsonl` records edits made to the model in a scratch copy, what they
break and which proofs failed.  `first_failing` names the proofs that Coq
rejected; they were admitted in the scratch copy and the build continued until
a theorem of the property expected to break was reached, so `theorems_failed`
are the theorems that failed or rest on a failed lemma.  A failing proof alone
does not show that a statement became false, so each entry was also judged by
reading; where no statement was false, `note` says so and names the theorem
added.
