{
 "claims": [
  {
   "property": "C01",
   "status": "proved",
   "theorems": [
    "C01_valid_iff_grammar",
    "C01_parse_total",
    "C01_parse_value_exact"
   ],
   "note": "all byte strings; grammar as inductive relation in SpecJson.v"
  },
  {
   "property": "C02",
   "status": "proved",
   "theorems": [
    "C02_ascii_valid_print_exact",
    "C02_ascii_valid_exact"
   ],
   "note": "all lengths and bytes"
  },
  {
   "property": "C03",
   "status": "proved",
   "theorems": [
    "C03_unmarshal_interface",
    "C03_use_number",
    "C03_denotation_unique",
    "C03_errors",
    "C03_accepts_iff"
   ],
   "note": "strconv.ParseFloat is a parameter (any partial function from literals to floats); the denotation of a tree is the independent relation denotes of SpecDec.v, proved unique"
  },
  {
   "property": "C04",
   "status": "proved",
   "theorems": [
    "C04_decoded_characters",
    "C04_denotation_unique"
   ],
   "note": "all string tokens; code points specified by str_denotes in SpecString.v"
  },
  {
   "property": "C05",
   "status": "proved",
   "theorems": [
    "C05_string_round_trip",
    "C05_valid_utf8_unchanged"
   ],
   "note": "all Go strings, both HTML modes"
  },
  {
   "property": "C06",
   "status": "proved",
   "theorems": [
    "C06_encoded_string_is_token"
   ],
   "note": "all Go strings"
  },
  {
   "property": "C07",
   "status": "partial",
   "theorems": [
    "C07_string_html_safe",
    "C07_output_html_free_partial",
    "C07_output_html_free_refuted"
   ],
   "note": "strings: complete. Whole outputs: proved for every configuration whose colors and indentation are free of HTML characters and every value whose Numbers and times are; refuted in general because Number is checked only as a prefix ('1<' is written as is) and trusted malformed raw messages are written verbatim"
  },
  {
   "property": "C08",
   "status": "proved",
   "theorems": [
    "C08_in_range_stored",
    "C08_out_of_range_error",
    "C08_only_integers_stored",
    "C08_minus_zero_unsigned_refuted"
   ],
   "note": "all eleven integer types, literals of any length; unsigned types reject a sign, so -0 is the one in-range literal refused"
  },
  {
   "property": "C09",
   "status": "proved",
   "theorems": [
    "C09_int_round_trip"
   ],
   "note": "strconv.AppendInt by its contract (shortest decimal text)"
  },
  {
   "property": "C10",
   "status": "partial",
   "theorems": [
    "C10_valid_json_partial",
    "C10_valid_json_refuted"
   ],
   "note": "valid JSON for every clean value; refuted for malformed Number suffixes, nil embedded pointer after a field, unsorted map[string]RawMessage with a bad message, nil TextMarshaler key"
  },
  {
   "property": "C11",
   "status": "partial",
   "theorems": [
    "C11_round_trip_partial",
    "C11_marshal_partial",
    "C11_exact_floats_partial",
    "C11_invalid_utf8_refuted",
    "C11_nil_slice_becomes_nil_refuted"
   ],
   "note": "every tree of nil, booleans, finite floats, UTF-8 strings, slices and maps, any flags and whitespace indentation, given ParseFloat's contract on the floats of the tree (shown satisfiable for all trees at once by an exact parser); false for strings that are not UTF-8 and for typed nils; typed targets are not covered here"
  },
  {
   "property": "C12",
   "status": "partial",
   "theorems": [
    "C12_strip_partial",
    "C12_strip_refuted"
   ],
   "note": "Equality of the stripped output (and error and depth) proved for all values without ,string and integer map keys; those two cases are refuted: the color codes are escaped into the JSON string."
  },
  {
   "property": "C13",
   "status": "partial",
   "theorems": [
    "C13_zero_colors_refuted",
    "C13_zero_colors_partial"
   ],
   "note": "The property is false: a zero Colors emits a reset code after each token. Proved: after removing escape sequences the output is the plain one."
  },
  {
   "property": "C14",
   "status": "partial",
   "theorems": [
    "C14_token_colors_partial",
    "C14_token_colors_refuted"
   ],
   "note": "exact colored output for clean values; refuted for nil []byte and for array elements after an empty object in a raw message"
  },
  {
   "property": "C15",
   "status": "partial",
   "theorems": [
    "C15_no_injection_partial",
    "C15_no_injection_refuted"
   ],
   "note": "Proved for all strings, keys, bytes, raw messages (checked or valid), ,string values; refuted for Number values with trailing bytes and malformed trusted raw messages."
  },
  {
   "property": "C16",
   "status": "partial",
   "theorems": [
    "C16_squeeze_partial",
    "C16_squeeze_refuted",
    "C16_std_indent_partial",
    "C16_std_indent_refuted"
   ],
   "note": "both halves proved with side conditions; refuted for ,string on MarshalJSON types and for structs writing no field"
  },
  {
   "property": "C17",
   "status": "partial",
   "theorems": [
    "C17_depth_restored_partial",
    "C17_depth_restored_refuted"
   ],
   "note": "restored on every success; refuted on errors and for cut-short trusted messages"
  },
  {
   "property": "C18",
   "status": "proved",
   "theorems": [
    "C18_order_irrelevant",
    "C18_keys_ascending",
    "C18_keys_ascending_mapsi",
    "C18_keys_ascending_mapsr"
   ],
   "note": "order independence for every value with distinct map keys; ascending keys for all three map encoders on clean values"
  },
  {
   "property": "C19",
   "status": "partial",
   "theorems": [
    "C19_tokens_kept",
    "C19_like_native_partial",
    "C19_like_native_refuted"
   ],
   "note": "tokens, order and meaning kept: complete. Same layout and colors as the native value: proved without colors, and with colors when no array contains an empty object; refuted otherwise"
  },
  {
   "property": "C20",
   "status": "partial",
   "theorems": [
    "C20_untrusted_partial",
    "C20_trusted_partial",
    "C20_refuted",
    "C20_trusted_indented_partial",
    "C20_escaped_refuted"
   ],
   "note": "refuted: bytes after the value are dropped; trusted mismatched brackets truncate, a lone comma panics With the modelled Indent, malformed trusted messages are written byte for byte with any Indenter, unless EscapeHTML is set (C20_trusted_indented_partial, C20_escaped_refuted)."
  },
  {
   "property": "C21",
   "status": "partial",
   "theorems": [
    "C21_tokens_partial",
    "C21_tokens_positions",
    "C21_run_unique",
    "C21_only_tokens",
    "C21_iskey_refuted"
   ],
   "note": "Token sequence proved for every valid document; the IsKey flag is exact except after an empty object inside an array (refuted there)."
  },
  {
   "property": "C22",
   "status": "partial",
   "theorems": [
    "C22_errors_sticky",
    "C22_bad_token_reported_partial",
    "C22_panic_iff_partial",
    "C22_run_bounded",
    "C22_panic_refuted",
    "C22_mismatch_not_sticky_refuted",
    "C22_brackets"
   ],
   "note": "Sticky lexical errors and termination proved; mismatched delimiters are not sticky and a top-level comma panics (refuted), with an exact characterisation. C22_brackets: on every input the brackets of the tokens returned match, Depth is the nesting, and a closing bracket that does not match makes Next return false."
  },
  {
   "property": "C23",
   "status": "partial",
   "theorems": [
    "C23_chunking_independent",
    "C23_terminates",
    "C23_values_partial",
    "C23_malformed_partial",
    "C23_truncated_partial",
    "C23_decode_partial",
    "C23_decode_interface_partial",
    "C23_number_boundary_refuted",
    "C23_string_boundary_refuted",
    "C23_error_with_data_refuted"
   ],
   "note": "Independence of the chunking is proved for every reader without errors before its end. That the values are those of the stream, also before a malformed value or a cut, holds for streams that fit in the first 32 KiB buffer and for streams of any length whose values are not top-level numbers and have no \\u escape after an escaped quote; it is refuted in general."
  },
  {
   "property": "C24",
   "status": "partial",
   "theorems": [
    "C24_offset_partial",
    "C24_last_value_partial",
    "C24_bounds_partial",
    "C24_bounds",
    "C24_trailing_whitespace_refuted",
    "C24_leading_whitespace_refuted"
   ],
   "note": "Exact within the first buffer while something follows; whitespace up to the end of the buffer is never counted, so the full claim is refuted. C24_bounds: for every reader and every history the offset is between the total length of the values returned and the position of what is left."
  },
  {
   "property": "C25",
   "status": "partial",
   "theorems": [
    "C25_all_or_nothing_partial",
    "C25_sticky_partial",
    "C25_lines_partial",
    "C25_failed_write_refuted",
    "C39_jc_write_error_refuted"
   ],
   "note": "Over every history of calls and write results: one Write of encoding+newline or none; sticky error. False as stated: the Encode whose Write fails returns nil (refuted by a witness), so jc exits with success when it cannot write. Histories end at a panic."
  },
  {
   "property": "C26",
   "status": "partial",
   "theorems": [
    "C26_history_irrelevant_partial",
    "C26_no_indent_partial",
    "C26_depth_leak_refuted"
   ],
   "note": "Holds without indentation for every history, and with indentation if every Encode since the last SetIndent succeeded. False as stated: a failed Encode leaks indentation depth (refuted)."
  },
  {
   "property": "C27",
   "status": "proved",
   "theorems": [
    "C27_isolation",
    "C27_exclusive",
    "C27_progress",
    "C27_bounded",
    "C27_marshal"
   ],
   "note": "Interleaving model of Marshal, Encode and Parse at single buffer accesses; the pool may lose or keep buffers. A codec is any sequence of buffer updates; C27_marshal instantiates it with the encoder model. Assumes values are not mutated by others during a call; a Marshal called from inside MarshalJSON counts as one more call."
  },
  {
   "property": "C28",
   "status": "proved",
   "theorems": [
    "C28_right_codec",
    "C28_cache_sound",
    "C28_store_keeps",
    "C28_lost_entry_refuted"
   ],
   "note": "constructCodec is a function of the type. Entries can be lost (C28_lost_entry_refuted) without effect on the codec used."
  },
  {
   "property": "C29",
   "status": "proved",
   "theorems": [
    "C29_append_extends"
   ],
   "note": "every value and configuration"
  },
  {
   "property": "C30",
   "status": "partial",
   "theorems": [
    "C30_detection",
    "C30_detection_windows",
    "C30_windows_mode",
    "C30_jc_plain",
    "C30_jc_file_partial",
    "C30_jc_file_refuted"
   ],
   "note": "Detection is proved exactly (a variable set to the empty string counts as unset). 'jc never colorizes file output' is false with FORCE_COLOR (refuted); holds when FORCE_COLOR is not set and the file is not a terminal."
  },
  {
   "property": "C31",
   "status": "partial",
   "theorems": [
    "C31_nil_embedded_partial",
    "C31_nil_embedded_refuted"
   ],
   "note": "holds before the first written field; a trailing comma is left otherwise"
  },
  {
   "property": "C32",
   "status": "proved",
   "theorems": [
    "C32_colors_keep_outcome"
   ],
   "note": "For every value, including error paths and panics."
  },
  {
   "property": "C33",
   "status": "partial",
   "theorems": [
    "C33_encode_spec_partial"
   ],
   "note": "exact output and success criterion for clean values (see SpecRender.clean): excludes the refuted cases of C10/C20/C31"
  },
  {
   "property": "C34",
   "status": "proved",
   "theorems": [
    "C34_float_value",
    "C34_float_special"
   ],
   "note": "the shortest digits themselves are strconv's (trusted contract); everything this package does with them is proved"
  },
  {
   "property": "C35",
   "status": "proved",
   "theorems": [
    "C35_bytes_base64"
   ],
   "note": "every byte string, any configuration (nil []byte is under C14)"
  },
  {
   "property": "C36",
   "status": "partial",
   "theorems": [
    "C36_marshal_partial"
   ],
   "note": "for clean values; the defects of unclean ones are under C10, C20 and C31"
  },
  {
   "property": "C37",
   "status": "proved",
   "theorems": [
    "C37_conserved",
    "C37_buffered_partial"
   ],
   "note": "C37_conserved: every reader, with any errors and pieces, every number of calls: stream = values returned, white space, Buffered, rest of the reader. C37_buffered_partial: for streams under the condition of C23_values_partial the values returned are also those of the stream."
  },
  {
   "property": "C38",
   "status": "proved",
   "theorems": [
    "C38_empty_indenter"
   ],
   "note": ""
  },
  {
   "property": "C39",
   "status": "proved",
   "theorems": [
    "C39_jc_preserves",
    "C39_jc_preserves_exact",
    "C39_jc_rejects"
   ],
   "note": "Relative to ParseFloat finding finite floats again from their shortest decimals; the second theorem instantiates it with an exact decimal parser. Operating system calls are parameters; go-colorable is the identity (not Windows)."
  },
  {
   "property": "C40",
   "status": "proved",
   "theorems": [
    "C40_to_core_color",
    "C40_attributes",
    "C40_to_core_colors",
    "C40_nil_plain",
    "C40_defaults"
   ],
   "note": "The format printed by github.com/fatih/color is modelled, as the library is not in the repository."
  },
  {
   "property": "C41",
   "status": "partial",
   "theorems": [
    "C41_unmarshal_partial",
    "C41_parse_partial",
    "C41_arrays_refuted",
    "C41_spelled",
    "C41_spelled_parse",
    "C41_strict",
    "C41_enough_room"
   ],
   "note": "for JSON only: every type without fixed-size arrays (also in the fields of the structs); refuted for arrays: surplus elements may be separated by blanks or preceded by a comma. C41_spelled, C41_spelled_parse: for every type, arrays included, whatever is accepted is a spelling (SpecLoose.v) of a JSON value, and the target ends as after decoding that value; C41_strict: without arrays the spellings are JSON texts; C41_enough_room: in an array with room for its elements they are properly separated"
  },
  {
   "property": "C42",
   "status": "proved",
   "theorems": [
    "C42_typed_decoding",
    "C42_accepts_iff",
    "C42_every_text",
    "C42_interface"
   ],
   "note": "specification: the relation stores of SpecType.v, which mentions no decoder. Library and user functions (ParseFloat, time.Parse, ParseDuration, base64, UnmarshalJSON, UnmarshalText, ToLower, SimpleFold) are parameters. Interfaces holding pointers are outside this theorem."
  },
  {
   "property": "C43",
   "status": "proved",
   "theorems": [
    "C43_memory_safe",
    "C43_zero_fits",
    "C43_zero"
   ],
   "note": "for every environment of struct types whose field paths are well typed (env_typed, SpecFit.v) and user functions that do not panic; memory is modelled as a typed tree, unsafe offsets as positions in it"
  },
  {
   "property": "C44",
   "status": "proved",
   "theorems": [
    "C44_unknown_ignored",
    "C44_unknown_rejected"
   ],
   "note": ""
  },
  {
   "property": "C45",
   "status": "proved",
   "theorems": [
    "C45_null"
   ],
   "note": "a pointer to a pointer stays and the inner pointer becomes nil, as on_null of SpecField.v says; a RawMessage becomes the text null"
  },
  {
   "property": "C46",
   "status": "partial",
   "theorems": [
    "C46_selects",
    "C46_case_irrelevant",
    "C46_non_ascii_refuted"
   ],
   "note": "complete for ASCII names; refuted outside ASCII (key \u00e9 does not find field \u00c9, as SimpleFold maps \u00e9 to \u00c9 while the names are lowered)"
  },
  {
   "property": "C47",
   "status": "proved",
   "theorems": [
    "C47_unmentioned_kept"
   ],
   "note": "also for fields that merely do not overlap the selected ones"
  },
  {
   "property": "C48",
   "status": "partial",
   "theorems": [
    "C48_exact_length_partial",
    "C48_other_length_partial",
    "C48_short_arrays_refuted"
   ],
   "note": "elements and surplus values: exact. Missing values: the elements keep their content, and [] is an error unless the Go array has length 0 (refuted)"
  },
  {
   "property": "C49",
   "status": "partial",
   "theorems": [
    "C49_map_entries",
    "C49_int_keys",
    "C49_null_key_refuted"
   ],
   "note": "entries: complete. Integer keys: exact except that the key \"null\" counts as 0 (refuted)"
  },
  {
   "property": "C50",
   "status": "partial",
   "theorems": [
    "C50_typed_round_trip_partial",
    "C50_marshal_partial",
    "C50_view_exists",
    "C50_view_unique",
    "C50_ptr_null_refuted",
    "C50_omitempty_refuted",
    "C50_utf8_refuted",
    "C50_unexported_refuted"
   ],
   "note": "for values JSON can carry (SpecSame.trip): UTF-8 strings, finite floats that ParseFloat reads back (with UseNumber, in interfaces: Numbers holding a JSON number), valid messages, pointers to values not written as null, omitted fields that are zero, exported embedded pointers, nil embedded pointers only before all written fields; each of the main exclusions is refuted by a witness. Messages come back with the same tree (HTML escapes may differ), the nil message as null"
  },
  {
   "property": "C51",
   "status": "partial",
   "theorems": [
    "C51_fields_partial",
    "C51_rules_determine",
    "C51_depth_refuted",
    "C51_duplicate_refuted",
    "C51_tag_refuted",
    "C51_unexported_refuted",
    "C51_bad_tag_refuted"
   ],
   "note": "Proved for declarations with proper tags, whose name clashes are between a field and promoted ones or among fields promoted from the first level, and in which no embedded struct leads back to the struct embedding it. Without these the claim is false of the code; each refutation gives a program: depth ignored, equal tags both encoded, tags below the first level ignored, tagged unexported embedded type encoded, embedded struct with an improper tag not inlined."
  },
  {
   "property": "C52",
   "status": "proved",
   "theorems": [
    "C52_fields_sound",
    "C52_own_fields",
    "C52_environment",
    "C52_names"
   ],
   "note": "C52_environment shows that struct types computed from declarations satisfy what C46 to C50 assume of their environment. Embedded types with methods of their own (time.Time, types with MarshalJSON) are not treated as structs in the model. C52_names: for any declarations, every JSON field has the name, type and options of the declaration its path leads to (an invalid name in the tag gives the Go name)."
  },
  {
   "property": "C53",
   "status": "partial",
   "theorems": [
    "C53_same_everywhere_partial",
    "C53_nested_refuted"
   ],
   "note": "Proved under the hypotheses of C51. False in general: type Base struct{Children []*Node; Name string}, type Node struct{Base; Value int}: the nodes inside a Base are encoded without Name and Children, a Node on its own with them."
  },
  {
   "property": "C54",
   "status": "partial",
   "theorems": [
    "C54_marshal_indent_partial",
    "C54_like_append_partial",
    "C54_like_append_refuted",
    "C54_success_is_json",
    "C54_error_with_bytes_refuted",
    "go_indents",
    "C54_deep_refuted"
   ],
   "note": "for clean values (SpecRender.clean) whose text has at most 10000 brackets open at once, given that the standard Indent lays out such JSON texts as std_indent does, which is proved of the modelled Indent (go_indents); deeper values are written by Marshal and rejected by MarshalIndent (C54_deep_refuted); agreement with the Encoder fails for structs that write no field and for an empty prefix with an empty indent (refuted). For every value, success means that the text of Marshal is JSON; where Marshal writes malformed text, MarshalIndent returns it beside an error (C54_error_with_bytes_refuted)."
  },
  {
   "property": "C55",
   "status": "partial",
   "theorems": [
    "C55_value_found_partial",
    "C55_exactly",
    "C55_value_found_refuted",
    "C55_key_found_partial"
   ],
   "note": "Proved for every type the code classifies as the Go runtime does; C55_exactly says which those are; arrays of length one of a direct type are classified wrongly (C55_value_found_refuted). Keys of maps: proved for keys that are not direct."
  },
  {
   "property": "C56",
   "status": "partial",
   "theorems": [
    "C56_members_partial",
    "C56_test_partial",
    "C56_interface_refuted",
    "C56_behind_pointer_refuted"
   ],
   "note": "Proved for structs whose omitempty fields are not promoted through an embedded pointer, and values for which the output is JSON at all (clean). Refuted otherwise: for a promoted field the test is applied to the pointer, and an interface holding a nil pointer counts as empty."
  },
  {
   "property": "C57",
   "status": "proved",
   "theorems": [
    "C57_independent",
    "C57_same_value",
    "C57_stream",
    "C57_stream_now",
    "C57_shared_refuted",
    "C57_zero_copy_stream_refuted"
   ],
   "note": "C57_independent: without the flags, for every later content of the input's memory. C57_same_value: with any flags, while the input is unmodified. C57_stream, C57_stream_now: the same for a Decoder, with the content of its buffers modelled. The two refuted theorems show that the conditions are needed: with a flag the value follows the input, and with ZeroCopy the next Decode changes what the last one returned. User-defined UnmarshalJSON/UnmarshalText methods are taken to copy what they keep, as their interfaces require."
  },
  {
   "property": "C58",
   "status": "partial",
   "theorems": [
    "C58_malformed_partial",
    "C58_wellformed_partial",
    "C58_parse_wellformed_partial",
    "C58_wellformed_refuted",
    "C58_malformed_refuted"
   ],
   "note": "C58_malformed_partial: texts that are not JSON give a SyntaxError, unless the target is an integer, an array, a map whose keys have UnmarshalText, or a struct under DisallowUnknownFields; C58_malformed_refuted shows that these are exceptions. C58_wellformed_partial: JSON texts never give one from Unmarshal (which passes no flags), for types without arrays, maps with keys other than strings and non-integer fields with the option \",string\", and not directly into an integer; C58_wellformed_refuted shows a JSON text with a SyntaxError for each of these types. C58_parse_wellformed_partial: the same for Parse and Decode with any flags, integers included. The first theorem excludes arrays everywhere in the type because arrays accept some texts that are not JSON (C41_arrays_refuted)."
  },
  {
   "property": "C59",
   "status": "partial",
   "theorems": [
    "C59_white_space",
    "C59_spelling_partial",
    "C59_durations_refuted"
   ],
   "note": "C59_white_space: any two texts of one syntax tree, every type without RawMessage and UnmarshalJSON. C59_spelling_partial: strings and keys spelled differently, for types that in addition contain no time.Time and no time.Duration. C59_durations_refuted: those are read up to the next quote without interpreting escapes, so an escape in them is rejected."
  },
  {
   "property": "C60",
   "status": "partial",
   "theorems": [
    "C60_methods_partial",
    "C60_pointers_partial",
    "C60_first_place_refuted",
    "C60_precedence_refuted",
    "C60_embedded_pointer_refuted"
   ],
   "note": "Proved for every set of types in which each struct type occurs either always or never with an address, no embedded pointer occurs in a struct without an address, and no type has MarshalText on the value but MarshalJSON on the pointer only; in particular for what a pointer points to if there are no maps. Refuted otherwise: the codec of a struct type is the one for the first place it is met; MarshalText on the value hides MarshalJSON on the pointer; what embedded pointers point to counts as having no address."
  },
  {
   "property": "C61",
   "status": "partial",
   "theorems": [
    "C61_ends_partial",
    "C61_endless",
    "C61_recursive_refuted"
   ],
   "note": "Proved if every type that contains itself does so through a struct. Refuted for the others (C61_endless: all of them; C61_recursive_refuted: type S []S and type M map[string]M, which encoding/json accepts): the recursion never ends."
  },
  {
   "property": "C62",
   "status": "partial",
   "theorems": [
    "C62_decoders_partial",
    "C62_fields_partial"
   ],
   "note": "The decoder chosen is the one the type language of TypeModel.v stands for, for every type and for the own fields of every struct type in the table. Missing: types of kind uint8 with UnmarshalJSON or UnmarshalText as methods of the value (see C63_byte_methods_refuted)."
  },
  {
   "property": "C63",
   "status": "partial",
   "theorems": [
    "C63_calls_partial",
    "C63_keys_refuted",
    "C63_byte_methods_refuted"
   ],
   "note": "Proved if the key types of maps have both MarshalText and UnmarshalText or neither, and no type of kind uint8 has UnmarshalJSON or UnmarshalText as a method of the value. Refuted otherwise: a key type with one of the two makes the other direction call a method that does not exist; a slice of such bytes is decoded through a call that panics."
  },
  {
   "property": "C64",
   "status": "proved",
   "theorems": [
    "C64_order",
    "C64_accepted",
    "C64_distinct_keys",
    "C64_case_refuted",
    "C64_integer_keys_refuted"
   ],
   "note": "C64_order: same content whatever the order; C64_accepted: accepted in one order if and only if in the other; C64_distinct_keys: when keys cannot clash. The two refutations show the proviso is needed: keys that differ in case only select the same field and the last one wins, and so do the keys null and 0 of a map with integer keys."
  },
  {
   "property": "C65",
   "status": "partial",
   "theorems": [
    "C65_like_the_pointer",
    "C65_stored",
    "C65_nil_pointer",
    "C65_named",
    "C65_error_drops_refuted",
    "C65_named_null_refuted",
    "C65_named_again_refuted",
    "C65_named_nil"
   ],
   "note": "interface{}: same error for every input and same content on success; after an error the interface is nil (refuted). Other interface types: same error and content, pointer kept, unless the text is null, which makes them nil also if the pointer leads to a pointer (refuted). A variable of a named empty interface type that holds anything but a pointer cannot be decoded into again (refuted)."
  },
  {
   "property": "C66",
   "status": "partial",
   "theorems": [
    "C66_place_partial",
    "C66_only_place",
    "C66_names_it_partial",
    "C66_field_text",
    "C66_field_refuted"
   ],
   "note": "The sequence of segments is proved to be the unique place of the first value that cannot be stored (SpecWhere.faults, built on SpecType.stores). The text of Field is these segments with dots between them and one more dot at the end, so it is not the dotted path (C66_field_refuted)."
  },
  {
   "property": "C67",
   "status": "partial",
   "theorems": [
    "C67_finite_partial",
    "C67_stack",
    "C67_encoded_is_finite",
    "C67_infinite_partial",
    "C67_refuted"
   ],
   "note": "False as stated: a value that contains itself, and in which nothing can fail, makes the encoder run out of stack, which ends the program (C67_infinite_partial for all such values, C67_refuted for a ring). Proved: finite values with any sharing are encoded as their tree, and whatever is encoded without an error is finite."
  },
  {
   "property": "C68",
   "status": "partial",
   "theorems": [
    "C68_chain",
    "C68_loop_partial",
    "C68_null",
    "C68_returns",
    "C68_refuted"
   ],
   "note": "Proved for all chains that end. False for circular ones (x = &y, y = &x, or x = &x): Unmarshal returns nil and the value is lost (C68_loop_partial for all of them, C68_refuted)."
  },
  {
   "property": "C69",
   "status": "partial",
   "theorems": [
    "C69_memory_partial",
    "C69_others_partial",
    "C69_new",
    "C69_layout",
    "C69_refuted"
   ],
   "note": "Proved for targets no part of which is referred to twice; every new variable is one (C69_new). Refuted for targets that refer to themselves: the elements of a slice are decoded before its length is increased, so decoding an element that changes the same slice makes the length pass the capacity, and the next element is written behind the slice."
  },
  {
   "property": "C70",
   "status": "partial",
   "theorems": [
    "C70_any_memory_partial",
    "C70_untouched_partial",
    "C70_history_partial",
    "C70_new",
    "C70_refuted"
   ],
   "note": "Proved for target types in which no slice can be reached from its own elements (arrays, structs, pointers, maps may form rings). Keys of maps stay different and of the key type. C70_refuted shows that the claim is false without that condition: decoding into a slice that is reached again from its own element leaves it longer than its capacity. For slices in recursive types, C69 covers targets without sharing. Frame is by type: variables of types that cannot be reached from the target's are not written. Padding may be written."
  },
  {
   "property": "C71",
   "status": "partial",
   "theorems": [
    "C71_memory_partial",
    "C71_returns_partial",
    "C71_sharing_partial",
    "C71_holds",
    "C71_only_partial",
    "C71_any_memory",
    "C71_any_only",
    "C71_after_partial",
    "C71_copy_partial"
   ],
   "note": "Missing: what the test for omitempty of a field behind an embedded pointer reads (a parameter, required to agree between value and memory; see C56), references inside interfaces (one cell here; see C67), memory in which reading never ends (C67; the example shows that the model gives no result for a ring). C71_copy_partial is for values that JSON can carry (as C50). The frame in rings is by type, as in C70."
  },
  {
   "property": "C72",
   "status": "proved",
   "theorems": [
    "C72_left",
    "C72_unnamed",
    "C72_untouched_refuted",
    "C72_interface_kept_refuted",
    "C72_entries_refuted",
    "C72_slice_kept_refuted"
   ],
   "note": "For all byte strings and all types, fixed-size arrays included (what is read from them as in C41_spelled). Refuted readings of the claim that go beyond it: a text that is not JSON leaves the target alone (as with encoding/json); an interface{} keeps its content; a nil map gets the entries that were read; a slice keeps its length."
  },
  {
   "property": "C73",
   "status": "partial",
   "theorems": [
    "C73_same",
    "C73_limit_refuted",
    "C73_tower_refuted",
    "C73_depth_partial",
    "C73_valid_partial"
   ],
   "note": "There is no limit: L opening brackets take a recursion of L calls into every type (refuted, also for [[...]] which is JSON). Proved: the depth is at most proportional to the length of the input for all types, and for Valid it is exactly one more than the nesting of the text."
  },
  {
   "property": "C74",
   "status": "partial",
   "theorems": [
    "C74_quadratic",
    "C74_linear_refuted",
    "C74_error_refuted",
    "C74_depth_partial",
    "C74_square_partial",
    "C74_concrete_partial",
    "C74_valid_partial",
    "C74_reads"
   ],
   "note": "Refuted for interface{}: [[...]] of 2n bytes takes at least n*n steps, since every value is parsed before its parts are. Refuted also for a struct with a pointer to itself when the text is refused: the error makes every object around it be parsed again. Proved: never more than proportional to length times depth of the recursion, hence quadratic; linear for Valid, and for every type without interfaces when the text is accepted. C74_reads is the lower bound: the meter counts every byte of an accepted text."
  },
  {
   "property": "C75",
   "status": "partial",
   "theorems": [
    "C75_reports",
    "C75_type_partial",
    "C75_value_partial",
    "C75_value_shows_partial",
    "C75_integers_partial",
    "C75_text_partial",
    "C75_struct_partial",
    "C75_value_refuted",
    "C75_type_refuted",
    "C75_struct_refuted"
   ],
   "note": "Proved: Type is the type wanted at the unique place of C66, and Value shows that value or its first 32 bytes. Refuted: Value goes on with whatever follows the value in the text; a time.Duration is reported as int32 and a type with UnmarshalText as a pointer to it; Struct is the concatenation of the types of all containers, not the name of a struct. Not said: the values inside strings of fields with the option string, and errors that UnmarshalJSON methods return."
  },
  {
   "property": "C76",
   "status": "partial",
   "theorems": [
    "C76_one_value",
    "C76_each_value",
    "C76_goes_on_partial",
    "C76_goes_on_refuted",
    "C76_rest_of_input",
    "C76_no_target"
   ],
   "note": "Success, successive calls, the rest as an end of the input and targets that are no pointers: proved in full. Going on after a value of the wrong type is refuted for integers (the parser of integers gives up inside the number and returns all of it) and proved for types that are not integers and without fixed-size arrays and user-defined methods (mild), without DisallowUnknownFields."
  },
  {
   "property": "C77",
   "status": "partial",
   "theorems": [
    "C77_trees_partial",
    "C77_typed_partial",
    "C77_number_refuted",
    "C77_string_refuted",
    "C77_trees_refuted"
   ],
   "note": "False for outputs longer than the Decoder's first buffer: a number at the buffer's end is read as two, a string with a quote before a \\u escape is rejected. Proved for outputs up to 32768 bytes and, beyond, for values that are not numbers and whose strings have no quote before a \\u escape. Trees, with and without UseNumber: see C11 for what JSON carries; typed values: see C50."
  },
  {
   "property": "C78",
   "status": "proved",
   "theorems": [
    "C78_idempotent",
    "C78_canonical",
    "C78_colors",
    "C78_jc",
    "C78_unsorted_refuted"
   ],
   "note": "floats_good is the contract of strconv.ParseFloat on the numbers of the text (in range, and what FormatFloat prints is read back); exact_total shows a parser meeting it for every text. Without sorted keys the form is not canonical (C78_unsorted_refuted)."
  },
  {
   "property": "C79",
   "status": "partial",
   "theorems": [
    "C79_one_line_partial",
    "C79_no_control_partial",
    "C79_lines_partial",
    "C79_one_line_refuted"
   ],
   "note": "Numbers and times must themselves be free of control characters and raw messages checked (no TrustRawMessage) or valid; C79_one_line_refuted shows a Number with text after the number and a malformed trusted message that break the line."
  },
  {
   "property": "C80",
   "status": "partial",
   "theorems": [
    "C80_utf8_partial",
    "C80_utf8_refuted"
   ],
   "note": "Strings, keys, byte slices and texts are arbitrary; Numbers, times, raw messages, colors and indentation must be UTF-8 themselves. C80_utf8_refuted: a raw message with a byte that is not UTF-8 in a string is accepted and written, and so is a Number followed by such a byte."
  },
  {
   "property": "C81",
   "status": "partial",
   "theorems": [
    "C81_escape_partial",
    "C81_escape_refuted"
   ],
   "note": "Under the option \",string\" only values without text are covered: for a string the escape is escaped again (C81_escape_refuted). Numbers, times, colors and indentation must be ASCII without the HTML characters, and trusted messages valid."
  },
  {
   "property": "C82",
   "status": "proved",
   "theorems": [
    "C82_decode",
    "C82_round_trip",
    "C82_nil",
    "C82_library",
    "C82_text_back",
    "C82_strict_refuted"
   ],
   "note": "base64.StdEncoding.Decode is modelled (B64Model.v). C82_library discharges what other theorems ask of the decoder. C82_strict_refuted shows that the leniency in the statement is needed: other texts than those written are accepted."
  },
  {
   "property": "C83",
   "status": "partial",
   "theorems": [
    "C83_nearest",
    "C83_unique",
    "C83_monotone",
    "C83_range64",
    "C83_range32",
    "C83_written",
    "C83_contract",
    "C83_cutoff",
    "C83_decode",
    "C83_jc_preserves",
    "C83_jc_rejects",
    "C83_reformat",
    "C83_trees",
    "C83_variable",
    "C83_typed",
    "C83_tree_ok",
    "C83_exact_refuted",
    "C83_any_number_refuted",
    "C83_zero64",
    "C83_zero32"
   ],
   "note": "the conversions of package strconv, which is not in the repository, are modelled by what they promise (FloatModel.v), in integer arithmetic without bounds, and shown to meet an independent specification (SpecFloat.v: nearest float, shortest decimal); everything above them is the code. Refuted: numbers are not kept exactly through interface{} or jc, and not every JSON number is accepted. Missing: that strconv.ParseFloat and AppendFloat themselves do what they promise"
  },
  {
   "property": "C84",
   "status": "proved",
   "theorems": [
    "C84_disciplined",
    "C84_growth",
    "C84_uncopied",
    "C84_backtrack",
    "C84_independent_refuted",
    "C84_deep_backtrack_refuted",
    "C84_reuse_refuted"
   ],
   "note": "memory with slices and arrays (StackModel.v) against Tokenizers as values (SpecStack.v); the discipline is sufficient, and the refutations show each of its rules is needed"
  },
  {
   "property": "C85",
   "status": "proved",
   "theorems": [
    "C85_calendar",
    "C85_written",
    "C85_reads",
    "C85_rfc",
    "C85_round_trip",
    "C85_distinct",
    "C85_rewritten",
    "C85_unmarshal",
    "C85_contract",
    "C85_typed",
    "C85_variable",
    "C85_year_refuted",
    "C85_offset_refuted",
    "C85_rfc_refuted",
    "C85_reread_refuted"
   ],
   "note": "Time.AppendFormat and time.Parse for RFC3339Nano are modelled (TimeModel.v) and compared with the calendar and the grammar of RFC 3339 (SpecTime.v); times outside the stated range do not survive, which the _refuted theorems show"
  },
  {
   "property": "C86",
   "status": "proved",
   "theorems": [
    "C86_accepts",
    "C86_indent",
    "C86_compact",
    "C86_same_tree",
    "C86_shortest",
    "C86_again",
    "C86_compact_twice",
    "C86_html_escape",
    "C86_html_twice",
    "C86_html_json",
    "C86_nesting_refuted"
   ],
   "note": "the three functions hand their arguments to encoding/json; its scanner, Indent, Compact and HTMLEscape are modelled (ScanModel.v, after the sources of Go 1.25). Valid of this package has no limit on nesting (C86_nesting_refuted)"
  },
  {
   "property": "C87",
   "status": "partial",
   "theorems": [
    "C87_reads",
    "C87_exact",
    "C87_range",
    "C87_close",
    "C87_zero",
    "C87_string",
    "C87_distinct",
    "C87_contract",
    "C87_unmarshal",
    "C87_unmarshal_string",
    "C87_wrap_refuted",
    "C87_zeros_refuted",
    "C87_floor_refuted"
   ],
   "note": "time.ParseDuration is modelled after the sources of Go 1.25, with its float64 arithmetic (DurModel.v). A sum of 2^64 ns or more can be accepted as another duration (C87_wrap_refuted), so that the value is claimed for sums below 2^64; trailing zeros of a fraction matter (C87_zeros_refuted), and finer fractions are neither cut off nor rounded (C87_floor_refuted). C87_contract discharges what the decoding model asks of ParseDuration."
  },
  {
   "property": "C88",
   "status": "partial",
   "theorems": [
    "C88_again_partial",
    "C88_marshal_partial",
    "C88_offset_refuted",
    "C88_number_refuted",
    "C88_omitempty_refuted",
    "C88_pointers_refuted",
    "C88_failed_refuted"
   ],
   "note": "Proved for every type of the class std_ty (SpecStd.v) and every history of successful calls, with the models of ParseFloat, time.Parse, ParseDuration and base64. Missing because false: the five refuted cases. With and without UseNumber. Also not covered: fields behind embedded pointers and types with their own methods."
  },
  {
   "property": "C89",
   "status": "partial",
   "theorems": [
    "C89_distinct_keys",
    "C89_equal_bytes_partial",
    "C89_normal_form_partial",
    "C89_marshal_partial",
    "C89_filled_partial",
    "C89_unsorted_refuted",
    "C89_raw_refuted"
   ],
   "note": "The normal form is proved for every type, json.RawMessage included, with omitempty only on fields that are not behind an embedded pointer (for those the code's test reads the wrong memory and is a parameter of the model). Missing because false: unsorted keys, and equal bytes for raw messages that differ only in spelling. Not covered: colors, whose output is not JSON."
  },
  {
   "property": "C90",
   "status": "proved",
   "theorems": [
    "C90_exact",
    "C90_numbers",
    "C90_idempotent",
    "C90_canonical",
    "C90_floats_refuted"
   ],
   "note": "Stated for Parse with UseNumber of a whole text (unmarshal_with); for streams of values through Encoder and Decoder with UseNumber see C77_trees_partial, for typed variables C50 and C88, which all cover the flag. No assumption on ParseFloat."
  },
  {
   "property": "C91",
   "status": "proved",
   "theorems": [
    "C91_linear",
    "C91_indented",
    "C91_string",
    "C91_string_worst",
    "C91_linear_refuted"
   ],
   "note": "C91_indented is without TrustRawMessage: there malformed messages go through the standard Indent, a parameter of this model. C91_linear_refuted shows that the linear bound needs the absence of indentation."
  },
  {
   "property": "C92",
   "status": "proved",
   "theorems": [
    "C92_unmarshal",
    "C92_parse",
    "C92_interface",
    "C92_every_type",
    "C92_base64",
    "C92_one_rate_refuted"
   ],
   "note": "The hypothesis sized is met by every type made of finitely many types (C92_every_type), the hypothesis on base64 by the standard encoding (C92_base64). What an own UnmarshalJSON or UnmarshalText method keeps counts as one cell. Spare capacity counts for slices of element types, but not for the byte slices that append makes. Memory reachable from the target at the end is counted, not memory dropped on the way."
  },
  {
   "property": "C93",
   "status": "partial",
   "theorems": [
    "C93_again_partial",
    "C93_replay_partial",
    "C93_bytes_partial",
    "C93_named_interface_refuted",
    "C93_unexported_refuted",
    "C93_methods_refuted"
   ],
   "note": "Excluded, and refuted: interface types with a name (they take a value only while nil), embedded pointers to unexported structs (a null elsewhere may drop one that is not allocated again) and own methods that add to their receiver. C93_bytes_partial needs no JSON text for types without arrays, since they accept nothing else (C41)."
  },
  {
   "property": "C94",
   "status": "partial",
   "theorems": [
    "C94_accepted_partial",
    "C94_unexported_refuted",
    "C93_named_interface_refuted"
   ],
   "note": "Excluded, and refuted: interface types with a name and embedded pointers to unexported structs (a nil one is not allocated). Own methods must overwrite their receiver."
  },
  {
   "property": "C95",
   "status": "proved",
   "theorems": [
    "C95_split",
    "C95_one_by_one",
    "C95_replaced_refuted"
   ],
   "note": "env_names is met by every struct type Go programs can declare (field paths are not empty). C95_replaced_refuted shows that the law is not one of interfaces."
  },
  {
   "property": "C96",
   "status": "proved",
   "theorems": [
    "C96_use_number",
    "C96_disallow",
    "C96_case",
    "C96_options_matter"
   ],
   "note": "C96_options_matter shows each option at work outside these conditions. What the options do there is C90 (UseNumber), C44 (unknown fields) and C46 (case). The DontCopy flags are C57."
  },
  {
   "property": "C97",
   "status": "proved",
   "theorems": [
    "C97_map",
    "C97_map_types",
    "C97_slice",
    "C97_scalar",
    "C97_kept_entries_refuted"
   ],
   "note": "C97_kept_entries_refuted shows why the map must be nil at the start: decoding into a map keeps the entries it has, decoding into an interface makes a new one."
  },
  {
   "property": "C98",
   "status": "proved",
   "theorems": [
    "C98_no_maps",
    "C98_sorted",
    "C98_trust",
    "C98_errors_refuted",
    "C98_trust_matters"
   ],
   "note": "EscapeHTML is C81. C98_sorted is about calls that succeed; C98_errors_refuted shows that it does not hold of errors: a map[string]RawMessage with a bad message is refused with SortMapKeys and cut short without it (encode.go:631 drops the error). C98_trust_matters shows TrustRawMessage at work on other texts."
  },
  {
   "property": "C99",
   "status": "proved",
   "theorems": [
    "C99_valid",
    "C99_parse",
    "C99_unmarshal",
    "C99_decoder",
    "C99_number_refuted"
   ],
   "note": "C99_number_refuted is the exception the statement names: the front of a number can be a number."
  },
  {
   "property": "C100",
   "status": "proved",
   "theorems": [
    "C100_slice",
    "C100_array",
    "C100_pointer",
    "C100_entry",
    "C100_field"
   ],
   "note": "Objects of several members are C94: they act as their members one by one."
  },
  {
   "property": "C101",
   "status": "proved",
   "theorems": [
    "C101_array",
    "C101_slice",
    "C101_struct",
    "C101_map_unsorted",
    "C101_map_sorted",
    "C101_map_named",
    "C101_map_raw",
    "C101_quoted",
    "C101_map_raw_refuted",
    "C101_struct_refuted"
   ],
   "note": "The two refutations are the exceptions the statement names: unsorted maps of RawMessage drop errors, and a nil embedded pointer after another field leaves a comma behind (see C31)."
  },
  {
   "property": "C102",
   "status": "proved",
   "theorems": [
    "C102_kept",
    "C102_cached",
    "C102_colors_refuted"
   ],
   "note": "C102_colors_refuted: with colors the statement is false, since color codes are not JSON."
  },
  {
   "property": "C103",
   "status": "proved",
   "theorems": [
    "C103_spread",
    "C103_squeezed",
    "C103_compact",
    "C103_again",
    "C103_layout",
    "C103_again_refuted"
   ],
   "note": "C103_again_refuted: for an input that is not JSON (\"1 2\") the Values put together can be other tokens."
  },
  {
   "property": "C104",
   "status": "proved",
   "theorems": [
    "C104_array",
    "C104_slice",
    "C104_struct",
    "C104_map_unsorted",
    "C104_map_sorted",
    "C104_depth",
    "C104_settled",
    "C104_unsettled_refuted"
   ],
   "note": "C104_unsettled_refuted: a trusted raw message that is cut short leaves the indenter too deep, so what follows it is not laid out as it would be alone."
  },
  {
   "property": "C105",
   "status": "proved",
   "theorems": [
    "C105_relaid",
    "C105_replaced",
    "C105_empty_struct_refuted"
   ],
   "note": "C105_empty_struct_refuted: why every struct must write a field. One that writes none is written with a line break between its braces, which the printer of raw messages leaves out."
  },
  {
   "property": "C106",
   "status": "proved",
   "theorems": [
    "C106_shown",
    "C106_replaced",
    "C106_kinds_refuted"
   ],
   "note": "C106_kinds_refuted: why []byte is left out. With the default colors a []byte is not shown in the color its text gets in a raw message. Empty objects inside arrays are the defect shown under C19."
  },
  {
   "property": "C107",
   "status": "proved",
   "theorems": [
    "C107_through",
    "C107_unread",
    "C107_accepts",
    "C107_map_refuted"
   ],
   "note": "C107_map_refuted: why maps are left out. map[string]RawMessage keeps the values but not the order of the members and not duplicate names. With colors, empty objects inside arrays are the defect shown under C19."
  },
  {
   "property": "C108",
   "status": "proved",
   "theorems": [
    "C108_tree",
    "C108_tokens",
    "C108_unmarshal",
    "C108_quoted_refuted"
   ],
   "note": "C108_quoted_refuted: why the string option must be on scalars. A field of a scalar kind whose MarshalJSON returns an array is quoted with its layout."
  },
  {
   "property": "C109",
   "status": "proved",
   "theorems": [
    "C109_tree",
    "C109_unmarshal",
    "C109_quoted_refuted"
   ],
   "note": "C109_quoted_refuted: why the string option must not be on strings. There the escape is inside a text that is itself quoted."
  },
  {
   "property": "C110",
   "status": "proved",
   "theorems": [
    "C110_tree",
    "C110_unmarshal",
    "C110_accepted",
    "C110_case_refuted"
   ],
   "note": "C110_case_refuted: why no two keys may be the same to the target. Keys that differ only in case select the same field and the last one wins."
  }
 ]
}
