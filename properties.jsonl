{"id": "C01", "title": "Valid accepts exactly JSON", "statement": "For every byte string, Valid(data) is true iff data is optional JSON whitespace, one JSON value per the RFC 8259 grammar, and optional JSON whitespace.", "quantifier": "every byte string, every nesting depth and length", "why_tests_cant": "infinitely many inputs, including every malformed one", "anchors": ["json.go:Valid", "parse.go:parseValue", "parse.go:parseObject", "parse.go:parseArray", "parse.go:parseStringFast", "parse.go:parseNumber"]}
{"id": "C02", "title": "Word-wise ASCII checks are exact", "statement": "The 8/4/1-byte word checks used to classify strings report 'all ASCII' iff every byte is below 0x80, and 'all printable' iff every byte is in 0x20..0x7e, for every length and alignment.", "quantifier": "every byte string of every length", "why_tests_cant": "bit tricks over 64-bit words with carries; 2^64 words", "anchors": ["ascii.go:asciiValid", "ascii.go:asciiValidPrint", "ascii.go:hasLess64", "ascii.go:hasMore64"]}
{"id": "C03", "title": "Decoded values denote the text", "statement": "Unmarshal of a valid JSON text into interface{} succeeds (numbers being representable) and yields the value the text denotes: strings unescaped, arrays in order, the last duplicate key winning.", "quantifier": "every valid JSON text", "why_tests_cant": "unbounded nesting and content", "anchors": ["json.go:Unmarshal", "decode.go:decodeInterface", "decode.go:decodeMapStringInterface", "decode.go:decodeSlice"]}
{"id": "C04", "title": "Decoded strings are UTF-8 and follow the escapes", "statement": "For every JSON string token, decoding returns the code points it denotes (escapes, surrogate pairs, lone surrogates and invalid bytes as U+FFFD), and the result is always valid UTF-8.", "quantifier": "every string token", "why_tests_cant": "all byte combinations and escape sequences", "anchors": ["parse.go:parseStringUnquote", "parse.go:appendCoerceInvalidUTF8", "parse.go:parseUnicode"]}
{"id": "C05", "title": "String round trip", "statement": "For every Go string and both HTML-escaping modes, decoding its encoding returns the string with each invalid UTF-8 byte replaced by U+FFFD; it is returned unchanged if it is valid UTF-8.", "quantifier": "every byte string, both modes", "why_tests_cant": "all byte strings", "anchors": ["encode.go:doEncodeString", "parse.go:parseStringUnquote"]}
{"id": "C06", "title": "Encoded strings are safe JSON strings", "statement": "Every encoded string is a valid JSON string token containing no raw control byte and is valid UTF-8.", "quantifier": "every byte string", "why_tests_cant": "all byte strings", "anchors": ["encode.go:doEncodeString"]}
{"id": "C07", "title": "EscapeHTML leaves no raw HTML characters", "statement": "With EscapeHTML on, output never contains a raw <, >, &, U+2028 or U+2029.", "quantifier": "every value and configuration", "why_tests_cant": "all values", "anchors": ["encode.go:doEncodeString", "encode.go:appendCompactEscapeHTML", "encode.go:encodeNumber"]}
{"id": "C08", "title": "Integer decoding never wraps", "statement": "Decoding a JSON integer into any Go integer type stores exactly that integer when it is in the type's range (an unsigned type takes no minus sign, not even in -0) and otherwise returns an error leaving the target unchanged.", "quantifier": "every integer literal of any length, every width", "why_tests_cant": "unbounded literals; overflow boundaries", "anchors": ["parse.go:parseInt", "parse.go:parseUint", "decode.go:decodeInt8", "decode.go:decodeUint64"]}
{"id": "C09", "title": "Integer round trip", "statement": "For every integer of every Go integer type, decoding its encoding returns it.", "quantifier": "every integer", "why_tests_cant": "2^64 values per type", "anchors": ["jsoncolor.go:appendInt64", "parse.go:parseInt"]}
{"id": "C10", "title": "Encoder output is valid JSON", "statement": "Whenever Append/Marshal/Encode without colors and with whitespace indentation reports success, the output is a valid JSON text.", "quantifier": "every value, flags, indentation", "why_tests_cant": "all values", "anchors": ["encode.go:encodeStruct", "encode.go:encodeMap", "encode.go:encodeMapStringRawMessage", "encode.go:encodeNumber"]}
{"id": "C11", "title": "Value round trip", "statement": "Unmarshalling the output of Marshal (or of an indented Append) returns the original value.", "quantifier": "every JSON-like value tree, all flags and whitespace indentations", "why_tests_cant": "unbounded trees", "anchors": ["json.go:Marshal", "json.go:Unmarshal"]}
{"id": "C12", "title": "Colors only add color codes", "statement": "Removing the ANSI color sequences from colorized output gives exactly the uncolored output.", "quantifier": "every value, every color configuration made of ANSI codes, all flags", "why_tests_cant": "all values and palettes", "anchors": ["jsoncolor.go:Colors", "encode.go:encodeToString"]}
{"id": "C13", "title": "Zero Colors means no color", "statement": "A zero-value Colors gives the same bytes as nil Colors.", "quantifier": "every value", "why_tests_cant": "all values", "anchors": ["jsoncolor.go:appendPunc", "doc.go"]}
{"id": "C14", "title": "Each token gets its own color", "statement": "In colorized output each token is its configured color, the token text, then the reset code; punctuation uses the specific field, or Punc when that field is empty.", "quantifier": "every value and palette", "why_tests_cant": "all values and palettes", "anchors": ["jsoncolor.go:puncColor", "encode.go:encodeString", "encode.go:encodeKey"]}
{"id": "C15", "title": "No escape-sequence injection", "statement": "No ESC byte reaches the output from data: every ESC in the output belongs to a configured color or the reset code.", "quantifier": "every value (untrusted RawMessage), every palette", "why_tests_cant": "all strings", "anchors": ["encode.go:doEncodeString", "encode.go:encodeNumber"]}
{"id": "C16", "title": "Indentation is layout only", "statement": "Indented output equals the compact output once whitespace outside strings is removed, and for JSON-like values equals the standard Indent layout of the compact output.", "quantifier": "every value, every whitespace prefix and indent", "why_tests_cant": "unbounded nesting", "anchors": ["encode.go:Indenter", "encode.go:encodeArray", "encode.go:encodeMap", "encode.go:encodeStruct"]}
{"id": "C17", "title": "Indenter state is restored", "statement": "After any Append, whether it succeeds or fails, the Indenter is as before, so later output has the same indentation.", "quantifier": "every value and history", "why_tests_cant": "all histories including failures", "anchors": ["encode.go:push", "encode.go:pop", "encode.go:encodeArray"]}
{"id": "C18", "title": "Sorted maps are deterministic", "statement": "With SortMapKeys the output does not depend on map iteration order, and object keys appear in ascending byte order.", "quantifier": "every map and iteration order", "why_tests_cant": "all iteration orders", "anchors": ["encode.go:encodeMap", "encode.go:encodeMapStringInterface", "encode.go:encodeMapStringRawMessage"]}
{"id": "C19", "title": "RawMessage keeps its tokens", "statement": "Encoding a valid RawMessage emits its tokens in source order, laid out as the equivalent native value would be, and colored the same.", "quantifier": "every valid JSON text with any whitespace", "why_tests_cant": "unbounded texts", "anchors": ["encode.go:encodeRawMessage", "encode.go:appendRawMessageTokens"]}
{"id": "C20", "title": "Bad RawMessage handling", "statement": "Without trust, a RawMessage that is not exactly one JSON value is rejected; with TrustRawMessage a malformed message is emitted verbatim.", "quantifier": "every byte string", "why_tests_cant": "all malformed inputs", "anchors": ["encode.go:encodeRawMessage", "encode.go:appendRawMessageVerbatim"]}
{"id": "C21", "title": "Tokenizer enumerates the tokens", "statement": "On valid JSON the Tokenizer returns exactly the tokens of the text in order, with the right Delim, Value, Depth, Index and IsKey, then stops without error.", "quantifier": "every valid JSON text", "why_tests_cant": "unbounded texts", "anchors": ["token.go:Next"]}
{"id": "C22", "title": "Tokenizer errors are reported and sticky", "statement": "Tokenizer.Next never panics; on malformed input it sets Err and every later Next returns false until Reset.", "quantifier": "every byte string and call sequence", "why_tests_cant": "all inputs", "anchors": ["token.go:Next", "token.go:pop"]}
{"id": "C23", "title": "Stream decoding does not depend on chunking", "statement": "For every split of the input by the reader, successive Decode calls return the same values and the same final error, namely the values of the stream in order.", "quantifier": "every stream and every chunking, any length", "why_tests_cant": "all chunkings and buffer boundaries", "anchors": ["json.go:readValue"]}
{"id": "C24", "title": "InputOffset is the stream position", "statement": "After each Decode, InputOffset equals the number of bytes of the stream up to the start of the next token.", "quantifier": "every stream", "why_tests_cant": "all buffer boundaries", "anchors": ["json.go:InputOffset", "parse.go:skipSpacesN"]}
{"id": "C25", "title": "Encode writes all or nothing and reports failures", "statement": "Each successful Encode performs exactly one Write of the value followed by a newline; a failed encoding writes nothing; a failed Write makes that Encode and all later ones return the error, with no further Write.", "quantifier": "every sequence of values and write results", "why_tests_cant": "all histories and failure points", "anchors": ["json.go:Encode"]}
{"id": "C26", "title": "Encode depends only on current settings", "statement": "The bytes of an Encode depend only on the value and the settings in force, not on earlier Encode calls.", "quantifier": "every history of setter and Encode calls", "why_tests_cant": "all histories", "anchors": ["json.go:Encode", "json.go:SetIndent", "json.go:SetColors"]}
{"id": "C27", "title": "Concurrent calls do not mix", "statement": "Under every interleaving of concurrent Marshal/Encode calls sharing the buffer pool, each gets the result it would get alone.", "quantifier": "every schedule and number of callers", "why_tests_cant": "all interleavings", "anchors": ["json.go:encoderBufferPool", "json.go:Marshal"]}
{"id": "C28", "title": "Codec cache always yields the right codec", "statement": "Under every interleaving of concurrent first uses, each call uses the codec of its own type, although stores may be lost.", "quantifier": "every schedule", "why_tests_cant": "all interleavings", "anchors": ["codec.go:cacheLoad", "codec.go:cacheStore", "codec.go:constructCachedCodec"]}
{"id": "C29", "title": "Append only extends", "statement": "Append(b, x) leaves the bytes of b intact and, on success, returns b followed by what Append(nil, x) returns.", "quantifier": "every b, x, flags, colors", "why_tests_cant": "all values and buffers", "anchors": ["json.go:Append", "encode.go:encodeFloat", "encode.go:encodeToString"]}
{"id": "C30", "title": "Color detection precedence", "statement": "IsColorTerminal is false when NO_COLOR is set, else true when FORCE_COLOR is set, else false when TERM=dumb, else true only for a terminal; and jc never colorizes file output.", "quantifier": "every environment and writer", "why_tests_cant": "environment combinations", "anchors": ["terminal.go:IsColorTerminal", "cmd/jc/main.go:doMain"]}
{"id": "C31", "title": "Failed encodings of structs with nil embedded pointers", "statement": "A struct with a nil embedded struct pointer encodes as the object of its remaining fields.", "quantifier": "every struct and position of the nil embedded pointer", "why_tests_cant": "all field layouts", "anchors": ["encode.go:encodeStruct", "encode.go:encodeEmbeddedStructPointer"]}
{"id": "C32", "title": "Colors never change the outcome", "statement": "For every value, Append with colors succeeds, fails or panics exactly when Append without colors does, with the same error and the same indenter depth.", "quantifier": "all Go values (as trees), all color sets, flags, indenters and depths", "why_tests_cant": "Ranges over all values and color tables, including error paths inside nested containers.", "anchors": ["encode.go: encoder.*", "jsoncolor.go: Colors.append*"]}
{"id": "C33", "title": "Encoding succeeds exactly on representable values", "statement": "Append succeeds exactly when the value has a JSON document (finite floats, valid numbers and raw messages, supported types, marshalers that succeed), and then writes exactly that document: members in order, omitted fields left out, nil pointers and slices as null.", "quantifier": "every value, flags, colors, indentation and depth", "why_tests_cant": "the values and configurations are unbounded trees; only an induction over values covers every nesting of kinds and options", "anchors": ["encode.go: encodeArray, encodeMap*, encodeStruct, encodeRawMessage", "json.go: Append"]}
{"id": "C34", "title": "Floats are written exactly", "statement": "A finite float is written as a JSON number denoting exactly its shortest decimal form, in exponent form exactly when its magnitude is below 1e-6 or at least 1e21; zero denotes zero; NaN and infinities are errors.", "quantifier": "every finite float of any magnitude", "why_tests_cant": "2^64 values, formatting boundaries, and a byte-level exponent rewrite that looks at the end of the whole buffer", "anchors": ["encode.go:encodeFloat", "encode.go:encodeFloat32", "encode.go:encodeFloat64"]}
{"id": "C35", "title": "Byte strings are base64", "statement": "A []byte is written as the RFC 4648 base64 text of its bytes, from which exactly those bytes can be read back.", "quantifier": "every byte string of any length", "why_tests_cant": "unbounded lengths", "anchors": ["encode.go:doEncodeBytes", "encode.go:encodeBytes"]}
{"id": "C36", "title": "Marshal returns a whole value or an error", "statement": "Marshal returns either a complete JSON value and no error, or an error and no bytes; on success the bytes are those Append adds with EscapeHTML and SortMapKeys.", "quantifier": "every value", "why_tests_cant": "unbounded values, errors at any depth", "anchors": ["json.go:Marshal", "json.go:Append"]}
{"id": "C37", "title": "The Decoder loses no input", "statement": "After any number of Decode calls, what Buffered returns followed by what the reader has not yet delivered is the rest of the stream after the values returned, except for whitespace at its front.", "quantifier": "every stream, every number of calls, every chunking", "why_tests_cant": "all buffer boundaries and chunkings", "anchors": ["json.go:Buffered", "json.go:readValue"]}
{"id": "C38", "title": "An empty indenter is no indenter", "statement": "Passing an Indenter made from an empty prefix and an empty indent gives the same bytes and the same error as passing no Indenter, whatever the state the Indenter was left in.", "quantifier": "every value, flags, colors, destination buffer and indenter state", "why_tests_cant": "all values and every sequence of earlier calls", "anchors": ["json.go:NewIndenter", "json.go:Indenter", "json.go:Append", "json.go:SetIndent"]}
{"id": "C39", "title": "jc preserves the value of its input", "statement": "Given JSON, jc succeeds with exactly one write, to stdout or to the file given by -o, of a JSON value and a newline (after removing color sequences, if any) that decodes to the same value as the input; given anything else it fails and writes nothing.", "quantifier": "every input, flag combination, environment and I/O outcome", "why_tests_cant": "all inputs", "anchors": ["cmd/jc/main.go:doMain", "json.go:Unmarshal", "json.go:Encode"]}
{"id": "C40", "title": "Colors converted from fatih/color are faithful", "statement": "ToCoreColors gives each kind of token the escape sequence that its fatih/color attributes print before text, and all punctuation that of Punc; nil colors stay nil and nil fields become no color.", "quantifier": "every set of attributes and every combination of fields", "why_tests_cant": "all attribute lists", "anchors": ["helper/fatihcolor/fatihcolor.go:ToCoreColors", "helper/fatihcolor/fatihcolor.go:ToCoreColor", "helper/fatihcolor/fatihcolor.go:DefaultColors"]}
{"id": "C41", "title": "Typed Unmarshal accepts only JSON", "statement": "If Unmarshal into a value of any type succeeds, the input is a valid JSON text; if Parse succeeds, the input starts with a JSON value and Parse returns what follows it.", "quantifier": "every byte string, every target type (structs, maps, slices, pointers, embedded structs, options, user types) and every initial content", "why_tests_cant": "malformed inputs are infinitely many and the typed decoders do not run the validator over the whole input", "anchors": ["json.go:Unmarshal", "json.go:Parse", "decode.go:decodeStruct", "decode.go:decodeSlice", "decode.go:decodeArray", "decode.go:decodeMap"]}
{"id": "C42", "title": "Typed decoding stores what the text says", "statement": "On a valid JSON text, Unmarshal into a value of any type succeeds exactly when the text fits the type, and then leaves exactly the memory the specification of the type prescribes (numbers in range, strings unescaped, slices reusing their backing array, members in order, embedded pointers allocated, ,string values taken from inside the string).", "quantifier": "every JSON text and layout, every target type, every initial content, every flag setting", "why_tests_cant": "all combinations of types, texts and earlier contents", "anchors": ["json.go:Unmarshal", "decode.go", "codec.go:constructCodec"]}
{"id": "C43", "title": "Decoding is memory safe", "statement": "Unmarshal terminates without panicking on every input and leaves the target well typed, also when it fails half way: integers within their type, slice lengths within capacity, arrays of their length, pointers to well-typed values.", "quantifier": "every byte string, every target type, every well-typed initial content", "why_tests_cant": "the code writes through unsafe pointers; a single bad input suffices", "anchors": ["decode.go", "codec.go", "reflect.go"]}
{"id": "C44", "title": "Unknown members", "statement": "A member whose key names no field of the struct has no effect on the result; with DisallowUnknownFields it makes Unmarshal fail.", "quantifier": "every object, every position and value of the member, every layout, every initial content", "why_tests_cant": "all objects", "anchors": ["decode.go:decodeStruct", "json.go:DisallowUnknownFields"]}
{"id": "C45", "title": "What null does", "statement": "null sets pointers, slices, maps and interfaces to nil and leaves booleans, numbers, strings, arrays, structs, times and values with their own unmarshalers as they are; it never fails on a supported type.", "quantifier": "every type and initial content", "why_tests_cant": "all types", "anchors": ["decode.go:decodeNull", "decode.go:decodePointer", "parse.go:hasNullPrefix"]}
{"id": "C46", "title": "Names match without regard to case", "statement": "A key selects the field of exactly that name, or else the field whose name is equal up to case; changing the case of keys does not change what Unmarshal does. With DontMatchCaseInsensitiveStructFields only exact names match.", "quantifier": "every set of field names, every key, every object", "why_tests_cant": "all names and keys", "anchors": ["decode.go:decodeStruct", "parse.go:appendToLower", "parse.go:foldRune", "codec.go:constructStructType"]}
{"id": "C47", "title": "Fields not mentioned are kept", "statement": "A successful Unmarshal of an object into a struct leaves every field unchanged that no key of the object selects, including fields of embedded structs and behind embedded pointers.", "quantifier": "every struct type, object and initial content", "why_tests_cant": "all objects and contents", "anchors": ["decode.go:decodeStruct", "decode.go:decodeEmbeddedStructPointer"]}
{"id": "C48", "title": "Fixed-size arrays", "statement": "Unmarshal of a JSON array into a Go array stores the elements in order; surplus values are ignored and missing ones become zero values.", "quantifier": "every element type, length, array text and initial content", "why_tests_cant": "all lengths", "anchors": ["decode.go:decodeArray"]}
{"id": "C49", "title": "Maps are updated entry by entry", "statement": "Unmarshal of an object into a map sets each key of the object to the value of its last member, decoded from zero, and keeps the other entries; integer keys are the integers written.", "quantifier": "every key type, element type, object and initial map", "why_tests_cant": "all objects and maps", "anchors": ["decode.go:decodeMap", "decode.go:decodeMapStringInterface", "decode.go:decodeMapStringRawMessage", "codec.go:constructMapCodec"]}
{"id": "C50", "title": "Typed values survive the round trip", "statement": "Marshal (or an Encoder with any options but colors) of a Go value of any supported type, followed by Unmarshal of the output into a fresh variable of that type, succeeds and gives an equal value (reflect.DeepEqual up to capacity).", "quantifier": "every type (nested structs with embedded structs and pointers, slices, arrays, maps, pointers, interfaces, messages, user types), every value of it, all encoder options", "why_tests_cant": "all types and values", "anchors": ["codec.go:constructCodec", "codec.go:constructStructCodec", "encode.go:encodeStruct", "encode.go:encodeMap", "encode.go:encodeEmbeddedStructPointer", "decode.go:decodeStruct", "json.go:Marshal", "json.go:Unmarshal"]}
{"id": "C51", "title": "Struct fields follow the rules of encoding/json", "statement": "The members an object of a struct type has, their names, options (omitempty, string) and order, are those of the rules of encoding/json: of all exported fields of the struct and of the structs it embeds, for each name the least deep one, among equally deep ones the only tagged one, in the order of declaration.", "quantifier": "every set of struct declarations: any fields, tags, embedded structs and pointers to structs, to any depth", "why_tests_cant": "all struct declarations and name clashes", "anchors": ["codec.go:constructStructType", "codec.go:appendStructFields", "codec.go:ambiguousNameTagCount", "codec.go:isValidTag", "codec.go:stringify"]}
{"id": "C52", "title": "The field table of a struct type is sound", "statement": "Whatever the declarations, every JSON field is a field of the struct type or of a struct it embeds, accessed at the place and with the type it was declared with; fields come in the order of declaration, none twice; a promoted field never has the name of another field; every field with a JSON name of its own is present; the option string applies to numbers, booleans and strings only.", "quantifier": "every set of struct declarations, recursive ones included, and every type the codec is built for", "why_tests_cant": "a wrong offset or type would be a memory error for some declaration; all declarations are covered", "anchors": ["codec.go:constructStructType", "codec.go:appendStructFields", "codec.go:constructEmbeddedStructPointerCodec", "codec.go:stringify"]}
{"id": "C53", "title": "A struct is treated the same wherever it occurs", "statement": "The members a value of a struct type is encoded to and decoded from do not depend on whether it is the value passed to Marshal or Unmarshal or part of another value, nor on the type of that value.", "quantifier": "every set of struct declarations and every pair of enclosing types", "why_tests_cant": "all pairs of types", "anchors": ["codec.go:constructCachedCodec", "codec.go:constructStructType"]}
{"id": "C54", "title": "MarshalIndent is Marshal in another layout", "statement": "MarshalIndent fails exactly when Marshal fails, with its error and no bytes; otherwise it returns the text of Marshal in the layout of the standard Indent, a JSON text of the same value; an Encoder with the same indentation writes the same text.", "quantifier": "every value, prefix and indent", "why_tests_cant": "all values and all layouts; the two ways of indenting are separate code", "anchors": ["json.go:MarshalIndent", "json.go:Marshal", "encode.go:NewIndenter"]}
{"id": "C55", "title": "The encoder is handed the value itself, whatever its representation", "statement": "Append and Encode take any Go value in an interface; map elements and keys are copied out of the map's memory. In every case the encoder of the type must be handed an address at which the value's own bytes lie, both for types whose interface data word points to the value and for types (pointers, maps, channels, functions, one-field structs and one-element arrays of those) whose data word is the value.", "quantifier": "every Go type built from scalars, pointers, maps, slices, interfaces, structs and arrays; every value of it; every heap", "why_tests_cant": "The rule for direct representation recurses through the structure of the type; tests only try the few types in the suite, and a wrong case reads unrelated memory instead of failing cleanly.", "anchors": ["codec.go:inlined", "codec.go:constructInlineValueEncodeFunc", "codec.go:constructCachedCodec", "json.go:Append", "encode.go:encodeMap"]}
{"id": "C56", "title": "omitempty leaves out exactly the empty fields", "statement": "The object written for a struct has, in the order of the struct, exactly the fields that exist (are not behind a nil embedded pointer) and that are not both tagged omitempty and empty, where empty means false, 0, nil pointer, nil interface, or an array, slice, map or string of length zero.", "quantifier": "every struct type, every value of it, every setting of the encoder without colors", "why_tests_cant": "It concerns every combination of types, tags and contents; the tests of emptiness read raw memory, so wrong cases depend on what happens to lie there.", "anchors": ["codec.go:emptyFuncOf", "codec.go:appendStructFields", "encode.go:encodeStruct"]}
{"id": "C57", "title": "Decoded values do not change with the input, unless a DontCopy flag is set", "statement": "Without the flags DontCopyString, DontCopyNumber and DontCopyRawMessage, a value decoded by Unmarshal, Parse or Decoder.Decode stays what it was, whatever the caller later stores in the input and however many further values the Decoder reads into its buffer. With any of the flags, the decoded value is the same as without them as long as the input (for a Decoder: until the next call of Decode) is not modified.", "quantifier": "every type, target, input text and later content of the input's memory; every reader and every sequence of Decode calls before and after", "why_tests_cant": "Whether a string, number, message, map key or element of an interface is a copy or a pointer into the input is decided at many places in the decoders; a test would have to modify the input after every kind of decode.", "anchors": ["decode.go:decodeString", "decode.go:decodeNumber", "decode.go:decodeRawMessage", "decode.go:decodeInterface", "json.go:Decoder.readValue", "json.go:ParseFlags", "parse.go:parseStringUnquote"]}
{"id": "C58", "title": "A SyntaxError is returned exactly for texts that are not JSON", "statement": "If the text passed to Unmarshal is not JSON, the error is a SyntaxError. If it is JSON, the error, if any, is not a SyntaxError: values of the wrong type are reported as UnmarshalTypeError or as the error of the user's method.", "quantifier": "every type, target and input text", "why_tests_cant": "Each decoder chooses between the two classes on its own, some by parsing the rest of the text again; the choice must be right for every position at which a text can be malformed or a value of the wrong type.", "anchors": ["decode.go:decodeInt", "decode.go:decodeArray", "decode.go:decodeSlice", "decode.go:decodeMap", "decode.go:decodeStruct", "decode.go:decodeFromString", "decode.go:inputError", "parse.go:syntaxError", "parse.go:unmarshalTypeError"]}
{"id": "C59", "title": "Decoding does not depend on white space and on the spelling of strings", "statement": "Two texts that differ only in white space are decoded to the same value, or both are rejected. The same holds for texts that also spell characters of strings and keys differently, as themselves or as escapes. (Values that keep the text itself, RawMessage and types with UnmarshalJSON, are exempt.)", "quantifier": "every type without such values, every target, every pair of JSON texts with the same tree, or with trees that differ in the spelling of strings only", "why_tests_cant": "White space may stand at every position of a text and every character has several spellings; each decoder skips spaces and interprets escapes on its own.", "anchors": ["decode.go:decodeTime", "decode.go:decodeDuration", "decode.go:decodeString", "decode.go:decodeStruct", "decode.go:decodeMap", "decode.go:decodeSlice", "parse.go:skipSpaces", "parse.go:parseStringUnquote"]}
{"id": "C60", "title": "Custom encoders are used at every place", "statement": "A value whose type has MarshalJSON or MarshalText is encoded by that method wherever the value occurs; if only the pointer to it has the method, wherever the value has an address (behind pointers, in slices, in structs and arrays that have one). MarshalJSON is preferred to MarshalText.", "quantifier": "every set of Go types (recursive ones included), every type that is encoded, every place inside it", "why_tests_cant": "Types are unbounded trees or graphs, and whether a value has an address depends on the whole path from the root; the codec of a struct type is computed once per root and reused.", "anchors": ["codec.go:constructCodec", "codec.go:constructStructType", "codec.go:appendStructFields", "codec.go:constructSliceCodec", "codec.go:constructMapCodec", "codec.go:constructPointerCodec"]}
{"id": "C61", "title": "Every type gets a codec", "statement": "Marshal and Unmarshal of a type return: the construction of its codec ends, also for types that contain themselves.", "quantifier": "every set of Go types, every type, every state of the construction", "why_tests_cant": "Recursive types are unbounded in number and shape; a missing case is an endless recursion that ends the process.", "anchors": ["codec.go:constructCodec", "codec.go:constructStructType", "codec.go:constructSliceCodec", "codec.go:constructMapCodec", "codec.go:constructPointerCodec", "codec.go:constructArrayCodec"]}
{"id": "C62", "title": "The decoder of a type depends on the type only", "statement": "A type is decoded by UnmarshalJSON or UnmarshalText if the pointer to it has the method, otherwise according to its kind, with the decoders of the types it is made of; the same at every place and whatever other types were met before.", "quantifier": "every set of Go types, every type, every state of the construction", "why_tests_cant": "Types are unbounded trees, and the table of struct types makes the result depend on the order of construction.", "anchors": ["codec.go:constructCodec", "codec.go:constructSliceCodec", "codec.go:constructMapCodec", "codec.go:stringify"]}
{"id": "C63", "title": "Only methods that exist are called", "statement": "The codec of a type calls MarshalJSON, MarshalText, UnmarshalJSON and UnmarshalText only on types that have the method, so encoding and decoding do not panic for want of one.", "quantifier": "every set of Go types, every type that is encoded or decoded, every place inside it", "why_tests_cant": "There are sixteen combinations of methods for a type and as many for its pointer, at every place of unboundedly many types.", "anchors": ["codec.go:constructCodec", "codec.go:constructMapCodec", "codec.go:constructSliceCodec", "encode.go:encodeTextMarshaler", "decode.go:decodeTextUnmarshaler", "decode.go:decodeJSONUnmarshaler"]}
{"id": "C64", "title": "The order of the members of objects does not matter", "statement": "Unmarshal of two texts that differ only in the order of the members of objects, at any depth, succeeds for both or for neither, and stores values that are equal up to the order of the entries of maps; provided no two keys of a reordered object select the same field or denote the same map key, and the type keeps no JSON text (no RawMessage, no UnmarshalJSON).", "quantifier": "every pair of such texts, every Go type (structs with embedded pointers, options, recursion; maps; interfaces), every previous content of the target", "why_tests_cant": "Permutations at every level of unboundedly deep texts, times all types; fields behind shared embedded pointers are allocated by whichever member comes first.", "anchors": ["decode.go:decodeStruct", "decode.go:decodeMap", "decode.go:decodeMapStringInterface", "decode.go:decodeEmbeddedStructPointer", "decode.go:Unmarshal"]}
{"id": "C65", "title": "Interfaces that hold pointers are decoded through the pointer", "statement": "Unmarshal into an interface variable that holds a non-nil pointer decodes into what the pointer leads to, with the same result as Unmarshal into a variable of that pointer type, and the interface keeps the pointer; null sets the interface to nil, unless the pointer leads to a pointer, which is then set to nil. With a nil pointer inside, only null is accepted.", "quantifier": "every type the pointer leads to, every content, every input", "why_tests_cant": "all types and inputs, valid or not", "anchors": ["decode.go:decodeInterface", "decode.go:decodeMaybeEmptyInterface", "json.go:Parse", "json.go:Unmarshal"]}
{"id": "C66", "title": "An UnmarshalTypeError names the first value that does not fit", "statement": "When Unmarshal returns an UnmarshalTypeError for a JSON text, its Field is the dotted path from the target to the first value of the text that its place in the target cannot hold: indexes of array and slice elements, keys of map entries, keys of struct members as the text spells them. Everything before that value was storable, and no other place has that property.", "quantifier": "every JSON text, every Go type (nested, recursive, embedded pointers, options, interfaces), every previous content of the target", "why_tests_cant": "The path is assembled while the error travels up through unboundedly many levels of mixed containers; a test checks single paths.", "anchors": ["decode.go:decodeArray", "decode.go:decodeSlice", "decode.go:decodeMap", "decode.go:decodeMapStringInterface", "decode.go:decodeMapStringRawMessage", "decode.go:decodeStruct", "decode.go:decodeInterface"]}
{"id": "C67", "title": "Marshal returns for every value, and shared parts are written out", "statement": "Marshal and Append return for every value. A value whose pointers, maps, slices and interfaces can be followed to the end is written as the tree it stands for, a shared part as often as it is referred to; for a value that contains itself an error is returned.", "quantifier": "every value with references, shared or cyclic, every encoder setting, every output so far, every amount of stack", "why_tests_cant": "Sharing and cycles are unbounded graphs; a test that hits a cycle ends the test program.", "anchors": ["json.go:Marshal", "json.go:Append", "encode.go:encodePointer", "encode.go:encodeInterface", "encode.go:encodeMap", "encode.go:encodeMapStringInterface", "encode.go:encodeSlice", "encode.go:encodeStruct"]}
{"id": "C68", "title": "Interfaces that hold pointers to interfaces are decoded at the end of the chain", "statement": "Unmarshal into an interface variable that holds a pointer to an interface variable, which may hold such a pointer in turn, returns; a nil error means that the value was stored in the last variable, with the same result as for that variable alone, and that the others are unchanged; null sets only the first variable.", "quantifier": "every arrangement of variables and pointers, also circular ones, every input", "why_tests_cant": "chains have any length and may be circular; errors depend on the whole input", "anchors": ["decode.go:decodeInterface", "json.go:Parse", "json.go:Unmarshal"]}
{"id": "C69", "title": "Unmarshal writes only the memory of its target, at the right places", "statement": "Unmarshal into a pointer to a variable, which it reaches through raw addresses, offsets and sizes, writes only to the variable, to what the variable refers to (pointers, slices up to their capacity, maps) and to memory it allocates. Afterwards that memory holds the value that decoding gives, and every other variable holds what it held before.", "quantifier": "every type and layout, every arrangement of variables in memory, every input, well-formed or not", "why_tests_cant": "a wrong offset or a write past the end of a slice damages memory that a test does not look at; arrangements of memory are unbounded", "anchors": ["decode.go:decodeArray", "decode.go:decodeSlice", "decode.go:decodeMap", "decode.go:decodeStruct", "decode.go:decodePointer", "decode.go:decodeEmbeddedStructPointer", "decode.go:decodeBytes", "reflect.go:extendSlice", "codec.go:alignedSize", "codec.go:appendStructFields"]}
{"id": "C70", "title": "Unmarshal keeps memory sound whatever refers to whatever", "statement": "The target of Unmarshal, and everything it refers to, may be shared and may refer back to itself: pointers and maps may form rings, several variables may refer to one. Unmarshal still returns, does not panic, leaves in every variable of memory a value of the variable's type (no slice longer than its capacity, no reference to anything but a variable of its type), and writes only to variables of types that can be reached from the target's type. This holds after any sequence of calls.", "quantifier": "every memory in which every variable holds a value of its type, every type, every input, well-formed or not, every sequence of calls", "why_tests_cant": "ring-shaped and shared targets are unbounded in number and shape; damage shows in variables a test does not look at, and a call that never returns cannot be told from a slow one", "anchors": ["decode.go:decodeArray", "decode.go:decodeSlice", "decode.go:decodeMap", "decode.go:decodeStruct", "decode.go:decodePointer", "decode.go:decodeEmbeddedStructPointer", "decode.go:decodeBytes", "reflect.go:extendSlice", "json.go:Unmarshal"]}
{"id": "C71", "title": "Marshal writes the value its argument has in memory, and reads nothing else", "statement": "Marshal writes the value that the memory of its argument has, with every field, element and entry read at its own place, also when parts of the value are shared; the result depends on no other memory, and not on what lies behind the length of a slice. In memory where every variable holds a value of its type, whatever refers to whatever, Marshal never reads a variable as a value of another type. Decoding the output into a new variable gives an independent copy: equal to the original, in memory of its own, with the original unchanged.", "quantifier": "every type, layout and memory; every value and every way of sharing its parts", "why_tests_cant": "addresses are computed with unsafe.Pointer from offsets and sizes of arbitrary types; a wrong offset often reads a plausible value, and memory layouts and sharing patterns are unbounded", "anchors": ["encode.go:encodeArray", "encode.go:encodeSlice", "encode.go:encodeMap", "encode.go:encodeMapStringInterface", "encode.go:encodeMapStringRawMessage", "encode.go:encodeStruct", "encode.go:encodeEmbeddedStructPointer", "encode.go:encodePointer", "encode.go:encodeBytes", "codec.go:emptyFuncOf", "codec.go:appendStructFields", "json.go:Marshal"]}
{"id": "C72", "title": "A failed Unmarshal leaves what was read before the failure, and nothing else is changed", "statement": "If Unmarshal reports an error, the target holds what the text says up to the place of the failure, and what it held before otherwise: the elements read before the failure are in the slice, whose length is their number, or in the first elements of the array, whose others are as they were; the entries read are in the map unless the map was nil; the members read are in their fields; the variable the failure happened in is as it was, except that an interface{} is nil, pointers on the way are set, and a type's own method may have done anything to its receiver. Parts of a struct that no key of the text names are never changed.", "quantifier": "every byte string, JSON or not, every target type and every content of the target", "why_tests_cant": "a text can be cut or damaged at any byte and at any depth, and the content of the target before the call is arbitrary", "anchors": ["json.go:Unmarshal", "decode.go:decodeSlice", "decode.go:decodeArray", "decode.go:decodeMap", "decode.go:decodeMapStringInterface", "decode.go:decodeMapStringRawMessage", "decode.go:decodeStruct", "decode.go:decodePointer", "decode.go:decodeInterface", "decode.go:decodeEmbeddedStructPointer", "decode.go:decodeFromString", "decode.go:decodeFromStringToInt"]}
{"id": "C73", "title": "Nesting of the input does not exhaust the stack", "statement": "Unmarshal and Valid read a text of any nesting without unbounded recursion: there is a limit on the depth of the recursion, whatever the input and whatever the target type.", "quantifier": "every byte string, every target type, every content of the target", "why_tests_cant": "the depth of the recursion on arbitrary input and arbitrary (recursive) types is a bound over an infinite set; tests measure single inputs", "anchors": ["json.go:Unmarshal", "json.go:Valid", "parse.go:parseValue", "parse.go:parseArray", "parse.go:parseObject", "decode.go:decodeSlice", "decode.go:decodeArray", "decode.go:decodeMap", "decode.go:decodeStruct", "decode.go:decodePointer", "decode.go:decodeInterface", "decode.go:decodeEmbeddedStructPointer"]}
{"id": "C74", "title": "Reading takes time proportional to the input", "statement": "The number of bytes that Unmarshal and Valid look at, counted with repetition, is at most proportional to the length of the input.", "quantifier": "every byte string, every target type, every content of the target", "why_tests_cant": "a bound on the running time over all inputs; a slow input is found by a test only if one knows which", "anchors": ["json.go:Unmarshal", "json.go:Valid", "parse.go:parseValue", "decode.go:decodeSlice", "decode.go:decodeArray", "decode.go:decodeMap", "decode.go:decodeStruct", "decode.go:decodePointer", "decode.go:decodeInterface", "decode.go:decodeFromString", "decode.go:decodeFromStringToInt", "codec.go:inputError"]}
{"id": "C75", "title": "What an UnmarshalTypeError says about the value", "statement": "When Unmarshal returns an UnmarshalTypeError for a JSON text, Type is the Go type of the variable that the first unfit value was meant for, Value describes that value, and Struct is the name of the struct type it is a field of.", "quantifier": "every JSON text, every Go type (nested, recursive, embedded pointers, options, interfaces), every previous content of the target", "why_tests_cant": "The error is built by one of some twenty decoders and changed by every container on the way up; a test checks single combinations of value and type.", "anchors": ["codec.go:unmarshalTypeError", "codec.go:unmarshalOverflow", "codec.go:prefix", "decode.go:decodeSlice", "decode.go:decodeMap", "decode.go:decodeStruct", "decode.go:decodeTextUnmarshaler", "decode.go:decodeDuration"]}
{"id": "C76", "title": "Parse reads one value and returns what follows it", "statement": "Parse reads exactly the first JSON value of its input, stores what the value says (or reports an error if the target cannot hold it), and returns what follows the value and the white space after it, so that successive calls read the values of a text one by one, also past a value of the wrong type; on any input what it returns is an end of the input; without a pointer to store into Unmarshal says so exactly for valid JSON.", "quantifier": "every input and whatever follows the value in it, every Go type, every previous content of the target, any number of successive calls", "why_tests_cant": "What follows a value is arbitrary; every decoder has its own way of finding the end of the value, on success and on each kind of error.", "anchors": ["json.go:Parse", "json.go:Unmarshal", "decode.go:decoder", "parse.go:parseValue"]}
{"id": "C77", "title": "What an Encoder writes, a Decoder reads", "statement": "A sequence of values written by one Encoder, with any settings other than colors changing between the calls, is read back by a Decoder whatever pieces the reader delivers: each Decode gives the value back (as a tree through interface{}, or into a fresh variable of the same type), and after the last one the reader's end is reported.", "quantifier": "every sequence of values and settings, every way of cutting the written bytes into reads, every previous content of interface targets", "why_tests_cant": "It combines the state of the Encoder, the layout of every value, the Decoder's buffer and any chunking; failures sit at buffer boundaries.", "anchors": ["json.go:Encoder.Encode", "json.go:Decoder.Decode", "json.go:Decoder.readValue", "encode.go:encodeString", "parse.go:parseString"]}
{"id": "C78", "title": "Decoding and encoding again is a canonical form", "statement": "Decode any JSON text (numbers within float64) into interface{} and encode the result with sorted keys: the output, decoded and encoded again, comes out byte for byte the same; two texts give the same output exactly when they decode to equal values, whatever their layout, member order, duplicate names or spelling of strings and numbers; with colors, equal values are colored equally. So jc run on its own uncolored output reproduces it.", "quantifier": "every JSON text or pair of texts, every indentation of whitespace, every escaping setting, every way jc is started", "why_tests_cant": "Idempotence and canonicity range over all texts of unbounded size and depth and all spellings of equal values.", "anchors": ["json.go:Unmarshal", "json.go:Marshal", "encode.go:encodeMapStringInterface", "decode.go:decodeInterface", "cmd/jc/main.go:doMain"]}
{"id": "C79", "title": "Without indentation every value is one line", "statement": "Output without indentation contains no line feed or carriage return (and without colors no control character at all), whatever bytes the strings contain; so what an Encoder writes, split at line feeds, is exactly the values it encoded, one per line, in order.", "quantifier": "every value, configuration without indentation, and history of Encoder calls with any Write results", "why_tests_cant": "One unescaped control character in any string, key, Number, raw message or marshaler result breaks every line-oriented consumer; tests try a few strings.", "anchors": ["jsoncolor.go", "encode.go: encoder.doEncodeString, encodeRawMessage, encodeNumber", "json.go: Encoder.Encode"]}
{"id": "C80", "title": "Output is valid UTF-8", "statement": "Everything written is valid UTF-8, whatever bytes the strings, map keys and marshaled texts contain.", "quantifier": "every value with strings of arbitrary bytes, every flags, colors and indentation", "why_tests_cant": "Invalid sequences can be cut anywhere, and HTML escaping replaces multi-byte sequences; tests try a few.", "anchors": ["encode.go: encoder.doEncodeString, appendCompactEscapeHTML", "encode.go: encodeRawMessage"]}
{"id": "C81", "title": "EscapeHTML changes nothing but the escapes", "statement": "Output with EscapeHTML is the output without it with each <, >, &, U+2028 and U+2029 replaced by its escape; layout, order, colors and errors are the same.", "quantifier": "every value, flags, colors, indentation and depth", "why_tests_cant": "It relates two runs on every value; tests compare expected outputs of a few strings.", "anchors": ["encode.go: encoder.doEncodeString, appendCompactEscapeHTML, encodeRawMessage", "codec.go: structField.html"]}
{"id": "C82", "title": "Byte slices come back from their base64 text", "statement": "Every []byte survives Marshal and Unmarshal, nil included. Unmarshal of a JSON string into a []byte succeeds exactly when the text it stands for is base64 (line breaks skipped, unused bits of the last character ignored) and then stores the bytes it stands for; otherwise it fails and the target keeps its value.", "quantifier": "every byte slice of any length, every JSON string literal with any escapes, every prior content of the target", "why_tests_cant": "The three padding cases, the escapes and the line breaks combine at every length; tests try a few texts.", "anchors": ["decode.go: decoder.decodeBytes", "encode.go: encoder.doEncodeBytes"]}
{"id": "C83", "title": "Floats are read as the nearest float and written as the shortest text that reads back", "statement": "Unmarshal of a JSON number into a float64 or float32 variable, or through interface{}, stores the IEEE 754 float nearest to the number (ties to even), with the sign of the literal for zero, and fails exactly when the number is beyond the range of the format. Marshal writes each finite float as a number that is read back as the same float and that has as few digits as any such number; it uses an exponent exactly when the float is below 1e-6 or at least 1e21. So every finite float survives Marshal and Unmarshal, and jc and reformatting preserve the float value of every number in range.", "quantifier": "every JSON number literal of any length and exponent, every finite float of both formats, every encoder configuration without colors", "why_tests_cant": "There are 2^64 floats and infinitely many literals; rounding errors show at half-way points with hundreds of digits, subnormals and the ends of the range.", "anchors": ["decode.go: decoder.decodeFloat32, decoder.decodeFloat64, decoder.decodeInterface", "encode.go: encoder.encodeFloat", "cmd/jc/main.go: doMain"]}
{"id": "C84", "title": "Where a Tokenizer keeps its nesting stack cannot be observed without copying it, and what copies may do", "statement": "Tokenizers that are never assigned to one another behave as independent values, at any depth and in any interleaving, although each keeps its stack in its own 8-entry buffer until it is deeper. A copy made before the first bracket is independent of the original. A later copy can take the place of the original, if the original is never used again; or be kept and assigned back, any number of times, which returns the Tokenizer to where it was, if no bracket was opened at a Depth of 8 or more. Other uses of copies are not safe: a copy made inside brackets is changed by Next on the original (its Index), by reuse of the original after Reset (it then rejects valid input), and going back more than 8 deep gives a wrong Index.", "quantifier": "every program of Reset, Next and assignments over any number of Tokenizer variables, every input, every growth policy of append", "why_tests_cant": "The aliasing shows only for particular interleavings, depths and growth policies; the safe uses are claimed for all programs.", "anchors": ["token.go: Tokenizer, NewTokenizer, Tokenizer.Reset, Tokenizer.Next, Tokenizer.push, Tokenizer.pop, Tokenizer.is, Tokenizer.depth, Tokenizer.index"]}
{"id": "C85", "title": "Times are written in RFC 3339 and read back", "statement": "A time.Time with a local year from 0 to 9999 and an offset of whole minutes below 24 hours is written as an RFC 3339 text that denotes the same moment with the same offset; reading this text gives the time back, so that different times are written differently. Every RFC 3339 text (without leap seconds) is read as the moment and offset it denotes; days that do not exist are rejected. The texts accepted beyond RFC 3339 are exactly those with a one-digit hour, a decimal comma, or an offset hour of 24 or offset minute of 60. Not true in general: a time after the year 9999 is written as a text that cannot be read; an offset with seconds is cut to minutes, so the moment read back differs; a text accepted with an offset of 24:60 is written as one that is not.", "quantifier": "every moment, nanosecond and offset, every text, every day of the calendar in the past and the future, every surrounding whitespace and previous content of the variable", "why_tests_cant": "The calendar repeats after 400 years and has a different rule at 4, 100 and 400; the texts and moments are unbounded, and what is not accepted cannot be enumerated.", "anchors": ["encode.go: encoder.encodeTime", "decode.go: decoder.decodeTime", "jsoncolor.go: Colors.appendTime", "json.go: Unmarshal"]}
{"id": "C86", "title": "Indent, Compact and HTMLEscape keep the text's meaning", "statement": "Compact and Indent accept exactly the JSON texts whose brackets are nested at most 10000 deep. Compact returns the text without whitespace outside strings, which is the shortest text of the same syntax tree; Indent returns the same tree with one line per element and member, brackets indented by depth, followed by the whitespace that followed the value. Both keep the spelling of every literal, the order and duplicate keys; each is idempotent and a second layout replaces the first. HTMLEscape keeps every byte except '<', '>', '&', U+2028 and U+2029, which it replaces by escapes, leaves none of them, and turns a JSON text into a JSON text whose strings denote the same characters.", "quantifier": "every byte string, every prefix and indent (made of whitespace where the result is to be JSON)", "why_tests_cant": "all texts, all nestings, and all places of whitespace", "anchors": ["json.go:Compact", "json.go:HTMLEscape", "json.go:Indent", "json.go:MarshalIndent"]}
{"id": "C87", "title": "Durations written as text are read as what they denote", "statement": "A JSON string is read into a time.Duration only if it is an optional sign followed by a 0, or by decimal numbers that each have a unit (ns, us, ms, s, m, h; micro also as U+00B5 or U+03BC). The value is the sum of the numbers times their units; it is exact if no fraction is finer than a nanosecond, and otherwise at most 1.01 ns off per number. Every such text whose sum fits into 64 bits is accepted, and one beyond that range is an error. What Duration.String writes is read back as the same duration, for every duration. A text with an escape in it, with spaces, exponents or capital letters is rejected. Not true in general: two parts of 2^63 ns are read as zero; zeros at the end of a fraction can change the value by a nanosecond.", "quantifier": "every text, every sequence of numbers and units, every fraction of any length, every 64-bit duration, every surrounding whitespace and previous content of the variable", "why_tests_cant": "Texts and fractions are unbounded, and the error of the floating-point arithmetic has to be bounded for all of them.", "anchors": ["decode.go: decoder.decodeDuration", "json.go: Unmarshal"]}
{"id": "C88", "title": "What Unmarshal stored survives Marshal and Unmarshal", "statement": "After any number of successful calls of Unmarshal into one variable that started out zero, Marshal (or any Encoder without colors) writes its value without error, and Unmarshal of that output into a fresh variable gives the same value. This holds for all types built from booleans, integers, floats, strings, byte slices, durations, times, interfaces, raw messages, arrays, slices, maps, pointers and structs, with the actual library functions for floats, times, durations and base64. Not covered, because false: json.Number (its zero value is written as 0), pointers to pointers, omitempty on slices, maps and floats, fields behind embedded pointers, types with methods of their own, times whose offset is a day or more, and variables after a failed call.", "quantifier": "every such type, every sequence of JSON texts, every encoder configuration without colors, every set of struct declarations without recursion by value", "why_tests_cant": "Histories of calls, nesting of types and texts are unbounded; leftovers of earlier calls in backing arrays have to be covered.", "anchors": ["json.go: Unmarshal", "json.go: Marshal", "decode.go: decoder.decodeSlice, decoder.decodeStruct, decoder.decodePointer", "encode.go: encoder.encodeStruct"]}
{"id": "C89", "title": "Equal values are written as equal bytes, and Marshal's output is a normal form", "statement": "With sorted map keys, what is written for a value depends only on its content: not on the order in which a map is iterated, on the capacity of slices, or on what lies beyond their length. Marshal, Unmarshal into a fresh variable and Marshal again give the same bytes twice, for every value of every type that JSON can carry, json.RawMessage included, and for every value that earlier calls of Unmarshal left. Unmarshal never stores a key of a map twice. Without sorted keys this is false; raw messages with the same meaning may be different texts, so the first sentence is for types without json.RawMessage.", "quantifier": "every type, every value of it that JSON can carry (for the first sentence every pair of equal values of types without json.RawMessage), every encoder configuration with sorted keys and without colors, every indentation", "why_tests_cant": "Map iteration order is chosen by the runtime; types, values and histories of calls are unbounded.", "anchors": ["json.go: Marshal", "json.go: Unmarshal", "encode.go: encoder.encodeMap, encoder.encodeMapStringInterface, encoder.encodeStruct, encoder.encodeRawMessage", "decode.go: decoder.decodeMap"]}
{"id": "C90", "title": "With UseNumber, numbers keep every digit", "statement": "For every JSON text: reading it into an interface{} with UseNumber always succeeds, whatever the size or precision of its numbers; writing the result with any encoder settings without colors (whitespace indentation) succeeds, and the text written denotes the same value, with every number spelled byte for byte as in the input: the number literals of the two texts are the same, apart from those in members that a later member of the same name replaces. With sorted keys, reading and writing the result once more gives the same bytes, and two texts are written alike exactly when they denote the same value with numbers compared by spelling. Without UseNumber, two different integers can be written as one text that is neither.", "quantifier": "all JSON texts of any size and depth, all number literals, all encoder settings without colors", "why_tests_cant": "numbers have unboundedly many spellings and texts any shape; tests try a few", "anchors": ["json.go: UseNumber, Parse, Decoder.UseNumber", "decode.go: decodeInterface, decodeNumber", "encode.go: encodeNumber", "golang_encode.go: Number"]}
{"id": "C91", "title": "The output is not larger than the value warrants", "statement": "For every value, every encoder settings without indentation and every buffer appended to: what is written, whether the call succeeds or fails, is at most six bytes, and one color code when colors are set, for every unit of size of the value (bytes of its strings, names, messages and numbers, and one for each bracket, comma and colon; values under the option \",string\" count six times). With indentation it is at most proportional to the square of the size, and no constant factor suffices. A string of n bytes is written as at most 6n+2 bytes, and this is reached for every n.", "quantifier": "all values of any size and depth, all settings, all buffers, also calls that fail", "why_tests_cant": "the growth must be bounded for values of every size and shape, including malformed strings and messages", "anchors": ["encode.go: encodeString, doEncodeString, encodeToString, encodeRawMessage, encodeStruct, encodeMap, encodeArray, Indenter", "jsoncolor.go: Colors"]}
{"id": "C92", "title": "A text cannot make Unmarshal allocate more than in proportion to its length", "statement": "For every target type, every bytes (well-formed or not) and every target: after Unmarshal, whether it succeeds or fails, the target holds at most so many more cells of memory (bytes, elements, map entries, allocated variables) per byte of the text, at a rate fixed by the type alone: the size of the largest zero value and the longest chain of pointers in it. For interface{} the rate is twelve cells per byte. Parse is the same, and the bytes it returns have cost nothing. No rate serves all types.", "quantifier": "all types, texts of any length and depth (malformed ones too), all contents of the target, all flags", "why_tests_cant": "a text that makes the decoder allocate out of proportion could be of any shape and length", "anchors": ["decode.go: decodeInterface, decodeArray, decodeSlice, decodeMap, decodeStruct, decodePointer, decodeString, decodeBytes", "json.go: Unmarshal, Parse"]}
{"id": "C93", "title": "Decoding the same text again changes nothing", "statement": "If Unmarshal accepts a JSON text and leaves a variable in some state, then decoding the same text into that variable again is accepted and leaves it exactly as it is, spare slice elements included, even if the text repeats members, spells a field in several ways or contains nulls. The same holds for a sequence of texts decoded one after the other: replaying the whole sequence changes nothing.", "quantifier": "all target types without named interface types and without embedded pointers to unexported structs, all own methods that overwrite their receiver, all struct types, all flags, all JSON texts and sequences of texts, all contents of the variable", "why_tests_cant": "repeated members, merging into existing slices, maps and pointers, and nesting interact in ways no list of examples exhausts", "anchors": ["json.go: Unmarshal, Parse", "decode.go: decodeStruct, decodeSlice, decodeArray, decodeMap, decodePointer, decodeEmbeddedStructPointer, decodeFromString, decodeFromStringToInt, decodeMaybeEmptyInterface"]}
{"id": "C94", "title": "Whether a text is accepted does not depend on what the variable holds", "statement": "For a given type and flags, a JSON text that Unmarshal accepts into one variable of the type it accepts into every variable of the type, whatever they hold.", "quantifier": "all target types without named interface types and without embedded pointers to unexported structs, all own methods that overwrite their receiver, all flags, all JSON texts, all pairs of variables", "why_tests_cant": "the contents of the variable decide which memory every nested decoder gets", "anchors": ["json.go: Unmarshal", "decode.go: decodeStruct, decodeSlice, decodeArray, decodeMap, decodePointer, decodeEmbeddedStructPointer, decodeUnmarshalTypeError"]}
{"id": "C95", "title": "An object does what its members do one after the other", "statement": "Decoding an object into a struct, a map or a pointer to one has the same outcome as decoding its members one at a time, each as an object of its own, in the order of the text: it is accepted exactly if each of them is, and the variable ends up the same. Splitting an object at any comma between members changes nothing. Interfaces and raw messages are instead replaced by the last text.", "quantifier": "all struct and map types and pointers to them, all flags, all member texts (duplicates, unknown members, any white space), all contents of the variable", "why_tests_cant": "members may refer to the same field, share embedded pointers or map entries, and nest arbitrarily", "anchors": ["decode.go: decodeStruct, decodeMap, decodeMapStringInterface, decodeMapStringRawMessage, decodePointer", "json.go: Unmarshal"]}
{"id": "C96", "title": "Each decoding option changes only what it is about", "statement": "UseNumber makes no difference for types without interface types: the same texts are accepted with the same results. DisallowUnknownFields only refuses texts: what it accepts is decoded as without it. DontMatchCaseInsensitiveStructFields makes no difference for a text in which no key is the name of a field but for case.", "quantifier": "all types, struct types, JSON texts, contents of the variable and settings of the other options", "why_tests_cant": "an option is handed down through every nested decoder; one that drops or swaps it somewhere shows only for some nesting of types", "anchors": ["json.go: Parse, UseNumber, DisallowUnknownFields, DontMatchCaseInsensitiveStructFields, Decoder.UseNumber, Decoder.DisallowUnknownFields, Decoder.DontMatchCaseInsensitiveStructFields", "decode.go: decodeStruct, decodeInterface, decodeMapStringInterface"]}
{"id": "C97", "title": "Generic targets agree", "statement": "Decoding an object into a nil map[string]interface{} gives exactly the entries of the map that decoding it into an interface{} gives, and one succeeds with such entries if and only if the other does. The same holds for the elements of an array decoded into a nil []interface{}. map[string]interface{}, which has a decoder of its own, behaves as the general decoder for maps does. A boolean, number, string or null that an interface{} receives is what a bool, float64 (or Number), string, or a nil map or slice of that type receives.", "quantifier": "all JSON texts, settings of the decoding flags, contents of the interface variable, and contents of the scalar variable", "why_tests_cant": "four decoders written separately must agree on every text, with repeated keys, nesting and numbers of any form", "anchors": ["decode.go: decodeInterface, decodeMapStringInterface, decodeMap, decodeSlice, decodeBool, decodeFloat64, decodeNumber, decodeString", "json.go: Unmarshal, Parse"]}
{"id": "C98", "title": "Each encoding option changes only what it is about", "statement": "SortMapKeys makes no difference, neither to the output nor to the error, for a value without maps. With maps it only chooses the order of the entries: what Append writes with it is what Append writes without it for some order of the entries of the maps (raw messages being JSON if they are trusted). TrustRawMessage makes no difference for a value whose raw messages, including those returned by MarshalJSON, are each one JSON value.", "quantifier": "all values, nesting, colors, indentation, buffers and settings of the other options", "why_tests_cant": "sorted and unsorted maps are written by separate loops, and trusted and untrusted raw messages by separate paths, for three kinds of maps at any depth of nesting", "anchors": ["json.go: Append, SortMapKeys, TrustRawMessage, Encoder.SetSortMapKeys, Encoder.SetTrustRawMessage", "encode.go: encodeMap, encodeMapStringInterface, encodeMapStringRawMessage, encodeRawMessage"]}
{"id": "C99", "title": "A truncated text is never taken for a whole one", "statement": "If a JSON text whose value is not a number loses more than white space at its end, what remains is refused: Valid says no, Unmarshal and Parse return an error for every type of target, and a Decoder whose input ends or fails there returns no value, however its input is divided into reads.", "quantifier": "all JSON texts, all places where they can be cut, all types, contents of the variable and flags, all readers and numbers of calls", "why_tests_cant": "there are as many places to cut as there are bytes in as many texts as there are; and some decoders accept texts that are not JSON, so refusal does not follow from Valid", "anchors": ["json.go: Valid, Unmarshal, Parse, Decoder.Decode", "parse.go: parseValue, parseObject, parseArray, parseString", "decode.go: decodeArray, decodeSlice, decodeMap, decodeStruct"]}
{"id": "C100", "title": "A part is decoded as it would be alone", "statement": "Unmarshal of an array into a slice succeeds exactly if Unmarshal of each element's text alone succeeds, and then leaves in each element what that call would have left in the same place; likewise for the elements that fit a fixed-size array, what a pointer points to (a zero value if it was nil), the value of a single entry of a map with string keys (into a zero value) and a single member of a struct whose field lies in it directly.", "quantifier": "all JSON texts of the parts, all numbers of elements, all element types, contents of the variable and flags", "why_tests_cant": "a decoder of a composite shares its input, its buffers and its backing array among the parts; that nothing leaks from one to the next has to hold for every mixture of parts", "anchors": ["json.go: Unmarshal", "decode.go: decodeArray, decodeSlice, decodePointer, decodeMap, decodeStruct"]}
{"id": "C101", "title": "A part is encoded as it would be alone", "statement": "Without an active indenter, Append of an array or slice is the texts of its elements, each as Append of it alone, between brackets and with commas; a struct is its fields that omitempty does not leave out, none of which is reached through a nil embedded pointer, each as its name, a colon and Append of its value alone; a map with string keys likewise, in the order of the keys with SortMapKeys; a map of RawMessage likewise with SortMapKeys; a field with the string option is the string of Append of its value. If parts fail the error is that of the first of them.", "quantifier": "all values, all options and colors, no indenter or a disabled one", "why_tests_cant": "the parts share one buffer, the indenter's depth and the buffer for re-quoting; that what one writes never depends on its neighbours or on how deep it lies has to hold for every mixture of values", "anchors": ["json.go: Append, Marshal", "encode.go: encodeArray, encodeMap, encodeMapStringInterface, encodeMapStringRawMessage, encodeStruct, encodeToString"]}
{"id": "C102", "title": "A part can be replaced by what was written for it", "statement": "Without colors and without an active indenter, what Append wrote for a value, given back as a json.RawMessage or as the result of MarshalJSON, is written byte for byte the same with the same options; and if any number of parts of a value, at any depth, are replaced in this way, Append returns the same text or the same error. (Values of SpecRender.clean: those for which Append writes JSON.)", "quantifier": "all clean values, all choices of parts to replace, all options; no colors, no indenter or a disabled one", "why_tests_cant": "a raw message goes through a validator, a tokenizer, an HTML escaper and a printer of its own; that these leave every text the encoder can write as it is has to hold for every value", "anchors": ["json.go: Append, RawMessage", "encode.go: encodeRawMessage, encodeJSONMarshaler, appendCompactEscapeHTML"]}
{"id": "C103", "title": "The tokens are the text without its layout", "statement": "The Values a Tokenizer returns, put together in order, are the input without the white space between them. On any input the bytes up to where the Tokenizer stops are exactly the Values, each preceded by white space; it stops with a nil Err only at the end of the input or at a bracket that closes nothing. For a valid JSON text the Values put together are the text without white space outside strings, which is what Compact returns; they are a JSON text with the same syntax tree and the same tokens. Two JSON texts have the same tokens if and only if they differ in layout only.", "quantifier": "every byte string; every valid JSON text; every pair of valid JSON texts", "why_tests_cant": "no byte may be lost or returned twice on any input, however long", "anchors": ["token.go: Tokenizer.Next, Reset", "json.go: Compact"]}
{"id": "C104", "title": "A part of an indented value is laid out as it would be alone", "statement": "With an Indenter of prefix p and indent i, every element of an array or slice, every value of a map with string keys and every field of a struct is written exactly as Append would write it alone with prefix p+i and indent i; the container adds only brackets, commas, keys, line breaks, p and i. If a part alone fails, the whole fails with the error of the first part that does. An Indenter that an earlier call left at depth n acts like one whose prefix has n indents more. (For parts that leave the indenter at the depth it had; values of SpecRender.clean do.)", "quantifier": "all values, all nesting, all prefixes and indents, all colors and options", "why_tests_cant": "layout depends on the depth at which a part occurs, and every encoder, the raw message printer included, keeps count of it on its own", "anchors": ["encode.go: Indenter, appendIndent, encodeArray, encodeMap, encodeStruct, appendRawMessageTokens", "json.go: Append, NewIndenter"]}
{"id": "C105", "title": "A text in another layout takes the layout of the place it is put", "statement": "What Append wrote for a value without colors, with any Indenter of white space or with none, can be given back as a json.RawMessage or as the result of MarshalJSON in a call with another Indenter, or none: it is then written exactly as the value itself would be in that call, at whatever depth and after whatever is in the buffer. So any number of parts of a value, at any depth, can be replaced by texts written for them in other layouts, and the text or error of the call stays the same. (For values of SpecRender.clean in which every struct writes at least one field and the string option is on scalars only.)", "quantifier": "all clean values of standard layout, all choices of parts, all pairs of layouts (the first of white space), all options; no colors", "why_tests_cant": "the printer of raw messages has its own tokenizer, its own count of depth and its own rules for line breaks; that they agree with those of the encoders has to hold for every value, depth and pair of layouts", "anchors": ["json.go: Append, RawMessage", "encode.go: encodeRawMessage, encodeJSONMarshaler, Indenter, encodeArray, encodeMap, encodeStruct, encodeToString"]}
{"id": "C106", "title": "A text is shown in the colors of the value it was written for", "statement": "What Append wrote for a value without colors, with any Indenter of white space or with none, given back as a json.RawMessage or as the result of MarshalJSON in a call with any Colors and any Indenter, is written exactly as the value itself would be in that call: the same colors, the same layout. Any number of parts of a value, at any depth, can be replaced in this way. (For values of SpecRender.clean of standard layout, without []byte, time.Time, MarshalText, map keys other than strings and the string option, and without empty objects inside arrays.)", "quantifier": "all such values, all choices of parts, all Colors, all pairs of layouts (the first of white space), all options", "why_tests_cant": "the encoders choose colors by Go type and the printer of raw messages by the form of the token; that both agree has to hold for every value, nesting and choice of colors", "anchors": ["json.go: Append, RawMessage", "encode.go: encodeRawMessage, appendRawMessageTokens, encodeJSONMarshaler", "jsoncolor.go: Colors, DefaultColors"]}
{"id": "C107", "title": "A text passes unread through RawMessages", "statement": "A JSON text read by Unmarshal into RawMessages, with any slices and pointers around them and whatever the variable held before, and written again without colors, comes out as if the whole text had been one RawMessage: with the layout and the escaping of the call, and without indentation and HTML escaping byte for byte the text without its white space. Every number, escape, member, duplicate name and the order of members stay as they were spelled. A RawMessage takes every JSON text.", "quantifier": "all JSON texts, all types made of slices and pointers around RawMessage, all earlier contents, all decoding flags, all encoder settings without colors", "why_tests_cant": "reading cuts the text into parts of its own choosing and writing runs a tokenizer over each; that nothing is lost at any cut has to hold for every text and every nesting", "anchors": ["json.go: RawMessage, Unmarshal, Append", "decode.go: decodeRawMessage, decodeSlice, decodePointer", "encode.go: encodeRawMessage, appendRawMessageTokens, encodeSlice, encodePointer"]}
{"id": "C108", "title": "Readers cannot tell in which layout a value was written", "statement": "What Append writes for a value without colors in two layouts of white space, or with an indenter and without, is JSON with the same tree: if one call succeeds so does the other; a Tokenizer sees the same tokens with the same depths, indexes and keys in both texts; and Unmarshal of either into a variable of any type that does not keep the text itself succeeds with the same result, whatever the variable holds. (For values of SpecRender.clean whose string options are on scalars.)", "quantifier": "all such values, all pairs of layouts of white space, all options, all target types that hold no RawMessage or UnmarshalJSON, all contents of the target", "why_tests_cant": "the layout code of every encoder and the white space code of two readers have to agree for every value and every pair of layouts", "anchors": ["json.go: Append, Unmarshal, NewIndenter", "encode.go: Indenter, encodeArray, encodeMap, encodeStruct", "token.go: Tokenizer.Next"]}
{"id": "C109", "title": "Readers cannot tell whether HTML characters were escaped", "statement": "What Append writes for a value without colors with EscapeHTML and without it, in whatever layouts of white space, is JSON: if one call succeeds so does the other, and the two texts differ only in white space and in the spelling of characters of strings and keys. So Unmarshal of either into a variable of any type that neither keeps the text itself nor is a time or a duration succeeds with the same result, whatever the variable holds. (For values of SpecRender.clean whose Numbers and times are ASCII without <, > and &, and whose string options are not on strings.)", "quantifier": "all such values, all pairs of layouts of white space, EscapeHTML on or off in each, all other options, all such target types and contents", "why_tests_cant": "it relates two runs of the encoder and two of the decoder on every value, string and type; escapes are made at four places of the encoder and undone at three of the decoder", "anchors": ["json.go: Append, EscapeHTML, Unmarshal", "encode.go: encoder.doEncodeString, appendCompactEscapeHTML, encodeRawMessage", "parse.go: parseStringUnquote"]}
{"id": "C110", "title": "Readers cannot tell whether maps were sorted", "statement": "What Append writes for a value without colors with SortMapKeys and without it, in whatever layouts of white space, is JSON, and the two texts differ only in white space and in the order of members. If no two keys of an object select the same field of the target or denote the same map key, Unmarshal of one succeeds exactly if Unmarshal of the other does (into a zero value), and what is stored is equal up to the order of the entries of maps, whatever the target held. (For values of SpecRender.clean whose string options are on scalars, and target types that do not keep the text.)", "quantifier": "all such values at any nesting of maps, all orders in which a map is walked, all pairs of layouts, EscapeHTML and TrustRawMessage on or off, all such types and contents of the target", "why_tests_cant": "Go walks maps in random order and sorting is done by separate code for three kinds of maps; every order at every level must be read as the same value", "anchors": ["json.go: Append, SortMapKeys, Unmarshal", "encode.go: encodeMap, encodeMapStringInterface, encodeMapStringRawMessage", "decode.go: decodeMap, decodeStruct"]}
