# Formal model of neilotoole/jsoncolor in Rocq (Coq 8.16.1)

The properties are in `properties.jsonl` (C01, C02, ...), the theorems that settle each in `MANIFEST.json`, the
development in `rocq/theories`.  Build: `cd rocq && coq_makefile -f _CoqProject -o Makefile && make -j4`.

## 1. Trusted base

1. Coq's kernel, including its virtual machine (`vm_compute` is used for witnesses and examples).
2. No axioms.  Every theorem named in `MANIFEST.json` is followed by `Print Assumptions`, and each prints "Closed
   under the global context".  Proof irrelevance and other constants a checker may list for the *loaded libraries*
   (`Coq.ssr.ssrunder` among them) are used by no theorem.
3. That the model says what the Go code does.  It was written by reading /repo; the code was not built or run.
   Each definition of a `*Model.v` file cites the lines it models.
4. The contracts of what the code calls, listed in section 4.  They are parameters (or hypotheses) of the theorems,
   never axioms, and each theorem that has such hypotheses is followed by an example that meets them.

## 2. How the code is represented

- A byte is a `Z`; `wf` says that all elements are in 0..255.  A slice is the list of its elements; nil is explicit
  where the code tells it from empty; capacity is explicit where the code uses it (decoding into a slice, the stream
  buffer).  Strings are byte lists.
- An error is its class (`err` in Bytes.v: syntax error, type error, ...), not its text.  A run-time panic is an explicit
  result (`EPanic`, `EPanicked`, `None`), so "never panics" is a statement about the model.
- Loops are structural recursion or recursion on fuel with an explicit out-of-fuel result; lemmas show that the fuel
  the model starts with never runs out.
- `int` has 64 bits (the code itself packs two indices in one int: codec.go:573).  Words are little-endian (ascii.go).
- Machine integers: the wrap-around of the integer parsers and of the word tricks of ascii.go is modelled exactly.
- The Indenter is a mutable object behind a pointer: its depth is threaded through every encoder.
- Go values, for the encoders: the tree `gval` (EncModel.v), one constructor per encoder function that codec.go can
  select.  A map is the list of its entries in iteration order, so "for every iteration order" is "for every
  permutation".  User-defined marshalers are the result they return.
- Go values, for the typed decoders: a type language `gty`, and memory `mem` of the shape of a type (TypeModel.v).
  Unsafe pointers and offsets become positions in that tree; AddrModel.v has the same decoders on a flat memory with addresses,
  offsets and sizes, and C69 shows that they do the same on memory without sharing; C70 is about memory with sharing and rings.  ViewModel.v computes the `gval` of a `mem`; ReadModel.v reads it from flat memory (C71).
- Struct types: the table of JSON fields is data for TypeModel.v and ViewModel.v; StructModel.v models how codec.go
  computes that table from the declarations, and `C52_environment` connects the two.
- Time and depth (MeterModel.v): the decoders of TypeModel.v again, with a meter.  A loop over bytes costs one step per
  byte and one for the call; constant factors are left out; a function outside the package costs one step per byte it is
  given; allocation costs nothing.  The depth counts calls of parseValue and of the decoders of values.
- Concurrency (SharedModel.v): any number of calls, one step per access to the buffer, the pool or the cache, any
  interleaving; sync.Pool may drop or keep buffers at any time.

## 3. What is modelled, what is not

| file in /repo | modelled | not modelled |
|---|---|---|
| ascii.go | all | |
| parse.go | all | |
| token.go | all; the stack as a list (TokenModel), and as a slice of the field `buffer` or of an array made by append, shared by copies (StackModel) | — |
| jsoncolor.go | all | |
| encode.go | all encoders, Indenter, raw messages | reflect; what interfaces refer to in memory (part of their cell in ReadModel.v; HeapModel.v has references) |
| decode.go | all decoders; what they share with the input (DontCopy flags: AliasModel.v, with the Decoder's buffers in BufModel.v); interfaces that hold pointers (IfaceModel.v), also to interfaces (ChainModel.v); UnmarshalTypeError (WhereModel.v) | the methods UnmarshalJSON and UnmarshalText of user types are taken to copy what they keep |
| codec.go | construction of codecs from reflect's description of types (CodecModel.v) and the codecs chosen (TypeModel.v, ViewModel.v), struct fields (StructModel.v), cache (SharedModel.v), representation in interfaces and the tests for omitempty on memory (WordModel.v), error helpers | text of errors other than Field, Struct and Value of UnmarshalTypeError |
| json.go | Append, Marshal, MarshalIndent, Unmarshal, Parse (TypeModel.v; targets that are no pointers: ApiModel.v), Valid, Decoder, Encoder, buffer pool | – ; Compact, HTMLEscape and Indent are one-line calls of encoding/json, whose functions are modelled in ScanModel.v (C86) |
| reflect.go, reflect_optimize.go | extendSlice (as growth of the backing list; as copying in AddrModel.v) | |
| terminal.go, terminal_windows.go | all | the operating system's answers are parameters |
| cmd/jc/main.go | doMain | usage text; reading the files is a parameter |
| helper/fatihcolor | all | github.com/fatih/color: its output format is a definition |

Also outside: garbage collection, what happens when the stack is exhausted on very deep input (C73 has the depth; for values with references it is a parameter, HeapModel.v), out of memory, data races on
values the caller mutates during a call, Go versions before 1.15.

## 4. Contracts of code outside the repository

| what | how it appears |
|---|---|
| unicode/utf8, unicode/utf16 | definitions (Utf8Model.v), proved to agree with the Unicode definition of UTF-8 (SpecString.v) |
| strconv.AppendInt/AppendUint | definition: shortest decimal text |
| strconv.AppendFloat, shortest digits | a float is given by its shortest decimal digits and exponent; layout 'f'/'e' is a definition; for C83 a definition that finds the shortest decimal of an IEEE 754 float (FloatModel.v), shown to meet SpecFloat.v |
| strconv.ParseFloat | parameter `pf` / `v_float`, any partial function; round trips assume `parses` (finite floats are found again from their shortest decimals), met by an exact parser (ExactFloat.v) and by rounding to the nearest IEEE 754 float (FloatModel.v, C83) |
| base64 | encoding: definition with RFC 4648 specification; decoding: parameter `v_b64`, instantiated with a definition of StdEncoding.Decode for C82 (B64Model.v) |
| time, Duration | text of the time (RFC 3339) and parameters `v_time`, `v_dur`; for C85 `v_time` is instantiated with definitions of Time.AppendFormat and time.Parse for RFC3339Nano (TimeModel.v; a Time is its moment and offset: zone names, locations and the monotonic clock are left out); for C87 `v_dur` is instantiated with a definition of time.ParseDuration, including its float64 arithmetic (DurModel.v) |
| MarshalJSON, MarshalText, UnmarshalJSON, UnmarshalText | parameters (`GMarshaler`, `GText`, `v_json`, `v_text`, `o_json`, `o_text`); assumed not to panic, not to touch other memory |
| strings.ToLower, unicode.SimpleFold, unicode.IsLetter/IsDigit | parameters `v_lower`, `v_fold`, `letter` |
| encoding/json.Indent (MarshalIndent, and MarshalJSON results) | parameter `std` / `indfun`; for C86, C54 and C20 instantiated with `go_indent` (ScanModel.v: the scanner and the loops of encoding/json of Go 1.25, with its limit of 10000 open brackets; error messages and offsets are left out) |
| io.Reader, io.Writer | list of results of successive Read/Write calls |
| sort.Slice | insertion sort (the order is total on what is sorted, so any sort gives the same) |
| sync.Pool, atomic pointers | steps of SharedModel.v |
| layout of types (reflect's Size, Align, Offset) | parameter `layout` with the contract `lay_ok`, met by the layout of the gc compiler (AddrLayout.v) |
| environment of struct types | `env_ok`, `env_typed`, `env_names`: paths lead to memory of the field's type, no two fields overlap, ...; proved for tables computed from declarations (`C52_environment`) |

## 5. Layout of theories/

- `*Model.v`: definitions only, each citing its source lines.
- `Spec*.v`: the independent specifications: JSON grammar (SpecJson), Unicode and strings (SpecString), numbers and base64
  (SpecNum), documents and their layout (SpecRender, SpecColor), tokens (SpecTokens), Tokenizers as values (SpecStack), calendar and RFC 3339 (SpecTime), texts of durations (SpecDur), types and texts of lossless re-encoding (SpecStd), memory without repeated keys (SpecNormal), nesting of brackets (SpecScan), values denoted by texts (SpecDec),
  typed storing (SpecType, SpecFit, SpecField), equality up to capacity (SpecSame), streams (SpecStream), several values in one text (SpecParse), from Encoder to Decoder (SpecPipe), reformatting (SpecCanon), settings
  (SpecEncoder), calls that share nothing (SpecShared), values in memory (SpecAddr, with shared parts SpecRead), memory in which anything may refer to anything (SpecVars), the field rules of encoding/json (SpecStruct), nesting and layers of types (SpecMeter), floats of IEEE 754 (SpecFloat), detection (SpecJc), decoding again (SpecAgain), members one by one (SpecMerge), options of decoding and of encoding (SpecFlags, SpecOption), generic targets (SpecGeneric), parts (SpecPart, SpecSum, SpecCache), layout (SpecLayout, SpecDeep, SpecRelay, SpecThrough, SpecReader, SpecSorted).
  They use the model's data types but none of its algorithms; leaf formats used in SpecRender (strings, integers, floats, base64) have
  their own correctness theorems (C05, C06, C09, C34, C35).
- `Props*.v`: the theorems of the manifest, their examples and `Print Assumptions`.
- the other files: lemmas.

A property that the faithful model violates is kept in full, refuted by a theorem `..._refuted` with a concrete
witness, and what remains true is proved as `..._partial`, whose hypotheses exclude the refuted cases.

## 6. Plan per property

| id | model | proof |
|----|-------|-------|
| C01 | ParseModel | grammar as inductive relation; soundness and completeness by induction on fuel / derivation |
| C02 | AsciiModel | borrow/carry analysis per byte, induction on length |
| C03 | DecModel | induction on the derivation, against a denotation of syntax trees |
| C04, C05, C06 | StringModel, ParseModel | induction on the string with a code-point specification |
| C07, C15 | EncModel | "no forbidden byte" invariant by induction on values |
| C08, C09 | IntModel | loop invariant: value = decimal value of the digits read |
| C10, C31, C33, C36 | EncModel | the encoder prints the document of the value; documents are JSON |
| C11, C50 | EncModel, DecModel / TypeModel, ViewModel | the document of a value denotes the value; composition with C03 / C42 |
| C12, C13, C14, C32 | EncModel | simulation between two configurations (EncRel); reference token printer |
| C16, C17, C38 | EncModel | same simulation; depth invariant by induction on values |
| C18 | EncModel | uniqueness of sorted permutations of distinct keys |
| C19, C20 | EncModel | token list of a derivation; simulation with an explicit stack |
| C21, C22 | TokenModel | simulation against the token list |
| C23, C24, C37 | StreamModel | prefix lemmas for the parser; readers as lists of chunks; conservation (SpecConserve) by induction on the calls, for every reader |
| C25, C26 | EncoderModel | induction over operation lists |
| C27, C28 | SharedModel | ownership / correctness invariants over all schedules |
| C29 | EncModel | induction on values |
| C30, C39, C40 | JcModel | case analysis; composition of C03, C11, C12 |
| C34, C35 | EncModel | exact value of the decimal text; inverse of base64 |
| C41, C43 | TypeModel | induction on fuel with invariants over arbitrary input; SpecLoose.v gives the texts that fixed-size arrays accept beyond JSON |
| C42, C44-C49 | TypeModel | refinement of the relation `stores` by mutual induction on trees and types |
| C51-C53 | StructModel | invariant of the recursive computation; counting argument for dominance |
| C54 | IndentModel | composition of the encoder's specification with the contract of encoding/json's Indent |
| C55 | WordModel | memory as words; case analysis on the type's shape |
| C56 | ViewModel, EncModel, WordModel | fields picked from the struct's list; tests on words |
| C57 | AliasModel, BufModel | decoders that also store where a string's bytes are; they erase to TypeModel.v; a property of all stored strings is preserved |
| C58 | TypeModel | two inductions on fuel: errors on arbitrary input are SyntaxErrors or leave a value read; errors on JSON texts are not SyntaxErrors and leave the rest |
| C59 | TypeModel | the relation `stores` (C42) does not distinguish trees that are spelled differently |
| C60 | CodecModel | invariant of the table of struct types: the encoders in it are those the documentation gives (`right`) |
| C61 | CodecModel | induction on the struct types not yet met, then on the nesting; conversely no fuel is enough |
| C62 | CodecModel | the decoders are the terms of TypeModel's type language |
| C63 | CodecModel | invariant: methods are called on types that have them |
| C64 | TypeModel | commutation of stores into disjoint fields; congruence of decoding under reordered maps |
| C65 | IfaceModel, TypeModel | equality with decoding through the pointer |
| C66 | WhereModel, TypeModel | the place is the one [faults] describes, by induction on text length and type; uniqueness by the same induction |
| C75 | WhereModel, TypeModel | the report of [unmarshal_at] agrees with the place [faults] describes, by the induction of C66; the rest are consequences by cases on the type wanted |
| C76 | ApiModel, TypeModel | what each parser and decoder leaves is a tail of its input, by induction on fuel; the inductions of C41 and C66 for the rest |
| C77 | EncoderModel, StreamModel | induction on the history of calls gives the lines written; C23 for reading them, C11 and C50 for each value; the literals of a document are encoded strings |
| C78 | DecModel, EncModel, JcModel | C11 for the second reading; equal trees have one document (keys sorted and distinct), so one encoding by C33 |
| C79–C81 | EncModel, EncoderModel | the simulation of EncRel.v on tokens (LeafRel.v), once for a set of bytes, once for UTF-8, once relating the two settings of EscapeHTML through html_escape |
| C82 | B64Model, TypeModel | the decoder against the relation `base64_read`, by induction on the groups of four; linear arithmetic with division |
| C83 | FloatModel, DecModel, TypeModel, EncModel, JcModel | rounding is nearest (units of the exponent chosen), nearest is unique and monotone, decimals on a grid around the float; then the contracts of C11, C39, C50, C78 |
| C84 | StackModel, TokenModel | refinement of the list by the slice with a frame (Next writes one array); invariant: no other live variable uses the array; induction on the program |
| C85 | TimeModel, TypeModel | induction over days for the calendar; inversion of the parser against the grammar; round trip by writing in the grammar |
| C86 | ScanModel | every state of the scanner has a language (the rests of texts it accepts), each step removes one byte from it; the outputs by induction on the bytes, and by mutual induction on the grammar |
| C87 | DurModel, TypeModel | error of each float operation bounded relative to its argument; inversion of the parser against the grammar; round trip by writing in the grammar |
| C88 | TypeModel, ViewModel, EncModel, and the library models of C82, C83, C85, C87 | invariant over all memory of the variable, cells beyond the length of slices included; kept by every store (induction on the text and the type); implies the hypotheses of C50 |
| C89 | TypeModel, ViewModel, EncModel | distinct keys kept by every store (induction on the derivation); equal values have equal documents (induction on the derivation of `trip`, sorted lists with distinct keys are unique); normal form from C50 with a relation that tracks how messages are spelled (`again` in TripType.v; escaping twice is escaping once) |
| C90 | DecModel, EncModel | trees with Numbers (`go_tree_of true`) round-trip as those with floats do (C11); a denotation's literals are the live ones of the text; equal trees have one document (C78) |
| C91 | EncModel | a step of the encoder is bounded by units of size, at a rate depending on the depth; steps compose; induction on the value, and on the tokens of messages |
| C92 | TypeModel, DecModel | every decoder pays for the cells it allocates with the bytes it consumes, at the rate of the type, on success and on failure; commas, colons and brackets pay for elements, entries and growth; induction on the budget |
| C93 | TypeModel | values decoded one after the other into one place form a chain; a chain run again from its end returns there, by induction on size and type: elements, entries, pointers and fields (paths apart) each see their own chain; members that match one field, however spelt, form that field's chain |
| C94 | TypeModel | acceptance into one variable carries to any other that fits, by the same induction; needed by C93 for the second run |
| C95 | TypeModel | through C42: the members of a struct act in sequence, the entries of a map are assigned in sequence, so both split at every comma |
| C96 | TypeModel | through C42: the relation stores uses the flags only for numbers in interfaces, for the choice of the field and for unknown members; it is monotone in each by induction on size and type |
| C97 | TypeModel | through C42: the relation stores for the generic types, read off its clauses; assignment of entries commutes with the injection of strings and interface values into keys and memory |
| C98 | EncModel | the loops of the encoders do not read the flags; induction on the value, with encoders that succeed where others do and roll back where others do |
| C99 | ParseModel, TypeModel, StreamModel | a scanner for the depth of brackets and strings, as in no decoder: what C41 lets types accept closes what it opens, a proper front of an array, object or string does not; literals by the determinism of parseValue; the Decoder by C37 |
| C100 | TypeModel | C42 turns both sides into the same relation on the parts; slices by induction over the cells of the backing array, fields by the path that leads to them |
| C101 | EncModel | equations between outcomes (panic, text or error): C29 and the independence of depth without an indenter (FlatFacts) make each part a constant, then induction over each loop |
| C102 | EncModel | the text of a clean value is that of its document (C33), whose tokens have nothing left to escape, so the document of its tree has the same text; then the congruences of FlatFacts |
| C103 | TokenModel, ScanModel | each step takes white space and one token off the input; squeezing (SpecColor) goes through token by token; the rest from C21, C86 and unambiguity |
| C104 | EncModel | simulation between depth d+1 with prefix p and depth d with prefix p+i, for every encoder (DeepFacts); then the loops as in C101 |
| C105 | EncModel | the tree of a document does not depend on the layout it was printed in (again_laid, from C102); pointwise equal encoders give equal containers |
| C106 | EncModel | as C105, with the kinds of tokens: the document of a value without kinds of its own has at each token the kind its text has in a raw message (vdoc_kinds) |
| C107 | TypeModel, ViewModel, EncModel | induction over the type: what was stored is written as the tree of the text (carried); then C33 and that the compact text has the same tree |
| C108 | EncModel, TokenModel, TypeModel | the tree of a document whose quoted parts are tokens does not depend on the layout (dast_flat); then C103 and C59 |
| C109 | EncModel, TypeModel | C81 relates the two outputs by html_escape, C86 their trees, C108 the layouts, C59 what is decoded |
| C110 | EncModel, TypeModel | the documents of a value with and without sorting have reordered trees, by induction on the value; then C64 |
| C67 | HeapModel, EncModel | results grow with the stack; induction on the tree, and on stack and value |
| C68 | ChainModel, DecModel | induction on the list of variables met |
| C69 | AddrModel, TypeModel | refinement: the decoders on memory simulate those on values, by induction on fuel and type; footprints of values are disjoint sets of addresses |
| C70 | AddrModel | invariant: every address has one kind and holds what the kind allows (typed heap), kept by every write and allocation; induction on fuel and type, over the history of calls |
| C71 | ReadModel, ViewModel, AddrModel | refinement of ViewModel by induction on fuel and type; typed heap of C70 for the reads; with C50 and C69 for the copy |
| C72 | TypeModel | relation `leaves` for texts that are not a value of the type; induction on fuel and type, inside it over the loops of the decoders; what was read before the failure comes from C41_spelled, so fixed-size arrays are included |
| C73 | MeterModel, TypeModel | the decoders with a meter, equal to those of TypeModel.v in results; upper bounds by induction on fuel and type, lower bounds by induction on the number of brackets |
| C74 | MeterModel, TypeModel | the same meter; amortized bounds (steps against bytes consumed) through all loops |

## 7. Testing the theorems (seeded/LOG.jsonl)

Each line is one wrong model.  It is made in a scratch copy: one definition is edited, then every file that depends
on it is compiled again.  Where a proof no longer goes through it is replaced by `Admitted` (in the scratch copy only)
and compilation goes on, so that a line says which proofs fail and not only which file fails first.

- `definition`, `edit`: what was changed; `claim`: the property that is false of the edited model.
- `theorems_failed`: claimed theorems whose own proof script fails.
- `theorems_resting_on_failed_lemmas`: claimed theorems whose own script goes through, but only on the assumption of
  lemmas whose scripts fail (these are named).  A failing script does not show that the statement is false, so this
  is weaker evidence than a refutation; it does show that the theorem is not proved for the edited model.
- `lemmas_failed`, `examples_failed`: likewise for the other statements.
- `files_not_compiled`, `theorems_not_reached`: files with an error outside a proof, and what they would have proved.
- `theorems_tightened`: theorems added or strengthened because of this edit.
- `note`: remarks, for example that the edit turned out to change nothing observable.

Edits that did not compile at all were made again in another way and are not listed.

## 8. Index of the specifications and of the theorem files

Specifications, in the words of their own headers:

| file | specifies |
|---|---|
| SpecAddr | When memory holds a value: the variables of which the value consists lie where the layout of the types says, and no two of them overlap. |
| SpecAgain | decoding the same text again (C93). |
| SpecAlias | sharing: what a decoded value looks like after the memory that was the input has changed. |
| SpecAlloc | the memory a value takes, for the bound of what Unmarshal makes reachable from its target (C92). |
| SpecB64 | Base64 text as a reader accepts it (RFC 4648 section 4): the unused bits of the last character may be anything. |
| SpecCache | parts replaced by their own text (C102). |
| SpecCanon | What C78 speaks of: decoding a text and writing the value again. |
| SpecChain | the variables met by following the pointers. |
| SpecCodec | Which methods the encoder of a type calls, and which decoder a type gets, as the documentation of encoding/json (which jsoncolor follows) has it. |
| SpecColor | colorized and indented output: removing color sequences, removing layout, the layout of the standard Indent, and what the data in a value may be. |
| SpecConserve | C24 and C37: how a stream is divided. |
| SpecDec | decoding into interface{}: the value a JSON syntax tree denotes. |
| SpecDeep | the layout of parts (C104). |
| SpecDur | Durations written as text: specification for C87. |
| SpecEnc | further properties of the encoders. |
| SpecEncoder | the Encoder's settings and histories. |
| SpecErr | Which types the two directions of "a SyntaxError is returned exactly for texts that are not JSON" are proved for. |
| SpecField | vocabulary for struct fields: reading a field, fields that do not overlap, what null does, names that differ only in case. |
| SpecFit | Memory that a Go variable of a type can hold, and environments whose struct types are those of a Go program. |
| SpecFlags | what the flags of Parse and the options of a Decoder change (C96). |
| SpecFloat | binary floating-point numbers (IEEE 754), and of what it means to read a decimal as one and to write one as a decimal. |
| SpecGeneric | targets of generic types (C97). |
| SpecHeap | values with references: the tree a value stands for, if it is finite. |
| SpecJc | color detection and of the jc command. |
| SpecJson | the JSON grammar of RFC 8259, as relations between byte strings and syntax trees. |
| SpecLayout | a text taken apart into pieces and the white space before each of them. |
| SpecLeft | what a failed Unmarshal leaves in its target, for every text, JSON or not: what was read before the failure is stored, and the variable the failure happened in is as the relation [leaves] says. |
| SpecLoose | Which texts a type accepts: JSON, and more than JSON where a fixed-size array is decoded. |
| SpecMerge | objects that act member by member (C95). |
| SpecMeter | Nesting of JSON texts. |
| SpecNormal | C89: memory as Go programs have it, and types without raw messages. |
| SpecNum | the number a JSON number literal denotes (RFC 8259 section 6) and of base64 (RFC 4648 section 4). |
| SpecNumber | What C90 speaks of: the number literals of a text that count. |
| SpecOmit | the option omitempty, from the documentation of encoding/json: a field with this option is left out if its value is false, 0, a nil pointer, a nil interface value, or an array, slice, map or string of length zero. |
| SpecOption | the options of encoding (C98). |
| SpecOrder | objects whose members stand in another order, and memory with the same content up to the order of the entries of maps. |
| SpecOut | what the bytes of an output are: single lines, UTF-8, and what EscapeHTML changes. |
| SpecParse | reading values one after the other from one text. |
| SpecPart | parts decoded as if alone (C100). |
| SpecPipe | values that go through an Encoder and a Decoder. |
| SpecRaw | C19 and C07: trees with the same meaning, native values with the same document as a raw message, and texts without HTML characters. |
| SpecRead | When memory shows a value: as in SpecAddr.v, but parts of the value may share memory, and what is behind the length of a slice may be anything. |
| SpecReader | readers of what was written in some layout (C108, C109). |
| SpecRelay | parts replaced by their text in another layout (C105) and in colors (C106). |
| SpecRender | encoder output: abstract documents, a reference printer, and the document of each Go value. |
| SpecSame | the round trip of typed values: memory with the same content, and values that JSON can carry. |
| SpecScan | Indent, Compact and HTMLEscape: how deep the brackets of a text are nested. |
| SpecShared | calls that share nothing: what each gets alone. |
| SpecSize | the size of a Go value, in units, and of the largest number of bytes an Encoder may write for one unit. |
| SpecSorted | readers of sorted and unsorted maps (C110). |
| SpecSpell | texts that differ only in white space, or in white space and the spelling of their strings. |
| SpecStack | What a program is entitled to expect of Tokenizer variables that it assigns to one another: specification for C84. |
| SpecStd | re-encoding what was decoded: the types and texts for which nothing is lost. |
| SpecStream | streams of JSON values. |
| SpecString | what strings mean: Unicode scalar values, the UTF-8 encoding form, and the characters a JSON string denotes (RFC 8259 section 7). |
| SpecStruct | The rules of encoding/json for the JSON fields of a struct type, stated without the algorithm: which declared fields are candidates, which candidate of a name dominates, and in which order the fields come. |
| SpecSum | parts encoded as if alone (C101). |
| SpecThrough | texts that pass through RawMessages (C107). |
| SpecTime | Dates and RFC 3339: specification for C85. |
| SpecTokens | the tokens of a JSON text, with the position each is found at, as documented on the Tokenizer type (token.go:41-66). |
| SpecTrip | round trips: Go value trees that interface{} decoding can return, and the contract of strconv.ParseFloat that is needed. |
| SpecType | decoding into typed values: which memory a JSON value turns which memory into, by recursion on the syntax tree and the type. |
| SpecVars | Memory in which variables may refer to each other in any way: what is at which address, and when memory agrees with that. |
| SpecWhere | the place an UnmarshalTypeError names: which value of the text is the first that its place in the target cannot hold. |
| SpecWord | how Go represents a value in an interface or a reflect.Value. |
| SpecZero | The zero value of a Go type (spec: The zero value): false, 0, the empty string, nil, the first instant of year 1 in UTC, and for arrays and structs the zero values of their elements and fields. |

Where the theorems of each property are:

| file | properties |
|---|---|
| PropsAddr | C69 |
| PropsAgain | C93, C94 |
| PropsAlias | C57 |
| PropsAlloc | C92 |
| PropsAscii | C02 |
| PropsB64 | C82 |
| PropsCache | C102 |
| PropsCanon | C78 |
| PropsChain | C68 |
| PropsCodec | C60, C61, C62, C63 |
| PropsColor | C12, C13, C15, C16, C32 |
| PropsConserve | C24, C37 |
| PropsCont | C48, C49 |
| PropsCut | C99 |
| PropsDec | C03, C11 |
| PropsDeep | C104 |
| PropsDur | C87 |
| PropsEnc | C10, C14, C16, C17, C18, C20, C29, C31, C33 |
| PropsEncoder | C25, C26, C38 |
| PropsErr | C58 |
| PropsField | C44, C45, C46, C47 |
| PropsFlags | C96 |
| PropsFloat | C83 |
| PropsGeneric | C97 |
| PropsHeap | C67 |
| PropsIface | C65 |
| PropsIndent | C54 |
| PropsJc | C25, C30, C39, C40 |
| PropsLayout | C103 |
| PropsLeaf | C34, C35, C36 |
| PropsLeft | C72 |
| PropsLoose | C41 |
| PropsMerge | C95 |
| PropsMeter | C73, C74 |
| PropsNormal | C89 |
| PropsNumber | C90 |
| PropsOmit | C56 |
| PropsOption | C98 |
| PropsOrder | C64 |
| PropsOut | C79, C80, C81 |
| PropsParse | C01, C08, C09 |
| PropsPart | C100 |
| PropsPipe | C77 |
| PropsRaw | C07, C19 |
| PropsRead | C71 |
| PropsReader | C108 |
| PropsRelay | C105, C106 |
| PropsRest | C58, C76 |
| PropsScan | C20, C54, C86 |
| PropsShared | C27, C28 |
| PropsSize | C91 |
| PropsSorted | C110 |
| PropsSpell | C59 |
| PropsStack | C84 |
| PropsStd | C88 |
| PropsStream | C23, C24, C37 |
| PropsString | C04, C05, C06, C07 |
| PropsStruct | C51, C52, C53 |
| PropsSum | C101 |
| PropsThrough | C107 |
| PropsTime | C85 |
| PropsTold | C109 |
| PropsTokens | C21, C22 |
| PropsTrip | C50 |
| PropsType | C41, C42, C43 |
| PropsVars | C70 |
| PropsWhere | C66, C75 |
| PropsWord | C55 |
| PropsZero | C43 |
