{"id": "C01", "title": "String values round-trip through JSON", "statement": "Marshal(s) of any Go string s, with default options, never fails and yields a JSON string literal (RFC 8259) whose decoded value is s with every byte that is not part of a valid UTF-8 sequence replaced by U+FFFD; if s is valid UTF-8 the decoded value is exactly s.", "quantifier": "every byte string, valid UTF-8 or not, of any length", "why_tests_cant": "256^n inputs; a wrong boundary in the accumulate/flush indices, in the UTF-8 size handling or in an escape only shows for particular byte neighbourhoods.", "anchors": ["encode.go:appendEscapedBytes", "encode.go:encodeString"]}
{"id": "C02", "title": "HTML-sensitive and line-separator characters never appear raw by default", "statement": "With default options the encoding of a string contains none of the bytes '<', '>', '&', no control byte below 0x20 and no raw U+2028/U+2029; with NoHTMLEscaping the encoding still decodes to the same string and the three HTML characters are emitted raw.", "quantifier": "every byte string and both settings of NoHTMLEscaping", "why_tests_cant": "The claim is about absence of a byte pattern in every output, including patterns formed across escape boundaries.", "anchors": ["encode.go:appendEscapedBytes"]}
{"id": "C03", "title": "String output is valid UTF-8", "statement": "With default options the bytes produced for any string are valid UTF-8, whatever the input bytes.", "quantifier": "every byte string, including truncated, overlong and surrogate sequences", "why_tests_cant": "Requires every malformed prefix/suffix combination around copied byte runs.", "anchors": ["encode.go:appendEscapedBytes"]}
{"id": "C04", "title": "NoStringEscaping and NoUTF8Coercion keep bytes", "statement": "With NoStringEscaping the string is copied verbatim between quotes whatever the other two escaping options are; with NoUTF8Coercion (alone or with NoHTMLEscaping) the output decodes to exactly the input bytes, invalid bytes included.", "quantifier": "every byte string and every combination of the three string options", "why_tests_cant": "Interaction of three flags over unbounded inputs.", "anchors": ["encode.go:appendEscapedBytes", "options.go:NoStringEscaping", "options.go:NoUTF8Coercion"]}
{"id": "C05", "title": "U+2028/U+2029 are escaped unconditionally", "statement": "The encoder states that line and paragraph separators are escaped unconditionally, as they break JavaScript consumers. Unless string escaping is disabled, no output string contains them raw.", "quantifier": "every byte string, every option set without NoStringEscaping", "why_tests_cant": "Only a flag combination exposes it (refuted: NoUTF8Coercion turns the escape off).", "anchors": ["encode.go:appendEscapedBytes"]}
{"id": "C06", "title": "json.Number is accepted exactly when it is a JSON number", "statement": "Marshal(json.Number(n)) succeeds exactly when n is empty or matches the RFC 8259 number grammar; the output is n itself ('0' if empty); otherwise an error and no output; NoNumberValidation always emits n verbatim.", "quantifier": "every byte string used as a json.Number", "why_tests_cant": "Equivalence between a hand-written scanner and a grammar on all strings.", "anchors": ["number.go:isValidNumber", "encode.go:encodeNumber"]}
{"id": "C07", "title": "Compaction preserves the JSON value", "statement": "For a json.RawMessage (or MarshalJSON result) holding a valid JSON text, the emitted bytes are a valid JSON text without insignificant whitespace that denotes the same value: same structure, same number literals, same decoded strings and keys. With HTML escaping on, the bytes '<','>','&' and raw U+2028/9 do not occur in it.", "quantifier": "every valid JSON text, any nesting, whitespace, escapes, multi-byte characters; both HTML settings", "why_tests_cant": "The compactor keeps a two-flag automaton and copies byte runs by index; all texts must be covered.", "anchors": ["encode.go:appendCompactJSON", "encode.go:encodeRawMessage", "encode.go:encodeJSONMarshaler"]}
{"id": "C08", "title": "Invalid JSON from user code is rejected", "statement": "Marshal never embeds bytes that are not valid JSON: an invalid MarshalJSON result yields a MarshalerError, and an invalid json.RawMessage yields an error, unless NoCompact is set.", "quantifier": "every byte string returned by MarshalJSON or held by a RawMessage", "why_tests_cant": "Universal over byte strings (refuted for json.RawMessage, proved for MarshalJSON).", "anchors": ["encode.go:encodeRawMessage", "encode.go:encodeJSONMarshaler"]}
{"id": "C09", "title": "Integers are encoded exactly", "statement": "Every value of every integer type encodes to the canonical decimal JSON number (no leading zeros, '-' only for negatives) whose value is exactly that integer.", "quantifier": "all integers of int8..int64, uint8..uint64, uintptr", "why_tests_cant": "2^64 values; sign and width conversions.", "anchors": ["integer.go"]}
{"id": "C10", "title": "Floats are valid JSON numbers with the shortest-decimal value; NaN/Inf are errors", "statement": "A NaN or infinite float always yields UnsupportedValueError and never output. Every finite float yields text matching the JSON number grammar whose exact decimal value is that of the shortest decimal chosen by strconv, with exponent form exactly when |f| < 1e-6 or |f| >= 1e21 (f nonzero), and single-digit negative exponents written without a leading zero.", "quantifier": "all float32/float64 values", "why_tests_cant": "2^64 values, the in-place exponent rewrite edits the tail of the buffer.", "anchors": ["encode.go:appendFloat", "encode.go:encodeFloat32", "encode.go:encodeFloat64"]}
{"id": "C11", "title": "RFC 3339 time encoding is correct", "statement": "For every instant whose local year lies in 1..9999 and every zone offset of less than 100 hours, the RFC3339 and RFC3339Nano encodings are the quoted date-time whose civil date (proleptic Gregorian), time of day, fraction and zone offset in minutes are those of the instant, with the digits of the fraction up to the last that is not zero and Z for the offset zero: exactly one text for each instant; no write is out of the scratch buffer's bounds.", "quantifier": "all instants (Unix seconds, nanoseconds) in those years, all offsets", "why_tests_cant": "3.6 million days times 86400 seconds times 10^9 nanoseconds times offsets.", "anchors": ["time.go:rdnToYmd", "time.go:appendRFC3339Time", "encode.go:encodeTime"]}
{"id": "C12", "title": "Every time accepted by Marshal is encoded correctly", "statement": "Marshal of a time.Time fails exactly when the year is outside [0,9999]; every accepted time is encoded as the right RFC 3339 date.", "quantifier": "all instants with year in [0,9999]", "why_tests_cant": "Boundary year 0 is accepted by the range check but below the calendar algorithm's domain (refuted: year 0 is garbled).", "anchors": ["encode.go:encodeTime", "time.go:appendRFC3339Time"]}
{"id": "C13", "title": "Numeric time and duration formats", "statement": "UnixTime emits the Unix second as a decimal integer and has precedence over any layout. DurationNanoseconds/Microseconds/Milliseconds emit the duration divided by 1/10^3/10^6 rounded toward zero, as a decimal integer.", "quantifier": "every time, every int64 duration, every option set", "why_tests_cant": "All int64 values including the minimum; precedence over all layouts.", "anchors": ["encode.go:encodeTime", "encode.go:encodeDuration"]}
{"id": "C14", "title": "Duration strings denote the duration exactly", "statement": "With DurationString, the emitted text is a quoted duration in Go notation whose exact value, read back by the documented grammar (number + unit summed, with sign), is the encoded duration; it is exactly the text of Duration.String (unit by magnitude, no leading zeros, no trailing zeros in fractions); the 32-byte scratch buffer is never overrun.", "quantifier": "every int64 duration, including the minimum", "why_tests_cant": "2^64 values, unsigned negation wrap-around at the minimum.", "anchors": ["time.go:appendDuration", "time.go:fmtFrac", "time.go:fmtInt"]}
{"id": "C15", "title": "Byte slices are base64 and the in-place growth is exact", "statement": "A non-nil []byte encodes to the quoted standard padded base64 of its content, decodable to exactly that content, for any spare capacity of the destination buffer: the manual growth neither overruns the buffer nor changes the bytes already there.", "quantifier": "every byte slice, every destination length and capacity", "why_tests_cant": "Unbounded sizes; growth arithmetic depends on len/cap combinations.", "anchors": ["encode.go:encodeByteSlice"]}
{"id": "C16", "title": "Options compose", "statement": "Each flag option enables exactly its own behaviour and leaves all others unchanged; applying flag options in any order or repeatedly gives the same configuration; for TimeLayout, DurationFormat, WithContext, AllowList and DenyList the last one wins; nil options are ignored; an option list that leaves a nil context, an empty layout or an unknown duration format is rejected with InvalidOptionError and no output.", "quantifier": "every list of options", "why_tests_cant": "All subsets, orders and repetitions.", "anchors": ["options.go"]}
{"id": "C17", "title": "AllowList and DenyList select fields", "statement": "A struct field is considered for output exactly when its JSON name is not in the deny list and, if an allow list is given, is in the allow list; deny wins; an empty allow list hides every field; this holds at every nesting level, and no option other than these changes which fields are considered.", "quantifier": "every struct, every pair of lists", "why_tests_cant": "Arbitrary sets of names and nesting.", "anchors": ["options.go:isDeniedField", "encode.go:encodeStruct"]}
{"id": "C18", "title": "Struct field selection follows the JSON visibility rules", "statement": "For any struct type, the encoded fields are listed in order of their index path, no two have the same JSON name, and a candidate is encoded exactly when it is the only candidate of its name that is least in (depth, untagged) order among the candidates of that name.", "quantifier": "every struct type, with any embedding (by value or pointer, recursive), tags and duplicates", "why_tests_cant": "The set of struct shapes is unbounded; uniqueness and dominance interact with breadth-first pruning.", "anchors": ["struct.go:structFields", "struct.go:scanFields", "struct.go:filterByVisibility", "struct.go:dominantField", "struct.go:sortFields"]}
{"id": "C19", "title": "Promoted fields are read from the right place", "statement": "The value emitted for a promoted field is the value found by following that field's embedding path in the struct, at every embedding depth.", "quantifier": "every struct type with any depth and number of embedded structs", "why_tests_cant": "Depends on slice capacity growth when building offset chains (refuted from five levels on: sibling embedded structs share a backing array and the first gets the second's offset).", "anchors": ["struct.go:scanFields", "encode.go:encodeStruct"]}
{"id": "C20", "title": "omitempty and omitnil", "statement": "A field tagged omitempty is left out exactly when its value is false, 0, an empty string, map or slice, a zero-length array, or a nil pointer or interface; a field tagged omitnil is left out when it is a nil pointer, interface, slice or map. Fields behind a nil embedded pointer are left out. All other selected fields are present, in order.", "quantifier": "every struct value", "why_tests_cant": "All kinds times all values times all field positions.", "anchors": ["types.go:emptyFuncOf", "types.go:isNilable", "encode.go:encodeStruct"]}
{"id": "C21", "title": "omitnil with marshalers yields valid JSON", "statement": "When fields tagged omitnil implement json.Marshaler and produce null they are left out, and the object emitted for the remaining fields is well-formed.", "quantifier": "every struct and every subset of null-producing fields", "why_tests_cant": "Depends on which position the omitted field has (refuted: if the first emitted field is dropped the object starts with '{,').", "anchors": ["encode.go:encodeStruct"]}
{"id": "C22", "title": "Sorted maps: complete, ordered and independent of iteration order", "statement": "By default a map encodes to an object with exactly one member per entry, ordered by the bytes of the encoded keys; if the encoded keys are pairwise distinct the output does not depend on the runtime's iteration order.", "quantifier": "every map and every iteration order the runtime may choose", "why_tests_cant": "n! iteration orders, unstable sort, pooled scratch buffers.", "anchors": ["encode.go:encodeSortedMap", "map.go:mapElems"]}
{"id": "C23", "title": "Map keys are ordered like encoding/json orders them", "statement": "Members appear in increasing order of the key strings, as with encoding/json.", "quantifier": "every map with string keys", "why_tests_cant": "Needs key pairs whose escaped order differs from their raw order (refuted: keys are compared after escaping). Proved when no key needs escaping.", "anchors": ["encode.go:encodeSortedMap"]}
{"id": "C24", "title": "UnsortedMap only changes member order", "statement": "With UnsortedMap the output object has exactly the members the sorted output has, in iteration order; it fails exactly when the sorted encoding fails.", "quantifier": "every map, every iteration order", "why_tests_cant": "All orders.", "anchors": ["encode.go:encodeUnsortedMap", "encode.go:encodeSortedMap"]}
{"id": "C25", "title": "Map keys are JSON strings", "statement": "Every member name emitted for a map is a quoted JSON string.", "quantifier": "every supported key type, key value and option set", "why_tests_cant": "Key types times options (refuted: time.Time keys with UnixTime and time.Duration keys with DurationString give invalid JSON; proved for string and plain integer keys).", "anchors": ["instruction.go:newMapInstr", "encode.go:encodeTime", "encode.go:encodeDuration"]}
{"id": "C26", "title": "sync.Map encodes like the equivalent map", "statement": "A sync.Map whose keys are all strings encodes byte for byte as the map with the same entries; an unsupported or nil key gives an error; no value makes Marshal panic.", "quantifier": "every sync.Map content and iteration order", "why_tests_cant": "All contents (refuted for nil values: Marshal panics where a Go map encodes null).", "anchors": ["encode.go:encodeSyncMap", "encode.go:encodeSortedSyncMap", "encode.go:appendSyncMapKey"]}
{"id": "C27", "title": "Append and Marshal agree", "statement": "Append(dst, v) returns dst followed by exactly the bytes of Marshal(v), with the same error outcome, for every dst; same for AppendOpts and MarshalOpts with valid options.", "quantifier": "every value, every destination content, every option set", "why_tests_cant": "Some steps look at or rewrite the tail of the destination (omitted null fields, float exponents), so independence from dst needs proof.", "anchors": ["json.go:Append", "json.go:Marshal", "json.go:AppendOpts", "json.go:MarshalOpts"]}
{"id": "C28", "title": "Encoding through unsafe memory access equals encoding the value", "statement": "For every Go value laid out in memory, executing the instruction built for its type on its address reads exactly the value's components (fields by offset, elements by stride, pointers, interface words) and yields the encoding of that value; it does not depend on anything else in memory.", "quantifier": "every supported type, value and memory content", "why_tests_cant": "Unbounded types and values; a wrong offset or indirection shows only for particular shapes.", "anchors": ["instruction.go:newInstruction", "encode.go", "unsafe.go"]}
{"id": "C29", "title": "Marshal is memory safe on every value", "statement": "Marshal never reads memory as another type than the one stored there and never dereferences a non-pointer.", "quantifier": "every Go type and value", "why_tests_cant": "Quantifies over all types (refuted: arrays of one pointer passed by value, value-receiver marshalers on map or one-pointer structs, interfaces with methods and no marshaler).", "anchors": ["types.go:isInlined", "unsafe.go:packEface", "encode.go:encodeInterface", "encode.go:encodeMarshaler"]}
{"id": "C30", "title": "Successful output is valid JSON denoting the value", "statement": "Whenever Marshal succeeds with default options on a value built from the supported types, the output is a valid compact JSON text and denotes the JSON value documented for it.", "quantifier": "every supported type and value", "why_tests_cant": "Structural claim over all nestings.", "anchors": ["encode.go", "instruction.go"]}
{"id": "C31", "title": "Output does not depend on history", "statement": "The result of Marshal depends only on the value and the options: not on previous calls, on the content of the caches or on the state of the pools.", "quantifier": "every sequence of earlier calls, every cache and pool content they leave", "why_tests_cant": "Histories are unbounded.", "anchors": ["instruction.go:cachedInstr", "buffer.go:cachedBuffer", "map.go:releaseMapElems"]}
{"id": "C32", "title": "Concurrent use is safe", "statement": "Under any interleaving of goroutines that marshal any types, each obtains an instruction that encodes exactly its type; a lost cache update only costs a rebuild; no goroutine waits forever on a struct placeholder, even for mutually recursive types built concurrently.", "quantifier": "every number of goroutines and every schedule", "why_tests_cant": "Schedules cannot be enumerated by tests.", "anchors": ["instruction.go:cachedInstr", "instruction.go:storeInstr", "instruction.go:newStructInstr"]}
{"id": "C33", "title": "Returned slices are never overwritten", "statement": "A slice returned by Marshal is not changed by any later call, and concurrent calls never share a scratch buffer; Append leaves dst[:len(dst)] unchanged.", "quantifier": "every sequence of Marshal/Append calls, every reuse pattern of the pool", "why_tests_cant": "Aliasing between pooled buffers and results depends on the call history.", "anchors": ["json.go:marshalJSON", "buffer.go", "encode.go:encodeSortedMap"]}
{"id": "C34", "title": "Instruction construction terminates", "statement": "Building the instruction of any type terminates, recursive types included.", "quantifier": "every Go type", "why_tests_cant": "Recursive type graphs are unbounded (refuted: a recursive type that does not pass through a struct, such as type T []T, recurses forever; proved when every type cycle passes through a struct).", "anchors": ["instruction.go:newInstruction", "instruction.go:newStructInstr"]}
{"id": "C35", "title": "Unsupported types are reported", "statement": "Encoding a channel, function, complex or unsafe.Pointer value, or a map whose key type is neither string, integer nor TextMarshaler, gives UnsupportedTypeError; a successful Marshal never dropped such a value.", "quantifier": "every value and every position of the unsupported part", "why_tests_cant": "All nestings.", "anchors": ["instruction.go:newUnsupportedTypeInstr", "instruction.go:newMapInstr"]}
{"id": "C36", "title": "Marshaler precedence", "statement": "For a type implementing several of AppendMarshalerCtx, AppendMarshaler, json.Marshaler and TextMarshaler the first in that order is used; a pointer-receiver method counts exactly when the value is addressable; special types time.Time, time.Duration, json.Number, json.RawMessage, sync.Map use their native encoding.", "quantifier": "every method set, every position (addressable or not)", "why_tests_cant": "2^8 method sets times positions times kinds.", "anchors": ["instruction.go:newMarshalerTypeInstr", "instruction.go:newGoTypeInstr"]}
{"id": "C37", "title": "Marshaler errors and contexts are passed through", "statement": "If the user method fails, Marshal fails with a MarshalerError naming the type and wrapping that error; nil pointers and nil interfaces encode as null without calling the method; AppendJSONContext receives exactly the context given with WithContext.", "quantifier": "every user method behaviour", "why_tests_cant": "User code is arbitrary.", "anchors": ["encode.go:encodeMarshaler", "encode.go:encodeAppendMarshalerCtx"]}
{"id": "C38", "title": "MarshalText results are encoded as JSON strings", "statement": "The text returned by MarshalText appears as a JSON string that decodes to that text.", "quantifier": "every text a MarshalText method may return", "why_tests_cant": "All texts (refuted: the text is copied without escaping; proved when it needs none).", "anchors": ["encode.go:encodeTextMarshaler"]}
{"id": "C39", "title": "The string tag option", "statement": "A field with the string option whose type is a boolean, integer, float or string is encoded as a JSON string that contains the JSON encoding of the value, as with encoding/json.", "quantifier": "every basic type and value", "why_tests_cant": "All values (refuted: strings needing escapes are escaped once instead of twice; json.Number and time.Duration ignore the option; proved for booleans, integers, floats and strings needing no escape).", "anchors": ["encode.go:encodeQuotedString", "instruction.go:wrapQuotedInstr", "instruction.go:newGoTypeInstr"]}
{"id": "C40", "title": "Nil maps, slices and pointers", "statement": "Nil pointers, interfaces, maps and slices encode as null; NilMapEmpty makes nil maps {} and NilSliceEmpty makes nil slices [], at every nesting level; empty non-nil maps and slices encode as {} and [] (a []byte as \"\").", "quantifier": "every type and nesting", "why_tests_cant": "Kinds times options times nesting (refuted for nil []byte with NilSliceEmpty, which stays null).", "anchors": ["encode.go:encodeSlice", "encode.go:encodeMap", "encode.go:encodeByteSlice", "encode.go:encodePointer"]}
{"id": "C41", "title": "Errors keep the destination prefix and hide partial output", "statement": "When encoding fails, Marshal returns no bytes; Append returns a slice that still starts with the caller's dst.", "quantifier": "every value, every failure point", "why_tests_cant": "All failure points.", "anchors": ["json.go:marshalJSON", "json.go:appendJSON"]}
{"id": "C42", "title": "Struct tags are parsed as documented", "statement": "The JSON name is the tag text up to the first comma and the options are the comma separated rest; an option is active exactly when it occurs as one whole item; a tag \"-\" drops the field; an invalid name falls back to the Go field name.", "quantifier": "every tag text", "why_tests_cant": "All strings.", "anchors": ["tags.go:parseTag", "tags.go:Contains", "struct.go:isValidFieldName", "struct.go:scanFields"]}
{"id": "C43", "title": "Struct keys are valid JSON strings", "statement": "The member name emitted for a struct field is a valid JSON string that decodes to the field's JSON name, with and without HTML escaping.", "quantifier": "every field name accepted from a tag or from Go source", "why_tests_cant": "All names.", "anchors": ["struct.go:scanFields", "struct.go:isValidFieldName"]}
{"id": "C44", "title": "Marshal terminates on every value", "statement": "Marshal returns for every finite value.", "quantifier": "every value graph", "why_tests_cant": "Cyclic data (refuted: a pointer cycle recurses without bound; proved for acyclic values).", "anchors": ["encode.go:encodePointer"]}
{"id": "C45", "title": "Custom time layouts give JSON strings", "statement": "With TimeLayout the formatted time is emitted as a valid JSON string.", "quantifier": "every layout text", "why_tests_cant": "All layouts (refuted: the formatted text is not escaped).", "anchors": ["encode.go:encodeTime"]}
{"id": "C46", "title": "Byte arrays and RawByteSlice", "statement": "With ByteArrayAsString a byte array encodes as the JSON string of its bytes (subject to the string options), otherwise as an array of numbers; with RawByteSlice a byte slice encodes as the JSON string of its bytes.", "quantifier": "every byte array/slice and option set", "why_tests_cant": "All contents and flags.", "anchors": ["encode.go:encodeArray", "encode.go:encodeByteArrayAsString", "encode.go:encodeByteSlice"]}
{"id": "C47", "title": "Zero-length and nil inputs at top level", "statement": "Marshal, MarshalOpts, Append and AppendOpts of an untyped nil give null (appended to dst) and no error; an invalid option list is rejected for every non-nil value before anything is encoded.", "quantifier": "every option list, every dst", "why_tests_cant": "All option lists.", "anchors": ["json.go:Marshal", "json.go:MarshalOpts", "json.go:Append", "json.go:AppendOpts"]}
{"id": "C48", "title": "Floats round-trip", "statement": "The text written for a finite float32 or float64 reads back (IEEE 754, nearest, ties to even) as exactly that float, has the fewest significant digits of any decimal that does, and differs from the text of every other finite float of the type (the two zeros included).", "quantifier": "every finite float of both sizes, every option set", "why_tests_cant": "2^64 floats and all shorter decimals.", "anchors": ["encode.go:encodeFloat32", "encode.go:encodeFloat64", "encode.go:appendFloat"]}
{"id": "C49", "title": "Durations in minutes and seconds", "statement": "With DurationMinutes or DurationSeconds a duration is written as a JSON number that reads back as a float64 within a relative error of 2^-51 of the exact quotient, never as an error; a whole number of minutes or seconds is written as that integer.", "quantifier": "every duration (all 64-bit values)", "why_tests_cant": "2^64 durations, rounding of intermediate results.", "anchors": ["encode.go:encodeDuration", "encode.go:appendFloat"]}
{"id": "C50", "title": "Exact text of strings", "statement": "Unless NoStringEscaping is given, the text of a string is the one encoding/json writes: two-character escapes for quotation mark, backslash, newline, return and tab, lower-case \\u00xx for other control characters, \\u003c \\u003e \\u0026 unless NoHTMLEscaping, \\u2028 \\u2029 and \\ufffd for invalid bytes unless NoUTF8Coercion, and every other character as its own UTF-8 bytes.", "quantifier": "every string of bytes, every option set", "why_tests_cant": "All strings; the choice between equivalent escapes is invisible to a decoder.", "anchors": ["encode.go:appendEscapedBytes", "encode.go:encodeString"]}
{"id": "C51", "title": "Texts of errors and duration formats", "statement": "Every error text starts with 'json: ' except for a time out of range and a bad sync.Map key; an error wrapping a user's error names the method and type that failed and contains the user's text; a rejected option list names the first of nil context, empty layout and unknown format; DurationFmt.String is 'unknown' exactly for the formats that are rejected distinguishes the others, and names the unit in which the format counts.", "quantifier": "every value, option list and user error", "why_tests_cant": "All values and nestings; option lists with several faults.", "anchors": ["json.go:MarshalerError", "json.go:UnsupportedTypeError", "json.go:UnsupportedValueError", "json.go:InvalidOptionError", "options.go:validate", "time.go:String"]}
{"id": "C52", "title": "Documents are safe to embed", "statement": "With HTML escaping on, no successful document contains '<', '>' or '&', except through texts copied as they are from user code (AppendJSON results, MarshalText results, json.Number, time layouts). With string escaping on, the whole document is valid UTF-8 without U+2028 and U+2029, so it can be put in a script, provided the supplied JSON is valid UTF-8.", "quantifier": "every value, option list and memory state; every position of the document", "why_tests_cant": "Every position and nesting of values, keys and supplied texts.", "anchors": ["encode.go:appendEscapedBytes", "encode.go:appendCompactJSON", "encode.go:encodeString"]}
{"id": "C53", "title": "Documents pass through json.RawMessage unchanged", "statement": "Marshal(json.RawMessage(Marshal(v))) = Marshal(v): compaction and escaping leave a document that Marshal produced as it is. More generally they leave every compact JSON text without the characters they escape as it is.", "quantifier": "every value without user methods; every compact JSON text", "why_tests_cant": "All documents.", "anchors": ["encode.go:encodeRawMessage", "encode.go:appendCompactJSON"]}
{"id": "C54", "title": "Different values have different encodings", "statement": "Two values of one type for which Marshal returns the same bytes, with the same options, are equal up to the order of map entries: nothing is lost, and when maps are sorted the encodings are equal exactly when the values are. The losses JSON itself imposes are excluded: strings that are not UTF-8, methods, options that drop or rewrite content, omitted members, pointers to values that can be null, interfaces.", "quantifier": "every type of booleans, integers, floats, strings, byte slices, slices, arrays, string-keyed maps, pointers and structs whose members are all kept, nested to any depth; every pair of its values", "why_tests_cant": "All pairs of values of all types.", "anchors": ["encode.go", "instruction.go", "struct.go"]}
{"id": "C55", "title": "The RFC 3339 text of a time denotes its instant", "statement": "With the RFC 3339 layouts, the emitted text, read back by the grammar and the calendar, denotes the second of the encoded time, and with RFC3339Nano its nanosecond: local time and offset agree.", "quantifier": "every instant in the years 1 to 9999 and every zone offset below 100 hours", "why_tests_cant": "All instants times all offsets (refuted: the offset is cut to minutes while the local time is not, so the instant moves by the seconds of the offset).", "anchors": ["time.go:appendRFC3339Time", "encode.go:encodeTime"]}
{"id": "C56", "title": "A map whose keys and values can be encoded is encoded", "statement": "If each key and each value of a map is encoded without error, Marshal of the map returns a document; it does not panic.", "quantifier": "every key type, map and option set", "why_tests_cant": "Key types times key values times options (refuted: in a sorted map a key text shorter than two bytes, such as that of time.Unix(1, 0) with UnixTime, makes a slice expression panic).", "anchors": ["encode.go:encodeSortedMap", "instruction.go:newMapInstr"]}
{"id": "C57", "title": "Objects have distinct member names", "statement": "No object of a successful document has two members of the same name (after decoding). For structs this needs no condition; for maps it holds exactly when no two keys are decoded to the same text.", "quantifier": "every value and every nesting of structs and maps", "why_tests_cant": "All struct types and all pairs of keys (refuted in general: two string keys that differ only in invalid UTF-8 give the same name; JSON given by the user may contain duplicates).", "anchors": ["struct.go:structFields", "encode.go:encodeStruct", "encode.go:encodeSortedMap", "encode.go:encodeUnsortedMap"]}
{"id": "C58", "title": "The bytes of encoding/json", "statement": "Under the default options, and with NoHTMLEscaping, Marshal of a value returns exactly the bytes encoding/json gives, and an error when encoding/json gives none: a relation between values and texts, stated on its own, that is functional.", "quantifier": "every value of every type built from the basic kinds, durations, times, json.Number, json.RawMessage, types with MarshalJSON or MarshalText, pointers, interfaces, slices, arrays, maps and structs", "why_tests_cant": "Equality with a reference on all inputs cannot be sampled (refuted in general: string map keys with escaped characters may come in another order, strings with the string option are escaped once instead of twice, a field promoted through an embedded pointer is not taken to be addressable).", "anchors": ["encode.go", "instruction.go:newInstruction", "struct.go:structFields"]}
{"id": "C59", "title": "Compaction changes nothing else", "statement": "For a json.RawMessage or MarshalJSON result that is JSON, the emitted bytes are the given ones without the white space outside of strings and with the escapes of <, >, & (HTML escaping on) and U+2028/9 in strings; every other byte, including existing escapes and number spellings, is kept. With NoCompact a raw message is copied. The same rule gives the text of a raw message that is not JSON, with strings that are not closed and any bytes outside of them.", "quantifier": "every JSON text, with or without invalid UTF-8 in its strings, and every sequence of bytes of a raw message; every option set", "why_tests_cant": "All JSON texts: white space and escapes interact with string boundaries and backslashes at every position.", "anchors": ["encode.go:appendCompactJSON", "encode.go:encodeRawMessage", "encode.go:encodeJSONMarshaler"]}
{"id": "C60", "title": "Composites are assembled from the encodings of their parts", "statement": "The bytes Marshal gives for a slice, array, pointer, string-keyed map or struct are made of the bytes that separate calls of Marshal give for its parts, in order, with brackets, commas, colons and names in between; when such a call fails, Marshal of the whole fails with the error of the first part that fails. For addressable parts the separate call is given the address, unless that makes no difference.", "quantifier": "every slice, array, pointer, map with string keys and struct; every memory the parts and the whole are in; every option list; success and failure", "why_tests_cant": "Relates the results of unboundedly many calls; holds for every nesting and every position of an error.", "anchors": ["instruction.go:newInstruction", "encode.go:encodeStruct", "encode.go:encodeArray", "encode.go:encodeSlice", "encode.go:encodeMap"]}
{"id": "C61", "title": "HTML escaping rewrites the document character by character", "statement": "The document Marshal gives for a value is the document it gives with NoHTMLEscaping added, each <, > and & in it replaced by its \\u escape, and the two calls fail with the same errors: strings, field names, JSON of marshalers and raw messages, nil checks of omitnil included. Texts that are copied unescaped must have no such characters, raw messages must be JSON, and sorted maps must have distinct keys without such characters.", "quantifier": "every value, option list without NoHTMLEscaping and NoStringEscaping, and position of the option; success and failure", "why_tests_cant": "Relates two runs on every string content, nesting and JSON text; key order and omitnil depend on the written bytes.", "anchors": ["encode.go:appendEscapedBytes", "encode.go:appendCompactJSON", "encode.go:encodeStruct", "options.go:NoHTMLEscaping"]}
{"id": "C62", "title": "NoCompact changes only the form of the JSON users supply", "statement": "The document Marshal gives for a value is the compact form of the document it gives with NoCompact added: the white space between tokens is left out, and <, >, & (unless NoHTMLEscaping is given), U+2028 and U+2029 within strings are escaped. The two calls fail with the same errors. The value must be encoded as documented (the JSON it supplies is valid), texts that are copied as they are must have none of the escaped characters, sorted maps must have distinct keys, and the text of a field that omitnil drops when null must end with null in both documents or in none.", "quantifier": "every value, option list without NoCompact, NoStringEscaping and NoUTF8Coercion, and position of the option; success and failure", "why_tests_cant": "Relates two runs on every JSON text and nesting; the sorting of keys, the quoting of integer keys and omitnil look at the written bytes.", "anchors": ["encode.go:appendCompactJSON", "encode.go:encodeJSONMarshaler", "encode.go:encodeRawMessage", "options.go:NoCompact"]}
{"id": "C63", "title": "A value and its address give the same document", "statement": "Marshal(&v) and Marshal(v) return the same result, success or failure, when neither the address of v nor the addresses of the array elements and struct fields that lie within it have methods the values lack. When the type of v has methods of its own and they behave alike on the value and through the pointer, the results are the same except that an error of a method names the pointer type.", "quantifier": "every type, value, memory and option list", "why_tests_cant": "Relates two calls for every type; addressability is passed down through arrays and structs to any depth.", "anchors": ["instruction.go:newInstruction", "instruction.go:newMarshalerTypeInstr", "json.go:marshalJSON"]}
{"id": "C64", "title": "Types with the same underlying type are encoded alike", "statement": "For two types with the same underlying type and no methods, Marshal returns the same result for a value and its conversion to the other type, except that an UnsupportedTypeError names the type given. (Struct types that embed themselves are left out.)", "quantifier": "every pair of types, value, memory and option list", "why_tests_cant": "Relates two calls for every pair of types.", "anchors": ["instruction.go:newInstruction", "struct.go:structFields", "encode.go:encodeStruct"]}
{"id": "C65", "title": "When Marshal fails, and with which error", "statement": "Marshal succeeds exactly when no part of the value raises an error of its own (an invalid number, a time out of range, a NaN or infinity, an unsupported type or key, a failing method). Otherwise it returns the error that is met first in the order of encoding: elements and fields in order, the entries of a map in the order of iteration even when they are sorted, the key of an entry before its value. A program whose types can raise no error never sees one.", "quantifier": "every host, type, value, memory and option list", "why_tests_cant": "The error depends on every part of an unbounded value and on the order in which they are visited.", "anchors": ["json.go:marshalJSON", "encode.go:encodeMap", "encode.go:encodeSyncMap", "encode.go:encodeStruct", "encode.go:encodeArray", "encode.go:encodeSlice"]}
{"id": "C66", "title": "An embedded struct is encoded as if its fields were declared in its place", "statement": "For a struct type without clashing names, Marshal returns the same result, success or failure, for a value with an embedded struct (or non-nil pointer to struct) and for the value of the type in which the fields of the embedded struct are declared in place of it, at any nesting. With a nil embedded pointer the result is that of the type without the embedded field.", "quantifier": "every pair of such types, value, memory and option list", "why_tests_cant": "Relates two types of any shape; selection, order and offsets of fields must all agree.", "anchors": ["struct.go:structFields", "struct.go:scanFields", "struct.go:sortFields", "encode.go:encodeStruct"]}
{"id": "C67", "title": "Values that hold the same data are encoded alike", "statement": "Pointers, interfaces, named types, the width of integers, the choice between slices and arrays and fields that are not shown leave no trace: two values that differ only in these, at any depth, give the same result, success or failure. So a value and its generic form, built from any, []any and map[string]any, are encoded alike. (For types encoded by kind; a part taken as it is must not depend on being addressable.)", "quantifier": "every pair of such values, memory and option list", "why_tests_cant": "Relates values of unrelated types of any shape, through different instructions for every part.", "anchors": ["instruction.go:newInstruction", "encode.go:encodeInterface", "encode.go:encodePointer", "encode.go:encodeSlice", "encode.go:encodeArray", "encode.go:encodeMap", "encode.go:encodeStruct", "integer.go:encodeInt"]}
{"id": "C68", "title": "A field that is not shown might as well not be declared", "statement": "A field that takes no part (unexported, or tagged \"-\"), or, where no other field has its name, whose name AllowList or DenyList conceal, whose value omitempty or omitnil drops, or whose candidates are all behind a nil pointer or concealed, can be removed from the type and the value without changing the result: neither the bytes nor the error. Its value is not looked at, so it may be one that cannot be encoded. (For struct types where no struct type that is embedded twice embeds structs itself, or without clashing names.)", "quantifier": "every pair of such types, value, memory and option list", "why_tests_cant": "Relates two types of any shape; indices, offsets and separators of all other fields change.", "anchors": ["struct.go:structFields", "struct.go:scanFields", "encode.go:encodeStruct", "options.go:isDeniedField"]}
{"id": "C69", "title": "The order of the fields decides the order of the members, and nothing else", "statement": "If the declarations of a struct type, and its values with them, are put in another order, Marshal succeeds for the one exactly when it does for the other, and the members of the two objects are the same up to order, each with the same text. (For struct types where no struct type that is embedded twice embeds structs itself, or without clashing names; otherwise the field declared first may win, see C18.)", "quantifier": "every pair of such types, value, memory and option list", "why_tests_cant": "Relates two types of any shape: indices, offsets and the outcome of the selection of fields all change.", "anchors": ["struct.go:structFields", "struct.go:scanFields", "struct.go:sortFields", "encode.go:encodeStruct"]}
{"id": "C70", "title": "The length of the output is bounded by the size of the value", "statement": "Whatever the options, a string of n bytes takes between n+2 and 6n+2 bytes (both attained for every n); an integer at most as many as the longest of its type; a time in an RFC 3339 layout 22 to 37 bytes, and 22 or 27 without a fraction; a byte slice of n bytes exactly 4*ceil(n/3)+2 bytes without RawByteSlice; a raw message or the result of MarshalJSON at most six times its length; the result of MarshalText its length and two. A float takes at most 25 bytes. A document made of booleans, integers, floats, strings, pointers, interfaces, slices, arrays, maps, structs, json.Number, json.RawMessage, sync.Map, times (RFC 3339 layouts and UnixTime) and durations (integer formats) is at most as long as a bound that adds these up over the value, with the separators and, for each struct, six bytes for each byte of the names of its members.", "quantifier": "every such value, memory and option list", "why_tests_cant": "Bounds the longest output over all values of any size and depth and all options.", "anchors": ["encode.go:appendEscapedBytes", "encode.go:appendCompactJSON", "encode.go:encodeByteSlice", "encode.go:encodeJSONMarshaler", "encode.go:encodeTextMarshaler", "integer.go:encodeInt", "time.go:appendRFC3339Time", "encode.go:encodeSlice", "encode.go:encodeMap"]}
{"id": "C71", "title": "A document is one line", "statement": "Unless NoStringEscaping is given, no successful document contains a byte below 0x20, provided the texts copied from user code have none and raw messages are JSON (nothing is asked of the results of MarshalJSON, which are checked). So documents written one after the other, each followed by a newline, are read back by cutting at the newlines, and in no other way.", "quantifier": "every value, option list and memory state; every sequence of documents", "why_tests_cant": "Absence of bytes in every document, at every position, and uniqueness of the cut for streams of any length.", "anchors": ["encode.go:appendEscapedBytes", "encode.go:appendCompactJSON", "encode.go:encodeRawMessage", "encode.go:encodeJSONMarshaler", "struct.go:scanFields"]}
{"id": "C72", "title": "Generic values survive encoding and decoding", "statement": "For values of the types json.Unmarshal puts into an interface (nil, bool, finite float64, Unicode strings, and slices and string-keyed maps of such values, not nil), Marshal succeeds, and what decoding the document into an interface can give is exactly the value, with maps in any order. Encoding what was decoded gives the same document again, byte for byte, and two such values have the same document exactly when they have the same type and differ in the order of maps only. Decoding any JSON text whose numbers are in the range of a float64, whose strings are Unicode and whose names are distinct (exactly these have a decoding) and encoding the result is idempotent.", "quantifier": "every value of these types, of any size and depth; every option list that escapes strings; every memory state; every result of decoding", "why_tests_cant": "An exact inverse over an infinite, nested space of values, including every float64 and every Unicode string.", "anchors": ["encode.go:encodeInterface", "encode.go:encodeMap", "encode.go:encodeSlice", "encode.go:encodeFloat64", "encode.go:encodeString", "encode.go:appendEscapedBytes"]}
