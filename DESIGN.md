# Formal model of wI2L/jettison in Rocq (Coq 8.16.1)

`/verif/properties.jsonl` lists the properties, `/verif/MANIFEST.json` says for
each which theorems state it and whether the proof is complete.  Everything is
under `rocq/theories`, about 37 000 lines.  The theorems named in the manifest
are in the `Properties_*.v` files; each has a concrete instance beside it
(`*_example`) and a `Print Assumptions` after it.

## Trusted base

* Coq 8.16.1's kernel (including its `vm_compute` conversion, used on small
  closed terms) and the checker `coqchk`.
* Axioms: none.  `Print Assumptions` prints "Closed under the global context"
  for every theorem named in the manifest.  `coqchk`, which reports on whole
  libraries and not on theorems, also lists the seven parameters of
  `Coq.ssr.ssrunder.Under_rel`, which are loaded with the standard library's
  `ssreflect` (through `lia`/`zify`) and used by no theorem.
* That the definitions in the `*Model.v` files say what the Go code does.  Each
  definition cites the file and lines it models.  This is a transcription by
  hand and nothing checks it but reading.
* That the specifications say what is meant: `FloatSpec.v` (IEEE 754 binary32
  and binary64 values and rounding to nearest, ties to even), `JsonSpec.v` (the grammar of
  RFC 8259 with the value each text denotes), `Utf8.v`, `CalendarSpec.v`
  (Gregorian calendar from month lengths), `FieldsSpec.v` (Go's promotion rules
  with the tag rules of encoding/json), `DocSpec.v` (the JSON document a Go
  value should become), `decodes` in `Properties_Generic.v` (what encoding/json
  puts into an interface), and the statements themselves.
* The contracts below, which are hypotheses of the theorems that use them.

### Contracts (hypotheses about code outside the repository)

Package reflect, the runtime, strconv, sort and user methods enter as the fields
of the record `host` (MemModel.v).  A theorem that needs something of them says
so with one of these hypotheses.

| Hypothesis | Where | Says |
|---|---|---|
| `host_ok H vcall` | ExecProof.v | the type declarations are well formed and finite; sizes and offsets are not negative and `uint8` has size 1; every recursive type passes through a struct (a type that does not makes the code loop, see C34); a method called on a value returns what `vcall` says about the value, the append methods after `dst`; methods return bytes |
| `host_builds H` | ConcBuild.v | the part of `host_ok` that speaks of types: declarations are well formed, and instructions and struct fields can be built.  Nothing about methods |
| `finite_refs` | HostFacts.v | the program declares finitely many types |
| `sort_ok` | EntriesFacts.v | sort.Sort returns a permutation in which no key is greater than a later one; the order of equal keys is free |
| `shortest_ok` | FloatProof.v | strconv's shortest digits are 1 to 17 digits, the first not 0, with an exponent in range.  Enough for the form of the text (C10) |
| `shortest_exact` | FloatShort.v | `shortest_ok`, and for every float32 or float64 the digits read back (to nearest, ties to even) as that float and no decimal with fewer digits does.  Used by C48, C49, C72 and the bound on floats in C70.  `shortest_dec_exact` proves it of a search algorithm, so it can be met |
| `h_tofloat H = dur_float` | DurationFloat.v | Duration.Minutes and Seconds are computed in float64 arithmetic with correct rounding, as package time does.  Used by C49 and C51_unit |
| `mem_bytes_ok` | AppendThm.v | uint8 cells hold 0..255 |
| `methods_append` | AppendThm.v | append methods append, the other methods return bytes |
| `mem_types_ok`, `mem_fine`, `fine` | ConcRun.v, ConcCalls.v | the values of concurrent calls are made of types of the program, and each call would return if it ran alone |
| `call` | CallFacts.v | memory holds the value (`holds`), the options are accepted (`call_opts`), and the code reads each part as what it is (`all_readable`).  C29 shows what happens otherwise.  `safe_types` and `value_of` (Properties_Static.v) give `call` from the types of the program |
| `insensitive vcall` | ShuffleThm.v | what a method returns does not depend on the order in which maps are iterated.  Used by C22, C24, C54 and C72 |
| `no_methods H` | Properties_Generic.v | bool, float64, string, interface{}, []interface{} and map[string]interface{} have no methods, as in Go.  Used by C72 |

`HostFacts.v` proves the parts of `host_ok` that speak of construction from a
condition on the type declarations alone, and `ExampleHost.v`, `ExampleConst.v`
and `ExampleRead.v` give concrete hosts that meet all of them.

## Method

* Loops over bytes (strings, compaction, numbers, tags, durations, times) are
  modelled with the code's own indices and bounds, and proved by an invariant.
* Types are terms with an environment of declarations, so recursive types are
  finite.  Closures built by instruction.go are terms of `instr`.
* Memory is a map from addresses to typed cells, with the pointer arithmetic of
  unsafe.go and encode.go; a read of a cell at the wrong type is `Crash`, as is
  every Go panic.  Fuel bounds the depth of calls; theorems quantify over "there
  is enough fuel" (`marshal_returns`), and C44 proves there is for acyclic values.
* `venc` (ValueModel.v) is a second description of the encoder, on values rather
  than memory.  `ExecProof.v` proves that running instructions on memory holding
  a value gives `venc` of it.  It is an internal tool: the properties are stated
  on the result of `Marshal` with the specification files, not with `venc`.
* Concurrency (ConcModel.v): goroutines are trees of atomic actions on the shared
  caches, pools and byte arrays; an execution is any interleaving of any number
  of goroutines making any calls.  The invariants are in ConcLogic, ConcSound,
  ConcGlobal and ConcHeap.

## What is modelled

| Code | Model | Proofs |
|---|---|---|
| bytes, slices | Base.v, BufModel.v | |
| utf8.DecodeRune, json.Valid (documented behaviour) | Utf8.v, JsonParse.v | Utf8.v, JsonParse.v, StrictParse.v |
| encode.go:804-895 appendEscapedBytes | EscapeModel.v | EscapeProof.v, Properties_Strings.v, Properties_Text.v |
| encode.go:734-802 appendCompactJSON | CompactModel.v | CompactProof.v |
| number.go, integer.go | NumberModel.v, IntModel.v | NumberProof.v, IntProof.v |
| encode.go:155-183 appendFloat | FloatModel.v | FloatProof.v, FloatShort.v, Properties_Floats.v |
| time.Duration.Minutes, Seconds (package time) | DurationFloat.v | DurationFloat.v, Properties_Floats.v |
| time.go, encodeTime, encodeDuration | DurationModel.v, TimeModel.v, LeafModel.v | DurationProof.v, TimeProof.v, TimeTotal.v, TimeText.v, Properties_TimeText.v (exact texts) |
| encodeBool, encodeString, encodeQuotedString, encodeNumber, encodeRawMessage | LeafModel.v | LeafProof.v |
| encodeByteSlice, base64 | Base64Model.v, ExecModel.v, ConcModel.v (growth) | Base64Proof.v, Properties_Bytes.v |
| options.go | OptionsModel.v | Properties_Options.v |
| json.go:29-105 (error texts, Unwrap), time.go:21-38 (DurationFmt.String) | ErrorModel.v | Properties_Errors.v |
| tags.go, isValidFieldName | TagsModel.v | TagsProof.v |
| struct.go | FieldsModel.v (with the backing arrays of embedSeq) | FieldsSelect.v, FieldsProof.v, FieldsThm.v, FieldsSlots.v (what each slot of the shared arrays holds) |
| types.go, instruction.go (construction) | TypesModel.v, TypesFacts.v, InstrModel.v | HostFacts.v |
| encode.go, unsafe.go, json.go (execution) | MemModel.v, ExecModel.v | ExecMono.v, ExecLeaf.v, ExecProof.v, SafeProof.v, DocProof.v |
| instruction.go, struct.go, types.go (caches), buffer.go, map.go, json.go, growth and capacity of dst | ConcModel.v | Conc*.v |
| exact conditions for C12, C38, C39 and C45 | time.go:153-253, encode.go:105-129, encode.go (strings, text) | TimeExact.v, Properties_Exact.v |
| exact conditions for C05, C21 and C40; nil receivers and raw messages | encode.go (strings, structs, slices) | Properties_Edges.v |
| exact condition for C26 | encode.go (sync.Map) | Properties_Sync.v |
| pairs of keys that escaping reverses (C23, C58) | encode.go (appendEscapedBytes, encodeSortedMap) | Properties_Pairs.v |
| exact conditions for C08, C23 and C25 | encode.go (raw messages, map keys) | Properties_Order.v |
| whole documents: characters (C52), passing through again (C53) | (encode.go as above) | TextThm.v, Properties_Safe.v |
| times: the instant denoted (C55) | time.go, encode.go (encodeTime) | Properties_Instant.v |
| map keys: short and nil keys (C56, C25) | encode.go (encodeSortedMap), instruction.go (newMapInstr) | Properties_Keys.v |
| member names in documents (C57) | struct.go (structFields), encode.go (encodeStruct, maps) | Properties_Names.v |
| floats: the exact text (C10) | encode.go (appendFloat) | Properties_FloatText.v |
| whole documents: the bytes of encoding/json (C58) | (encode.go, instruction.go, struct.go as above) | Properties_Std.v, Properties_GenericStd.v (values built as encoding/json decodes them: exactly when) |
| compaction: the exact text, for JSON and for any bytes of a raw message (C59) | encode.go (appendCompactJSON) | CompactText.v, Properties_Compact.v |
| composites are assembled from separate calls on their parts (C60) | encode.go, instruction.go | Properties_Compose.v |
| an option changes no document it is not about (C16_frame) | options.go, encode.go | Properties_Frame.v |
| HTML escaping rewrites the document character by character (C61) | encode.go, struct.go, options.go | Properties_Html.v |
| Without NoCompact the document is the compact form of the document with it (C62) | encode.go, options.go | Properties_NoCompact.v |
| The lists count only by the names they conceal (C17) | options.go, encode.go, json.go | Properties_Lists.v |
| Values and their addresses (C63), conversions (C64) | instruction.go, struct.go, json.go | Properties_Convert.v |
| When Marshal fails and with which error (C65) | json.go, encode.go, instruction.go | Properties_Failures.v |
| An embedded struct and its fields declared in its place (C66) | struct.go, encode.go | Properties_Embed.v |
| Values of different types with the same data (C67) | instruction.go, encode.go | Properties_Data.v |
| Fields that are not shown can be removed (C68) | struct.go, encode.go, options.go | Properties_Embed.v |
| The order of the fields orders the members (C69) | struct.go, encode.go | Properties_Permute.v |
| Bounds on the length of the output (C70) | encode.go, integer.go, time.go, struct.go | FloatSize.v, SizeFacts.v, Properties_Size.v |
| Documents are single lines, and streams of them can be cut (C71) | encode.go, struct.go | TextThm.v, Properties_Lines.v |
| Generic values survive encoding and decoding into an interface (C72) | encode.go | FloatTotal.v, Properties_Generic.v |
| whole documents: nothing is lost (C54) | (encode.go, instruction.go, struct.go as above) | Properties_Lossless.v |

## Index of functions

Every function of the package (files without `_test`), with the definition that
models it; after a semicolon, the one used for concurrent calls (ConcModel.v).

| File | Lines | Function | Definition |
|---|---|---|---|
| buffer.go | 12-27 | buffer.Reset, cachedBuffer | `get_buf`, pools of `shared` (ConcModel); in ExecModel a buffer is the bytes in it |
| encode.go | 24-29 | encodeBool | `encode_bool` |
| encode.go | 36-51 | encodeString, encodeQuotedString | `encode_string`, `encode_quoted_string` |
| encode.go | 55-63 | encodeFloat32, encodeFloat64 | `IFloat` in `exec` |
| encode.go | 65-74 | encodeInterface | `IIface` in `exec`, `any_prog` |
| encode.go | 76-92 | encodeNumber | `encode_number` |
| encode.go | 94-103 | encodeRawMessage | `encode_raw_message` |
| encode.go | 107-129 | encodeTime | `encode_time` |
| encode.go | 133-153 | encodeDuration | `encode_duration` |
| encode.go | 155-183 | appendFloat | `appendFloat`, `use_exp`, `exp_cleanup`; strconv.AppendFloat is `fmt_float` |
| encode.go | 185-190 | encodePointer | `IPtr` in `exec` |
| encode.go | 192-260 | encodeStruct | `exec_fields`, `follow`, `is_nil`, `ends_null`; `fields_prog` |
| encode.go | 262-281 | encodeSlice | `ISlice` in `exec` |
| encode.go | 283-305 | encodeByteSlice | `encode_byte_slice`; `byte_slice_prog` with every write |
| encode.go | 307-347 | encodeArray, encodeByteArrayAsString | `exec_array`, `exec_elems`; `array_prog` |
| encode.go | 349-380 | encodeMap | `IMap` in `exec`, `exec_entries`; `entries_prog` |
| encode.go | 385-412 | encodeUnsortedMap | `exec_unsorted`; `unsorted_prog` |
| encode.go | 414-474 | encodeSortedMap | `fill`, `join_kvs`, `exec_sorted`; `fill_prog`, `join_prog`, `sorted_prog` |
| encode.go | 481-589 | encodeSyncMap, encodeUnsortedSyncMap, encodeSortedSyncMap | `ISyncMap` in `exec`, with the definitions for maps |
| encode.go | 591-629 | appendSyncMapKey | `sync_key`; `sync_key_prog` |
| encode.go | 631-677 | encodeMarshaler | `exec_marshaler`; `marshaler_prog` |
| encode.go | 679-697 | encodeAppendMarshalerCtx, encodeAppendMarshaler | `call_method`; `call_prog` |
| encode.go | 699-729 | encodeJSONMarshaler, encodeTextMarshaler | `encode_json_result`, `encode_text_result` |
| encode.go | 734-802 | appendCompactJSON | `compact_loop`, `appendCompactJSON` |
| encode.go | 804-895 | appendEscapedBytes | `esc_loop`, `appendEscapedBytes` |
| instruction.go | 27-80 | typeID, cachedInstr, loadCache, loadInstr, storeInstr | `cached_instr`; `cached_prog`; the cache is keyed by the type itself |
| instruction.go | 85-115 | newInstruction | `compile`; `build_body` |
| instruction.go | 117-132 | newGoTypeInstr | `go_type_instr` |
| instruction.go | 137-161, 227-249 | newMarshalerTypeInstr, newAppendMarshalerCtxInstr, newAppendMarshalerInstr, newJSONMarshalerInstr, newTextMarshalerInstr | `marshaler_instr` |
| instruction.go | 163-211 | newBasicTypeInstr, newStringInstr | `basic_instr` |
| instruction.go | 213-217 | newUnsupportedTypeInstr | `IUnsupp` |
| instruction.go | 219-225 | newPtrInstr | `compile`, case `TPtr` |
| instruction.go | 251-284 | newStructInstr | `IStruct` (by name, resolved by `struct_body`); `struct_build` with the wait group |
| instruction.go | 286-324 | newStructFieldsInstr | `build_field`, `build_fields`, `struct_body`; `struct_fields_build` |
| instruction.go | 326-369 | newArrayInstr, newSliceInstr | `compile`, cases `TArray` and `TSlice`, `byte_elem` |
| instruction.go | 371-405 | newMapInstr | `compile`, case `TMap`, `key_ok`, `key_wrap` |
| instruction.go | 407-432 | wrapInlineInstr, wrapQuotedInstr, wrapTextMarshalerNilCheck | `IInline`, `IQuoted`, `INilText` in `exec` |
| integer.go | 9-83 | encodeInt, encodeInt8, encodeInt16, encodeInt32, encodeInt64, encodeUint, encodeUint8, encodeUint16, encodeUint32, encodeUint64, encodeUintptr | `encode_int` for the kind; strconv.AppendInt and AppendUint are `append_int` and `append_uint` |
| json.go | 38-105 | the error types, Error, Unwrap | `gerr`, `error_text`, `unwrap` |
| json.go | 111-160 | Marshal, Append, MarshalOpts, AppendOpts | the same names; `marshal_prog`, `append_prog` |
| json.go | 162-192 | marshalJSON, appendJSON | `marshal_json`, `append_json` |
| map.go | 15-37 | kv, mapElems, releaseMapElems, Len, Swap, Less | `kvsub`, `release_mel`; sort.Sort on it is `h_sort` with `sort_ok` |
| map.go | 39-67 | hiter, mapiterinit, mapiternext, maplen | `hiter` and `iter_init`: linked to the runtime, taken as the list of entries |
| map_1.17.go, map_1.18.go | all | newHiter, newmapiter | `new_hiter`, `zero_hiter` |
| number.go | 5-54 | isValidNumber | `is_valid_number`, `num_int`, `num_frac`, `num_exp` |
| options.go | 23-49 | bitmask.set, bitmask.has, encOpts | `bm_set`, `has`, `encOpts` |
| options.go | 51-97 | defaultEncOpts, apply, validate, isDeniedField | `default_opts`, `apply`, `validate`, `isDeniedField` |
| options.go | 101-107 | fieldListToSet | `fieldListToSet` |
| options.go | 113-234 | UnixTime, UnsortedMap, RawByteSlice, ByteArrayAsString, NilMapEmpty, NilSliceEmpty, NoStringEscaping, NoHTMLEscaping, NoUTF8Coercion, NoNumberValidation, NoCompact, TimeLayout, DurationFormat, WithContext, AllowList, DenyList | `option_`, `apply1` |
| struct.go | 45-60 | byIndex | `index_less` |
| struct.go | 64-71 | cachedFields | `cached_fields` |
| struct.go | 76-106 | structFields | `bfs`, `level`, `structFields` |
| struct.go | 111-126 | sortFields | `field_less`, `isort` |
| struct.go | 130-149 | shouldEncodeField | `should_encode` |
| struct.go | 154-169 | isValidFieldName | `is_valid_field_name` |
| struct.go | 176-203 | filterByVisibility | `span_name`, `filter_vis` |
| struct.go | 205-213 | typeByIndex | `type_by_index` |
| struct.go | 221-228 | dominantField | `dominant` |
| struct.go | 230-312 | scanFields | `classify`, `scan1`, `scan_loop`, `scanFields`, `sl_append` (append on embedSeq) |
| tags.go | 11-30 | parseTag, Contains | `parse_tag`, `tag_contains` |
| time.go | 23-32 | DurationFmt.String, valid | `fmt_string`, `dur_valid` |
| time.go | 43-108 | appendDuration | `append_duration` |
| time.go | 113-151 | fmtInt, fmtFrac | `fmt_int`, `fmt_frac` |
| time.go | 153-169 | rdnToYmd | `rdnToYmd` |
| time.go | 174-253 | appendRFC3339Time | `appendRFC3339Time`, `rfc_head`, `frac_step`, `zone_step` |
| types.go | 35-86 | isBasicType, isBoolean, isString, isFloatingPoint, isInteger, isInlined, isNilable | the same names |
| types.go | 90-97 | cachedEmptyFuncOf | `cached_empty` |
| types.go | 101-185 | emptyFuncOf | `is_empty` |
| unsafe.go | 32-35 | noescape | not modelled |
| unsafe.go | 37-39 | unpackEface | the pair (type, word) of `eface` |
| unsafe.go | 41-56 | packEface | `exec_marshaler` |
| unsafe.go | 60-67 | sp2b | `rd_string` |

## Simplifications

* 64-bit platform (`int` has 64 bits); amd64 or arm64.
* Memory cells hold whole words.  Overlapping reads of different widths are
  crashes, which is stricter than the hardware.
* A map is the list of its entries in the order the runtime iterates them, any
  order.  The hiter structure of map_1.17.go and map_1.18.go is its list of
  remaining entries.
* A sync.Map is what Range yields.  Nobody writes to it during the call.
* `time.Time` is (seconds since year 1, nanoseconds, offset at that instant).
  `t.AppendFormat` with a custom layout is a parameter, as are `d.Minutes()` and
  `d.Seconds()` except in C49; math.Float64bits is the pair (mantissa, exponent) of the float.
* `growslice` for the 16-byte elements of embedSeq doubles the capacity, which
  is what the runtime does up to 256 elements (embedding levels).  For byte
  slices any capacity that is large enough is allowed.
* ConcModel: a leaf encoder, and a method that appends, writes its bytes in any
  number of pieces, each of which may move the slice and leave anything after
  its length: this covers every way to cut the bytes into calls of append.
  encodeByteSlice is modelled write by write, with the base64 text as one write.
  An array starts where the slice that refers to it starts; the memory holding the value does not change
  during the call and is apart from the buffers; user methods neither keep nor
  write `dst` beyond appending; the mapElems pool holds lists of sub-slices.
* An error carries what identifies it (kind, type, method, user error).  Its text
  is built from that in ErrorModel.v, where the name of a type, the text of the
  user's error and strconv.Quote are parameters.
* C58 describes encoding/json (Go 1.17/1.18) by a relation on values.  The list
  of fields of a struct in it is given by the type graph (`json_fields`), not by
  the search; Unicode tables and the shortest digits of floats are those of the
  host.

## What is not modelled

* Tests, benchmarks, `tools/`, and the module files.
* The `Value` field of UnsupportedValueError and the `Offset` of SyntaxError.
* Garbage collection, `noescape`, stack growth: memory stays valid as long as it
  is referenced.
* The runtime's own map iterator, sync.Map, sync.Pool and atomic.Value, beyond
  the behaviour they document (a pool may return any pooled object or none).
* What a method does while it runs, beyond its result.  The theorems on values
  (`host_ok`) speak of methods that return; those on executions (C31 to C34, which
  assume `host_builds` only) also of methods that panic: `h_call` then gives
  `None`, the call panics, and the others go on (C31_ex_panic).  A method that
  itself calls Marshal is one more goroutine that runs while the outer call makes
  no step.
* Concurrent modification of the value being encoded, and user methods with side
  effects on it.

## What the code does wrong

These came out of the proofs; each is a `_refuted` theorem with a concrete
program unless noted.  Readings are of the pinned commit.

| Property | Behaviour |
|---|---|
| C05 | NoUTF8Coercion also turns off the escape of U+2028 and U+2029 |
| C08 | a json.RawMessage is compacted but not validated (never rejected: C08_exact); `1 2` even turns into `12` (C59_joins) |
| C12 | RFC 3339 output in year 0 is garbled (day numbers underflow) except on 31 December and at midnight from 1 March on, and offsets of 100 hours or more lose a digit (exactly these: C12_exact) |
| C18 | a type embedded several times at one level, whose own embedded types are again duplicated, does not hide their fields as the documented rule says (as in encoding/json); the rule followed is C18_exact |
| C19 | from five levels of embedding on, two promoted fields may share embedSeq's array and read each other's offsets: at depths 3, 5, 6, 7, 9, ... (a slice of that length has room left) only the last embedded struct of each struct is safe (`unshared`, FieldsSpec.v); C19_sources says which path each offset is taken from, at every depth, and C19_exact when that is the field's own |
| C21, C30 | a leading field dropped by omitnil leaves its comma: `{,"B":1}` |
| C23 | sorted maps compare the escaped keys, so the order differs from that of the decoded keys (exactly when escaping reverses a pair: C23_exact; which pairs: C23_pairs) |
| C25 | time.Duration and time.Time keys are written by the value options, and the quotes doubled or missing (exactly with DurationString and UnixTime: C25_exact); a nil key of an interface type with MarshalText gives `{null:`; a key with MarshalText and AppendJSON is written by the latter (C25_method_names_refuted) |
| C26 | a nil value in a sync.Map panics; with string keys and values that are nil or encodable it panics exactly when one is nil (C26_exact) |
| C28, C29 | a non-empty interface without encoding methods is read as an eface; `[1]*T` in an interface is not recognised as direct; value-receiver methods of direct non-pointer types get a wrong word.  C29_types is a condition on the types of a program under which none of this happens; C29_word gives types for which it does whenever the word is not the address of a word (the zero value, for one) |
| C34 | `type T []T` recurses forever while building its instruction (exactly the types with an endless chain of pointers, slices, arrays and maps do: C34_exact) |
| C36 | fields promoted through an embedded pointer are treated as not addressable; `*time.Time` and `*json.RawMessage` use their methods instead of the native encoding; `C36_exact` (`Properties_Precedence.v`) gives the method used at every position, with Go's addressability except below an embedded pointer in a struct that is not addressable, `C36_differs` the method sets for which this matters, `C36_pointer_exact` when a pointer keeps the native encoding |
| C38 | the text of a TextMarshaler is copied without escaping (right exactly when it needs none: C38_exact) |
| C39 | `,string` on strings escapes once instead of twice; it is ignored for json.Number and time.Duration |
| C40 | a nil []byte stays `null` with NilSliceEmpty |
| C41 | AppendOpts with a rejected option returns nil and so loses dst; MarshalOpts(nil, bad option) succeeds |
| C44 | cyclic pointers recurse forever (and Marshal succeeds on acyclic data only: C44_only_acyclic) |
| C45 | a custom time layout is not escaped (right exactly when it needs none: C45_exact) |
| C55 | a zone offset that is not a whole number of minutes loses its seconds, the local time does not, so the text denotes another instant (exactly then: C55_exact) |
| C56 | in a sorted map a key text shorter than two bytes makes the slice expression `buf.B[off+1 : len(buf.B)-1]` panic, as time.Unix(1, 0) does with UnixTime (exactly then: C56_keys_exact) |
| C57 | two map keys that differ only in invalid UTF-8 give one member name twice (as in encoding/json) |
| C62 | a MarshalJSON result of `null` followed by white space is dropped by omitnil without NoCompact and written with it (C62_ex_null) |
| C58 | string map keys are sorted by their escaped text (for generic values this is the only difference: C58_generic); a string with the string option is escaped once (encoding/json: twice); methods of a field promoted through an embedded pointer are not called |

## Testing the theorems

`seeded/LOG.jsonl` records deliberate changes made to the definitions in a copy
of this directory, the property each should break, the theorems that stopped
holding and what was tightened where none did.  Changes to `exec` are made
together with the same change to `venc` and to ConcModel.v where these mirror
it, so that it is the properties that are tested and not the refinement.
