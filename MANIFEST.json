{
 "claims": [
  {
   "property": "C01",
   "status": "proved",
   "theorems": [
    "C01_string_roundtrip",
    "C01_valid_string",
    "C01_distinct"
   ],
   "note": "Over every byte string, at the level of Marshal; JSON decoding is the grammar relation of JsonSpec.v."
  },
  {
   "property": "C02",
   "status": "proved",
   "theorems": [
    "C02_nothing_raw",
    "C02_no_html_escaping"
   ],
   "note": ""
  },
  {
   "property": "C03",
   "status": "proved",
   "theorems": [
    "C03_valid_utf8"
   ],
   "note": ""
  },
  {
   "property": "C04",
   "status": "proved",
   "theorems": [
    "C04_no_string_escaping",
    "C04_no_utf8_coercion",
    "C04_units_determine_bytes"
   ],
   "note": ""
  },
  {
   "property": "C05",
   "status": "partial",
   "theorems": [
    "C05_separators_refuted",
    "C05_separators_partial",
    "C05_exact"
   ],
   "note": "The claim is false of the code: NoUTF8Coercion disables the escape of U+2028/9 (refuted with a witness). C05_exact: a separator is left raw if and only if NoUTF8Coercion is given and the string has it."
  },
  {
   "property": "C06",
   "status": "proved",
   "theorems": [
    "C06_number",
    "C06_no_validation"
   ],
   "note": ""
  },
  {
   "property": "C07",
   "status": "proved",
   "theorems": [
    "C07_raw_message",
    "C07_raw_clean",
    "C07_marshal_json"
   ],
   "note": ""
  },
  {
   "property": "C08",
   "status": "partial",
   "theorems": [
    "C08_user_json_refuted",
    "C08_marshal_json_partial",
    "C08_invalid_rejected",
    "C08_exact"
   ],
   "note": "False of the code for json.RawMessage, which is not validated (refuted). Proved for MarshalJSON results; validity is json.Valid's, which does not check UTF-8. C08_exact: a raw message is never rejected, so the claim holds of it if and only if it is JSON or NoCompact is given."
  },
  {
   "property": "C09",
   "status": "proved",
   "theorems": [
    "C09_integer",
    "C09_values",
    "C09_literal_exact",
    "C09_literal_unique"
   ],
   "note": ""
  },
  {
   "property": "C10",
   "status": "proved",
   "theorems": [
    "C10_limits_nearest",
    "C10_special",
    "C10_finite",
    "C10_text"
   ],
   "note": "strconv's shortest decimal digits are an input with the contract shortest_ok. C10_text: the bytes are those of the fixed or the exponent notation of the shortest digits, given as a relation, and no others; NaN and infinities have none."
  },
  {
   "property": "C11",
   "status": "proved",
   "theorems": [
    "C11_rfc3339",
    "C11_distinct",
    "C11_text",
    "C11_one_text"
   ],
   "note": "C11_text gives the exact text."
  },
  {
   "property": "C12",
   "status": "partial",
   "theorems": [
    "C12_times_refuted",
    "C12_times_partial",
    "C12_exact"
   ],
   "note": "False of the code in year 0 and for offsets of 100 hours or more (refuted). C12_exact: the text is the right date and offset if and only if the offset is below 100 hours and the local date is in years 1..9999, or is 31 December of year 0, or is midnight from 1 March of year 0 on."
  },
  {
   "property": "C13",
   "status": "proved",
   "theorems": [
    "C13_unix_time",
    "C13_duration_integer"
   ],
   "note": ""
  },
  {
   "property": "C14",
   "status": "proved",
   "theorems": [
    "C14_duration_string",
    "C14_text",
    "C14_one_text"
   ],
   "note": "C14_text gives the exact text: that of Duration.String."
  },
  {
   "property": "C15",
   "status": "proved",
   "theorems": [
    "C15_growth",
    "C15_value"
   ],
   "note": "C15_growth: encodeByteSlice on the heap model, from a destination slice of any length and spare capacity: every execution ends without panic, every access is in bounds, the bytes already in the destination array and all other arrays stay unchanged at every step, and the result is the old content followed by the quoted base64 text. C15_value: the same text at any position of a marshaled value, decodable only to the content."
  },
  {
   "property": "C16",
   "status": "proved",
   "theorems": [
    "C16_flags",
    "C16_last_wins",
    "C16_order_irrelevant",
    "C16_rejected",
    "C16_accepted",
    "C16_frame"
   ],
   "note": "C16_frame: adding an option anywhere in an accepted list leaves the result of every call unchanged, bytes and errors, when no part of the value is one the option is about."
  },
  {
   "property": "C17",
   "status": "proved",
   "theorems": [
    "C17_fields",
    "C17_empty_allow",
    "C17_lists"
   ],
   "note": "C17_lists: two option lists that differ only in AllowList and DenyList, but conceal the same names, give the same results in every memory."
  },
  {
   "property": "C18",
   "status": "partial",
   "theorems": [
    "C18_order_unique",
    "C18_selection_partial",
    "C18_selection_refuted",
    "C18_exact"
   ],
   "note": "Order and uniqueness proved in full. Selection is false of the code when a struct type is embedded several times at one level and the duplicates are themselves duplicated below (refuted); proved otherwise. C18_exact states the rule the code follows on every type, on the type graph: a struct type counts once, at its least depth, through the first of its shortest paths."
  },
  {
   "property": "C19",
   "status": "partial",
   "theorems": [
    "C19_promoted_partial",
    "C19_integer_partial",
    "C19_offsets_partial",
    "C19_promoted_refuted",
    "C19_sources",
    "C19_exact"
   ],
   "note": "False of the code from five embedding levels on (refuted: shared backing array). Proved for every field whose embedding path is unshared, at any depth: all fields up to four levels, and deeper ones when at each depth where the offset slice has room left the step is the last embedded struct of its struct. C19_sources: at every depth, each recorded offset is that of the last step of the last path stored in the same array. C19_exact: the offsets are those of the field's own path if and only if each step has the offset of its source."
  },
  {
   "property": "C20",
   "status": "proved",
   "theorems": [
    "C20_fields_present"
   ],
   "note": ""
  },
  {
   "property": "C21",
   "status": "partial",
   "theorems": [
    "C21_omitnil_partial",
    "C21_omitnil_refuted",
    "C21_exact"
   ],
   "note": "False of the code when the first emitted field is dropped (refuted). C21_exact: with JSON member values, the object is JSON if and only if the first shown field is not dropped or no field is kept."
  },
  {
   "property": "C22",
   "status": "proved",
   "theorems": [
    "C22_members",
    "C22_sync_members",
    "C22_order_independent",
    "C22_order_irrelevant",
    "C22_string_keys"
   ],
   "note": "sort.Sort is an input with the contract sort_ok (a sorted permutation, any order of equal keys)."
  },
  {
   "property": "C23",
   "status": "partial",
   "theorems": [
    "C23_json_order_refuted",
    "C23_json_order_partial",
    "C23_exact",
    "C23_pairs"
   ],
   "note": "False of the code: keys are compared after escaping (refuted). Proved when no key needs escaping. C23_exact: for valid UTF-8 keys the members are in key order if and only if escaping reverses no pair of keys. C23_pairs says which pairs those are, with the default options or NoHTMLEscaping: the first characters in which the keys differ decide."
  },
  {
   "property": "C24",
   "status": "proved",
   "theorems": [
    "C24_same_members",
    "C24_iteration_order",
    "C24_same_failure"
   ],
   "note": ""
  },
  {
   "property": "C25",
   "status": "partial",
   "theorems": [
    "C25_names_partial",
    "C25_basic_names",
    "C25_names_refuted",
    "C25_exact",
    "C25_text_exact",
    "C25_method_names_refuted"
   ],
   "note": "False of the code for time.Duration keys with DurationString and time.Time keys with UnixTime (C25_names_refuted), for nil interface keys and for keys that have AppendJSON besides MarshalText (C25_method_names_refuted). Proved for string keys, integer keys and every key whose own encoding is sound. C25_exact: names of native keys are strings if and only if those options are not given. C25_text_exact: the name of a key written by MarshalText is a string if and only if the key is not a nil interface and the text needs no escape."
  },
  {
   "property": "C26",
   "status": "partial",
   "theorems": [
    "C26_same_as_map",
    "C26_bad_key",
    "C26_nil_value_refuted",
    "C26_exact"
   ],
   "note": "Equality with the map and the error for bad keys are proved. The full statement is false: a nil value makes Marshal panic (C26_nil_value_refuted). C26_exact: with string keys and values that are nil or encoded without error, Marshal panics if there is a nil value and succeeds if there is none."
  },
  {
   "property": "C27",
   "status": "proved",
   "theorems": [
    "C27_append_marshal"
   ],
   "note": "On any memory whose uint8 cells are bytes and any methods that append."
  },
  {
   "property": "C28",
   "status": "partial",
   "theorems": [
    "C28_value_partial",
    "C28_memory_partial",
    "C28_value_refuted"
   ],
   "note": "For values whose interfaces with methods have a marshaler and types the code reads correctly (see C29)."
  },
  {
   "property": "C29",
   "status": "partial",
   "theorems": [
    "C29_safe_partial",
    "C29_types",
    "C29_word",
    "C29_array_refuted",
    "C29_method_refuted",
    "C29_interface_refuted",
    "C29_interface_always"
   ],
   "note": "Safe on readable values; three counterexamples show the full claim is false of the code. C29_types puts the condition on the types of a program alone: types U whose members are safe and types D that may be in interfaces. C29_word is a converse: a type that is its own word in an interface and that the code takes for one that is not, such as [1]*int, crashes whenever its word is not the address of another word. C29_interface_always: when the encoding gets to a value in an interface with methods and no marshaler, wherever it is, Marshal does not succeed."
  },
  {
   "property": "C30",
   "status": "partial",
   "theorems": [
    "C30_json_partial",
    "C30_regular",
    "C30_json_refuted"
   ],
   "note": "Proved for values all of whose parts are sound; false in general (omitnil on a null marshaler, raw messages, text marshalers, string option, year 0)."
  },
  {
   "property": "C31",
   "status": "proved",
   "theorems": [
    "C31_history",
    "C31_panic",
    "C31_same"
   ],
   "note": "For calls whose sequential run ends, be it with a result, an error or a panic, in every reachable state of the concurrent machine; methods of the user may panic (C31_same: for values whose methods return)."
  },
  {
   "property": "C32",
   "status": "proved",
   "theorems": [
    "C31_history",
    "C32_append",
    "C32_progress",
    "C32_ends",
    "C32_completes",
    "C32_no_race"
   ],
   "note": "Any number of goroutines, any schedule; calls whose sequential run ends, also those in which a method of the user panics."
  },
  {
   "property": "C33",
   "status": "proved",
   "theorems": [
    "C33_fresh",
    "C33_kept",
    "C33_user",
    "C33_dst",
    "C33_pool",
    "C32_no_race"
   ],
   "note": "Arrays of the user, of the pool and of running calls never overlap."
  },
  {
   "property": "C34",
   "status": "partial",
   "theorems": [
    "C34_builds_partial",
    "C34_compile_partial",
    "C34_self_refuted",
    "C34_exact",
    "C34_chain"
   ],
   "note": "Proved when every recursive type passes through a struct; type T []T is a counterexample. C34_exact characterises the types that can be built one by one: those without an endless chain of pointer, slice, array and map contents."
  },
  {
   "property": "C35",
   "status": "proved",
   "theorems": [
    "C35_reported",
    "C35_error"
   ],
   "note": ""
  },
  {
   "property": "C36",
   "status": "partial",
   "theorems": [
    "C36_exact",
    "C36_differs",
    "C36_pointer_exact",
    "C36_first_partial",
    "C36_none_partial",
    "C36_native",
    "C36_sync",
    "C36_pointer_partial",
    "C36_embedded_refuted",
    "C36_pointer_refuted"
   ],
   "note": "the first available method in the documented order is used on every part, with Go's addressability, and the native types ignore methods. False for fields promoted through an embedded pointer (addressable in Go, treated as not addressable) and for native types behind a pointer (the methods of the pointer type win); both refuted with witnesses. C36_exact gives the choice at every position, including below embedded pointers; C36_differs says for which method sets that choice differs from Go's; C36_pointer_exact says when a pointer to a native type keeps the native encoding."
  },
  {
   "property": "C37",
   "status": "proved",
   "theorems": [
    "C37_error_reported",
    "C37_error_origin",
    "C37_error_exact",
    "C37_nil",
    "C37_context"
   ],
   "note": "user methods are functions of kind, receiver and context that do not write to memory the call reads."
  },
  {
   "property": "C38",
   "status": "partial",
   "theorems": [
    "C38_text_partial",
    "C38_text_refuted",
    "C38_exact"
   ],
   "note": "False of the code: the text is not escaped (refuted). C38_exact: the emitted bytes are the JSON string of the text if and only if it is valid UTF-8 without control characters, quotation marks and backslashes."
  },
  {
   "property": "C39",
   "status": "partial",
   "theorems": [
    "C39_string_option_partial",
    "C39_scalar",
    "C39_string_refuted",
    "C39_native_refuted",
    "C39_exact"
   ],
   "note": "proved for booleans, integers, floats and strings needing no escape; refuted for a string holding a quotation mark and for json.Number and time.Duration. C39_exact: a string is encoded twice if and only if it needs no escape."
  },
  {
   "property": "C40",
   "status": "partial",
   "theorems": [
    "C40_nil_partial",
    "C40_empty",
    "C40_bytes_refuted",
    "C40_exact",
    "C40_always_null"
   ],
   "note": "False of the code for a nil []byte with NilSliceEmpty, which stays null (refuted). C40_exact: a nil is encoded as stated if and only if it is not that case. C40_always_null: nil raw messages and nil receivers are null under all options."
  },
  {
   "property": "C41",
   "status": "proved",
   "theorems": [
    "C41_prefix",
    "C41_options_refuted",
    "C27_append_marshal",
    "C31_history"
   ],
   "note": "The options theorem shows that a rejected option, which is not an encoding failure, loses dst."
  },
  {
   "property": "C42",
   "status": "proved",
   "theorems": [
    "C42_tags",
    "C42_dash"
   ],
   "note": ""
  },
  {
   "property": "C43",
   "status": "proved",
   "theorems": [
    "C43_member_names"
   ],
   "note": ""
  },
  {
   "property": "C44",
   "status": "partial",
   "theorems": [
    "C44_terminates_partial",
    "C44_cycle_refuted",
    "C44_only_acyclic",
    "C44_endless"
   ],
   "note": "Proved for acyclic values; a pointer cycle is a counterexample. The converse is proved as well: Marshal succeeds only when following pointers, interfaces, elements, entries and the fields not omitted ends."
  },
  {
   "property": "C45",
   "status": "partial",
   "theorems": [
    "C45_layout_refuted",
    "C45_layout_partial",
    "C45_exact"
   ],
   "note": "False of the code: the formatted text is not escaped (refuted). C45_exact: the emitted bytes are the JSON string of the formatted text if and only if it needs no escape."
  },
  {
   "property": "C46",
   "status": "proved",
   "theorems": [
    "C46_slice",
    "C46_array_string",
    "C46_array_numbers"
   ],
   "note": "For bytes whose pointer type has neither MarshalJSON nor MarshalText (the code's own condition); numbers for element types without any method (elements with AppendJSON are encoded by it)."
  },
  {
   "property": "C47",
   "status": "proved",
   "theorems": [
    "C47_nil",
    "C47_nil_no_options",
    "C47_rejected_first"
   ],
   "note": ""
  },
  {
   "property": "C48",
   "status": "proved",
   "theorems": [
    "C48_roundtrip",
    "C48_shortest",
    "C48_distinct",
    "shortest_dec_exact"
   ],
   "note": "For any strconv whose shortest digits meet shortest_exact (they read back as the float and no fewer do); shortest_dec_exact shows a function that does. Floats are all canonical binary32/binary64 values, subnormals included."
  },
  {
   "property": "C49",
   "status": "proved",
   "theorems": [
    "C49_duration_float",
    "C49_whole",
    "dur_abs_spec",
    "rnd_rounds"
   ],
   "note": "For Duration.Minutes and Seconds computed as in package time, every operation rounded to nearest even (dur_float); rnd_rounds: the rounding function used is correct."
  },
  {
   "property": "C50",
   "status": "proved",
   "theorems": [
    "C50_text"
   ],
   "note": "The text is unique, so the theorem gives it byte for byte."
  },
  {
   "property": "C51",
   "status": "proved",
   "theorems": [
    "C51_formats",
    "C51_unit",
    "C51_options",
    "C51_prefix",
    "C51_wrapped"
   ],
   "note": "Type names, the user error text and strconv.Quote are parameters. C51_unit relates the name of a format with the numbers that it writes."
  },
  {
   "property": "C52",
   "status": "proved",
   "theorems": [
    "C52_html",
    "C52_utf8",
    "C52_method_refuted",
    "C52_raw_refuted"
   ],
   "note": "Both theorems are about whole documents and name the texts that are excepted (supplied). The two refutations show that the exceptions are needed: an AppendJSON result with '<', and a raw message that is not UTF-8, from which compaction makes a U+2028."
  },
  {
   "property": "C53",
   "status": "proved",
   "theorems": [
    "C53_regular",
    "C53_twice",
    "C53_raw",
    "C53_unescaped_refuted"
   ],
   "note": "C53_regular: values without user methods, under the default options. C53_twice: also with methods, when the texts they supply are clean. The refutation shows that C53_raw needs its condition."
  },
  {
   "property": "C54",
   "status": "proved",
   "theorems": [
    "C54_distinct",
    "C54_exact"
   ],
   "note": "C54_distinct: equal outputs imply equal values up to the order of map entries, for the values described by the inductive kept. C54_exact: with sorted maps this is an equivalence. The host's float formatter gives the shortest text that reads back (shortest_exact) and its sort sorts (sort_ok)."
  },
  {
   "property": "C55",
   "status": "partial",
   "theorems": [
    "C55_instant_partial",
    "C55_instant_refuted",
    "C55_exact",
    "C55_shifted",
    "C55_one_instant"
   ],
   "note": "False of the code for offsets that are not whole minutes (refuted with Amsterdam's offset before 1937). C55_exact: the text denotes the instant if and only if the offset is a whole number of minutes. C55_shifted: what it denotes otherwise. C55_one_instant: a text denotes at most one instant."
  },
  {
   "property": "C56",
   "status": "partial",
   "theorems": [
    "C56_maps_partial",
    "C56_maps_refuted",
    "C56_keys_exact",
    "C56_time_keys_exact"
   ],
   "note": "False of the code for keys shorter than two bytes in sorted maps (refuted). Proved for string keys, integer keys and keys with MarshalText as their only method. C56_keys_exact: with encodable keys and values Marshal panics exactly when the map is sorted and some key text is shorter than two bytes. C56_time_keys_exact: for time keys with UnixTime, exactly when one is in the first ten seconds of 1970."
  },
  {
   "property": "C57",
   "status": "partial",
   "theorems": [
    "C57_distinct_partial",
    "C57_maps_needed",
    "C57_exact",
    "C57_integer_keys",
    "C57_ordinary",
    "C57_distinct_refuted"
   ],
   "note": "Proved when JSON given by user code has no duplicates and the keys of each map have different names; struct members are always distinct. The names of map entries must be different (C57_maps_needed), and for maps with string keys and no user code the condition is exact (C57_exact). False without it: two keys that are not UTF-8 are both decoded to U+FFFD (refuted)."
  },
  {
   "property": "C58",
   "status": "partial",
   "theorems": [
    "C58_text_partial",
    "C58_error",
    "C58_unique",
    "C58_neat",
    "C58_generic",
    "C58_generic_keys",
    "C58_generic_same",
    "C58_text_refuted"
   ],
   "note": "False of the code for map keys whose order changes under escaping (refuted), quoted strings with escaped characters (C58_quoted) and methods of fields promoted through an embedded pointer (C58_promoted). Proved as an equivalence, with an error where encoding/json gives no text, for values to which none of these applies: also no append methods, no MarshalText results that need escapes, no times of year 0 or with an offset of 100 hours or more, no raw messages that are not JSON, no values in interfaces with methods, no sync.Map, no omitnil. Maps may have string, integer, duration, time and MarshalText keys. C58_neat gives the condition by the shape of the value. C58_generic is exact for values built as encoding/json decodes them into interface{}: the bytes agree if and only if escaping keeps the order of the keys of every map in the value; C58_generic_keys says which keys those are, by their first different characters; C58_generic_same: in any case encoding/json gives one text, of the same length, that decodes to the same values."
  },
  {
   "property": "C59",
   "status": "proved",
   "theorems": [
    "C59_raw_message",
    "C59_marshal_json",
    "C59_one_text",
    "C59_copied",
    "C59_any",
    "C59_any_one",
    "C59_joins"
   ],
   "note": "The text is given by the relation compact_text, which has exactly one result for every JSON text. A raw message is not checked by the code, so C59_any gives its text for every sequence of bytes, JSON or not (relation strip, one result each); C59_joins: such a text may turn into JSON, as 1 2 does into 12."
  },
  {
   "property": "C60",
   "status": "proved",
   "theorems": [
    "C60_slice",
    "C60_array",
    "C60_pointer",
    "C60_map",
    "C60_struct",
    "C60_struct_pointer"
   ],
   "note": "for all success and failure cases, relating calls of Marshal on the whole and on its parts in any memory. Parts: a part that is not addressable, or whose type does not depend on that, is given to Marshal itself; an addressable part of a type whose pointer type has no methods by its address; interfaces by what they hold. A field with the string option is covered for booleans and numbers. Structs through the list of selected fields (C18) and the conditions that hide fields (C17, C20)."
  },
  {
   "property": "C61",
   "status": "proved",
   "theorems": [
    "C61_rewriting"
   ],
   "note": "for every call, bytes and errors. The conditions on copied texts, raw messages and keys of sorted maps are hypotheses on each part; C61_ex_keys shows that the one on keys is needed (the order of the keys < and = differs)."
  },
  {
   "property": "C62",
   "status": "proved",
   "theorems": [
    "C62_compaction"
   ],
   "note": "for every call, bytes and errors. compact_text (CompactText.v) says what compaction leaves out and escapes. The conditions on each part are hypotheses; C62_ex_null shows that the one on omitnil is needed: a MarshalJSON result of null and a space is dropped without the option and written with it."
  },
  {
   "property": "C63",
   "status": "proved",
   "theorems": [
    "C63_address",
    "C63_methods"
   ],
   "note": "in any two memories. C63_ex_method shows that the condition on the parts is needed: a method of the pointer type of a field is used only when the struct is given by its address."
  },
  {
   "property": "C64",
   "status": "proved",
   "theorems": [
    "C64_conversion"
   ],
   "note": "in any two memories. Struct types that are embedded in themselves, by pointer, at any depth, are excluded: the set of visited types then differs."
  },
  {
   "property": "C65",
   "status": "proved",
   "theorems": [
    "C65_succeeds",
    "C65_first",
    "C65_never"
   ],
   "note": "C65_first is an equivalence; fails is given by rules on the parts of the value, without the encoder. In memory the code reads correctly (call), as for the other claims."
  },
  {
   "property": "C66",
   "status": "proved",
   "theorems": [
    "C66_embedded",
    "C66_nil"
   ],
   "note": "in any two memories that hold the values. distinct_names is about all candidates, so no field hides another; the embedded struct may itself embed others."
  },
  {
   "property": "C67",
   "status": "proved",
   "theorems": [
    "C67_same_data"
   ],
   "note": "in any two memories that hold the values. same_data is defined by rules on types and values alone; hidden, shown and quoted fields are those of DocSpec."
  },
  {
   "property": "C68",
   "status": "proved",
   "theorems": [
    "C68_removed",
    "C68_skipped",
    "C68_hidden"
   ],
   "note": "C68_removed: all candidates the field brings are hidden (the field may be an embedded struct), and no other field brings their names. The other two state the usual cases in terms of the declaration. `settled` is the condition on the types; both disjuncts have an example."
  },
  {
   "property": "C69",
   "status": "proved",
   "theorems": [
    "C69_permuted",
    "C69_members",
    "C69_permuted_refuted"
   ],
   "note": "C69_members: the same with the objects spelled out, where omitnil takes back no null of a MarshalJSON method. C69_permuted_refuted shows that the condition on the types is needed: with a struct type embedded twice that embeds another the member comes from the field declared first (C18)."
  },
  {
   "property": "C70",
   "status": "proved",
   "theorems": [
    "C70_string",
    "C70_string_attained",
    "C70_integer",
    "C70_float",
    "C70_time",
    "C70_bytes",
    "C70_raw_message",
    "C70_marshal_json",
    "C70_marshal_text",
    "C70_document"
   ],
   "note": "C70_document covers every value none of whose parts is of a type with a method, at any depth and with any options, but for custom time layouts and the durations written as strings, minutes and seconds. C70_time has the hypotheses of C11 (years 1-9999, offsets below 100 hours). The bound for floats uses shortest_exact: the digits are the fewest that read back as the float."
  },
  {
   "property": "C71",
   "status": "proved",
   "theorems": [
    "C71_line",
    "C71_stream",
    "C71_raw_refuted",
    "C71_text_refuted"
   ],
   "note": "line_call states what is asked of a call. The two refutations show that the conditions on raw messages and on copied texts are needed: a raw message with a newline between quotes, and a MarshalText result with a newline."
  },
  {
   "property": "C72",
   "status": "proved",
   "theorems": [
    "C72_roundtrip",
    "C72_stable",
    "C72_canonical",
    "C72_normal_form",
    "C72_decodable",
    "C72_utf8_refuted"
   ],
   "note": "decodes is a relation written from the documentation of encoding/json; decoding itself is not code of this repository. C72_decodable says which texts have a decoding, so which ones C72_normal_form speaks of. Floats are read as the nearest float64. C72_utf8_refuted shows that the condition on strings is needed: the byte 255 is written as an escape and its decoding is not."
  }
 ]
}