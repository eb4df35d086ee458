{
 "claims": [
  {
   "property": "C01",
   "status": "proved",
   "theorems": [
    "C01_cmp_total_antisymmetric"
   ],
   "note": "all numbers, no well-formedness hypothesis"
  },
  {
   "property": "C02",
   "status": "proved",
   "theorems": [
    "C02_cmp_is_numeric_order",
    "C02_cmp_transitive",
    "C02_transitive_refuted",
    "C02_negative_zero_refuted",
    "C02_nan_cycle_refuted"
   ],
   "note": "order equals value order on ordinary numbers; three refutations outside"
  },
  {
   "property": "C03",
   "status": "proved",
   "theorems": [
    "C03_eq_reflexive",
    "C03_eq_is_value_equality",
    "C03_symmetric_refuted",
    "C03_large_refuted"
   ],
   "note": "reflexivity for all; equality = value equality on exact numbers; refutations outside"
  },
  {
   "property": "C04",
   "status": "proved",
   "theorems": [
    "C04_tolerance",
    "C04_as_u128",
    "C04_as_i128",
    "C04_difference_is_exact"
   ],
   "note": "full characterisation incl. clamping and exactness of the f64 subtraction; the tolerance is 1e-10 rounded to nearest (PropertiesDecimal.v)"
  },
  {
   "property": "C05",
   "status": "proved",
   "theorems": [
    "C05_as_f64_correctly_rounded",
    "C05_as_f64_monotone"
   ],
   "note": "nearest, ties to even, exact to 2^53, monotone"
  },
  {
   "property": "C06",
   "status": "proved",
   "theorems": [
    "C06_number_text_round_trip",
    "C06_large_float_refuted",
    "C06_value_refuted"
   ],
   "note": "round trip with exact conditions; two refutations for large floats"
  },
  {
   "property": "C07",
   "status": "proved",
   "theorems": [
    "C07_integer_text",
    "C07_parsed_in_range"
   ],
   "note": "integer texts parse to the exact integer or are rejected"
  },
  {
   "property": "C08",
   "status": "proved",
   "theorems": [
    "C08_equal_values_hash_equally",
    "C08_hash_eq_contract",
    "C08_hash_is_binary64",
    "C08_negative_zero_refuted",
    "C08_nan_refuted"
   ],
   "note": "equal values hash equally; refutations for -0.0 and NaN"
  },
  {
   "property": "C09",
   "status": "proved",
   "theorems": [
    "C09_ids_ignored",
    "C09_erased_tree_equal"
   ],
   "note": "all trees"
  },
  {
   "property": "C10",
   "status": "proved",
   "theorems": [
    "C10_cmp_reflexive_antisymmetric",
    "C10_cmp_transitive",
    "C10_order",
    "C10_transitive_refuted"
   ],
   "note": "all trees; which order it is (OrdSpec.v); transitivity for ordinary numbers, refuted without"
  },
  {
   "property": "C11",
   "status": "proved",
   "theorems": [
    "C11_equality_reflexive",
    "C11_equality_is_cmp",
    "C11_equality_general",
    "C11_equality_equivalence",
    "C11_empty_refuted"
   ],
   "note": "reflexive for all trees; equals cmp on exact numbers up to empty Tuple/Cntr; refutation for the empty pair"
  },
  {
   "property": "C12",
   "status": "proved",
   "theorems": [
    "C12_new_map",
    "C12_new_cntr_valid",
    "C12_new_cntr_invalid",
    "C12_empty_key_refuted"
   ],
   "note": "all lists; keys of maps exact and without empty containers (refuted otherwise)"
  },
  {
   "property": "C13",
   "status": "proved",
   "theorems": [
    "C13_with_id",
    "C13_constructor_ids",
    "C13_constructor_ids_valid"
   ],
   "note": "all strings"
  },
  {
   "property": "C14",
   "status": "proved",
   "theorems": [
    "C14_clone",
    "C14_into_owned_mk_brw"
   ],
   "note": "all trees whose maps are strictly sorted"
  },
  {
   "property": "C15",
   "status": "proved",
   "theorems": [
    "C15_round_trip",
    "C15_alphabet",
    "C15_literal"
   ],
   "note": "encode/decode round trip, alphabet, and the b91'...' literal parses back whatever follows"
  },
  {
   "property": "C16",
   "status": "proved",
   "theorems": [
    "C16_string_text",
    "C16_no_delimiter_panics"
   ],
   "note": "all strings; panic exactly when no delimiter is free"
  },
  {
   "property": "C17",
   "status": "proved",
   "theorems": [
    "C17_parse_total"
   ],
   "note": "all inputs; fuel bounded by the input length is shown sufficient"
  },
  {
   "property": "C18",
   "status": "proved",
   "theorems": [
    "C18_parsed_well_formed",
    "C18_field_names_refuted",
    "C18_map_order_refuted",
    "C18_never_read_refuted"
   ],
   "note": "all inputs; refutation: field names the parser accepts and new_cntr rejects The promise includes that maps whose keys hold no numbers are strictly sorted; C18_map_order_refuted: with large numbers as keys two entries can have keys which compare as equal. Refuted as well: not every id which with_id takes, nor every field name which new_cntr takes, can be read from some text (C18_never_read_refuted)."
  },
  {
   "property": "C19",
   "status": "proved",
   "theorems": [
    "C19_bracket",
    "C19_unclosed",
    "C19_extra",
    "C19_field",
    "C19_line",
    "C19_colon",
    "C19_error_traces",
    "C19_iter_and_backtrace",
    "C19_backtrace_text",
    "C19_order",
    "C19_outermost",
    "C19_caret_refuted",
    "C19_title",
    "C19_string",
    "C19_quoted",
    "C19_bytes",
    "C19_identity",
    "C19_no_identity",
    "C19_word"
   ],
   "note": "all inputs. C19_title: the error for a title which is not closed. C19_string, C19_quoted, C19_bytes: the same for strings and byte arrays. C19_identity, C19_no_identity: for identities in angle brackets. C19_word: for words which are no values. C19_bracket: for mismatched brackets. C19_unclosed: for brackets which are not closed. C19_extra: for text behind a value. C19_field: for fields whose value is none. C19_line: for lines which are no fields. C19_colon: for documents which begin with a colon and no name."
  },
  {
   "property": "C20",
   "status": "proved",
   "theorems": [
    "C20_inline",
    "C20_as_str",
    "C20_hidden_tuple_refuted"
   ],
   "note": "all trees, histories and id flags under a decidable condition on the content; exact result by norm, equality with the input; counterexamples where the condition fails"
  },
  {
   "property": "C21",
   "status": "proved",
   "theorems": [
    "C21_layouts",
    "C21_equal",
    "C21_literal",
    "C21_simple",
    "C21_not_container",
    "C21_as_str",
    "C21_rejected_refuted",
    "C21_other_value_refuted",
    "C21_bare_number_refuted"
   ],
   "note": "all trees and all layouts without Verbose; exact result, equality, identity; as_str with any limit for values which are not containers; counterexamples"
  },
  {
   "property": "C22",
   "status": "proved",
   "theorems": [
    "C22_document",
    "C22_last_entry",
    "C22_layouts",
    "C22_equal",
    "C22_literal",
    "C22_simple",
    "C22_as_str",
    "C22_rejected_refuted",
    "C22_other_value_refuted",
    "C22_id_refuted"
   ],
   "note": "the parser reads every text of a verbose grammar; all trees and all layouts under a decidable condition: exact result by vnorm, equality, identity; as_str with any width limit for simple trees; counterexamples where the condition fails"
  },
  {
   "property": "C23",
   "status": "proved",
   "theorems": [
    "C23_new",
    "C23_request",
    "C23_apply_config",
    "C23_write",
    "C23_as_str",
    "C23_write_exact",
    "C23_config_exact",
    "C23_as_str_exact",
    "C23_as_str_only",
    "C23_refuted"
   ],
   "note": "exact conditions: writing panics iff some string has no free delimiter (any history); apply_config on a new formatter iff a key of a section is too wide (stuck); as_str iff one of the two; apply_config after any history returns under the simpler condition solvable; the unconditional claim is refuted by a panic of as_str"
  },
  {
   "property": "C24",
   "status": "proved",
   "theorems": [
    "C24_single_line"
   ],
   "note": "all trees and histories"
  },
  {
   "property": "C25",
   "status": "proved",
   "theorems": [
    "C25_invariant"
   ],
   "note": "all histories, by induction"
  },
  {
   "property": "C26",
   "status": "proved",
   "theorems": [
    "C26_request",
    "C26_methods",
    "C26_id"
   ],
   "note": "all histories; success iff allowed, exact effect, meaning of every error"
  },
  {
   "property": "C27",
   "status": "proved",
   "theorems": [
    "C27_appends",
    "C27_prefix_refuted",
    "C27_bracket_refuted"
   ],
   "note": "all trees, histories, buffers; refuted for a tuple whose id is hidden"
  },
  {
   "property": "C28",
   "status": "proved",
   "theorems": [
    "C28_width",
    "C28_exact",
    "C28_nodes",
    "C28_refuted"
   ],
   "note": "exact formula for the difference; equality where it is zero; counterexamples"
  },
  {
   "property": "C29",
   "status": "proved",
   "theorems": [
    "C29_depth_first",
    "C29_assertions_hold"
   ],
   "note": "all trees; debug assertions proved to hold"
  },
  {
   "property": "C30",
   "status": "proved",
   "theorems": [
    "C30_parents",
    "C30_children",
    "C30_value"
   ],
   "note": "all trees and node pairs"
  },
  {
   "property": "C31",
   "status": "proved",
   "theorems": [
    "C31_depth",
    "C31_breadth"
   ],
   "note": "all trees and nodes"
  },
  {
   "property": "C32",
   "status": "proved",
   "theorems": [
    "C32_round_trip",
    "C32_no_enum_keys",
    "C32_lost_entries",
    "C32_decodes",
    "C32_exact",
    "C32_enum_keys_refuted",
    "C32_names_refuted"
   ],
   "note": "all types incl. recursive declarations; decoding what was encoded always succeeds with a value of the type (C32_decodes), which is the one encoded exactly when the keys of all maps in it are apart and its f32s come back (C32_exact); in particular without enum values in map keys; otherwise entries are lost (proved); fails for struct Some(T) and struct None()"
  },
  {
   "property": "C33",
   "status": "proved",
   "theorems": [
    "C33_integers",
    "C33_only_numbers",
    "C33_saturation_refuted"
   ],
   "note": "exact characterisation for all types below 128 bits and all numbers within range at 128 bits; counterexample: floats beyond the 128 bit types saturate"
  },
  {
   "property": "C34",
   "status": "proved",
   "theorems": [
    "C34_layouts",
    "C34_inline_concise",
    "C34_as_str",
    "C34_never_wrong",
    "C34_refused_or_right",
    "C34_refuted"
   ],
   "note": "For every layout (inline, concise, verbose mixes), with the conditions for reading the text back (vsafe) and the ids/numbers the decoder needs; for inline/concise layouts and for as_str_with_config with conditions on the value alone. C34_refuted lists values which do not survive the default configuration: [[1]], [true], 2^128, empty tuples and empty struct variants, strings with no delimiter left, and a nested first field; -0.0 comes back as 0.0. C34_never_wrong and C34_refused_or_right: under the weaker conditions of C78 the text is refused or decodes to the very value."
  },
  {
   "property": "C35",
   "status": "proved",
   "theorems": [
    "C35_never_fails",
    "C35_content",
    "C35_ids",
    "C35_injective",
    "C35_nested_option_refuted",
    "C35_result_equality_refuted"
   ],
   "note": "all types of the ToKserd impls; two refutations"
  },
  {
   "property": "C36",
   "status": "proved",
   "theorems": [
    "C36_accessors",
    "C36_field_lookup"
   ],
   "note": "all values; lookups in strictly sorted containers"
  },
  {
   "property": "C37",
   "status": "proved",
   "theorems": [
    "C37_document",
    "C37_blanks",
    "C37_formatted",
    "C37_unambiguous",
    "C37_trailing_comma_refuted"
   ],
   "note": "all texts of the inline/concise grammar; unambiguous; trailing commas are rejected"
  },
  {
   "property": "C38",
   "status": "proved",
   "theorems": [
    "C38_layouts_agree",
    "C38_as_str",
    "C38_all_layouts_agree",
    "C38_all_as_str"
   ],
   "note": "any two formatters or configurations, whatever their layouts"
  },
  {
   "property": "C39",
   "status": "proved",
   "theorems": [
    "C39_id_flags",
    "C39_no_limit",
    "C39_fits",
    "C39_fitting_is_inline_refuted"
   ],
   "note": "all histories and configurations; the claim that fitting documents are inline is refuted"
  },
  {
   "property": "C40",
   "status": "proved",
   "theorems": [
    "C40_total",
    "C40_keys_exact"
   ],
   "note": "total for identifiers as names; an invalid name is the error InvalidId"
  },
  {
   "property": "C41",
   "status": "proved",
   "theorems": [
    "C41_struct_fields"
   ],
   "note": "iff"
  },
  {
   "property": "C42",
   "status": "proved",
   "theorems": [
    "C42_tuple",
    "C42_tuple_variant",
    "C42_arity_refuted"
   ],
   "note": "iff; outside enums further elements are silently ignored (counterexample to exact arity)"
  },
  {
   "property": "C43",
   "status": "proved",
   "theorems": [
    "C43_total",
    "C43_round_trip",
    "C43_near",
    "C43_same_text",
    "C43_distinct",
    "C43_refuted",
    "C43_nan_refuted"
   ],
   "note": "Totality, kind, nearness and the same text are proved for all f32. The round trip is proved whenever the f64 is not exactly half way between x and another f32; C43_refuted shows that 7.038531e-26 is such a case and comes back changed, C43_nan_refuted that the sign of a NaN is lost. Printing and reading of floats is std's, modelled as shortest round-tripping digits and correctly rounded reading."
  },
  {
   "property": "C44",
   "status": "proved",
   "theorems": [
    "C44_rules",
    "C44_only",
    "C44_utf8",
    "C44_from_utf8"
   ],
   "note": "C44_rules gives, for every type and Kserd, acceptance and value as an equivalence with a rule written from the documentation (DecodeSpec.v); C44_only shows the rules have no other solution. The visitors of std and derived types are serde's and are modelled from its documentation. UTF-8 is stated against the RFC 3629 table."
  },
  {
   "property": "C45",
   "status": "proved",
   "theorems": [
    "C45_new",
    "C45_root",
    "C45_entry",
    "C45_sections",
    "C45_zero",
    "C45_width",
    "C45_default",
    "C45_limit_refuted"
   ],
   "note": "forms after new, of the root, of entries at their columns, of containers in lists, and with limit 0; the estimated column is refuted as the column of the text in two cases"
  },
  {
   "property": "C46",
   "status": "proved",
   "theorems": [
    "C46_format",
    "C46_words",
    "C46_size",
    "C46_separator_refuted"
   ],
   "note": "one direction: accepted texts are texts of the format, with the value the grammar gives. C47 gives both directions with a grammar which also says what may follow."
  },
  {
   "property": "C47",
   "status": "proved",
   "theorems": [
    "C47_exact",
    "C47_rejects",
    "C47_unambiguous",
    "C47_values"
   ],
   "note": "both directions; values, layouts and documents"
  },
  {
   "property": "C48",
   "status": "proved",
   "theorems": [
    "C48_accessors",
    "C48_kinds",
    "C48_fields",
    "C48_only_field",
    "C48_same_place",
    "C48_only_there",
    "C48_one_place",
    "C48_read_back",
    "C48_unchanged",
    "C48_elsewhere",
    "C48_sorted",
    "C48_typed"
   ],
   "note": "references as content and write-back; chains of accessors of any length; Vec and BTreeMap lookups are those of the trusted base"
  },
  {
   "property": "C49",
   "status": "proved",
   "theorems": [
    "C49_hidden",
    "C49_hidden_tuple_refuted"
   ],
   "note": "relational argument through navigation, configuration, solver and writers"
  },
  {
   "property": "C50",
   "status": "proved",
   "theorems": [
    "C50_as_str",
    "C50_layouts",
    "C50_accepted",
    "C50_other_width",
    "C50_layouts_other_width",
    "C50_negative_zero_refuted",
    "C50_title_id_refuted"
   ],
   "note": "inline, concise and verbose; exceptions (-0.0, ids below titles) are refuted. C50_other_width and C50_layouts_other_width: the value which was read is written like the first one under every width limit. C50_accepted: the same for everything that is accepted, under the conditions of C78."
  },
  {
   "property": "C51",
   "status": "proved",
   "theorems": [
    "C51_rewrite",
    "C51_rewrite_layouts",
    "C51_refused_or_kept",
    "C51_rejected_refuted",
    "C51_hidden_id_refuted",
    "C51_other_value_refuted",
    "C51_unstable_refuted"
   ],
   "note": "Combines C18 (what the parser promises), C21/C22 (equal after reading) and C50 (stable text), with conditions on the value that was read only. C51_rejected_refuted: 1e39 is read but its rewritten text is rejected. C51_hidden_id_refuted: Seq [true] is rewritten without its id and then rejected. C51_other_value_refuted: an empty verbose container is rewritten as a unit. C51_unstable_refuted: :Foo is rewritten as Foo () and that as Foo(). C51_refused_or_kept: with inf, NaN and any strings the rewritten document is refused or equal."
  },
  {
   "property": "C52",
   "status": "proved",
   "theorems": [
    "C52_decode",
    "C52_encode",
    "C52_some",
    "C52_some_refuted",
    "C52_array_refuted"
   ],
   "note": "serde_ty says which type serde sees; Result is an enum with the variants Ok and Err"
  },
  {
   "property": "C53",
   "status": "proved",
   "theorems": [
    "C53_into_owned",
    "C53_mk_brw",
    "C53_clone",
    "C53_to_mut",
    "C53_encoded",
    "C53_read",
    "C53_owned_types",
    "C53_sound",
    "C53_borrowed",
    "C53_mk_brw_decodes",
    "C53_parsed",
    "C53_round_trip",
    "C53_str",
    "C53_slice",
    "C53_owned_refuted",
    "C53_names_refuted",
    "C53_bytes_refuted"
   ],
   "note": "the ownership of parsed and encoded Kserds is put on the result of the parser's and encoder's models; C53_borrowed leaves out &[u8], whose exact condition is C53_slice"
  },
  {
   "property": "C54",
   "status": "proved",
   "theorems": [
    "C54_value",
    "C54_children",
    "C54_nodes",
    "C54_equal"
   ],
   "note": "Iterators are state machines (NavIter.v); runs, at_place and entries_of are in NavIterSpec.v. A node's handle is its navigator's address and its entry."
  },
  {
   "property": "C55",
   "status": "proved",
   "theorems": [
    "C55_valid",
    "C55_no_panic",
    "C55_single",
    "C55_unit",
    "C55_seq",
    "C55_tuple",
    "C55_named_tuple",
    "C55_newtype",
    "C55_struct",
    "C55_map",
    "C55_map_error",
    "C55_no_key",
    "C55_derived",
    "C55_dropped_key_refuted",
    "C55_retry_refuted",
    "C55_field_names_refuted"
   ],
   "note": "Ser.v models an implementation as a tree of calls on the Encoder's methods. What was given is a relation on that tree (SerSpec.v) which does not mention the Encoder's state. Refuted: a key without value is an error, a failed value can be given again, field names are valid."
  },
  {
   "property": "C56",
   "status": "proved",
   "theorems": [
    "C56_read_decimal",
    "C56_read_special",
    "C56_read_only",
    "C56_shortest"
   ],
   "note": "Reading and printing of f64 are the standard library's; the model computes them with exact integers and these theorems say what it computes. Shortest and nearest are stated against every decimal text, not against the printing algorithm."
  },
  {
   "property": "C57",
   "status": "proved",
   "theorems": [
    "C57_serde_sees",
    "C57_serde_sees_all",
    "C57_visits_in_range",
    "C57_any",
    "C57_enum",
    "C57_variant_length",
    "C57_newtype_length",
    "C57_wrong_kind",
    "C57_derived",
    "C57_tuple_or_seq_refuted",
    "C57_error_number_refuted",
    "C57_error_expected_refuted"
   ],
   "note": "Full abstraction of the Decoder. Refuted beside it: tuples and sequences can be told apart; errors name the number which was found (above 64 bits it is called 0) and the expected f32 or f64 (called $t)."
  },
  {
   "property": "C58",
   "status": "proved",
   "theorems": [
    "C58_total",
    "C58_self",
    "C58_int",
    "C58_float_int",
    "C58_float_int_order",
    "C58_int_float",
    "C58_f64",
    "C58_f32",
    "C58_f32_order",
    "C58_f32_value_refuted",
    "C58_nan_refuted",
    "C58_tolerance_refuted"
   ],
   "note": "f32 order: the f64 of an f32 is nearest to that f32 (C43_near) and no two f32s share one (C43_distinct), so the order is strict. Refuted: an f64 of the same value as an f32 is not equal to it as a Number; NaN == NaN; equality within the tolerance is neither symmetric nor agrees with the order."
  },
  {
   "property": "C59",
   "status": "proved",
   "theorems": [
    "C59_id",
    "C59_field_exactly",
    "C59_field",
    "C59_distinct",
    "C59_too_high",
    "C59_name_refuted"
   ],
   "note": "Texts modelled in Errors.v. Refuted: for an empty name or one which begins with a digit the text does not tell the name."
  },
  {
   "property": "C60",
   "status": "proved",
   "theorems": [
    "C60_read",
    "C60_same",
    "C60_converted",
    "C60_rejected",
    "C60_written",
    "C60_delimiter_refuted",
    "C60_keys_refuted"
   ],
   "note": "Refuted in the two exceptional cases: a line feed as delimiter of a string, and line feeds in the keys of a map."
  },
  {
   "property": "C61",
   "status": "proved",
   "theorems": [
    "C61_bound",
    "C61_no_brace",
    "C61_accepted",
    "C61_delimited",
    "C61_rejected_refuted",
    "C61_accepted_refuted",
    "C61_counting",
    "C61_chars",
    "C61_chars_bound",
    "C61_chars_accepted",
    "C61_chars_delimited"
   ],
   "note": "ParseCost.v counts the starts of kserd_delimited along the results of the modelled parsers; ParseWork.v is a parser which counts as it runs, both these starts and the characters looked at (C61_counting ties it to the parser). Copies of results, sorting of fields and entries and error texts are not counted. Exponential work: C61_rejected_refuted, C61_accepted_refuted."
  },
  {
   "property": "C62",
   "status": "proved",
   "theorems": [
    "C62_limit",
    "C62_bound",
    "C62_needed",
    "C62_tight",
    "C62_constant_refuted"
   ],
   "note": "C62_constant_refuted: nothing in the parser limits the nesting, so a text of 2n+4 characters overflows a stack which holds n calls; the frames of Rust's calls are counted, not measured in bytes."
  },
  {
   "property": "C63",
   "status": "proved",
   "theorems": [
    "C63_layouts",
    "C63_literal",
    "C63_as_str",
    "C63_data",
    "C63_empty_refuted",
    "C63_converse_refuted"
   ],
   "note": "From the round trips for every layout (C22, C34): both values are what the parser makes of the one text."
  },
  {
   "property": "C64",
   "status": "proved",
   "theorems": [
    "C64_fields",
    "C64_lines",
    "C64_last",
    "C64_entries",
    "C64_equal_keys_refuted",
    "C64_sections",
    "C64_sections_distinct",
    "C64_first_refuted",
    "C64_bare_refuted"
   ],
   "note": "For all texts of the grammars of C37 and C22; maps: keys which compare exactly (as C11)."
  },
  {
   "property": "C65",
   "status": "proved",
   "theorems": [
    "C65_same",
    "C65_unequal",
    "C65_nodes",
    "C65_node_texts",
    "C65_floats",
    "C65_equal_refuted",
    "C65_names_refuted",
    "C65_names"
   ],
   "note": "The standard library's choice of characters to escape and its text of an f64 are parameters; C65_floats shows that printing every digit meets what is asked of it. Refuted: equal Kserds need not print the same (ids, kinds of number); names the encoder accepts can make unequal Kserds print the same."
  },
  {
   "property": "C66",
   "status": "proved",
   "theorems": [
    "C66_again",
    "C66_root",
    "C66_entry",
    "C66_commute",
    "C66_last",
    "C66_ids",
    "C66_restore_refuted",
    "C66_history_refuted",
    "C66_wider_refuted",
    "C66_calls_only"
   ],
   "note": "Proved for all histories. Three stronger statements a user may expect are refuted by theorems."
  },
  {
   "property": "C67",
   "status": "proved",
   "theorems": [
    "C67_written",
    "C67_as_str",
    "C67_inline",
    "C67_tower",
    "C67_linear_refuted"
   ],
   "note": "C67_written and C67_as_str for every history and configuration, C67_inline for one line, C67_tower and C67_linear_refuted show that a linear bound is false; cases C67_case, C67_inline_case."
  },
  {
   "property": "C68",
   "status": "proved",
   "theorems": [
    "C68_cut",
    "C68_readings",
    "C68_written",
    "C68_added",
    "C68_truncated",
    "C68_number_refuted",
    "C68_id_refuted",
    "C68_verbose_refuted"
   ],
   "note": "C68_cut and C68_readings for all texts, C68_written for what formatters write, C68_added for additions; C68_truncated: verbose documents cut between fields are read as shorter ones; C68_number_refuted, C68_id_refuted and C68_verbose_refuted show that the exceptions are real."
  },
  {
   "property": "C69",
   "status": "proved",
   "theorems": [
    "C69_append",
    "C69_same_name_refuted",
    "C69_seq",
    "C69_tuple",
    "C69_map",
    "C69_cntr",
    "C69_verbose",
    "C69_word_refuted",
    "C69_verbose_text_refuted"
   ],
   "note": "C69_seq, C69_tuple, C69_map, C69_cntr and C69_verbose; C69_word_refuted shows that the condition on words is needed and C69_verbose_text_refuted that texts in the verbose layout cannot be put between brackets. C69_append: written documents one after another, with both outcomes; C69_same_name_refuted shows that the names have to be different."
  },
  {
   "property": "C70",
   "status": "proved",
   "theorems": [
    "C70_same_layout",
    "C70_layout",
    "C70_same_calls",
    "C70_as_str",
    "C70_one_line",
    "C70_width_refuted"
   ],
   "note": "C70_same_layout, C70_layout, C70_same_calls, C70_as_str and C70_one_line; C70_width_refuted shows that with a width limit a leaf of another width can change the layout around it."
  },
  {
   "property": "C71",
   "status": "proved",
   "theorems": [
    "C71_layout_kept",
    "C71_reads",
    "C71_as_str",
    "C71_tuple_refuted"
   ],
   "note": "C71_layout_kept, C71_reads and C71_as_str; C71_tuple_refuted shows that without the conditions an edit in one element of a tuple can make the text unreadable because of another element."
  },
  {
   "property": "C72",
   "status": "proved",
   "theorems": [
    "C72_renamed",
    "C72_layouts",
    "C72_as_str",
    "C72_refused_or_right",
    "C72_ids_refuted",
    "C72_struct_variant_refuted"
   ],
   "note": "C72_renamed, C72_layouts and C72_as_str; C72_ids_refuted shows that ids matter in each of the remaining cases, C72_struct_variant_refuted that the names of containers are needed for variants with named fields. C72_refused_or_right: without the names, under the weaker conditions of C78, the text is refused or decodes to the very value."
  },
  {
   "property": "C73",
   "status": "proved",
   "theorems": [
    "C73_order",
    "C73_equal",
    "C73_map",
    "C73_fields_refuted",
    "C73_enum_refuted"
   ],
   "note": "C73_order, C73_equal and C73_map; C73_fields_refuted and C73_enum_refuted show that the order changes when fields are not declared alphabetically and for enums."
  },
  {
   "property": "C74",
   "status": "proved",
   "theorems": [
    "C74_read",
    "C74_back",
    "C74_same",
    "C74_stripped",
    "C74_rejected",
    "C74_end",
    "C74_front",
    "C74_delimiter_refuted",
    "C74_text_refuted",
    "C74_front_refuted",
    "C74_cr_refuted"
   ],
   "note": "C74_read, C74_back, C74_same, C74_stripped, C74_rejected, C74_end and C74_front; C74_delimiter_refuted, C74_text_refuted, C74_front_refuted and C74_cr_refuted show that the conditions are needed."
  },
  {
   "property": "C75",
   "status": "proved",
   "theorems": [
    "C75_read",
    "C75_layouts",
    "C75_as_str",
    "C75_same",
    "C75_required_field",
    "C75_lost_variant",
    "C75_option_refuted",
    "C75_no_option_refuted",
    "C75_narrow_refuted"
   ],
   "note": "C75_read, C75_layouts, C75_as_str, C75_same (unchanged types: C75 contains C32), C75_required_field and C75_lost_variant; C75_option_refuted, C75_no_option_refuted and C75_narrow_refuted show changes which are not possible."
  },
  {
   "property": "C76",
   "status": "proved",
   "theorems": [
    "C76_kind",
    "C76_tells",
    "C76_floats",
    "C76_name",
    "C76_length",
    "C76_integer",
    "C76_large_refuted",
    "C76_float_refuted"
   ],
   "note": "C76_kind, C76_tells, C76_floats, C76_name, C76_length and C76_integer; C76_large_refuted and C76_float_refuted are findings. The texts of decoder.rs's own tests are examples in PropertiesDecErr.v."
  },
  {
   "property": "C77",
   "status": "proved",
   "theorems": [
    "C77_as_str",
    "C77_apply",
    "C77_write",
    "C77_write_enough",
    "C77_write_needs",
    "C77_bounds",
    "C77_parsed",
    "C77_constant_refuted"
   ],
   "note": "C77_as_str, C77_apply, C77_write, C77_write_enough, C77_write_needs, C77_bounds and C77_parsed; C77_constant_refuted is a finding."
  },
  {
   "property": "C78",
   "status": "proved",
   "theorems": [
    "C78_never_misread",
    "C78_refused_or_right",
    "C78_equal",
    "C78_as_str",
    "C78_fields",
    "C78_fields_refused_or_right",
    "C78_fields_equal",
    "C78_records",
    "C78_titles",
    "C78_titles_refused_or_right",
    "C78_titles_equal",
    "C78_any_width",
    "C78_nested_map_refuted",
    "C78_ids_refuted",
    "C78_injection_refuted"
   ],
   "note": "C78_never_misread, C78_refused_or_right, C78_equal and C78_as_str; C78_fields*, C78_records for containers with a line for each field; C78_titles* and C78_any_width for every layout; C78_ids_refuted, C78_injection_refuted and C78_nested_map_refuted are findings."
  },
  {
   "property": "C79",
   "status": "proved",
   "theorems": [
    "C79_decided",
    "C79_accepted_iff",
    "C79_fields_decided",
    "C79_titles_decided",
    "C79_titles_accepted_iff"
   ],
   "note": "C79_decided, C79_accepted_iff; for containers with a line for each field C79_fields_decided; for documents with titles C79_titles_decided and C79_titles_accepted_iff, under the conditions of C78_titles. The Examples give a value on each side of every condition."
  },
  {
   "property": "C80",
   "status": "proved",
   "theorems": [
    "C80_counting",
    "C80_layout",
    "C80_parsed",
    "C80_config",
    "C80_request",
    "C80_widths",
    "C80_fields",
    "C80_linear_refuted"
   ],
   "note": "FmtWork.v is the layout with a count of the nodes looked at; its results are those of the layout (C80_counting). Not counted: building the Navigator and the characters of names and primitives. C80_linear_refuted is a finding: the layout of a flat container is quadratic, because cntr_field_offset looks for the name of a field with nth."
  }
 ]
}