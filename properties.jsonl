{"id": "C01", "title": "Number comparison is antisymmetric and never panics", "statement": "For any two Numbers a and b, `a.cmp(&b)` returns (it never reaches the `unreachable!` arms) and `b.cmp(&a)` is the reverse ordering; `a.cmp(&a)` is Equal.", "quantifier": "every pair of Numbers: all u128, all i128, all f64 bit patterns including NaNs, infinities, subnormals and both zeros", "why_tests_cant": "2^128 x 2^128 x 2^64 operand space, the unreachable arms depend on exact float rounding behaviour", "anchors": ["/repo/src/ds/num.rs: impl Ord for Number, cmp_float_to_float, cmp_uint_to_int, cmp_float_to_uint, cmp_float_to_int"]}
{"id": "C02", "title": "Number order is the numeric order on ordinary numbers", "statement": "On Numbers whose floats are not -0.0, not a sign-negative NaN, and lie in the saturation free range, `cmp` is exactly the order of the mathematical values (with -inf smallest, +inf above all finite and NaN on top), hence transitive and total across Uint/Int/Float. Outside that range transitivity is false and a counterexample exists.", "quantifier": "all triples of ordinary Numbers (integers unbounded in u128/i128, floats any bit pattern in range)", "why_tests_cant": "transitivity ranges over triples of 128 bit values mixed with floats", "anchors": ["/repo/src/ds/num.rs: impl Ord for Number, float_bounds_uint, float_bounds_int"]}
{"id": "C03", "title": "Number equality is reflexive, and agrees with the order and is symmetric on exact numbers", "statement": "`n == n` for every Number including NaN. For Numbers whose floats are integers of magnitude at most 2^53 or further than 1e-10 from every integer (and not -0.0 or sign negative NaN), `a == b` iff `a.cmp(&b)` is Equal iff the mathematical values are equal. For all Numbers this agreement is false and counterexamples exist.", "quantifier": "all pairs of Numbers", "why_tests_cant": "operand space is astronomically large, tolerance and rounding corner cases", "anchors": ["/repo/src/ds/num.rs: impl PartialEq for Number, as_u128, as_i128, as_f64"]}
{"id": "C04", "title": "Float to integer conversion succeeds exactly within tolerance", "statement": "`as_u128` (resp. `as_i128`) on a float succeeds iff the float is finite (and >= 0 for u128) and less than 1e-10 away from an integer, and then returns that integer clamped to the target range; on Uint/Int it succeeds iff the value fits and returns it unchanged. The tolerance is the f64 nearest to 1e-10.", "quantifier": "every Number", "why_tests_cant": "must hold for all 2^64 floats and all 128 bit integers", "anchors": ["/repo/src/ds/num.rs: Number::as_u128, Number::as_i128"]}
{"id": "C05", "title": "Integer to float conversion is correctly rounded", "statement": "`as_f64` of any Uint or Int is a finite float nearest to the integer (ties to even), is exact for magnitude <= 2^53, and is monotone.", "quantifier": "every u128 and i128", "why_tests_cant": "2^128 inputs", "anchors": ["/repo/src/ds/num.rs: Number::as_f64"]}
{"id": "C06", "title": "Number text round trip", "statement": "`n.to_string().parse::<Number>()` succeeds for every Uint, Int and for every float which is not an integer of magnitude above 2^53, and gives back a Number of the same mathematical value: Uint n gives Uint n, Int n gives Uint n or Int n by sign, a non integral, infinite or NaN float gives the same float. A float of magnitude at least 2^128 fails to parse back and floats above 2^53 can change value: both exist as counterexamples.", "quantifier": "every Number", "why_tests_cant": "shortest float printing and parsing over all bit patterns; fuzzing only samples", "anchors": ["/repo/src/ds/num.rs: Display for Number, FromStr for Number"]}
{"id": "C07", "title": "Parsed numbers are in range", "statement": "Whatever the string, if it parses as a Number then a result without '.', exponent or letters is the exact decimal integer it spells, within u128 (or i128 when a leading '-'), and integers out of range are rejected rather than wrapped.", "quantifier": "every string", "why_tests_cant": "unbounded strings", "anchors": ["/repo/src/ds/num.rs: FromStr for Number"]}
{"id": "C08", "title": "Equal ordinary numbers hash equally", "statement": "For Numbers whose mathematical values are equal (excluding -0.0 and NaN), the hash input (bits of as_f64) is identical, so a HashMap keyed by Number finds 3, 3i8 and 3.0 under one key. The hash input is the IEEE 754 bit pattern of as_f64, so numbers with different as_f64 have different hash inputs.", "quantifier": "all pairs of Numbers of equal mathematical value", "why_tests_cant": "pairs over the full 128 bit space", "anchors": ["/repo/src/ds/num.rs: Hash for Number"]}
{"id": "C09", "title": "Kserd equality and order ignore identities at every depth", "statement": "Replacing, adding or removing ids anywhere in either tree changes neither `==` nor `cmp`.", "quantifier": "all pairs of Kserd trees and all id assignments", "why_tests_cant": "unbounded tree depth and width", "anchors": ["/repo/src/ds/kserd.rs: impl PartialEq, impl Ord", "/repo/src/ds/val.rs: impl PartialEq for Value"]}
{"id": "C10", "title": "Kserd order is a total order on ordinary data", "statement": "`cmp` on Kserds orders by kind first (unit, bool, number, text, byte array, tuple, container, sequence, map), then false before true, numbers as in C02, texts and byte arrays lexicographically by scalar value and byte, tuples and sequences lexicographically (a proper prefix comes first), containers lexicographically by name then value and maps by key then value. `cmp` on Kserds is reflexive and antisymmetric for all trees, and transitive when all numbers in the trees are ordinary; so BTreeMaps keyed by Kserds are well behaved.", "quantifier": "all pairs / triples of Kserd trees", "why_tests_cant": "unbounded nesting, induction over trees needed", "anchors": ["/repo/src/ds/kserd.rs: impl Ord", "/repo/src/ds/val.rs: derive(Ord) for Value"]}
{"id": "C11", "title": "Kserd equality is reflexive; agrees with the order on exact data without empty tuples or containers", "statement": "`k == k` for every Kserd; for trees with exact numbers in which no empty Tuple faces an empty Cntr, `a == b` iff `a.cmp(&b)` is Equal. An empty Tuple equals an empty Cntr although cmp is not Equal.", "quantifier": "all pairs of Kserd trees", "why_tests_cant": "unbounded trees", "anchors": ["/repo/src/ds/val.rs: impl PartialEq for Value", "/repo/src/ds/kserd.rs: impl PartialEq"]}
{"id": "C12", "title": "Container and map constructors: sorted, last binding wins", "statement": "`new_cntr`/`new_map` produce strictly sorted maps which contain for each key the last value given for it, and no other key. `new_cntr` fails iff some given name is empty, starts with an ASCII digit, or contains one of space / \\ double-quote tab single-quote.", "quantifier": "all finite lists of entries in any order with duplicates", "why_tests_cant": "unbounded lists, all permutations", "anchors": ["/repo/src/ds/val.rs: Value::new_cntr, Value::new_map, InvalidFieldName::validate"]}
{"id": "C13", "title": "with_id accepts exactly the ids free of reserved characters", "statement": "`Kserd::with_id(id, v)` is Ok iff id has none of the 14 reserved characters, and then the result has that id and value unchanged. The constructors give the name of the Rust type as id (i8, usize, f64, bool, str, String, barr, ByteVec; none for unit), ids which with_id accepts, and keep the value.", "quantifier": "all strings and values", "why_tests_cant": "unbounded strings", "anchors": ["/repo/src/ds/kserd.rs: Kserd::with_id, INVALID", "/repo/src/ds/kserd.rs: new_unit, new_bool, new_num, new_str, new_string, new_barr, new_barrv"]}
{"id": "C14", "title": "clone, into_owned and mk_brw preserve the tree", "statement": "On every Kserd, `clone`, `into_owned` and `mk_brw` give a Kserd with the same id and same contents at every node (given that its maps are ordered as BTreeMaps are).", "quantifier": "all Kserd trees", "why_tests_cant": "unbounded trees; into_owned and mk_brw rebuild maps by re-insertion", "anchors": ["/repo/src/ds/val.rs: into_owned, mk_brw, Clone", "/repo/src/ds/kserd.rs: into_owned, mk_brw, Clone"]}
{"id": "C15", "title": "Byte array text encoding round trips and stays inside its quotes", "statement": "For every byte array, decoding the base91 encoding gives the bytes back, the encoding contains no quote, newline or other non alphabet character, so `b91'...'` parses back to exactly the byte array.", "quantifier": "all byte arrays of any length", "why_tests_cant": "unbounded length, bit-level carry state", "anchors": ["/repo/src/fmt/prims.rs: fmt_byte_array", "/repo/src/parse/prims.rs: barr"]}
{"id": "C16", "title": "String text round trip", "statement": "For every string which leaves at least one of the 20 candidate delimiters unused, the formatter writes text which the string parser reads back to exactly the same string, whatever follows; a string using all delimiters makes the formatter panic.", "quantifier": "all strings over all Unicode scalars, every continuation", "why_tests_cant": "unbounded strings; delimiter search", "anchors": ["/repo/src/fmt/prims.rs: fmt_str, Used", "/repo/src/parse/prims.rs: string, parse_str"]}
{"id": "C17", "title": "Parsing is total", "statement": "`parse(s)` returns Ok or Err on every input: it never panics and always terminates (with recursion no deeper than the input length).", "quantifier": "every string", "why_tests_cant": "unbounded adversarial input", "anchors": ["/repo/src/parse/mod.rs: parse", "/repo/src/parse/mod.rs: parse, kserd_root, kserd_nested, kserd_delimited", "/repo/src/parse/prims.rs: prim", "/repo/src/parse/list.rs: tuple, seq_delimited", "/repo/src/parse/cntr.rs: delimited, verbose", "/repo/src/parse/map.rs: delimited"]}
{"id": "C18", "title": "Parsed values are well formed", "statement": "If parse succeeds then every id and field name in the tree contains only the characters the grammar allows, every Cntr is strictly sorted, every Map whose keys contain no numbers is strictly sorted, all integers are within range.", "quantifier": "every string", "why_tests_cant": "unbounded input", "anchors": ["/repo/src/parse/mod.rs: parse", "/repo/src/parse/names.rs: valid_name, ident, field_name", "/repo/src/parse/cntr.rs: delimited, verbose", "/repo/src/parse/map.rs: delimited"]}
{"id": "C19", "title": "Parse errors point into the input", "statement": "If parse fails then the error has at least one trace; every trace offset is a position within the input at a character boundary; `get(i)` is Some iff i < len; line and column are those of the offset, and `backtrace` never panics. The backtrace is the text of the traces, numbered from 0 in their order, each with its message, line, column, the line's text and a caret; the column counts bytes. The traces go from the place of the error outwards: none is further on in the text than those before it. For a document which begins with a round or curly bracket the last trace says what the bracket was taken to open, right after the bracket, unless there is text after the closing one. A document which begins with a title that is not closed is refused with one trace for the place where the closing brackets were expected and one for the title. For a string which begins the document and is not closed, the first trace asks for the closing quote at the end of the document. The same holds for byte arrays and for strings with a quote of their own (str'...). For an identity in angle brackets which is not closed right behind its name the first trace asks for the closing bracket there and the second points to the opening one. A document which is one word that is no value is refused, and every trace points to its beginning. A sequence, tuple, container or map with a closing bracket of another kind where its own belongs is refused: the first trace asks for the right bracket there, the second says what was being read. When it is not closed at all, the first trace asks for the bracket at the end of the document. Text behind a value is refused with a single trace, which points to it. For a line `name = word` whose word is no value the last trace points to the name and the others to the word. A line of the verbose layout without an equals sign behind its first word is refused: the first trace asks for the equals sign, the second points to the line. A document which begins with a colon and no name behind it is refused with a single trace, which points to its beginning.", "quantifier": "every failing input, every index", "why_tests_cant": "unbounded input, all failure points", "anchors": ["/repo/src/parse/err.rs: Error, Trace", "/repo/src/parse/names.rs: ident, valid_name", "/repo/src/parse/prims.rs: string, barr"]}
{"id": "C20", "title": "Inline format then parse gives back the value", "statement": "For every Kserd and every history of the Formatter which leaves all nodes inline, whichever ids are shown: if ids and field names are words of the format, every string has a free delimiter which can follow `str`, a bare inf or NaN is not the last thing before a bracket, no tuple with a hidden id stands right behind an opening bracket and the document does not look like the verbose layout, then the text is read, and what is read is a known function of the input: hidden ids are lost, a unit with an id becomes an empty tuple, numbers are read anew. If moreover units have no id, numbers are exact and empty tuples have an id which is shown and containers are not empty, what is read equals the input. Outside of these conditions there are counterexamples.", "quantifier": "all Kserd trees of any depth and size under the stated conditions; all formatter histories and id flags", "why_tests_cant": "unbounded trees, arbitrary string content adjacent to arbitrary syntax", "anchors": ["/repo/src/fmt/mod.rs: write_node", "/repo/src/fmt/prims.rs: write", "/repo/src/fmt/tuples.rs: write", "/repo/src/fmt/seqs.rs: write", "/repo/src/fmt/cntr.rs: write", "/repo/src/fmt/maps.rs: write", "/repo/src/parse/mod.rs: parse"]}
{"id": "C21", "title": "Format then parse gives back the value for any mix of inline and concise nodes", "statement": "As C20 for any assignment of inline and concise to the nodes which the Formatter allows: under the same conditions the text is read and gives the same function of the input, equal to the input under the same further conditions, and the very same Kserd when all ids are shown and numbers are of the kind their text is read as. For every width limit as_str_with_config of a value which is not a container has such a layout. Conditions on the value alone which are enough for every layout: ids and names are words, numbers finite and exact, strings with such a delimiter, no empty containers and no units with ids. Outside of these conditions there are counterexamples.", "quantifier": "all Kserd trees under the stated conditions and all layouts without verbose nodes", "why_tests_cant": "unbounded trees times exponential number of layouts", "anchors": ["/repo/src/fmt/mod.rs: write_node", "/repo/src/fmt/prims.rs: write", "/repo/src/fmt/tuples.rs: write", "/repo/src/fmt/seqs.rs: write", "/repo/src/fmt/cntr.rs: write", "/repo/src/fmt/maps.rs: write", "/repo/src/parse/mod.rs: parse"]}
{"id": "C22", "title": "Format then parse gives back the value for any layout", "statement": "As C20 for any layout, verbose nodes included, under the conditions of C21 and these: the first line of a verbose container shows that it is one (its id, or a field; a section as first field needs a name which is a word and a container without a shown id); a bare inf or NaN is not followed by a title; in a sequence below a title the verbose elements are containers which do not begin with a name like `string`; maps stand below titles only in the outermost container, with inline keys. The text is read, the result is a known function of the input (as in C20, and the ids of sequences and maps below titles are lost) and equals the input under the conditions of C20. as_str_with_config with any width limit under conditions on the value alone. Where one of these conditions fails there are counterexamples: the text is rejected or read as another value.", "quantifier": "all Kserd trees under the stated conditions, all layouts, all configurations", "why_tests_cant": "unbounded trees, indentation sensitive grammar", "anchors": ["/repo/src/fmt/cntr.rs: write", "/repo/src/fmt/seqs.rs: write", "/repo/src/fmt/maps.rs: write", "/repo/src/parse/cntr.rs: verbose"]}
{"id": "C23", "title": "When formatting panics", "statement": "Formatter::new and inline/concise/verbose/id never panic, on any history. write panics if and only if some string uses all twenty delimiters. apply_config on a new Formatter panics if and only if some map which the width limit makes a section (it and every value around it are too wide even on several lines where they start) has a key which is a non-empty container, sequence or map and is itself too wide on several lines at the column of the section; as_str and as_str_with_config panic for these two reasons and no other. So they return whenever no string uses all delimiters and no key is a non-empty container, sequence or map, or the root is not a container, or there is no width limit; apply_config on a Formatter with any history returns under the same condition. The default as_str can panic: a counterexample exists.", "quantifier": "all Kserd trees, formatter histories and configurations", "why_tests_cant": "unbounded trees and limits; relies on representation invariants across modules", "anchors": ["/repo/src/fmt/mod.rs: as_str_with_config", "/repo/src/fmt/formatter.rs: Formatter", "/repo/src/fmt/solver.rs: apply_config"]}
{"id": "C24", "title": "Inline output is a single line", "statement": "When every node is Inline, the output contains a newline only if one of the strings, ids or field names in the tree contains one.", "quantifier": "all Kserd trees", "why_tests_cant": "unbounded trees", "anchors": ["/repo/src/fmt/mod.rs: write_node", "/repo/src/fmt/prims.rs: write", "/repo/src/fmt/tuples.rs: write", "/repo/src/fmt/seqs.rs: write", "/repo/src/fmt/cntr.rs: write", "/repo/src/fmt/maps.rs: write"]}
{"id": "C25", "title": "Formatter representation invariant", "statement": "After any sequence of Formatter operations (inline, concise, verbose, apply_config, id), successful or failed: no node is shown in a larger representation than its parent, primitives and empty nodes are Inline, tuples are at most Concise, a root which is not a container is not Verbose.", "quantifier": "all Kserd trees and all finite operation sequences with any indices and configs", "why_tests_cant": "unbounded histories", "anchors": ["/repo/src/fmt/formatter.rs: Formatter"]}
{"id": "C26", "title": "Formatter requests: success condition and effect", "statement": "`inline(i)`, `concise(i)`, `verbose(i)` report success iff the node exists and the requested representation is allowed by kind and ancestors; on success node i has the requested representation, its descendants are lowered to at most it and no other node changes; on failure nothing changes.", "quantifier": "all trees, indices and prior histories", "why_tests_cant": "unbounded histories", "anchors": ["/repo/src/fmt/formatter.rs: inline, concise, verbose, request_repr_alteration"]}
{"id": "C27", "title": "Writing appends to the buffer", "statement": "`write_string(buf)` leaves what was already in buf untouched as a prefix and the appended text does not depend on it, provided no Tuple has an id that is not shown. With such a tuple the formatter deletes a character of earlier output: a counterexample exists.", "quantifier": "all trees, formats and buffer contents", "why_tests_cant": "unbounded", "anchors": ["/repo/src/fmt/formatter.rs: write_string", "/repo/src/fmt/tuples.rs: write"]}
{"id": "C28", "title": "Estimated inline width is the printed width", "statement": "The solver's inline width of a node differs from the number of characters printed for it inline by a sum over its nodes which is known from each node alone: the marks of a missing id, the escapes of the characters of a string, the prefix of a string with quotes, byte arrays, the spaces of a map, a named unit, the space after the id of a tuple. Where no node has such a difference the two are equal; in general they are not and counterexamples exist.", "quantifier": "all Kserd trees without empty ids, unwritable strings or tuples whose id is not shown", "why_tests_cant": "unbounded trees", "anchors": ["/repo/src/fmt/solver.rs: inline_width, inline_widths"]}
{"id": "C29", "title": "Navigator indexes every node once in depth first order", "statement": "`Navigator::new(k)` has one node per Kserd in the tree (map keys included), node 0 is the root, `get(i)` is Some iff i < len, node i's kserd is the i-th in depth first order with keys before their values, and `index()` of node i is i.", "quantifier": "all Kserd trees", "why_tests_cant": "unbounded trees; explicit stack loop", "anchors": ["/repo/src/nav/navigator.rs: Navigator::new, get, len, nodes", "/repo/src/nav/node.rs: index, kserd"]}
{"id": "C30", "title": "Navigator links are consistent", "statement": "For every node: parent is None iff it is the root; node c is among the value or key children of p iff parent(c) = p; children lists are in data order; is_key holds iff the node is a map key; idx_in_parent is the position among siblings; following `value()` visits exactly the children.", "quantifier": "all Kserd trees and node pairs", "why_tests_cant": "unbounded trees", "anchors": ["/repo/src/nav/node.rs: Node", "/repo/src/nav/value.rs: NodeValue", "/repo/src/nav/navigator.rs: Navigator"]}
{"id": "C31", "title": "Descendant iterators are complete and duplicate free", "statement": "`descendants_depth` of node i yields exactly nodes i+1 .. i+s-1 in order where s is the size of its subtree; `descendants_breadth` yields the same set, each once, in level order (keys of a map before its values).", "quantifier": "all Kserd trees and nodes", "why_tests_cant": "unbounded trees; worklist algorithms", "anchors": ["/repo/src/nav/node.rs: descendants_depth, descendants_breadth"]}
{"id": "C32", "title": "Encoding then decoding is the identity", "statement": "For every value of every type built from unit, bool, integers, floats, char, String, Option, tuples, Vec, maps, unit/newtype/tuple/named structs and enums, recursive declarations included (but no struct named Some or None in a shape which clashes with Option: these fail, counterexample), encoding with the Encoder succeeds and decoding at the same type gives back a value of the type. It is the value which was encoded exactly when in every map inside it no two keys encode to Kserds which compare equal (so in particular when no enum value is in a map key) and every f32 inside it survives the way through f64 (C43). A map two of whose keys compare equal loses entries (counterexample).", "quantifier": "all such types and all their values", "why_tests_cant": "infinite family of types and values", "anchors": ["/repo/src/encode/encoder.rs: Encoder", "/repo/src/encode/decoder.rs: Decoder"]}
{"id": "C33", "title": "Integer decoding never wraps", "statement": "Decoding a number at an integer type of less than 128 bits succeeds iff the number converts to an integer (as in C04) within the type's range and gives that integer; otherwise it is an error; nothing but a number is decoded as an integer. At u128 and i128 the same for all numbers within the range of the type; a float beyond it saturates to the limit of the type (counterexample).", "quantifier": "all Numbers and all integer types", "why_tests_cant": "full 128 bit space", "anchors": ["/repo/src/encode/decoder.rs: de_integer"]}
{"id": "C34", "title": "Encode, format, parse, decode end to end", "statement": "For values of the types of C32 for which encoding is injective on map keys, decode(parse(format(encode v))) = v for every layout, under the conditions of C22 on the encoded value, if the ids of tuples and containers which the decoder needs are shown and no number is -0.0; in the inline and concise layouts and for as_str_with_config with any width limit under conditions on the encoded value alone. Values which do not survive the default configuration exist (counterexamples): [[1]], [true], 2^128 as a float, empty tuples and empty struct variants, a string which uses all delimiters. With far weaker conditions (those of C78; any strings with a clear delimiter, inf and NaN, any neighbours) a value is never silently replaced by another: its text is either refused by the parser or decodes to the value that was encoded.", "quantifier": "all such types and values and all layouts", "why_tests_cant": "composition over unbounded trees and layouts; the existing fuzz tests only sample", "anchors": ["/repo/tests/decoding.rs", "/repo/src/encode/encoder.rs: Encoder", "/repo/src/encode/decoder.rs: Decoder", "/repo/src/fmt/mod.rs: as_str", "/repo/src/parse/mod.rs: parse"]}
{"id": "C35", "title": "ToKserd conversions keep content", "statement": "`into_kserd` never fails for the provided implementations over plain data and keeps numeric values (those of an f32 by its decimal text), characters, strings, element order and count; Box and Some are transparent, None/Ok/Err are tagged by id. No information is lost: different values of a type become different Kserds, if the type has no Option of an Option or Kserd and apart from the bits of an f32 NaN. The id names the type or the variant.", "quantifier": "all values of all types built with the provided implementations", "why_tests_cant": "infinite family of types", "anchors": ["/repo/src/to_kserd.rs: ToKserd"]}
{"id": "C36", "title": "Accessors answer by kind", "statement": "Each accessor (`unit`, `bool`, `ch`, `uint`, `int`, `float`, `str`, `barr`, `tuple`, `cntr`, `seq`, `tuple_or_seq`, `map`) returns the content iff the value is of that kind, and an Accessor's get_x(name) is Some iff a field of that name exists and has the kind; lookup finds exactly the field bound in the container.", "quantifier": "all values and all field names", "why_tests_cant": "unbounded values; map lookups", "anchors": ["/repo/src/ds/val.rs: impl Value, Accessor"]}
{"id": "C37", "title": "Blanks between tokens do not matter", "statement": "Adding spaces or tabs around delimiters, separators, '=' and ':' in inline or concise text does not change what is parsed; every text the grammar gives to a value is read as that value, and a text stands for one value. (A trailing comma is rejected.)", "quantifier": "all inline and concise texts of the grammar, all values, all amounts of blank space", "why_tests_cant": "unbounded", "anchors": ["/repo/src/parse/wsp.rs: inline_whitespace, multiline_whitespace, ignore_inline_whitespace", "/repo/src/parse/list.rs: tuple, seq_delimited", "/repo/src/parse/cntr.rs: delimited, verbose", "/repo/src/parse/map.rs: delimited"]}
{"id": "C38", "title": "Id flags change only ids", "statement": "Two texts of the same value, made with different layouts, or with different configurations (ids shown or hidden by kind, width limits), are read as equal Kserds, under the conditions under which each of them is read back (C21, C22).", "quantifier": "all text-safe trees and all pairs of id flag settings", "why_tests_cant": "unbounded trees", "anchors": ["/repo/src/fmt/mod.rs: FormattingConfig", "/repo/src/fmt/formatter.rs: id, apply_config"]}
{"id": "C39", "title": "apply_config obeys the requested layout", "statement": "apply_config sets the id flag of every node to that of its kind; with no width limit every node becomes inline; if the solver's inline and concise estimates of the root fit the limit the result is the same as without a limit. A document whose inline text fits the limit is not always written inline: a counterexample exists.", "quantifier": "all trees, formatter histories and configurations", "why_tests_cant": "unbounded trees and limits", "anchors": ["/repo/src/fmt/solver.rs: apply_config"]}
{"id": "C40", "title": "Encoding is total and gives valid Kserds", "statement": "Every value of the type universe whose struct and variant names are identifiers is encoded without error; in the result the fields of containers and the entries of maps are sorted and free of duplicates, numbers are in range, and map keys are ordinary (no NaN, no -0.0).", "quantifier": "all types, declarations (recursive ones included) and values", "why_tests_cant": "infinite family of types and values", "anchors": ["/repo/src/encode/encoder.rs: Encoder", "/repo/src/encode/mod.rs: Kserd::enc"]}
{"id": "C41", "title": "Structs decode by field name", "statement": "Decoding a named struct from a container succeeds exactly when every field whose name is present decodes and every absent one is an Option (then None); the order of the entries, the container's id and entries with other names do not matter.", "quantifier": "all struct declarations and all containers", "why_tests_cant": "ranges over all containers and nested types", "anchors": ["/repo/src/encode/decoder.rs: deserialize_any", "/repo/src/encode/decoder.rs: struct_variant"]}
{"id": "C42", "title": "Tuples decode element by element", "statement": "Decoding a tuple succeeds exactly when there are enough elements and each decodes at its type, and gives them in order; a tuple variant additionally needs exactly as many elements as it declares.", "quantifier": "all tuple types, enums and Kserd tuples", "why_tests_cant": "ranges over all tuples and nested types", "anchors": ["/repo/src/encode/decoder.rs: deserialize_any", "/repo/src/encode/decoder.rs: tuple_variant"]}
{"id": "C43", "title": "f32 values survive being Numbers", "statement": "Number::from(x) for an f32 x never panics, is finite, infinite or NaN as x is, is printed exactly as x is, is nearer to x than to any other f32, and casting it back gives x unless the f64 is exactly half way to another f32 (where ties can move it, a documented counterexample); no two f32s become the same Number, apart from NaNs; encoding and decoding an f32 does the same.", "quantifier": "all f32 bit patterns", "why_tests_cant": "all 2^32 f32 and decimal/binary double rounding; exceptions are extremely rare", "anchors": ["/repo/src/ds/num.rs: f32_to_f64", "/repo/src/ds/num.rs: From<f32> for Number", "/repo/src/encode/encoder.rs: serialize_f32", "/repo/src/encode/decoder.rs: deserialize_f32"]}
{"id": "C44", "title": "Decoding accepts exactly what each type allows", "statement": "For every type, decoding a Kserd succeeds exactly when the type's rule allows that Kserd, with exactly the value of the rule: unit from unit only, a char from a one-character text only, a String from a text or from bytes which are valid UTF-8, a Vec from a sequence or tuple all of whose items decode, an Option from unit, None() or Some(x), an enum from a Kserd whose id is a variant name and whose content fits the variant, a struct from a container by names, from a map keyed by texts or indices, or from a sequence in order. Everything else is an error and never a wrong value or a panic.", "quantifier": "all types built from the declarations, all Kserds and all values", "why_tests_cant": "the product of all types and all Kserds is infinite, and acceptance of ill-formed input is what tests usually miss", "anchors": ["/repo/src/encode/decoder.rs: deserialize_any", "/repo/src/encode/decoder.rs: deserialize_char", "/repo/src/encode/decoder.rs: deserialize_unit_struct", "/repo/src/encode/decoder.rs: unit_variant", "/repo/src/encode/decoder.rs: newtype_variant_seed", "/repo/src/encode/decoder.rs: struct_variant"]}
{"id": "C45", "title": "The layout chosen for a width limit", "statement": "A new Formatter gives every value the largest form its kind, its place and its parent allow. apply_config then gives the root and every entry of a multi-line value the form which its estimated widths ask for at its column (inline if both estimates fit in what is left of the limit, concise if only the concise one does, else verbose), no larger than its kind and its parent allow; a container in a verbose list is never concise; limit 0 keeps the largest forms everywhere. If the concise estimate of the document is within the limit and map keys are single tokens, no line of the text is longer than the limit plus the characters the estimates leave out (none for most values). The columns are not always those of the text, so that a line can be too long although a larger form would fit (counterexamples). With the default configuration as_str shows the ids of tuples and containers only and writes one line if and only if both estimates are at most 60 or the value cannot be on several lines.", "quantifier": "all Kserds, all configurations and limits, all nodes", "why_tests_cant": "the decisions depend on widths at every depth and on the decisions above; all trees and all limits are infinitely many", "anchors": ["/repo/src/fmt/formatter.rs: Formatter::new", "/repo/src/fmt/formatter.rs: Formatter::apply_config", "/repo/src/fmt/solver.rs: apply_config", "/repo/src/fmt/solver.rs: calculate_offset", "/repo/src/fmt/solver.rs: min_line_repr", "/repo/src/fmt/mod.rs: FormattingConfig::default"]}
{"id": "C46", "title": "Nothing but the format is accepted", "statement": "If a text is accepted, then the text from its first to its last character is a text of the format for the value it is read as: a value in the inline or concise layout between blanks, or the items of a verbose container with their indents. Nothing is skipped and nothing is left over, no bracket, comma, colon or quote may be missing. Every id, string and field name of the value stands in the text letter for letter, and the value has no more nodes than the text has characters. Fields of a verbose container need nothing between them (counterexample).", "quantifier": "all texts and the values they are read as", "why_tests_cant": "a parser which accepts too much, skips input or invents data does so on inputs nobody thought of", "anchors": ["/repo/src/parse/mod.rs: parse", "/repo/src/parse/mod.rs: kserd_root", "/repo/src/parse/cntr.rs: verbose", "/repo/src/parse/list.rs: seq_delimited", "/repo/src/parse/map.rs: delimited", "/repo/src/parse/prims.rs: prim"]}
{"id": "C47", "title": "Exactly which texts are accepted", "statement": "A text is accepted as a value if and only if the syntax says that it stands for that value, and it is rejected with an error if and only if it stands for no value. The syntax is a grammar for the whole format in all layouts: primitives, ids, inline and concise lists, containers and maps, verbose containers with titles, indents and map entries; with the conditions on what follows a text (a number goes on as long as there are characters of numbers, a name in front of a bracket is an id, an element whose text starts with a key is an entry). The syntax is not ambiguous: a text stands for one value at most, and in front of a given text a value ends in one place at most.", "quantifier": "all texts and all values", "why_tests_cant": "both directions range over all texts: the accepted ones, and the rejected ones", "anchors": ["/repo/src/parse/mod.rs: parse", "/repo/src/parse/mod.rs: kserd_root", "/repo/src/parse/mod.rs: kserd_nested", "/repo/src/parse/heuristics.rs: pattern_match_delimited", "/repo/src/parse/cntr.rs: verbose", "/repo/src/parse/cntr.rs: verbose_cntr_field", "/repo/src/parse/list.rs: seq_delimited", "/repo/src/parse/map.rs: delimited", "/repo/src/parse/prims.rs: prim"]}
{"id": "C48", "title": "Mutable access changes what it points to and nothing else", "statement": "Each accessor which ends in _mut answers in the same cases and shows the same content as its counterpart which does not. What was written through it is read back, writing what is there changes nothing, and the kind of the value stays. A chain of mutable accessors (elements of tuples and sequences, fields, entries of maps, to any depth) arrives where the chain of immutable ones does. A write there replaces that one value: every other value, id, field name, map key and the order of elements, fields and entries stay as they were. Of two writes to one place the last counts. Writes to places of which neither is inside the other do not affect each other and can be done in either order. Fields and maps stay in ascending order.", "quantifier": "all values, all accessors, all chains of accessors of any length, everything which can be written", "why_tests_cant": "a test writes to one place and looks at a few others; the claim is about every other place of every value", "anchors": ["/repo/src/ds/val.rs: bool_mut, num_mut, str_mut, barr_mut, tuple_mut, cntr_mut, seq_mut, tuple_or_seq_mut, map_mut", "/repo/src/ds/val.rs: Accessor::get_bool_mut ... get_map_mut", "/repo/src/ds/kserd.rs: DerefMut for Kserd", "/repo/src/ds/kstr.rs: to_mut", "/repo/src/ds/barr.rs: to_mut"]}
{"id": "C49", "title": "What is not shown has no influence on the text", "statement": "Two values which have the same kinds, field names and contents, the same ids wherever the configuration shows ids, and numbers with the same texts, are written as the same text: the same layout, the same line breaks, the same indents. Ids which are not shown and the number type do not influence the layout, whatever the width limit. (Tuples are the exception: an id which is not shown leaves a trace.)", "quantifier": "all configurations, all pairs of values of any size", "why_tests_cant": "the layout is the result of a solver over the whole tree; a hidden id could change a width anywhere", "anchors": ["/repo/src/fmt/mod.rs: as_str_with_config", "/repo/src/fmt/formatter.rs: Formatter::apply_config, Formatter::write", "/repo/src/fmt/solver.rs: inline_widths, concise_widths"]}
{"id": "C50", "title": "Reading a text and writing the value gives the text back", "statement": "When a value is written with some configuration and the text is read, writing the value which was read with the same configuration gives the very same text: formatting is idempotent, as with a code formatter. In the inline and concise layouts for all values whose text can be read back; in the verbose layout if sequences and maps have no id which is shown (titles have no room for it). With another width limit, the value which was read is written like the first one, too. Whatever text of a value is accepted at all, and is not one of the texts which are misread (C78), is written again as it was, whatever strings are in it.", "quantifier": "all values whose text can be read back, all configurations and width limits", "why_tests_cant": "the layout must come out the same although ids and number types are lost in between", "anchors": ["/repo/src/fmt/mod.rs: as_str_with_config", "/repo/src/parse/mod.rs: parse", "/repo/src/ds/num.rs: FromStr for Number", "/repo/src/ds/num.rs: Display for Number"]}
{"id": "C51", "title": "Rewriting a document keeps its value", "statement": "Take any text which can be read, whoever wrote it and however it is laid out. The value which was read is written with a configuration of the user's choice; that text is read as an equal value, and writing that value again, with any width limit, gives the same text as the first value does. So a tool which reads documents and writes them in another layout loses nothing, and running it again changes nothing. Excluded are documents with values which have no text of their own: units with ids, empty containers, empty names, ids which start with true or false, numbers which are not exact or infinite, and sequences which look like verbose titles. Documents which also hold inf, NaN or strings of any kind with a clear delimiter are, once rewritten, either refused or read as an equal value; they never become another value.", "quantifier": "all texts which are read as a document of this kind, all configurations and width limits", "why_tests_cant": "there are infinitely many texts and layouts for each value; tests reformat a few samples", "anchors": ["/repo/src/parse/mod.rs: parse", "/repo/src/fmt/mod.rs: Kserd::as_str_with_config, Formatter::apply_config, Formatter::write_string"]}
{"id": "C52", "title": "The provided conversions and serde agree", "statement": "A value of a type with a provided ToKserd conversion (numbers, char, text, tuples, arrays, Vec, Box, Option, Result, nested in any way) converts to a Kserd which decodes, at the same type, to the value, provided it holds no Some. If it holds no array either, encoding it with serde gives the same Kserd apart from ids, so the two compare equal. Some is dropped by the conversion: what Some(x) converts to never decodes as Some. An array converts to a sequence but encodes as a tuple, and the two are not equal.", "quantifier": "all types and values with provided conversions, all declarations of the enum that serde sees for Result", "why_tests_cant": "the types nest without bound and every combination has its own pair of conversions; tests convert a few values and never decode them", "anchors": ["/repo/src/to_kserd.rs: ToKserd impls", "/repo/src/encode/mod.rs: Kserd::enc, Kserd::decode", "/repo/src/encode/encoder.rs: Encoder", "/repo/src/encode/decoder.rs: Decoder"]}
{"id": "C53", "title": "Owned and borrowed data", "statement": "A Kserd holds its texts and bytes owned or borrowed. into_owned gives the same Kserd with everything owned, mk_brw the same with everything borrowed, and clone keeps both. Decoding to a type without references does not depend on ownership. Decoding to a type with &str or &[u8] never gives another value than the same type with String and byte buffers; it gives the same value when all data is borrowed, as it is after mk_brw and in a text which was read (byte arrays aside), so that encode, mk_brw, decode gives a value with &str fields back. &str and &[u8] are decoded exactly from borrowed text and borrowed bytes. The names of a container cannot be decoded as &str, not even after mk_brw, and bytes which were read cannot be decoded as &[u8].", "quantifier": "all Kserds with any mix of owned and borrowed data, all declarations and types, all texts", "why_tests_cant": "the outcome depends on the ownership of every leaf of the tree and on the type; tests decode single strings", "anchors": ["/repo/src/ds/kstr.rs: Kstr", "/repo/src/ds/barr.rs: Barr", "/repo/src/ds/kserd.rs: Kserd::into_owned, Kserd::mk_brw", "/repo/src/ds/val.rs: Value::into_owned, Value::mk_brw", "/repo/src/encode/decoder.rs: Decoder", "/repo/src/parse/prims.rs: string, barr", "/repo/src/encode/encoder.rs: serialize_str, serialize_bytes"]}
{"id": "C54", "title": "Navigator iterators, call by call", "statement": "For every node of a navigator and however often next is called: value() is an iterator over exactly the items of the node's data in order - elements, (name, value) pairs or (key, value) pairs - each item being the child at that place of the tree with its own name or key; value_children() and key_children() give the nodes their names say; nodes() gives every Kserd of the tree once. After the last item every further call gives None, and len and is_empty are right after every call. A navigator is never empty. Two nodes compare as equal iff they are the same place of the same navigator, whatever data they hold.", "quantifier": "all Kserds, all nodes of their navigators, all numbers of calls of next", "why_tests_cant": "must hold after any number of calls for trees of any shape; tests collect the iterators of a few trees", "anchors": ["/repo/src/nav/navigator.rs: Navigator::nodes, Navigator::len, Navigator::is_empty, NodeIter", "/repo/src/nav/node.rs: Node::value, Node::value_children, Node::key_children, PartialEq", "/repo/src/nav/value.rs: SeqIter, NamedIter, KeyedIter"]}
{"id": "C55", "title": "The encoder under any Serialize implementation", "statement": "Whatever calls an implementation of Serialize makes on the Encoder, including going on after errors: the Encoder never panics and a result is a valid Kserd. A sequence or tuple has exactly the elements which were serialised without an error, in order; a struct has for each name the last value given; a map has for each key the last value given. Names are checked before the fields are serialised for tuple structs, structs and variants of that shape, and after the content for newtypes. serialize_value without a key fails with NoKeyAvailable and is the only cause of that error. Derived implementations run call by call give what the model of C32 and C40 says. Not so: a key without a value is silently dropped; after a failed value its key is gone; field names are not checked. A single call of a primitive method gives the primitive with the id of its type.", "quantifier": "all implementations of Serialize: every tree of calls which depends on the outcomes of earlier calls, of any depth and breadth", "why_tests_cant": "the implementations are arbitrary code of the user; tests run derived ones on a few types", "anchors": ["/repo/src/encode/encoder.rs: Encoder, SeqLike, TupleLike, MapLike, CntrLike, Error"]}
{"id": "C56", "title": "Decimal texts are read as the nearest float and floats are written in the fewest digits", "statement": "Every text made of an optional sign, digits with an optional '.', and an optional exponent which is not integer text is read as the float nearest to the number it stands for, ties to the even one, with infinity from the IEEE 754 overflow threshold on and the sign kept for zero; nan, inf and infinity are read in any case; no other text without integer form is read. A finite non-zero float is written as a decimal such that no decimal text which reads back as it has fewer significant digits, and none with as many is nearer to it.", "quantifier": "every text; every f64; every text which reads as that f64", "why_tests_cant": "unbounded texts, all floats and all texts which compete with the written one", "anchors": ["/repo/src/ds/num.rs: FromStr for Number, Display for Number", "/repo/src/ds/num.rs: Number"]}
{"id": "C57", "title": "What an implementation of Deserialize can see of a Kserd", "statement": "Whatever the implementation of Deserialize, two Kserds are decoded alike if and only if they differ in no more than who owns the ids, a tuple with elements for a sequence where there is no id, and an empty map for an empty container where there is no id; with the errors they give, if and only if they differ in no more than who owns the ids. Visitors are called only with integers in the range of the type they are told, and well formed floats. Derived implementations and those of the standard types give what the model of decoding for types says. An implementation which asks for anything on every level is told all of the Kserd, with the right length for each sequence and map; an implementation of an enum succeeds exactly if there is an id and the value is of the kind of variant it asks for. For a value of the wrong kind the error tells what there is and what was asked for; for a variant with a wrong number of elements it tells the number.", "quantifier": "every pair of Kserds, owned or borrowed; every implementation of Deserialize, with any visitors, any state and any reaction to errors; every type and declaration", "why_tests_cant": "an implementation is an arbitrary program; that two values cannot be told apart by any of them is not observable in a finite number of runs", "anchors": ["/repo/src/encode/decoder.rs: Decoder, EnumAccess, VariantAccess, unexp_err", "/repo/src/encode/mod.rs: Kserd::decode"]}
{"id": "C58", "title": "Comparing a Number with Rust's own numbers", "statement": "`number == x` and `number.partial_cmp(&x)` return for every x of the 14 Rust number types and the order is never None; Number::from(x) == x for every x, NaN included. Two integers of any integer types compare as integers. A Float equals an integer of at most 2^53 exactly when the values are equal, and is ordered by value. An integer Number equals an f64 exactly when the f64 is finite and within 1e-10 of the integer (and not below 0 for a Uint; clamped beyond the range). The Number of an f32 compares with f32s exactly as that f32 does, and f32s keep their order as Numbers, although they are converted by way of their decimal text.", "quantifier": "every Number and every value of the 14 Rust number types; every pair of f32s", "why_tests_cant": "There are 2^128 integers and 2^32 f32s; the order of all pairs of f32s through decimal text cannot be sampled.", "anchors": ["/repo/src/ds/num.rs: PartialEq<$t> for Number, PartialOrd<$t> for Number, From<$t> for Number, f32_to_f64"]}
{"id": "C59", "title": "What the texts of errors tell", "statement": "The error text of a refused id quotes the id and lists characters, exactly those which with_id refuses. The error text of a refused container is about the first bad field name in the order of the names and quotes that name's first bad character and the name. Different errors of the formatter, of the encoder and of the conversions have different texts. When a formatter refuses a layout as too high the text names the layout asked for and the highest one for the kind of value.", "quantifier": "every id, every list of fields, every error value", "why_tests_cant": "The names, their number and their order are unbounded.", "anchors": ["/repo/src/ds/kserd.rs: InvalidId, Kserd::with_id", "/repo/src/ds/val.rs: InvalidFieldName, Value::new_cntr", "/repo/src/fmt/formatter.rs: FmtError", "/repo/src/encode/encoder.rs: Error", "/repo/src/to_kserd.rs: ToKserdErr"]}
{"id": "C60", "title": "Line endings do not change what is read", "statement": "A document whose lines end in carriage return and line feed, or in a mix of both endings, is read as the same document with line feeds: the same shape, ids, names, keys, numbers and bytes. Texts which span lines keep their line endings as written; if there are none the value is the very same. A document is rejected with the one line ending if and only if it is with the other. Exceptions: a string delimited by line feeds, and keys of maps which span lines. In particular what as_str_with_config writes can be converted before it is read back.", "quantifier": "every document without carriage returns and every way to convert some, all or none of its line feeds", "why_tests_cant": "Every one of the parser's rules for blanks, lines, indents and strings sees the ending; documents are unbounded.", "anchors": ["/repo/src/parse/wsp.rs: inline_whitespace, multiline_whitespace", "/repo/src/parse/heuristics.rs: recognise_concise, pattern_match_verbose", "/repo/src/parse/cntr.rs: verbose_cntr_field", "/repo/src/parse/prims.rs: string, barr", "/repo/src/parse/mod.rs: parse"]}
{"id": "C61", "title": "How much work parsing takes", "statement": "While parsing a text of n characters the parser begins to read a value (a key, an element, a field's value or the document itself) at most 3(2n+1)^2 * 2^b times, b being the number of `{` in the text: without an opening brace the work is at most quadratic. For a text which is accepted it is at most 2n times when `[[` does not occur in it, and fewer than 2n times when the value read is not a container. The characters the parser looks at while it does so, counting each as often as it is looked at, are at most 72(n+1) for each value begun plus 124(n+1)(2n+1): quadratic in n for the accepted texts just named, and at most 340(n+1)(2n+1)^2 * 2^b for any text. The limits on the values begun are sharp in kind: a rejected text of n braces takes 2^(n+1)-1 readings, and there are accepted documents of 21+n characters, with one `[[`, which take at least 2^(n+1).", "quantifier": "every text, accepted or rejected, of any length and nesting", "why_tests_cant": "the cost is a growth rate over all texts: a test measures a few texts, and the texts which are slow are of no shape a test suite contains", "anchors": ["/repo/src/parse/mod.rs: parse, kserd_root, kserd_nested, kserd_delimited, pattern_match_delimited", "/repo/src/parse/map.rs: kvp_kserd_to_kserd, inline, concise", "/repo/src/parse/cntr.rs: verbose_cntr_field, kvp_kserdstr_to_kserd", "/repo/src/parse/list.rs: tuple, seq_delimited"]}
{"id": "C62", "title": "How deep parsing recurses", "statement": "While parsing a text, accepted or rejected, at most two more calls of the functions which read values are under way at once than the text has opening delimiters `(`, `[` and `{`; a limit on the recursion which is not reached changes nothing. A value can not be read with fewer such calls than half its height. The bound is reached by n brackets inside each other, so no limit is enough for every text: for each stack size there is a short text which is accepted and needs more.", "quantifier": "every text, accepted or rejected, of any length and nesting, and every limit", "why_tests_cant": "the depth is a growth over all texts, and a test which reached the limit of a stack would abort the test run", "anchors": ["/repo/src/parse/mod.rs: parse, kserd_root, kserd_nested, kserd_delimited", "/repo/src/parse/cntr.rs: verbose_cntr_field, verbose, kvp_kserdstr_to_kserd", "/repo/src/parse/map.rs: kvp_kserd_to_kserd", "/repo/src/parse/list.rs: tuple, seq_delimited"]}
{"id": "C63", "title": "The text determines the value", "statement": "Two values which have the same text are equal, whatever layouts, widths and configurations the texts were made with, so values which are not equal have different texts. Where the text keeps ids and the kinds of numbers the two values are the very same. Two Rust values of one type whose encodings have the same text are the same value. This holds for the values whose texts are read back (C22, C34); of the others a unit and an empty tuple, which are not equal, both have the text `()`. Equal values may have different texts, because ids are written but not compared.", "quantifier": "every two values which meet the conditions of C22 (or C34), every two formatters after any history of requests, every two configurations", "why_tests_cant": "It is a statement about all pairs of values and layouts; a collision can be anywhere among infinitely many texts.", "anchors": ["/repo/src/fmt/formatter.rs: Formatter::write_string", "/repo/src/fmt/mod.rs: Kserd::as_str_with_config", "/repo/src/parse/mod.rs: parse", "/repo/src/encode/mod.rs: Kserd::enc"]}
{"id": "C64", "title": "The order in which fields, entries and sections are written does not matter", "statement": "A container written on one line or with a field to a line is read as the same value whatever the order of its fields, if their names differ; of fields with the same name only the last counts. The same for the entries of a map whose keys are not equal. The fields, sections, elements, entries and the id of a document in the verbose layout may be in any order, as long as those with the same name keep theirs. Exceptions: the first item must show that the document is verbose (a section with an id, `[b:X]`, does not, and the document is rejected), and `inf` and `NaN` must not be followed by a bracket, even on the next line.", "quantifier": "every list of fields, entries or items with any texts for their values, of any length and nesting, and every permutation of it", "why_tests_cant": "There are n! orders and unboundedly many values; the assembly of verbose containers keeps three maps whose merging could depend on the order.", "anchors": ["/repo/src/parse/cntr.rs: delimited, inline_cntr_kserds, concise_cntr_kserds, verbose", "/repo/src/parse/map.rs: delimited, inline_map_kserds", "/repo/src/parse/mod.rs: parse", "/repo/src/ds/val.rs: Value::new_cntr, Value::new_map"]}
{"id": "C65", "title": "Debug texts tell values apart", "statement": "The texts of {:?} and {:#?} of two Kserds are the same exactly when the Kserds are the same in every id, kind of value, kind of number, element, field and entry (a NaN has the text of any other NaN). So Kserds which are not == never print the same, as assert_eq! and dbg! rely on. The text of a Node says which node of its navigator it is; two nodes of any navigators have the same text exactly when they have the same id, index, parent index, is_key and idx_in_parent, and the same primitive value or the same kind of compound value. Field names must be free of spaces (as new_cntr demands) and, for {:#?}, of line breaks.", "quantifier": "every pair of Kserds, every pair of nodes of every navigator, both styles, whichever characters the standard library escapes", "why_tests_cant": "strings can hold quotes, braces and whole debug texts, nesting changes the indentation; tests print a few values", "anchors": ["/repo/src/ds/kserd.rs: impl Debug for Kserd", "/repo/src/ds/val.rs: impl Debug for Value", "/repo/src/ds/kstr.rs: impl Debug for Kstr", "/repo/src/ds/barr.rs: impl Debug for Barr", "/repo/src/ds/num.rs: Number", "/repo/src/nav/node.rs: impl Debug for Node"]}
{"id": "C66", "title": "What a call on a Formatter leaves of the calls before it", "statement": "Applying a configuration twice is the same as applying it once. After apply_config, whatever was called before, the root has the form its widths ask for if a root can have it, else the form it had; and each entry written on a line of its own has the form its widths ask for at its column if its kind and its parent allow it, else the form it had, no larger than its parent's. Requests (inline, concise, verbose) on two nodes neither of which is in the tree of the other can be made in either order, with the same answers and the same result. A request for a form which is not larger replaces the request before it on the same node. id() and requests do not affect each other; id() on different nodes commutes, on one node the last call counts, and apply_config undoes all id() calls. Not true (proved): a larger request undoes a smaller one before it; what apply_config makes depends on the value and configuration alone; a larger width limit never takes more lines. Whatever apply_config does can also be had from calls of id, inline, concise and verbose.", "quantifier": "every value, every history of operations on its Formatter, every configuration, every node index and every form asked for", "why_tests_cant": "the histories are unbounded and their effects are spread over the tree; a test fixes one value and one short history", "anchors": ["/repo/src/fmt/formatter.rs: apply_config, id, inline, concise, verbose, request_repr_alteration", "/repo/src/fmt/mod.rs: FormattingConfig"]}
{"id": "C67", "title": "How long the text is", "statement": "Whatever is called on a formatter, the text it writes has at most 3*n*c characters, where n is the number of nodes of the value and c the characters in it (ids, numbers, strings, byte arrays, field names, and 16 per node); so formatting can not blow up exponentially. On one line the text has at most c characters. With line breaks the length is not linear in c: values inside each other are indented, so n nested tuples have at least 4*n*n characters.", "quantifier": "every Kserd, every sequence of formatter calls, every configuration; the lower bound for every depth n", "why_tests_cant": "the bound is about nestings and layouts of every size; a test measures one text", "anchors": ["/repo/src/fmt/mod.rs: write_node, as_str, as_str_with_config", "/repo/src/fmt/formatter.rs: Formatter::write_string", "/repo/src/fmt/mod.rs: as_str_with_config"]}
{"id": "C68", "title": "Incomplete texts are rejected", "statement": "If a text which is not in the verbose layout is accepted, and it is cut off anywhere before its last character other than a space or line break, what is left is rejected with an error: a file which was not written to its end is not read as another value. Exceptions, all of them: numbers (12 cut to 1), and a cut inside an id before a bracket when the id begins like a number or string (inf [1] cut to inf). This holds for every text a formatter writes without verbose nodes. The other way round, nothing but spaces can be added to an accepted text in brackets, so two such texts after each other are rejected. In the verbose layout a cut is not noticed: a written document with a line for each field of the outermost container which breaks off between two of these fields is always accepted, as the container with the fields before the cut.", "quantifier": "every text and every place at which it can be cut; every value, every formatter history without verbose nodes, and for the last part with them", "why_tests_cant": "the cut can be at any character of any text; tests cut a few texts", "anchors": ["/repo/src/parse/mod.rs: parse, kserd_delimited", "/repo/src/parse/heuristics.rs: pattern_match_delimited, pattern_match_verbose, recognise_concise, recognise_field_assign", "/repo/src/parse/cntr.rs: delimited, verbose", "/repo/src/parse/list.rs: tuple, seq_delimited", "/repo/src/parse/map.rs: delimited", "/repo/src/parse/prims.rs: prim", "/repo/src/fmt/mod.rs: write_node"]}
{"id": "C69", "title": "Texts can be put together", "statement": "Texts which are accepted, are not in the verbose layout and do not end in a space can be put on lines of their own between brackets, with or without an id in front, without changing any of them (no indentation, no escaping): the result is accepted and is the sequence, tuple, map or container of the values, in that order; with names it can also stand without brackets, as a document of its own. The one condition is that a line which ends in a bare word (inf, NaN, true) is not followed by a line which starts with a bracket. A written document with a line for each field of the outermost container can be appended to another such document, without any change: if the names of the fields are different and the second has no id, the text is read as the container with the fields of both, except that it is refused when the first ends in a bare inf or NaN and the second begins with a title.", "quantifier": "every list of accepted texts, however long and in whatever layout each is, every list of names, every id which can stand before a bracket; any two written documents with a line for each field (under the conditions of C78)", "why_tests_cant": "the texts are arbitrary accepted texts and there is no bound on how many there are; tests put together a few literals", "anchors": ["/repo/src/parse/mod.rs: parse, kserd_delimited", "/repo/src/parse/list.rs: tuple, seq_delimited", "/repo/src/parse/map.rs: delimited", "/repo/src/parse/cntr.rs: delimited, verbose", "/repo/src/parse/heuristics.rs: pattern_match_delimited, pattern_match_verbose, recognise_concise, recognise_field_assign", "/repo/src/parse/names.rs: valid_name, ident, field_name"]}
{"id": "C70", "title": "A change of one value stays where it is", "statement": "If two values differ in one leaf (a unit, boolean, number, string or byte array, anywhere inside), then after the same formatter calls their texts differ in the text of that leaf and nowhere else: the text before it and the text after it are the same characters. With leaves whose texts have no line break, all lines but one are the same. The condition is that no width limit is applied, or that both leaves take the same number of characters; in either case the layout of every node is the same. The same holds for as_str_with_config.", "quantifier": "every value, every place in it, every two leaves (units, booleans, numbers, strings, byte arrays) put there, every history of formatter calls", "why_tests_cant": "the surrounding value and the calls are arbitrary and unbounded; a test compares the texts of a few literals", "anchors": ["/repo/src/fmt/formatter.rs: Formatter::apply_config, Formatter::inline, Formatter::concise, Formatter::verbose, Formatter::id, Formatter::write_string", "/repo/src/fmt/mod.rs: as_str_with_config, write_node", "/repo/src/fmt/solver.rs: apply_config"]}
{"id": "C71", "title": "Editing one value in a written text edits the value", "statement": "Take the text a formatter (in any layout) or as_str_with_config wrote for a value, and replace in it the text of one leaf (a unit, boolean, number, string or byte array) by the text of another, of whatever length: the result is the text of the edited value in the same layout, and it is read as the edited value, provided the edited value meets the conditions under which every layout is read back (C22).", "quantifier": "every value, every place in it, every two leaves, every history of formatter calls and every configuration, whatever the width limit", "why_tests_cant": "the value, the place and the layout are arbitrary; the edited text need not be one the formatter would choose", "anchors": ["/repo/src/fmt/formatter.rs: Formatter::write_string", "/repo/src/fmt/mod.rs: as_str_with_config", "/repo/src/fmt/solver.rs: apply_config", "/repo/src/parse/mod.rs: parse"]}
{"id": "C72", "title": "Which ids decoding looks at", "statement": "Decoding a Kserd as a type gives the same result when ids in it are changed, added or removed at places where they do not matter: on booleans, numbers, strings, byte arrays, sequences and maps always; on containers, tuples and units unless the old or new id is the name of an enum variant of that form, or the tuple is empty and one of the ids is None, or it has one element and one of the ids is Some or absent. Hence values of types without struct variants are decoded from texts which leave out the names of structs, in every layout and for every width limit.", "quantifier": "every set of declared types, every type, every Kserd and every change of any number of ids; every value of the type, every configuration which shows the ids of tuples and every history of formatter calls", "why_tests_cant": "types, Kserds and the set of changed ids are arbitrary", "anchors": ["/repo/src/encode/decoder.rs: Decoder::deserialize_any, deserialize_enum, deserialize_unit_struct", "/repo/src/encode/mod.rs: Kserd::decode", "/repo/src/fmt/mod.rs: FormattingConfig::id_on_containers"]}
{"id": "C73", "title": "Encoded values are ordered as the values", "statement": "Comparing the Kserds two values of the same type are encoded as gives what the derived Ord of the type says about the values, if they contain no enums and no floats and the fields of structs are declared in the order of their names; in particular the Kserds compare as equal only if the values are the same. Hence encoding a BTreeMap with such keys keeps every entry, in the same order.", "quantifier": "every set of declared types, every type, every two values of it; every map with such keys and values of any type", "why_tests_cant": "types and values are arbitrary and arbitrarily nested", "anchors": ["/repo/src/encode/encoder.rs: Encoder", "/repo/src/ds/val.rs: Value (derived Ord)", "/repo/src/ds/kserd.rs: impl Ord for Kserd", "/repo/src/ds/num.rs: impl Ord for Number"]}
{"id": "C74", "title": "White space at the ends of lines and of the document", "statement": "Spaces, tabs or a carriage return in front of the line feeds of a document do not change what is read: the same documents are rejected, and an accepted one gives the same value, but for the texts over several lines, which stand as written. Taking the blanks at the ends of all lines away does not change a value whose texts have no line feed. Blanks and blank lines at the end of an accepted document change nothing; nor do blanks at its start, or blank lines at the start of one in the verbose layout. (No `str` in the document has a blank or a line feed as delimiter.)", "quantifier": "every text, every choice of lines and of the blanks put at their ends, every run of spaces, tabs and line feeds before or after it", "why_tests_cant": "documents are unbounded and the blanks can be at any of their lines, in each layout", "anchors": ["/repo/src/parse/wsp.rs: inline_whitespace, multiline_whitespace, ignore_inline_whitespace", "/repo/src/parse/heuristics.rs: recognise_concise, pattern_match_verbose", "/repo/src/parse/cntr.rs: verbose_cntr_field", "/repo/src/parse/prims.rs: string", "/repo/src/parse/mod.rs: parse"]}
{"id": "C75", "title": "Data of an old version of the types", "statement": "A value encoded with an old version of a program's types is decoded with a new version as the value it should be: fields of a struct may be moved, dropped, or added if they are Options (then None); structs may be renamed; variants of an enum may be moved and added, or dropped if the value is not one of them; integers may get another type they fit, or become floats; a char may become a String; elements at the end of a tuple may be dropped. This holds at every depth, directly and by way of the text. A new field that is not an Option makes every old value unreadable, and so does the removal of a value's variant.", "quantifier": "every two sets of type declarations, every value of a type of the first and the value of a type of the second it becomes, every layout of the text", "why_tests_cant": "the pairs of type declarations and the values are unbounded, and changes are combined at any depth", "anchors": ["/repo/src/encode/decoder.rs: deserialize_any", "/repo/src/encode/decoder.rs: variant_seed", "/repo/src/encode/decoder.rs: struct_variant", "/repo/src/encode/encoder.rs: Encoder"]}
{"id": "C76", "title": "What the text of a decoding error says", "statement": "When a value of the wrong kind is decoded as an integer, a char, a unit struct or a variant of an enum, the text of the error names the kind of value there is (for booleans, texts and integers of at most 64 bits also the value) and what was expected; two such errors with the same text had the same expectation and the same kind of value, the same boolean, text or integer, whatever is inside a text. A tuple of the wrong length is reported with both lengths. (Integers of more than 64 bits are all called 0, and f32 and f64 are both called `$t`: counterexamples.)", "quantifier": "every Kserd and every such request, every choice of the characters which are escaped and of the digits of floats", "why_tests_cant": "values and texts are unbounded; that texts inside the error cannot imitate another error is a statement about all texts", "anchors": ["/repo/src/encode/decoder.rs: unexp_err", "/repo/src/encode/decoder.rs: custom", "/repo/src/encode/decoder.rs: deserialize_char", "/repo/src/encode/decoder.rs: tuple_variant"]}
{"id": "C77", "title": "How deep formatting recurses", "statement": "Making the text of a value recurses exactly as deep as the value is nested, whatever the configuration; applying a configuration to a formatter does so too, and writing its text takes one call for each value on the way down which is not a sequence or map that stands as a section of its container: at least half the depth of the value, at most all of it. With a stack for that many calls the result is that of an unlimited stack. A value read from a text is written again with a recursion of at most twice the opening delimiters of the text and four. (No fixed stack is enough: for every limit an accepted text of 2 * limit + 4 characters gives a value which needs more. A finding.)", "quantifier": "every Kserd, configuration, history of a formatter, text and limit", "why_tests_cant": "the depth of the values is unbounded, and a stack overflow ends the process without a panic which a test could catch", "anchors": ["/repo/src/fmt/mod.rs: write_node", "/repo/src/fmt/mod.rs: as_str_with_config", "/repo/src/fmt/solver.rs: inline_widths_recurse", "/repo/src/fmt/solver.rs: concise_widths_recurse", "/repo/src/fmt/cntr.rs: write", "/repo/src/fmt/formatter.rs: apply_config"]}
{"id": "C78", "title": "What is accepted is what was written", "statement": "When ids and field names are words (ids not such as begin like a boolean, a number or a string), strings leave a delimiter free which can not be taken for part of the word `str`, for an '=' or a colon (or their id is shown) and no tuple with a hidden id stands right behind an opening bracket, then the text which is written is either refused by the parser or read as the value it shows; it is never taken for another value. Nothing is asked of the numbers, of what stands beside what, of the contents of strings or of how the text begins. With conditions on the value alone, what is read back from as_str_with_config equals the value; this holds with any width. A document with titles must show by the first line of each container what it is, the elements below titles are not sequences nor strings in which an '=' stands before any quote, and maps stand below titles in the outermost container only, with primitive keys. (Without the conditions it fails: a map in a container inside a container becomes a field of the outermost one, an id `true` or `1` of a list inside a concise list is read as an element of its own, and a string in a tuple whose contents use up the quotes can be written so that its contents are read as data, a container and further elements. A finding.)", "quantifier": "every Kserd, every history of a formatter, every configuration", "why_tests_cant": "the claim is about every value whose text is accepted, including all those which a test author would expect to be refused; a wrong reading needs strings, ids and line breaks to fall together", "anchors": ["/repo/src/fmt/mod.rs: write_node", "/repo/src/fmt/mod.rs: as_str_with_config", "/repo/src/fmt/prims.rs: fmt_str", "/repo/src/parse/mod.rs: parse", "/repo/src/parse/prims.rs: string", "/repo/src/parse/names.rs: ident", "/repo/src/parse/list.rs: concise_list_kserds"]}
{"id": "C79", "title": "Exactly which texts are accepted", "statement": "Under the conditions of C78 (no verbose line below the outermost value, ids and names are words, strings with a clear delimiter, no hidden tuple right behind a bracket), whether the parser accepts the text which was written can be told from the value and its layout, without writing or parsing anything: it is accepted, and read as what it shows, if and only if the text of every number is a number for the parser, where elements stand on lines of their own no opening bracket follows a bare inf or NaN, '=' is not the first of the characters <>(){}'\"= and line ends behind the bracket of a tuple nor in the document, and the document does not begin with two square brackets or one word in square brackets. Otherwise it is refused with an error. None of these conditions can be left out. A container with a line for each field is always seen to be one, so only its fields decide. When fields stand below titles, in every document which C78 shows to be refused or right, what decides is that every value on lines of its own (behind a name or a key, or below a title) satisfies those conditions and that no title ([name] or [[name]], of the next field, element or entry) comes right after a bare inf or NaN.", "quantifier": "every Kserd, every history of a formatter (with verbose lines below the outermost value: under the conditions of C78)", "why_tests_cant": "an 'if and only if' over every value and layout: a test shows that one value is read or refused, not that nothing else is", "anchors": ["/repo/src/fmt/mod.rs: write_node", "/repo/src/fmt/prims.rs: write", "/repo/src/parse/mod.rs: parse", "/repo/src/parse/heuristics.rs: pattern_match_delimited, pattern_match_verbose, recognise_concise", "/repo/src/parse/list.rs: concise_list_kserds, tuple", "/repo/src/parse/prims.rs: num"]}
{"id": "C80", "title": "How much work it is to lay out a value", "statement": "Laying a value out (a new Formatter and a configuration, as as_str and as_str_with_config do before they write) looks at nodes no more than 6*(n+2)^2 times, n the number of values in it, whatever the value, the limit and the history of the Formatter. One request for inline, concise or verbose looks at no more than 2n+2, and the widths of all values are worked out with no more than 3n, each once. The work is not linear: each field of a container which is not on one line is looked for from the first field on, so f fields take at least f^2/2, even if nothing is nested.", "quantifier": "all values, all configurations, all limits, all histories of a Formatter, all requests", "why_tests_cant": "a slow layout shows only on values larger than those of the tests, and a bound is about all of them", "anchors": ["/repo/src/fmt/solver.rs: apply_config", "/repo/src/fmt/solver.rs: calculate_offset", "/repo/src/fmt/solver.rs: inline_widths", "/repo/src/fmt/solver.rs: concise_widths", "/repo/src/fmt/solver.rs: cntr_field_offset", "/repo/src/fmt/formatter.rs: request_repr_alteration", "/repo/src/fmt/formatter.rs: Formatter::new"]}
