# kserd in Rocq: design

The model lives in `rocq/theories/`. Every definition cites the `/repo` file and
lines it models. Model, specification and proof are separate files:

* model: `Base F64 F32 Number BTree Value ToKserd Base91 Nav Nom Parse ParseErr
  Fmt Formatter Encode` — total computable functions; a Rust panic is an
  explicit result (`Panic`, `LPanic`, `PPanic`), as is running out of the fuel
  of a recursion (`LFuel`, `PFuel`). No theorem takes fuel as a hypothesis: the
  public entry points of the model pick it themselves, and totality theorems
  (C17, C23, C29, C40) show it is enough.
* specification: `*Spec.v`, `Grammar.v`, `VGrammar.v`, `FmtText.v` — the words
  the theorems use, written without the functions under test.
* theorems: `Properties*.v`, which hold nothing but the property theorems
  (closed by `exact`, `Print Assumptions` below) and the `Example`s showing that
  concrete cases meet their hypotheses.
* vectors: `RepoVectors.v` runs the model on every case of `/repo/tests`,
  `RepoVectors2.v` on the unit tests inside `/repo/src` (of the numbers, the
  heuristics, the primitives, the decoder, the encoder, the accessors, the
  navigator and the conversions), `RepoVectors3.v` on the documentation of the
  formatter, `RepoVectors4.v` on the unit tests of the formatter's requests and
  columns, of the error traces and of the mutable accessors, and `ParseVectors.v`, `FmtVectors.v` and the end
  of `Nav.v` on texts from the documentation and the rest of the tests. The model
  gives what the Rust program is expected to give in all of them. They are tests:
  no property rests on them.

## Trusted base

* Coq 8.16.1's kernel (with `vm_compute`).
* Axioms: none. `Print Assumptions` says "Closed under the global context" for
  every theorem in `Properties*.v`. The constants `Coq.ssr.ssrunder.Under_rel.*`
  which tools report for the whole library come from loading `Lia`/`ssreflect`
  and no theorem depends on them.
* That the model is the code. It was written by reading `/repo`; nothing is
  extracted or executed against the Rust program. The `Vectors` files and the
  tests against wrong programs (`seeded/LOG.jsonl`) are evidence, not proof.
* The behaviour of code which is not in `/repo` and is modelled from its
  documentation:
  * `nom` 7 combinators with `VerboseError` (`Nom.v`);
  * `base91` 0.0.1: the published basE91 algorithm (`Base91.v`);
  * `lexical_core` integer parsing and `fast_float` parsing: exact integers,
    correctly rounded decimals (`Number.v`, `F64.v`, `F32.v`);
  * `std`: `BTreeMap` as the sorted list of its entries, with the insertion
    which replaces the value and keeps the key (`BTree.v`); float printing as the
    shortest digits which read back; saturating float to integer casts;
    `str::lines`, `escape_default`, UTF-8; the builders behind `Debug` (`Debug.v`), where
    which characters are printable and the text of an f64 are parameters;
  * `serde` and `serde_derive`: the calls which derived impls and std impls
    make, and their visitors (`Encode.v`).

## What is modelled and how

| area | code | model |
|------|------|-------|
| text | `str`, `String`, `char` | `char := N` (Unicode scalar value), `str := list char`; Rust's `str` order is byte order of UTF-8, which is the lexicographic order of scalars; byte lengths are sums of UTF-8 lengths, used only for error offsets |
| floats | `f64`, `f32` | NaN, Inf(sign), Fin(sign, m, e); a finite value is an exact integer multiple of 2^-1074 held in `Z`; comparisons, floor, ceil, round, casts are exact integer functions; integer to float and decimal to float are round-to-nearest-even on `Z` |
| numbers | `ds/num.rs` | `Number.v`, all functions; `NumPrim.v`: comparison with Rust's number types |
| values | `ds/val.rs`, `ds/kserd.rs`, `kstr.rs`, `barr.rs` | nested inductive `kserd`; constructors, equality, order, conversions, accessors and their mutable variants |
| `to_kserd.rs` | | universe of types with their conversion |
| nom, parser | `parse/*.rs` | function by function into `pres`; fuel exhaustion and panics are explicit results |
| errors | `parse/err.rs` | traces, offsets, line and column, backtrace text; `Errors.v`: the texts of the other errors |
| nav | `nav/*.rs` | the explicit stack loop of `Navigator::new`, node accessors, the iterators (as lists, and in `NavIter.v` step by step), the debug assertions |
| formatter | `fmt/formatter.rs` | state = list of `Fmt` beside the navigator |
| writer | `fmt/{mod,prims,seqs,tuples,maps,cntr}.rs` | buffer-passing functions including the `pop`s |
| solver | `fmt/solver.rs` | widths, offsets, `apply_config` |
| `Debug` | `kserd.rs`, `val.rs`, `kstr.rs`, `barr.rs`, `num.rs`, `nav/node.rs` | `Debug.v`: both styles, with std's `debug_struct`, `debug_tuple`, `debug_list`, `debug_map` and the indenting writer |
| serde glue | `encode/*.rs` | universe of types (structs, enums, options, maps, recursive declarations); the Encoder/Decoder call sequences of derived impls; `Ser.v`: the Encoder under any `Serialize` impl; `Deser.v`: the Decoder under any `Deserialize` impl (what an impl makes of the texts which serde's own string deserializers give it is any function of the text); `DeserText.v`: the texts of the Decoder's own errors, with serde's `Unexpected` as its tests show it |

Not modelled: allocation and lifetimes (owned and borrowed text are the same text
everywhere but in `Own.v`), `usize` overflow of widths, the texts of the visitors of serde and of derived types (`expecting`, missing fields), what
derive macro attributes (`rename`, `skip`, ...) do, `ToKserd` of
external types, hash map iteration order (a `HashMap` is any order
of its entries: `from_iter` forgets it, C12), `Formatter` operations
interleaved with changes to the tree (the borrow checker excludes them).

## Properties and method

See `properties.jsonl` for the statements and `MANIFEST.json` for the theorems.

* C01-C08 numbers (`PropertiesNum.v`): exact integer semantics over `Z`; order
  shown equal to the order of exact values (`NumberSpec.v`) on the stated
  domain; counterexamples by `vm_compute` outside of it. Text round trip:
  printing is "fewest digits that read back", reading is round-to-nearest.
* C09-C14, C36 values (`PropertiesVal.v`): induction on trees with a custom
  induction principle; ordered association lists. `OrdSpec.v` says which order
  `cmp` is, as an inductive relation.
* C15 base91: invariant relating the bit accumulators of encoder and decoder.
* C16 strings: characterisation of the delimiter choice.
* C17-C19 parser (`PropertiesParse.v`, `PropertiesTitle.v`, `PropertiesBracket.v`): compositional
  predicate on parsers, one lemma per combinator, induction on fuel. The errors of particular
  documents by computing the parser on them; `BracketSpec.v` says what has been begun.
* C20, C21, C37, C38 (`PropertiesRt.v`): `Grammar.v` says which texts stand for
  which values, in the inline and concise layouts, with arbitrary blanks. The
  parser reads every text of the grammar (`GrammarProps.v`); the writers write
  texts of the grammar under a decidable condition on the tree (`RtSpec.v`). The
  result is given by an explicit normalisation, separately shown equal to the
  input.
* C22 (`PropertiesVerbose.v`): the same with `VGrammar.v` for documents with
  verbose sections.
* C23-C28, C39 (`PropertiesFmt.v`; `FmtPanic.v` for the exact condition under which writing panics; `StuckSpec.v` says when `apply_config` panics on a new formatter, shown in `StuckProps2.v` by following the solver loop with the sections and columns of the specification): invariant over histories of operations;
  the buffer-passing writers over the navigator are shown equal to a plain
  recursive function on the tree (`FmtText.v`), from which the rest follows.
* C29-C31 nav (`PropertiesNav.v`): loop invariant relating the stack to the
  preorder listing.
* C32, C33, C40-C42 encode/decode (`PropertiesEnc.v`): a relation between values
  and the Kserds which stand for them; the encoder's result is in it and the
  decoder reads everything in it. C32_exact: the value which comes back is no
  larger than the one encoded, and of the same size only if no map lost entries.
* C34 (`PropertiesText.v`): C20-C22 composed with C32. Where the text may be refused
  (`C34_never_wrong`, `C34_refused_or_right`, `TextSpec2.v`): C78 composed with C32.
* C35 ToKserd (`PropertiesConv.v`): induction on the type universe.
* C43 (`PropertiesF32.v`): rounding of the shortest decimal of an f32 to f64 and
  back; double rounding analysed over `Z`.
* C44 (`PropertiesDec.v`): one rule for each type (`DecodeSpec.v`), decoding
  shown to follow it in both directions.
* C45 (`PropertiesLayout.v`): the solver's single pass is shown to give each
  node a form which depends only on the forms of its ancestors; from there the
  choice is stated with widths, columns and the limit.
* C46 (`PropertiesFormat.v`): the whole format as a grammar (`Format.v`). Every
  combinator is inverted: what it consumed is a text of its rule. Induction on
  the nesting; from the grammar: words and number of nodes.
* C47 (`PropertiesSyntax.v`): the grammar with what may follow each text
  (`Syntax.v`), shown to be exactly what is accepted. One direction inverts every
  combinator; a verbose container which stops in front of a line of its own is
  shown to fail the whole document. The other direction runs the parser on each
  rule. Totality (C17) gives the rejections.
* C48 (`PropertiesMut.v`): a mutable reference is what it shows and what the
  place becomes when it is written (`Mutate.v`); chains of accessors compose.
  Induction on the chain: each step replaces one part and where a step leads does
  not depend on the contents of parts.
* C49 (`PropertiesLooks.v`): a relation between two runs, for values which look
  the same (`LooksSpec.v`). Navigation, configuration, both width calculations,
  the solver and the writers preserve it; at the end the texts are equal.
* C50: what is read back (`norm`, `vnorm` of C21 and C22) looks like what was
  written, since a number which was read has the text it was read from; then C49.
  `C50_accepted` asks only for the conditions of C78: the text was accepted, so
  what was read is what was written (C78), and C49 gives the rest.
* C51 (`PropertiesDoc.v`): what the parser promises (C18) and `document`
  (`DocSpec.v`) together give the conditions of C21, C22 and C50. Maps with
  number-free keys are in order whatever was dropped on the way, as a dropped key
  equals a kept one (`MapOrder.v`).
  `C51_refused_or_kept` (`DocSpec2.v`) leaves out the conditions on inf, NaN and
  on what strings contain: C17 leaves two outcomes, C78 and C50 settle the second.
* C52 (`PropertiesSerde.v`): induction on the value, with the relation `serde_ty`
  between a type with a provided conversion and the type serde sees.
* C53 (`PropertiesOwn.v`): `Own.v` models Kserd again with clone-on-write texts
  and the decoder with types that hold references; `content` maps it to `Value.v`.
  One induction on the Kserd relates the two decoders, for equality and for
  "at most".
* C54 (`PropertiesIter.v`): the iterators as state machines (`NavIter.v`); the
  items still to come are the tail of the children, an invariant of `next`.
* C55 (`PropertiesSer.v`): an implementation of `Serialize` is the tree of what it
  does after each outcome (`Ser.v`); what it gave is a relation on that tree
  (`SerSpec.v`). Mutual induction on the tree, generalised over the state.
* C56 (`PropertiesDecimal.v`): what a decimal is and what rounding means
  (`DecimalSpec.v`), against the exact integer arithmetic of the model. Shortest:
  a candidate of fewer digits lies between the two neighbours which were tried,
  and reading is monotone.
* C57 (`PropertiesDeser.v`): implementations of `Deserialize` are automata over any
  set of states, which call methods and are called back (`Deser.v`). If: induction on
  the Kserd for any automaton. Only if: a family of observers, each of which walks
  down one path and asks one question there, tells any two others apart.
* C58 (`PropertiesPrim.v`): the comparisons with Rust's numbers (`NumPrim.v`) against
  values; f32s keep their order because the f64 of an f32 is nearest to it and no
  two f32s share one (C43).
* C60 (`PropertiesEol.v`): the parser runs in lockstep on the two documents: every parser of the
  model, given the same place in both, stops at the same place in both with related
  results (`EolProps*.v`).
* C61 (`PropertiesCost.v`): `ParseCost.v` follows the parsers function by function and counts how
  often `kserd_delimited` is entered (`parse_readings`). `ParseWork.v` is the parser with two counters
  which it increments as it runs, one for these entries and one for the characters each scan looks
  at; `C61_counting` shows that it returns what the parser returns and that its first counter is
  `parse_readings`. The characters are bounded by the entries (`C61_chars`): every function but the
  recursive ones passes over the text a fixed number of times, and a verbose field is begun at most
  twice for each character. Not counted: copying of results, the sorting of fields and entries, and the making
  of an error's text. Accepted values: induction on the parsers with the measure
  twice the characters consumed; a key is tried as concise and then as inline, but a text accepted
  inline is accepted concise, so an accepted key is read once. Any text: a bound of (2n+1) 2^b for each delimited value
  and one more factor for verbose documents. Accepted documents without `[[`: a nested level is
  either paid for or has stopped where no level can go on (C47), which at the root cannot be.
* C62 (`PropertiesDepth.v`): `ParseDepth.v` is the parser with a limit on how many calls of
  `kserd_nested` and `kserd_delimited` may be under way; the bodies of the functions are those of
  `Parse.v`. A relation between the limited and the unlimited parser (`DepthProps.v`: the same outcome, or the
  limit is reached and the input has at least so many opening delimiters) is carried through
  every combinator, by induction on the limit. Heights by a predicate on what parsers return. The
  tight family by induction on the number of brackets.
* C63 (`PropertiesInj.v`): from the round trips: both values are equal to what the parser makes of
  the one text, and equality is transitive on values with exact keys.
* C64 (`PropertiesOrder.v`): the texts are put together from the grammars of C37 and C22, so they are read
  as the containers and maps the grammars name (C37_document, C22_document). What remains is that
  the maps made from two lists are the same: strictly ascending lists with the same members are equal;
  a verbose container depends on its items only through those of each name.
* C65 (`PropertiesDebug.v`): the text over several lines without its indentation, and the text on one
  line, are both instances of one flat text; each part of that is shown to be cut off a longer text in one way only
  (strings end at the first quote which is not escaped, numbers at a parenthesis), then
  by induction on the Kserd. Nodes: the texts give the index, and the indices are those of C29.
* C66 (`PropertiesHistory.v`): a request is the function "set the node and cap its tree" when it is granted and the
  identity when not; two such functions on disjoint intervals of the pre-order commute and do not change what the
  other is granted. `apply_config` decides every node against the *final* formats (C45), so a second application
  finds every node as it would set it. The forms after `apply_config` are given for every earlier history.
* C67 (`PropertiesSize.v`): the tree of forms a formatter shows satisfies `length + 2 <= (3 nodes - 2) (column + chars)`, by
  induction over the tree: every entry is written at a column which the characters before it have paid for. The tower
  of tuples is laid out with the forms `fm_new` gives (limit 0 keeps them), and the spaces are counted by induction.
* C68 (`PropertiesCut.v`): in the exact syntax of C47 the conditions on what follows a value look no further than the first
  character which can be in no name, number or space. So a value in brackets stays the value whatever follows (induction
  over the length of its text), and as values are unique (C47) the cut text and the whole one have the same value.
  `C68_truncated` (`CutProps4.v`): the text of the first fields is the beginning of the text of all of them, and what decides whether it
  can be read (C79) is inherited by the first fields.
* C69 (`PropertiesPaste.v`): by the exact syntax of C47 an accepted text is a value when nothing follows it; what may follow
  is decided by its first characters, so the value still stands when a line break follows, unless it is a word and a bracket
  comes next. Lists of such lines are then assembled by induction.
  `C69_append` (`PropertiesAppend.v`, `AppendProps.v`): the two texts together are the text of one container with the fields of both,
  in an order which need not be sorted; the decision of C79 only needs different names (`root_decided`).
* C70 (`PropertiesLocal.v`): the text is a function of the decorated tree (C23), in which the text of a leaf is put without
  looking at it, so a change of a leaf passes through every form of every parent by induction on the place. The layout is
  the same because the formatter never looks at a leaf except for its width: a simulation between the two runs.
* C71 (`PropertiesEdit.v`): apply_config is a sequence of calls of id, inline, concise and verbose (C66_calls_only), and
  these do not look at leaves, so the layout of the text is one of the edited value too; then C70 and C22.
* C72 (`PropertiesName.v`): `renamed` (NameSpec.v) relates Kserds which differ in ids decoding does not look at; by induction
  on the Kserd they decode alike for every type.  For texts, the arguments of C34 with the ids of containers left open.
* C73 (`PropertiesEncOrd.v`): both orders are lexicographic; by induction on the size of the two values.  The keys of a map are
  smaller values, so inserting the encoded entries one after the other appends them.
* C74 (`PropertiesTrail.v`): as C60, each parser is shown to go in step on the two texts: both fail, or both succeed with
  rests which again differ in the ends of their lines only.  The white space at the end and start of a document goes through
  the exact grammar of C47.
* C75 (`PropertiesEvolve.v`): the relation `becomes` of EvolveSpec.v says which value of the new types a value of the old ones
  is.  The encoder's result, and what the parser makes of its text, stand for the value (as in C32, C34); by induction on the value
  the decoder of the new types reads them.
* C76 (`PropertiesDecErr.v`): the model of C57 with texts for errors (`DeserText.v`).  The parts of an error text end where
  they say, by the prefix lemmas of C65 for quoted texts, so the text determines them.
* C77 (`PropertiesFmtDepth.v`): the formatter's recursive functions with a limit on the calls under way (`FmtDepth.v`).  More
  fuel changes no result, fuel for the depth of a node suffices, and a result shows that there was as much: the width
  functions skip nodes they have done, so the proof follows which nodes are done.
* C78 (`PropertiesMisread.v`): `syntax` (C47) says exactly what is accepted, so it is shown by induction over the tree that
  any value of the grammar at the front of the text of a node spans that text and is that node: `only` for one item,
  then for lists between brackets, and `shape` says what stands behind the first word, which excludes fields and titles.
  The conditions (`MisreadSpec.v`) are weaker than those of C21. A container with a line for each field is read item by item
  (`MisreadProps7.v`): the first character of a line tells ids, fields and titles apart, and `only` does the rest.
  With titles (`MisreadProps8.v`, `MisreadProps9.v`) the text is a list of pieces, each of which can be read as one item only when
  what follows has fewer indents; the conditions are `vclear` of `MisreadSpec2.v`, and `told_apart` for the value alone (`MisreadProps10.v`).
* C79 (`PropertiesLegible.v`): `legible` (`LegibleSpec.v`) decides. That legible texts are in the grammar is as for C21, with
  the search for '=' computed from the tree (`sign`); that nothing else is accepted is an induction over the tree: the derivation
  of a node's text has its elements' derivations in it (`holds`), and these carry the conditions.
  Documents with titles (`LegibleSpec2.v`, `LegibleProps5.v`–`LegibleProps7.v`): each item of the text carries two bits, whether it
  can be read at all and whether it ends in a bare `inf` or `NaN`; the items can be read one after another exactly when every item is
  legible and none that ends bare stands before one that begins with a bracket. Both directions are by induction on the items and the tree,
  through the syntax relation of C47 (which is an equivalence with `parse`), under the `vclear` of C78.
* C80 (`PropertiesFmtWork.v`): the layout once more with a count of the nodes looked at (`FmtWork.v`), proved to give the same
  results.  The width loops are bounded by a potential (the children of the nodes without a width), the way to the root
  telescopes (a child stands behind its parent by more than its place in it), the rest by the fuel.  The lower bound
  follows the root's form, which no request for another node changes.
* C59 (`PropertiesErr.v`): the texts (`Errors.v`) beside the functions which fail.

## Findings

Statements a user might expect and which are false. Each is a theorem with a
concrete witness, named `..._refuted`, beside the theorem which holds.

* C02, C10: `cmp` is not transitive: 2^128 and 2^952 as floats are both Equal to
  `u128::MAX`. `-0.0` is below `Uint 0` although they are `==`. A negative NaN,
  `Uint 0` and `Int 1` are a cycle.
* C03: `Uint 3 == Float 3.00000000005` but not the other way round, and `cmp`
  says they differ. `Float 2^53 == Uint (2^53 + 1)`.
* C06: the float 2^128 is printed as an integer which does not parse; 1e23 comes
  back as an integer of another value.
* C08: `-0.0 == 0` and NaN == NaN, with different hashes.
* C11, C12: the empty tuple `==` the empty container but `cmp` is Less; as keys of
  one `new_map` the binding of the empty tuple is lost.
* C18: the parser accepts field names which `new_cntr` rejects (`1a`). A map read
  with the keys `1e300` and u128::MAX has two keys which compare as equal. There are
  ids which `with_id` takes (`a:b`) and field names which `new_cntr` takes (`a.b`)
  and which are read from no text.
* C19: the column of an error counts bytes, so the caret of the backtrace is not below
  the character when others before it in the line take more than one byte.
* C19: the error for a word which is no value always names a byte array (`in base 91 byte
  array`), because the error of the last alternative is the one which is kept (`C19_word`).
* C19: a document which begins with a colon and no name behind it is reported as text behind a
  value, at its first character, and not as a wrong identity (`C19_colon`).
* C20, C27: with the ids of tuples hidden, a tuple with an id removes the last
  character written before it, of the enclosing text or of the caller's buffer.
* C21: `as_str` writes texts which the parser rejects (`[[1], [2]]`, `[true]`,
  `[inf]`, `trueish (a = 1)`, strings with exotic delimiters) or reads as
  another value (unit with an id, empty tuple, empty container).
* C22: in the verbose layout as well: keys of more than one line, containers
  inside lists of lists, `inf` before a title, a first line which looks like a
  key; a map in a nested container is read as a field of the outermost one; ids
  of lists and maps are lost.
* C23: `as_str` panics for a map with a long container as key, inside a container. The
  exact condition is `stuck` (`StuckSpec.v`).
* C28: the estimated width is not the printed width for maps, named units and
  tuples, ids on primitives, byte arrays and tabs. C39: `[1]` with limit 3 is not
  written inline although it fits. C45: the column of an entry is estimated too
  small in two cases, so lines are longer than the limit without need.
* C46: `a = trueb = 1` is read as two fields; nothing has to stand between them.
* C49: a tuple's id which is not shown changes the text (a character is lost).
* C50: -0.0 is written as `-0`, read as an integer and written as `0`. The id of
  a sequence or map below a title is lost, and without it the value may fit where
  it did not fit before.
* C51: documents which cannot be rewritten: `1e39` (the new text is rejected),
  `Seq [true]` (rejected without its id), an empty verbose container (becomes a
  unit). `:Foo` is rewritten as `Foo ()`, and that as `Foo()`.
* C52: `Some(x).into_kserd()` is `x`; it decodes as `None` (`Some(())`) or is an
  error (`Some(5)`), never as `Some`.  `[true].into_kserd()` is a sequence, the
  encoder gives a tuple.
* C53: `BTreeMap<&str, T>` cannot be decoded from a container, even after
  `mk_brw` (serde's deserializer for the names never hands out references);
  an encoded text is not decoded as `&str` without `mk_brw`; bytes from
  `b91'..'` are not decoded as `&[u8]`.
* C55: an implementation of `Serialize` which gives a map's key and no value is not
  told so, the key is dropped; when a value fails its key is lost, so the value
  cannot be given again; field names are not checked, so the encoder builds
  containers which `new_cntr` refuses.
* C57: no implementation of `Deserialize` can tell a tuple from a sequence if it has
  no id. Errors call a number of more than 64 bits 0, and the expected type `$t`
  for f32 and f64 (a macro variable outside of the macro).
* C58: `Number::from(x as f64) == x` is false for 3.14f32; `Number::from(NAN) == NAN`;
  `Number::from(3u8) == 3.00000000005` but not `Number::from(3.00000000005) == 3u8`.
* C60: a string delimited by line feeds (`str` and a line feed) is another text once the document is
  converted to carriage return and line feed; two equal keys which span lines are two keys when one of
  them is converted, and the order of keys may change.
* C61: the work is exponential in the opening braces: each key of a map is tried as a concise
  value and, when that fails, once more as an inline one (`parse/map.rs` 17). `{{{…` (n braces) takes 2^(n+1)-1 readings before
  it is rejected. An accepted document can hide the braces in a string: after `[[a]]` the parser tries
  the next line as a key, `[str]` begins a string whose delimiter is `]`, and what follows is read
  with the braces in the open; the attempt fails only after 2^(n+1) readings and the document is
  then read as verbose fields.
* C62: the parser recurses once for each level of nesting and nothing limits it: `(`, n times `[`,
  n times `]`, `)` is accepted and needs n+3 nested calls. In Rust a stack overflow aborts the
  process. The model has no stack: C17 (parsing is total) is about a stack which is large enough.
* C63: a unit and an empty tuple (or container) are not equal and have the same text `()`.
* C64: `[b:X]` with its lines after `a = 1` is accepted and before it is rejected; `a = inf` before
  `[b]` is rejected (`inf` is taken for an id of what the bracket begins) and after it accepted.
* C61/C47: fields of a verbose container may follow each other on one line (`a = 1 [[b]]`).
* C65: `{:?}` writes field names as they are: a struct with the fields `a` and `b` and one with the single
  field `a: Kserd { id: None, val: Unit }, b` (the encoder accepts it) print the same.
* C66: `apply_config` does not start afresh. A value which can not have the form asked of it keeps the one it had,
  so after another configuration or an `inline` the text can differ from the text of a new formatter, and `verbose`
  on a node does not bring back what `inline` on it did to its entries. A larger width limit can take more lines
  (19: 3 lines, 20: 8 lines): concise entries start 4 columns to the right of verbose ones.
* C67: the length of the text of a deeply nested value is quadratic in its size as soon as it has line breaks, because
  each level is indented by four more spaces: n tuples inside each other take at least 4 n² characters.
* C68: a text in the verbose layout which is cut off is accepted without its last lines, or with a shorter number; the
  id `inf` or `str1one1` before a bracket is a value of its own when the rest is cut off.
* C69: appending a document with the same `[[name]]` elements adds to them instead of replacing them (fields are replaced).
* C69: a word such as `inf` on one line and a bracket on the next are taken together, as an id and its bracket, and the
  text is rejected.
* C70: with a width limit one more digit in a number can change the layout of everything around it (as intended); without
  one, or at equal width, nothing else moves.
* C71: in a tuple, replacing a string by a number can make the text unreadable, if a later string has an '=' in it and a
  delimiter other than quotes.
* C72: an id on a tuple of one element makes it a newtype: `Any(true)` is not decoded as the tuple `(bool,)` or as a `Vec<bool>`,
  `(true)` is.  An empty tuple called `None` is not decoded as an empty `Vec`.
* C73: the order of a struct's Kserds is that of its fields sorted by name, not of their declaration: versions
  `(major 1, build 9)` and `(major 2, build 3)` are ordered the other way round once encoded.  Variants of an enum are ordered
  by their contents: `Hours(2)` comes before `Minutes(30)`, whatever the declaration says.
* C74: a blank line in front of `[1, 2]` makes it an error, in front of `a = 1` it does not; a carriage return alone at the
  end is an error after `a = 1` but not after `(a = 1)`.  A `str` with a line feed as delimiter is read differently once a
  blank slips in behind it.
* C75: making a field optional (`x: i32` to `x: Option<i32>`) is a breaking change, as is the reverse: the encoder writes
  `Some(1)`, and the decoder takes neither a bare value for an Option nor `Some(1)` for an integer.
* C76: an integer of more than 64 bits is called 0 in an error, and an f32 or f64 is asked for as `$t` (`stringify!($t)`
  outside of the macro).
* C77: no fixed stack is enough to write every value; the depth of nesting is not limited anywhere.
* C78: `[true []]` (a list with the id `true` in a list), written over several lines, is accepted and read as the two elements
  `true` and `[]`; so is the id `1`. A string which contains both quotes, `#` and a backtick is delimited by '=':
  the tuple of the string `1) str_'"#\`` is written `(str=1) str_'"#\`=)` and, with the id `a_` on a following line,
  read as a container with the field `str` and more elements. Data can inject structure; the value is silently another one.
  A map in a container in the outermost container, with titles, is read as a field of the outermost one.
* C80: laying out a flat container takes work quadratic in its fields: the column of each field is found by `nth` on the
  fields from the first on.
* C59: the text for a field name which begins with a digit does not tell the name.
* C32: `{Red: true, Green: false}` with enum keys comes back as `{Red: false}`;
  `struct Some(u8)` and `struct None()` are encoded but not decoded.
* C33: floats beyond the 128 bit types saturate when decoded at these.
* C34: values which do not survive the default configuration.
* C35: `Some(None)` and `None` become the same Kserd; `Ok(x)` and `Err(x)` become
  Kserds which are `==`.
* C37: trailing commas are rejected. C42: tuples outside of enums ignore further
  elements.
* C43: 7.038531e-26_f32 comes back as its successor (double rounding); the sign
  of a NaN is lost.
