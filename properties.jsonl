{"id": "C01", "title": "Print then parse is the identity on the supported grammar", "statement": "For every well-formed Item value x (any of the 13 kinds, any nesting of modules), parse_item(x.to_token_stream()) returns Ok(y) with y equal to x in every field, including spans, spacings, group spans, comma tokens and the trailing-comma flag.", "quantifier": "every well-formed item syntax tree", "why_tests_cant": "The set of token streams / syntax trees is infinite (unbounded nesting, list lengths, identifiers, spans); snapshots sample a few dozen.", "anchors": ["src/parse.rs:parse_item", "src/parse.rs:consume_item", "src/types.rs:ToTokens impls"]}
{"id": "C02", "title": "Every parsed item satisfies the shape invariants", "statement": "Whenever consume_item/parse_item returns Ok(x), x satisfies the documented field invariants: keyword fields hold that keyword, punctuation fields hold that character, optional parts come together (body xor semicolon, arrow iff return type, for iff trait type, as iff alias, braces xor semicolon of a mod), groups have the right delimiter, captured types contain no top-level terminator.", "quantifier": "every token stream on which the parser succeeds", "why_tests_cant": "The set of token streams / syntax trees is infinite (unbounded nesting, list lengths, identifiers, spans); snapshots sample a few dozen.", "anchors": ["src/parse.rs:consume_item", "src/types.rs"]}
{"id": "C03", "title": "Parse is stable under reprinting", "statement": "If parse_item(ts) = Ok(x) and x is not one of the two item-visible anomalies (a named-field struct with a semicolon, a constant with a mut token, at any module depth), then parse_item(x.to_token_stream()) = Ok(x).", "quantifier": "every token stream on which the parser succeeds", "why_tests_cant": "The set of token streams / syntax trees is infinite (unbounded nesting, list lengths, identifiers, spans); snapshots sample a few dozen.", "anchors": ["src/parse.rs:parse_item", "src/types.rs:ToTokens impls"]}
{"id": "C04", "title": "Reprinting loses at most a fixed list of tokens", "statement": "Whenever consume_item returns Ok(x), the tokens it consumed and x.to_token_stream() are the same token sequence, spans included and inside groups too, except for edits from a fixed list: visibility dropped before impl / macro, `;` dropped after a braced struct, tokens after the first group of an attribute dropped, `&` / lifetime dropped before a typed parameter, a default comma inserted where a separator was missing after a receiver or a variant, and `mut` duplicated in `static mut: T`.", "quantifier": "every token stream on which the parser succeeds", "why_tests_cant": "The set of token streams / syntax trees is infinite (unbounded nesting, list lengths, identifiers, spans); snapshots sample a few dozen.", "anchors": ["src/types.rs:ToTokens impls", "src/parse_fn.rs:parse_fn_params", "src/parse_utils.rs:consume_attributes_with_inner"]}
{"id": "C05", "title": "Exact round trip on canonical streams", "statement": "For every token stream that spells a well-formed item, x = parse_item(ts) satisfies x.to_token_stream() == ts token for token, with the same spans.", "quantifier": "every token stream spelling a well-formed item", "why_tests_cant": "The set of token streams / syntax trees is infinite (unbounded nesting, list lengths, identifiers, spans); snapshots sample a few dozen.", "anchors": ["src/tests.rs:parse_declaration_checked", "src/parse.rs:parse_item"]}
{"id": "C06", "title": "Parse then print is lossless on every accepted stream", "statement": "parse_item(ts) = Ok(x) implies x.to_token_stream() == ts.", "quantifier": "every token stream on which the parser succeeds", "why_tests_cant": "The round-trip helper in tests.rs checks this on a few dozen inputs; the property is false on inputs the tests do not contain.", "anchors": ["src/tests.rs:parse_declaration_checked", "src/parse.rs:consume_item", "src/types.rs:1107-1126"]}
{"id": "C07", "title": "consume_item removes a non-empty prefix", "statement": "When consume_item returns (Ok or Err), the tokens left in the iterator are a proper suffix of the tokens it was given; it never reorders, duplicates or invents input tokens.", "quantifier": "every token stream on which consume_item returns", "why_tests_cant": "The set of token streams / syntax trees is infinite (unbounded nesting, list lengths, identifiers, spans); snapshots sample a few dozen.", "anchors": ["src/parse.rs:consume_item"]}
{"id": "C08", "title": "parse_item is consume_item plus a leftover check", "statement": "parse_item returns a value exactly when consume_item returns that value and leaves no token; it panics with the trailing-token panic when consume_item returns (Ok or Err) and leaves tokens; otherwise it panics as consume_item does.", "quantifier": "every token stream", "why_tests_cant": "The set of token streams / syntax trees is infinite (unbounded nesting, list lengths, identifiers, spans); snapshots sample a few dozen.", "anchors": ["src/parse.rs:59-71"]}
{"id": "C09", "title": "The parser terminates on every input", "statement": "consume_item, parse_item, TypeExpr::as_path and WhereClausePredicate::parse return or panic on every finite token stream, with recursion depth bounded by group nesting; no loop iteration fails to consume a token.", "quantifier": "every token stream", "why_tests_cant": "Non-termination is only visible on the input that triggers it.", "anchors": ["src/parse.rs", "src/parse_utils.rs", "src/parse_type.rs", "src/parse_impl.rs", "src/parse_mod.rs"]}
{"id": "C10", "title": "Internal unreachable!() and assertions are never hit", "statement": "No input makes parse_item, as_path or WhereClausePredicate::parse reach an unreachable!() or fail the `assert!(where_clause.is_none())` for tuple structs.", "quantifier": "every token stream", "why_tests_cant": "Absence of a panic over an infinite input space.", "anchors": ["src/parse_utils.rs:156", "src/parse_utils.rs:268", "src/parse_fn.rs:189", "src/parse.rs:121"]}
{"id": "C11", "title": "Err is returned only for complex enum discriminants", "statement": "If consume_item returns Err(e) then the item is an enum with a variant whose `= value` is followed by a token other than a comma, and e has exactly one message, the documented text, located at the span of the first discriminant token. Conversely an enum whose first offending variant is such a variant yields that Err.", "quantifier": "every token stream", "why_tests_cant": "The set of token streams / syntax trees is infinite (unbounded nesting, list lengths, identifiers, spans); snapshots sample a few dozen.", "anchors": ["src/parse_type.rs:299-324", "src/parse.rs:134-159"]}
{"id": "C12", "title": "A complex discriminant inside a module is a panic, not an Err", "statement": "If a member of a `mod { .. }` is an enum with a complex discriminant, the whole call panics; Err never escapes from inside a module.", "quantifier": "every module body whose next item is such an enum", "why_tests_cant": "The set of token streams / syntax trees is infinite (unbounded nesting, list lengths, identifiers, spans); snapshots sample a few dozen.", "anchors": ["src/parse_mod.rs:42-46"]}
{"id": "C13", "title": "Opaque token runs end exactly at the first top-level terminator", "statement": "The token run captured for a type, bound, initializer or use tree is the longest prefix containing no terminator outside angle brackets and no `>` closing an unopened bracket, where a `>` right after `-` is not a bracket.", "quantifier": "every token stream and terminator set", "why_tests_cant": "The set of token streams / syntax trees is infinite (unbounded nesting, list lengths, identifiers, spans); snapshots sample a few dozen.", "anchors": ["src/parse_utils.rs:218-273"]}
{"id": "C14", "title": "Commas nested in angle brackets never split a field", "statement": "For every type made of plain tokens, groups, `->` arrows and properly nested `<..>` lists containing arbitrary commas, a tuple or named field of that type followed by `,` or the end is captured whole, whatever the nesting depth.", "quantifier": "every nested type expression of any depth", "why_tests_cant": "The set of token streams / syntax trees is infinite (unbounded nesting, list lengths, identifiers, spans); snapshots sample a few dozen.", "anchors": ["src/parse_type.rs:280-297", "src/parse_utils.rs:218-273"]}
{"id": "C15", "title": "Items can be consumed one after another", "statement": "Calling consume_item repeatedly on the concatenated spellings of any list of well-formed items returns exactly those items in order and leaves what follows.", "quantifier": "every finite list of well-formed items and every legal continuation", "why_tests_cant": "The set of token streams / syntax trees is infinite (unbounded nesting, list lengths, identifiers, spans); snapshots sample a few dozen.", "anchors": ["src/parse.rs:86", "src/parse_mod.rs:38-47"]}
{"id": "C16", "title": "The item kind is decided by the leading keyword", "statement": "After outer attributes and visibility, the first token alone decides which Item variants can result: struct/enum/union/mod/trait/impl/static/use/type give that kind, a non-keyword identifier gives Macro, anything else panics.", "quantifier": "every token stream on which the parser succeeds", "why_tests_cant": "The set of token streams / syntax trees is infinite (unbounded nesting, list lengths, identifiers, spans); snapshots sample a few dozen.", "anchors": ["src/parse.rs:90-247"]}
{"id": "C17", "title": "Outer attributes are captured completely and in order", "statement": "The attributes of a parsed item are exactly the maximal leading run of `#[..]` pairs, in order, and their path/value splits are at the first group or `=`.", "quantifier": "every token stream", "why_tests_cant": "The set of token streams / syntax trees is infinite (unbounded nesting, list lengths, identifiers, spans); snapshots sample a few dozen.", "anchors": ["src/parse_utils.rs:85-171"]}
{"id": "C18", "title": "Visibility markers are exactly pub, pub(..) and crate", "statement": "Every vis_marker in a parsed item, field, variant or member is `pub`, `pub` followed by a parenthesis group, or `crate`; in particular the Debug impl of VisMarker never reaches its unreachable!().", "quantifier": "every token stream on which the parser succeeds", "why_tests_cant": "The set of token streams / syntax trees is infinite (unbounded nesting, list lengths, identifiers, spans); snapshots sample a few dozen.", "anchors": ["src/parse_utils.rs:187-212", "src/types.rs:971-985"]}
{"id": "C19", "title": "A tuple field of type crate::Foo keeps its type", "statement": "struct S(crate::Foo); parses with one private field whose type is crate::Foo.", "quantifier": "every path starting with crate in tuple-field position", "why_tests_cant": "No test covers it; the property is false.", "anchors": ["src/parse_utils.rs:206", "src/parse_type.rs:336-339"]}
{"id": "C20", "title": "A public tuple field may have a tuple type", "statement": "struct S(pub (A, B)); is accepted.", "quantifier": "every public tuple field whose type is parenthesised", "why_tests_cant": "No test covers it; the property is false.", "anchors": ["src/parse_utils.rs:193"]}
{"id": "C21", "title": "static mut declarations parse", "statement": "static mut X: T = v; parses to a Constant with tk_mut set and name X, as documented on Constant.", "quantifier": "every static mut declaration", "why_tests_cant": "No test covers it; the documented example panics.", "anchors": ["src/parse_impl.rs:30-36", "src/types.rs:303-321"]}
{"id": "C22", "title": "Typed self receivers parse as typed parameters", "statement": "fn f(self: T) parses with a FnTypedParam named self, as documented on FnReceiverParam.", "quantifier": "every typed self parameter", "why_tests_cant": "No test covers it; the property is false.", "anchors": ["src/parse_fn.rs:84-110", "src/types.rs:424"]}
{"id": "C23", "title": "Where-predicate left sides may contain paths", "statement": "In `where T::Item: Bound` the predicate's left side is T::Item.", "quantifier": "every where predicate whose left side contains a top-level ::", "why_tests_cant": "No test covers it; the property is false.", "anchors": ["src/parse_type.rs:231-240", "src/types_edition.rs:763-795"]}
{"id": "C24", "title": "Generic parameter bounds may contain a top-level arrow", "statement": "struct S<F: Fn() -> T>(F); is accepted with bound Fn() -> T.", "quantifier": "every generic parameter bound with a top-level ->", "why_tests_cant": "No test covers it; the property is false.", "anchors": ["src/parse_type.rs:72-75", "src/parse_utils.rs:234-241"]}
{"id": "C25", "title": "Constants in a module stay separate", "statement": "Two const items in a module body are returned as two members, whatever comparison operators their initializers contain.", "quantifier": "every pair of constants", "why_tests_cant": "No test covers it; the property is false: `<` in one and `>` in a later one are paired as brackets.", "anchors": ["src/parse_impl.rs:49-53", "src/parse_utils.rs:229-236"]}
{"id": "C26", "title": "Function shape", "statement": "A parsed Function has exactly one of body / tk_semicolon, a return type iff an arrow, an ABI only with extern, and one parameter entry per source parameter in order.", "quantifier": "every token stream on which a function is parsed", "why_tests_cant": "The set of token streams / syntax trees is infinite (unbounded nesting, list lengths, identifiers, spans); snapshots sample a few dozen.", "anchors": ["src/parse_fn.rs:148-257"]}
{"id": "C27", "title": "Module shape", "statement": "A parsed Module has exactly one of tk_semicolon / tk_braces; with tk_semicolon it has no members and no inner attributes.", "quantifier": "every token stream on which a module is parsed", "why_tests_cant": "The set of token streams / syntax trees is infinite (unbounded nesting, list lengths, identifiers, spans); snapshots sample a few dozen.", "anchors": ["src/parse_mod.rs:12-66", "src/types.rs:178-188"]}
{"id": "C28", "title": "Impl shape", "statement": "A parsed Impl has trait_ty iff tk_for; its body members are functions, consts, types and macros, never statics.", "quantifier": "every token stream on which an impl is parsed", "why_tests_cant": "The set of token streams / syntax trees is infinite (unbounded nesting, list lengths, identifiers, spans); snapshots sample a few dozen.", "anchors": ["src/parse_impl.rs:229-294"]}
{"id": "C29", "title": "extern crate .. as _ sets tk_underscore", "statement": "A parsed ExternCrate stores `_` in tk_underscore and no alias.", "quantifier": "every extern crate declaration", "why_tests_cant": "The snapshot records the opposite; documentation says otherwise. False for every input.", "anchors": ["src/parse_extern.rs:21-41", "src/types.rs:846-849"]}
{"id": "C30", "title": "Statics only appear in extern blocks", "statement": "impl and trait bodies never contain a static member; extern blocks accept them.", "quantifier": "every token stream on which such a body is parsed", "why_tests_cant": "The set of token streams / syntax trees is infinite (unbounded nesting, list lengths, identifiers, spans); snapshots sample a few dozen.", "anchors": ["src/parse_impl.rs:188-227"]}
{"id": "C31", "title": "Punctuated behaves as a list under push", "statement": "After any sequence of pushes, items() is the pushed values in order, len/is_empty agree with it, and printing yields every value with its own comma (a default comma where none was given), omitting only the final comma when the last push had none.", "quantifier": "every sequence of push calls", "why_tests_cant": "The set of token streams / syntax trees is infinite (unbounded nesting, list lengths, identifiers, spans); snapshots sample a few dozen.", "anchors": ["src/punctuated.rs:29-33", "src/punctuated.rs:97-111"]}
{"id": "C32", "title": "Punctuated::insert inserts and only inserts", "statement": "insert(i,..) panics iff i > len; otherwise items() becomes the old list with the value at position i, and all other values and commas are unchanged; at i = len it equals push.", "quantifier": "every punctuated list, index, value, comma", "why_tests_cant": "The set of token streams / syntax trees is infinite (unbounded nesting, list lengths, identifiers, spans); snapshots sample a few dozen.", "anchors": ["src/punctuated.rs:41-51"]}
{"id": "C33", "title": "punct() and items() describe what is printed", "statement": "For every punctuated list, the printed tokens are items() interleaved with punct(), and punct() has len items, or len-1 when the last comma is skipped.", "quantifier": "every punctuated list", "why_tests_cant": "The set of token streams / syntax trees is infinite (unbounded nesting, list lengths, identifiers, spans); snapshots sample a few dozen.", "anchors": ["src/punctuated.rs:53-66", "src/punctuated.rs:97-111"]}
{"id": "C34", "title": "with_param adds one parameter and the result still parses", "statement": "For Struct/Enum/Union/GenericParamList, with_param puts a lifetime first and any other parameter last, keeps every other parameter and field unchanged, and for a well-formed item and parameter the printed result parses back to exactly that item.", "quantifier": "every well-formed item and parameter", "why_tests_cant": "The set of token streams / syntax trees is infinite (unbounded nesting, list lengths, identifiers, spans); snapshots sample a few dozen.", "anchors": ["src/types_edition.rs:374-379", "src/types_edition.rs:559-566"]}
{"id": "C35", "title": "with_where_predicate appends one predicate and the result still parses", "statement": "The where clause afterwards is the old predicates followed by the new one, nothing else changes, and the printed result parses back to it.", "quantifier": "every well-formed item and predicate", "why_tests_cant": "The set of token streams / syntax trees is infinite (unbounded nesting, list lengths, identifiers, spans); snapshots sample a few dozen.", "anchors": ["src/types_edition.rs:384-391", "src/types_edition.rs:744-755"]}
{"id": "C36", "title": "create_derive_where_clause adds exactly one bound per type parameter", "statement": "The result's predicates are the existing ones followed by `P: derived_trait` for each type parameter P in declaration order; lifetimes and consts get none.", "quantifier": "every item and trait token stream", "why_tests_cant": "The set of token streams / syntax trees is infinite (unbounded nesting, list lengths, identifiers, spans); snapshots sample a few dozen.", "anchors": ["src/types_edition.rs:462-478"]}
{"id": "C37", "title": "Inline generic args agree with owned args and reparse", "statement": "For every parsed parameter list to_owned_args does not panic, and the inline arguments' printed form, parsed as generic arguments, has exactly the arguments of to_owned_args, one per parameter, in order, bounds removed.", "quantifier": "every well-formed generic parameter list", "why_tests_cant": "The set of token streams / syntax trees is infinite (unbounded nesting, list lengths, identifiers, spans); snapshots sample a few dozen.", "anchors": ["src/types.rs:1543-1557", "src/types_edition.rs:694-741"]}
{"id": "C38", "title": "Lifetime/type/const parameters partition the list", "statement": "Every parameter of a parsed item is in exactly one of get_lifetime_params, get_type_params, get_const_params, in order.", "quantifier": "every token stream on which the parser succeeds", "why_tests_cant": "The set of token streams / syntax trees is infinite (unbounded nesting, list lengths, identifiers, spans); snapshots sample a few dozen.", "anchors": ["src/types_edition.rs:394-433", "src/types_edition.rs:668-686"]}
{"id": "C39", "title": "Field accessors agree", "statement": "field_names, field_tokens and field_types have one entry per field in order; tuple structs yield the decimal indices 0..n-1, pairwise distinct; named structs yield the field names.", "quantifier": "every struct", "why_tests_cant": "The set of token streams / syntax trees is infinite (unbounded nesting, list lengths, identifiers, spans); snapshots sample a few dozen.", "anchors": ["src/types_edition.rs:298-343"]}
{"id": "C40", "title": "is_c_enum and get_single_type", "statement": "is_c_enum is true iff every variant has no fields; get_single_type is Some(f) iff the variant is a one-element tuple whose field is f.", "quantifier": "every enum and variant", "why_tests_cant": "The set of token streams / syntax trees is infinite (unbounded nesting, list lengths, identifiers, spans); snapshots sample a few dozen.", "anchors": ["src/types_edition.rs:358-365", "src/types_edition.rs:525-541"]}
{"id": "C41", "title": "Mutable accessors are lenses", "statement": "Writing through attributes_mut / generic_params_mut is visible through attributes() / generic_params(), leaves every other part of the item unchanged, and generic_params_mut is available exactly when generic_params is Some.", "quantifier": "every item and new value", "why_tests_cant": "The set of token streams / syntax trees is infinite (unbounded nesting, list lengths, identifiers, spans); snapshots sample a few dozen.", "anchors": ["src/types_edition.rs:16-118"]}
{"id": "C42", "title": "name() is the declared name", "statement": "name() of a parsed item is None exactly for impl, use and extern blocks, and otherwise the identifier the source declares (for a macro, its path name).", "quantifier": "every item", "why_tests_cant": "The set of token streams / syntax trees is infinite (unbounded nesting, list lengths, identifiers, spans); snapshots sample a few dozen.", "anchors": ["src/types_edition.rs:120-136"]}
{"id": "C43", "title": "Exactly one as_xxx accessor succeeds", "statement": "For every item exactly one of the thirteen as_xxx accessors returns Some, and the payload rebuilds the item.", "quantifier": "every item", "why_tests_cant": "The set of token streams / syntax trees is infinite (unbounded nesting, list lengths, identifiers, spans); snapshots sample a few dozen.", "anchors": ["src/types_edition.rs:139-240"]}
{"id": "C44", "title": "as_path recognises exactly the paths", "statement": "For every well-formed path p, TypeExpr(p's tokens).as_path() = Some(p); and whenever as_path returns Some(p), p's tokens are the type's tokens (after removing one invisible group) up to dropped surplus commas in argument lists.", "quantifier": "every type expression", "why_tests_cant": "The set of token streams / syntax trees is infinite (unbounded nesting, list lengths, identifiers, spans); snapshots sample a few dozen.", "anchors": ["src/types_edition.rs:802-811", "src/parse_utils.rs:301-335", "src/parse_type.rs:170-213"]}
{"id": "C45", "title": "as_path returns None on non-paths", "statement": "TypeExpr::as_path never panics: it returns None if the tokens are not a path.", "quantifier": "every type expression", "why_tests_cant": "Documented totality; false, with short witnesses the tests do not contain.", "anchors": ["src/types_edition.rs:798-811", "src/parse_type.rs:129-168", "src/parse_type.rs:205"]}
{"id": "C46", "title": "Path separators are recognised whatever follows them", "statement": "A `::` separator is recognised as such regardless of the spacing of its second colon (as in Type::<T> lexed from source).", "quantifier": "every path with a turbofish", "why_tests_cant": "Tests build tokens with quote!, which always gives Alone; false for Joint.", "anchors": ["src/parse_utils.rs:282-298"]}
{"id": "C47", "title": "as_path looks through one invisible group", "statement": "as_path of a type wrapped in a None-delimited group equals as_path of the wrapped tokens, unless those are again a single invisible group.", "quantifier": "every token list", "why_tests_cant": "The set of token streams / syntax trees is infinite (unbounded nesting, list lengths, identifiers, spans); snapshots sample a few dozen.", "anchors": ["src/types_edition.rs:802-821"]}
{"id": "C48", "title": "WhereClausePredicate::parse keeps every token", "statement": "When parse returns, printing the predicate gives back the input tokens; it panics iff the input has no colon outside angle brackets before an unmatched `>` or the end.", "quantifier": "every token stream", "why_tests_cant": "The set of token streams / syntax trees is infinite (unbounded nesting, list lengths, identifiers, spans); snapshots sample a few dozen.", "anchors": ["src/types_edition.rs:763-795"]}
{"id": "C49", "title": "Errors always have a message; combine concatenates", "statement": "Any Error built by the public API has at least one message, so span() and Display never panic; combine is associative, keeps the first error's Display text and span, and to_compile_error of a combination is the concatenation of the parts' outputs, one compile_error!{..} per message.", "quantifier": "every finite sequence of constructors and combine calls", "why_tests_cant": "The set of token streams / syntax trees is infinite (unbounded nesting, list lengths, identifiers, spans); snapshots sample a few dozen.", "anchors": ["src/error.rs:65-161"]}
{"id": "C50", "title": "Error locations", "statement": "new_at_tokens uses the spans of the first and last token (the call site if there is none); the emitted ident and `!` carry the start span, the group and literal the end span.", "quantifier": "every token list and message", "why_tests_cant": "The set of token streams / syntax trees is infinite (unbounded nesting, list lengths, identifiers, spans); snapshots sample a few dozen.", "anchors": ["src/error.rs:94-106", "src/error.rs:136-160"]}
{"id": "C51", "title": "span() covers the printed item", "statement": "span() of any node is the join of the spans of its first and last printed token, falling back to the first when join is unavailable; for items it is never the call-site default invented for empty streams.", "quantifier": "every syntax node and every join behaviour", "why_tests_cant": "The set of token streams / syntax trees is infinite (unbounded nesting, list lengths, identifiers, spans); snapshots sample a few dozen.", "anchors": ["src/types_edition.rs:823-861"]}
{"id": "C52", "title": "Attribute accessors", "statement": "get_single_path_segment is Some(i) iff i is the only identifier of the path; get_value_tokens is the tokens after `=` or inside the group, and empty otherwise.", "quantifier": "every attribute", "why_tests_cant": "The set of token streams / syntax trees is infinite (unbounded nesting, list lengths, identifiers, spans); snapshots sample a few dozen.", "anchors": ["src/types_edition.rs:490-523"]}
{"id": "C53", "title": "Generic argument lists keep every comma", "statement": "consume of `<A,,>` or `<,>` keeps all commas when printed back.", "quantifier": "every generic argument list", "why_tests_cant": "False: a surplus comma is dropped; no test covers it.", "anchors": ["src/parse_type.rs:189-203"]}
{"id": "C54", "title": "consume_xxx without a match consumes nothing", "statement": "As promised in ARCHITECTURE.md, every optional-syntax consumer that reports absence (None or empty) leaves the token stream untouched.", "quantifier": "every token stream", "why_tests_cant": "The set of token streams / syntax trees is infinite (unbounded nesting, list lengths, identifiers, spans); snapshots sample a few dozen.", "anchors": ["ARCHITECTURE.md", "src/parse_utils.rs", "src/parse_type.rs", "src/parse_fn.rs:259-271"]}
{"id": "C55", "title": "The comma given to Punctuated::insert is stored", "statement": "insert(i, v, Some(c)) stores the comma c next to v.", "quantifier": "every punctuated list, valid index, value and comma", "why_tests_cant": "No test calls insert with a comma; the property is false for every index below the length.", "anchors": ["src/punctuated.rs:41-51"]}
{"id": "C56", "title": "Constructed generic parameters survive print and parse", "statement": "A parameter made by GenericParam::lifetime, bounded_lifetime, ty, bounded_ty or const_param and added to an item is read back unchanged when the item is printed and parsed: always for lifetime, for ty unless the name is `const`, and for the bounded and const forms exactly when the given tokens have no top-level comma or closing angle bracket.", "quantifier": "every name and every bound or type token list", "why_tests_cant": "The set of names, token lists and items is infinite; no test builds these and reparses them.", "anchors": ["src/types_edition.rs:582-665"]}
{"id": "C57", "title": "WhereClausePredicate::parse splits at the first top-level colon and loses nothing", "statement": "WhereClausePredicate::parse(tokens) puts the tokens before the first colon in left_side and everything after it in the bound, so that printing gives the tokens back; without such a colon it panics.", "quantifier": "every token stream", "why_tests_cant": "The set of names, token lists and items is infinite; no test builds these and reparses them.", "anchors": ["src/types_edition.rs:763-795"]}
{"id": "C58", "title": "A predicate made by WhereClausePredicate::parse stays one predicate", "statement": "A predicate made by WhereClausePredicate::parse and added to an item is still exactly that one predicate after printing and parsing.", "quantifier": "every token stream and item", "why_tests_cant": "The set of names, token lists and items is infinite; no test builds these and reparses them.", "anchors": ["src/types_edition.rs:763-795", "src/types_edition.rs:739-761"]}
{"id": "C59", "title": "Debug output panics exactly on a malformed visibility, and never on a parsed item", "statement": "Formatting an item with {:?} or {:#?} returns a text exactly when the second token of every visibility marker anywhere in the tree is absent or a group; otherwise both forms hit unreachable!(). An item returned by consume_item always formats.", "quantifier": "every item, parsed or hand-built", "why_tests_cant": "Snapshots format a few dozen parsed items; hand-built trees and arbitrary nesting are not covered.", "anchors": ["src/types.rs:864-1073", "src/types.rs:971-985"]}
{"id": "C60", "title": "Constructed lifetimes print as lifetime tokens", "statement": "GenericParam::lifetime and GenericParam::bounded_lifetime print an apostrophe with Spacing::Joint followed by the name, as rustc requires of a lifetime token.", "quantifier": "every name and every bound", "why_tests_cant": "The only snapshot of bounded_lifetime records the detached apostrophe as expected output; the names and bounds are unbounded.", "anchors": ["src/types_edition.rs:582-620"]}
{"id": "C61", "title": "Debug of an error shows every message and determines their texts", "statement": "{:?} of an Error is Error(\"text\") for a single message and Error([\"a\", \"b\", ...]) otherwise, with texts escaped so that two errors with the same output have the same message texts in the same order.", "quantifier": "every error (ASCII texts)", "why_tests_cant": "Injectivity over all texts, including ones with quotes and backslashes, is not observable from examples.", "anchors": ["src/error.rs:164-190"]}
{"id": "C62", "title": "The parser sees keywords, punctuation characters and delimiters, and nothing else", "statement": "Change the spans, the spacing of punctuation, the texts of literals and the names of identifiers anywhere in a stream, so that keywords stay and nothing else becomes one. Then parse_item and consume_item return the original result with exactly the same change applied leaf by leaf, including the error spans, or panic at the same place. Printing commutes with the change too. Hence two streams that agree after forgetting names, spans, spacing and literal texts are both accepted, both rejected or both panic alike.", "quantifier": "every token stream, every such substitution (names may depend on the whole token), every item", "why_tests_cant": "It relates runs on infinitely many pairs of streams; a parser that looked at a span, a Joint/Alone flag or a particular identifier would pass all recorded snapshots.", "anchors": ["src/parse.rs:1-239", "src/parse_type.rs:1-444", "src/parse_utils.rs:1-335", "src/parse_fn.rs:1-301", "src/types.rs:1077-1668"]}
{"id": "C63", "title": "Printed items decode uniquely", "statement": "If two items that the parser can hold and reprint stably print, followed by some leftovers, to the same tokens, they are the same item with the same leftovers; a printed file decodes to one list of items only. Without the stability condition two parsed items can print alike: struct S { x: u8 } with and without a trailing semicolon.", "quantifier": "all pairs of items and leftover streams; all pairs of item lists", "why_tests_cant": "Uniqueness ranges over all pairs of trees; a printer that loses a part shows up only for the pairs that differ there.", "anchors": ["src/types.rs:1077-1668", "src/parse.rs:86-239"]}
{"id": "C64", "title": "What follows an item does not influence how it is read", "statement": "If consume_item reads an item from the tokens c, leaving r, then after replacing r by s it reads the same item and leaves s exactly if the follow condition holds (only a struct looks at what follows: a where clause or a semicolon). Errors are independent of what follows as well.", "quantifier": "all streams c, r, s and all items or errors", "why_tests_cant": "Tests read items with at most a handful of continuations; the statement covers all of them, including ones that start with punctuation or keywords.", "anchors": ["src/parse.rs:86-239", "src/parse_type.rs:16-444"]}
{"id": "C65", "title": "Function bodies and macro contents are opaque", "statement": "Replacing the tokens inside every function body and every macro call's group in a stable item, however deeply nested, gives an item that again prints and reparses to itself, and nothing outside those groups changes. Likewise replacing the body of a function in the source changes only the body of the parsed function.", "quantifier": "all items, all replacement maps on token lists, all sources of functions", "why_tests_cant": "A parser that peeked into bodies would differ only on bodies with particular contents.", "anchors": ["src/parse_fn.rs:148-301", "src/parse.rs:86-239", "src/parse_mod.rs:1-95", "src/types.rs:1077-1668"]}
{"id": "C66", "title": "Attributes and visibility do not influence how the rest is read", "statement": "Reading attributes, a visibility marker and then an item gives what reading the item alone gives, with the attributes put in front and the visibility stored where the kind of item has one; errors, panics and leftovers are the same.", "quantifier": "all lists of attributes, all visibility markers, all streams that do not themselves begin with an attribute or visibility", "why_tests_cant": "It relates two runs for every prefix and every stream, including failing ones.", "anchors": ["src/parse.rs:86-239", "src/parse_utils.rs:1-335"]}
{"id": "C67", "title": "The tokens a derive macro builds from an item parse to the intended impl", "statement": "For a struct, enum or union i, a trait and any members, the stream  impl <generics of i> Trait for Name <inline args of i> <create_derive_where_clause> { members }  parses to an impl with exactly those generics, trait, where clause and members, and its self type is the one-segment path Name whose arguments are the parameters of i in order.", "quantifier": "every item the parser can return, every trait token list without top-level terminators, every list of impl members, every continuation", "why_tests_cant": "It composes three builders and the parser over all parameter lists and where clauses; tests show single instances of each builder.", "anchors": ["src/types_edition.rs:436-475", "src/types_edition.rs:694-741", "src/types.rs:1543-1580", "src/parse_impl.rs:225-294"]}
{"id": "C68", "title": "Chains of builder calls", "statement": "Any sequence of with_param and with_where_predicate calls on a struct, enum or union succeeds. New lifetimes come first, the last one leftmost; the other new parameters and the new predicates are appended in call order; nothing else changes. The printed result parses back to the same item, unless a tuple struct without semicolon got a where clause. Adding a parameter and adding a predicate commute.", "quantifier": "all items, all call sequences", "why_tests_cant": "Tests chain one or two calls; the order rule and the punctuation invariant have to survive arbitrarily many.", "anchors": ["src/types_edition.rs:380-475", "src/types_edition.rs:560-690"]}
{"id": "C69", "title": "Syntax that always panics", "statement": "These always panic, whatever surrounds them: a generic parameter with a default but no bound, at any position; a function parameter that is a pattern, at any position; macro calls with square brackets; macro calls with a path; macros named like an item keyword other than impl and use; generic type aliases; trait aliases; items starting with a literal, a group or punctuation other than #.", "quantifier": "all names, all well-formed preceding list elements, all continuations", "why_tests_cant": "A test fixes the continuation; the statements quantify over everything that follows and over the elements before.", "anchors": ["src/parse_type.rs:20-93", "src/parse_fn.rs:72-116", "src/parse_fn.rs:259-301", "src/parse.rs:86-239"]}
{"id": "C70", "title": "Visibility in an invisible group is not recognised", "statement": "A visibility that arrives as a None-delimited group, as $vis from a macro_rules macro does, panics in front of an item and in front of a named field at any position, and is read as part of the type in front of a tuple field.", "quantifier": "all groups, all preceding fields, all continuations", "why_tests_cant": "The snapshots contain no None-delimited group at all.", "anchors": ["src/parse_utils.rs:187-212", "src/parse_type.rs:326-392", "src/parse.rs:86-239"]}
{"id": "C71", "title": "Blocks are read member by member, independently of their header", "statement": "If a header followed by some braced body parses as an impl, trait, extern block or module, then with any other body it parses to the same header with members ms exactly when the body is a concatenation of pieces each of which, alone at top level, parses as the corresponding item (for modules: when repeated consume_item reads the body as those items and leaves nothing). Macro members, whose admissible names differ from top level, and bodies with inner attributes are excluded for impl, trait and extern blocks.", "quantifier": "all headers, all bodies, all member lists", "why_tests_cant": "Tests fix one header and one body each; this factors every combination.", "anchors": ["src/parse_impl.rs:122-343", "src/parse_mod.rs:12-66", "src/parse_extern.rs:54-99"]}
{"id": "C72", "title": "Trailing commas are optional", "statement": "Removing the trailing comma of every comma-separated list of an item (generic parameters, where predicates, fields, variants, function parameters, at every nesting level) from an item that round-trips gives an item that round-trips with the same elements; so does adding one everywhere, provided every field and parameter type closes its angle brackets. Without that proviso the comma becomes part of the type.", "quantifier": "all items, all commas", "why_tests_cant": "Snapshots contain a few lists with and without trailing comma; none varies all of them at once.", "anchors": ["src/parse_type.rs:44-93", "src/parse_type.rs:215-278", "src/parse_type.rs:326-444", "src/parse_fn.rs:72-116", "src/punctuated.rs:1-126"]}
{"id": "C73", "title": "The contents of groups in types and expressions are opaque", "statement": "Replacing the contents of every bracketed, parenthesised, braced or invisible group inside types, bounds, values, discriminants and use trees of an item by arbitrary tokens does not change whether the item round-trips. In particular a type passed as an invisible group is always read as one unit.", "quantifier": "all items, all replacement functions", "why_tests_cant": "A test can only try some contents.", "anchors": ["src/parse_utils.rs:218-273", "src/parse_type.rs:280-324"]}
{"id": "C74", "title": "A stated fragment of Rust is parsed correctly", "statement": "Every item of a fragment of Rust, described on tokens after the Rust Reference and independently of the crate (types with paths, qualified paths, references, pointers, tuples, arrays, fn pointers, trait objects; bounds; generics; where clauses; all item kinds), is parsed without panic or error into the tree the grammar assigns to it, alone or in a sequence of items. The fragment leaves out what other properties show to fail (arrows in generic bounds, :: on the left of where predicates, patterns, static mut).", "quantifier": "all items of the fragment", "why_tests_cant": "The grammar generates infinitely many items; the snapshots contain about a hundred.", "anchors": ["src/parse.rs:59-239", "src/parse_type.rs:1-444", "src/parse_fn.rs:1-301", "src/parse_impl.rs:1-343", "src/parse_mod.rs:1-95", "src/parse_extern.rs:1-99"]}
{"id": "C75", "title": "The self type of an inherent impl", "statement": "Whatever Rust type stands between impl and the body, it is the self type and there is no trait. (Refuted: impl dyn for<'a> Tr<'a> {} is read as an impl of trait `dyn` for `<'a> Tr<'a>`. It holds for types without a for outside of angle brackets and groups; trait impls are split at their own for whenever the trait has none.)", "quantifier": "all types of the fragment of C74", "why_tests_cant": "The snapshots have no higher-ranked trait object in an impl header.", "anchors": ["src/parse_impl.rs:229-294"]}
{"id": "C76", "title": "as_path tells the paths among Rust types", "statement": "On the types of the fragment of C74, as_path returns Some exactly for paths: every path gives its segments, in order, each with its arguments classified as lifetime, binding or other and with their tokens kept; references, pointers, qualified paths, tuples, arrays, fn pointers, trait objects, macro calls and Fn(A) calls give None; and it does not panic. (Refuted: dyn ::a::B is reported as a path whose first segment is `dyn`. Everything else is proved, with the panic-freedom for every type that is not a single invisible group.)", "quantifier": "all types of the fragment", "why_tests_cant": "The tests call as_path on a handful of types, none of them a trait object of a global path.", "anchors": ["src/parse_utils.rs:282-335", "src/parse_type.rs:95-213", "src/types_edition.rs:800-820"]}
{"id": "C77", "title": "Builders and derive output stay in the Rust fragment", "statement": "If a declaration lies in the fragment of C74 and Rust parameters or predicates are added with the builders, in any number and order, the result lies in the fragment. The constructors of parameters and WhereClausePredicate::parse give Rust parameters and predicates; Name with the inline or owned generic arguments is a Rust type; and the impl that a derive macro assembles from these parts, a Rust trait path and Rust members is a Rust impl, and parses.", "quantifier": "all declarations, parameters, predicates, traits and members of the fragment", "why_tests_cant": "The property ranges over all inputs of a derive macro and all chains of builder calls; the tests run single calls on samples.", "anchors": ["src/types_edition.rs:368-485", "src/types_edition.rs:556-741", "src/types_edition.rs:743-797", "src/types.rs:1543-1557"]}
{"id": "C78", "title": "Types in an item may be replaced", "statement": "If an item prints and parses back to itself, it still does after any of the types of its fields, parameters, results, constants, aliases and trait-impl self types (in nested modules, too) are replaced by Rust types that do not start with crate or a tuple; the result is the item with the new types. In the Rust fragment, every rewriting of types that keeps Rust types keeps the fragment; for example Name<..> around every type.", "quantifier": "all items, all replacements of types", "why_tests_cant": "No test edits a type and parses the result; the property ranges over all items and all replacement functions.", "anchors": ["src/parse_type.rs:256-407", "src/parse_fn.rs:72-141", "src/parse_impl.rs:20-343", "src/types.rs:1087-1500"]}
{"id": "C79", "title": "Comma separated lists are read element by element", "statement": "Behind one header, a list that ends with a comma followed by a second list is read as the elements of the first and then those of the second, exactly as each list is read alone. Conversely a list can be cut after any element into two lists that are read as its first and last elements; only after an enum variant with fields or a receiver may the comma be missing at the cut. Holds for enum variants, union fields, named and tuple struct fields, and function parameters.", "quantifier": "all headers, lists, cuts and following tokens", "why_tests_cant": "Tests read fixed lists of a few elements; the property compares the readings of all pairs of lists and of all their cuts.", "anchors": ["src/parse_type.rs:326-444", "src/parse_fn.rs:72-116", "src/punctuated.rs:1-126"]}
{"id": "C80", "title": "Emitted errors are items and members", "statement": "The tokens of Error::to_compile_error are read as one macro item per message. After a successfully parsed item they never continue it; emitted instead of an item whose parsing failed they parse as exactly one macro item; and appended to the body of an impl or trait they are read as further macro members.", "quantifier": "all errors, items, impl and trait bodies, all renderings of string literals", "why_tests_cant": "No test parses emitted errors; the property ranges over all errors and all items or bodies they are added to.", "anchors": ["src/error.rs:120-160", "src/parse_fn.rs:259-301", "src/parse_impl.rs:122-227"]}
{"id": "C81", "title": "Names given to the parameter constructors", "statement": "GenericParam::lifetime, bounded_lifetime, ty, bounded_ty and const_param panic exactly when the name is not a plain ASCII identifier (so with an apostrophe, a space or a raw prefix), and otherwise build the parameter. Any parsed parameter with a plain name can be rebuilt from its name, kind and bound; the text is the same. Expected for every parsed parameter, but false for raw names, which parse and print but cannot be rebuilt.", "quantifier": "all names, bounds and parsed parameters", "why_tests_cant": "Tests call each constructor with one or two literal names; the property covers every string.", "anchors": ["src/types_edition.rs:582-665", "src/types.rs:1470-1500"]}
{"id": "C82", "title": "The bracket counter never overflows on real input", "statement": "With the i32 counter of the source, with or without overflow checks, consume_stuff_until behaves as with an unbounded counter on every token stream with fewer than 2^31 opening angle brackets. The bound is exact: with 2^31 of them the debug build panics and the release build ends the type early.", "quantifier": "all token streams, stop predicates and build modes", "why_tests_cant": "The failing inputs have two billion tokens, and the claim is about every smaller stream.", "anchors": ["src/parse_utils.rs:218-273"]}
{"id": "C83", "title": "Recursion depth of the parser", "statement": "An item is parsed with recursion no deeper than the nesting of modules in the result, plus one level for a trait, impl or extern block; groups inside bodies, types, values, attributes and macros never add to the depth.", "quantifier": "all accepted token streams", "why_tests_cant": "Tests cannot observe the depth; the property bounds it for every accepted input, however deeply its groups are nested.", "anchors": ["src/parse.rs:86-239", "src/parse_mod.rs:12-66", "src/parse_impl.rs:122-227"]}
{"id": "C84", "title": "Debug output tells items apart", "statement": "If two parsed items are passed to the formatter in the same way by Debug, they are equal up to spans, spacing of punctuation and trailing commas; and Debug does not depend on spans. Expected without conditions on the text, but false in two cases: a punctuation character in a type or value is shown like the string literal of that character, and the text of pub() is that of pub.", "quantifier": "all parsed items whose literals are not one-character strings", "why_tests_cant": "Snapshot tests compare the output of some items with a stored text; they do not show that no two different items share an output.", "anchors": ["src/types.rs:864-1073", "src/punctuated.rs:87-95", "src/types.rs:868-888", "src/types.rs:971-985"]}
{"id": "C85", "title": "Operators in the value of a constant", "statement": "A constant or static with a value is parsed with exactly that value if the angle brackets of the value match, and panics otherwise. Expected for every value, but false for ordinary shifts and comparisons: a `<` without a `>` (1 << 3) and a `>` before any `<` (X >> 3) panic.", "quantifier": "all names, Rust types and values", "why_tests_cant": "The repository has tests of some constants; none has an operator made of angle brackets, and only a proof covers every expression.", "anchors": ["src/parse_impl.rs:19-76", "src/parse_utils.rs:218-272"]}
{"id": "C86", "title": "The known restrictions are the only ones", "statement": "Take the fragment of Rust with arrows, higher-ranked `for` and path separators at every place, types of tuple fields of any form, values of any form, `static mut`, typed `self` and macro calls in square brackets. An item of it is parsed into its own tree exactly if it has no arrow in a bound of a generic parameter, no `::` to the left of a where predicate, no `for` in an impl header, no `crate` or (after pub) `(` at the start of a tuple field type, only matched angle brackets in values, and none of the three other forms. None of the nine restrictions can be dropped.", "quantifier": "all items of the relaxed fragment, modules included", "why_tests_cant": "Tests show some inputs that work and some that do not; the property says that there are no other reasons for a failure in this part of Rust.", "anchors": ["src/parse.rs:86-239", "src/parse_type.rs:140-330", "src/parse_utils.rs:218-272", "src/parse_impl.rs:19-227", "src/parse_fn.rs:95-301"]}
{"id": "C87", "title": "Rust outside the restrictions panics instead of being misread", "statement": "Take an item of the relaxed fragment of C86 that is a struct, enum, union, function, constant, static, type alias, macro call, use or extern crate. If no left side of its where predicates has path separators and no private tuple field type starts with `crate`, then parse_item returns the item itself or panics; it never returns another item or an error. It panics exactly if the item is outside of the restricted fragment. Both conditions are needed, and the property is false for impl blocks.", "quantifier": "all flat items of the relaxed fragment", "why_tests_cant": "A test shows that some inputs panic. That no input of an unbounded family is silently read as a different item is a universal statement.", "anchors": ["src/parse.rs:59-239", "src/parse_type.rs:140-330", "src/parse_fn.rs:95-301", "src/parse_impl.rs:19-76"]}
{"id": "C88", "title": "Which type declarations make the parser panic", "statement": "Input of a derive macro never makes parse_item panic (documentation of parse_item). This is false, and exactly these structs, enums and unions panic: those with an arrow outside of angle brackets in a bound of a generic parameter, those with a tuple field `pub` followed by a parenthesised type, and those with a private tuple field whose type is `crate`. Every other type declaration of the relaxed Rust fragment of C86, its discriminants being single tokens, is parsed, and the result prints the same tokens. (The fragment has no defaults of generic parameters, which panic as well, C69.)", "quantifier": "all structs, enums and unions of the relaxed fragment of C86", "why_tests_cant": "The documentation makes a universal claim. A test can refute it, but not show which inputs are safe.", "anchors": ["src/parse.rs:22-29", "src/parse.rs:59-84", "src/parse_type.rs:20-330", "src/parse_utils.rs:187-272"]}
{"id": "C89", "title": "Nested items outside the restrictions panic instead of being misread", "statement": "Inside modules, traits, impls and extern blocks, at any depth, Rust outside of the restrictions of the fragment is never silently parsed as something else: an item of the relaxed fragment of C86 whose where clauses and tuple fields are clean (C87) at every depth, whose trait and impl headers are within the restrictions and whose constants have values with matched angle brackets is parsed as exactly itself if all of it is in the fragment, and panics otherwise. Every item of the fragment meets the conditions. Without the condition on constants it is false: `mod m { const K: u8 = 1 < 2; const K: u8 = 2 > 1; }` has one member after parsing.", "quantifier": "all items of the relaxed fragment, nested to any depth", "why_tests_cant": "The claim is about every item nested in every other, next to every possible neighbour. A misread item would swallow tokens of its neighbours, which a test of a single item cannot show.", "anchors": ["src/parse_mod.rs:12-66", "src/parse_impl.rs:188-343", "src/parse_extern.rs:54-99", "src/parse.rs:59-239"]}
{"id": "C90", "title": "Exactly which panic sites the parsers can reach", "statement": "For every panic site p of the model: some token list makes parse_item panic at p exactly if p is in an explicit table of 84 sites, each with a text that reaches it; the checks for an expected identifier, keyword or punct count as two sites, one for a wrong token and one for the end of the tokens. The same for TypeExpr::as_path (5 sites) and WhereClausePredicate::parse (2 sites). Hence the unreachable!s, the assert! on tuple where clauses, three of the unwraps, every parse_ident check and the checks for `;` after a const/static or use are never reached.", "quantifier": "all token lists, all panic sites", "why_tests_cant": "A test shows that a site is reachable. That a site is dead for all inputs is a universal statement, and so is completeness of the table.", "anchors": ["src/parse.rs:59-239", "src/parse_utils.rs:13-66", "src/parse_utils.rs:215-272", "src/parse_impl.rs:19-343", "src/parse_fn.rs:148-301", "src/parse_type.rs:20-444", "src/types_edition.rs:763-810"]}
{"id": "C91", "title": "Optional fields of macros, constants, aliases and parameters mean what is documented", "statement": "For every item parsed, at every depth and including the members of traits, impls and extern blocks: a macro has parentheses and a `;` or braces and no `;`; a constant has the keyword const without mut or static, mut is the keyword mut, a value only behind `=` and never an empty one; a type alias has a type exactly if it has `=`; a receiver is self behind optional `&`, lifetime and mut; a typed parameter is not called self and has a nonempty type. In a path only the first segment may lack its `::`. Three readings of the documentation are false: `foo! bar { }` sets tk_declared_name without macro_rules, `const X: u8 = ;` has tk_equals without a value, and receivers with lifetimes are parsed (even `'a self` without `&`) although documented as not supported.", "quantifier": "all token lists, all declarations at every depth of the parsed item", "why_tests_cant": "The tests show fields of single items. That no input at all yields a field combination outside of the documented ones is a statement about every token list.", "anchors": ["src/types.rs:314-340", "src/types.rs:419-460", "src/types.rs:693-702", "src/types.rs:763-785", "src/parse_fn.rs:72-116", "src/parse_impl.rs:19-185"]}
{"id": "C92", "title": "Which panics can be due to missing tokens", "statement": "For 29 listed panic sites there is a token list on which parse_item panics at the site although a continuation of the list is parsed, and for no other site. At every other site a panic is final: if parse_item panics there on a list, it panics at the same site on every list that starts with it. Likewise, once consume_item returned an item or an error with tokens left, appending tokens only appends to what is left.", "quantifier": "all token lists, all continuations, all panic sites", "why_tests_cant": "That no continuation at all changes a verdict is a statement about infinitely many inputs per failing input; a test can only show that one continuation fails too.", "anchors": ["src/parse.rs:59-239", "src/parse_fn.rs:33-301", "src/parse_impl.rs:19-343", "src/parse_mod.rs:12-95", "src/parse_extern.rs:6-99", "src/parse_type.rs:16-278", "src/parse_utils.rs:13-273"]}
{"id": "C93", "title": "Exactly which renamings of declarations survive printing and parsing", "statement": "For every item that is printed and parsed faithfully and every function that gives each declared name (of items, members, fields, variants, parameters, generic parameters, macro_rules and extern crate aliases, at every depth) a new name: the renamed item is printed and parsed faithfully if and only if no new name is forbidden at its place. Forbidden are only: pub and crate for a field or variant without visibility; self for a parameter, and mut for one that is not mut; async, unsafe, extern, fn and mut for a const; mut for a static; const for a type parameter. Any other name works everywhere, including keywords.", "quantifier": "all faithfully printed items, all renamings", "why_tests_cant": "There are infinitely many items and names; that the list of forbidden names is complete for each place, and that renaming one declaration never disturbs another, cannot be seen from samples.", "anchors": ["src/types.rs:86-95", "src/types.rs:131-155", "src/types.rs:314-329", "src/types.rs:373-452", "src/types.rs:463-481", "src/parse_impl.rs:19-66", "src/parse_fn.rs:72-116", "src/parse_type.rs:44-92"]}
{"id": "C94", "title": "Exactly which changes of attributes and visibilities survive printing and parsing", "statement": "For every item that is printed and parsed faithfully and every replacement of outer attributes, inner attributes and visibilities, applied at every depth to everything that has some: the changed item is printed and parsed faithfully if and only if every new attribute is a well-formed attribute, every new visibility is pub, crate or pub(..), no field whose type or name starts with `#`, pub or crate is left without visibility, no tuple field whose type starts with parentheses gets a plain pub, and a macro called `where` behind a tuple struct without `;` keeps an attribute. In particular any set of attributes may be stripped, and everything may be made public, with just these exceptions.", "quantifier": "all faithfully printed items, all replacements", "why_tests_cant": "Stripping helper attributes and changing visibilities is done by attribute macros on arbitrary items; the exceptions depend on combinations of neighbouring parts that samples do not show.", "anchors": ["src/types.rs:463-535", "src/types.rs:1077-1130", "src/types.rs:1419-1465", "src/parse_utils.rs:100-215", "src/parse_type.rs:326-444", "src/parse.rs:86-239"]}
{"id": "C95", "title": "The parser gives up exactly when nothing can follow, and at the first such token", "statement": "Every token list is in exactly one of three cases: some tokens can be appended so that parse_item returns an item; or parse_item panics at one fixed site whatever is appended; or it is a whole enum whose discriminant error is returned, and anything appended is reported as trailing tokens. Hence a panic which some continuation changes can be repaired by some continuation, and a list that cannot be completed has a first token to blame: what stands in front of it can be completed, and the verdict does not depend on what follows it.", "quantifier": "all token lists and all continuations", "why_tests_cant": "Tests try finitely many inputs; that no continuation at all helps, or that one exists for every unfinished input including unbalanced angle brackets and half-read qualifiers, quantifies over unboundedly many tokens.", "anchors": ["src/parse.rs:59-239", "src/parse_utils.rs:218-273", "src/parse_fn.rs:33-257", "src/parse_type.rs:20-93", "src/parse_type.rs:215-278", "src/parse_impl.rs:19-343", "src/parse_extern.rs:6-99", "src/parse_mod.rs:12-95"]}
{"id": "C96", "title": "Exactly which items assembled from parts of other items survive printing and parsing", "statement": "Take any items that print and parse to themselves. Build a new item that has the header of one of them (or of an item nested in one) and whose lists - generic parameters, where predicates, fields, variants, fn parameters, impl, trait and extern members, module items, at every depth - are filled with elements of theirs in any order and number, members and free items being interchangeable. The new item prints and parses to itself exactly if: separators are commas, with only the last possibly missing; a field or parameter that is followed by a comma has a type without open angle brackets; no static is in an impl or trait; no macro in a module is named like an item keyword; and no macro `where` without attributes follows a tuple struct without `;`. Lists made with Punctuated::push with `,` or None satisfy the separator condition. In particular elements may be removed from all lists at every depth if no macro is named `where`.", "quantifier": "all sets of items that print and parse to themselves and all items assembled from their parts", "why_tests_cant": "Quantifies over all trees, all rearrangements at every depth and all mixtures of several source items; the failing cases are rare combinations of two pieces.", "anchors": ["src/punctuated.rs:29-33", "src/parse_type.rs:326-444", "src/parse_fn.rs:72-116", "src/parse_impl.rs:188-227", "src/parse_mod.rs:12-66"]}
{"id": "C97", "title": "A second, imperative transcription of the parsers computes the same as the model", "statement": "Transcribe the parsers a second time from the source, statement by statement, as computations on a mutable token iterator with peek, next and clone (assigning the clone back is the rollback). For every token list this transcription of consume_item, parse_item and consume_path returns the same result, leaves the same tokens and panics at the same site as the functional model that all other properties are about.", "quantifier": "all token lists", "why_tests_cant": "Agreement of two formulations on finitely many inputs says nothing about lookahead and rollback on other inputs; the two differ in how every rollback is expressed.", "anchors": ["src/parse.rs:59-239", "src/parse_utils.rs:13-335", "src/parse_type.rs:16-444", "src/parse_fn.rs:33-301", "src/parse_impl.rs:19-343", "src/parse_extern.rs:6-99", "src/parse_mod.rs:12-95"]}
{"id": "C98", "title": "The number of iterator operations is linear in the input", "statement": "For every token list, whether parsing succeeds, returns an error or panics: consume_item performs at most 165*s+152 calls of peek, next, clone and into_iter on its token iterators, where s is the number of tokens including those inside groups; parse_item at most two more, and consume_path at most 165*s+62. So neither lookahead nor rollback makes the parser read anything more than a bounded number of times. Conversely, when parse_item returns or consume_path finds a path, at least as many operations were performed as the input has tokens outside of groups, and consume_item performs at least as many as it removes.", "quantifier": "all token lists", "why_tests_cant": "Running times of samples cannot exclude an input on which rollbacks nest and the number of steps explodes.", "anchors": ["src/parse.rs:59-239", "src/parse_utils.rs:13-335", "src/parse_type.rs:16-444", "src/parse_fn.rs:148-301", "src/parse_impl.rs:122-343", "src/parse_extern.rs:54-99", "src/parse_mod.rs:12-66"]}
{"id": "C99", "title": "The number of tokens copied by lookahead is quadratic", "statement": "The number of tokens copied by cloning iterators and streams while one item is parsed is at most linear in the number of tokens of the item. REFUTED: a module with n empty functions has 4n+3 tokens and copies 2n^2+6n, because every function clones the rest of the module to look at its qualifiers. Corrected: for every input at most (165*s+152)*s tokens are copied, and this square is reached up to a constant for arbitrarily large inputs.", "quantifier": "all token lists", "why_tests_cant": "A bound on the cost for all inputs and a lower bound for an unbounded family are not observable on samples; the source only carries a TODO on cloning many tokens.", "anchors": ["src/parse_fn.rs:153-214", "src/parse_fn.rs:259-271", "src/parse_utils.rs:104-140", "src/parse_utils.rs:282-298", "src/parse_type.rs:150-213", "src/parse_mod.rs:30-66"]}
{"id": "C100", "title": "A panic message only names tokens of the input", "statement": "For every token list on which parse_item or consume_path panics: every token that the message of the panic shows, through {:?} or {}, is a token of the input or stands inside one of its groups; and the sites outside of an explicit list of twenty, and the reports of an expected token at the end of input, show no token at all.", "quantifier": "all token lists", "why_tests_cant": "Tests see the messages of a few samples; that no message anywhere reports a token invented, left over or taken from elsewhere needs all inputs and all sites.", "anchors": ["src/parse.rs:59-239", "src/parse_utils.rs:13-335", "src/parse_type.rs:16-444", "src/parse_fn.rs:33-301", "src/parse_impl.rs:19-343", "src/parse_extern.rs:6-99", "src/parse_mod.rs:12-95"]}
{"id": "C101", "title": "A panic message blames the first wrong token", "statement": "Call a token list viable if some continuation of it is an item. If parse_item panics, other than for trailing tokens, on a list that is not viable, then all tokens that the message shows are the first token after which the list is no longer viable, or stand inside of it. REFUTED by two exceptions: a lone identifier without `!` is shown instead of the token that follows it, and in `const async unsafe static` the legal `unsafe` is shown. Corrected: these two are the only exceptions. On a viable list, which only ends too early, the message shows no token, save that lone identifier as the last one. Trailing tokens are shown as a whole, and if an item precedes them the first of them is the first wrong token. The same inside of groups: the message of a panic in a parameter list, in the body of an enum or in the fields of a struct or variant shows a token of that list (or a part of it) after which every other rest gives the same panic; and consume_path shows only the token after an apostrophe or the token in the place of a closing angle bracket.", "quantifier": "all token lists", "why_tests_cant": "It compares the message with all continuations of all prefixes of the input, which no run observes.", "anchors": ["src/parse.rs:59-239", "src/parse_utils.rs:13-335", "src/parse_type.rs:16-444", "src/parse_fn.rs:153-301", "src/parse_impl.rs:19-343", "src/parse_extern.rs:54-99", "src/parse_mod.rs:12-95", "src/parse_fn.rs:72-116"]}
{"id": "C102", "title": "The text printed by Debug tells items apart", "statement": "If two parsed items are printed alike by {:?}, or alike by {:#?}, then they are equal up to spans, spacing of punctuation and trailing commas, provided that the source tokens are spelled like Rust (names are names; literals are single lexemes, not names and not strings of one character; no punctuation character is a double quote or a backslash) and contain no `pub` followed by empty parentheses. The same holds for lists of items. Unlike C84 this is about the characters, not about the calls made to the formatter: the brackets, commas and quotes of the text, with or without the indentation that {:#?} also puts inside of literals of several lines, can be read back in one way only.", "quantifier": "all pairs of token lists that are parsed as items", "why_tests_cant": "Snapshot tests compare the text of some items with a stored text; no finite set of snapshots shows that no two different items share a text.", "anchors": ["src/types.rs:864-1073", "src/punctuated.rs:87-95"]}
{"id": "C103", "title": "Lists inside groups are given up only, and at once, when nothing can follow", "statement": "For every list of tokens inside the parentheses of a function, the body of a struct, union or variant, the braces of an enum or the braces of a module: either some further tokens make the list acceptable, or the parser panics at one fixed place whatever tokens follow (for the variants of an enum also: is rejected with the same Err whatever follows). Hence when parameters, fields or variants panic, with a message that names the token at fault, the token shown is the first one after which the list can no longer be completed, or lies inside of that one if it is a group. The bodies of impls, traits and extern blocks have a third case: a member of an unsupported kind, such as `unsafe trait B` or a static outside of extern blocks, is read to its end before it is refused. The body then panics whatever follows, but the place of the panic is still open, and some continuation reaches the refusal of the member.", "quantifier": "all lists of tokens inside the groups", "why_tests_cant": "It speaks about all continuations of all lists, with an existential quantifier over completions.", "anchors": ["src/parse_fn.rs:72-116", "src/parse_type.rs:280-444", "src/parse_utils.rs:85-275", "src/parse_mod.rs:12-66", "src/parse_impl.rs:188-227"]}
{"id": "C104", "title": "A panic message has the form of its site and tells the site", "statement": "Whenever parse_item, consume_item or consume_path panics, the message is exactly the fixed text written at the panicking call, with the token, identifier or tokens of the input put in the place of the format argument. Of the two contexts passed to the parser of members only `impl` is ever printed; the error quoted in `declaration in mod: ..` is always the one about complex enum values; an `expected ..` message ends with None exactly if the tokens ran out. The token shown is one that the site refuses: not a word that starts a declaration or member, not the expected name, keyword or punct, not a `;` or group that would have been taken as the body. A literal or a bracketed or invisible group in place of a name, a body or a member of an impl, trait or extern block is itself shown, whatever follows it (members: for the listed heads and preceding members). If two inputs panic with the same text, they panicked at the same site (REFUTED in general: `impl A { None }` and `impl A { static A: B; }` both say \"unsupported impl item `None`\"; corrected: the sites are equal, or both are an unwrap of None, or the text is that one). If two inputs whose tokens are spelled like Rust panic at one site with one text, the tokens shown are equal up to spans, unless they are shown by Display (trailing tokens and visibilities).", "quantifier": "all pairs of token lists", "why_tests_cant": "The repository's should_panic tests compare a few messages; that no two of the 70-odd sites share a text, for any tokens put into the messages, is a statement about all pairs of inputs.", "anchors": ["src/parse.rs:59-239", "src/parse_utils.rs:13-275", "src/parse_type.rs:16-444", "src/parse_fn.rs:110-301", "src/parse_impl.rs:19-343", "src/parse_extern.rs:7-63", "src/parse_mod.rs:12-66"]}
{"id": "C105", "title": "Negative literals are printed as two tokens, and only discriminants and ABIs suffer", "statement": "A token stream stores a negative literal as a minus and the literal without its sign. (1) This leaves a stream alone exactly if it holds no negative literal, and an item parsed from such a stream is printed unchanged. (2) If an item that print and parse preserve holds negative literals, but none as discriminant or ABI, then the stream it is printed to is the print of the item whose lists of tokens have been split, and is parsed as that item. (3) If a variant of such an enum has a negative literal as its value, then parsing the printed enum returns the error about complex values, located at that literal.", "quantifier": "all items and all token lists", "why_tests_cant": "The tests only print items that were parsed, which hold no negative literals; the property is about every position a literal can have in an item built or edited by a macro.", "anchors": ["src/types.rs:1078-1084", "src/types.rs:1436-1455", "src/types.rs:1582-1596", "src/types.rs:1610-1615", "src/parse_type.rs:299-330"]}
{"id": "C106", "title": "Exactly which runs of tokens may take the place of a type, bound, value or use tree", "statement": "Take an item that print and parse preserve and replace the tokens of any of its field, parameter, result, constant, alias and impl types, bounds, sides of where predicates, constant values and use trees, at every depth. In full: an item is preserved by print and parse if and only if its skeleton (every run replaced by the identifier x) is preserved and every run fits its place. So the new item is preserved by print and parse if and only if every new run fits its place: outside of angle brackets it contains no token that ends a run there, all its angle brackets are closed (except that they may be left open in the last element of a list without a trailing comma), it is not empty where a type of a field or parameter or a value is expected, and it does not start with a token that is read as something else (an attribute or visibility before a tuple field, a parenthesised group after pub, a brace or semicolon in a where clause, '<' after impl without generics). Every Rust type, bound and value fits the places where Rust has a type, bound or value without such a restriction.", "quantifier": "all items that print and parse preserve, all replacements of their runs", "why_tests_cant": "The public fields can be set to any tokens; tests replace a few types by hand, while this decides every replacement in every place, and all at once.", "anchors": ["src/parse_utils.rs:218-273", "src/parse_type.rs:15-297", "src/parse_fn.rs:60-301", "src/parse_impl.rs:17-343", "src/types.rs:1186-1688"]}
{"id": "C107", "title": "Names and token runs are edited independently, visibilities and token runs are not", "statement": "Renaming the declarations of an item and replacing its types, bounds, values and use trees commute; renaming keeps the runs and replacing runs keeps the names. If an item is preserved by print and parse, then after both edits it is preserved if and only if it is preserved after each of them alone, i.e. if and only if every new name may be declared at its place and every new run fits its place. Changing visibilities is different: there are items for which publishing and replacing a type are harmless alone and lose the item together, and items for which replacing a type loses the item unless its visibility is removed as well.", "quantifier": "all items that print and parse preserve, all renamings, all replacements of runs", "why_tests_cant": "Independence is a statement about every pair of edits of every item; tests try one edit at a time.", "anchors": ["src/types.rs:1074-1688", "src/parse.rs:60-239", "src/parse_utils.rs:187-273", "src/parse_type.rs:326-392"]}
{"id": "C108", "title": "Attributes, names and token runs are edited independently, visibilities and names are not", "statement": "Replacing the outer and inner attributes of an item at every depth commutes with renaming its declarations and with replacing its types, bounds, values and use trees. If an item is preserved by print and parse, then after all three edits it is preserved if and only if it is preserved after each of them alone, so a tool may check the edits one by one; the same holds for attributes with names, and for attributes with runs. Changing visibilities is different: there is an item that is preserved by hiding its fields and by renaming them, but not by both.", "quantifier": "all items that print and parse preserve, all replacements of attributes, all renamings, all replacements of runs", "why_tests_cant": "Independence is a statement about every triple of edits of every item; tests try one edit at a time.", "anchors": ["src/types.rs:1074-1688", "src/parse.rs:60-239", "src/parse_utils.rs:37-186", "src/types_edition.rs:12-53"]}
