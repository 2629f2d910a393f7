# Formal model of PoignardAzur/venial in Rocq (Coq 8.16.1)

venial is a recursive-descent parser from proc-macro token streams to a small
syntax tree, plus printers (`ToTokens`), accessors and builders on that tree.
All of it is sequential, pure up to `&mut` on a token iterator, so the model is
a set of total Gallina functions.

## Modelling decisions

* **Tokens.** `TokenStream` is `list tok`; `tok` is group / ident / punct /
  literal with its span (proc_macro2's *fallback* representation: a group has
  one span). Idents are byte strings (`r#x` keeps its prefix, so a raw ident
  never equals a keyword, as in proc_macro2). Spans are opaque numbers with a
  distinguished call-site value.
* **Iterator.** `Peekable<IntoIter>` is the list of remaining tokens; `clone`
  and assignment (rollback) are reuse of the old list.
* **Panics** are values: `outcome A = Ret a | Panic p | OutOfFuel`, with one
  `panic` constructor per panic site (the three
  `unreachable!` share one); those of the shared helpers carry the helper's arguments. `Result<_, Error>` stays data.
* **Loops** run on fuel `S (length remaining)`; nesting (items in modules,
  members in bodies) runs on fuel `S (nesting depth)`. Exhaustion is
  `OutOfFuel`, and C09 proves no input exhausts it.
* **Arithmetic.** `bracket_count: i32` is an unbounded `Z` (overflow needs
  2^31 unclosed `<` tokens).
* **Printing** (`tokens.append` on `&mut TokenStream`) is a function returning
  the appended list.

## Plan per property

| Property | Modelled / proved how |
|---|---|
| C01 C05 C15 | `Grammar.v` states well-formed trees (`wf_*`) independently of the parser; completeness lemma per parser function (`p (print x ++ rest) = Ret (x, rest)`), composed by induction on module nesting |
| C02 C03 C26 C27 C28 C30 C38 | soundness lemma per parser function: success implies `wf` of the result (up to the two visible anomalies); C03 = C02 + C01 |
| C04 C06 C07 | inductive relation `lossy` (keep / descend into group / listed edits); same soundness induction; C06 refuted by witnesses |
| C08 | case analysis on the definition of parse_item against a relational statement |
| C09 | fuel adequacy: every loop body consumes a token, every recursion goes into a group |
| C10 | panic-kind invariant over all parsers |
| C11 C12 | characterisation of Err results, both directions |
| C13 C14 | relational spec of "first top-level stop"; inductive grammar of nested types |
| C16 C17 C18 | case analysis + soundness lemmas |
| C19-C25 C29 C45 C46 C53 | expected to be false of the code: refutations by witness, and general negative statements where possible, next to the positive theorem that does hold |
| C31 C32 C33 | algebra of Punctuated, induction over push sequences |
| C34-C38 | builders: list equations + wf preservation + C01 |
| C39-C43 C52 | accessors against list-level specifications |
| C44 C47 C48 | path parser: completeness + soundness, as for items |
| C49 C50 C51 | error and span model, `Span::join` and `Literal::string` universally quantified |
| C54 | case analysis per consumer |
| C55-C58 | insertion into a punctuated list, name/predicate builders: equations against list-level specs |
| C59-C61 | Debug formatting modelled as a document plus the two std renderers; checked against all recorded snapshots |
| C62 | token substitutions applied leaf by leaf to trees; one commutation lemma per parser and printer |
| C63, C64 | consequences of the exact characterisation of `consume_item`: unique decoding, independence of what follows |
| C65 | replacing code (bodies, macro groups) commutes with well-formedness |
| C66 | `consume_item` on a decorated stream, by cases on the keyword dispatch |
| C67, C68 | the builders composed with the parser: one tree built explicitly, then C01; induction over call sequences |
| C69, C70 | syntax that panics: symbolic evaluation, with a lemma that skips any well-formed list prefix |
| C71 | exact characterisation of headers and of members, glued by `consume_item_iff` |
| C72, C73 | tree transformations that commute with well-formedness, then C01 |
| C74, C75 | `RustSyntax.v` states a fragment of the Rust Reference; induction over it shows that every scan passes over it; then C01 |
| C76 | the paths of the fragment are unfolded into `wf_path` values and C44 applies; every other type stops the path loop at its head or after a segment |
| C77 | the fragment is closed under the list edits; the derive output is assembled as a fragment `impl`, then C74 |
| C78 | every `wf_*` test is kept when a type is replaced by one over which all scans pass; then C01 |
| C79 | spellings of lists joined and cut; the header, the tail and the follow test do not depend on the list |
| C80 | C49, the exact domain of `consume_item`, C64 and C11 |
| C81 | case analysis on the constructors; characters of names |
| C82 | the counter is at most the number of `<` read; induction on the stream |
| C83 | completeness of `nest n` by induction on `n`, with the result as measure |
| C84 | part by part: equal descriptions give equal parts once spans, spacing and final commas are removed |
| C85 | a scan of matching brackets ends where it began, by induction on `matched`; conversely by splitting a closed run |
| C86 | `RustAny.v` states the fragment without the restrictions; a scan that passes over a type of it shows that the type has the flags of the scan; then C01 |
| C87 | where the arrow of a bound cuts a generic parameter list short, the next token is the start of a type, which no item can go on with; the other restrictions by inversion of the parser of each kind |
| C88 | where clauses and tuple fields that are misread are replaced by ones that print the same and are read as themselves, so parsing follows from C01; the panics from the inversions of C87 |
| C89 | C87 with arbitrary tokens after each item: a read item is of the fragment or stops where no item starts; then induction over members and nested modules, where completeness gives the start of the next member |
| C90 | a table with one text per reachable panic site, checked by computation; the rest by a pass over all parsers showing that only listed sites occur, with the facts that a scan that must find its end leaves that end, and that `consume_fn` says trait/impl/mod only behind a lone `unsafe` |
| C91 | read off the shape of parsed items (C02) for everything declared at any depth; the false readings by witness |
| C92 | a pass over all parsers comparing the run on a list with the run on an extension of it: equal, or up to the end; one text with a continuation per site, by computation |
| C93 | by the characterisation of faithful printing (C01): renaming a well-formed tree gives a well-formed one exactly if every name is allowed at its place, by a pass over all trees |
| C94 | as C93, over the places of attributes and visibilities; how printed items start decides what may follow an open tuple struct |
| C95 | each parser either runs the same on every extension or has a completion accepted by what may follow it; composed over binds, loops and the scan (an identifier and the missing `>` close a run) |
| C96 | as C93: every part of a well-formed tree is well-formed by itself, so a tree put together from such parts is well-formed exactly if its separators and neighbours are |
| C97 | a second transcription as a state monad over the iterator; one equation per function, loops by induction on the rounds |
| C98 C99 | the same transcription counts operations and copied tokens; an amortised bound per function (a constant, a price per token, a higher price for tokens in groups), composed over binds, loops and nesting; the lower bound (a successful parse calls next at least once per token it removes) by a separate induction; the square by exact evaluation on modules of n functions |
| C100 C101 | the messages of the imperative transcription: a predicate closed under taking tokens out of groups holds for all tokens shown; every run is decided by one token, which contains what is shown, composed over binds, loops and groups; with C95 this token is the first wrong one |
| C102 | an automaton cuts the text into lexemes; a description whose leaves are lexemes is determined by its text (induction on the description, indentation is undone line by line), up to `[]`; then every printed item is such a description, by the shape of parsed items |
| C103 | the elements of each list are `lively` like the parsers of C95, the loops are too (induction on the number of tokens); together with C101 a strong induction over prefixes gives the first wrong token; modules by the same loop argument over `consume_item`; bodies of impls have the third case `doomed`, decided by what follows the qualifiers |
| C104 | an invariant of the transcription in Imp.v: every way to die has the form listed per site, with a token that the site refuses; the finitely many live sites (C90) are compared pairwise by their fixed beginnings; the token is read back with the decoding of C102 |
| C105 | the split of tokens as a function on lists and on trees; every test of the grammar gives the same answer after it (as in C73), so C01 applies; the error by C11; parsed items by C04 |
| C106 | the places of runs as a type, with the tokens that end a run and those that cannot start it; the grammar conditions equal `fits` place by place (C13 for the positions), so C01 applies; filling as in C93, with C106_runs, C106_same, C106_identity and C106_twice saying that it changes the listed runs and nothing else; C106_skeleton splits preservation into that of the skeleton and that of each run |
| C107 | renaming (C93) and filling (C106) commute and keep each other's lists; C106_skeleton moves the question to the renamed skeleton, where C93 applies; witnesses for visibilities (C94) |
| C108 | changing attributes (C94) commutes with renaming and filling; renaming keeps the places of attributes, so C94 applies to the renamed item, and C106_skeleton reduces runs to the skeleton; witness for visibilities and names |

Nothing in the list turned out to be inexpressible; what is left out of the
model is listed under "Not modelled".

## Files

| File | Content |
|---|---|
| `Tokens` `Ast` `Punctuated` `Print` `ParseUtils` `ParseType` `ParseFn` `ParsePath` `ParseItem` `Edit` `Machine` `Debug` | the model; each definition cites the /repo lines it copies |
| `Imp` | the parsers once more, as computations on a mutable iterator, with a count of its operations |
| `Grammar` `Spelling` `Lossy` `Stable` `ScanSpec` `PathSpec` `Blind` `RustSyntax` `RustAny` | specifications written without the parser: trees a parse may return (`wf_*`, `shape_*`), their spellings (`spells_*`), the permitted losses of a reprint, the stable items, the scanning and path specs, token substitutions, a fragment of the Rust grammar, with and without the restrictions of the crate |
| `Lex` `Samples` | a small lexer used only to write concrete inputs in examples, and one large sample module |
| `Base` `Unfold` `PrintSpells` `Complete*` `Safe` `Sound*` `LossyProof` `PathProof` `DebugText` | lemmas, one per parser function |
| `Prop*` | the claimed theorems `Cnn_...`, each with a concrete example |
| `RepoTests` | the unit tests of /repo/src/tests.rs replayed on the model |
| `DocTests` | the examples of the documentation comments replayed on the model |
| `Audit` | `Print Assumptions` of every claimed theorem |

## Trusted base

* The Rocq 8.16.1 kernel and the standard library.
* The model files listed above: that they say what the Rust code says. This is
  a hand translation, so it is checked in four ways. Each definition cites the
  lines it copies. `RepoTests.v` runs the model on the inputs of all unit tests
  in /repo/src/tests.rs and compares the Debug text with all 113 recorded
  `.snap` files, byte for byte. The mutants in `seeded/LOG.jsonl` show that a
  slip in a definition breaks theorems. The parsers are transcribed twice,
  functionally and as statements on an iterator (`Imp.v`), and C97 proves that
  both agree.
* The statements: `Grammar.v`, `ScanSpec.v`, `PathSpec.v` and the definitions
  at the top of the `Prop*` files.
* No axiom: `Audit.v` prints "Closed under the global context" for every
  claimed theorem. `coqchk` additionally lists the primitives of
  `Coq.ssr.ssrunder`, which the standard library loads; no theorem here uses
  them.

## Behaviour of libraries taken as given

* `proc_macro2`: a stream is a list of token trees; `Ident == "x"` compares the
  text; `Spacing` is `Alone` or `Joint`; `Punct::new` has the call-site span.
  `Span::join` and `Literal::string` are universally quantified where they
  matter.
* `quote`: `Option<T>` prints nothing for `None`; leaf tokens append
  themselves.
* `std`: `Vec`, `Peekable`, `Option` in the obvious way; the Debug builders
  (`debug_struct`, `debug_tuple`, `debug_list`, `{:#?}` padding, `str` Debug
  escapes for ASCII) from their documentation, checked against the snapshots.

## Not modelled

* Panic messages in the functional model: there a panic is identified by its site, and for
  `parse_any_ident`, `parse_ident` and `parse_punct` also by the context and by whether the
  tokens had ended. The full messages are in the imperative transcription (`Imp.v`).
* Non-ASCII letters in the check of `Ident::new` (the ASCII check is in
  `Machine.v`).
* The split of negative literals into two tokens by `TokenStream`, except in `PropSign.v` (C105).
* `DelimSpan::open` and `close`: a group has one span.
* `i32` overflow of the angle bracket counter, except in `Machine.v` (C82).
* `escape_debug` of non-ASCII characters.
* Stack depth and running time. C98 and C99 count operations on token iterators; `clone` of an
  iterator and `stream().into_iter()` are taken to copy every token they hold, and the cost of
  building the tree, of `Vec` and of formatting messages is left out.
* `Deref`-style one-line wrappers, `get_inline_generic_args` (a constructor
  call) and the `#[doc(hidden)]` re-exports have no definition of their own.

## Findings

The refuted properties record behaviour that contradicts the documentation or
common expectations. Each has a witness in Coq.

* `static mut X: T = ..;` panics (C21).
* A typed receiver `self: Box<Self>` panics (C22).
* `struct S(crate::Foo);` is read as visibility `crate` and type `::Foo` (C19).
* `struct S(pub (A, B));` panics (C20).
* `where T::Item: X` is split at the first colon of `::` (C23).
* `<F: Fn() -> T>` panics (C24).
* Constants containing `<` and `>` as comparison operators merge (C25).
* `extern crate x as _;` never sets `tk_underscore` (C29).
* `as_path` panics on some inputs such as `Foo<'a + 'b>` (C45).
* `Punctuated::insert` in the middle ignores the given comma (C55).
* `bounded_lifetime` builds a detached apostrophe (C60).
* `with_where_predicate` on `struct S<T>(T)` prints a stream that panics when
  parsed (C35).
* Reprinting loses tokens in the cases listed by the `lossy` relation of C04:
  for example the `;` after a braced struct, `&` before a typed parameter and
  attribute tokens after the first group.
* `<T = u8>`, pattern parameters, `foo![..]`, `a::b!{..}`, `type A<T> = ..;` and
  trait aliases panic (C69).
* A visibility passed through `$vis` of a `macro_rules` macro panics, or becomes
  part of the type of a tuple field (C70).
* `impl dyn for<'a> Tr<'a> {}` is silently read as an impl of the trait `dyn` for
  the type `<'a> Tr<'a>` (C75).
* `as_path` reports `dyn ::a::B` as a path whose first segment is `dyn` (C76).
* Macro members and macro items accept different names and prefixes:
  `impl A { struct! {} }` and `pub m! {}` parse, `struct! {}` and
  `impl A { pub m! {} }` panic (C71).
* A trailing comma after a type with an unclosed `<` becomes part of the type (C72).
* The documentation of `create_derive_where_clause` shows the new predicates in
  front of the old ones; the code puts them after (C36).
* A parameter with a raw name parses and prints, but `GenericParam::ty` and the
  other constructors panic on that name (C81).
* In Debug output a punctuation character inside a type or value cannot be told from a
  string literal of that character, nor `pub()` from `pub` (C84).
* Constants with shift or comparison operators panic: `const FLAG: u32 = 1 << 3;`,
  `const TOP: u32 = X >> 3;` (C85).
* The documentation of `parse_item` says that derive input never panics;
  `struct S<F: Fn(u8) -> u8> { f: F }` does (C88).
* Two constants of a module can be read as one:
  `mod m { const K: u8 = 1 < 2; const K: u8 = 2 > 1; }` (C89).
* Twelve panic sites of the parsers are dead code: the three `unreachable!`, the `assert!` of
  parse.rs:120, the `unwrap` of parse_impl.rs:133 and 274 and parse_type.rs:107, all five calls of
  `parse_ident`, and the checks for `;` at parse_impl.rs:62 and parse_mod.rs:84 (C90).
* `tk_declared_name` is set for any macro, not only `macro_rules!`; `const X: u8 = ;` is accepted; a
  receiver may have a lifetime, which the documentation excludes, even without `&` (C91).
* A member macro may be named `struct`, `use` etc. (`impl S { union! { } }`), but the same macro is not
  accepted as an item; moving it out of the impl breaks the output (C96).
* Parsing a module or impl of n functions copies about 2n^2 tokens, because each function clones
  the rest of the body to look at its qualifiers (C99).
* Two panic messages blame a token that is fine: `foo bar` is reported as an unexpected `foo` although `foo` may begin a
  macro call, and `const async unsafe static X: u8 = 1;` as an unexpected `unsafe`. After `enum E { A = 1 + 1 }` any
  further token is reported as trailing, and the error on the enum is lost. The word "impl" in "unsupported impl item"
  also appears for traits and extern blocks (C101).
* A member of an impl, trait or extern block that is not supported (`unsafe trait B ..`, `static X ..`) is read to its end
  before it is refused, so an error inside it is reported first (C103).
* "unsupported impl item `None`" is the message both of a member `None` and of a `static` that is the last member of an impl
  or trait: the refused member is not shown, only what follows it. All other messages tell the site, except `unwrap` of
  `None`, which says nothing (C104). The context "fn/type/const/static/extern/extern crate" is never printed (C104).
* A variant whose value is set to a negative literal (`Literal::i8_unsuffixed(-1)`) is printed as `= - 1`, which
  venial itself rejects; a negative literal anywhere else in a list of tokens is harmless (C105).
* The types, bounds and values of an item can be set to any tokens, and most of them survive: the left side of a where
  predicate may even contain `where`, `for` and commas. What does not survive is decided by C106 for every place, e.g.
  `impl` without generics for a qualified path `<T as X>::Y`, a `crate::` path or an attribute in a tuple field.
* Making a tuple field public and giving it a parenthesised type are harmless alone and lose the item together (C107).
* Attributes, names and token runs may be edited in one go and checked one by one; hiding a field and calling it `crate`
  are harmless alone and lose the item together (C108).
