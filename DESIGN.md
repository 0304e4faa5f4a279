# Formal model of dnaka91/mabo in Rocq (Coq 8.16.1)

## Trusted base

* Coq's kernel (8.16.1) and the standard library.  No other library is used.
* `Print Assumptions` output for each property theorem: "Closed under the global
  context" unless listed in the section *Axioms* below.
* The reading of the Rust source: every definition of a model file (those with a source in the table below) cites the
  file and lines in /repo it transcribes and says where it simplifies.
* 64-bit target (`usize` = `u64`); allocation never fails; the Rust compiler, the
  `bytes`, `winnow`, `line-index`, `proc-macro2`/`quote` crates behave as documented.

## Axioms

None.  (`Print Assumptions` says "Closed under the global context" for every property
theorem.  vcheck's whole-context listing shows seven parameters of
`Coq.ssr.ssrunder.Under_rel`: a standard library module of that name is loaded through
`Lia`/`ssreflect` plumbing; no theorem depends on it.)

## Modelled and not modelled

Modelled, function by function: `crates/mabo/src/varint.rs`, `lib.rs` (FieldId, FieldEncoding),
`buf/{encode,decode,size}.rs`; what `crates/mabo-build/src/{encode,decode,size}.rs` emit (as an
interpreter over schemas, with the Rust types its expressions need: C69) and what `definition.rs` emits
(names, generics, and the tokens together with the part of syn that reads them: C75);
`crates/mabo-compiler/src/{ids,validate,simplify,resolve}`; `crates/mabo-parser/src` (parser, `Display` printer, and
the errors with their causes and places: C73, C74); `crates/mabo-meta/src/lib.rs`; the document store, incremental edits,
notification loop, token deltas, symbols, hover and diagnostics of `crates/mabo-lsp/src`, and its whole conversation with the editor (C76-C79); what
`crates/mabo-go/src/{definition,encode,decode}.rs` emit, over an abstract Go runtime, and the text of its files (C84, C85, C93);
the impl blocks, functions, literals and documentation of the generated Rust files (C75, C91, C92); the pages of `mabo-doc` (C83, C94);
project discovery (C88) and the files the benchmarks use (C87); which files
`mabo-build`, `mabo-go`, `mabo check`, `mabo format` and `mabo doc` read and write, in which order.

Not modelled: rustc's borrow checker and trait resolution beyond what C69 says, memory exhaustion,
panics of dependencies, floating point (kept as bit patterns; the text-to-float conversion is a
parameter), the wording and rendering of diagnostics, the Markdown renderer of `mabo-doc` (its pages are C94),
command line parsing and the matching of globs (what is done with the matches is C88, C90), the operating system's file system below `read`/`write` of whole
files (a write can be cut short in C55/C57), JSON (messages arrive parsed, or marked as not having the form their method demands), logging.

## Layout (rocq/theories)

| file | models | source |
|---|---|---|
| Base.v | outcomes (`Ok/Err/Panic/Diverge`), bytes | buf/decode.rs error enum |
| Varint.v | varint + zigzag | crates/mabo/src/varint.rs |
| Wire.v | FieldId, encode/size/decode runtime functions | crates/mabo/src/{lib.rs,buf/*.rs} |
| Codec.v | semantics of the generated Rust code for a schema | crates/mabo-build/src/{encode,size,decode}.rs |
| Compiler.v | id generator, validation, simplification | crates/mabo-compiler/src |
| Resolve.v | type resolution | crates/mabo-compiler/src/resolve/mod.rs |
| Syntax.v/Parser.v/Printer.v | parser and printer | crates/mabo-parser/src |
| Lower.v | from a simplified project to the environment of Codec.v (which definition a name in a field type denotes in the generated code) | crates/mabo-build/src/definition.rs |
| WireDoc.v | the wire format as a relation (specification) | book/src/reference/wire-format.md |
| Meta.v | next ids, wire sizes | crates/mabo-meta/src/lib.rs |
| Lsp.v | document store, incremental edits, semantic tokens | crates/mabo-lsp/src |
| Go.v | semantics of the generated Go code | crates/mabo-go/src |
| Tools.v | file effects of mabo-build, mabo-go, mabo-cli and the links of mabo-doc | crates/mabo-build/src/lib.rs, mabo-go/src/main.rs, mabo-cli/src/main.rs, mabo-doc/src |
| Const.v | constants in generated Rust code, and what Rust accepts | crates/mabo-build/src/definition.rs |
| GoNames.v | names declared by generated Go code | crates/mabo-go/src/definition.rs, encode.rs, decode.rs, size.rs |
| SpanParser.v | the parser with byte ranges | crates/mabo-parser/src/parser.rs, parser/*.rs, lib.rs, token.rs |
| LspVisit.v | semantic tokens, document symbols, hover | crates/mabo-lsp/src/handlers/semantic_tokens.rs, document_symbols.rs, hover.rs |
| TokenSpec.v, NameSpec.v, OutlineSpec.v | specification: words, locations, outline, documentation | - |
| Diagnose.v | validation with locations, diagnostics | crates/mabo-compiler/src/validate/*.rs, crates/mabo-lsp/src/handlers/compile.rs |
| DiagnoseSpec.v | specification: defects and where they stand | - |
| Grammar.v | specification: the grammar of the schema language | - |
| GrammarSound.v, GrammarComplete.v | proofs: parser against grammar | - |
| RustCode.v | generated Rust expressions and their generators | mabo-build encode.rs, size.rs, decode.rs |
| RustTyping.v | Rust type checking of the generated functions | rustc; signatures of mabo/src/buf |
| RustEval.v | evaluation of the generated functions | semantics of Rust; mabo/src/buf |
| RustSpec.v | specification: limits on schemas | - |
| RustRecursion.v | instances of generic functions, sizes of types | mabo-build decode.rs, mabo/src/buf/decode.rs |
| RustTypingProofs.v, RustTypeChecks.v, RustItems.v, RustEvalProofs.v, RustDecProofs.v, RustRecursionProofs.v, Fuel.v | proofs | - |
| DecSound.v | proofs: decoded values are typed | - |
| PropEnd.v | C49 from source text to running generated code | - |
| ErrParser.v | mabo-parser with errors: parser.rs, parser/*.rs, error.rs, location.rs, ext.rs; compile.rs L33-233 | messages: table |
| ErrProofs.v, ErrConform.v | proofs; the error reports of the test suite | - |
| LspCompile.v | mabo-lsp/src/handlers/compile.rs L17-25 | - |
| PropErr.v | C73 | - |
| ErrViable.v, ErrViableLit.v, ErrViableDef.v | proofs: what was consumed before an error can be continued | - |
| ErrLate.v | proofs: errors are reported behind a beginning that is a schema | - |
| PropViable.v | C74 | - |
| RustTokens.v | tokens of definition.rs L13-386, syn (items, types, paths), mabo-build lib.rs L199-209 | - |
| RustTokensProofs.v | proofs: reading the emitted tokens back | - |
| RustFile.v | tokens of the whole generated Rust file: definition.rs, encode.rs, decode.rs, size.rs | - |
| RustConform.v | comparison of RustFile.v with the 33 snapshots of crates/mabo-build/tests | - |
| RustRead.v | the part of syn's expression grammar the generated functions are written in | - |
| RustMeans.v | specification: what the trees of the generated functions stand for (RustCode.v) | C91 |
| RustReadProofs.v | proofs: reading the emitted functions back | - |
| PropRustNames.v | C75 | - |
| LspSession.v | the conversation: mabo-lsp main.rs, client.rs, state.rs L46-66, handlers/mod.rs L36-149, L321-330; lsp-server 0.7.9 | - |
| SessionProofs.v | proofs: conversations | - |
| PropSession.v | C76-C79 | - |
| Amplify.v | specification (weight, spine, parts) and proofs: size of decoded values against bytes read | - |
| PropAmplify.v | theorems | C80 |
| GoSize.v | mabo-go/src/size.rs (emitted code) | - |
| PropGoSize.v | theorems | C81 |
| LResolve.v | mabo-compiler/src/resolve/mod.rs, error.rs with locations | - |
| LResolveSpec.v | what a resolution error means, on located trees | - |
| LResolveProofs.v | proofs: every error is a problem of the files | - |
| LResolveErase.v | proofs: without locations it is Resolve.v | - |
| PropLResolve.v | theorems | C82 |
| DocText.v | crates/mabo-doc/src/templates.rs: shown definitions, comments; specification of C83 | C83 |
| DocTextProofs.v | proofs for C83 | - |
| PropDocText.v | theorems | C83 |
| GoFile.v | crates/mabo-go/src/{definition,encode,decode,size}.rs: the generated Go file | C84 |
| GoConform.v | conformance with crates/mabo-go/tests (27 files) | - |
| GoClosed.v | specification of C84 | C84 |
| GoClosedProofs.v | proofs for C84 | - |
| PropGoClosed.v | theorems, witnesses | C84 |
| PropGoText.v | the same claim read off the syntax tree of the generated file | C62 |
| GoEval.v | execution of the files of `GoFile.v` (Go specification) | C85 |
| GoEvalProofs.v | Encode and Size of the file against `Go.v`, `GoSize.v` | - |
| GoEvalDec.v | Decode of the file against `Go.v` | - |
| GoEvalFile.v | finding the methods of a struct in the file | - |
| PropGoEval.v | theorems, a runtime after the Rust one, a file from source | C85 |
| LspReal.v | handlers/mod.rs L247-319 on the documents of `Lsp.v`, with the analysis of `LspCompile.v` | C86 |
| PropLspReal.v | theorems, an example conversation | C86 |
| Bench.v | crates/mabo-benches/src/varint.rs | C87 |
| PropBench.v | theorems | C87 |
| Package.v | crates/mabo-project/src/lib.rs load, discover, collect_files | C88 |
| PropPackage.v | theorems | C88 |
| PropHash.v | theorems | C89 |
| ProjectCli.v | crates/mabo-cli/src/main.rs with its arguments | C90 |
| PropProjectCli.v | theorems | C90 |
| PropGoProject.v | the Go generator on a project directory, crates/mabo-go/src/main.rs L16-93 | C90 |
| PropBuildProject.v | the build script on a project directory, crates/mabo-build/src/lib.rs L142-218 | C90 |
| RustReadProofs2.v, RustReadProofs3.v, RustReadProofs4.v | proofs about RustRead.v, RustMeans.v | C91 |
| PropRustText.v | theorems | C91 |
| RustFileRead.v | item grammar of whole generated files | - |
| RustFileReadProofs.v | which generated files read | - |
| PropRustFile.v | C75 for whole files | - |
| RustLit.v | specification: what Rust's literals and doc attributes denote | - |
| PropRustLit.v | literals and documentation in generated Rust code | C92 |
| GoLit.v | specification: what Go's literals denote | - |
| PropGoLit.v | constants in generated Go files | C93 |
| Html.v | specification: reading HTML | - |
| DocPage.v | the templates of the documentation pages | C94 |
| PropDocPage.v | documentation pages | C94 |
| PropDocLinks.v | their links | C94 |
| PropDocRead.v | the definitions in them, read back | C94 |
| DocPageEx.v | whole pages compared with the snapshots | C94 |
| SizeText.v | size descriptions: WireSize and its printer | C95 |
| PropSizeText.v | size descriptions | C95 |
| PropGoMany.v | Go output of projects of several files | C59 |
| PropInclude.v | the include macro, crates/mabo/src/lib.rs L129-133 | C55 |
| Cost.v | the parser with a count of calls of types::parse | crates/mabo-parser/src/parser.rs, parser/types.rs |
| *Spec.v | small independent specifications | - |
| *Proofs.v | lemmas | - |
| Prop*.v | the property theorems, each `exact lemma`, with `Print Assumptions` | - |

## Per-property plan

Conventions: a property that the faithful model violates is answered by a theorem
`..._refuted` (witness computed by `vm_compute`) and, where useful, by the strongest
true restriction as `..._partial` or by an exact characterisation.

* C01-C09 varint: fixed-width loops as structural recursion on the number of remaining
  slots; induction on slots with the invariant value = acc + 2^(7i)*rest.  Spec: LEB128
  value of a byte list, canonical form.  C09 is expected to be refuted (the decoder
  drops the high bits).
* C10-C11 field ids: bit-level lemmas lifted to arithmetic (`2^29` bound explicit); C11
  expected refuted for ids >= 2^29.
* C12, C26 runtime primitives: one round-trip lemma per function, generic in the element
  codec.
* C13-C25 generated code: a schema-driven interpreter (types as trees, definitions in an
  environment, values as trees); encoder by structural recursion on the value, decoder by
  recursion on type and a depth budget shown sufficient.  Collections are length-prefixed
  by the *size* function, so C13/C14 hang on size exactness: prove exactly when it holds,
  refute the rest.
* C27: buffers as lists of chunks; expected refuted.
* C28-C34: model of validate/simplify on an AST; soundness and completeness by induction
  on lists; panics of the code generator as a boolean predicate on types.
* C35-C36: module trees, resolution as functions; C36 expected partly refuted.
* C37-C40, C47: parser combinators as functions on char lists with Backtrack/Cut;
  printer as functions; round trip by induction on the syntax tree.
* C41-C42: arithmetic on lists of ids / interval sizes.
* C43-C46: state machine over notifications; text as a char list.
* C48: `Go.v` interprets what mabo-go emits over a record of runtime functions (`go_buf`), since the
  Go runtime is not in the repository; `GoSpec.v` says when such a runtime reads/writes like the Rust one;
  `PropGo.v` proves agreement on plain structs and refutes the rest, for every runtime.
* C49: composition of the validator, the resolver, the simplifier, `Lower.v` (Rust's name
  resolution for the emitted paths and imports) and the codec theorems (`ProjectSpec.v`,
  `ProjectProofs.v`, `PropProject.v`); four accepted projects whose code does not compile.
* C50: invariant over the notification loop, for every analysis function.
* C51: `spec` (a Hoare triple on parsers: no panic, no fuel exhaustion, consumes at least k characters, result property)
  proved for every combinator and every parser function; the fuel is the length of the text.
* C52: the result property of the same triples (`ParserSpec.SchemaOk`).
* C53: UTF-8 specified independently (`Utf8.v`: encoding of scalar values) and proved equivalent to the byte automaton.
* C37-C39: for each printed construct `parse (s ++ print x ++ rest) = POk x rest` under a condition on the first
  character of `rest` (`ParserRound*.v`); exactness from C52.
* C54: the manual's wire format as an inductive relation between types, values and bytes (`WireDoc.v`), with a
  switch `book` for the three places where the code differs from the manual; functional (`wire_unique`, `wire_total`),
  contains what the encoder writes (`encode_wire`, by induction on the value) and is read by the decoder (`decode_wire`).
* C55-C59: each tool as a function from the disk (`path -> option text`) to the list of its writes and an exit state
  (`Tools.v`); what a list of writes does to a disk, completely or cut short, is specified separately (`ToolsSpec.v`:
  `after`, `stopped`), as is following a relative link (`follow`).  Inductions on the list of files and on the module tree.
* C60: `Cost.v` is the parser with a counter of calls of `types::parse`; `CostProofs.v` proves it returns the same
  results; the count on a family of texts is computed exactly by induction (refutation, no upper bound is claimed).
* C61: `Const.v` models the constant part of definition.rs; the Rust side is an inductive relation `rust_accepts`; the
  independence of the verdict from literals is an induction over definitions and module trees.
* C62: `GoNames.v` models heck's word splitting and the list of names each definition declares; usual names are
  inductive grammars (`PlainField`, `PlainType`) on which the conversion is inverted.
* C63: `SpanParser.v` repeats the parser with byte ranges; `SpanProofs/SpanTypes/SpanDefs/SpanSchema/SpanPlaced.v` relate each
  located parser to its plain one (`tokd`: the consumed text is a sequence of words and the locations are those words').
  Specification in `NameSpec.v`.
* C64: `LspVisit.v` models the visitor as the list of spans it adds; `TokenSpec.v` says which words a schema consists of.
* C65, C66: the outline and the hover text as functions of the plain schema (`OutlineSpec.v`), linked through the located tree.
* C67: `Diagnose.v` repeats the validation of `Compiler.v` over the located tree; erasing the locations gives the same verdict
  (C67_same_verdict). `DiagnoseSpec.v` states which defect each error may report and what stands at its locations.
* C68: `Grammar.v` states the language as inductive relations between texts and trees, independent of the parser. `GrammarSound.v`:
  what a parser accepts is in its relation; `GrammarComplete.v`: what is in the relation is accepted, with what is left being what
  follows up to blanks. The recursion over types, attributes and modules uses the length of the text as measure.
* C69: `RustCode.v` is the syntax of the generated expressions and the three generators, `RustTyping.v` a type checker for
  them with the signatures and trait implementations of the runtime, `RustSpec.v` the limits on schemas. The proof computes,
  by induction over types, when the generated expression has the expected type (`RustTypingProofs.v`, `RustTypeChecks.v`,
  `RustItems.v`). Not modelled: lifetimes, borrow checking. (Names that are Rust keywords: C75.)
* C70: `RustEval.v` evaluates the generated expressions with environments and the runtime functions of Wire.v;
  `RustEvalProofs.v` and `RustDecProofs.v` show that this is the codec of Codec.v; `Fuel.v` that the depth bound of the
  decoder does not matter.
* C71: `RustRecursion.v` lists the instances of decode functions an instance uses, with the number of `Take` readers, and
  when types have a size; `RustRecursionProofs.v`: finitely many instances suffice iff following the fields ends.
* C72: `DecSound.v`, by induction over types and the depth of definitions: every decoder of the runtime yields what its result
  type promises; the slots of the field loop hold values of the field types.
* C73: `ErrParser.v` is the parser with its errors and what it leaves of the input when it fails; `ErrProofs.v` proves it against
  `Parser.v` combinator by combinator (same results, an error is where the parser stopped). With C51 (the parser returns), C67 (validation
  diagnostics) and C50 (sessions) the analysis of compile.rs (`LspCompile.v`) is covered for every text.
* C74: for each parser of `ErrParser.v` it is proved that when it fails with input `r` left over, the consumed text can be continued to a
  text in the grammar of C68 (`ErrViable.v` types and fields, `ErrViableLit.v` literals and attributes, `ErrViableDef.v` definitions,
  modules, schemas); C68 turns the grammar back into acceptance by the parser.
* C75: `RustTokens.v` models the token trees definition.rs emits and syn's parser for them; `RustTokensProofs.v` proves that parsing them
  back succeeds exactly if a check of each name succeeds (`syn_parse2_exact`), for unbounded nesting of types and modules. `PropRustNames.v`
  turns that into a statement about the names in the schema text (keywords of the Rust Reference), and about how a build ends.
* C76-C79: `LspSession.v` models the language server's conversation as a state machine whose modes are the receiving calls of main.rs, client.rs and
  lsp-server; an arrival is a message, a pause of more than 2 seconds or one of more than 30. `SessionProofs.v` proves by induction over the stream
  what is answered (`talk_main`, `converse_matched`), when it crashes (`talk_alive`), how it ends (`talk_end`), where settings come from (`talk_cfg`) and
  which ids are used (`converse_ids`). `PropSession.v` states the properties; the handlers, the settings' form and project discovery are parameters,
  so they hold whatever these do.
* C80: `weight` of a value, `spine` of a type (what its emptiest value weighs), sets of types closed under `parts`; induction over the decoder as in C72: every element of
  a collection takes at least one byte (otherwise the element loop never ends), every field takes its id.
* C81: `GoSize.v` models what mabo-go's size.rs emits, over an abstract runtime; induction over values against `Go.go_enc`. `size_expr` keeps the shape of the emitted
  expression (which function literals are called with how many arguments).
* C82: `LResolve.v` is the resolver again over the located tree, with the sources that errors carry; `LResolveSpec.v` says in terms of the trees alone what each error and
  its labels mean; `LResolveErase.v` proves that forgetting the places gives `Resolve.v`. The words come from `OutlineProofs.doc_names`.
* C83: model `print_schema` and its printers over the simplified schema; show that each text is what the schema printer writes for the same definition with explicit ids and no trailing commas in types, then use the print/parse round trip (C38) and the idempotence of id assignment on explicit ids.
* C84: model all of mabo-go's renderer as a Go syntax tree and a printer of it, checked against the 27 snapshot files; define scoping on the tree after the Go specification, and show by induction over types and fields that a file is closed exactly when a condition on the schema holds; refute the full claim with witnesses.
* C85: execute the syntax tree of the generated file (`GoEval.v`): environments, closures, the statements mabo-go emits, methods looked up in the file, package buf as a parameter. Prove by induction over types that each rendered expression does what the models of C48/C81 do, find each struct's methods in the file by C62's uniqueness of names, and combine with C48/C81. The
  meaning given to the emitted part of Go (blocks, calls, `:=`, `=`, `if`, `for`, `switch`, `break`, `return`) is taken from the Go specification and is part of the trusted base of C85; one reading is in the generator's favour (`return value.Decode(r)` in a function of three results).
* C86: put `lsp_compile` and the visitors into the conversation of C76-C79 (`LspReal.v`), carry "documents are consistent and are Unicode texts" through every step (`opened_alive_inv`), and read the answers off with C64-C66, C73 and C50.
* C87: model crates/mabo-benches/src/varint.rs on byte lists (`Bench.v`) and relate postcard to the runtime's varints, bincode's and vu128's to little-endian bytes.
* C88: model crates/mabo-project/src/lib.rs over directory trees (`Package.v`): the walk, the extension test, collecting files, loading and discovering; the glob language, TOML and ignore rules are parameters.
* C89: `same`, Rust's equality of values up to the order of hash maps and sets at every depth (`PropHash.v`); induction over values: size, length, announced lengths and validity agree, hence C14 applies to each order.
* C90: `ProjectCli.v` gives the commands of Tools.v the files Package.v finds, reading from the same directory tree; the theorems compose C56-C58 with C88.
* C91: `RustRead.v` reads function bodies by Rust's grammar, `RustMeans.v` relates the syntax tree to the programs of RustCode.v; the theorems show for every definition that the emitted tokens (RustFile.v) read to a tree that means the generated program.
* C75, whole files: `RustFileRead.v` adds the item grammar with `impl` blocks to the statement reader of C91. `RustFileReadProofs.v` proves, for each definition, that reading its
  four items succeeds only if the names of the struct or enum item are in order (`def_sound`) and that then the bodies read too (`def_complete`, by the theorems of C91);
  `PropRustFile.v` turns the checks into the names of the schema text and into how a build ends (`C75_build`), using resolution for paths that begin with `pub`.
* C92: `RustLit.v` says what Rust's literals and `doc` attributes denote (from the Rust reference, as inductive relations on the characters of the literal); `PropRustLit.v` proves that the
  tokens of C75 for constants and comments denote the schema's values and lines, for every schema (induction on the strings and on modules), and that the relations are functional.
* C93: `GoLit.v` says what Go's literals denote (from Go's specification, as relations on text and bytes); `PropGoLit.v` proves, for the text of the files of C84/C85, for which values the
  written literal denotes the value (both directions: a length argument shows that an octal escape made of a NUL and digits never denotes the string), and what the other literals denote.
* C94: `DocPage.v` has the pages as pieces (template text, escaped text, rendered Markdown); `Html.v` specifies a reader of HTML; `PropDocPage.v` proves for every piece that the reader, whatever
  is inserted, gets back to text, which elements it opens and closes, and what it adds to each thing looked for; these compose along the templates. `PropDocLinks.v`: the links in the text are those of `Tools.v`, about which C58 says that each leads to a page. `DocPageEx.v` compares whole pages with snapshots.
* C95: `SizeText.v` models the tree of sizes and its printer; `PropSizeText.v` proves that the tree projects to `Meta.wire_size` at every part and that the text determines the tree (what follows a
  part starts with at most its indentation).
