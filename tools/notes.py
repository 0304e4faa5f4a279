notes={
'C01':('proved',''),'C02':('proved',''),'C03':('proved',''),'C04':('proved',''),'C05':('proved',''),
'C06':('proved',''),'C07':('proved',''),'C08':('proved',''),
'C09':('partial','The claim (decoder rejects values that do not fit) is false of the code: C09_overlong_refuted gives a witness; C09_varint_decode_exact characterises exactly what the decoder returns.'),
'C10':('proved',''),
'C11':('partial','False for ids >= 2^29 (C11_large_ids_refuted), which the validator accepts (C11_validated_collision_refuted). C11_fieldid_exact: true exactly for ids < 2^29.'),
'C12':('proved',''),
'C13':('partial','False in general (C13_size_refuted). C13_size_gap gives the exact difference for every value; C13_size_exact_partial equality for types without maps, multi-byte-element collections and tuple fields.'),
'C14':('partial','False in general (C14_roundtrip_refuted): collections whose elements have inexact sizes or occupy no byte, and id 0. Proved for every value whose announced collection lengths are right, and for every value of schemas whose collections have flat elements.'),
'C15':('partial','Suffix and locality hold unconditionally; termination fails for collections of field-less structs (C15_terminates_refuted) and is proved for all other schemas.'),
'C16':('partial','False for arrays (C16_no_panic_refuted); proved for array-free well-formed schemas and every byte string.'),
'C17':('proved',''),
'C18':('partial','False for structs, enums, generics and nested options (C18_skip_refuted); proved for all other field types.'),
'C19':('partial','Fails when the unknown field is not skippable (C19_unknown_struct_field_refuted); proved otherwise, for arbitrary simultaneous changes anywhere in the schema.'),
'C20':('partial','Proved for values whose announced collection lengths are right (the restriction inherited from C14).'),
'C21':('proved','For every well-formed payload (known fields with payloads of their type, unknown fields that can be skipped).'),
'C22':('proved',''),
'C23':('proved',''),
'C24':('partial','False for collections of field-less structs and for ids that differ by 2^29 (C24_unique_refuted); proved under the conditions of C14.'),
'C25':('partial','Proved under the conditions of C14 (no strict prefix decodes) and C15/C16 (it is an error).'),
'C26':('proved',''),
'C27':('partial','False for a varint split over chunks (C27_chunking_refuted); proved when the varint lies in the current chunk.'),
'C28':('proved',''),'C29':('proved','C29_errors_are_true covers all reported errors, C30-C32 included.'),'C30':('proved',''),
'C31':('partial','False for parameters used only inside non_zero<..>, which are refused as unused (C31_used_in_non_zero_refuted); exact otherwise, and accepted schemas use every parameter.'),
'C32':('partial','False inside non_zero<..>, which the check does not enter (C32_tuple_in_non_zero_refuted); exact outside.'),
'C33':('partial','False (C33_generator_refuted: three validated schemas that panic; ids of 2^32-1 panic the validator itself). C33_generator_exact_partial characterises exactly the validated schemas for which code is generated.'),
'C34':('partial','False (C34_zero_refuted: @0 is accepted; C34_zero_wrap_refuted: wrap-around without overflow checks). Exact characterisation proved.'),
'C35':('partial','Exact characterisation of the accepted projects; false for alias targets and inside non_zero, which are not looked at (C35_alias_target_refuted). Aliases cannot be referred to (C35_alias_unusable).'),
'C36':('partial','True for types imported by name at the top of a schema; false for imported modules (C36_module_imports_refuted: no such reference is ever accepted) and for imports in nested modules (C36_nested_import_refuted).'),
'C41':('partial','False when u32::MAX is already in use (C41_id_unused_refuted); proved for all other definitions.'),
'C42':('partial','The bounds are right for size() (C42_size_within_bounds); as bounds on the written bytes they are refuted for tuple fields and maps/collections (C42_bounds_refuted) and proved otherwise.'),
'C43':('partial','False for notifications with several changes (C43_batches_refuted) and for columns beyond the end of a line (C43_column_beyond_end_refuted); proved for whole-text changes and for changes sent bottom up, single ones included.'),
'C44':('proved',''),
'C45':('partial','False after closing (C45_closed_refuted); C45_documents_exact says what is tracked instead.'),
'C46':('proved','For texts below 4 GiB (larger ones crash the line table).'),
'C50':('proved',''),
'C37':('partial','Exact characterisation (C37_type_round_trip): types survive iff no reference starts with a path segment the parser mistakes for a built-in type; false otherwise (C37_shadowed_refuted: string_utils::B is rejected).'),
'C38':('partial','Proved for all schemas whose floats print with a fractional part and whose strings contain no NUL; refuted otherwise (C38_float_refuted, C38_nul_refuted), and comments on imports and attributes on aliases, constants, modules and imports are dropped (C38_comments_refuted).'),
'C39':('partial','Exact for all literals but floats (false only for strings with NUL); floats proved when they print with a fractional part, refuted otherwise (C38_float_refuted).'),
'C40':('proved',''),
'C47':('proved','For tuple structs with any white space; printing order is part of C38.'),
'C51':('proved','Panics by exhausting the stack on deeply nested input are outside the model.'),
'C52':('proved',''),
'C53':('proved',''),
'C49':('partial','C49_source_partial starts from the source text read from disk. Proved for projects with nothing wrong where the compiler does not look (inside non_zero, imports used in nested modules, names that hide others); each of these conditions is shown necessary by an accepted project whose code does not compile (C49_*_refuted). C49_generated_partial goes on to the generated Rust functions: within the limits of C69 they type check, can be instantiated if no type contains itself (C71), and running them round trips. Lifetimes, borrows and names that are Rust keywords are not modelled.'),
'C48':('partial','For every Go runtime (the runtime is not in the repository and is a parameter): structs of plain non-optional fields written by the Rust code are read by the Go code, and the Go code writes the Rust payloads. Refuted beyond that: absent and present optional fields, structs as fields or followed by anything, enums, tuples, the encoding class in field ids, arrays over 32 elements. The emitted Go text is modelled by its meaning; that some of it does not compile is recorded in Go.v, not proved.'),
'C54':('partial','The format is an inductive relation written from the manual (WireDoc.v), independent of the encoder. Encoders produce it when the announced lengths are right (always for schemas with flat collection elements; refuted by a nested vector otherwise, C54_encoder_refuted); decoders read every encoding of it, unless collection elements occupy no byte; it is a total function of the value. The code and the manual differ on arrays, tuples as fields and fields of a parameter type (C54_manual_refuted); elsewhere they are the same relation.'),
'C55':('partial','Errors write nothing, stopping half way leaves only complete files of the new build among old ones, and rebuilding repairs. One file per schema holds for projects whose file names differ; two files of the same name in different directories overwrite each other (C55_same_name_refuted). C55_include_partial: under the same condition mabo::include! of a schema name finds the code of that schema, and of any other name what was there before; paths are those of Unix. The exact set of rejected projects is for release builds, where the validator does not panic.'),
'C56':('partial','The reports are exact; the exit status is always success (C56_status_refuted).'),
'C57':('partial','Effect exact; meaning preserved under the conditions of C38; a process stopped between truncating and writing a file loses it (C57_stopped_refuted), otherwise every file holds its old or its new content.'),
'C58':('partial','Links and completeness are proved for all schemas, valid or not; pages are distinct for valid schemas with distinct file names and overwrite each other otherwise, as doc does not validate (C58_distinct_refuted); the stylesheet every page refers to is never written (C58_stylesheet_refuted).'),
'C59':('partial','Proved for projects of one schema file; with several files all root definitions but those of the last are lost (C59_last_schema_wins_refuted), and every module whose path no later file has is kept (C59_modules_partial).'),
'C60':('partial','Refuted: n nested tuples in 2n+12 characters call the type parser 2(2^(n+1)-1) times, because the list parser parses every last element twice; no polynomial bounds it. Only calls of one function are counted (a lower bound on time); the counting parser is proved to return what the parser returns.'),
'C61':('partial', 'A constant of a primitive type is emitted with its value and accepted by Rust exactly when its literal is a value of its type (C61_values_partial; box<string>/box<bytes> make the generator panic). No literal is ever checked: the verdict on a project does not depend on them (C61_literals_unchecked_refuted), so wrong ones are accepted. What rustc accepts is specified by a small relation.'),
'C62':('partial', 'Proved for usual names: fields of lower case words, capitalised type and variant names not starting with New or ending with Variant, constants distinct from them in camel case. Refuted otherwise by accepted schemas. The case conversion crate heck is not in the repository; its algorithm is modelled from its documentation, for ASCII. C62_file_* state the same on the syntax tree of the generated file, whose printed text GoConform compares with the snapshots of the repository.'),
'C63':('proved', 'The located parser is a second model (SpanParser.v), proved to erase to Parser.v (C63_same_schema). Locations nothing reads (inside attributes, the combined location of an import, the angles of generics) are not modelled. The location of a field or variant leaves its comment out, the one of an unnamed field may start with the blanks before it (the parser skips them inside the located part).'),
'C64':('proved', 'Stated with an inductive reading of the text as words separated by blanks. The comment of the schema, attributes, the angles of type parameters, string and byte literals, array sizes, the double colons of an import before its element, and its semicolon get no token; the specification says so.'),
'C65':('proved', 'The range of an unnamed field is the field as the parser reads it, with leading blanks (C65_ex).'),
'C66':('proved', 'The printed form of next ids and wire sizes is not modelled. Cursor positions inside a character are outside the statement.'),
'C67':('proved', 'The location of an implied id is the whole field or variant without its comment; a tuple error marks the whole type of the field, alias or constant, not the tuple. For names the first stands before the second in the text; for ids the order is that of the list. Parse-error diagnostics are not modelled.'),
'C68':('proved', 'The grammar (Grammar.v) is relational and does not mention the parser. It includes where blanks and line breaks may stand; C68_free_layout_refuted lists layouts a user may expect to be accepted and that are not (a blank behind the angle of a built-in container, a struct without fields at the very end of the text, an empty line between a comment and its field).'),
'C69':('partial', 'The claim is false of the code. C69_type_checks_exact_partial: rustc accepts the functions exactly when every definition is within the limits of RustSpec.v, which are stated on the schema. The _refuted theorems give accepted projects outside: options, non_zero numbers and numbers in nested tuples, keys that cannot be hashed, fields named w, r or id, tuple and non_zero arguments, box<bytes> and bytes arguments with BytesType::Bytes. Names that are Rust keywords or that hide Encode, Decode, Size, and lifetimes and borrows, are not part of the typing model.'),
'C70':('proved','The wire format of Codec.v, defined from the schema, is compared with an evaluator for the generated expressions (RustEval.v), for all code that type checks (C69). What follows for round trips is C14_generated_partial.'),
'C71':('partial', 'The claim is false of the code: C71_recursive_never, and C71_vec_refuted and C71_option_refuted for whole projects. C71_recursive_exact says when code can be generated, and C71_ordered gives a condition on the schema that suffices.'),
'C72':('proved', 'The only condition is that structs and variants without field list have no fields, which every schema meets. C14_forward_partial: such a value can be sent on.'),
'C73':('proved', 'Claimed for text documents shorter than 4 GiB (the line index refuses others). With overflow checks on, an id of 2^32-1 makes validation panic (C33_id_overflow): C73_no_panic says that is the only way. ErrConform.v: the model of the errors reproduces all fourteen error reports recorded in the test suite.'),
'C74':('partial', 'Claimed of every text with one exception, which is shown to be real: after the six digits of a \\u{...} escape that names no character the error can be shown behind the digits (C74_always_recoverable_refuted). Hypothesis floats_total: the float parser (std) accepts every text with the shape of a float literal.'),
'C75':('partial', 'The items of definition.rs are modelled as tokens together with the part of syn that reads them; the impl blocks of encode.rs, decode.rs and size.rs, which use the same names, are not. Paths of references in aliases and inside non_zero are assumed to name modules of the schema (the compiler does not check them; it does check the others: C75_resolved_paths). C75_keyword_refuted: a project that passes every check still ends with InvalidCode, after other files have been written.'),
'C76':('partial', 'C76_no_stray holds for every stream. C76_exact says which requests are answered: those the main loop gets (heard), which are all but the arrivals swallowed by send_request (two behind initialized, one behind each change of configuration). C76_answered_partial: an editor that sends nothing but responses while the server waits has all its requests answered. C76_lost_refuted: one that does not loses requests; an initialize with invalid parameters is never answered. lsp-server (a dependency) is modelled from its source as far as the connection goes.'),
'C77':('partial', 'C77_documents_partial and C77_query_current for editors that wait (as in C76). C77_first_open_lost_refuted: a didOpen directly behind initialized, which is what editors send, is swallowed, and the document stays unknown however it is edited. C77_project_files_refuted: project files are stored under their paths, not under file:// URIs. The handlers behind queries are a parameter here (they are modelled in LspVisit.v).'),
'C78':('partial', 'C78_ids_distinct up to 2^32 requests; C78_settings_origin for every stream; C78_timely_partial for answers that are the next message and come within two seconds; C78_late_refuted: otherwise they are dropped.'),
'C79':('partial', 'C79_ending is exact for every conversation that opens properly; C79_no_crash reduces crashes to panics of handlers (C42-C45 say when notifications do not panic). C79_encoding_partial for utf-8, utf-16 and utf-32; C79_encoding_refuted for others. C79_protocol_refuted: exit without shutdown ends with status 0, and a request between shutdown and exit is not answered and ends the server with an error.'),
'C80':('proved', 'weight counts values, map entries and string/byte-array bytes of the returned value; temporary values that are dropped again (a field that occurs twice, equal map keys) and partial values of a failed decode are not counted.  With type arguments the constant is that of any set of types closed under parts (C80_factor); the generated Rust only compiles if that set is finite.'),
'C81':('partial', 'Proved for all values without enums inside (C81_size_exact_partial). Refuted for enums with fields, whose Encode returns nothing (C81_enum_refuted), and for tuples: the emitted Size calls a function literal without parameters with an argument, which Go rejects, exactly if a tuple occurs in the type (C81_tuple_calls_exact; the model of Size gives such code the intended meaning). Size and Encode make the generator panic for the same types (C81_same_types).'),
'C82':('partial', "Proved: the error is that of a problem of the files, with the places of that problem as labels (C82_report; no validation is assumed), the marked words are the names in the shown sources (C82_points_partial), and without places the results are those of C35 (C82_same_verdict). Refuted for an import of an alias or constant, whose declaration label is a place of the other file shown in the importing one (C82_import_kind_refuted). A missing module of a reference's path is reported at the name behind the path."),
'C83':('partial', "Proved for every definition of every schema, with the final line break, for constants whose float prints with a fractional part and whose string has no NUL; these exclusions are real: 1.0 is shown as 1, a NUL is shown as an escape the parser rejects, and 'struct A' without line break is not accepted. HTML escaping and markdown rendering are not modelled."),
'C84':('partial', "C84_exact gives, for every file of every schema, an exact condition on the schema; the full claim is false of the code: a module without non_zero or tuple leaves the import mabo unused, one without struct leaves buf unused, 128-bit integers need an import that is never written, references through a path or to an imported name, generic enums and aliases, the type parameters of generic structs and every tuple in a field leave names undeclared (each has a _refuted theorem and a witness). C84_closed_partial: a syntactic class that is closed. The model's text equals all 27 snapshots of mabo-go (GoConform.v). Not modelled: Go type checking (numbers of results and arguments, methods of aliases, enums and type parameters, comparable map keys), unused variables, what the runtime packages export."),
'C85':('partial', "Proved by executing the generated file's own syntax tree: Encode does, for every struct without type parameters, what the schema prescribes (full, C85_encode); Size and Decode for structs without tuples; Decode reads what Rust wrote for fields without options, references and tuples. The full claim is false of the code, with witnesses: an absent option is a missing field (C85_absent_option_refuted), Decode always takes its whole input (C85_reads_everything, C85_nested_refuted), Size of a tuple has no meaning in Go (C85_tuple_size_refuted), Decode of a tuple uses undeclared names (C85_tuple_decode_refuted), Encode of a variant returns nil (C85_variant_encode_refuted). Structs with type parameters and references to enums and aliases are not covered (the emitted file has no method for them to call: C84)."),
'C86':('proved', "C76-C79's server with the real analysis and the real handlers in the place of the parameters (LspReal.v), so C45, C50, C63-C67, C73 and C77 hold together. Conditions in the statement: the editor waits for the server's requests and sends supported changes (without that C77 and C45 have refutations), files below 4 GiB, builds without overflow checks (a debug build panics on id 2^32-1, C73_no_panic). Project discovery and the reading of settings are parameters."),
'C87':('partial', 'Proved for all of them but the 8-bit numbers of vu128: decode_u8 compares with 0x0f instead of 0xf0, so 15 to 239 are decoded as whatever the next byte is (C87_u8_refuted, an exact condition; C87_i8_refuted).'),
'C88':('partial', 'Proved: the exact list of files, when loading succeeds, what each error means, what discovering finds. The full claim is false: a directory called x.mabo is taken for a file (C88_directory_refuted), an unlistable directory that no pattern selects from makes loading fail (C88_unrelated_refuted), and one bad project file hides all the others of a workspace (C88_broken_hides_refuted). The glob language, the TOML reader and the ignore rules are parameters; the error of building the set of globs is left out.'),
'C89':('partial', 'Sizes, lengths and validity for all values; relaying for the values of C14 (whose announced lengths are right). Equal bytes only for types without hash maps and sets (C89_bytes_partial); refuted with them (C89_bytes_refuted).'),
'C90':('partial', 'Proved from the directory tree to the reports and writes, for projects whose files can be read (composition of C56-C58 with C88). C90_build_partial: the build script, for projects whose files have different names (see C55). C90_go_partial: the Go generator, for modules whose path is that of no module of another file (see C59). A directory called x.mabo stops check and format, so that files behind it are not looked at (C90_directory_refuted). Two names of one file through links count as two files.'),
'C91':('proved', "For definitions without Rust keywords as names (with keywords the build fails, C75). The grammar is the part of syn's that the emitted bodies use (RustRead.v); the relation between syntax trees and programs (RustMeans.v) leaves the receiver types of method calls, which rustc infers, open."),
'C75':('proved', "C75_build and C75_file_parses: the whole generated file, impl blocks included, for every project of differently named files and both bytes types; 'a keyword as a name' is spelled out (takes_keyword, starts_with_try, path_keyword: the last covers the paths in aliases and non_zero that the compiler does not check). The grammar is the part of syn's in which mabo-build writes files (RustTokens.v, RustRead.v, RustFileRead.v); it accepts less than syn outside of what is written. Assumed: finite floats are printed as digits with a point. C75_code_parses_partial and C75_build_partial are the older statements about the items alone. C75_keyword_refuted: a project that passes every check still ends with InvalidCode, after other files have been written."),
'C92':('proved', "What literals and doc attributes denote is specified in RustLit.v from the Rust reference, without the printers; C92_unambiguous shows that the specification gives a token at most one value. Assumed: `unprintable` only holds of Rust characters, finite floats are printed as decimals that read back (`prints`). proc_macro2's Literal::string and byte_string (a dependency, not in /repo) are modelled from their documented behaviour; prettyplease's re-printing of the tokens is not modelled. Whether item_in finds the item in the file as Rust parses it is C75/C91."),
'C93':('partial', "C93_constants_partial: every constant is in its file, and its literal denotes the schema's value if and only if the value is a usual one (no NUL, byte order mark or character that Rust's Debug writes as \\u{..} in a string; no negative zero; no infinity). The claim is false of the others: C93_nul_refuted (NUL in front of two digits up to 7 silently becomes another character), C93_escape_refuted (\\u{..} is no Go escape: the file does not compile), C93_negative_zero_refuted (positive zero). GoLit.v specifies Go's literals from the language specification; whether the declared type has the value is left out (the compiler does not check it: C61), and constants of 128-bit types cannot compile at all (C84_wide_const_refuted). The Go compiler is not in /repo."),
'C94':('proved', "C94_pages; C94_files: the files, titles, stylesheets and links are those of Tools.v, and C94_links_lead: every link found leads to a file of the same documentation, titled with the text of the link (for comments without links). C94_read_back: with C83, the definition shown in a page is accepted again and gives the page's definition. DocPage.v models the templates (after askama's whitespace control); DocPageEx.v compares whole pages with four of the snapshots of the tests, character by character. Html.v is the reader (tokens and nesting after the HTML Standard). The Markdown renderer (comrak) is a parameter, with the hypothesis that its output closes what it opens and has none of the elements looked for; DocPageEx.v shows one that meets it."),
'C95':('partial', 'C95_ranges, C95_parts (the ranges are those of Meta.wire_size, which C42 bounds), C95_unambiguous (an injectivity proof over the indented text). C95_labels: the label is the name of the type. Not as stated in the editor: C95_box_refuted, the label of box<string> and box<bytes> holds what Markdown reads as a tag (in the documentation the renderer escapes it). How Markdown renderers show nested lists is left out; usize additions are taken not to overflow, as in C42.'),
}
