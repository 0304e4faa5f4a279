import json
P=[]
def p(id,title,statement,quant,why,anchors):
    P.append(dict(id=id,title=title,statement=statement,quantifier=quant,why_tests_cant=why,anchors=anchors))
V="crates/mabo/src/varint.rs"; L="crates/mabo/src/lib.rs"; E="crates/mabo/src/buf/encode.rs"; D="crates/mabo/src/buf/decode.rs"; S="crates/mabo/src/buf/size.rs"
BE="crates/mabo-build/src/encode.rs"; BD="crates/mabo-build/src/decode.rs"; BS="crates/mabo-build/src/size.rs"
p("C01","Unsigned varint round trip","For every unsigned integer v that fits u16/u32/u64/u128, encoding v as varint and decoding the resulting bytes, followed by any further bytes, returns v and reports exactly the number of bytes that were written.","every width, every value of the width, every trailing buffer","2^128 values times arbitrary trailing data; the unit tests try MIN, 1 and MAX without trailing data",[V+": encode_u16..encode_u128, decode_u16..decode_u128"])
p("C02","Signed varint round trip","For every signed integer that fits i16/i32/i64/i128, varint-encoding and decoding it (with any trailing bytes) returns the same integer and the same byte count.","every width, every value, every trailing buffer","unbounded input space; tests use five literals per width",[V+": encode_i16..encode_i128, decode_i16..decode_i128"])
p("C03","ZigZag is a bijection that keeps small magnitudes small","ZigZag maps the non-negative n to 2n and the negative n to -2n-1, both directions are inverse to each other on the whole width, and therefore |n| <= 63 encodes in one byte.","every width and value","a statement about every value of the width",[V+": zigzag_encode_*, zigzag_decode_*"])
p("C04","Varint length equals the predicted size and is minimal","The number of bytes the varint encoder writes equals size_*(v), is between 1 and the documented maximum (3/5/10/19), and is the least number of 7-bit groups that can represent v.","every width and value (signed and unsigned)","tests check the end points only; boundaries 2^(7k) are not covered",[V+": size_*, max_size, encode_*"])
p("C05","Varint bytes are well-formed LEB128","The bytes written for v are a canonical base-128 representation of v: every byte but the last has the continuation bit, the last has not, no superfluous zero group, and the 7-bit groups sum to v.","every width and value","all values",[V+": encode_*"])
p("C06","Varint decoding is safe on arbitrary bytes","On any byte string the varint decoder either fails or returns a value inside the integer's range together with a consumed count that is at least 1, at most the maximum size and never more than the input length; it fails exactly when none of the first MAX bytes lacks the continuation bit.","every byte string, every width","every byte string must be covered, including truncated and over-long ones",[V+": decode_*",D+": decode_int!"])
p("C07","Varint encodings are prefix free and injective","Two different values never have encodings where one is a prefix of the other, so concatenated varints are uniquely decodable.","every pair of values of a width","pairs of an unbounded domain",[V+": encode_*"])
p("C08","Strict prefixes of a varint are rejected","Decoding any strict prefix of an encoded varint reports an error instead of a wrong value.","every value, every cut point","every truncation point of every value",[V+": decode_*"])
p("C09","Over-long varints are not silently truncated","The varint decoder does not accept a byte string whose 7-bit groups denote a number that does not fit the target width.","every byte string","needs all byte strings; tests never feed non-canonical input",[V+": decode_*"])
p("C10","Field identifier packing round trips","Packing a field number and its encoding class into one u32 and unpacking it returns both; unpacking fails exactly for the three unassigned encoding classes.","every field number representable in 29 bits and every encoding class; every u32 for unpacking","2^29 x 5 combinations; no unit tests exist",[L+": FieldId::from_u32, FieldId::into_u32, FieldEncoding::from_u32"])
p("C11","Every field number accepted by the compiler survives packing","A field id that the schema compiler accepts is recovered unchanged by the reader of the generated code.","every u32 field id accepted by validation","requires the whole u32 range",[L+": FieldId::into_u32","crates/mabo-compiler/src/validate/ids.rs","crates/mabo-parser/src/parser.rs: ids"])
p("C12","Primitive values round trip with trailing data untouched","For bool, u8, i8, all varint integers, f32, f64, string and bytes: decoding what encode wrote followed by arbitrary bytes returns the value and leaves exactly those bytes.","every value, every trailing buffer","unbounded domain (strings and byte arrays of any length)",[E,D])
p("C13","Size is exact","For every value, size() equals the number of bytes encode() writes.","every type and value of the schema language","every nesting of types and every collection length must be covered",[S,E,BS,BE])
p("C14","Generated codec round trip","For every schema-defined type and every value of it, decode(encode(v) ++ rest) returns v and leaves rest.","every schema, type and value, every trailing buffer","schemas and values are unbounded trees",[BE,BD,E,D])
p("C15","Decoding never reads past its value and terminates","Every decoder that succeeds leaves a suffix of its input; on every byte string decoding a generated type terminates.","every schema, type, byte string","arbitrary hostile input",[D,BD])
p("C16","Decoding never panics","On every byte string the generated decoders return Ok or Err, never a panic.","every schema, type, byte string","arbitrary hostile input",[D+": decode_array, decode_non_zero_*",BD])
p("C17","Non-zero types never hold zero or empty values after decoding","A successful decode of non_zero<T> yields a non-zero integer or a non-empty string/bytes/collection; a zero/empty payload yields the Zero error.","every payload and element decoder","all payloads",[D+": decode_non_zero_*",L+": NonZero"])
p("C18","Skipping a field consumes exactly its encoding","For every field a writer emits, a reader that does not know the field and skips it by its encoding class lands exactly behind the field's value.","every field type and value, every trailing buffer","type- and value-generic; an off-by-one shows up only on certain shapes",[D+": decode_skip",BE+": compile_data_type (encoding class)"])
p("C19","Unknown fields are ignored (forward compatibility)","Data written with a newer version of a struct or variant that has additional fields decodes with the older definition to the old fields' values.","every pair of definitions where one extends the other, all values","pairs of schemas and all values",[BD+": compile_struct, compile_variant",D+": decode_skip"])
p("C20","Added optional fields default to None (backward compatibility)","Data written with an older definition decodes with a newer one that only adds option<T> fields; the new fields are None and all others keep their values.","every pair of definitions, all values","pairs of schemas and all values",[BD+": compile_field_vars, compile_field_assigns"])
p("C21","A missing required field is reported with its id and name","If a required field does not occur in the payload the decoder returns MissingField with the id and name of the first such field in declaration order; optional fields may be missing.","every definition, every well-formed field sequence","all field subsets and orders",[BD+": compile_field_assigns"])
p("C22","Field order on the wire is irrelevant and the last occurrence wins","Permuting the fields of a payload (distinct ids) does not change the decoded value; when an id occurs twice the last value is kept.","every permutation of the encoded fields","factorially many orders",[BD+": compile_struct loop"])
p("C23","Unknown enum variants are rejected","Decoding an enum whose leading variant id is not in the definition returns UnknownVariant with that id; with a known id the variant with that id is returned.","every enum, every id, every trailing buffer","all ids",[BD+": compile_enum"])
p("C24","Encodings of a type are uniquely decodable","Two values of the same type with the same encoding are equal, and no encoding is a strict prefix of another.","every type, every pair of values","pairs of unbounded values",[BE,E])
p("C25","Truncated payloads are rejected","Every strict prefix of an encoded value fails to decode instead of yielding a value.","every type and value, every cut point","every truncation point",[D,BD])
p("C26","Collections: decoding yields the elements in order; map insertion keeps one entry per key","decode of an encoded vec returns the elements in order; a map payload with repeated keys keeps the last value per key; a set payload keeps one element each.","every element sequence","unbounded sequences",[D+": decode_vec, decode_hash_map, decode_hash_set"])
p("C27","Varint decoding is independent of buffer chunking","Decoding from a non-contiguous buffer gives the same result as decoding from the concatenation of its chunks.","every chunking of every payload","all split points",[D+": decode_int! (r.chunk())"])
p("C28","Automatic ids are fresh and start at 1","Fields and variants without an explicit id get the previous id plus one (starting at 1); ids after validation are pairwise distinct and the ids written by the code generator are those the validator checked.","every definition","all id assignments, explicit and implicit mixed",["crates/mabo-compiler/src/lib.rs: IdGenerator","crates/mabo-compiler/src/validate/ids.rs","crates/mabo-compiler/src/simplify.rs"])
p("C29","Duplicate id detection is sound and complete","Validation of a struct/enum reports a duplicate id iff two fields of one field list or two variants have the same id, and the reported pair is such a pair.","every definition","all definitions",["crates/mabo-compiler/src/validate/ids.rs"])
p("C30","Duplicate name detection is sound and complete","Validation reports a duplicate name iff two fields of a field list, two variants of an enum or two items of a module share a name.","every schema","all schemas",["crates/mabo-compiler/src/validate/names.rs"])
p("C31","Generic parameter checks are sound and complete","Validation rejects a definition iff a generic parameter is declared twice or never used in its fields.","every definition","all definitions",["crates/mabo-compiler/src/validate/generics.rs"])
p("C32","Tuple arity check covers every tuple","A schema that passes validation contains no tuple with fewer than 2 or more than 12 elements anywhere, so code generation cannot hit its tuple panic.","every schema, every nesting","all nestings of types",["crates/mabo-compiler/src/validate/tuples.rs",BE+": compile_data_type Tuple"])
p("C33","Validated schemas never make the code generator panic","Code generation of a schema that passed validation and resolution does not reach a todo!()/panic.","every validated schema","all schemas",[BE,BD,BS,"crates/mabo-build/src/definition.rs"])
p("C34","Field id 0 is never emitted","No accepted schema assigns the id reserved for the end marker to a field.","every accepted schema","all schemas",["crates/mabo-compiler/src/validate/ids.rs",D+": END_MARKER"])
p("C35","Local type references resolve to an existing definition","When resolution succeeds every local type reference outside generics names a definition of the module it refers to with the right number of generic arguments; when it fails the reported type really is missing.","every module tree and reference","all module trees",["crates/mabo-compiler/src/resolve/mod.rs: resolve_local, resolve_module_types"])
p("C36","Imported and module-qualified types resolve","A reference to an existing type of another schema through `use` (of the type or of a module) is accepted.","every pair of schemas and import","all module trees and paths",["crates/mabo-compiler/src/resolve/mod.rs: resolve_import, resolve_remote, resolve_type_remotely"])
p("C37","Printed types parse back to the same type","For every data type, parsing its printed form gives the same type (and consumes all of it).","every type tree","unbounded type trees",["crates/mabo-parser/src/lib.rs: impl Print for DataType","crates/mabo-parser/src/parser/types.rs"])
p("C38","Formatting preserves the schema","For every schema that parses, the text produced by `mabo fmt` parses to the same schema (comments and attributes included).","every schema","unbounded schemas",["crates/mabo-parser/src/lib.rs: Display for Schema","crates/mabo-cli/src/main.rs: format"])
p("C39","Literals print back to the same literal","For every literal value the printed form parses to the same literal.","every literal","all strings, floats, integers",["crates/mabo-parser/src/lib.rs: Display for LiteralValue","crates/mabo-parser/src/parser/literals.rs"])
p("C40","Parser accepts exactly the documented identifiers and ids","Definition names, field names, constant names and @ids are accepted exactly when they match the documented character classes; the longest match is taken and the rest left untouched.","every input text","all texts",["crates/mabo-parser/src/parser/*.rs"])
p("C41","Suggested ids are unused","The next field/variant id offered by the tooling is larger than every id in the definition.","every definition","all definitions",["crates/mabo-meta/src/lib.rs: next_field_id, next_variant_id"])
p("C42","Reported wire size bounds are correct","The encoded size of every value of a type lies between the min and max reported by the metadata (when a max is reported).","every type and value","all types and values",["crates/mabo-meta/src/lib.rs: WireSize, wire_size"])
p("C43","Incremental edits keep the server's text equal to the editor's","After any sequence of didChange notifications the language server's document equals the editor's document.","every edit history, every batch","unbounded histories",["crates/mabo-lsp/src/handlers/mod.rs: did_change"])
p("C44","Semantic token deltas decode to the token positions","Decoding the relative token stream with the LSP rule yields the original absolute positions, provided tokens are emitted in document order.","every token list","unbounded lists",["crates/mabo-lsp/src/handlers/semantic_tokens.rs"])
p("C45","Document store tracks exactly the open documents","A document is available to the handlers iff its last lifecycle event was an open (or change after an open) and not a deletion/close; its content is that of the last event.","every event history","unbounded histories",["crates/mabo-lsp/src/handlers/mod.rs","crates/mabo-lsp/src/state.rs"])
p("C46","Positions convert back and forth between offsets and line/column","For every text and every offset on a character boundary converting to a line/column position and back yields the same offset.","every text and offset","all texts",["crates/mabo-lsp/src/handlers/index.rs"])
p("C47","Punctuated lists keep the number and order of their elements","A punctuated list has as many elements as the source wrote, at least one, iterated in source order; printing writes them in the same order.","every list","unbounded lists",["crates/mabo-parser/src/punctuated.rs"])
p("C48","Go and Rust codecs agree on the wire","For the types both back ends support the bytes written by the generated Go code are accepted by the generated Rust code with the same value, and vice versa.","every supported type and value","all values",["crates/mabo-go/src/encode.rs","crates/mabo-go/src/decode.rs",BE,BD])
p("C49","Accepted projects compile to working codecs","Every project that passes validation and type resolution and for which the generator does not panic yields code in which every referenced definition exists with the right number of type arguments, and whose encoder and decoder round trip.","every accepted project","all projects",["crates/mabo-build/src/lib.rs","crates/mabo-build/src/definition.rs","crates/mabo-compiler/src"])
p("C50","Analysis results belong to the current text","After any notifications the parse result, line table and last published diagnostics of a known document are those of its current text.","every notification history","unbounded histories",["crates/mabo-lsp/src/handlers/mod.rs: create_file, update_file, did_open, did_change"])
p("C51","The schema parser is total","For every text, parsing ends with a schema or an error: it never loops, never panics, and its recursion is bounded by the length of the text.","every input text","all texts",["crates/mabo-parser/src/parser.rs","crates/mabo-parser/src/parser/*.rs"])
p("C52","Parsed schemas are well formed","Every schema the parser returns has proper names in every place, ids and array sizes below 2^32, integers within 128 bits, bytes within 8 bits, single-line comments and non-empty lists.","every input text","all texts",["crates/mabo-parser/src/lib.rs","crates/mabo-parser/src/parser/*.rs"])
p("C53","Decoded strings are valid text","decode_string accepts exactly the length-prefixed byte strings that are UTF-8, and what it returns is the text they encode.","every byte string","all byte strings",["crates/mabo/src/buf/decode.rs: decode_string"])
p("C54","Generated codecs implement the documented wire format","The bytes written for a value are the encoding the reference manual's wire-format chapter assigns to it, that encoding is unique, and generated decoders read every such encoding, whoever wrote it.","every schema, type, value and byte string","all schemas and values, and all encodings produced by another implementation of the manual",["book/src/reference/wire-format.md",BE,BD,"crates/mabo-build/src/size.rs"])
p("C55","A build writes all outputs or reports an error","mabo_build's compile writes one file per schema, holding the code of exactly that schema, or reports an error and writes nothing; it reports an error exactly for projects with an unreadable, unparsable or invalid file or a reference that means nothing; it touches no other file, also when stopped half way, and a later build repairs such a state. mabo::include! with the name of a schema includes the code the build wrote for it.","every project, file system state and point at which the process is stopped","all projects and crash points",["crates/mabo-build/src/lib.rs: Compiler::compile","crates/mabo-project/src/lib.rs","crates/mabo/src/lib.rs: include!"])
p("C56","mabo check reports every broken file","mabo check reports exactly the files that cannot be read or parsed, every one of them, and its exit status says whether there was one.","every list of files and file system state","all inputs",["crates/mabo-cli/src/main.rs: check","book/src/reference/cli/check.md"])
p("C57","mabo format rewrites files without changing their meaning","After mabo format each given file holds the printed form of what it held, so it parses to the same schema; files that do not parse and all other files are unchanged, also when the process is stopped half way.","every list of files, file system state and stopping point","all inputs and crash points",["crates/mabo-cli/src/main.rs: format","crates/mabo-parser/src/lib.rs: Display"])
p("C58","Generated documentation is complete and its links work","mabo doc writes a page for every definition and module; every link on every page leads to a page written by the same run about the thing the link names; no page overwrites another.","every schema and nesting of modules","all schemas",["crates/mabo-doc/src/lib.rs","crates/mabo-doc/src/templates.rs: path_up","crates/mabo-cli/src/main.rs: doc, write_doc_output"])
p("C59","The Go generator writes every package of a project","mabo-go writes the code of every schema and every module of the project to a file of its own; it rejects the same projects as the Rust build, with the same error, before anything is written.","every project","all projects",["crates/mabo-go/src/main.rs: main, write_output","crates/mabo-go/src/lib.rs: render_schema"])
p("C60","Parsing time is bounded by the size of the schema","The work done to parse a text grows at most polynomially with the length of the text.","every input text, every polynomial","all texts: any fixed set of inputs has some bound",["crates/mabo-parser/src/parser.rs: punctuate","crates/mabo-parser/src/parser/types.rs: parse, parse_tuple"])
p('C61','Constants keep their type and value','A constant of an accepted schema is available in the generated Rust code, with the declared type and the written value; a constant whose literal is not a value of its type is rejected.','every schema, constant type and literal','all literals and types',['crates/mabo-build/src/definition.rs: compile_const, compile_const_data_type, compile_literal', 'crates/mabo-compiler/src/validate/mod.rs', 'crates/mabo-parser/src/parser/literals.rs'])
p('C62','Names stay distinct in generated Go code','Different names of an accepted schema stay different in the generated Go package, and none clashes with a name the generator adds or the language reserves.','every schema','all sets of names',['crates/mabo-go/src/definition.rs', 'crates/mabo-go/src/encode.rs', 'crates/mabo-go/src/decode.rs', 'crates/mabo-go/src/size.rs'])
p('C63','Locations in the syntax tree',"Every name, type, id, comment line, field, variant and import path of a parsed schema carries the byte range at which it stands in the source; the names' ranges follow each other in the order of the source.",'every source text the parser accepts','all texts, nesting depths, widths of characters, blanks and comments between words',['crates/mabo-parser/src/lib.rs: Spanned, span fields', 'crates/mabo-parser/src/parser.rs: punctuate, surround', 'crates/mabo-parser/src/parser/*.rs: with_span', 'crates/mabo-parser/src/token.rs'])
p('C64','Semantic tokens are the words of the document','For a document that parses, the semantic tokens the language server sends, decoded as the protocol prescribes, are the words of the text in order: each at its place, with the token type and modifiers its role in the schema has, and no word left out but those without a type.','every document that parses, every position encoding','all documents; relative encoding adds up over the whole history of tokens',['crates/mabo-lsp/src/handlers/semantic_tokens.rs', 'crates/mabo-lsp/src/handlers/mod.rs: semantic_tokens_full', 'crates/mabo-lsp/src/handlers/index.rs'])
p('C65','The outline mirrors the schema','For a document that parses, the document symbols are the tree of its definitions, fields and variants, with their names and kinds, and each range is where the name stands; these ranges are the declarations among the semantic tokens.','every document that parses, every position encoding','all documents and nestings',['crates/mabo-lsp/src/handlers/document_symbols.rs', 'crates/mabo-lsp/src/handlers/mod.rs: document_symbol'])
p('C66','Hovering shows the declaration under the cursor','With the cursor on a character of the name of a declared module, type, constant, variant or named field, hovering answers with its comment (and next free id or wire size) and the range of the name; with the cursor anywhere else it answers nothing.','every document that parses, every cursor position between characters, every encoding','all documents and cursor positions',['crates/mabo-lsp/src/handlers/hover.rs', 'crates/mabo-lsp/src/handlers/mod.rs: hover'])
p('C67','Validation errors point at the offending items','When validation rejects a schema, the error names a defect the schema really has: the first repeated id or name of its scope together with the earlier one, a type parameter no field uses, or a tuple of a wrong size; its locations are where these stand in the source, the diagnostic in the editor covers the second of two items and refers to the first, and making it never panics.','every source text the parser accepts and validation rejects, every order in which type parameters are visited, both build profiles, every position encoding','all schemas, scopes and nestings; ids that are implied by the ids before them',['crates/mabo-compiler/src/validate/ids.rs', 'crates/mabo-compiler/src/validate/names.rs', 'crates/mabo-compiler/src/validate/generics.rs', 'crates/mabo-compiler/src/validate/tuples.rs', 'crates/mabo-compiler/src/validate/mod.rs', 'crates/mabo-compiler/src/lib.rs: next_with_span', 'crates/mabo-lsp/src/handlers/compile.rs: validate_schema_diagnostic'])
p('C68','The parser accepts exactly the schema language','A source text is accepted, and read as a given schema, precisely when the grammar of the schema language says that the text writes that schema; no text writes two schemas, and every other text is reported as an error.','every source text, every schema, every way to read a decimal floating point text','all texts and layouts: a test tries some accepted and some rejected files, not that nothing else is accepted or rejected',['crates/mabo-parser/src/parser.rs: parse_schema, parse_definition, punctuate, surround', 'crates/mabo-parser/src/parser/*.rs', 'crates/mabo-parser/src/lib.rs: Schema::parse', 'book/src/reference/schema'])
p('C69','Generated Rust code compiles',"The Rust code that the build tool generates for a project that passes all of the compiler's checks is accepted by the Rust compiler: every expression in the generated size, encode and decode functions has the type its context requires and every trait bound holds.",'every project that passes the checks, both settings of the bytes type','all schemas: a test compiles the code of a few schemas',['crates/mabo-build/src/encode.rs: compile_struct, compile_enum, compile_fields, compile_data_type', 'crates/mabo-build/src/size.rs', 'crates/mabo-build/src/decode.rs', 'crates/mabo-build/src/definition.rs', 'crates/mabo/src/buf/encode.rs: Encode impls', 'crates/mabo/src/buf/size.rs: Size impls', 'crates/mabo/src/buf/decode.rs: Decode impls'])
p('C70','Generated Rust code implements the wire format','For every definition whose generated code compiles, running the generated size and encode functions on any value gives the size and the bytes the wire format prescribes for that value, and running the generated decode function on any input gives the value and rest, or the error, that the format prescribes.','every project, every definition and type arguments, every value, every input byte string','values and inputs of every shape and depth',['crates/mabo-build/src/encode.rs', 'crates/mabo-build/src/size.rs', 'crates/mabo-build/src/decode.rs', 'crates/mabo/src/buf'])
p('C71','Recursive definitions can be used','Definitions that refer to themselves, directly, through collections or through each other, lead to Rust code whose types have a size and whose decode functions can be generated with finitely many instances.','every project, every definition, every choice of type arguments','all graphs of definitions, through any depth of containers and arguments',['crates/mabo-build/src/decode.rs: compile_data_type', 'crates/mabo-build/src/definition.rs: compile_struct, compile_enum', 'crates/mabo/src/buf/decode.rs: decode_vec, decode_hash_map, decode_hash_set, decode_array, decode_option'])
p('C72','Decoded values are valid','Whatever bytes are given, if decoding succeeds the result is a value of the type asked for: integers in range, text valid, arrays of the declared length, maps and sets without repeated keys, non-zero values not zero, every field of every struct present and every variant one of the declared ones, at any depth.','every schema, every type, every byte string','all byte strings, including ones no encoder writes, and all depths of nesting',['crates/mabo-build/src/decode.rs: compile_struct, compile_enum, compile_data_type', 'crates/mabo/src/buf/decode.rs'])
p('C73','Every document is analysed',"For every text a document can have, the language server's analysis returns without failing: a valid schema is the result itself; a text that is not a schema gives one diagnostic with an empty range at a place in the text; an invalid schema gives the diagnostic of the first validation error, covering the offending text. After any session, what the server holds for a document is the analysis of its current text.",'every text, position encoding, list of notifications and hash order','all texts (not just well-formed ones), all sessions',['crates/mabo-lsp/src/handlers/compile.rs: compile, parse_schema_diagnostic, get_range', 'crates/mabo-parser/src/error.rs', 'crates/mabo-parser/src/lib.rs: Schema::parse'])
p('C74','Nothing before a syntax error needs changing','For every text that is not a schema, the language server shows the syntax error at a place such that the text before it can be continued to a valid schema: the place is never behind the mistake. Nor is it too early: if a beginning of the text is a schema by itself, the place is at its end or later.','every text that is not a schema, every position encoding','the error place depends on every backtracking and committed alternative of the parser; all texts',['crates/mabo-parser/src/parser.rs', 'crates/mabo-parser/src/parser/*.rs', 'crates/mabo-parser/src/error.rs', 'crates/mabo-lsp/src/handlers/compile.rs: parse_schema_diagnostic'])
p('C75','The generated Rust code parses',"After a project passes all checks, the build writes the Rust code of every schema, unless a schema uses a Rust keyword as a name or contains something the generator has no code for; then it ends with exactly that schema's error, the files of the schemas before it having been written.",'every project, both kinds of bytes types','each keyword at each position of a name, in schemas of any size and nesting, against the grammar of Rust items',['crates/mabo-build/src/definition.rs', 'crates/mabo-build/src/lib.rs: Compiler::compile, Error::InvalidCode'])
p('C76','Every request is answered exactly once',"Every request an editor sends to the language server gets exactly one response, with the request's id, in the order of the requests and of a kind the request allows; the server sends no other responses.",'every stream of messages and pauses, in every order, for every behaviour of the handlers','a conversation of unbounded length; the messages that arrive while the server waits for an answer to a request of its own',['crates/mabo-lsp/src/main.rs: main, main_loop, handle_request, handle_notify', 'crates/mabo-lsp/src/client.rs: Client::send_request', 'crates/mabo-lsp/src/handlers/mod.rs: initialize, initialized, did_change_configuration'])
p('C77','The server works on the texts the editor shows',"Over a whole conversation, from the first message to the last, the server's documents are the project files found at the start as changed by all the notifications the editor has sent, and each query is answered from the documents and settings as they are when the query arrives.",'every conversation, every project, every position encoding','the effect of the start-up handshake and of configuration changes on what is seen of an unbounded stream of edits',['crates/mabo-lsp/src/main.rs: main, main_loop, handle_request, handle_notify', 'crates/mabo-lsp/src/client.rs: Client::send_request', 'crates/mabo-lsp/src/handlers/mod.rs: initialize, initialized, did_change_configuration', 'crates/mabo-lsp/src/state.rs: GlobalState'])
p('C78',"The editor's settings are used","The settings the server uses are the defaults until the editor answers a request for the configuration, and then what the editor has answered last; the server's own requests have distinct ids, so that answers cannot be mixed up.",'every stream of messages and pauses, every id counter value',"timing of the editor's answers; wrapping of the id counter after 2^31 requests",['crates/mabo-lsp/src/main.rs: main, main_loop, handle_request, handle_notify', 'crates/mabo-lsp/src/client.rs: Client::send_request', 'crates/mabo-lsp/src/handlers/mod.rs: initialize, initialized, did_change_configuration', 'crates/mabo-lsp/src/state.rs: reload_settings'])
p('C79','The server starts and ends as the protocol says','The server announces the position encoding it then uses; it runs until the editor disconnects or asks it to shut down and exit, ends without an error exactly then, and does not crash on any input.','every stream of messages and pauses, every list of position encodings','conversations of any length that end at any point',['crates/mabo-lsp/src/main.rs: main, main_loop, handle_request, handle_notify', 'crates/mabo-lsp/src/client.rs: Client::send_request', 'crates/mabo-lsp/src/handlers/mod.rs: initialize, initialized, did_change_configuration'])
p('C80','A payload cannot make a decoder build more than a constant times what it contains',"Whatever bytes a generated decoder is given, the value it returns consists of at most K values (fields, elements, map entries) and string bytes for every byte that was read, where K depends only on the types of the schema and not on the payload; for a schema without type arguments K is the largest number of values an empty value of one of the schema's types has.  In particular a vec, set or map never has as many elements as its encoding has bytes, whatever length or count the payload announces.  (The elements of a fixed-size array are part of K: an array of empty structs takes two bytes however long it is.)","every schema, type, payload (valid or hostile) and every set of types closed under 'is a part of'",'a memory blow-up needs one particular payload for one particular schema; tests only show the payloads they try',['crates/mabo/src/buf/decode.rs: decode_vec, decode_hash_map, decode_hash_set, decode_array, decode_option, decode_bytes (L95-287)', 'crates/mabo-build/src/decode.rs: compile_struct, compile_enum, compile_data_type'])
p('C81','Size in the generated Go code is the number of bytes Encode writes',"For every value of a generated Go type, whatever it contains, Size() returns the number of bytes Encode appends, provided the Go runtime's own Size functions agree with its Encode functions; and every type for which the generator writes an Encode method gets a Size method that compiles.",'every Go runtime (it is not in the repository), schema, type and value',"the generator's size and encode halves are two independent renderings that must agree for every type expression; tests compare the text of a few",['crates/mabo-go/src/size.rs: RenderStruct, RenderEnumVariant, RenderFields, RenderType', 'crates/mabo-go/src/encode.rs'])
p('C82','Resolution errors show the reference and its target',"When resolving a project's types fails, the report names a problem that is really there, shows the text of the file that contains the faulty import or reference, marks that name in it as used, and marks the definition it is about, if there is one, as declared, in the text of the file that declares it.",'every list of schema files, every reference and import in them, at any depth, and every order of the hash map of submodules','the places depend on the whole text of several files and on which of the many references fails first; tests render a few small files',['crates/mabo-compiler/src/resolve/mod.rs: schemas, resolve_local, resolve_import, resolve_remote, resolve_type_remotely', 'crates/mabo-compiler/src/resolve/error.rs'])
p('C83','Documentation pages show the definition itself','The definition text shown on a documentation page is the documented definition: read as a schema file (with a final line break) and compiled, it gives the same name, type parameters, fields or variants in the same order with the same names, types and ids, and the same constant value; nothing but comments is lost, so two different definitions are never shown alike. The comment shown next to it has every line, and listings show it up to the first blank line.','every schema source, every struct, enum, alias and constant of it at any module depth, any nesting of types, all implicit and explicit ids','Snapshot tests compare a handful of rendered pages; they never read the text back, and cannot cover every combination of types, ids and literals.',['crates/mabo-doc/src/templates.rs: StructDetail::print_schema, EnumDetail::print_schema, AliasDetail::print_schema, ConstDetail::print_schema, PrintField, PrintType, PrintLiteral, first_comment, merge_comments', 'crates/mabo-compiler/src/simplify.rs: schema'])
p('C84','Generated Go files are closed','Every Go file generated for a schema or one of its modules only mentions names that are in scope there: each type is a type parameter, a type declared in the same file with that number of parameters or a predeclared type, each variable is declared before use and not hidden, each package is imported; and every package it imports is mentioned (Go rejects unused imports).','every schema, every module of it at any depth, every nesting of types, any number of fields, variants and type parameters','Snapshot tests compare 27 generated files with recorded text and never compile them; whether the names resolve depends on the whole module.',['crates/mabo-go/src/definition.rs: render_schema, render_definition, RenderImports, RenderStruct, RenderNewFunc, RenderGenerics, RenderGenericNames, RenderFields, RenderParameters, RenderConstructor, RenderAlias, RenderType, RenderConst, RenderEnum, RenderEnumVariant, uses_generic', 'crates/mabo-go/src/encode.rs: RenderStruct, RenderEnumVariant, RenderType', 'crates/mabo-go/src/decode.rs: RenderStruct, RenderEnumVariant, RenderType', 'crates/mabo-go/src/size.rs: RenderStruct, RenderEnumVariant, RenderType'])
p('C85','Running the methods of a generated Go file follows the schema','Take the Go file mabo-go writes for a schema, as text, and run its methods. For a struct of the schema, `Encode` appends the bytes the schema prescribes, `Size` returns the number of bytes `Encode` appends, and `Decode` returns the value that was written (by Rust or by Go) and stops after its last byte.','every schema, every struct and variant in it, every value of its type, every input, every Go runtime library that behaves the same on equal closures',"the generator's tests compare text with stored snapshots; nothing executes the output, and the claim ranges over all schemas, values and inputs",['crates/mabo-go/src/encode.rs RenderStruct RenderEnumVariant RenderFields RenderType', 'crates/mabo-go/src/decode.rs RenderStruct RenderFields RenderType RenderFoundChecks', 'crates/mabo-go/src/size.rs RenderStruct RenderFields RenderType', 'crates/mabo-go/src/definition.rs render_definition'])
p('C86','A whole conversation with the language server: every answer is about the text the editor shows',"An editor opens a conversation, opens and edits documents (waiting for the server's own requests, C76), and asks. In release builds the server never panics. For a document whose present text is a schema the compiler accepts, a symbol request is answered with the outline of that text, a token request with the words of that text, a hover with the documentation of the name under the cursor according to the settings in force, all in the encoding the server announced; for any other document the answer is null; the last published diagnostics are those of the present text.",'every conversation (messages, pauses, settings, workspace files), every sequence of edits of every document, every position, every text','the claim composes the protocol loop, the incremental text updates, the parser, the compiler and the visitors over unbounded histories; the tests exercise none of these together',['crates/mabo-lsp/src/main.rs main main_loop handle_request handle_notify', 'crates/mabo-lsp/src/handlers/mod.rs initialize did_open did_change hover document_symbol semantic_tokens_full', 'crates/mabo-lsp/src/handlers/compile.rs compile', 'crates/mabo-lsp/src/handlers/hover.rs', 'crates/mabo-lsp/src/handlers/document_symbols.rs', 'crates/mabo-lsp/src/handlers/semantic_tokens.rs', 'crates/mabo-lsp/src/state.rs GlobalState'])
p('C87','The integer encodings of the benchmark crate round trip','Each of the alternative integer encodings the project measures its own against (postcard, bincode, vu128) gives back the number that was encoded, whatever the buffer contained before, and touches no byte behind the space it asks for; the postcard one writes the same bytes as the runtime; a buffer that is too short is refused.','every value of every width, signed and unsigned, floats by their bits, every buffer','the tests try eleven values of one width with a buffer of zeros; the claim ranges over 2^128 values and all buffers, and one function without a test is wrong',['crates/mabo-benches/src/varint.rs postcard::encode postcard::decode bincode vu128'])
p('C88','A project consists of exactly the schema files its patterns select','Loading a project gives each schema file below its directory that one of its patterns selects, once, and nothing else; it fails only for a reason that concerns these files or the project file, and names it; looking for the projects of a workspace finds every directory with a project file.','every directory tree (files, directories, links, entries that cannot be read), every project file, every list of patterns, every set of ignore rules','there is no test of the crate at all, and the claim ranges over all directory trees',['crates/mabo-project/src/lib.rs load load_project collect_files discover'])
p('C89','The order in which hash maps and sets are iterated does not matter','Two equal values whose hash maps and hash sets happen to be iterated in different orders announce the same size, take the same number of bytes, and decode to equal values, however many programs a value passes through; equal values are written as the same bytes.','every schema, every value, every iteration order at every depth, every number of programs',"the iteration order of Rust's hash collections is random per process, so a test sees one order; the claim ranges over all permutations at all depths",['crates/mabo/src/buf/encode.rs encode_hash_map encode_hash_set', 'crates/mabo/src/buf/decode.rs decode_hash_map decode_hash_set', 'crates/mabo/src/buf/size.rs size_hash_map size_hash_set'])
p('C90','The commands act on exactly the files of the project','mabo check, mabo format and mabo doc, started in a project, look at every schema file of the project and at no other file: check reports exactly those that are no schemas, format changes exactly those that are, doc has a page for each; with patterns as arguments, exactly the schema files they match are used. A build script (mabo_build) compiles exactly the schema files of its project. mabo-go writes every module of every schema file of its project.','every directory tree, every project file and list of patterns, every content of the files','the tools have no tests that run on a project; the claim ranges over all directory trees and contents',['crates/mabo-cli/src/main.rs check format doc project_or_files', 'crates/mabo-project/src/lib.rs load', 'crates/mabo-build/src/lib.rs Compiler::compile', 'crates/mabo-go/src/main.rs main'])
p('C91','The emitted functions are the analysed programs',"The size, encode and decode functions that mabo-build writes for a struct or enum of the schema parse, under Rust's grammar, to exactly the programs that C69, C70 and C71 are about: the same calls with the same field ids, names, closures, match arms and types, in the same order. Nothing else stands in the function bodies, and the blocks stand in the file of the schema.",'every project that lowers, every struct and enum in it, both bytes types','golden tests compare the text for some schemas; the claim is that the text of every schema denotes the analysed program',['crates/mabo-build/src/encode.rs compile_struct compile_enum compile_data_type', 'crates/mabo-build/src/size.rs compile_struct compile_enum compile_data_type', 'crates/mabo-build/src/decode.rs compile_struct compile_enum compile_data_type'])
p('C92','Literals and documentation in generated Rust code denote what the schema says',"In the token stream mabo-build writes for a schema, every constant is an item `#[allow(dead_code)] pub const NAME: TYPE = LITERAL;` under its schema name, with the Rust type of its declared type, and by Rust's rules for literals LITERAL denotes exactly the constant's value: numbers with their sign, floats to the bit, strings character for character whatever escapes are needed, byte strings byte for byte. The `doc` attributes of every item, field and variant denote the lines of its comment in the schema, in order and unchanged; documentation stands with the definition it was written for, at every module depth.",'every schema text that parses, simplifies and contains what the generator can express, each definition at any module depth, every string, byte list, number and comment, both bytes types, every choice of which characters Debug calls unprintable and every way of printing finite floats that reads back','an escape that denotes another character (a NUL in front of a digit, a quote, a backslash) compiles and runs; only the one constant is wrong, and there are as many constants as strings',['crates/mabo-build/src/definition.rs: compile_const L173-193, compile_const_data_type L353-376, compile_literal L378-386, compile_comment L215-218, compile_struct, compile_enum, compile_variant, compile_fields, compile_alias, compile_module'])
p('C93',"Constants in generated Go files denote the schema's values","Every constant of a schema module stands in the Go file of that module, with its documentation, its name in camel case and the Go type of its type, and its literal denotes, by Go's rules, exactly the value the schema gives it: the same number, the same text (as UTF-8 bytes), the same bytes.",'every list of definitions, every module at any depth, every value of every kind, every choice of which characters Debug calls unprintable, every way of printing finite floats as decimals that reads back',"the literals are written with Rust's Debug and Display and read by another language; a wrong character in one constant compiles and is noticed by nobody",['crates/mabo-go/src/definition.rs: RenderConst L511-548, RenderConstType L468-490, RenderLiteral L550-575, RenderComment L377-391'])
p('C94','Documentation pages are well-formed HTML and show names, types and values exactly',"Every page of a schema's documentation is a tree of HTML elements whatever characters names, types and values contain, and a reader of the page finds exactly: the title; the definition's text; every name, type and identifier of its fields and variants, in order, each marked as what it is; the next free identifier of a struct; and one entry, linking to its page, for every definition of the module or schema. There is one such page for every definition at any depth, and no other.",'every simplified schema (any nesting of modules, any names, types, generics and literals), every output directory, every behaviour of the Markdown renderer whose output closes what it opens and has none of the marked elements',"types such as vec<u8>, string constants with quotes and any other character go through the templates' escaping; one forgotten place breaks only the pages of schemas that have such characters there",['crates/mabo-doc/templates: base.html, index.html, detail/{module,struct,enum,alias,const}.html', 'crates/mabo-doc/src/lib.rs: render_schema, render_definition', 'crates/mabo-doc/src/templates.rs'])
p('C95','Size descriptions show every range, and tell types apart',"The description of the encoded size of a field's type (in the editor's hover and in the documentation) gives, for the type and for every part of it, at the place its labels say, exactly the range that the metadata computes, and the text determines the whole description: two types with the same text have the same ranges everywhere and are the same type, up to names of definitions and lengths of arrays. Every label is shown as it is.",'every type at any nesting, every part of it','nested types have descriptions of any depth whose only structure is indentation; a wrong level attributes a size to the wrong part and is still valid text',['crates/mabo-meta/src/lib.rs: WireSize, print, wire_size, wire_size_array, wire_size_tuple', 'crates/mabo-lsp/src/handlers/hover.rs: visit_named_field', 'crates/mabo-doc/src/templates.rs: render_wire_size'])
open('/verif/properties.jsonl','w').write(''.join(json.dumps(x)+'\n' for x in P))
print(len(P))
