{"id": "C01", "title": "Unsigned varint round trip", "statement": "For every unsigned integer v that fits u16/u32/u64/u128, encoding v as varint and decoding the resulting bytes, followed by any further bytes, returns v and reports exactly the number of bytes that were written.", "quantifier": "every width, every value of the width, every trailing buffer", "why_tests_cant": "2^128 values times arbitrary trailing data; the unit tests try MIN, 1 and MAX without trailing data", "anchors": ["crates/mabo/src/varint.rs: encode_u16..encode_u128, decode_u16..decode_u128"]}
{"id": "C02", "title": "Signed varint round trip", "statement": "For every signed integer that fits i16/i32/i64/i128, varint-encoding and decoding it (with any trailing bytes) returns the same integer and the same byte count.", "quantifier": "every width, every value, every trailing buffer", "why_tests_cant": "unbounded input space; tests use five literals per width", "anchors": ["crates/mabo/src/varint.rs: encode_i16..encode_i128, decode_i16..decode_i128"]}
{"id": "C03", "title": "ZigZag is a bijection that keeps small magnitudes small", "statement": "ZigZag maps the non-negative n to 2n and the negative n to -2n-1, both directions are inverse to each other on the whole width, and therefore |n| <= 63 encodes in one byte.", "quantifier": "every width and value", "why_tests_cant": "a statement about every value of the width", "anchors": ["crates/mabo/src/varint.rs: zigzag_encode_*, zigzag_decode_*"]}
{"id": "C04", "title": "Varint length equals the predicted size and is minimal", "statement": "The number of bytes the varint encoder writes equals size_*(v), is between 1 and the documented maximum (3/5/10/19), and is the least number of 7-bit groups that can represent v.", "quantifier": "every width and value (signed and unsigned)", "why_tests_cant": "tests check the end points only; boundaries 2^(7k) are not covered", "anchors": ["crates/mabo/src/varint.rs: size_*, max_size, encode_*"]}
{"id": "C05", "title": "Varint bytes are well-formed LEB128", "statement": "The bytes written for v are a canonical base-128 representation of v: every byte but the last has the continuation bit, the last has not, no superfluous zero group, and the 7-bit groups sum to v.", "quantifier": "every width and value", "why_tests_cant": "all values", "anchors": ["crates/mabo/src/varint.rs: encode_*"]}
{"id": "C06", "title": "Varint decoding is safe on arbitrary bytes", "statement": "On any byte string the varint decoder either fails or returns a value inside the integer's range together with a consumed count that is at least 1, at most the maximum size and never more than the input length; it fails exactly when none of the first MAX bytes lacks the continuation bit.", "quantifier": "every byte string, every width", "why_tests_cant": "every byte string must be covered, including truncated and over-long ones", "anchors": ["crates/mabo/src/varint.rs: decode_*", "crates/mabo/src/buf/decode.rs: decode_int!"]}
{"id": "C07", "title": "Varint encodings are prefix free and injective", "statement": "Two different values never have encodings where one is a prefix of the other, so concatenated varints are uniquely decodable.", "quantifier": "every pair of values of a width", "why_tests_cant": "pairs of an unbounded domain", "anchors": ["crates/mabo/src/varint.rs: encode_*"]}
{"id": "C08", "title": "Strict prefixes of a varint are rejected", "statement": "Decoding any strict prefix of an encoded varint reports an error instead of a wrong value.", "quantifier": "every value, every cut point", "why_tests_cant": "every truncation point of every value", "anchors": ["crates/mabo/src/varint.rs: decode_*"]}
{"id": "C09", "title": "Over-long varints are not silently truncated", "statement": "The varint decoder does not accept a byte string whose 7-bit groups denote a number that does not fit the target width.", "quantifier": "every byte string", "why_tests_cant": "needs all byte strings; tests never feed non-canonical input", "anchors": ["crates/mabo/src/varint.rs: decode_*"]}
{"id": "C10", "title": "Field identifier packing round trips", "statement": "Packing a field number and its encoding class into one u32 and unpacking it returns both; unpacking fails exactly for the three unassigned encoding classes.", "quantifier": "every field number representable in 29 bits and every encoding class; every u32 for unpacking", "why_tests_cant": "2^29 x 5 combinations; no unit tests exist", "anchors": ["crates/mabo/src/lib.rs: FieldId::from_u32, FieldId::into_u32, FieldEncoding::from_u32"]}
{"id": "C11", "title": "Every field number accepted by the compiler survives packing", "statement": "A field id that the schema compiler accepts is recovered unchanged by the reader of the generated code.", "quantifier": "every u32 field id accepted by validation", "why_tests_cant": "requires the whole u32 range", "anchors": ["crates/mabo/src/lib.rs: FieldId::into_u32", "crates/mabo-compiler/src/validate/ids.rs", "crates/mabo-parser/src/parser.rs: ids"]}
{"id": "C12", "title": "Primitive values round trip with trailing data untouched", "statement": "For bool, u8, i8, all varint integers, f32, f64, string and bytes: decoding what encode wrote followed by arbitrary bytes returns the value and leaves exactly those bytes.", "quantifier": "every value, every trailing buffer", "why_tests_cant": "unbounded domain (strings and byte arrays of any length)", "anchors": ["crates/mabo/src/buf/encode.rs", "crates/mabo/src/buf/decode.rs"]}
{"id": "C13", "title": "Size is exact", "statement": "For every value, size() equals the number of bytes encode() writes.", "quantifier": "every type and value of the schema language", "why_tests_cant": "every nesting of types and every collection length must be covered", "anchors": ["crates/mabo/src/buf/size.rs", "crates/mabo/src/buf/encode.rs", "crates/mabo-build/src/size.rs", "crates/mabo-build/src/encode.rs"]}
{"id": "C14", "title": "Generated codec round trip", "statement": "For every schema-defined type and every value of it, decode(encode(v) ++ rest) returns v and leaves rest.", "quantifier": "every schema, type and value, every trailing buffer", "why_tests_cant": "schemas and values are unbounded trees", "anchors": ["crates/mabo-build/src/encode.rs", "crates/mabo-build/src/decode.rs", "crates/mabo/src/buf/encode.rs", "crates/mabo/src/buf/decode.rs"]}
{"id": "C15", "title": "Decoding never reads past its value and terminates", "statement": "Every decoder that succeeds leaves a suffix of its input; on every byte string decoding a generated type terminates.", "quantifier": "every schema, type, byte string", "why_tests_cant": "arbitrary hostile input", "anchors": ["crates/mabo/src/buf/decode.rs", "crates/mabo-build/src/decode.rs"]}
{"id": "C16", "title": "Decoding never panics", "statement": "On every byte string the generated decoders return Ok or Err, never a panic.", "quantifier": "every schema, type, byte string", "why_tests_cant": "arbitrary hostile input", "anchors": ["crates/mabo/src/buf/decode.rs: decode_array, decode_non_zero_*", "crates/mabo-build/src/decode.rs"]}
{"id": "C17", "title": "Non-zero types never hold zero or empty values after decoding", "statement": "A successful decode of non_zero<T> yields a non-zero integer or a non-empty string/bytes/collection; a zero/empty payload yields the Zero error.", "quantifier": "every payload and element decoder", "why_tests_cant": "all payloads", "anchors": ["crates/mabo/src/buf/decode.rs: decode_non_zero_*", "crates/mabo/src/lib.rs: NonZero"]}
{"id": "C18", "title": "Skipping a field consumes exactly its encoding", "statement": "For every field a writer emits, a reader that does not know the field and skips it by its encoding class lands exactly behind the field's value.", "quantifier": "every field type and value, every trailing buffer", "why_tests_cant": "type- and value-generic; an off-by-one shows up only on certain shapes", "anchors": ["crates/mabo/src/buf/decode.rs: decode_skip", "crates/mabo-build/src/encode.rs: compile_data_type (encoding class)"]}
{"id": "C19", "title": "Unknown fields are ignored (forward compatibility)", "statement": "Data written with a newer version of a struct or variant that has additional fields decodes with the older definition to the old fields' values.", "quantifier": "every pair of definitions where one extends the other, all values", "why_tests_cant": "pairs of schemas and all values", "anchors": ["crates/mabo-build/src/decode.rs: compile_struct, compile_variant", "crates/mabo/src/buf/decode.rs: decode_skip"]}
{"id": "C20", "title": "Added optional fields default to None (backward compatibility)", "statement": "Data written with an older definition decodes with a newer one that only adds option<T> fields; the new fields are None and all others keep their values.", "quantifier": "every pair of definitions, all values", "why_tests_cant": "pairs of schemas and all values", "anchors": ["crates/mabo-build/src/decode.rs: compile_field_vars, compile_field_assigns"]}
{"id": "C21", "title": "A missing required field is reported with its id and name", "statement": "If a required field does not occur in the payload the decoder returns MissingField with the id and name of the first such field in declaration order; optional fields may be missing.", "quantifier": "every definition, every well-formed field sequence", "why_tests_cant": "all field subsets and orders", "anchors": ["crates/mabo-build/src/decode.rs: compile_field_assigns"]}
{"id": "C22", "title": "Field order on the wire is irrelevant and the last occurrence wins", "statement": "Permuting the fields of a payload (distinct ids) does not change the decoded value; when an id occurs twice the last value is kept.", "quantifier": "every permutation of the encoded fields", "why_tests_cant": "factorially many orders", "anchors": ["crates/mabo-build/src/decode.rs: compile_struct loop"]}
{"id": "C23", "title": "Unknown enum variants are rejected", "statement": "Decoding an enum whose leading variant id is not in the definition returns UnknownVariant with that id; with a known id the variant with that id is returned.", "quantifier": "every enum, every id, every trailing buffer", "why_tests_cant": "all ids", "anchors": ["crates/mabo-build/src/decode.rs: compile_enum"]}
{"id": "C24", "title": "Encodings of a type are uniquely decodable", "statement": "Two values of the same type with the same encoding are equal, and no encoding is a strict prefix of another.", "quantifier": "every type, every pair of values", "why_tests_cant": "pairs of unbounded values", "anchors": ["crates/mabo-build/src/encode.rs", "crates/mabo/src/buf/encode.rs"]}
{"id": "C25", "title": "Truncated payloads are rejected", "statement": "Every strict prefix of an encoded value fails to decode instead of yielding a value.", "quantifier": "every type and value, every cut point", "why_tests_cant": "every truncation point", "anchors": ["crates/mabo/src/buf/decode.rs", "crates/mabo-build/src/decode.rs"]}
{"id": "C26", "title": "Collections: decoding yields the elements in order; map insertion keeps one entry per key", "statement": "decode of an encoded vec returns the elements in order; a map payload with repeated keys keeps the last value per key; a set payload keeps one element each.", "quantifier": "every element sequence", "why_tests_cant": "unbounded sequences", "anchors": ["crates/mabo/src/buf/decode.rs: decode_vec, decode_hash_map, decode_hash_set"]}
{"id": "C27", "title": "Varint decoding is independent of buffer chunking", "statement": "Decoding from a non-contiguous buffer gives the same result as decoding from the concatenation of its chunks.", "quantifier": "every chunking of every payload", "why_tests_cant": "all split points", "anchors": ["crates/mabo/src/buf/decode.rs: decode_int! (r.chunk())"]}
{"id": "C28", "title": "Automatic ids are fresh and start at 1", "statement": "Fields and variants without an explicit id get the previous id plus one (starting at 1); ids after validation are pairwise distinct and the ids written by the code generator are those the validator checked.", "quantifier": "every definition", "why_tests_cant": "all id assignments, explicit and implicit mixed", "anchors": ["crates/mabo-compiler/src/lib.rs: IdGenerator", "crates/mabo-compiler/src/validate/ids.rs", "crates/mabo-compiler/src/simplify.rs"]}
{"id": "C29", "title": "Duplicate id detection is sound and complete", "statement": "Validation of a struct/enum reports a duplicate id iff two fields of one field list or two variants have the same id, and the reported pair is such a pair.", "quantifier": "every definition", "why_tests_cant": "all definitions", "anchors": ["crates/mabo-compiler/src/validate/ids.rs"]}
{"id": "C30", "title": "Duplicate name detection is sound and complete", "statement": "Validation reports a duplicate name iff two fields of a field list, two variants of an enum or two items of a module share a name.", "quantifier": "every schema", "why_tests_cant": "all schemas", "anchors": ["crates/mabo-compiler/src/validate/names.rs"]}
{"id": "C31", "title": "Generic parameter checks are sound and complete", "statement": "Validation rejects a definition iff a generic parameter is declared twice or never used in its fields.", "quantifier": "every definition", "why_tests_cant": "all definitions", "anchors": ["crates/mabo-compiler/src/validate/generics.rs"]}
{"id": "C32", "title": "Tuple arity check covers every tuple", "statement": "A schema that passes validation contains no tuple with fewer than 2 or more than 12 elements anywhere, so code generation cannot hit its tuple panic.", "quantifier": "every schema, every nesting", "why_tests_cant": "all nestings of types", "anchors": ["crates/mabo-compiler/src/validate/tuples.rs", "crates/mabo-build/src/encode.rs: compile_data_type Tuple"]}
{"id": "C33", "title": "Validated schemas never make the code generator panic", "statement": "Code generation of a schema that passed validation and resolution does not reach a todo!()/panic.", "quantifier": "every validated schema", "why_tests_cant": "all schemas", "anchors": ["crates/mabo-build/src/encode.rs", "crates/mabo-build/src/decode.rs", "crates/mabo-build/src/size.rs", "crates/mabo-build/src/definition.rs"]}
{"id": "C34", "title": "Field id 0 is never emitted", "statement": "No accepted schema assigns the id reserved for the end marker to a field.", "quantifier": "every accepted schema", "why_tests_cant": "all schemas", "anchors": ["crates/mabo-compiler/src/validate/ids.rs", "crates/mabo/src/buf/decode.rs: END_MARKER"]}
{"id": "C35", "title": "Local type references resolve to an existing definition", "statement": "When resolution succeeds every local type reference outside generics names a definition of the module it refers to with the right number of generic arguments; when it fails the reported type really is missing.", "quantifier": "every module tree and reference", "why_tests_cant": "all module trees", "anchors": ["crates/mabo-compiler/src/resolve/mod.rs: resolve_local, resolve_module_types"]}
{"id": "C36", "title": "Imported and module-qualified types resolve", "statement": "A reference to an existing type of another schema through `use` (of the type or of a module) is accepted.", "quantifier": "every pair of schemas and import", "why_tests_cant": "all module trees and paths", "anchors": ["crates/mabo-compiler/src/resolve/mod.rs: resolve_import, resolve_remote, resolve_type_remotely"]}
{"id": "C37", "title": "Printed types parse back to the same type", "statement": "For every data type, parsing its printed form gives the same type (and consumes all of it).", "quantifier": "every type tree", "why_tests_cant": "unbounded type trees", "anchors": ["crates/mabo-parser/src/lib.rs: impl Print for DataType", "crates/mabo-parser/src/parser/types.rs"]}
{"id": "C38", "title": "Formatting preserves the schema", "statement": "For every schema that parses, the text produced by `mabo fmt` parses to the same schema (comments and attributes included).", "quantifier": "every schema", "why_tests_cant": "unbounded schemas", "anchors": ["crates/mabo-parser/src/lib.rs: Display for Schema", "crates/mabo-cli/src/main.rs: format"]}
{"id": "C39", "title": "Literals print back to the same literal", "statement": "For every literal value the printed form parses to the same literal.", "quantifier": "every literal", "why_tests_cant": "all strings, floats, integers", "anchors": ["crates/mabo-parser/src/lib.rs: Display for LiteralValue", "crates/mabo-parser/src/parser/literals.rs"]}
{"id": "C40", "title": "Parser accepts exactly the documented identifiers and ids", "statement": "Definition names, field names, constant names and @ids are accepted exactly when they match the documented character classes; the longest match is taken and the rest left untouched.", "quantifier": "every input text", "why_tests_cant": "all texts", "anchors": ["crates/mabo-parser/src/parser/*.rs"]}
{"id": "C41", "title": "Suggested ids are unused", "statement": "The next field/variant id offered by the tooling is larger than every id in the definition.", "quantifier": "every definition", "why_tests_cant": "all definitions", "anchors": ["crates/mabo-meta/src/lib.rs: next_field_id, next_variant_id"]}
{"id": "C42", "title": "Reported wire size bounds are correct", "statement": "The encoded size of every value of a type lies between the min and max reported by the metadata (when a max is reported).", "quantifier": "every type and value", "why_tests_cant": "all types and values", "anchors": ["crates/mabo-meta/src/lib.rs: WireSize, wire_size"]}
{"id": "C43", "title": "Incremental edits keep the server's text equal to the editor's", "statement": "After any sequence of didChange notifications the language server's document equals the editor's document.", "quantifier": "every edit history, every batch", "why_tests_cant": "unbounded histories", "anchors": ["crates/mabo-lsp/src/handlers/mod.rs: did_change"]}
{"id": "C44", "title": "Semantic token deltas decode to the token positions", "statement": "Decoding the relative token stream with the LSP rule yields the original absolute positions, provided tokens are emitted in document order.", "quantifier": "every token list", "why_tests_cant": "unbounded lists", "anchors": ["crates/mabo-lsp/src/handlers/semantic_tokens.rs"]}
{"id": "C45", "title": "Document store tracks exactly the open documents", "statement": "A document is available to the handlers iff its last lifecycle event was an open (or change after an open) and not a deletion/close; its content is that of the last event.", "quantifier": "every event history", "why_tests_cant": "unbounded histories", "anchors": ["crates/mabo-lsp/src/handlers/mod.rs", "crates/mabo-lsp/src/state.rs"]}
{"id": "C46", "title": "Positions convert back and forth between offsets and line/column", "statement": "For every text and every offset on a character boundary converting to a line/column position and back yields the same offset.", "quantifier": "every text and offset", "why_tests_cant": "all texts", "anchors": ["crates/mabo-lsp/src/handlers/index.rs"]}
{"id": "C47", "title": "Punctuated lists keep the number and order of their elements", "statement": "A punctuated list has as many elements as the source wrote, at least one, iterated in source order; printing writes them in the same order.", "quantifier": "every list", "why_tests_cant": "unbounded lists", "anchors": ["crates/mabo-parser/src/punctuated.rs"]}
{"id": "C48", "title": "Go and Rust codecs agree on the wire", "statement": "For the types both back ends support the bytes written by the generated Go code are accepted by the generated Rust code with the same value, and vice versa.", "quantifier": "every supported type and value", "why_tests_cant": "all values", "anchors": ["crates/mabo-go/src/encode.rs", "crates/mabo-go/src/decode.rs", "crates/mabo-build/src/encode.rs", "crates/mabo-build/src/decode.rs"]}
{"id": "C49", "title": "Accepted projects compile to working codecs", "statement": "Every project that passes validation and type resolution and for which the generator does not panic yields code in which every referenced definition exists with the right number of type arguments, and whose encoder and decoder round trip.", "quantifier": "every accepted project", "why_tests_cant": "all projects", "anchors": ["crates/mabo-build/src/lib.rs", "crates/mabo-build/src/definition.rs", "crates/mabo-compiler/src"]}
{"id": "C50", "title": "Analysis results belong to the current text", "statement": "After any notifications the parse result, line table and last published diagnostics of a known document are those of its current text.", "quantifier": "every notification history", "why_tests_cant": "unbounded histories", "anchors": ["crates/mabo-lsp/src/handlers/mod.rs: create_file, update_file, did_open, did_change"]}
{"id": "C51", "title": "The schema parser is total", "statement": "For every text, parsing ends with a schema or an error: it never loops, never panics, and its recursion is bounded by the length of the text.", "quantifier": "every input text", "why_tests_cant": "all texts", "anchors": ["crates/mabo-parser/src/parser.rs", "crates/mabo-parser/src/parser/*.rs"]}
{"id": "C52", "title": "Parsed schemas are well formed", "statement": "Every schema the parser returns has proper names in every place, ids and array sizes below 2^32, integers within 128 bits, bytes within 8 bits, single-line comments and non-empty lists.", "quantifier": "every input text", "why_tests_cant": "all texts", "anchors": ["crates/mabo-parser/src/lib.rs", "crates/mabo-parser/src/parser/*.rs"]}
{"id": "C53", "title": "Decoded strings are valid text", "statement": "decode_string accepts exactly the length-prefixed byte strings that are UTF-8, and what it returns is the text they encode.", "quantifier": "every byte string", "why_tests_cant": "all byte strings", "anchors": ["crates/mabo/src/buf/decode.rs: decode_string"]}
{"id": "C54", "title": "Generated codecs implement the documented wire format", "statement": "The bytes written for a value are the encoding the reference manual's wire-format chapter assigns to it, that encoding is unique, and generated decoders read every such encoding, whoever wrote it.", "quantifier": "every schema, type, value and byte string", "why_tests_cant": "all schemas and values, and all encodings produced by another implementation of the manual", "anchors": ["book/src/reference/wire-format.md", "crates/mabo-build/src/encode.rs", "crates/mabo-build/src/decode.rs", "crates/mabo-build/src/size.rs"]}
{"id": "C55", "title": "A build writes all outputs or reports an error", "statement": "mabo_build's compile writes one file per schema, holding the code of exactly that schema, or reports an error and writes nothing; it reports an error exactly for projects with an unreadable, unparsable or invalid file or a reference that means nothing; it touches no other file, also when stopped half way, and a later build repairs such a state. mabo::include! with the name of a schema includes the code the build wrote for it.", "quantifier": "every project, file system state and point at which the process is stopped", "why_tests_cant": "all projects and crash points", "anchors": ["crates/mabo-build/src/lib.rs: Compiler::compile", "crates/mabo-project/src/lib.rs", "crates/mabo/src/lib.rs: include!"]}
{"id": "C56", "title": "mabo check reports every broken file", "statement": "mabo check reports exactly the files that cannot be read or parsed, every one of them, and its exit status says whether there was one.", "quantifier": "every list of files and file system state", "why_tests_cant": "all inputs", "anchors": ["crates/mabo-cli/src/main.rs: check", "book/src/reference/cli/check.md"]}
{"id": "C57", "title": "mabo format rewrites files without changing their meaning", "statement": "After mabo format each given file holds the printed form of what it held, so it parses to the same schema; files that do not parse and all other files are unchanged, also when the process is stopped half way.", "quantifier": "every list of files, file system state and stopping point", "why_tests_cant": "all inputs and crash points", "anchors": ["crates/mabo-cli/src/main.rs: format", "crates/mabo-parser/src/lib.rs: Display"]}
{"id": "C58", "title": "Generated documentation is complete and its links work", "statement": "mabo doc writes a page for every definition and module; every link on every page leads to a page written by the same run about the thing the link names; no page overwrites another.", "quantifier": "every schema and nesting of modules", "why_tests_cant": "all schemas", "anchors": ["crates/mabo-doc/src/lib.rs", "crates/mabo-doc/src/templates.rs: path_up", "crates/mabo-cli/src/main.rs: doc, write_doc_output"]}
{"id": "C59", "title": "The Go generator writes every package of a project", "statement": "mabo-go writes the code of every schema and every module of the project to a file of its own; it rejects the same projects as the Rust build, with the same error, before anything is written.", "quantifier": "every project", "why_tests_cant": "all projects", "anchors": ["crates/mabo-go/src/main.rs: main, write_output", "crates/mabo-go/src/lib.rs: render_schema"]}
{"id": "C60", "title": "Parsing time is bounded by the size of the schema", "statement": "The work done to parse a text grows at most polynomially with the length of the text.", "quantifier": "every input text, every polynomial", "why_tests_cant": "all texts: any fixed set of inputs has some bound", "anchors": ["crates/mabo-parser/src/parser.rs: punctuate", "crates/mabo-parser/src/parser/types.rs: parse, parse_tuple"]}
{"id": "C61", "title": "Constants keep their type and value", "statement": "A constant of an accepted schema is available in the generated Rust code, with the declared type and the written value; a constant whose literal is not a value of its type is rejected.", "quantifier": "every schema, constant type and literal", "why_tests_cant": "all literals and types", "anchors": ["crates/mabo-build/src/definition.rs: compile_const, compile_const_data_type, compile_literal", "crates/mabo-compiler/src/validate/mod.rs", "crates/mabo-parser/src/parser/literals.rs"]}
{"id": "C62", "title": "Names stay distinct in generated Go code", "statement": "Different names of an accepted schema stay different in the generated Go package, and none clashes with a name the generator adds or the language reserves.", "quantifier": "every schema", "why_tests_cant": "all sets of names", "anchors": ["crates/mabo-go/src/definition.rs", "crates/mabo-go/src/encode.rs", "crates/mabo-go/src/decode.rs", "crates/mabo-go/src/size.rs"]}
{"id": "C63", "title": "Locations in the syntax tree", "statement": "Every name, type, id, comment line, field, variant and import path of a parsed schema carries the byte range at which it stands in the source; the names' ranges follow each other in the order of the source.", "quantifier": "every source text the parser accepts", "why_tests_cant": "all texts, nesting depths, widths of characters, blanks and comments between words", "anchors": ["crates/mabo-parser/src/lib.rs: Spanned, span fields", "crates/mabo-parser/src/parser.rs: punctuate, surround", "crates/mabo-parser/src/parser/*.rs: with_span", "crates/mabo-parser/src/token.rs"]}
{"id": "C64", "title": "Semantic tokens are the words of the document", "statement": "For a document that parses, the semantic tokens the language server sends, decoded as the protocol prescribes, are the words of the text in order: each at its place, with the token type and modifiers its role in the schema has, and no word left out but those without a type.", "quantifier": "every document that parses, every position encoding", "why_tests_cant": "all documents; relative encoding adds up over the whole history of tokens", "anchors": ["crates/mabo-lsp/src/handlers/semantic_tokens.rs", "crates/mabo-lsp/src/handlers/mod.rs: semantic_tokens_full", "crates/mabo-lsp/src/handlers/index.rs"]}
{"id": "C65", "title": "The outline mirrors the schema", "statement": "For a document that parses, the document symbols are the tree of its definitions, fields and variants, with their names and kinds, and each range is where the name stands; these ranges are the declarations among the semantic tokens.", "quantifier": "every document that parses, every position encoding", "why_tests_cant": "all documents and nestings", "anchors": ["crates/mabo-lsp/src/handlers/document_symbols.rs", "crates/mabo-lsp/src/handlers/mod.rs: document_symbol"]}
{"id": "C66", "title": "Hovering shows the declaration under the cursor", "statement": "With the cursor on a character of the name of a declared module, type, constant, variant or named field, hovering answers with its comment (and next free id or wire size) and the range of the name; with the cursor anywhere else it answers nothing.", "quantifier": "every document that parses, every cursor position between characters, every encoding", "why_tests_cant": "all documents and cursor positions", "anchors": ["crates/mabo-lsp/src/handlers/hover.rs", "crates/mabo-lsp/src/handlers/mod.rs: hover"]}
{"id": "C67", "title": "Validation errors point at the offending items", "statement": "When validation rejects a schema, the error names a defect the schema really has: the first repeated id or name of its scope together with the earlier one, a type parameter no field uses, or a tuple of a wrong size; its locations are where these stand in the source, the diagnostic in the editor covers the second of two items and refers to the first, and making it never panics.", "quantifier": "every source text the parser accepts and validation rejects, every order in which type parameters are visited, both build profiles, every position encoding", "why_tests_cant": "all schemas, scopes and nestings; ids that are implied by the ids before them", "anchors": ["crates/mabo-compiler/src/validate/ids.rs", "crates/mabo-compiler/src/validate/names.rs", "crates/mabo-compiler/src/validate/generics.rs", "crates/mabo-compiler/src/validate/tuples.rs", "crates/mabo-compiler/src/validate/mod.rs", "crates/mabo-compiler/src/lib.rs: next_with_span", "crates/mabo-lsp/src/handlers/compile.rs: validate_schema_diagnostic"]}
{"id": "C68", "title": "The parser accepts exactly the schema language", "statement": "A source text is accepted, and read as a given schema, precisely when the grammar of the schema language says that the text writes that schema; no text writes two schemas, and every other text is reported as an error.", "quantifier": "every source text, every schema, every way to read a decimal floating point text", "why_tests_cant": "all texts and layouts: a test tries some accepted and some rejected files, not that nothing else is accepted or rejected", "anchors": ["crates/mabo-parser/src/parser.rs: parse_schema, parse_definition, punctuate, surround", "crates/mabo-parser/src/parser/*.rs", "crates/mabo-parser/src/lib.rs: Schema::parse", "book/src/reference/schema"]}
{"id": "C69", "title": "Generated Rust code compiles", "statement": "The Rust code that the build tool generates for a project that passes all of the compiler's checks is accepted by the Rust compiler: every expression in the generated size, encode and decode functions has the type its context requires and every trait bound holds.", "quantifier": "every project that passes the checks, both settings of the bytes type", "why_tests_cant": "all schemas: a test compiles the code of a few schemas", "anchors": ["crates/mabo-build/src/encode.rs: compile_struct, compile_enum, compile_fields, compile_data_type", "crates/mabo-build/src/size.rs", "crates/mabo-build/src/decode.rs", "crates/mabo-build/src/definition.rs", "crates/mabo/src/buf/encode.rs: Encode impls", "crates/mabo/src/buf/size.rs: Size impls", "crates/mabo/src/buf/decode.rs: Decode impls"]}
{"id": "C70", "title": "Generated Rust code implements the wire format", "statement": "For every definition whose generated code compiles, running the generated size and encode functions on any value gives the size and the bytes the wire format prescribes for that value, and running the generated decode function on any input gives the value and rest, or the error, that the format prescribes.", "quantifier": "every project, every definition and type arguments, every value, every input byte string", "why_tests_cant": "values and inputs of every shape and depth", "anchors": ["crates/mabo-build/src/encode.rs", "crates/mabo-build/src/size.rs", "crates/mabo-build/src/decode.rs", "crates/mabo/src/buf"]}
{"id": "C71", "title": "Recursive definitions can be used", "statement": "Definitions that refer to themselves, directly, through collections or through each other, lead to Rust code whose types have a size and whose decode functions can be generated with finitely many instances.", "quantifier": "every project, every definition, every choice of type arguments", "why_tests_cant": "all graphs of definitions, through any depth of containers and arguments", "anchors": ["crates/mabo-build/src/decode.rs: compile_data_type", "crates/mabo-build/src/definition.rs: compile_struct, compile_enum", "crates/mabo/src/buf/decode.rs: decode_vec, decode_hash_map, decode_hash_set, decode_array, decode_option"]}
{"id": "C72", "title": "Decoded values are valid", "statement": "Whatever bytes are given, if decoding succeeds the result is a value of the type asked for: integers in range, text valid, arrays of the declared length, maps and sets without repeated keys, non-zero values not zero, every field of every struct present and every variant one of the declared ones, at any depth.", "quantifier": "every schema, every type, every byte string", "why_tests_cant": "all byte strings, including ones no encoder writes, and all depths of nesting", "anchors": ["crates/mabo-build/src/decode.rs: compile_struct, compile_enum, compile_data_type", "crates/mabo/src/buf/decode.rs"]}
{"id": "C73", "title": "Every document is analysed", "statement": "For every text a document can have, the language server's analysis returns without failing: a valid schema is the result itself; a text that is not a schema gives one diagnostic with an empty range at a place in the text; an invalid schema gives the diagnostic of the first validation error, covering the offending text. After any session, what the server holds for a document is the analysis of its current text.", "quantifier": "every text, position encoding, list of notifications and hash order", "why_tests_cant": "all texts (not just well-formed ones), all sessions", "anchors": ["crates/mabo-lsp/src/handlers/compile.rs: compile, parse_schema_diagnostic, get_range", "crates/mabo-parser/src/error.rs", "crates/mabo-parser/src/lib.rs: Schema::parse"]}
{"id": "C74", "title": "Nothing before a syntax error needs changing", "statement": "For every text that is not a schema, the language server shows the syntax error at a place such that the text before it can be continued to a valid schema: the place is never behind the mistake. Nor is it too early: if a beginning of the text is a schema by itself, the place is at its end or later.", "quantifier": "every text that is not a schema, every position encoding", "why_tests_cant": "the error place depends on every backtracking and committed alternative of the parser; all texts", "anchors": ["crates/mabo-parser/src/parser.rs", "crates/mabo-parser/src/parser/*.rs", "crates/mabo-parser/src/error.rs", "crates/mabo-lsp/src/handlers/compile.rs: parse_schema_diagnostic"]}
{"id": "C75", "title": "The generated Rust code parses", "statement": "After a project passes all checks, the build writes the Rust code of every schema, unless a schema uses a Rust keyword as a name or contains something the generator has no code for; then it ends with exactly that schema's error, the files of the schemas before it having been written.", "quantifier": "every project, both kinds of bytes types", "why_tests_cant": "each keyword at each position of a name, in schemas of any size and nesting, against the grammar of Rust items", "anchors": ["crates/mabo-build/src/definition.rs", "crates/mabo-build/src/lib.rs: Compiler::compile, Error::InvalidCode"]}
{"id": "C76", "title": "Every request is answered exactly once", "statement": "Every request an editor sends to the language server gets exactly one response, with the request's id, in the order of the requests and of a kind the request allows; the server sends no other responses.", "quantifier": "every stream of messages and pauses, in every order, for every behaviour of the handlers", "why_tests_cant": "a conversation of unbounded length; the messages that arrive while the server waits for an answer to a request of its own", "anchors": ["crates/mabo-lsp/src/main.rs: main, main_loop, handle_request, handle_notify", "crates/mabo-lsp/src/client.rs: Client::send_request", "crates/mabo-lsp/src/handlers/mod.rs: initialize, initialized, did_change_configuration"]}
{"id": "C77", "title": "The server works on the texts the editor shows", "statement": "Over a whole conversation, from the first message to the last, the server's documents are the project files found at the start as changed by all the notifications the editor has sent, and each query is answered from the documents and settings as they are when the query arrives.", "quantifier": "every conversation, every project, every position encoding", "why_tests_cant": "the effect of the start-up handshake and of configuration changes on what is seen of an unbounded stream of edits", "anchors": ["crates/mabo-lsp/src/main.rs: main, main_loop, handle_request, handle_notify", "crates/mabo-lsp/src/client.rs: Client::send_request", "crates/mabo-lsp/src/handlers/mod.rs: initialize, initialized, did_change_configuration", "crates/mabo-lsp/src/state.rs: GlobalState"]}
{"id": "C78", "title": "The editor's settings are used", "statement": "The settings the server uses are the defaults until the editor answers a request for the configuration, and then what the editor has answered last; the server's own requests have distinct ids, so that answers cannot be mixed up.", "quantifier": "every stream of messages and pauses, every id counter value", "why_tests_cant": "timing of the editor's answers; wrapping of the id counter after 2^31 requests", "anchors": ["crates/mabo-lsp/src/main.rs: main, main_loop, handle_request, handle_notify", "crates/mabo-lsp/src/client.rs: Client::send_request", "crates/mabo-lsp/src/handlers/mod.rs: initialize, initialized, did_change_configuration", "crates/mabo-lsp/src/state.rs: reload_settings"]}
{"id": "C79", "title": "The server starts and ends as the protocol says", "statement": "The server announces the position encoding it then uses; it runs until the editor disconnects or asks it to shut down and exit, ends without an error exactly then, and does not crash on any input.", "quantifier": "every stream of messages and pauses, every list of position encodings", "why_tests_cant": "conversations of any length that end at any point", "anchors": ["crates/mabo-lsp/src/main.rs: main, main_loop, handle_request, handle_notify", "crates/mabo-lsp/src/client.rs: Client::send_request", "crates/mabo-lsp/src/handlers/mod.rs: initialize, initialized, did_change_configuration"]}
{"id": "C80", "title": "A payload cannot make a decoder build more than a constant times what it contains", "statement": "Whatever bytes a generated decoder is given, the value it returns consists of at most K values (fields, elements, map entries) and string bytes for every byte that was read, where K depends only on the types of the schema and not on the payload; for a schema without type arguments K is the largest number of values an empty value of one of the schema's types has.  In particular a vec, set or map never has as many elements as its encoding has bytes, whatever length or count the payload announces.  (The elements of a fixed-size array are part of K: an array of empty structs takes two bytes however long it is.)", "quantifier": "every schema, type, payload (valid or hostile) and every set of types closed under 'is a part of'", "why_tests_cant": "a memory blow-up needs one particular payload for one particular schema; tests only show the payloads they try", "anchors": ["crates/mabo/src/buf/decode.rs: decode_vec, decode_hash_map, decode_hash_set, decode_array, decode_option, decode_bytes (L95-287)", "crates/mabo-build/src/decode.rs: compile_struct, compile_enum, compile_data_type"]}
{"id": "C81", "title": "Size in the generated Go code is the number of bytes Encode writes", "statement": "For every value of a generated Go type, whatever it contains, Size() returns the number of bytes Encode appends, provided the Go runtime's own Size functions agree with its Encode functions; and every type for which the generator writes an Encode method gets a Size method that compiles.", "quantifier": "every Go runtime (it is not in the repository), schema, type and value", "why_tests_cant": "the generator's size and encode halves are two independent renderings that must agree for every type expression; tests compare the text of a few", "anchors": ["crates/mabo-go/src/size.rs: RenderStruct, RenderEnumVariant, RenderFields, RenderType", "crates/mabo-go/src/encode.rs"]}
{"id": "C82", "title": "Resolution errors show the reference and its target", "statement": "When resolving a project's types fails, the report names a problem that is really there, shows the text of the file that contains the faulty import or reference, marks that name in it as used, and marks the definition it is about, if there is one, as declared, in the text of the file that declares it.", "quantifier": "every list of schema files, every reference and import in them, at any depth, and every order of the hash map of submodules", "why_tests_cant": "the places depend on the whole text of several files and on which of the many references fails first; tests render a few small files", "anchors": ["crates/mabo-compiler/src/resolve/mod.rs: schemas, resolve_local, resolve_import, resolve_remote, resolve_type_remotely", "crates/mabo-compiler/src/resolve/error.rs"]}
{"id": "C83", "title": "Documentation pages show the definition itself", "statement": "The definition text shown on a documentation page is the documented definition: read as a schema file (with a final line break) and compiled, it gives the same name, type parameters, fields or variants in the same order with the same names, types and ids, and the same constant value; nothing but comments is lost, so two different definitions are never shown alike. The comment shown next to it has every line, and listings show it up to the first blank line.", "quantifier": "every schema source, every struct, enum, alias and constant of it at any module depth, any nesting of types, all implicit and explicit ids", "why_tests_cant": "Snapshot tests compare a handful of rendered pages; they never read the text back, and cannot cover every combination of types, ids and literals.", "anchors": ["crates/mabo-doc/src/templates.rs: StructDetail::print_schema, EnumDetail::print_schema, AliasDetail::print_schema, ConstDetail::print_schema, PrintField, PrintType, PrintLiteral, first_comment, merge_comments", "crates/mabo-compiler/src/simplify.rs: schema"]}
{"id": "C84", "title": "Generated Go files are closed", "statement": "Every Go file generated for a schema or one of its modules only mentions names that are in scope there: each type is a type parameter, a type declared in the same file with that number of parameters or a predeclared type, each variable is declared before use and not hidden, each package is imported; and every package it imports is mentioned (Go rejects unused imports).", "quantifier": "every schema, every module of it at any depth, every nesting of types, any number of fields, variants and type parameters", "why_tests_cant": "Snapshot tests compare 27 generated files with recorded text and never compile them; whether the names resolve depends on the whole module.", "anchors": ["crates/mabo-go/src/definition.rs: render_schema, render_definition, RenderImports, RenderStruct, RenderNewFunc, RenderGenerics, RenderGenericNames, RenderFields, RenderParameters, RenderConstructor, RenderAlias, RenderType, RenderConst, RenderEnum, RenderEnumVariant, uses_generic", "crates/mabo-go/src/encode.rs: RenderStruct, RenderEnumVariant, RenderType", "crates/mabo-go/src/decode.rs: RenderStruct, RenderEnumVariant, RenderType", "crates/mabo-go/src/size.rs: RenderStruct, RenderEnumVariant, RenderType"]}
{"id": "C85", "title": "Running the methods of a generated Go file follows the schema", "statement": "Take the Go file mabo-go writes for a schema, as text, and run its methods. For a struct of the schema, `Encode` appends the bytes the schema prescribes, `Size` returns the number of bytes `Encode` appends, and `Decode` returns the value that was written (by Rust or by Go) and stops after its last byte.", "quantifier": "every schema, every struct and variant in it, every value of its type, every input, every Go runtime library that behaves the same on equal closures", "why_tests_cant": "the generator's tests compare text with stored snapshots; nothing executes the output, and the claim ranges over all schemas, values and inputs", "anchors": ["crates/mabo-go/src/encode.rs RenderStruct RenderEnumVariant RenderFields RenderType", "crates/mabo-go/src/decode.rs RenderStruct RenderFields RenderType RenderFoundChecks", "crates/mabo-go/src/size.rs RenderStruct RenderFields RenderType", "crates/mabo-go/src/definition.rs render_definition"]}
{"id": "C86", "title": "A whole conversation with the language server: every answer is about the text the editor shows", "statement": "An editor opens a conversation, opens and edits documents (waiting for the server's own requests, C76), and asks. In release builds the server never panics. For a document whose present text is a schema the compiler accepts, a symbol request is answered with the outline of that text, a token request with the words of that text, a hover with the documentation of the name under the cursor according to the settings in force, all in the encoding the server announced; for any other document the answer is null; the last published diagnostics are those of the present text.", "quantifier": "every conversation (messages, pauses, settings, workspace files), every sequence of edits of every document, every position, every text", "why_tests_cant": "the claim composes the protocol loop, the incremental text updates, the parser, the compiler and the visitors over unbounded histories; the tests exercise none of these together", "anchors": ["crates/mabo-lsp/src/main.rs main main_loop handle_request handle_notify", "crates/mabo-lsp/src/handlers/mod.rs initialize did_open did_change hover document_symbol semantic_tokens_full", "crates/mabo-lsp/src/handlers/compile.rs compile", "crates/mabo-lsp/src/handlers/hover.rs", "crates/mabo-lsp/src/handlers/document_symbols.rs", "crates/mabo-lsp/src/handlers/semantic_tokens.rs", "crates/mabo-lsp/src/state.rs GlobalState"]}
{"id": "C87", "title": "The integer encodings of the benchmark crate round trip", "statement": "Each of the alternative integer encodings the project measures its own against (postcard, bincode, vu128) gives back the number that was encoded, whatever the buffer contained before, and touches no byte behind the space it asks for; the postcard one writes the same bytes as the runtime; a buffer that is too short is refused.", "quantifier": "every value of every width, signed and unsigned, floats by their bits, every buffer", "why_tests_cant": "the tests try eleven values of one width with a buffer of zeros; the claim ranges over 2^128 values and all buffers, and one function without a test is wrong", "anchors": ["crates/mabo-benches/src/varint.rs postcard::encode postcard::decode bincode vu128"]}
{"id": "C88", "title": "A project consists of exactly the schema files its patterns select", "statement": "Loading a project gives each schema file below its directory that one of its patterns selects, once, and nothing else; it fails only for a reason that concerns these files or the project file, and names it; looking for the projects of a workspace finds every directory with a project file.", "quantifier": "every directory tree (files, directories, links, entries that cannot be read), every project file, every list of patterns, every set of ignore rules", "why_tests_cant": "there is no test of the crate at all, and the claim ranges over all directory trees", "anchors": ["crates/mabo-project/src/lib.rs load load_project collect_files discover"]}
{"id": "C89", "title": "The order in which hash maps and sets are iterated does not matter", "statement": "Two equal values whose hash maps and hash sets happen to be iterated in different orders announce the same size, take the same number of bytes, and decode to equal values, however many programs a value passes through; equal values are written as the same bytes.", "quantifier": "every schema, every value, every iteration order at every depth, every number of programs", "why_tests_cant": "the iteration order of Rust's hash collections is random per process, so a test sees one order; the claim ranges over all permutations at all depths", "anchors": ["crates/mabo/src/buf/encode.rs encode_hash_map encode_hash_set", "crates/mabo/src/buf/decode.rs decode_hash_map decode_hash_set", "crates/mabo/src/buf/size.rs size_hash_map size_hash_set"]}
{"id": "C90", "title": "The commands act on exactly the files of the project", "statement": "mabo check, mabo format and mabo doc, started in a project, look at every schema file of the project and at no other file: check reports exactly those that are no schemas, format changes exactly those that are, doc has a page for each; with patterns as arguments, exactly the schema files they match are used. A build script (mabo_build) compiles exactly the schema files of its project. mabo-go writes every module of every schema file of its project.", "quantifier": "every directory tree, every project file and list of patterns, every content of the files", "why_tests_cant": "the tools have no tests that run on a project; the claim ranges over all directory trees and contents", "anchors": ["crates/mabo-cli/src/main.rs check format doc project_or_files", "crates/mabo-project/src/lib.rs load", "crates/mabo-build/src/lib.rs Compiler::compile", "crates/mabo-go/src/main.rs main"]}
{"id": "C91", "title": "The emitted functions are the analysed programs", "statement": "The size, encode and decode functions that mabo-build writes for a struct or enum of the schema parse, under Rust's grammar, to exactly the programs that C69, C70 and C71 are about: the same calls with the same field ids, names, closures, match arms and types, in the same order. Nothing else stands in the function bodies, and the blocks stand in the file of the schema.", "quantifier": "every project that lowers, every struct and enum in it, both bytes types", "why_tests_cant": "golden tests compare the text for some schemas; the claim is that the text of every schema denotes the analysed program", "anchors": ["crates/mabo-build/src/encode.rs compile_struct compile_enum compile_data_type", "crates/mabo-build/src/size.rs compile_struct compile_enum compile_data_type", "crates/mabo-build/src/decode.rs compile_struct compile_enum compile_data_type"]}
{"id": "C92", "title": "Literals and documentation in generated Rust code denote what the schema says", "statement": "In the token stream mabo-build writes for a schema, every constant is an item `#[allow(dead_code)] pub const NAME: TYPE = LITERAL;` under its schema name, with the Rust type of its declared type, and by Rust's rules for literals LITERAL denotes exactly the constant's value: numbers with their sign, floats to the bit, strings character for character whatever escapes are needed, byte strings byte for byte. The `doc` attributes of every item, field and variant denote the lines of its comment in the schema, in order and unchanged; documentation stands with the definition it was written for, at every module depth.", "quantifier": "every schema text that parses, simplifies and contains what the generator can express, each definition at any module depth, every string, byte list, number and comment, both bytes types, every choice of which characters Debug calls unprintable and every way of printing finite floats that reads back", "why_tests_cant": "an escape that denotes another character (a NUL in front of a digit, a quote, a backslash) compiles and runs; only the one constant is wrong, and there are as many constants as strings", "anchors": ["crates/mabo-build/src/definition.rs: compile_const L173-193, compile_const_data_type L353-376, compile_literal L378-386, compile_comment L215-218, compile_struct, compile_enum, compile_variant, compile_fields, compile_alias, compile_module"]}
{"id": "C93", "title": "Constants in generated Go files denote the schema's values", "statement": "Every constant of a schema module stands in the Go file of that module, with its documentation, its name in camel case and the Go type of its type, and its literal denotes, by Go's rules, exactly the value the schema gives it: the same number, the same text (as UTF-8 bytes), the same bytes.", "quantifier": "every list of definitions, every module at any depth, every value of every kind, every choice of which characters Debug calls unprintable, every way of printing finite floats as decimals that reads back", "why_tests_cant": "the literals are written with Rust's Debug and Display and read by another language; a wrong character in one constant compiles and is noticed by nobody", "anchors": ["crates/mabo-go/src/definition.rs: RenderConst L511-548, RenderConstType L468-490, RenderLiteral L550-575, RenderComment L377-391"]}
{"id": "C94", "title": "Documentation pages are well-formed HTML and show names, types and values exactly", "statement": "Every page of a schema's documentation is a tree of HTML elements whatever characters names, types and values contain, and a reader of the page finds exactly: the title; the definition's text; every name, type and identifier of its fields and variants, in order, each marked as what it is; the next free identifier of a struct; and one entry, linking to its page, for every definition of the module or schema. There is one such page for every definition at any depth, and no other.", "quantifier": "every simplified schema (any nesting of modules, any names, types, generics and literals), every output directory, every behaviour of the Markdown renderer whose output closes what it opens and has none of the marked elements", "why_tests_cant": "types such as vec<u8>, string constants with quotes and any other character go through the templates' escaping; one forgotten place breaks only the pages of schemas that have such characters there", "anchors": ["crates/mabo-doc/templates: base.html, index.html, detail/{module,struct,enum,alias,const}.html", "crates/mabo-doc/src/lib.rs: render_schema, render_definition", "crates/mabo-doc/src/templates.rs"]}
{"id": "C95", "title": "Size descriptions show every range, and tell types apart", "statement": "The description of the encoded size of a field's type (in the editor's hover and in the documentation) gives, for the type and for every part of it, at the place its labels say, exactly the range that the metadata computes, and the text determines the whole description: two types with the same text have the same ranges everywhere and are the same type, up to names of definitions and lengths of arrays. Every label is shown as it is.", "quantifier": "every type at any nesting, every part of it", "why_tests_cant": "nested types have descriptions of any depth whose only structure is indentation; a wrong level attributes a size to the wrong part and is still valid text", "anchors": ["crates/mabo-meta/src/lib.rs: WireSize, print, wire_size, wire_size_array, wire_size_tuple", "crates/mabo-lsp/src/handlers/hover.rs: visit_named_field", "crates/mabo-doc/src/templates.rs: render_wire_size"]}
