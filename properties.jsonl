{"id": "C01", "title": "Backtracking never loses, repeats or reorders stream elements", "statement": "For every sequence of reads, checkpoints, rollbacks and commits made on a checkpointing stream, each read returns exactly the element at the current logical position of the underlying stream, where a rollback moves the position back to the matching checkpoint and a commit leaves it unchanged.", "quantifier": "all underlying streams and all finite histories of Next/SetCheckpoint/Rollback/Commit", "why_tests_cant": "Internal buffering has several regimes (no buffer, recording, replaying, replaying while recording); only a finite number of interleavings can be sampled.", "anchors": ["engines/yayamls/pkg/cpaccessor/accessor.go: CheckpointingAccessor.Next, SetCheckpoint, Rollback, Commit"]}
{"id": "C02", "title": "Rollback returns the last element read before the checkpoint", "statement": "Rollback returns the element that was last returned by Next at the moment the matching checkpoint was set.", "quantifier": "all underlying streams and all finite histories of operations", "why_tests_cant": "The returned value depends on the whole history of buffering; unit tests only exercise short histories.", "anchors": ["engines/yayamls/pkg/cpaccessor/accessor.go: Rollback", "engines/yayamls/parser/parser.go: rollback"]}
{"id": "C03", "title": "Character-class answers of a token do not depend on earlier questions", "statement": "Asking a token whether its text belongs to a character class (decimal, word, URI, tag, anchor, plain-safe, single-quoted, double-quoted) always gives the answer computed from the token text, whatever classes were asked before and in whatever order.", "quantifier": "all tokens and all finite sequences of class questions", "why_tests_cant": "Answers are cached in a packed bitmap; wrong packing would only show up for specific query orders.", "anchors": ["engines/yayamls/token/token.go: ConformsCharSet, slowConformation", "engines/yayamls/token/bitmap.go: conformationBitmap"]}
{"id": "C04", "title": "Single-quoted escaping is reversible", "statement": "Converting a string to its single-quoted YAML form and back yields the original string, for every string of characters that single-quoted YAML can represent, and the converted form is accepted as single-quoted content.", "quantifier": "all strings over the JSON-compatible characters", "why_tests_cant": "Unbounded strings; quotes can occur in any number and position.", "anchors": ["engines/yayamls/yamlchar/transformations.go: ConvertToYAMLSingleQuotedString, ConvertFromYAMLSingleQuotedString", "engines/yayamls/yamlchar/charset.go: IsSingleQuotedString"]}
{"id": "C05", "title": "Double-quoted escaping is reversible", "statement": "Converting a string to its double-quoted YAML form and back yields the original string.", "quantifier": "all strings of Unicode characters", "why_tests_cant": "Unbounded strings; escapes, quotes and backslashes interact at any position.", "anchors": ["engines/yayamls/yamlchar/transformations.go: ConvertToYAMLDoubleQuotedString, ConvertFromYAMLDoubleQuotedString, unescapeUnicodeCharacter"]}
{"id": "C06", "title": "Tokenization loses no input", "statement": "The concatenation of the original texts of the tokens produced for a document, up to end of input, is exactly the document, whatever the moments at which the consumer switches raw mode on or off.", "quantifier": "all rune sequences and all schedules of raw-mode switches", "why_tests_cant": "Context stack, lookahead and escape handling interact on unbounded inputs.", "anchors": ["engines/yayamls/lexer/tokenizer.go: Tokenizer.Next, emitToken", "engines/yayamls/lexer/context.go"]}
{"id": "C07", "title": "Tokenization always terminates and end-of-input is permanent", "statement": "Each request for a token before the end of input consumes at least one character of it (or hands out a token prepared by an earlier consumption), so end-of-input is reached after a bounded number of requests, and every later request reports end-of-input again.", "quantifier": "all rune sequences and all schedules of raw-mode switches", "why_tests_cant": "Non-termination on a rare input cannot be excluded by sampling.", "anchors": ["engines/yayamls/lexer/tokenizer.go: Tokenizer.Next, emitToken"]}
{"id": "C08", "title": "Reported token positions match the text", "statement": "Every token starts at the row and column obtained by counting the line breaks and characters of all the text before it.", "quantifier": "all rune sequences and all schedules of raw-mode switches", "why_tests_cant": "Needs every input, including mixed line endings and lookahead at line ends.", "anchors": ["engines/yayamls/lexer/tokenizer.go: emitToken", "engines/yayamls/token/token.go: Position"]}
{"id": "C09", "title": "Flow bracket balance is decided exactly", "statement": "After any sequence of tokens the bracket checker reports 'balanced' if and only if the square brackets and braces among them form a well-nested sequence, and otherwise reports the innermost still open bracket if the sequence can be completed.", "quantifier": "all token sequences", "why_tests_cant": "The Dyck language is infinite and nested to any depth.", "anchors": ["engines/yayamls/parser/internal/balancecheck/balancecheck.go: Add, IsBalanced, PeekLastUnbalanced"]}
{"id": "C10", "title": "Backtracking restores the bracket state", "statement": "Restoring a saved bracket state makes the checker behave exactly as it did when the state was saved.", "quantifier": "all token sequences before and after the saved point", "why_tests_cant": "The saved state is only a size; whether it suffices depends on every intermediate history.", "anchors": ["engines/yayamls/parser/internal/balancecheck/balancecheck.go: Memento, SetMemento"]}
{"id": "C11", "title": "Signed integers survive conversion to YAML text", "statement": "Every int64, when formatted for output, is recognised as an integer and is read back as the same number.", "quantifier": "all 2^64 values of int64", "why_tests_cant": "2^64 values; decimal formatting and base-prefixed parsing are different algorithms.", "anchors": ["engines/pkg/schema/schema.go: FromInteger, ToInteger, IsInteger"]}
{"id": "C12", "title": "Unsigned integers survive conversion to YAML text", "statement": "Every uint64, when formatted for output, is recognised as an unsigned integer and is read back as the same number.", "quantifier": "all 2^64 values of uint64", "why_tests_cant": "2^64 values.", "anchors": ["engines/pkg/schema/schema.go: FromUnsignedInteger, ToUnsignedInteger, IsUnsignedInteger"]}
{"id": "C13", "title": "Scalar kinds do not overlap", "statement": "No plain text is at the same time recognised as null, as a boolean and as a number: null, boolean and number are pairwise disjoint, and booleans survive conversion to text and back.", "quantifier": "all strings", "why_tests_cant": "Infinite language of texts.", "anchors": ["engines/pkg/schema/schema.go: IsNull, IsBoolean, IsInteger, IsUnsignedInteger, IsFloat, ToBoolean, FromBoolean"]}
{"id": "C14", "title": "Text recognised as an integer is converted to the integer it denotes", "statement": "Whenever a text is recognised as a (signed or unsigned) integer, converting it succeeds and gives the number YAML assigns to that text, provided it fits in 64 bits.", "quantifier": "all strings", "why_tests_cant": "Infinite language; recognition is by regular expression, conversion by a different library parser.", "anchors": ["engines/pkg/schema/schema.go: IsInteger, ToInteger, IsUnsignedInteger, ToUnsignedInteger"]}
{"id": "C15", "title": "Inserting a value builds exactly that value", "statement": "Feeding the calls that describe a value (scalars, and collections between matching start/end calls) to a fresh encoder builder produces a tree equal to that value, with no error.", "quantifier": "all finite values of any nesting depth and width", "why_tests_cant": "Unbounded nesting of collections, including collections used as mapping keys.", "anchors": ["engines/yayamls/encode/builder.go: ASTBuilder", "engines/goyaml/encode/builder.go: ASTBuilder"]}
{"id": "C16", "title": "The first encoding error is kept and later calls do nothing", "statement": "Once an insertion fails, every later insertion is a no-op and the error eventually reported is the first one.", "quantifier": "all call histories", "why_tests_cant": "Histories are unbounded.", "anchors": ["engines/yayamls/encode/builder.go: ASTBuilder, fatalError", "engines/goyaml/encode/builder.go: ASTBuilder", "encode.go: Inserter"]}
{"id": "C17", "title": "An encoder can be reused after taking its result", "statement": "After the result is taken (with or without an error), the builder behaves exactly like a new one.", "quantifier": "all earlier call histories and all later call sequences", "why_tests_cant": "Histories are unbounded.", "anchors": ["engines/yayamls/encode/builder.go: Result", "engines/goyaml/encode/builder.go: Result", "encode.go: encoder.EncodeToString"]}
{"id": "C18", "title": "Mismatched collection ends are reported", "statement": "Ending a sequence when the innermost open collection is not a sequence, or ending a mapping when the innermost open one is not a mapping or an entry has a key but no value, is reported as an error; ending the right collection is never an error.", "quantifier": "all call histories", "why_tests_cant": "Histories are unbounded.", "anchors": ["engines/yayamls/encode/builder.go: EndSequence, EndMapping", "engines/goyaml/encode/builder.go: EndSequence, EndMapping", "encode.go: Inserter"]}
{"id": "C19", "title": "Incomplete or superfluous insertions are never silently accepted", "statement": "If the calls made on an encoder do not describe exactly one complete value, taking the result reports an error.", "quantifier": "all call histories", "why_tests_cant": "Histories are unbounded.", "anchors": ["engines/yayamls/encode/builder.go: insertNode, Result", "engines/goyaml/encode/builder.go: insertNode, Result"]}
{"id": "C20", "title": "Serialization depends only on the tree", "statement": "Serializing a tree with a writer gives the same text (or error) whatever was serialized before with that writer, including after failed writes, and string, bytes and stream output agree.", "quantifier": "all trees and all histories of earlier writes", "why_tests_cant": "Writer state is mutable and shared across calls; histories are unbounded.", "anchors": ["engines/yayamls/encode/writer.go: ASTWriter, write, WriteString, WriteBytes, WriteTo"]}
{"id": "C21", "title": "Written documents parse back to the same tree", "statement": "Serializing a tree and parsing the text gives the tree back.", "quantifier": "all trees of any depth and width over the supported scalars", "why_tests_cant": "Unbounded trees; indentation, separators and backtracking parser interact.", "anchors": ["engines/yayamls/encode/writer.go: ASTWriter", "engines/yayamls/parser/parser.go: Parse", "engines/yayamls/lexer/tokenizer.go"]}
{"id": "C22", "title": "The first fatal decoding error is kept and later calls return zero values", "statement": "After a fatal decoding error every later read returns the zero value of its type, reports no collection elements read, and the error reported in the end is unchanged.", "quantifier": "all documents and all call histories", "why_tests_cant": "Histories are unbounded.", "anchors": ["engines/yayamls/decode/reader.go: ASTReader", "engines/goyaml/decode/reader.go: ASTReader", "decode.go: Decoder"]}
{"id": "C23", "title": "Decoding returns exactly what the tree holds, in order", "statement": "Reading a tree with the calls that match its shape returns every scalar of the tree, each exactly once and in document order, and ends with no error and nothing left to read.", "quantifier": "all trees of any depth and width", "why_tests_cant": "Unbounded trees; the route stack and iterators interact at every level.", "anchors": ["engines/yayamls/decode/reader.go", "engines/yayamls/decode/expected.go", "engines/yayamls/decode/iterator.go", "engines/goyaml/decode/reader.go"]}
{"id": "C24", "title": "Decoding loops terminate, also after errors", "statement": "A loop that reads elements while the collection reports unprocessed items terminates, whatever the document and whether or not reads fail.", "quantifier": "all documents and all element-reading loop bodies", "why_tests_cant": "Non-termination cannot be observed by a test; failure may occur at any element.", "anchors": ["decode.go: CollectionState.HasUnprocessedItems", "generator/decoder.go: generated loops", "engines/yayamls/decode/reader.go: HasUnprocessedItems", "engines/goyaml/decode/reader.go: setFatalError"]}
{"id": "C25", "title": "Merge keys: explicit keys win, earlier merged mappings win over later ones", "statement": "In generic decoding, a key present in a mapping keeps its own value whatever is merged into it and whatever the position of the merge, and among merged mappings the first one providing a key determines its value.", "quantifier": "all mappings and all merge orders", "why_tests_cant": "Unbounded mappings; order of keys and merges matters.", "anchors": ["engines/yayamls/decode/any.go: anyBuilder", "engines/goyaml/decode/any.go: anyBuilder"]}
{"id": "C26", "title": "An alias denotes the latest earlier definition of its anchor", "statement": "Reading an alias gives the content of the closest preceding node carrying that anchor, an alias without such a node is an error, and redefinitions do not change aliases already read.", "quantifier": "all documents", "why_tests_cant": "Unbounded numbers of anchors and redefinitions.", "anchors": ["engines/yayamls/decode/anchors.go: anchorsKeeper", "engines/yayamls/decode/reader.go: VisitAliasNode"]}
{"id": "C27", "title": "Tree comparison always finishes with a schedule-independent answer", "statement": "Comparing two trees concurrently never deadlocks or leaks a blocked goroutine, takes finitely many steps under every scheduling, and its answer is the same under every scheduling.", "quantifier": "all pairs of trees and all schedules of the three goroutines", "why_tests_cant": "The scheduler decides the interleaving; tests see only some of them.", "anchors": ["engines/yayamls/ast/astcmp/comparator.go: Equal, compare"]}
{"id": "C28", "title": "Tree comparison answers equality of trees", "statement": "The comparator answers true if and only if the two trees are equal.", "quantifier": "all pairs of trees", "why_tests_cant": "Infinite set of pairs.", "anchors": ["engines/yayamls/ast/astcmp/comparator.go: Equal"]}
{"id": "C29", "title": "Raw extraction leaves the document unchanged", "statement": "Extracting the raw text of a subtree of a document, including one with aliases and anchors, leaves the whole document graph exactly as it was.", "quantifier": "all document graphs, including shared and cyclic ones", "why_tests_cant": "Graphs are unbounded and shared nodes are rewritten in place.", "anchors": ["engines/goyaml/decode/reader.go: Raw", "engines/goyaml/decode/raw.go"]}
{"id": "C30", "title": "Collection size is the number of elements", "statement": "The size reported when a collection is entered equals the number of elements that can be read from it (entries for a mapping).", "quantifier": "all collections", "why_tests_cant": "Must hold for all sizes.", "anchors": ["decode.go: CollectionState.Size", "engines/yayamls/decode/iterator.go", "engines/goyaml/decode/iterator.go"]}
{"id": "C31", "title": "Generated function names are unique per type and stable", "statement": "Two different types never get the same generated function name for the same purpose, and asking again for the same type gives the same name.", "quantifier": "all sequences of requested types", "why_tests_cant": "Name collisions depend on arbitrary type names and request order.", "anchors": ["generator/generator.go: generateFunctionName, joinFunctionNameParts"]}
{"id": "C32", "title": "Import aliases are unique and stable", "statement": "Two different imported package paths never get the same alias in a generated file, and the same path always gets the same alias.", "quantifier": "all sequences of package paths", "why_tests_cant": "Collisions depend on arbitrary paths and order.", "anchors": ["generator/generator.go: pkgAlias, fixPkgAlias"]}
{"id": "C33", "title": "Every needed type gets exactly one generated implementation", "statement": "Generation processes every requested type and every type it turns out to depend on exactly once and terminates when the set of such types is finite.", "quantifier": "all finite type dependency graphs, including cyclic ones", "why_tests_cant": "Graphs are unbounded and cyclic.", "anchors": ["generator/generator.go: Generate, addType"]}
{"id": "C34", "title": "Field merging follows shadowing and never duplicates a name", "statement": "Merging the fields of embedded structs with those of the outer struct yields at most one field per name, the outer one when both exist, and loses no other field.", "quantifier": "all field lists", "why_tests_cant": "Unbounded lists.", "anchors": ["generator/generator.go: mergeStructFields, getStructFields"]}
{"id": "C35", "title": "Tag parsing follows the documented grammar", "statement": "The field name taken from a yaml tag is the text before the first comma, each of the following options is honoured wherever it occurs in the list, unknown options are ignored, and no option in one position disables another.", "quantifier": "all tag strings", "why_tests_cant": "Infinite set of tags.", "anchors": ["generator/tags.go: parseTags"]}
{"id": "C36", "title": "YAML version directives are recognised exactly", "statement": "A version text is accepted if and only if it is one or more decimal digits, a dot and one or more decimal digits.", "quantifier": "all strings", "why_tests_cant": "Infinite language.", "anchors": ["engines/yayamls/parser/documents.go: isCorrectYAMLVersion"]}
{"id": "C37", "title": "Parsing terminates on every input", "statement": "Parsing any text finishes with a tree or an error.", "quantifier": "all texts", "why_tests_cant": "The parser backtracks and recurses; non-termination cannot be sampled away.", "anchors": ["engines/yayamls/parser/parser.go: Parse, parseStream"]}
{"id": "C38", "title": "Successful parsing accounts for the whole input", "statement": "When parsing succeeds, the whole input has been read; trailing text that cannot be parsed is reported as an error.", "quantifier": "all texts", "why_tests_cant": "Infinite set of texts.", "anchors": ["engines/yayamls/parser/documents.go: parseStream", "engines/yayamls/parser/parser.go: Parse"]}
{"id": "C39", "title": "Encoders deliver the writer's text of the built tree or the builder's error", "statement": "Encoding to string, bytes or a stream returns the builder's error and produces no output if building failed, and otherwise returns exactly the serialization of the built tree; the three variants agree.", "quantifier": "all builders, writers and call histories", "why_tests_cant": "Ranges over arbitrary engine implementations and histories.", "anchors": ["encode.go: encoder.EncodeToString, EncodeToBytes, EncodeTo"]}
{"id": "C40", "title": "Backtracking bookkeeping of the dead-end detector cannot overflow", "statement": "As long as the client stops at the first report, the detector reports a dead end at a position exactly when that position failed more than 64 times, whatever other positions failed in between; its 8-bit counters do not wrap.", "quantifier": "all sequences of failure positions", "why_tests_cant": "Histories are unbounded and counters are 8-bit.", "anchors": ["engines/yayamls/parser/internal/deadend/finder.go: Mark"]}
{"id": "C41", "title": "Values survive generated encoding followed by generated decoding", "statement": "For every supported Go type built from scalars, pointers, slices, arrays, maps and structs, decoding with the generated decoder the tree built by the generated encoder gives the original value back.", "quantifier": "all types of that universe and all their values", "why_tests_cant": "Both types and values are unbounded.", "anchors": ["generator/decoder.go", "generator/encoder.go", "engines/yayamls/decode/reader.go", "engines/yayamls/encode/builder.go"]}
{"id": "C42", "title": "Module path extraction finds the declared module", "statement": "For every go.mod file whose module line is followed or preceded by arbitrary other lines and comments, the extracted path is the declared one (quoted or not).", "quantifier": "all go.mod contents", "why_tests_cant": "Infinite set of files.", "anchors": ["generator/parser/modulepath.go: modulePath"]}
{"id": "C43", "title": "Recognisers of quoted, URI and tag text decide the YAML grammar", "statement": "A text is accepted as single-quoted content, double-quoted content, URI or tag text exactly when it belongs to the corresponding grammar, and everything the quoting functions emit is accepted.", "quantifier": "all strings", "why_tests_cant": "Infinite languages scanned by hand-written index loops.", "anchors": ["engines/yayamls/yamlchar/chars.go: IsURI, IsTagString, IsSingleQuotedString, IsDoubleQuotedString, IsEscapedCharacter", "engines/yayamls/yamlchar/charset.go: ConformsCharSet"]}
{"id": "C44", "title": "A token's kind determines its text", "statement": "Every token handed out by the tokenizer carries the text its kind stands for: an indicator token exactly its character, a line break one of the three line breaks, a document marker its three characters, a word at least one character and no line break, tab or byte order mark; no token has an unknown kind.", "quantifier": "all documents and all raw-mode schedules", "why_tests_cant": "All contexts, escapes and mode switches at every position.", "anchors": ["engines/yayamls/lexer/context.go", "engines/yayamls/lexer/tokenizer.go: Next, emitToken"]}
{"id": "C45", "title": "A read that does not fit is denied and consumes nothing", "statement": "Asking for a kind of value that is not what comes next in the document (a number at a text that is none, a scalar at a collection, a sequence at a mapping, a string at a null, ...) returns the zero value of that kind and records a denial; a number that is out of range returns zero and records a conversion error. By default Error then reports exactly that; with collected denials nothing is consumed, the same node can be read with a fitting call, and Error finally reports all denials in order.", "quantifier": "all documents, all readings up to the misfit, all kinds of misfits", "why_tests_cant": "Unbounded documents, arbitrary interleavings of fitting and unfitting calls at arbitrary places.", "anchors": ["engines/yayamls/decode/expected.go", "engines/yayamls/decode/reader.go", "engines/goyaml/decode/expected.go", "engines/goyaml/decode/reader.go"]}
{"id": "C46", "title": "Flow sequences may be nested to any depth", "statement": "A word enclosed in any number of pairs of brackets is parsed to as many nested sequences around the word.", "quantifier": "all depths", "why_tests_cant": "Tests use a few small depths; the limit hit by backtracking is not written anywhere.", "anchors": ["engines/yayamls/parser/flow.go: parseFlowSequence, parseFlowPair, parsePlainOneLine", "engines/yayamls/parser/internal/deadend/finder.go: Mark"]}
{"id": "C47", "title": "Generated decoders return", "statement": "The decoder generated for a type returns, with a value or an error, for every document it is given.", "quantifier": "all types, all documents, all options", "why_tests_cant": "A loop that never ends cannot be observed by a test, and the documents are unbounded.", "anchors": ["generator/decoder.go", "engines/yayamls/decode/reader.go: AddError, appendError", "engines/goyaml/decode/reader.go: setFatalError"]}
{"id": "C48", "title": "Decoding a value reads the node of that value and nothing else", "statement": "Whether or not a node fits its type, the generated decoder never takes parts of it for other values, nor other nodes for parts of it.", "quantifier": "all types, all documents", "why_tests_cant": "The effect is on other fields than the one that does not fit, and silent.", "anchors": ["generator/decoder.go: generateStructDecoder, generateDecoderBodyWithoutCheck"]}
{"id": "C49", "title": "Over a document without aliases a Decoder is a cursor", "statement": "A Decoder of the goyaml engine answers every sequence of requests - reading calls for scalars and collections, fitting or not, TryNull, Skip, Any, AddError, Error, and questions about size and remaining items to any collection state handed out so far, in any order and also after errors - exactly as a simple cursor over the document does: a stack of lists of unread items and an optional node held back.", "quantifier": "all documents without aliases, all sequences of requests other than Raw and Node, both error modes", "why_tests_cant": "The answers depend on the whole history of calls, fitting and unfitting ones, through the interplay of route, iterators, conclusions and denials.", "anchors": ["engines/goyaml/decode/reader.go", "engines/goyaml/decode/expected.go", "engines/goyaml/decode/any.go"]}
{"id": "C50", "title": "UnmarshalYAML undoes MarshalYAML", "statement": "For a type with generated methods, the text that MarshalYAML returns for a value is read by UnmarshalYAML without an error and gives the same value.", "quantifier": "all types, all values, all options; through the text", "why_tests_cant": "The composition of code generator, builder, writer, tokenizer, parser, reader and generated decoder over unbounded values.", "anchors": ["engines/yayamls/engine.go: GenerateMarshalers, GenerateUnmarshalers", "generator/encoder.go", "generator/decoder.go", "engines/yayamls/encode/writer.go", "engines/yayamls/parser/parser.go", "engines/yayamls/decode/reader.go"]}
{"id": "C51", "title": "Generated decoders give what the document means", "statement": "What a generated decoder stores and reports is determined by the document, the type and the previous value alone: scalars are converted to the type or give a conversion error; sequences and mappings are read element by element into new slices and maps, into the elements of arrays, into the fields with the names of the keys (unknown names are skipped, or are an error in strict mode); null gives nil, or leaves fields and arrays as they are; pointers that are not nil are read through. If something does not fit, the first misfit is reported as the only error.", "quantifier": "all types (recursive ones included), all documents without aliases, all previous values, all options", "why_tests_cant": "Unbounded types, documents and previous values in all combinations; the decoder's effect goes through the whole state of the reader.", "anchors": ["generator/decoder.go", "engines/goyaml/decode/reader.go", "engines/yayamls/decode/reader.go"]}
{"id": "C52", "title": "The parser gives the tree that the text stands for", "statement": "A stream of documents made of scalars (on one line or folded over several), of flow collections (brackets, braces, commas, spaces anywhere between the parts, pairs in sequences, keys without values) and of block collections, nested in each other, indented by any amount, with comments, empty lines, either kind of line break, values left out, literal and folded block scalars and marks between documents, is parsed without an error to the trees that the grammar of documents assigns to it. In particular JSON texts are parsed to their values.", "quantifier": "all streams of documents of the grammar, of every size, number and nesting", "why_tests_cant": "Unbounded texts; whether a bracket, colon or word is seen as such depends on the token before it, and the parser's limit on dead ends on the whole history of backtracking.", "anchors": ["engines/yayamls/parser/flow.go", "engines/yayamls/parser/block.go", "engines/yayamls/parser/parser.go", "engines/yayamls/lexer/tokenizer.go", "engines/yayamls/lexer/context.go: flowMatching, blockMatching"]}
{"id": "C53", "title": "UnmarshalYAML of a text gives the value the text means", "statement": "For every document of the grammar of C52 whose tree has a meaning in the type (C51), the generated UnmarshalYAML on the yayamls engine, run on the text of the document with any destination, ends with that value in the destination and without an error: tokenizer, parser, AST reader and generated code together.", "quantifier": "all documents of the grammar, all types the generator supports, all destinations, all texts that have a meaning", "why_tests_cant": "It needs the whole pipeline at once on unbounded texts and types; tests fix a few of both.", "anchors": ["decode.go", "engines/yayamls/parser/parser.go: ParseBytes", "engines/yayamls/decode/reader.go", "generator/decoder.go"]}
{"id": "C54", "title": "Bytes are read as the characters they encode", "statement": "For every text of Unicode scalar values, the tokens and the tree or errors obtained from its UTF-8 encoding are those of the text itself (so every property stated on texts holds for the bytes given to ParseBytes). Every other input reads as exactly one text, with the replacement character for each byte at which no character starts, and tokens and tree are those of that text. Losslessness (C06) holds for the bytes exactly when they are UTF-8.", "quantifier": "all byte sequences, all texts, all raw-mode schedules of the tokenizer", "why_tests_cant": "There are unboundedly many inputs, and an error in one range of lead bytes, or of the interplay of decoding with lookahead and rollback, concerns characters no test contains.", "anchors": ["engines/yayamls/lexer/rune_stream.go: Next", "engines/yayamls/lexer/tokenizer.go: NewTokenizer", "engines/yayamls/parser/parser.go: ParseBytes", "engines/yayamls/pkg/cpaccessor/accessor.go"]}
{"id": "C55", "title": "Literal block scalars are parsed to their text", "statement": "A literal block scalar - the header with or without a chomping mark and a comment, lines of any characters indented by the indentation of the first one or more, empty lines between and after them - is parsed to the text YAML gives it (lines without the indentation, final line breaks clipped, stripped or kept), as a document and as a value inside of block collections, and it ends where the indentation ends: what follows it is parsed as if it stood alone.", "quantifier": "all literal scalars: any number of lines of any length and indentation, any place in a stream of documents", "why_tests_cant": "The text of a scalar may look like any other YAML; where it ends depends on the indentation of every line, and the tokenizer has to be switched to raw text and back at the right tokens.", "anchors": ["engines/yayamls/parser/block.go: parseLiteral, parseLiteralContent", "engines/yayamls/parser/properties.go: parseBlockHeader", "engines/yayamls/lexer/tokenizer.go: SetRawMode", "engines/yayamls/parser/token_source.go"]}
{"id": "C56", "title": "Flow collections may be laid out over any number of lines", "statement": "A flow collection is parsed to the same tree whatever line breaks, empty lines, spaces, indentation and comments stand around its brackets and commas - as a document and, with its further lines indented more than the key, as a value in a block collection, where it leaves what follows alone. In particular indented JSON text is parsed to the value it stands for.", "quantifier": "all flow collections (arrays nested up to the depth of C46), all layouts, all JSON values and indentation steps", "why_tests_cant": "The layouts of one collection are unboundedly many; the parser skips separators in two attempts that depend on the indentation in force and on the collections around, and counts failed attempts.", "anchors": ["engines/yayamls/parser/flow.go: parseFlowSequence, parseFlowSequenceEntries, parseFlowMapping, parseFlowMappingEntries", "engines/yayamls/parser/indents.go: parseSeparate", "engines/yayamls/lexer/context.go: flowMatching"]}
{"id": "C57", "title": "Printed trees show the tree", "statement": "astprint.Print writes every tree without nil elements as a drawing with one line per node - its kind, its text with line feeds escaped, and in front of it a bar for each node above that has a sibling below - and two document trees that print alike are the same tree. Print reports nil trees and does not panic.", "quantifier": "all trees, of any depth and number of children and with any texts", "why_tests_cant": "The bars of a line depend on the position of every node above it, and the printer keeps them in a list that it changes and restores while it descends; whether prints can be confused is a question about all pairs of trees.", "anchors": ["engines/yayamls/ast/astprint/printer.go"]}
{"id": "C58", "title": "The parser gives trees of documents", "statement": "Whatever is parsed - any bytes, any stream of tokens - the tree is a stream of documents: scalars, collections or aliases, with a tag or an anchor or both, where mappings consist of pairs, sequences of documents or single pairs, and keys and values are documents. Nothing is nil or invalid but a missing tag or anchor. With WithOmitStream a single document stands for its stream. So every parsed tree can be printed and compared.", "quantifier": "all byte strings, all token streams (also those no tokenizer gives), any fuel", "why_tests_cant": "The productions backtrack over each other with invalid nodes standing for failure; that none of these reaches a tree is a statement about all inputs and all ways through about fifty productions.", "anchors": ["engines/yayamls/parser/parser.go", "engines/yayamls/ast/node.go", "engines/yayamls/ast/astprint/printer.go", "engines/yayamls/decode/reader.go"]}
{"id": "C59", "title": "Names of generated files", "statement": "Without the output flag the file is named after the type: its words - a word begins with an upper case letter after a lower case one, or with the last of several upper case letters before a lower case one - in lower case, joined by underscores. No letter is lost, no upper case letter is left, and different types of a package have different files.", "quantifier": "all type names, with any classification of letters that Unicode may have", "why_tests_cant": "A name can have any number of words, and the loop decides about a letter one round late, with the letters before and after it; whether names collide is a question about all pairs.", "anchors": ["cmd/yamlygen/main.go"]}
{"id": "C60", "title": "The package of a directory", "statement": "The generator's import path of a directory is the module path followed by the directories below the module's root, or the directories below GOPATH/src; directories outside of both are an error. Answers do not depend on the cache. The package name is the name of the package in the directory.", "quantifier": "all modules, GOPATH lists, directories and series of questions, all orders of maps", "why_tests_cant": "The cache is shared by two kinds of questions and the order of a map is chosen by the runtime; tests see one module, one directory and one order.", "anchors": ["generator/parser/pkgpath.go", "generator/parser/parser.go"]}
{"id": "C61", "title": "Generation replaces the output or changes nothing", "statement": "If the command succeeds, the output file is the formatted output of the generator, which was run on the package with a stub and was told all options, and no other file has changed. If it fails, the directory is as before.", "quantifier": "all options, directories and failures of the operating system, the go tool and the formatter", "why_tests_cant": "Every step can fail with the effects of the steps before it in place; tests run the steps that succeed.", "anchors": ["generator/bootstrap/generator.go", "cmd/yamlygen/main.go"]}
{"id": "C62", "title": "Folded block scalars are parsed to their folded text", "statement": "A folded block scalar - the header with or without a chomping mark and a comment, lines indented by the indentation of the first one, empty lines between and after them - is parsed to the text YAML gives it: a break between two lines is a space, or as many line feeds as there are empty lines between them; breaks next to lines that are indented more are kept; the final line breaks are clipped, stripped or kept. It ends where the indentation ends, and what follows it is parsed as if it stood alone.", "quantifier": "all folded scalars: any number of lines of any length and any numbers of empty lines, any place in a stream of documents", "why_tests_cant": "How a break is folded depends on the lines on both of its sides and on the number of empty lines, which the parser finds by trying several productions one after another at the same place.", "anchors": ["engines/yayamls/parser/block.go: parseFolded, parseFoldedContent, parseFoldedText, parseFoldedLines, parseSpacedText, parseSpacedLineBreak, parseSpacedLines, parseSameLines, parseDiffLines", "engines/yayamls/parser/indents.go"]}
{"id": "C63", "title": "Aliases, anchors and tags are parsed to what they name", "statement": "An alias is parsed to the alias of that name. A tag and an anchor, one of them or both in either order, before a scalar, a flow collection, a block scalar or a block collection are parsed to the tag, the anchor and the tree of what follows, which is the one it has without them. The tags of a document are told apart.", "quantifier": "all names, tags with each kind of handle, values of any size, any place in a stream of documents", "why_tests_cant": "The tokenizer decides by what precedes a character whether it is an indicator and reads tags in a context of its own; the parser tries the properties as those of a block collection, of a block scalar and of a flow node at the same place and goes back in between.", "anchors": ["engines/yayamls/lexer/context.go", "engines/yayamls/parser/flow.go: parseFlowNode, parseAliasNode, parseProperties, parseAnchorProperty, parseTagProperty", "engines/yayamls/parser/block.go: parseBlockScalar, parseBlockCollection", "engines/yayamls/parser/documents.go: parseTagHandle", "engines/yayamls/yamlchar/chars.go"]}
{"id": "C64", "title": "Directives before a document leave it as it is", "statement": "A stream whose first document is preceded by directives - the version of the language, tag prefixes, or directives that mean nothing to this parser - has the tree it has without them. A directive that is wrong is reported.", "quantifier": "all versions, names and parameters, any number of directives, comments and empty lines between them, any stream of documents after them", "why_tests_cant": "The tokenizer reads directives in its raw mode, which the parser switches on and off while the next token is already prepared; the version is checked with unicode.IsDigit; a directive that cannot be parsed makes the parser take none at all and end the stream.", "anchors": ["engines/yayamls/parser/documents.go: parseDirectiveDocument, parseDirective, parseYAMLDirective, parseYAMLVersion, parseTagDirective, parseLocalTagPrefix, parseReservedDirective, isCorrectYAMLVersion", "engines/yayamls/lexer/tokenizer.go: SetRawMode"]}
{"id": "C65", "title": "A value read as raw YAML is the text of that value", "statement": "Decoder.Raw returns the text that the value at the current place has as a document of its own, so that parsing it gives the value again, and reading goes on after the value.", "quantifier": "all sequences and mappings of any length with any values inside, both error modes", "why_tests_cant": "Raw stops the visitor of the other calls half-way, at a node that has to be found through collections, entries and contents opened by earlier calls, and takes the state of the reader back behind the value; histories and values are unbounded.", "anchors": ["engines/yayamls/decode/reader.go: Raw, visitCurrentNode, processComplexPoint", "engines/yayamls/decode/expected.go: expectRaw", "engines/yayamls/encode/writer.go: ASTWriter"]}
{"id": "C66", "title": "Base64 text is recognised", "statement": "A text is recognised as binary if and only if it is base64 (groups of four characters, the last one possibly padded) when its white space is left out.", "quantifier": "all texts; all sequences of bytes and all ways to break their encodings between groups", "why_tests_cant": "A regular expression is applied to each word alone, so that the words together need not be base64 and base64 broken elsewhere is refused; tests try single words.", "anchors": ["engines/pkg/schema/schema.go: IsBinary, base64Regex"]}
{"id": "C67", "title": "The generator writes types as Go does", "statement": "The text the generator writes for a type is the type in Go's notation, seen from the package and under the imports that the generator writes, and different types have different texts.", "quantifier": "all types of any depth, any number of them in any order, all packages", "why_tests_cant": "Aliases are made up on the way and must stay right for the texts written before; names of packages, of types and of predeclared types meet in one scope.", "anchors": ["generator/generator.go: extractTypeName, pkgAlias, fixPkgAlias, processVendoring"]}
