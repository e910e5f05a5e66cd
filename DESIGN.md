# Formal model of KSpaceer/yamly in Rocq (Coq 8.16.1)

This document is the plan and the trusted-base statement. Each property Cnn is the
one in `properties.jsonl`; `MANIFEST.json` gives the status and theorem names.

## Conventions

* Text is `list N` (Unicode code points, "runes"). Go strings are byte strings; the
  lexer decodes them to runes at its boundary. Models of functions that work on
  strings use the rune list.
* Errors are values. `nil` is an explicit case (`option`). A panic is an explicit
  outcome where it is reachable.
* Mutable structs become records passed and returned. Slices become lists; where the
  code relies on slice aliasing (bracket checker mementos) the backing array is modelled.
* Goroutines and channels become a small-step transition system.
* Loops without a structural measure take explicit fuel and return a distinguished
  out-of-fuel outcome; theorems either exclude it or prove it unreachable.
* `Model` files contain definitions only, `*Spec` files the independent
  specifications, `*Proofs` files the lemmas, `Props_*` files the property theorems
  with `Print Assumptions` and non-vacuity examples.
* A property that the code violates gets a `..._refuted` theorem with a concrete
  witness, and a `..._partial` theorem for the strongest restricted version proved.

## Plan per property

| Id | What is modelled | Proof |
|----|------------------|-------|
| C01 | `CheckpointingAccessor` field by field over an arbitrary stream `nat -> A` | refinement to "position + stack of positions", induction over histories |
| C02 | same | refuted by a short history; partial: value correct for histories that never drain the replay buffer outside a checkpoint |
| C03 | 16-bit bitmap with shifts and masks, token cache | invariant "every known entry is the computed answer" over all query sequences |
| C04 | quote doubling/undoubling, `IsSingleQuotedString` | induction on strings |
| C05 | escaping table and both unescaping modes, including the index error in `unescapeUnicodeCharacter` | partial on strings without the characters written as `\x`, refuted on others |
| C06-C08 | tokenizer with all contexts, lookahead over the rune accessor, raw mode | invariants over `Next`, induction over schedules |
| C09, C10 | bracket checker with its backing array | simulation with a stack machine / Dyck grammar; C10 refuted in general, partial when the stack has not been popped below the saved size |
| C11, C12 | decimal formatting and `strconv.ParseInt/ParseUint` with base 0 | arithmetic induction |
| C13 | the recognisers as boolean functions written from the regular expressions | case analysis |
| C14 | same | refuted ("+5", "010", "08"); partial on canonical decimals |
| C15-C19 | both encoder builders over a heap of mutable nodes | zipper invariant, induction on trees and histories; C19 refuted |
| C20 | `ASTWriter` with its mutable state | every write starts by resetting the state |
| C21 | writer, lexer and the whole recursive-descent parser | proved on a fragment of unbounded trees: the parser is evaluated symbolically over token lists of a block grammar (`TapeRules`, `BlockParse1-7`), the text of the grammar is tokenized (`LexText`, `BlockText`, starts differ: `TokenStarts`), and the writer is shown to write such text (`WriterText`, by induction over [noted] trees: aliases, tags and anchors where they survive, and literal blocks, NotedSpec); refutations for the rest |
| C22-C24, C26, C30 | both readers: route, iterators, expecter tables, anchors | invariants over call histories; refinement to an ordered traversal; C24 refuted for one engine |
| C25 | `anyBuilder` merge handling | induction over entries; refuted for sequences of merges |
| C27, C28 | two producer goroutines, comparator, unbuffered channels | measure + confluence; C28 refuted (pre-order only) |
| C29 | node heap with in-place rewriting and its undo log | induction on the log |
| C31-C35 | generator naming, aliases, worklist, field merging, tags | invariants over request sequences; pigeonhole for the numbered names; C34 refuted in part |
| C36 | version automaton | equivalence with the grammar; refuted for non-ASCII digits |
| C37 | the whole parser as programs over requests to the token source, run with the accessor of C01 over the tokenizer of C06 | a program logic (ParserLogic) with ghost state (tokens left, checkpoints, checkpoints that must not be used any more); per production a specification with a decreasing measure (ParserTerm*); fuel monotonicity (ParserFuel) |
| C38, C46 | same | refuted by computation (C46: up to five levels parse, proved for all numbers of scalars below them) at every sufficient fuel |
| C39 | encoder wrapper over arbitrary builder/writer | unfolding with arbitrary oracles |
| C40 | 8-bit counters with wrap-around | invariant |
| C41 | the generated functions as interpreters of the type (GenCode): encoders make builder calls, decoders are programs of decoder calls | induction on values: the calls describe a tree (`shows`), the decoder's calls are a reading of it (`follows`), which C23 answers |
| C47, C48 | same | refuted: an invariant of the looping state; computation; C47 for goyaml: programs run on the cursor of C49 return, because each iteration of their loops reads (measure: unread items by depth) |
| C49, C24 | goyaml reader against a small cursor (CursorSpec) | simulation (`sim` in CursorProofs): route and iterators are a stack of unread items; programs with nested loops (ClientSpec) end on the cursor, hence on the reader (CursorRun, CursorClient) |
| C50 | the generated methods MarshalYAML and UnmarshalYAML (GenMarshal) | composition of C39, C41, C21 and C23: the trees of [textual] values are [simple], and what the parser returns means the same to the reader |
| C51 | the generated decoders against the meaning of documents (MeaningSpec: recursion on document and type) | goyaml: the decoder is run on the cursor of C49, with the places of the cursor before and after each value (`ready`, `passed` in MeaningProofs), for right and wrong documents; both engines: documents that give a value are read by a reading of the tree (MeaningReads), which C23 answers |
| C52 | tokenizer and parser against a grammar of documents (TextSpec: inductive relations between trees and texts) | as for C21; flow collections are evaluated with a count of dead-end marks per token (`room`, `spent` in FlowParse1-4): a sequence doubles the visits to its tokens, a mapping does not; brackets make checkpoints inside them unusable (`lost` in TapeRules); what separates two nodes (`gap`: trailing blanks, comment, line break, idle lines) and what follows a collection (`lands`: a less indented line, a document mark, the end of input) are the two interfaces between productions (BlockParse2, BlockParse4); scalars over several lines are evaluated in FoldParse (`seam`: the tokens between two lines); `FoldText`, `GapText`, `LitText` and `LineText` give the tokens of a stream |
| C53 | y_unmarshal (parser, AST reader, generated code) against the grammar of documents and the meaning of a tree in a type | composition of C52, C29 (reader) and C51: nothing new is modelled |
| C54 | byte stream with DecodeRune, accessor, tokenizer and parser over it | RFC 3629 as an inductive relation (Utf8Spec); a byte stream and the list of what the bytes read as are related streams; accessors, tokenizer and parser programs over related streams give the same |
| C55 | tokenizer with the raw mode, parser | the token list of a scalar says where the parser sets the raw mode (`bar` in ParserTape, `lg_switch`); LitParse evaluates the parser on such lists, LitText shows that the tokenizer gives them; a collection that ends with a literal scalar ends at the start of a line, which the grammar carries as an index (`o`) |
| C56 | tokenizer, parser | the productions of flow collections are evaluated with separators that may hold line breaks (`sep` in FlowParse1): the parser looks at the blanks first and takes the lines on a second attempt, which `tail` and `skipped` describe and `room` counts; indented JSON (FlowLineSpec, a recursive function on values) is an instance by induction on the value |
| C57 | AST printer | the drawing is specified on labelled trees (PrinterSpec: `draw`); induction over the tree with an invariant tying the printer's level and list of ended levels to the bars above a node; drawings are read back line by line (`draw_all_inj`: a branch is told from a bar, a label from its line feed), labels and shapes determine document trees |
| C58 | all productions of the parser; the trees they give are specified by `document` (ParsedSpec) | one invariant for every production (`gives`: a result is invalid or of the production's kind), by induction on fuel over any stream of tokens, so that the tokenizer is not needed; trees of documents are printable (C57), comparable (C27, C28), and have a value for the decoders unless they have aliases or pairs in sequences |
| C59 | toSnakeCase | the loop as a function of what is left of the name; words are specified by their breaks (CommandSpec: `words_of`), by induction over the name |
| C60 | findPkgPath, Parser.Parse | paths as lists of names; invariant of the cache (it knows right answers) over series of questions |
| C61 | bootstrap.Generator, generate | the directory is a map from names to texts, the operating system and the go tool are a record of answers; by cases over all of them; the program's text is read back line by line (`main_text_inj`) |
| C62 | tokenizer with the raw mode, parser; YAML's folding as a function on lines (FoldedSpec) | as C55; a folded scalar sets the raw mode twice at most line breaks (`lg_twice` in ParserTape): once for a text that turns out to be absent; LitParse shows for each break which of the productions of block.go gives up where, and what it leaves on the tape |
| C63 | tokenizer (anchors, aliases, the tag context), properties and flow nodes of the parser | as C52; leaves of the grammar are aliases, or nodes with properties (LeafParse); what follows a key or a dash may be a block scalar or an indented block collection with properties (MarkParse); the tokens of properties hold no brackets, so that checkpoints before them stay usable; the parser tries the properties of a block collection and of a block scalar first and each of these attempts is evaluated |
| C64 | directives in the tokenizer (raw mode) and the parser | as C52 with the grammar of DirSpec; the mode is changed once or twice while the next token is prepared, so the tape has one or two bars there (DirParse, DirText); unicode.IsDigit is a parameter of which only the ten digits are assumed |
| C65 | Raw of the yayamls Decoder (reader, expecters, writer) | by induction over the entries; the states between two calls are described exactly (`before` in RawTextProofs: at the mapping, or at an entry whose iterator is empty); the text is that of a new writer, so C21 applies |
| C66 | IsBinary of the shared schema | by induction over groups of four; the words of strings.Fields are followed with the current word as state; base64 is specified by its bytes (BinarySpec.v), and encoding then decoding gives the bytes |
| C67 | extractTypeName with pkgAlias | invariant on the imports (aliases distinct names; imports only grow), then unique reading of the notation by induction over types and their fields: every text is split at its first character that cannot be in a name |
| C42 | module path scanner | induction on the lines before; refuted for the bracketed form |
| C43 | recognisers of quoted, URI and tag text | equivalence with inductive grammars |
| C44 | tokenizer | invariant on every token handed out |
| C45 | both readers | inductive relations for readings that stop at, or go on after, calls that do not fit (DenySpec); the simulation of C23 extended by denied points |

## What is modelled, file by file

| Go file (under /repo) | Coq model | Simplifications |
|---|---|---|
| engines/yayamls/pkg/cpaccessor/accessor.go | CPAccessor | none (whole file; generic in the stream) |
| engines/yayamls/yamlchar/chars.go, charset.go, transformations.go | YamlChar | bytes.Buffer is a list; strconv.ParseUint(_, 16, 32) written out |
| engines/yayamls/token/token.go, bitmap.go | Token | none |
| engines/yayamls/lexer/context.go, tokenizer.go | Lexer | input is the list of decoded runes; Utf8 has the bytes |
| engines/yayamls/lexer/rune_stream.go | Utf8 | with unicode/utf8.DecodeRune of Go's library (masks and shifts as arithmetic); strings.Builder.WriteRune is appending |
| engines/yayamls/parser/internal/balancecheck, deadend | Balance | slices with their backing array; int8 counters wrap |
| engines/yayamls/parser/parser.go, token_source.go, errors.go, indents.go, comments.go, properties.go | Parser | a production is a program of requests to the token source; the pools of buffers and accessors are fresh objects; the printed form of errors is left out |
| engines/yayamls/parser/flow.go, block.go, documents.go | ParserFlow, ParserBlock, ParserDocs | recursion and loops have fuel, which C37 shows to be enough; strconv.ParseInt and unicode.IsDigit on digits outside of ASCII is a parameter |
| engines/yayamls/parser/documents.go 343-373 | Generator (`is_correct_version`) | unicode.IsDigit is a parameter |
| engines/yayamls/ast/node.go | Ast | nodes are values; nil is `NNil` |
| engines/yayamls/ast/astcmp/comparator.go | Comparator | goroutines as a transition system; no other goroutines |
| engines/yayamls/ast/astprint/printer.go | Printer | the writer is the text written to it and never fails; visitor and Accept are one recursive function |
| engines/pkg/schema/schema.go | Schema | ParseFloat/FormatFloat of finite numbers and time.Parse/Format not modelled (oracles in Values) |
| engines/yayamls/encode/builder.go | Builder | heap of cells for nodes on the route, values for all others; the text given to InsertRaw is a tree (parsing it is the parser's matter) |
| engines/yayamls/encode/writer.go | Writer | buffers as lists of runes |
| engines/goyaml/encode/builder.go | GBuilder | as Builder; yaml.Unmarshal of raw text is a given node |
| engines/goyaml/encode/writer.go | Encoder | yaml.v3's encoder is a parameter |
| encode.go | Encoder | any builder, any writer |
| engines/*/decode/reader.go, iterator.go, expected.go, anchors.go | Reader, YReader, GReader | conversions external to the repository are an `oracle` record; a call that never returns is `NoFuel` for every amount of fuel |
| engines/*/decode/any.go, engines/*/schema | AnyBuilder, YReader, GReader | as above |
| engines/goyaml/decode/raw.go | GReader | yaml.Marshal is a parameter |
| generator/generator.go: AddType, Generate, pkgAlias, fixPkgAlias, generateFunctionName, joinFunctionNameParts, getStructFields, mergeStructFields | Generator | types are an abstract set with equality, safeTypeName is a parameter; reflect types as a table |
| generator/decoder.go, encoder.go | GenCode | what the generated code does, not its text; types: scalars, text methods, []byte, slices, arrays, pointers, maps, structs (recursive through a table); maps are lists in iteration order; FromFloat and the text methods are parameters (`externs`) |
| engines/yayamls/engine.go: GenerateMarshalers, GenerateUnmarshalers; decode/reader.go: NewASTReaderFromBytes | GenMarshal | what the generated methods do |
| generator/generator.go: extractTypeName, escapeTag | TypeNames | reflect.Type is a tree: declared types by package and name, other types without a name by their String(); strconv.Quote is a parameter |
| generator/tags.go | Generator | reflect's tag lookup is done: the argument is the text under the key yaml |
| generator/parser/modulepath.go: modulePath | Generator | strconv.Unquote of literals with escapes is a parameter |
| generator/parser/pkgpath.go, parser.go; generator/bootstrap/generator.go; cmd/yamlygen/main.go | Command | cleaned absolute Unix paths as lists of names; go env, go run, files and formatting are parameters; all files are in one directory; writes to a file that was opened do not fail, except for the last one; the order of maps is an argument; flags are parsed |

Not modelled: the tokenizer options of engines/yayamls/parser (WithTokenStreamConstructor, ParseFile);
the rest of engines/*/engine.go (marshalling methods
of other types); interfaces, byte arrays, embedded pointers and own
marshalling methods in generated code; test and benchmark helpers; floating point and time.

## Findings

Each finding is a `_refuted` theorem unless marked (reading): those were found while writing the model and
concern parts that no theorem covers.

Lexer and parser support
* C02: `CheckpointingAccessor.Rollback` returns a stale element after replayed elements have been drained
  outside of a checkpoint (`saved` is not updated there).
* C05, C43: `\b` is missing from the escape table; `unescapeUnicodeCharacter` reads the wrong runes, so
  characters written as `\xhh` come back wrong or the read is out of range.
* C10: the balance checker's memento saves only the size of the stack; Reset does not clear the
  "cannot be balanced" flag.
* C40: the dead-end finder's 8-bit counters wrap if its client goes on after a report (the parser does not).
* C36: version directives accept digits of all scripts.
* (reading) the parser never converts quoted text: the ConvertFromYAML functions have no caller outside of
  yamlchar; `parseDoubleEscaped` leaks a checkpoint.
* C21: what is written does not always parse back (`Props_RoundTrip`): null comes back as the text `null`;
  quoted text is not unescaped by the parser (`'it''s'`, `"a\nb"` keep the escape); text without requested
  quotes is written as it is (`a: b` comes back as a mapping, `a # b` loses its end); empty collections come
  back as null or as no document; the anchor of a root value is glued to it (` &xv`), an anchored sequence in a
  sequence loses the whole document without an error, a tag on a mapping in a sequence moves to its first key, a tag
  before an alias loses the document; in literal blocks, an empty first line makes the indentation part of the text
  (`\na` comes back as `\n  a`), a first line that starts with a space loses all other lines, and a line that starts
  with a bracket makes the document unreadable; scalar documents of a stream swallow the end marker
  (`v...`).
* C38: `parseStream` does not check that it stopped at the end of input. `a: b c: d`, `"a" b`, `key: - a`,
  `[a]]`, `a: 'b` and `a: [1, 2] x` all parse successfully to an empty stream, `- a` followed by the line
  `b: c` to the sequence alone.
* C46: seven nested flow sequences around a word, or six empty ones, are reported as a dead end, because every
  level tries its content several times.
* C52: `[` or `{` directly after the colon of a quoted key is taken as the start of a word (context.go 272-287
  look at the token before, and a colon does not count), so compact JSON such as `{"a":[1]}` is rejected,
  while `{"a": [1]}` and `{"a":1}` are parsed.  A dash that is the last character of the input is no entry
  (`- a` and `-` on the next line without a line break give one entry); with a line break after it it is null.
  Between quotes, blanks before a line break stay in the text (flow.go 191, 236, 247: the token is written whatever
  it is) although folding should drop them; an empty line inside a scalar stands for its own line break
  (block.go 678-730 write its origin), so with CRLF a carriage return gets into the text.
* C56: inside brackets `#` is not looked at (flowMatching, context.go 245-347, has no case for it), so a comment
  becomes text: `[a, #x` and `b]` on the next line is the list of `a` and `#x b`.  A closing bracket that is not
  indented more than the key of the collection loses the whole document without an error (as in C38).
* C59: types of one package can have the same file (`HTTPServer` and `HttpServer`: http_server_yamly.go); the code of the
  second replaces that of the first.
* C60: without a module, pkgPathFromGOPATH takes path.Dir of a path that is already a directory's: the import path of
  every package below GOPATH/src lacks its last name, and the generated program imports another package. A directory
  with files of several packages (a script with `//go:build ignore`) gets the name of any of them, depending on the order of a map.
* C61: the bootstrap overwrites the output with a stub before it runs the generator, and does not undo that: if the
  generator fails (the package does not compile, a type is not supported), the code of an earlier run is lost and methods
  that compile and silently marshal nothing are left. A file called like the output with .tmp is overwritten and removed.
* C58, C53: a pair in a flow sequence (`[a: b]`, short for `[{a: b}]`) becomes an entry that is itself an element of the
  sequence. The yayamls reader gives its key and its value as two elements: `[a: b, c]` is read into `[]string` as
  `a`, `b`, `c` without an error, and `[a: b]` cannot be read into `[]map[string]string`.
* C57: `astprint.Print` writes a line feed inside a text as `\n` but leaves backslashes alone, so different trees print
  alike; a text that is the root of the tree is printed with its line feeds; nil elements of a collection make it panic
  (`Accept` on a nil interface), while a nil root is reported as an error.
* C62: parseSpacedLineBreak (block.go 611-631) writes the line break without taking it from the tokens, so that the
  production for empty lines counts it again: between two lines of a folded scalar that are both indented more, the
  break is doubled (`x`, `  y`, `  z` gives `x\n  y\n\n  z`).  Brackets and quotes as in C55.
* C63: an anchor or a tag before the first key of a block mapping is taken as the properties of the mapping
  (parseBlockCollection), which must be followed by a line break; the attempt fails, the key is not tried with them and
  the document is dropped without an error: `&a k: v` is an empty stream.  Before later keys the same text is parsed.
  IsTagString (chars.go 98) has no dash, so that `!my-tag x` is an error.  parseTagHandle gives no name: `!int x`,
  `!!int x` and `!h!int x` have one tree.
* C64: parseLocalTagPrefix (documents.go 309-318) asks for a token of type tag, but parseTagDirective has set the
  raw mode before the prefix, and in raw mode `!` is an ordinary character: `%TAG !e! !foo` is not parsed, and
  parseStream then ends with an empty stream and no error.  The same happens for every directive that cannot be parsed (`%YAML` without a
  version, `% FOO`): the documents after it are dropped silently.
* C65: before a key, `Raw` of the yayamls Decoder matches the entry (expected.go 265-283 passes only contents and
  properties), so it returns the text `a: 1` of the whole entry and skips the value; the tag and the anchor of a value
  are not part of its raw text, while aliases to anchors outside of it are.
* C66: IsBinary (engines/pkg/schema/schema.go 146-154) looks at each word alone. Base64 with a line break inside a group
  of four, which YAML allows, is not recognised, and `QQ== QQ==`, which is not base64, is.
* C67: a type of the package that is called like a predeclared type (`type string []byte` is legal Go) is written
  without a package, as is the predeclared type, so that generated code uses one for the other.  Types of one name in
  two vendor directories get one alias (processVendoring, generator.go 278-284).
* C55: a literal or folded scalar whose first line is empty, or that has no lines, gets indentation 0 (block.go
  takes the indentation of the first line whatever it holds), so that the rest of the document becomes its
  text without an error: `a: |`, an empty line, `  x`, `b: c` is one entry.  The first token of each line is read
  before the raw mode is set: a line starting with `[` or `{` is counted as a bracket and reported as
  unbalanced; a quote in the first word of a line (`it's`) puts the tokenizer into a quotation and all that
  follows the scalar is dropped without an error.  CRLF is not normalised in the text.  `|0` gives an empty
  stream (LiteralProofs, zero_indent_lost).

Scalars
* C14: "010" is read as 8, "08" is refused, "+5" is refused as unsigned although all are recognised as integers.
* (reading) timestamp layouts for short dates are not Go layouts; formatting drops parts of a second.

Encoding
* C18: raw YAML as a whole document stays open on the yayamls builder's route; yaml.v3's EndMapping ignores
  a pending key.
* C19: incomplete and excess histories are accepted (witnesses in Props_Builder).
* (reading) the yayamls writer writes empty collections as nothing, complex keys with an unindented colon,
  tags with a doubled `!!`.

Decoding
* C24: loops over sequences and mappings need not end: after a fatal error (yayamls), after collected
  denials (both), at an alias that is not the last element (both).
* C45: with collected denials, a call that does not fit a null node of yayamls returns the value of the call
  before it; asked for a sequence or mapping it may return a nil interface, on which any loop crashes
  (`VisitNullNode` appends its denial itself instead of leaving it to the method, which then carries on).
* C25: merging flattens nested mappings and loses entries of lists of mappings.
* C26: generic reading of alias targets redefines or captures names; anchors inside skipped or raw content
  are unknown; self-containing nodes never return.
* C28: the comparator ignores list ends and quoting.
* C29: extracting raw text of a self-containing node never returns.
* C30: goyaml reports twice the number of entries of a mapping.
* (reading) yayamls with collected denials reports a stale value for a denied null; Skip/Raw/Node at the
  position of a mapping entry act on the whole entry; quoted `<<` is a merge key and quoted numbers are numbers.

Generator
* C34: inlined maps and interfaces are dropped silently; the later of two embedded structs wins whatever the
  depth; a struct that embeds a pointer to itself is never finished.
* C41: a pointer to nil comes back as nil; an empty slice or map with omitempty comes back as nil; with unquoted
  strings the string `null` is lost; with goyaml all fields after one with text methods (such as a time) are
  lost without an error, because `in.AddError(x.UnmarshalText(...))` calls AddError(nil), which drains all
  iterators.
* C47: with yayamls the generated decoder of `[]int` never returns on `[x, 1]`; more generally no loop that
  begins an iteration after an error while items are left returns. With goyaml this happens when denials are
  collected, and in any mode for `[&a 1, *a, 2]`.
* C48: null for a struct stores the zero value and then reads a mapping anyway: `[null, {a: x}, {a: y}]` as
  three structs gives two, without an error; a null alone gives an end-of-stream error. The elements of a list
  that do not fit into an array are read as keys and values of the struct around it. On goyaml as well:
  `{a: [1, b, x], c: y}` sets the field b to x when a is an array of one.
* C51: text methods, aliases, collected errors and the cases of C48 excepted, what the generated decoders give
  and report is what a plain recursion over document and type says; in particular a destination that is not
  zero keeps what the document does not mention (pointers are reused, arrays are overwritten from the front,
  maps and slices are replaced).
* C50: strings with quotes, backslashes, line breaks or other characters that need escapes come back with the
  escapes in them, without an error; a marshalled empty slice, map or struct is the empty document, which
  UnmarshalYAML rejects; inside of other values it comes back as nil.
* C54: bytes that are not UTF-8 silently become U+FFFD; a Go string holding such bytes, which the writer copies, does
  not come back (reading).
* C42: `module (` gives the path "(".
* (reading) two fields with one yaml name give a switch with a duplicate case; names that start with a
  non-ASCII letter give invalid identifiers; aliases may be Go keywords; code for byte arrays,
  for interfaces and for pointers to types with marshalling methods does not compile; `type T []T` makes the
  generator recurse forever; nil embedded pointers panic on encoding.

## Trusted base

* Coq 8.16.1's kernel (and the OCaml runtime it is built with). No plugin, no `native_compute`; `vm_compute`
  is used in examples.
* `Print Assumptions` stands after every property theorem; each one prints "Closed under the global context":
  no theorem depends on an axiom. The development loads `Lia`, `ZifyBool` and their dependencies; among the
  loaded library files `Coq.ssr.ssrunder` declares seven constants of a module type (`Under_rel.*`), which a
  listing of all axioms in the environment shows. No theorem uses them.
* The models: that each definition does what the cited lines of Go do. Every definition cites them. The
  semantics of Go that this relies on: integers of fixed size where the model says so, slices, maps with
  unspecified order of iteration, unbuffered channels.
* The parameters, which stand for code outside of the repository: strconv.ParseFloat, time.Parse, fmt.Sprint
  (`oracle` in Values.v), yaml.v3's encoder, Marshal and Unmarshal, unicode.IsUpper and IsDigit,
  strconv.Unquote, reflect. Theorems hold for every value of the parameters; the hypotheses on them are in
  the statements.
* That the specifications (`*Spec.v`, written without reference to the models' helpers) say what the
  properties mean.

## Mutation log

`seeded/LOG.jsonl` holds edits made by hand and edits made by a script. The script's results were logged
with a filter that kept only edits on which a property theorem failed, so the share of caught edits in the
log is too high. The remaining results of the last two runs (8 edits, `outcome` in the last lines) are now
logged too; those of earlier runs whose output was overwritten, if any, are not. On these 8 edits no
property theorem was seen to fail and nothing was tightened. Seven of them broke an inner lemma or a
concrete example. `bool_text` in Command.v, negated, broke nothing: no theorem fixes that text. The tag
directives in ParserDocs.v (4 edits) and the line break in `write_literal` are the other weak places.
