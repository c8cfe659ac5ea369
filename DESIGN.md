# Formal model of xaxys/bubbler in Rocq (Coq 8.16.1)

bubbler is a compiler: `.bb` schema files in, encoders/decoders in nine target languages out.  Two kinds of
program matter to its users, and both are modelled:

1. the **generated code**: what `EncodeTo`/`Encode`, `EncodeSize`, `DecodeSize` and `Decode` of each target do at
   run time on byte buffers;
2. the **compiler**: which files are accepted, what they mean, how imports are resolved, what paths,
   identifiers, constants and expressions end up in the generated text.

For the generated code we model the *generator functions* (they compute masks, shifts, byte positions - exactly
the numbers the Go code prints into the target program) together with an *executor* for the statements they emit.
The nine targets are Go, C, C++, C#, Java, CommonJS, ES modules, Python and Kotlin.

## 1. Conventions

* Machine integers are `Z`; operations that can wrap are reduced explicitly (`mod 2^w`, `sext`) wherever the code's
  result depends on it.  Offsets that the target keeps in unbounded or 64-bit integers are `Z`; the comparisons
  against `MaxInt`/`INT64_MAX` that the generated code contains are modelled as they stand.
* A buffer is a `list Z` of bytes (`bytes_ok`); `data[k:]` is `skipn k data`, and what a callee writes into a
  slice is written back into the parent (`in_slice`): sharing of the backing array.
* Outcomes are explicit: `Ok`, `Fail` (the function returns -1 / null / its error value), `Panic` (out of range
  access, exception, undefined behaviour, or a text the target's compiler rejects).  Theorems that say `Ok`
  therefore also say "no panic".
* Struct values are positional; floats are their IEEE bit patterns (the generated code only reinterprets them).
* Recursion in the code that is not structural is modelled with fuel, and the fuel is proved to suffice
  (varint loops, `gen_chunks`, the import walk, the expression parser).

Every definition of a model cites the lines of /repo it models and says where it simplifies.  Files:

| file | content |
|---|---|
| `Base`, `BaseProofs` | buffers, bits, outcomes; `overlay buf pos img buf'` (buf' is buf with the image laid over it), `matches` |
| `Schema` | compiled structs (`fields`), values, well-formedness `wf_struct`, `nd_fields` (no directly nested struct of variable size) |
| `SpecWire` | **spec**: the documented wire layout as a list of bits (`image_fields`), storable / fitting values, reduction to field widths, constants that read back |
| `GoModel` | **model** of generator/target/golang |
| `GoBitProofs` ... `GoCore`, `GoConst`, `GoDirect` | lemmas: bit level, encoder, decoder, round trip, prefixes, constants, directly nested dynamic structs |
| `PropsGo` | C01-C17, C39, C40 |
| `CfBits`, `TgtModel`, `TgtPrims`, `PyTarget`, `KtTarget`, `CTarget`, `JavaTarget`, `CsTarget`, `JsString`, `JsTarget` | **models** of the other eight targets: one generic walk over the fields (`TgtModel`), instantiated by each target's own statements |
| `CfBitProofs`, `TgtEncProofs`, `TgtDecProofs`, `TgtPrefix`, `TgtAny`, `TgtAnyInst`, `SelfClear` | lemmas |
| `Interop` | the nine targets side by side (`lang`), what each asks of schema and values |
| `PropsTargets`, `PropsSize`, `PropsAny` | C18-C22, C47, C48; C50; C51 |
| `PropsNull` | C76 |
| `FrontModel`, `FrontSpec`, `FrontProofs`, `PropsFront` | proto_visitor.go: C23-C26, C43-C45 |
| `CompileModel`, `CompileSpec`, `CompileProofs`, `PropsCompile` | compilation_runtime.go, compilation_unit.go, info/import visitors: C27-C29, C35, C46 |
| `Literals`, `PropsLit` | integer literals from schema text to target text: C52 |
| `ExprModel`, `ExprSpec`, `ExprProofs`, `ExprLex`, `ExprLexMain`, `ExprParse`, `PropsExpr` | expressions of getters and setters, and independent lexers/precedence parsers of the targets: C53 |
| `LexModel`, `LexSpec`, `LexProofs`, `LexLayout`, `PropsLex` | the lexer: C54-C56 |
| `StrLit`, `PropsStr` | string literals: C57 |
| `Paths` | import paths: C60 |
| `Text`, `TextRel`, `PropsText` | from the texts of files to what the compiler sees: C61, C62 |
| `TextSpec`, `PropsSays` | what the tokens of a file say, and that the compiler sees that: C63 |
| `FloatLit`, `FloatShort`, `PropsFloat` | floating-point literals, read and printed: C65 |
| `PropsEnd` | from the texts of schemas to messages between two languages: C66 |
| `PrintTree` | printing an expression with the parentheses the templates write, and reading it back by the grammar of `ExprSpec` |
| `GoSem` | specification: what Go makes of assignments, declarations, conversions, shifts, pointer casts and the constant check |
| `GoSemDet` | the reading of `GoSem` is deterministic |
| `GoText` | the text of the statements `golang.go` prints for the fixed-size fields of a struct |
| `GoTextLex/Enc/Field/Dec/DecField/Struct` | that text runs as `GoModel` says |
| `PropsGoText` | C67 |
| `PySem`, `PySemDet` | specification: what Python makes of assignments to attributes, list elements, locals and bytes, enum classes and the constant check; it is deterministic |
| `PyText` | the text of the statements `python.go` prints for the fixed-size fields of a struct |
| `PyTextLex/Enc/Dec/Struct` | that text runs as `PyTarget` says |
| `PropsPyText` | C68 |
| `CSem`, `CSemDet` | specification: what C makes of assignments to bytes, members and locals: integer types, promotions, conversions, views through pointers, undefined behaviour; it is deterministic |
| `CText` | the text of the encoding statements `c.go` prints for the fixed-size fields of a struct |
| `CTextEnc`, `CTextStruct` | that text runs as `CTarget` says |
| `PropsCText` | C74 |
| `CTextD` | the text of the decoding statements `c.go` prints for the fixed-size fields of a struct |
| `CTextDec`, `CTextDecField`, `CTextStructDec` | that text runs as `CTarget` says |
| `PropsCTextDec` | C75 |
| `GenOut`, `GenOutSpec`, `GenOutProofs`, `PropsOut`, `PropsImports` | which files a run of a generator writes, which types each declares and what it imports: C69, C70 |
| `Indent` | indentation of blocks of text: C71 |
| `StrEmit` | string constants in the generated code and how the target languages read them: C72 |
| `Main` | the command line, from arguments to exit status and written files: C73 |
| `ExprVisit`, `PropsSource` | expressions from the schema's text to the target's: C64 |
| `Syntax`, `Parser`, `ParserProofs`, `ParserDecl`, `ParserLang`, `PropsParse` | the grammar and its parser: C58, C59 |
| `OrderedMap`, `UtilMisc`, `Package`, `TextNorm`, `NameStyle`, `Calc`, `Options` | library code: C30-C34, C36-C38, C41, C42, C49 |

## 2. Property by property

Theorem names are in MANIFEST.json; each theorem is followed by a concrete instance (an `Example`) that meets its
hypotheses.  "Refuted" means that a theorem ending in `_refuted` proves that a natural stronger reading is false of
the code, with a witness.

| id | modelled | how it is proved |
|---|---|---|
| C01 round trip (Go) | generator + run time, whole schema language, both sides with their own options | composition of "the encoder lays the wire image over the buffer" (C02) and "the decoder inverts any buffer that matches the image"; mutual induction on schemas |
| C02 layout | as above | `encode` realises `image_fields`, the independent layout; induction on schemas; bitwise extensionality |
| C03 frame | as above | the other half of `overlay` |
| C04 EncodeSize | EncodeSize template | induction; length of the image |
| C05, C06 DecodeSize, prefixes | DecodeSize template | induction on schemas and on prefixes of the buffer |
| C07, C08 arbitrary bytes | Decode/DecodeSize | a non-negative DecodeSize gives the bounds every access of Decode needs (`dec_safe`) |
| C09 direct dynamic struct | as above, without `nd_fields` | induction over the schema on a message that matches its image (GoDirect.v): Ok right value or -1; refutations by computation |
| C10 -unroll | loop and unrolled code paths | both equal an option-free reader/writer |
| C11 -signext | both sign extensions, fixed-width arithmetic | modular arithmetic |
| C12 helpers | bbWriteFieldBits / bbReadFieldBits against inline statements | both against the bit-level spec |
| C13 varint | length prefix | induction on the fuel, canonical base-128 |
| C14, C15 constants | generateEncode/DecodeConstantField, including when the emitted Go compiles | exact: round trip <-> every constant "received"; closed forms by bit-level induction |
| C16 decode-encode | as above | an accepted buffer matches the image of what was decoded |
| C17 truncation | as above | corollary of C02 with values reduced |
| C18 C family, encode | shared generateEncodeImpl of C, C++, C#, Java, JS, helper functions, nested calls, arrays | exact condition on geometry (`cf_good`); generic induction over targets (`TgtEncProofs`); witnesses where it fails |
| C19 C family, decode | same | same, `TgtDecProofs` |
| C20 dirty buffers | same | self-clearing analysis: which store clears which bit (`SelfClear`) |
| C21 Python, C22 Kotlin | their own statements | instances of the generic theorem, witnesses for the exceptions; for Python the exact class of fields (PyExact.v) |
| C23-C26, C43-C45 | proto_visitor.go on the parse tree: sizes, positions, names, options, enums, methods, constants, embedded structs | induction over bodies; acceptance characterised both ways where possible |
| C27-C29, C35 | CompilationRuntime.compile with its shared state, CompilationUnit, over an arbitrary file system | termination by a measure; `compile` accepted <-> declarative meaning of the files (`means`) |
| C30 | OrderedMap | refinement of an association list over operation histories |
| C31, C41 | Package paths, output paths, -rmpath | induction on path components |
| C32 | normalizeGeneratedIndent | induction on the text |
| C33, C34, C37, C38 | HighBit, size strings, calc, options | bit level / structural |
| C36, C42, C49 | name_style.go | induction on names |
| C39, C40 | streams of Go messages, incremental reading | induction over messages / on the number of rounds |
| C46 | the front end composed with the Go codec | C23's layout theorem discharges C01's hypotheses |
| C47 | any target to any target | every encoder matches the image, every decoder reads it |
| C48 | UTF-8 of the JavaScript run time | against an independent UTF-8 and UTF-16 |
| C50 | decodeSize of every target on messages and prefixes | equality with Go's DecodeSize (`TgtPrefix`) and C06 |
| C51 | decode of every target on arbitrary bytes | simulation of the Go decoder (`TgtAny`) |
| C52 | integer literals | strconv.ParseInt and the literal printers against independent readers of the target languages' literals |
| C53 | getters and setters | printed text -> tokens (longest match) -> Pratt parser with each language's precedence table -> the schema's tree |
| C54 | the lexical rules of bubbler.g4 as regular expressions, ANTLR's matching by derivatives | derivatives are correct for the languages of the rules; longest match and rule order against `cut` (`LexSpec`) |
| C55 | as above | no rule matches across the end of a token (first characters, neighbouring characters, tables over all characters and rules); blanks and comments are dropped |
| C56 | as above | case analysis of the rules that can start with a letter or digit |
| C57 | VisitStrLit with strconv.Unquote | the pieces of a literal, one by one |
| C58 | the grammar as trees with their tokens (`Syntax`), the generated parser as a recursive-descent parser with the lookahead that decides (`Parser`) | soundness by induction on the calls, completeness by induction on the length of the tokens |
| C59 | `expr(p)` with ANTLR's precedence numbers; `meant` trees by the order of alternatives | precedence climbing: induction on trees; totality over flat sequences of operands and operators |
| C60 | fileio/path.go with filepath Clean, Dir, Join, Abs on Unix | `clean` has the segments that walking needs; a path of a place gives the place back |
| C61 | lexer, parser, literals, paths and visitors put together (`Text`); positions by counting lines and columns | the compiler compared on sources that differ in positions by an injective renaming; places of tokens increase |
| C62 | as C61 | C35, C43, C28 with their hypotheses discharged for texts |
| C63 | a grammar with meanings (`TextSpec`, relations only) against `Text.read_text` | induction over what is said builds the tree; induction over trees gives what is said |
| C64 | lexer, parser, `ExprVisit.visit_expr` and the printers of C53 composed; `means` relates the schema's tree and the target's | C55, C58/C59, C53 chained; induction over the expression |
| C65 | doubles as multiples of 2^-1074 in Z; `rounds` (nearest, ties to even) is the specification, `round53`, `fixed6`, `g_text` the model | uniqueness of rounding; gap between neighbours; seventeen digits suffice |
| C66 | lexer, parser, readers, compiler and the encoders/decoders of all targets composed | C61, C23, C47 chained |
| C67 | the Go text of the packing and unpacking statements (`GoText`), a specification of the Go they use (`GoSem`) | the printed text lexes and parses to a known tree (`PrintTree`), whose evaluation is the chunk of `GoModel`; induction on bits, chunks, elements and fields |
| C68 | the Python text of the packing and unpacking statements (`PyText`), a specification of the Python they use (`PySem`) | as C67, against `PyTarget`; the misreading of C21 carries over to the text because its outcome is unique |
| C69 | Generate, GenerateUnit, GenerateStruct/Enum of the nine targets as functions from compiled units to calls of WriteFile (`GenOut`); what should be written is said from the source files alone (`GenOutSpec`) | every type is generated after all it uses: mutual induction over definitions, then over the units; paths by C60's places |
| C70 | the import lists of the same model; `sees` says which declarations a written file can refer to | owners of field types are reached by imports (C35); induction on the path of imports |
| C71 | strings.ReplaceAll and TrimRight on texts; `layout` is what a reader who goes by indentation sees | the two replacements as functions on the list of lines, by induction on the text |
| C72 | what each GenerateStringLiteral prints; a reader of string literals for every language | induction on the string; an escape takes more characters than it gives |
| C73 | main.go with the flag package; `written` are the ways to write one option | induction on the list of options, both ways; C69 for the files |
| C74 | the C text of the packing statements (`CText`), a specification of the C they use (`CSem`) | as C67, against `CTarget`; the lost bit of C18 carries over to the text because its outcome is unique |
| C75 | the C text of the unpacking statements (`CTextD`), read by the same `CSem` | one lemma per kind of field (loop of parts, sign extension, enum temporaries, constants), then induction over the struct with a frame of members and temporaries; refused constants by the value of the unsigned temporary; a message that ends early makes the first expression that reads past it undefined |
| C76 | encode and decode of Java, Kotlin, JavaScript and Python, `enum_at` (an enum value at any depth) | induction over the occurrence of the null; induction over the schema for decoding |

## 3. What is not modelled

* ANTLR's runtime: its lexer and parser are modelled by what they compute (C54-C59), not by their automata, caches and
  error recovery (a file with an error is rejected, the messages are left out);
* the text/template engine and most of the templates' text: the models start from what the statements of a template
  instance do; C52, C53, C67, C68, C72, C74 and C75 do model text;
* the target languages' compilers and type checkers, except where a rule decides a property (Go: constants, C15;
  conditional expressions, C53; enum temporaries); where an emitted text is known not to compile the model gives
  `Panic` or the theorem's side condition (`go_ok`, `can_decode`) excludes it;
* for Python, `/` in an expression is true division (the printed tree is what the schema says; its value is not C's);
* allocation, concurrency, and I/O errors; `-memcpy` (a decoded byte string aliases the input without it; values are
  the same);
* string constants as operands of expressions of getters and setters (their text alone is C72);
* the warnings printed by the generators, dumping of the syntax tree.

Known simplifications: definitions are identified by their position in a file, as in the code; the files do not
change while they are compiled; a literal that cannot be read rejects its file at once (`Text`).

## 4. Trusted base

* Coq's kernel (8.16.1), including `vm_compute` (used for examples, refutations and some table lemmas).
* `Print Assumptions` on every theorem of the manifest says "Closed under the global context": no axioms, neither
  ours nor the standard library's.  (vcheck lists seven constants of `Coq.ssr.ssrunder`: these are the opaque
  constants declared by the standard library's ssreflect `under` module, loaded with `lia`; no theorem uses them.)
* The correspondence between the models and the Go source: documented by the citations, not proved.
* The specifications: `SpecWire`, `FrontSpec`, `CompileSpec`, `ExprSpec`, and the small definitions beside the theorems.

No functors, module types, `Declare Module`, axioms, `Admitted`, or kernel switches are used.

## 5. Mutation testing

`tools/mutate.py` applies each edit of `seeded/mutants_*.py` to a scratch copy of the model, rebuilds, and records in
`seeded/LOG.jsonl` which theorem fails first in each file.  Survivors led to new or stronger theorems
(C37_calc_operators, C41_rmpath, C50_truncated, C53's `typed`...), recorded in the `tightened` field.

## 6. Findings (all proved as `_refuted` theorems unless noted)

Go: DecodeSize ignores the variable part of a directly nested struct (C09); constants too wide or big-endian and
narrow never decode (C15); over-long varints accepted (C16); bool arrays wider than a bit depend on -unroll (C10).
C family: a field that straddles a byte boundary and ends further into its last byte than it started loses a bit
(C18); old buffer contents show through padding and array loops (C20); C negative constants and narrow constants
(C19); C# narrow floats and short input (C19, C50); Java arrays in nested structs (C18), narrow floats (C19);
JavaScript uint32, enums over 32 bits, 64-bit constants (C18, C19), lone surrogates (C48), string decoder swallows a
missing terminator (C51); C decode_size wraps (C51), C decode does not check bounds (C50); C and C++ refuse
`const int32 = -2147483648`, printed as an expression of 64 bits (C75).  Python: wrong precedence
when decoding some unaligned fields, exceptions for unknown enum numbers and non-UTF-8 strings (C21, C51).  Kotlin:
narrow big-endian constants, direct dynamic structs (C22).  Compiler: enum value -1 replaced, duplicate values (C26);
sizes beyond 2^63 wrap, enums over 64 bits, struct arrays of the wrong width (C24); lower-case type names after
struct/enum crash (C43); OrderedMap's zero key (C30); name collisions (C42); -rmpath collisions (C41); Go import
paths (C31); normalisation not idempotent on lone carriage returns (C32); calc groups from the right (C37); negative
hexadecimal constants (C52); escaped apostrophes and other string literals, and imports between apostrophes, rejected (C57); absolute import
paths are not cleaned, so that one file can be compiled twice and clash with itself (C60); `**` and `?:` group to the left, `-2 ** b` differs from `-value ** b` (C59); "(--5)", "(notx)", "(-5 ** 2)" (C53);
floating-point constants lose all but six decimals in six targets, so that Go and JavaScript modules of one schema
disagree, small ones become 0, and inf and nan give "+Inf" and "NaN", which no target reads as a number (C65);
ESM and Kotlin have no code for structs defined inside others, Go mixes up packages that differ in dots and slashes (C69); missing
indirect imports in Java, C#, Kotlin and ESM, unused ones in Go, imports of files left out, names bound twice in ESM (C70); string constants are printed without escapes in seven targets, with the wrong ones in ESM (bell) and Kotlin (dollar) (C72).
