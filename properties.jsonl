{"id": "C01", "title": "Go target: encode then decode returns the same message", "statement": "For every supported struct and every field assignment that fits the declared widths, the generated Go EncodeTo writes bytes which the generated Go Decode accepts and turns back into exactly the same field values, consuming exactly the number of bytes EncodeTo reported.", "quantifier": "all struct schemas (nested, arrays, void, constants, dynamic) except those of findings C09 (direct dynamic-struct field) and C15 (constant that does not fit its field), all well-typed values, all destination buffers long enough (including dirty ones), all -unroll and -signext settings", "why_tests_cant": "The schema space (types x widths x alignments x byte orders x nesting) and the value space are infinite; e2e tests fix a handful of schemas.", "anchors": ["generator/target/golang/golang.go:generateEncodeNormalField", "generator/target/golang/golang.go:generateDecodeNormalField", "generator/target/golang/golang.go:generateEncodeImpl", "generator/target/golang/golang.go:generateDecodeImpl"]}
{"id": "C02", "title": "Go target: documented bit layout on the wire", "statement": "The bytes EncodeTo writes are exactly the concatenation, in declaration order, of each field's bits, bit k of the message being bit k%8 of byte k/8; a little-endian n-bit field puts value bit k at field bit k; a big-endian one puts value bit max(0,n-8(k/8+1))+k%8 there; strings are NUL-terminated and byte strings are prefixed by a base-128 length.", "quantifier": "all schemas, values, alignments (from%8), widths 1..64, both byte orders", "why_tests_cant": "Requires agreement at every (offset mod 8, width, order, value) combination and for every nesting.", "anchors": ["generator/target/golang/golang.go:generateEncodeImpl", "generator/target/golang/golang.go:generateEncodeNormalFieldImpl", "README.md", "e2e/spec"]}
{"id": "C03", "title": "Go target: encoding disturbs nothing but its own bits", "statement": "EncodeTo leaves every bit of the destination buffer that belongs to a void field, or lies beyond the reported size, exactly as it was, and never changes the buffer length.", "quantifier": "all schemas, values and prior buffer contents", "why_tests_cant": "Needs every prior buffer content for every schema.", "anchors": ["generator/target/golang/golang.go:generateEncodeImpl", "generator/target/golang/golang.go:generateEncodeVoidField"]}
{"id": "C04", "title": "Go target: EncodeSize is exact", "statement": "EncodeSize returns exactly the number of bytes EncodeTo reports, so Encode, which allocates EncodeSize bytes, never panics and never leaves unused trailing bytes.", "quantifier": "all schemas and values, including strings and byte strings of any length", "why_tests_cant": "Length-dependent (varint boundaries at every power of 128) and schema-dependent.", "anchors": ["generator/target/golang/golang.go:encoderTemplate (EncodeSize)"]}
{"id": "C05", "title": "Go target: DecodeSize recognises a complete message whatever follows it", "statement": "DecodeSize of an encoded message followed by arbitrary further bytes is exactly the message length.", "quantifier": "all schemas without a direct dynamic-struct field, all values, all trailing byte strings", "why_tests_cant": "Arbitrary trailing data and arbitrary schemas.", "anchors": ["generator/target/golang/golang.go:decoderSize", "generator/target/golang/golang.go:decoderSizeField"]}
{"id": "C06", "title": "Go target: DecodeSize on a truncated message asks for more, and not too much", "statement": "On every proper prefix of an encoded message DecodeSize returns a negative number -r with (prefix length) < r <= (message length), so a reader that keeps reading up to r bytes makes progress and never reads past the message.", "quantifier": "all schemas without a direct dynamic-struct field, all values, every truncation point", "why_tests_cant": "Every truncation point of every message.", "anchors": ["generator/target/golang/golang.go:decoderSize", "generator/target/golang/golang.go:decoderSizeField"]}
{"id": "C07", "title": "Go target: Decode never panics on untrusted input", "statement": "For every byte string whatsoever, Decode either returns -1 or succeeds; it never indexes or slices out of range.", "quantifier": "all schemas without a direct dynamic-struct field, all byte strings of any length", "why_tests_cant": "The adversarial input space is infinite; fuzzing samples it.", "anchors": ["generator/target/golang/golang.go:decoderFunc", "generator/target/golang/golang.go:decoderSizeField", "generator/target/golang/golang.go:fieldDecoderTemplate"]}
{"id": "C08", "title": "Go target: a successful Decode consumes exactly DecodeSize bytes of the input", "statement": "Whenever Decode succeeds, the number it returns equals DecodeSize of the same input and is at most the input length.", "quantifier": "all schemas without a direct dynamic-struct field, all byte strings", "why_tests_cant": "Adversarial inputs, every schema.", "anchors": ["generator/target/golang/golang.go:decoderFunc", "generator/target/golang/golang.go:decoderSize"]}
{"id": "C09", "title": "Go target: message with a struct-typed field of dynamic size", "statement": "For a struct with a directly nested (non-array) struct of dynamic size, Decode of a completely encoded message (with any bytes following it) returns exactly the encoded values and the encoded length, or -1; it never returns other values and never panics. If only fixed-size fields follow the nested struct at every level, Decode always succeeds, and DecodeSize reports the encoded length less the nested struct's bytes. (What one would like, and is false: that DecodeSize is the message length and Decode always succeeds for every such schema, and that Decode does not panic on truncated messages.)", "quantifier": "all schemas with direct dynamic-struct fields, all fitting values, all destination buffers, all -unroll and -signext settings on both sides", "why_tests_cant": "Must hold for every such schema, value and buffer content.", "anchors": ["generator/target/golang/golang.go:decoderSize"]}
{"id": "C10", "title": "-unroll never changes the wire or the decoded value", "statement": "For any two values of the -unroll option, EncodeTo produces the same bytes and, when bool array elements are one bit wide, Decode gives the same result on every input (for wider bool elements the two paths disagree on patterns other than 0 and 1).", "quantifier": "all schemas, values, inputs, and all pairs of -unroll settings", "why_tests_cant": "Each array length / threshold / width combination takes a different code path.", "anchors": ["generator/target/golang/golang.go:bbWriteFieldBits", "generator/target/golang/golang.go:bbReadFieldBits", "generator/target/golang/golang.go:generateEncodeNormalField", "generator/gen/gen_option.go"]}
{"id": "C11", "title": "-signext=shift and -signext=arith decode the same value", "statement": "The two sign-extension methods agree with each other and with the two's-complement reading of the low n bits, for every signed type and width.", "quantifier": "all n-bit patterns, 1<=n<=w, w in {8,16,32,64}", "why_tests_cant": "2^64 patterns per width.", "anchors": ["generator/target/golang/golang.go:signExtendShift", "generator/target/golang/golang.go:signExtendArith", "generator/target/golang/golang.go:decodeIntValueExpr"]}
{"id": "C12", "title": "Go bit helpers and unrolled statements agree", "statement": "bbWriteFieldBits/bbReadFieldBits have the same effect as the statements generated inline for the same bit range, and reading back what was written returns the value modulo 2^n.", "quantifier": "all buffers, offsets, widths 1..64, values and byte orders", "why_tests_cant": "Buffer contents x offsets x widths x values.", "anchors": ["generator/target/golang/golang.go:bbWriteFieldBits", "generator/target/golang/golang.go:bbReadFieldBits", "generator/target/golang/golang.go:generateEncodeImpl", "generator/target/golang/golang.go:generateDecodeImpl"]}
{"id": "C13", "title": "Byte-string length prefix", "statement": "The length prefix written for a byte string is a canonical base-128 varint: it is decoded back to the same length, its size is what EncodeSize accounts for, every byte but the last has the top bit set.", "quantifier": "all lengths below 2^63", "why_tests_cant": "All lengths; boundaries at 128^k.", "anchors": ["generator/target/golang/golang.go:encodeNormalFieldBytes", "generator/target/golang/golang.go:decodeNormalFieldBytes"]}
{"id": "C14", "title": "Constant fields", "statement": "Decode rejects (-1) every message in which the bits of a constant field differ from the constant (reduced to the field's width), and accepts every message whose bits are the layout of some value and of the constants, provided each constant reads back as itself (C15).", "quantifier": "all constants, widths, alignments, messages", "why_tests_cant": "All messages.", "anchors": ["generator/target/golang/golang.go:generateEncodeConstantField", "generator/target/golang/golang.go:generateDecodeConstantField"]}
{"id": "C15", "title": "Which constant fields round-trip", "statement": "An encoded message is accepted by the receiver exactly if every constant of the schema, at any depth, is one whose transmitted bits read back as the constant; that is: it fits the field (as a number of its type) if the field is little-endian or has its type's full width, and it fits the partial last byte (or is 0) if the field is big-endian and narrower. The compiler accepts other constants too (refuted: a constant too wide, a narrow big-endian one).", "quantifier": "all schemas whose generated Go compiles, all values, options, constants and widths", "why_tests_cant": "All declarations.", "anchors": ["generator/target/golang/golang.go:generateEncodeConstantField", "generator/target/golang/golang.go:generateDecodeConstantField", "compiler/proto_visitor.go:VisitFieldConstant"]}
{"id": "C16", "title": "Decode then encode reproduces the input", "statement": "If Decode accepts a byte string of a schema without bytes fields and with one-bit bools (strings, arrays and nested structs allowed), EncodeTo of the decoded value into a copy of that byte string changes nothing (non-void bits are a faithful image of the value).", "quantifier": "all such schemas, all inputs, any pair of generator option settings for the two sides", "why_tests_cant": "All inputs of all schemas.", "anchors": ["generator/target/golang/golang.go:generateDecodeImpl", "generator/target/golang/golang.go:generateEncodeImpl"]}
{"id": "C17", "title": "Out-of-range values are truncated, never bleed into neighbours", "statement": "Encoding a storable value wider than its field writes exactly its low n bits; no other field is affected, so decoding yields the value reduced modulo 2^n.", "quantifier": "all schemas, all storable values", "why_tests_cant": "All values of all schemas.", "anchors": ["generator/target/golang/golang.go:generateEncodeImpl"]}
{"id": "C18", "title": "C-family targets: encoded bits match the documented layout", "statement": "The encoder generated for C, C++, C#, Java and JavaScript (CommonJS and ES modules) writes exactly the documented bits (hence the same as the Go target) into a zeroed message area at any position, and nothing else, provided that no field straddles a byte boundary ending further into its last byte than it started in its first; a field that does loses a bit (refuted for those), and JavaScript enums must have at most 32 bits, Java array loops must not be in nested structs.", "quantifier": "all schemas, all values, all positions, both array encodings (loops and unrolled), all options", "why_tests_cant": "Every (offset, width, order, value) at every nesting.", "anchors": ["generator/target/c/c.go:generateEncodeImpl", "generator/target/c/c.go:bb_write_field_bits", "generator/target/csharp/csharp.go", "generator/target/java/java.go", "generator/target/commonjs/commonjs.go", "generator/target/esm/esm_encode.go"]}
{"id": "C19", "title": "C-family targets: decoder reads the documented layout", "statement": "The decoders generated for C, C++, C#, Java and JavaScript read from any buffer the value the documented layout assigns to each field's bits, the same as the Go target, on every message that fits what their types can hold; exceptions (JavaScript 32-bit unsigned numbers, C constants, narrow floats, byte-string lengths from 2^31, C on truncated data) are refuted by witnesses.", "quantifier": "all buffers, schemas, values, positions and options", "why_tests_cant": "Every buffer and layout.", "anchors": ["generator/target/c/c.go:generateDecodeImpl", "generator/target/c/c.go:bb_read_field_bits", "generator/target/csharp/csharp.go", "generator/target/java/java.go", "generator/target/commonjs/commonjs.go"]}
{"id": "C20", "title": "C-family targets: encoding into a dirty buffer", "statement": "The bytes of the message the C-family encoders write do not depend on the previous contents of the buffer (padding becomes zero, everything outside the message is kept), provided that no padding starts a byte or crosses into another one and array loops cover whole bytes or stay inside one; otherwise old data shows through (refuted). Python, Kotlin and Go never have the problem.", "quantifier": "all prior contents, schemas, values, positions", "why_tests_cant": "Every prior content.", "anchors": ["generator/target/c/c.go:generateEncodeImpl", "generator/target/c/c.go:bb_write_field_bits"]}
{"id": "C21", "title": "Python target bit codec", "statement": "The generated Python encode writes the documented layout for every schema, into any buffer; decode reads it back when every inline number field is byte-aligned, at most 8 bits wide, or little-endian within two bytes, every enum value is declared and every string is UTF-8. This is exact: a number field of any other kind misreads some value, whatever the rest of the message holds; undeclared enum values and other strings raise.", "quantifier": "all buffers, offsets, widths, values, orders", "why_tests_cant": "Every buffer, layout and value.", "anchors": ["generator/target/python/python.go:generateEncodeImpl", "generator/target/python/python.go:generateDecodeImpl", "generator/target/python/python.go:_bb_write_field_bits"]}
{"id": "C22", "title": "Kotlin target bit codec", "statement": "The generated Kotlin encode and decode write and read the documented layout, as do the run-time helpers bbWriteFieldBits/bbReadFieldBits at every position and width; big-endian constants narrower than their type are the exception (refuted).", "quantifier": "all buffers, offsets, widths, values, orders", "why_tests_cant": "Every buffer, layout and value.", "anchors": ["generator/target/kotlin/kotlin.go:bbWriteFieldBits", "generator/target/kotlin/kotlin.go:bbReadFieldBits", "generator/target/kotlin/kotlin_encode.go", "generator/target/kotlin/kotlin_decode.go"]}
{"id": "C23", "title": "Accepted structs are byte-sized and byte-aligned where the generators need it", "statement": "Every struct the compiler accepts has at least one field and a fixed part that is a whole number of bytes, equal to its declared size if one is given (and then without variable-size fields), and each string, bytes or struct field (or array of those) starts on a byte boundary; conversely a body accepted field by field is rejected only if one of these fails. Hence every accepted struct meets the hypotheses of the Go theorems, up to two things the compiler does not check (enums wider than 64 bits, arrays of structs declared too narrow).", "quantifier": "all struct definitions whose total size in bits is below 2^63, all environments of accepted types, all files", "why_tests_cant": "All struct definitions, at any nesting depth and with any mixture of embedded structs.", "anchors": ["compiler/proto_visitor.go:VisitStructDef", "compiler/proto_visitor.go:VisitProto", "definition/struct.go:SumFieldBitSize", "definition/struct.go:ForEachField"]}
{"id": "C24", "title": "Field widths are consistent with types", "statement": "Every accepted normal field has a width that is positive and at most its type's width (a multiple of the element count for arrays, exactly the struct width for structs) or is dynamic exactly when its type is dynamic. Refuted beyond int64: a size whose bit count exceeds 2^63 wraps around and gives fields of negative width.", "quantifier": "all field declarations; total sizes below 2^63 bits", "why_tests_cant": "All declarations.", "anchors": ["compiler/proto_visitor.go:VisitFieldNormal", "compiler/proto_visitor.go:VisitSize_", "compiler/proto_visitor.go:VisitFieldConstant"]}
{"id": "C25", "title": "A struct is what its definition says; names are unique, embedded structs included", "statement": "In an accepted struct no two named fields or methods share a name; every body element contributes, in order, one field with the declared name, type, array length, width, byte order, methods or constant value, and embedding contributes exactly the fields of the embedded struct, in order.", "quantifier": "all struct bodies", "why_tests_cant": "All struct bodies.", "anchors": ["compiler/proto_visitor.go:VisitStructBody", "compiler/proto_visitor.go:VisitFieldEmbedded", "compiler/proto_visitor.go:VisitFieldConstant"]}
{"id": "C26", "title": "Enum values", "statement": "The members of an accepted enum keep their order and have distinct capitalised names; a member with an explicit value (other than -1) has that value, one without has its predecessor's plus one, the first one 0. Refuted: an explicit -1 is silently replaced, two members may share a value, and a value need not fit the declared width.", "quantifier": "all enum definitions", "why_tests_cant": "All bodies.", "anchors": ["compiler/proto_visitor.go:VisitEnumBody", "compiler/proto_visitor.go:VisitEnumValue"]}
{"id": "C27", "title": "Imports: termination and cycle detection", "statement": "Compilation terminates on every import graph, including cyclic ones; an accepted compilation has an acyclic import graph and every cycle reachable from the root is rejected.", "quantifier": "all finite import graphs", "why_tests_cant": "All graphs.", "anchors": ["compiler/compilation_runtime.go:compile", "compiler/compilation_runtime.go:precheckFilePath"]}
{"id": "C28", "title": "Imports: each file compiled once, dependencies first", "statement": "In an accepted compilation each reachable file is compiled exactly once (diamonds included) and appears after everything it imports; its result is what the file means on its own (independent of root, order and history), its import lists are exactly the direct and transitive imports, and a compilation is accepted exactly if every reachable file is acceptable on its own and packages are distinct.", "quantifier": "all finite import graphs", "why_tests_cant": "All graphs.", "anchors": ["compiler/compilation_runtime.go:compile"]}
{"id": "C29", "title": "Packages are unique", "statement": "No two files of an accepted compilation declare the same package.", "quantifier": "all sets of files", "why_tests_cant": "All sets.", "anchors": ["compiler/compilation_runtime.go:compile"]}
{"id": "C30", "title": "OrderedMap is a map that remembers insertion order", "statement": "Every sequence of Put/PutAnonymous/Remove/Clear leaves Get/Has/Rank/Keys/Values/Index consistent with a simple association-list model.", "quantifier": "all operation histories", "why_tests_cant": "All histories.", "anchors": ["util/ordered_map.go"]}
{"id": "C31", "title": "Relative package paths resolve", "statement": "The relative path generated from one package to another, resolved against the first package's directory, is the path the second package is written to (C, C++, JavaScript, Python). For the Go target, which writes each package one directory deeper, it never is.", "quantifier": "all pairs of packages", "why_tests_cant": "All pairs.", "anchors": ["definition/package.go:ToRelativePath", "definition/package.go:Difference"]}
{"id": "C32", "title": "Output normalisation is idempotent and safe", "statement": "Normalising generated text twice equals normalising it once (when every carriage return in it is followed by a line feed; false otherwise); the result has no tabs, no trailing blanks, at most two consecutive blank lines and one final newline, no visible character is lost or moved, and each line is kept with tabs expanded and trailing blanks cut, after at most two of the blank lines before it.", "quantifier": "all texts", "why_tests_cant": "All texts.", "anchors": ["generator/gen/gen_ctx.go:normalizeGeneratedIndent"]}
{"id": "C33", "title": "HighBit rounds up to a power of two", "statement": "util.HighBit(v) is the least power of two that is >= v, for every v from 1 to 2^62.", "quantifier": "all v", "why_tests_cant": "2^62 values.", "anchors": ["util/bitwise.go:HighBit"]}
{"id": "C34", "title": "Size strings are unambiguous", "statement": "Two different non-negative bit sizes are never printed the same.", "quantifier": "all pairs of sizes", "why_tests_cant": "All pairs.", "anchors": ["util/size.go:ToSizeString"]}
{"id": "C35", "title": "Duplicate detection of type names across imports", "statement": "A name defined in two different places never ends up visible in one compilation unit: adding the second definition is an error; importing the same file along two paths is not.", "quantifier": "all import/definition histories", "why_tests_cant": "All histories.", "anchors": ["definition/compilation_unit.go:AddLocalType", "definition/compilation_unit.go:AddImport"]}
{"id": "C36", "title": "Case conversion is stable", "statement": "Applying the same identifier case conversion twice equals applying it once (snake_case: every name; camelCase: names that start with a letter; PascalCase: results with a lower-case letter; ALLCAP: results with no letter after a digit; outside these conditions it is false, with counterexamples).", "quantifier": "all identifiers, dotted or not", "why_tests_cant": "All identifiers.", "anchors": ["util/name_style.go"]}
{"id": "C37", "title": "Template arithmetic", "statement": "The calc template function returns the usual int64 value of every binary operation (and panics exactly on division by zero and negative shifts); a parenthesised expression of any depth has the value of its tree; a chain of operators of one level is grouped from the right, which is not the usual value for - and /.", "quantifier": "all expressions", "why_tests_cant": "All expressions.", "anchors": ["util/calc.go:Calculate"]}
{"id": "C38", "title": "Option parsing", "statement": "The -rmpath / -signext / -unroll options accept exactly the documented values.", "quantifier": "all option strings", "why_tests_cant": "All strings.", "anchors": ["generator/gen/gen_option.go", "main.go"]}
{"id": "C39", "title": "Go target: messages can be concatenated", "statement": "Decoding a concatenation of encoded messages one after the other, advancing by the number Decode returns, yields exactly the original sequence of messages and leaves exactly the bytes that follow.", "quantifier": "all schemas supported by C01, all sequences of messages of any length, all trailing bytes", "why_tests_cant": "All sequences.", "anchors": ["generator/target/golang/golang.go:decoderFunc", "generator/target/golang/golang.go:generateEncodeNormalField"]}
{"id": "C40", "title": "Go target: a reader that follows DecodeSize hints terminates with exactly one message", "statement": "A stream reader that starts with no bytes and, whenever DecodeSize returns -r, waits until it has r bytes, stops after finitely many rounds holding exactly the first message, never a byte more.", "quantifier": "all schemas without a direct dynamic-struct field, all values, all following data", "why_tests_cant": "A liveness property over every message and every intermediate state.", "anchors": ["generator/target/golang/golang.go:decoderSize", "generator/target/golang/golang.go:decoderSizeField"]}
{"id": "C41", "title": "Different packages are written to different files", "statement": "Without -rmpath two packages never share an output file; -rmpath removes from a file name exactly the first listed entry that is a prefix of it and the slashes that follow, so with it two packages can share a file, because the prefix is matched character by character.", "quantifier": "all pairs of packages, all -rmpath lists", "why_tests_cant": "All pairs.", "anchors": ["definition/package.go:ToFilePath", "generator/gen/gen_ctx.go:WriteFile"]}
{"id": "C42", "title": "Different names give different target identifiers", "statement": "Two different names in canonical snake_case never get the same PascalCase identifier; in general two accepted field names can.", "quantifier": "all pairs of names", "why_tests_cant": "All pairs.", "anchors": ["util/name_style.go:ToPascalCase"]}
{"id": "C43", "title": "The compiler does not crash", "statement": "Whatever the sizes, names, options, constants, types, array lengths and nesting in a file, checking it ends with acceptance or an error, never a crash, provided that references written with the keywords struct and enum use capitalised names. Refuted without that proviso.", "quantifier": "all parse trees, all environments", "why_tests_cant": "All inputs.", "anchors": ["compiler/proto_visitor.go:VisitProto", "compiler/proto_visitor.go:VisitStructType", "compiler/proto_visitor.go:VisitEnumType"]}
{"id": "C44", "title": "Field options", "statement": "The options of a field are accepted exactly if none is repeated, the byte order is one of big and little, and integers fit an int64; a field is big endian exactly if order = big is among them. A file's head is accepted exactly if it has one package statement, no option twice, string package/namespace options, a boolean omit_empty and integers that fit an int64.", "quantifier": "all option lists", "why_tests_cant": "All lists.", "anchors": ["compiler/proto_visitor.go:VisitFieldOptions", "compiler/option_validator.go", "generator/gen/gen_util.go:MatchOption"]}
{"id": "C45", "title": "Custom getters and setters", "statement": "The methods of a field are accepted exactly if each has a lower-case name and no two of one name are both getters, both setters, or of different types; they add each name once to the names of the struct.", "quantifier": "all method lists", "why_tests_cant": "All lists.", "anchors": ["compiler/proto_visitor.go:VisitFieldMethods", "compiler/proto_visitor.go:VisitFieldMethod"]}
{"id": "C46", "title": "From source files to messages", "statement": "Every struct visible in an accepted compilation (any import graph), within the documented limits, is one whose messages survive encoding and decoding by the generated Go code.", "quantifier": "all sets of source files, all structs in them, all values, buffers and generator options", "why_tests_cant": "Composition of all schemas with all import graphs.", "anchors": ["compiler/compilation_runtime.go:compile", "compiler/proto_visitor.go:VisitProto", "generator/target/golang/golang.go:generateEncodeImpl"]}
{"id": "C47", "title": "Any target reads what any target wrote", "statement": "A message encoded by the code generated for any target (Go, C, C++, C#, Java, JavaScript, Python, Kotlin; with any options) is decoded by the code generated for any other target to the same values, consuming exactly the message even when other data follows, provided the schema and values are within what both targets support; for byte-aligned schemas with declared enum values and UTF-8 strings those limits are explicit and nearly empty. Two targets always produce the same bytes.", "quantifier": "all pairs of targets, all option settings, all schemas, all values, all trailing data", "why_tests_cant": "Nine targets squared times all schemas times all values.", "anchors": ["generator/target", "e2e"]}
{"id": "C48", "title": "JavaScript strings travel as UTF-8", "statement": "The UTF-8 encoder and decoder in the JavaScript runtime agree with UTF-8 for every string of Unicode scalar values: encoding yields the UTF-8 bytes and decoding them returns the string; lone surrogates are the exception (refuted).", "quantifier": "all strings", "why_tests_cant": "All strings.", "anchors": ["generator/target/commonjs/commonjs.go", "generator/target/esm"]}
{"id": "C49", "title": "Case conversions keep the name", "statement": "No identifier case conversion loses, adds or reorders a letter, digit or dot; snake_case results have no capital and ALLCAP_CASE results no small letter; a name of words joined by underscores becomes exactly the snake_case, ALLCAP_CASE, PascalCase or camelCase form of those words, leading and trailing underscores kept.", "quantifier": "all identifiers, dotted or not", "why_tests_cant": "All identifiers.", "anchors": ["util/name_style.go"]}
{"id": "C50", "title": "Every target's decodeSize reports how much is missing", "statement": "For a message written by any target, every target's decodeSize returns the length of the message (whatever follows it); when only the first m bytes have arrived, all targets return the same negative number -r with m < r <= length of the message and decode() fails (C/C++ decode() must be preceded by decode_size), so that a receiver that reads until decodeSize is satisfied reads exactly one message. C# is the exception for arrays of variable-size structs: its DecodeSize throws on truncated data.", "quantifier": "all pairs of targets and options, all schemas without a direct dynamic-struct field, all values, all cut points, all following data", "why_tests_cant": "Every truncation point of every message of every schema, for nine targets.", "anchors": ["generator/target/c/c.go", "generator/target/csharp/csharp.go", "generator/target/java/java.go", "generator/target/python/python.go", "generator/target/commonjs/commonjs.go"]}
{"id": "C51", "title": "Arbitrary bytes: every target accepts only what Go accepts, and never reads outside the data", "statement": "For arbitrary input bytes (schemas without byte strings): every target's decodeSize returns the same number; no target accepts input the Go target rejects; if it accepts, it consumes the same number of bytes; decode() never reads outside the data (C/C++ after decode_size); Python may raise only for unnamed enum numbers or non-UTF-8 strings. Input that Go accepts is accepted, with the same values, by every target whose variables can hold those values. JavaScript strings ending inside a multi-byte character, and C byte-string lengths near 2^64, break this (refuted).", "quantifier": "all byte sequences, all targets and options, all supported schemas", "why_tests_cant": "All byte strings, including hostile ones.", "anchors": ["generator/target/c/c.go", "generator/target/csharp/csharp.go", "generator/target/java/java.go", "generator/target/python/python.go", "generator/target/commonjs/commonjs.go", "generator/target/kotlin/kotlin.go"]}
{"id": "C52", "title": "Integer constants keep their value", "statement": "An integer constant written in a schema (decimal, octal or hexadecimal, with or without a minus sign, magnitude below 2^63) appears in the code generated for every target as a literal that the target language reads as the same number, with or without -decnum; larger magnitudes are rejected with an error; masks and sizes the generators print themselves read back as the same 64-bit value. Negative hexadecimal constants are the exception: they come out as 0x-5 (refuted).", "quantifier": "all integer tokens, both signs, nine targets, -decnum on and off", "why_tests_cant": "All numbers in all notations for nine targets; boundary values decide suffixes.", "anchors": ["compiler/literal_visitor.go:VisitConstant,VisitIntLit", "generator/gen/gen_dispatcher.go:FormatIntLiteral,MakeIntLit", "generator/target/java/java.go:GenerateIntLiteral", "generator/target/commonjs/commonjs.go:GenerateIntLiteral"]}
{"id": "C53", "title": "Custom getters and setters are printed as the schema states them", "statement": "The code generated for a custom getter or setter, whatever nesting of arithmetic, bitwise, comparison and logical operators, powers, casts and conditionals the schema uses, is read by the target language's own lexical and precedence rules as exactly the tree of operations the schema states: no operator binds differently, no two tokens run together, no operand is lost. Every target but Go prints every expression; Go refuses conditionals whose branches have no declared type. Three shapes are exceptions (refuted): the negation of a negative constant, Python's not before an operand without parentheses, and a power of a negative constant in Python and JavaScript.", "quantifier": "all expression trees, fields, value types, nine target languages, -decnum on and off", "why_tests_cant": "Unboundedly many expression trees; a precedence or token-merging error shows only for particular combinations of operators and operands.", "anchors": ["definition/expr.go:ExprUnary,ExprBinary,ExprTernary,ExprCast", "generator/target/golang/golang.go:GenerateExpr", "generator/target/c/c.go:GenerateExpr", "generator/target/python/python.go:GenerateExpr", "generator/target/kotlin/kotlin.go:GenerateExpr"]}
{"id": "C54", "title": "A schema text is cut into tokens by longest match", "statement": "Every schema text is accepted by the lexer exactly if it can be cut, from the left, into pieces each of which is the longest text any lexical rule of the grammar allows there (the rule listed first if two allow the same); the cut is unique, nothing of the text is lost, and the parser is given exactly the pieces that are not blanks or comments.", "quantifier": "all texts", "why_tests_cant": "All texts; rules overlap (numbers, names, keywords, operators, comments), and only particular neighbours reveal an error.", "anchors": ["bubbler.g4", "parser/bubbler_lexer.go", "compiler/compilation_runtime.go:getProtoAST"]}
{"id": "C55", "title": "Layout and comments do not change a schema", "statement": "However the tokens of a schema are written - any blanks, line ends, // comments and /* */ comments between them, or nothing at all where two tokens cannot run together - the same tokens reach the parser. A comment directly after a division sign is the exception (refuted).", "quantifier": "all lists of tokens, all ways to write them", "why_tests_cant": "Unboundedly many layouts of unboundedly many token lists.", "anchors": ["bubbler.g4:WS,LINE_COMMENT,COMMENT", "parser/bubbler_lexer.go"]}
{"id": "C56", "title": "Which words are names and numbers", "statement": "A word is usable as a name exactly if it consists of letters, digits and underscores, does not begin with a digit, and is none of 27 reserved words (among them get, set, value, inf, nan); a word is an integer literal exactly if it is a decimal, octal or hexadecimal numeral in the sense of C52.", "quantifier": "all words", "why_tests_cant": "All words; a keyword that is a prefix of a name, or a number that runs into a letter, only shows for particular words.", "anchors": ["bubbler.g4:IDENTIFIER,INT_LIT,KEYWORDS", "parser/bubbler_lexer.go"]}
{"id": "C57", "title": "String literals stand for what is written", "statement": "A string literal ends at the first quote of its kind that is not escaped; its value is the sequence of its characters with the escapes replaced by the bytes they name; every byte string can be written, between apostrophes or quotation marks. Exactly these literals of the grammar are rejected: a capital X in a hexadecimal escape, an octal escape above 255, an escaped apostrophe, and a plain quotation mark between apostrophes (refuted: a user cannot write 'it\\'s').", "quantifier": "all string literals, all byte strings", "why_tests_cant": "All strings and all combinations of escapes.", "anchors": ["bubbler.g4:STR_LIT", "compiler/literal_visitor.go:VisitStrLit"]}
{"id": "C58", "title": "A schema file is read as the one derivation of the grammar with its tokens", "statement": "A list of tokens is accepted exactly if the grammar of schema files derives it. The tree found for it has exactly these tokens in this order (nothing is dropped, added or reordered), its expressions are grouped by the grammar's precedence rules, and it is the only such tree; so every way to write a file, with any layout and comments, is read as that file.", "quantifier": "all lists of tokens, all files, all texts that write them", "why_tests_cant": "tests parse a few files; ambiguity, lookahead mistakes and dropped tokens show only on combinations of optional parts and nesting of unbounded depth", "anchors": ["bubbler.g4:proto, field, type_, structDef, enumDef, size_, fieldOptions, fieldMethod", "parser/bubbler_parser.go:Proto, Field, Type_, StructDef, EnumDef, Size_", "compiler/compilation_runtime.go:getProtoAST"]}
{"id": "C59", "title": "Expressions are grouped by precedence", "statement": "An expression is read as the tree that the order of the alternatives in the grammar says: operators of an earlier alternative bind stronger, operators of one alternative group to the left, prefix operators and casts take a power but no weaker operator, a sign before a number belongs to the number. Every expression of the grammar has exactly one such tree, and full parentheses give any tree. (Power and the conditional group to the left, unlike in mathematics, C, Java, Python and JavaScript; -2 ** b is (-2) ** b but -value ** b is -(value ** b).)", "quantifier": "all expressions and all operators, of any depth", "why_tests_cant": "precedence mistakes appear only for particular pairs of operators at particular places, and uniqueness is a statement about all trees", "anchors": ["bubbler.g4:expr, constant", "parser/bubbler_parser.go:expr"]}
{"id": "C60", "title": "An import names one file however it is spelt", "statement": "A relative import path is looked up from the directory of the importing file, and the first file from the working directory; . and .. and repeated slashes are resolved, so two relative imports give the same path exactly if they lead to the same place, and different places have different paths. (An absolute import path is used as it is written, so one file can be compiled twice and is then refused as a duplicate package.)", "quantifier": "all working directories, importing files and import texts, with any number of . and .. segments", "why_tests_cant": "sameness of paths is a statement about all pairs of spellings; a test tries a few", "anchors": ["fileio/path.go:GetAbsolutelyPathWithBasePath, GetFileIdentifer", "compiler/import_visitor.go:VisitImportStatement"]}
{"id": "C61", "title": "The layout of a schema does not matter, and definitions are where they are written", "statement": "If each file of two sets of schema files has the same tokens, white space and comments aside, both sets are accepted or both are rejected, and the compiled units are the same up to line and column numbers. Each definition's position is the file, line and column where its first token is written, and no two definitions share a position.", "quantifier": "all sets of schema texts, any imports between them, any layout", "why_tests_cant": "layout invariance compares all pairs of texts; unit tests compare a few, and positions decide whether two definitions count as one", "anchors": ["compiler/compilation_runtime.go:compile", "compiler/proto_visitor.go:VisitStructDef, VisitEnumDef, VisitEnumValue", "definition/position.go:Position"]}
{"id": "C62", "title": "The front end on raw files", "statement": "Whatever bytes the files contain, compiling ends with success or with an error and does not crash, provided names written after struct and enum are capitalised; a file is accepted only if it and all files it reaches are words of the grammar; and then no name is defined twice in the files it reaches, and each file sees exactly the types of itself and of the files it reaches.", "quantifier": "all finite sets of files with arbitrary contents", "why_tests_cant": "it ranges over all byte strings and all import graphs", "anchors": ["compiler/compiler.go:Compile", "compiler/compilation_runtime.go:compile", "compiler/proto_visitor.go:ProtoVisitor"]}
{"id": "C63", "title": "What the compiler sees is what the file says", "statement": "The grammar of schema files gives each phrase a meaning: numbers their values, names their texts, strings the characters they stand for, sizes bytes and bits, options, methods and fields in the order written, imports the place they lead to. A file is taken by the compiler for what its tokens say, and only for that: every meaning said is seen, nothing else is, and tokens have one meaning only (positions aside).", "quantifier": "all texts of schema files, nested to any depth", "why_tests_cant": "each kind of phrase can be swapped, dropped or misread in ways that only some schema shows", "anchors": ["bubbler.g4:all rules", "compiler/proto_visitor.go:Visit*", "compiler/literal_visitor.go:VisitConstant, VisitIntLit, VisitStrLit", "compiler/import_visitor.go:VisitImportStatement", "compiler/info_visitor.go:VisitPackageStatement, VisitOptionStatement"]}
{"id": "C64", "title": "Getter and setter expressions mean what the schema says", "statement": "Take any expression of a getter or setter as it is written in a schema, in any layout and with any comments. The text the generator puts into the target file, read by the target language's own rules of tokens and precedence, is an expression with the same structure: the same operators on the same operands in the same order, constants with the schema's values, casts to the schema's types, the field in place of 'value'. There is such a text for every expression handled, except that Go needs each conditional's type to be settled by its operands.", "quantifier": "all expressions of any size, all layouts, all eight targets", "why_tests_cant": "the interplay of two grammars' precedences over expressions of unbounded depth", "anchors": ["compiler/proto_visitor.go:ExprVisitor", "generator/target/golang/golang.go:GenerateExpr", "generator/target/c/c.go:GenerateExpr", "generator/target/python/python.go:GenerateExpr", "bubbler.g4:expr"]}
{"id": "C65", "title": "Floating-point constants keep their value", "statement": "A floating-point literal stands for the double nearest to the decimal fraction written (ties to even), and is rejected exactly if it is too large. The literal in the generated code, read the same way, is that double: always for JavaScript modules and Kotlin, which print the shortest digits that read back; for the other targets, which print six decimals, exactly if the constant is the double nearest to some multiple of a millionth (so in particular if written with at most six decimals).", "quantifier": "all literals of the lexer, however many digits and whatever exponent", "why_tests_cant": "there are 2^64 doubles and infinitely many literals; rounding errors show on few of them", "anchors": ["compiler/literal_visitor.go:VisitConstant", "generator/target/golang/golang.go:GenerateLiteral", "generator/target/esm/esm.go:GenerateLiteral", "generator/target/kotlin/kotlin.go:GenerateLiteral"]}
{"id": "C66", "title": "From schema texts to messages between any two languages", "statement": "Two programs are generated, in any two of the languages, from two copies of the same schema files that differ in white space and comments only. Every struct both know by name has one layout, both encoders produce the same bytes, those of the wire format, and each decodes what the other encodes to the same field values, whatever follows the message, within the limits stated for each language.", "quantifier": "all sets of schema texts the compiler accepts with sizes below 2^63, all formattings, all structs in them, all values that fit, all pairs of languages", "why_tests_cant": "it is a statement about pairs of programs for unboundedly many schemas", "anchors": ["compiler/compiler.go:Compile", "compiler/proto_visitor.go:ProtoVisitor", "generator/target/golang/golang.go:EncodeTo, Decode", "generator/target/python/python.go:encode, decode"]}
{"id": "C67", "title": "The text of the generated Go statements does the bit packing", "statement": "Take a struct of numbers, bools, floats, enums, constants and padding, and arrays of them that are written out element by element. The statements printed into EncodeTo and Decode, read by the rules of Go (tokens, precedence, types of constants, conversions, shifts, overflow, index panics, pointer casts), put exactly the bits of the wire layout into data and leave the struct's fields alone, and put the values back into the fields or return -1 for a wrong constant; for every setting of -signext, -decnum, -unroll and every base of the literals.", "quantifier": "all such structs of any number of fields, all sizes and byte orders, all values, all buffers, all option settings", "why_tests_cant": "the text is different for each field position, size and byte order; a missing parenthesis or conversion shows only for some of them", "anchors": ["generator/target/golang/golang.go:generateEncodeImpl, generateEncodeNormalFieldImpl, generateEncodeConstantField, generateDecodeImpl, generateDecodeNormalFieldImpl, generateDecodeConstantField"]}
{"id": "C68", "title": "The text of the generated Python statements: packing, unpacking, and what the missing parentheses do", "statement": "Take a struct of integers, bools, enums, constants and padding, and arrays of them that are written out element by element. The statements printed into encode, read by the rules of Python (tokens, precedence, unbounded integers, attributes, lists, Enum classes, bytes objects that refuse numbers outside 0..255), put exactly the bits of the wire layout into data and leave the attributes alone. The statements printed into decode have exactly one outcome, the one of the decoder's model: together the two texts give every value back if each field starts at a byte boundary, has at most 8 bits, or is little-endian within two bytes; and a field of any other kind is misread by the text for a certain value (the printed expression shifts only its last operand), whatever the rest of the message holds.", "quantifier": "all such structs of any number of fields, all sizes and byte orders, all values, all buffers, all settings of -decnum and -unroll, all bases of the literals", "why_tests_cant": "the text is different for each field position, size and byte order; a missing parenthesis shows only for some of them and only for some values", "anchors": ["generator/target/python/python.go:generateEncodeImpl, generateEncodeNormalFieldImpl, generateEncodeConstantField, generateDecodeImpl, generateDecodeNormalFieldImpl, generateDecodeConstantField"]}
{"id": "C69", "title": "A run of a generator writes the code of every type once, in the right files", "statement": "Compile a set of schema files and run a generator without -single. For C, C++, C#, CommonJS, Python, Go and Java it succeeds and writes, for each source file in the order of compilation (files without definitions that set omit_empty are left out), exactly its files, named after the package (go_package and java_package replace it; Java has a file per type), and in them the code of exactly the types the source file defines, structs defined inside others included: none missing, none twice, none of another file. A struct's code comes after the code of all types its fields have. No two files of the run have the same path. With -single the same types are in one file. If two source files ask for the same Go or Java package the run stops with an error at the second, after the files of the ones before it. Refuted: ESM and Kotlin write no code for structs defined inside others; Go notices neither that \"x//y\" and \"x/y\" are one directory (a file is overwritten) nor that \"x.com/y\" and \"x/com/y\" are two (refused).", "quantifier": "all sets of schema files that compile, all import graphs, all nestings of definitions, all targets, all output directories", "why_tests_cant": "the set of files and their contents depends on the whole import graph and on what earlier units generated; tests fix a few schemas", "anchors": ["generator/gen/gen_dispatcher.go:AcceptGenCtx", "generator/gen/gen_ctx.go:WritePackage, WriteFile", "generator/target/golang/golang.go:Generate, GenerateUnit, GenerateStruct, GenerateEnum", "generator/target/java/java.go:GenerateUnit", "generator/target/kotlin/kotlin.go:GenerateUnit", "generator/target/esm/esm.go:GenerateUnit"]}
{"id": "C70", "title": "The files a run writes import what they refer to", "statement": "When no source file that is left out is imported, every C, C++, Python and CommonJS file can see the type of each field of each struct it has the code of: it, or a written file it imports directly or through others, declares it. For all targets the same holds, without going through others, for types of the file itself and of the files its source file imports, and for Go for all. What is imported is only the code of source files that the source file imports (for Go: of those met when following the fields). Refuted: Java, C#, Kotlin and ESM do not import the code of files imported indirectly, whose types the schema may use; Go imports packages it has no use for, which Go refuses; a file left out for omit_empty is imported all the same; an ESM file that imports two packages with the same last name binds it twice.", "quantifier": "all sets of schema files that compile, all import graphs, all targets", "why_tests_cant": "whether a name is visible depends on the whole import graph", "anchors": ["generator/target/golang/golang.go:resolveImports", "generator/target/kotlin/kotlin.go:GenerateUnit", "generator/target/java/java.go:fileTemplate", "generator/target/esm/esm.go:fileTemplate", "generator/target/c/c.go:fileTemplate", "generator/target/python/python.go:fileTemplate"]}
{"id": "C71", "title": "Indenting a block moves its lines and nothing else", "statement": "The generators nest blocks by indenting finished text. Indenting by n keeps the number of lines and moves each by n tabs or spaces (an empty line may stay empty; the last line loses blanks at its end), so whoever goes by indentation, as Python does, sees the same lines each n deeper; a body indented under a header is nested under it, and indenting twice is indenting by the sum. The variant that leaves the first line alone moves all the others; Kotlin's own function does the same. Refuted for a text whose last line ends in blanks that matter.", "quantifier": "all texts of any number of lines, all depths", "why_tests_cant": "the replacement of blank lines overlaps itself; only some sequences of blank lines show it", "anchors": ["util/indent.go:IndentTab, IndentSpace, IndentSpaceNoFirst", "generator/target/kotlin/kotlin.go:indentKotlin"]}
{"id": "C72", "title": "String constants in generated code", "statement": "A string constant of printable ASCII characters and tabs without quotation marks and backslashes is, read as a string literal of the target language, the schema's string in Go, C, C++, C#, Java, Python and CommonJS; in ESM this holds for every ASCII string without the bell character, in Kotlin for printable characters, tab, backspace and line ends without a template. Except for Python, no other string arrives in the first six: with a quotation mark, a backslash or a line end the constant changes or the code does not compile (refuted).", "quantifier": "all ASCII strings of any length, all nine generators", "why_tests_cant": "escapes combine; there are infinitely many strings", "anchors": ["generator/target/golang/golang.go:GenerateStringLiteral", "generator/target/esm/esm_decode.go:GenerateStringLiteral", "generator/target/kotlin/kotlin.go:literalForType", "generator/target/python/python.go:GenerateStringLiteral", "generator/target/java/java.go:GenerateStringLiteral", "generator/target/csharp/csharp.go:GenerateStringLiteral", "generator/target/c/c.go:GenerateStringLiteral", "generator/target/cpp/cpp.go:GenerateStringLiteral", "generator/target/commonjs/commonjs.go:GenerateStringLiteral"]}
{"id": "C73", "title": "The command line does what it says or writes nothing", "statement": "Options may be given in any number and order, with one or two dashes, their values after a space or an equals sign; all are carried out, later ones override earlier ones, and nothing else is accepted. The target names are those the README lists. The exit status is zero exactly if the command had nothing to do (no arguments, -help) or there was exactly one input file, the target and option values are valid, the schema compiles and every file was generated, in which case exactly the files of C69 are written below the -o directory. With any other status nothing is written, except by the Go and Java generators when two schema files ask for the same package. Options after the input file make the run fail.", "quantifier": "all argument lists, all schema files, all targets", "why_tests_cant": "the argument lists are unbounded sequences", "anchors": ["main.go:main", "generator/generator.go:GetGenerator, ListGenerators, TargetMap", "generator/gen/gen_option.go:SignExtMethod, LoopUnroll, RemovePath", "generator/gen/gen_ctx.go:WriteFile"]}
{"id": "C74", "title": "The text of the generated C statements: packing, and the bit it loses", "statement": "The C text that encode consists of for fields at fixed positions (array and member access, shifts and masks, pointers to unsigned integers, temporaries for enums) is read in one way, computes what the wire layout says into cleared memory whatever integer types the compiler gives the enums, has no undefined behaviour there, leaves the struct as it was, and is decoded by every other target; a field that crosses a byte boundary and ends in its last byte after the bit position it starts at always loses that bit.", "quantifier": "all schemas of fixed-size fields without floats, all values the types hold, all buffers, positions below 2^63 bits, both values of -decnum", "why_tests_cant": "widths, positions, values and surrounding bytes are unbounded, and compilers differ in the type of an enum", "anchors": ["generator/target/c/c.go:generateEncodeImpl, generateEncodeNormalFieldImpl, generateEncodeConstantField, generateEncodeNormalField, encodeImpl, encodeNormalFieldCast", "generator/target/c/c.go:GenerateBinopExpr, generateBin, generateHex, generateDec"]}
{"id": "C75", "title": "The text of the generated C statements: unpacking, and the constants it refuses", "statement": "The C text that decode consists of for fields at fixed positions (array and member access, shifts and masks, sign extension by shifting or by arithmetic, pointers to unsigned integers, temporaries for enums and constants) is read in one way and stores in the struct what decode computes, returns -1 exactly where decode fails, is undefined where decode reads past the end of the message, and leaves the message, the other members and the other variables as they were; it reads back what any target's encoder, and the generated C packing text, wrote. A negative constant of at most 16 bits, and the least constant of 32 bits, is refused in every message, and a constant of a signed type in fewer bytes than the type is written outside its temporary.", "quantifier": "all schemas of fixed-size fields without floats, all messages, also too short ones, all prior contents of the struct, positions below 2^63 bits, both sign extensions, both values of -decnum", "why_tests_cant": "widths, positions, values and constants are unbounded, and compilers differ in the type of an enum", "anchors": ["generator/target/c/c.go:generateDecodeImpl, generateDecodeNormalFieldImpl, generateDecodeConstantField, generateDecodeNormalField, decodeData, signExtendShift, signExtendArith, decodeNormalFieldCast", "generator/target/c/c.go:GenerateBinopExpr, GenerateCastExpr, GenerateIntLiteral, GenerateBoolLiteral, generateBin, generateHex, generateDec"]}
{"id": "C76", "title": "Enum numbers without a name are not sent on by Java and Kotlin", "statement": "Whatever the schema and the bytes, an enum value that decoding yields anywhere in the message, in nested structs and arrays, is one the enum names, or null (Java, Kotlin), undefined (JavaScript) or, in Python, an exception. Java and Kotlin never encode a value with a null enum anywhere in it. So a message they decode and encode again has named enum values only.", "quantifier": "all schemas, all bytes, all values, all option settings", "why_tests_cant": "the null can be at any depth, in any kind of field", "anchors": ["generator/target/java/java.go:enumTemplate (getNumber, forNumber)", "generator/target/kotlin/kotlin_encode.go:encodeNormalField", "generator/target/kotlin/kotlin.go:fromNumber", "generator/target/python/python.go:decode of enums"]}
