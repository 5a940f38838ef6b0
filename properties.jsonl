{"id": "C01", "title": "Required-only streams still receive the whole value", "statement": "If a Stream implements only the required methods (null, bool, text, i64, f64, seq) and a well-formed value of the data model is streamed into it, the calls it receives are exactly the well-formed call sequence of the documented simplification of that value: maps and records become sequences of 2-element sequences [key, value], tuples become sequences, binary becomes a sequence of integers, integers keep their numeric value, tags become their label text or null, tagged/enum wrappers are transparent.", "quantifier": "every finite value tree of the data model, any nesting, any labels, tags, indexes, fragmentations", "why_tests_cant": "The set of values is infinite and recursively nested; a test samples a few shapes.", "anchors": ["src/stream.rs:1122-1609 default_stream", "src/stream.rs:6-454 trait Stream"]}
{"id": "C02", "title": "Overriding any subset of optional methods never changes what is received", "statement": "For any set of optional Stream methods an implementor chooses to override, completing the remaining defaults later yields the same required calls as using the defaults throughout: the meaning of the received calls does not depend on which optional methods are overridden, and the default methods never recurse forever.", "quantifier": "every subset of overridden methods, every event sequence", "why_tests_cant": "There are 2^30 subsets of overridable methods and unboundedly many inputs.", "anchors": ["src/stream.rs default_stream", "src/stream.rs Stream"]}
{"id": "C03", "title": "Default integer widening is exact", "statement": "Streaming an integer of any width into a stream that does not override that width delivers the mathematically equal integer: as i64 when it fits, otherwise as text tagged NUMBER whose characters are the exact decimal numeral of the value and match the documented NUMBER grammar.", "quantifier": "every integer of every width u8..u128, i8..i128", "why_tests_cant": "2^128 values per width.", "anchors": ["src/stream.rs:1205-1276", "src/data/number.rs", "src/tags.rs:44 NUMBER"]}
{"id": "C04", "title": "value_computed only weakens borrows", "statement": "Streaming a value through value_computed (or the Computed wrapper) delivers exactly the same calls as value, except that every borrowed text or binary fragment arrives as a computed fragment with the same contents, however deeply value/value_computed calls are nested inside it; no borrowed fragment reaches the receiver.", "quantifier": "every value, every nesting of value/value_computed", "why_tests_cant": "Nesting depth and shapes are unbounded.", "anchors": ["src/stream.rs:786-1120 Computed", "src/stream.rs:1132-1150"]}
{"id": "C05", "title": "Forwarding wrappers are transparent", "statement": "Streaming any value through &mut S, Box<S>, a Computed-free reference chain or sval_dynamic's object-safe wrapper produces exactly the same calls, in the same order with the same arguments, and the same result as streaming it directly to S.", "quantifier": "every call sequence, every stack of wrappers, every underlying stream behaviour including failures", "why_tests_cant": "Each of ~40 methods must forward to its own counterpart with the same arguments under any stack of wrappers.", "anchors": ["src/stream.rs:456-781 impl_stream_forward", "dynamic/src/stream.rs", "dynamic/src/value.rs"]}
{"id": "C06", "title": "Integer extraction never lies", "statement": "If to_i8..to_i128/to_u8..to_u128 on a value returns Some(n) then the value did not fail, it streamed nothing but integers and transparent wrappers, n is one of the integers it streamed and n fits the requested type. For a well-formed value the result is exactly the integer inside its wrappers, for the source widths the conversion can see (every unsigned width for unsigned targets, i128 for signed targets).", "quantifier": "every value behaviour (any call sequence, including failing ones), every integer", "why_tests_cant": "The set of values is infinite and recursively nested; a test samples a few shapes.", "anchors": ["src/value.rs:567-742"]}
{"id": "C07", "title": "Integer extraction is complete across widths", "statement": "to_<int>() returns Some(n) for every integer value n representable in the requested type, whatever integer width the value streams.", "quantifier": "every integer n, every pair of widths", "why_tests_cant": "2^128 values by 100 width pairs; tests pick a few.", "anchors": ["src/value.rs:567-742", "src/data/number.rs"]}
{"id": "C08", "title": "Text and binary extraction only borrows what was streamed", "statement": "to_text/to_binary returns Some(s) exactly when the value does not fail and all it streams (besides transparent wrappers) is one text (binary) made of the single borrowed fragment s, a tag counting as its static label; computed fragments, several fragments, other kinds of values and failing values give None.", "quantifier": "every value behaviour, every fragmentation", "why_tests_cant": "The set of values is infinite and recursively nested; a test samples a few shapes.", "anchors": ["src/value.rs:747-912"]}
{"id": "C09", "title": "Boolean, float and tag extraction are exact", "statement": "to_bool, to_f64 and to_f32 return Some exactly for values whose stream is that one primitive inside transparent wrappers (an f32 also converts to f64), and the result is that primitive; tag returns the tag carried by the outermost call (NUMBER for numbers) for every value behaviour, even one that fails later.", "quantifier": "every value behaviour", "why_tests_cant": "The set of values is infinite and recursively nested; a test samples a few shapes.", "anchors": ["src/value.rs:269-565"]}
{"id": "C10", "title": "Labels and indexes compare by content only", "statement": "Two labels are equal exactly when their texts are equal, whatever their kind (static, computed, owned) and tag; equal labels, and the str a label borrows as, feed a hasher the same data. Two indexes are equal exactly when their numbers are; index ordering is total, transitive and agrees with equality and with the numbers; equal indexes hash equally.", "quantifier": "all labels and indexes", "why_tests_cant": "Infinite domains; tests compare a few pairs.", "anchors": ["src/data.rs Label/Index PartialEq, Ord, Hash"]}
{"id": "C11", "title": "Index conversions are exact", "statement": "Index::to_X returns Some(n) exactly when the index's value fits X, with n equal to the value, and building an index from an X and reading it back gives the same number.", "quantifier": "every index value, every target type", "why_tests_cant": "2^128 values.", "anchors": ["src/data.rs:358-477"]}
{"id": "C12", "title": "Owned copies of a label keep the label", "statement": "Cloning a label, making it owned, or trying to make it owned preserves its text, and everything else that can be read back from it, including its tag.", "quantifier": "every label (static, borrowed, computed; with or without tag)", "why_tests_cant": "Infinitely many labels.", "anchors": ["src/data.rs:569-598 Label::clone, to_owned"]}
{"id": "C13", "title": "Text and binary buffers hold exactly the concatenated fragments", "statement": "After any sequence of borrowed and computed fragments is pushed, a TextBuf/BinaryBuf reads back as their concatenation, is borrowed only when its content is a single borrowed fragment, and clearing makes it indistinguishable from a new one.", "quantifier": "every sequence of pushes and clears, any fragment contents", "why_tests_cant": "Histories are unbounded.", "anchors": ["buffer/src/fragments.rs"]}
{"id": "C14", "title": "TextBuf::collect never panics", "statement": "TextBuf::collect/BinaryBuf::collect on any value returns Ok with the concatenated text, or Err; it does not panic.", "quantifier": "every value behaviour including failing values", "why_tests_cant": "The set of values is infinite and recursively nested; a test samples a few shapes.", "anchors": ["buffer/src/fragments.rs:37-50,294-307"]}
{"id": "C15", "title": "Buffering a value and replaying it is lossless", "statement": "Streaming any well-formed value into a ValueBuf succeeds and streaming the buffer into any stream delivers the same calls with the same labels (text and label tag), tags, indexes, size hints and primitive values, with each text or binary delivered as one fragment holding the concatenation.", "quantifier": "every finite value tree, any nesting", "why_tests_cant": "The set of values is infinite and recursively nested; a test samples a few shapes.", "anchors": ["buffer/src/value.rs"]}
{"id": "C16", "title": "ValueBuf::is_complete tells exactly when a whole value is buffered", "statement": "While a well-formed value is streamed into an empty ValueBuf, is_complete is true after the last call and false after every proper prefix of the calls.", "quantifier": "every value tree and every cut point of its call sequence", "why_tests_cant": "Unboundedly many prefixes.", "anchors": ["buffer/src/value.rs:167"]}
{"id": "C17", "title": "Owning a buffered value changes nothing but borrows", "statement": "into_owned gives a buffer that replays the same calls as the original with every borrowed fragment turned into a computed one; collect_owned gives the same outcome as collect and, when it is a buffer, one that replays the same calls with no borrowed bytes.", "quantifier": "every history of calls, well-formed or not (into_owned); every value behaviour, failing ones included (collect_owned)", "why_tests_cant": "The set of values is infinite and recursively nested; a test samples a few shapes.", "anchors": ["buffer/src/value.rs:214,287"]}
{"id": "C18", "title": "A cleared ValueBuf is as good as new", "statement": "After clear, whatever was buffered before (complete, partial or failed), a ValueBuf behaves on every further call sequence exactly like a newly created one.", "quantifier": "every history before and after the clear", "why_tests_cant": "Histories are unbounded.", "anchors": ["buffer/src/value.rs:174"]}
{"id": "C19", "title": "ValueBuf never corrupts on mismatched calls", "statement": "For every call sequence whatsoever, well-formed or not and going on after failures, a ValueBuf's replay never reads out of bounds and delivers properly nested calls; a call panics exactly when it is a fragment and nothing is buffered.", "quantifier": "every finite call sequence", "why_tests_cant": "Call sequences are unbounded and adversarial.", "anchors": ["buffer/src/value.rs:925-1000,1148-1350"]}
{"id": "C20", "title": "JSON output is well-formed and denotes the value", "statement": "Streaming any well-formed value (text-like keys, no raw-text tags) to the JSON formatter succeeds and the bytes written are one RFC 8259 JSON text denoting the documented JSON image of the value.", "quantifier": "every finite value tree within the stated kinds, any nesting", "why_tests_cant": "The set of values is infinite and recursively nested; a test samples a few shapes.", "anchors": ["json/src/to_fmt.rs"]}
{"id": "C21", "title": "JSON strings round-trip", "statement": "For every text, the bytes written between the quotes decode under the JSON string grammar to exactly the original bytes, and contain no raw quote, backslash-run error or control character.", "quantifier": "every byte string", "why_tests_cant": "Infinite.", "anchors": ["json/src/to_fmt.rs:669-741 escape_str"]}
{"id": "C22", "title": "How a text is fragmented does not affect output", "statement": "The JSON and Debug-style output, and the buffered result, of a text depend only on the concatenation of its fragments, not on how it is cut or which fragments are borrowed.", "quantifier": "every text and every way of cutting it", "why_tests_cant": "Exponentially many cuts.", "anchors": ["json/src/to_fmt.rs", "fmt/src/writer.rs", "buffer/src/fragments.rs"]}
{"id": "C23", "title": "JSON numbers are exact", "statement": "Every integer of any width is written as its canonical decimal numeral (which parses back to the same integer); every NaN or infinite float is written as null; inside map keys numbers are quoted.", "quantifier": "every integer of every width, every float class", "why_tests_cant": "2^128 values.", "anchors": ["json/src/to_fmt.rs:150-260"]}
{"id": "C24", "title": "NUMBER-tagged text becomes a valid JSON number of the same value", "statement": "Any text matching the documented NUMBER grammar, in any fragmentation, is written as a valid JSON number with the same numeric value; any other text is written as null or a string but never breaks JSON.", "quantifier": "every text in the NUMBER grammar, every fragmentation", "why_tests_cant": "Infinite language and cuts.", "anchors": ["json/src/to_fmt.rs:551-662", "src/tags.rs:44"]}
{"id": "C25", "title": "JSON map keys are strings or the stream fails", "statement": "A map whose key is a text, number, boolean, null or unit variant is written with a string key; a key that is a sequence or map makes streaming fail with the invalid-key error rather than producing invalid JSON.", "quantifier": "every map and every key tree", "why_tests_cant": "The set of values is infinite and recursively nested; a test samples a few shapes.", "anchors": ["json/src/to_fmt.rs map_key_begin, seq_begin, map_begin"]}
{"id": "C26", "title": "JSON enums are externally tagged", "statement": "A unit variant is written as its label string, and a tuple, record or newtype variant as a one-entry object {\"Label\": content}; unlabelled variants contribute nothing; sibling and enclosing values are unaffected.", "quantifier": "every enum value, including enums nested inside variants, containers and map values", "why_tests_cant": "The set of values is infinite and recursively nested; a test samples a few shapes.", "anchors": ["json/src/to_fmt.rs:491-549", "json/src/to_fmt.rs enum_begin/enum_end"]}
{"id": "C27", "title": "JSON state does not leak between siblings", "statement": "What is written for one element of a container depends only on that element, not on which elements or keys were written before it.", "quantifier": "every container, every element, every prefix of siblings", "why_tests_cant": "The set of values is infinite and recursively nested; a test samples a few shapes.", "anchors": ["json/src/to_fmt.rs:37-62"]}
{"id": "C28", "title": "JSON to an io::Write writes everything or fails", "statement": "stream_to_io_write returns Ok only if the writer accepted every byte of the JSON text, in order, whatever short writes or interruptions it produces; on Err it accepted a prefix.", "quantifier": "every writer behaviour (short writes, Interrupted, errors, zero-length writes), every JSON text", "why_tests_cant": "Writer schedules are unbounded and adversarial.", "anchors": ["json/src/to_io.rs:17-37"]}
{"id": "C29", "title": "JSON output is valid UTF-8", "statement": "If every text streamed is valid UTF-8 then everything written is valid UTF-8, so the String returned is sound.", "quantifier": "every value and text", "why_tests_cant": "The set of values is infinite and recursively nested; a test samples a few shapes.", "anchors": ["json/src/to_fmt.rs", "json/src/to_string.rs"]}
{"id": "C30", "title": "Debug-style output has balanced delimiters", "statement": "For every well-formed value, the tokens written by sval_fmt outside text literals have properly nested parentheses, brackets and braces, and separators appear exactly between siblings.", "quantifier": "every finite value tree", "why_tests_cant": "The set of values is infinite and recursively nested; a test samples a few shapes.", "anchors": ["fmt/src/writer.rs"]}
{"id": "C31", "title": "fmt::stream_to_string never panics", "statement": "sval_fmt::stream_to_string returns a string for every value.", "quantifier": "every value behaviour including failing ones", "why_tests_cant": "The set of values is infinite and recursively nested; a test samples a few shapes.", "anchors": ["fmt/src/to_string.rs"]}
{"id": "C32", "title": "Flattening hoists exactly the immediate children", "statement": "Flattening a map, record, tuple, sequence (or enum variant holding one) into a record, tuple, record-tuple, map or sequence emits one field per child, in order, with the documented label or index, and the child's own calls unchanged between the field's begin and end; primitive roots contribute nothing.", "quantifier": "every finite value tree, every destination kind, every offset", "why_tests_cant": "The set of values is infinite and recursively nested; a test samples a few shapes.", "anchors": ["flatten/src/flattener.rs", "flatten/src/lib.rs"]}
{"id": "C33", "title": "Flattening allocates offsets without gaps", "statement": "Flattening a value whose fields carry no explicit indexes, starting at offset k, assigns the offsets k, k+1, ... in order and returns k plus the number of fields, so consecutive flattened fields never collide.", "quantifier": "every value, every offset, every sequence of flattened fields", "why_tests_cant": "Unbounded.", "anchors": ["flatten/src/index.rs", "derive_macros/src/stream/stream_record_tuple.rs"]}
{"id": "C34", "title": "Flattened keys become their text", "statement": "When a map is flattened into labelled fields, each field's label is the text of its key: the concatenation of the text of every primitive inside the key, as documented.", "quantifier": "every key tree", "why_tests_cant": "The set of values is infinite and recursively nested; a test samples a few shapes.", "anchors": ["flatten/src/label.rs", "flatten/src/lib.rs:1-50"]}
{"id": "C35", "title": "Recursive and flat views agree", "statement": "Streaming a well-formed value through sval_nested delivers a tree of recursive calls that mirrors the value: same kinds, children in order, labels, tags, indexes and primitives.", "quantifier": "every finite value tree", "why_tests_cant": "The set of values is infinite and recursively nested; a test samples a few shapes.", "anchors": ["nested/src/flat.rs", "nested/src/lib.rs"]}
{"id": "C36", "title": "sval_nested never panics on well-formed streams", "statement": "Streaming any well-formed value through sval_nested ends in Ok or Err, without panicking.", "quantifier": "every finite value tree", "why_tests_cant": "The set of values is infinite and recursively nested; a test samples a few shapes.", "anchors": ["nested/src/flat.rs", "nested/src/flat_enum.rs"]}
{"id": "C37", "title": "serde values survive the round trip through sval", "statement": "Serializing x as a sval value and back into a serde serializer drives the serializer with the same calls as serializing x directly.", "quantifier": "every value of the serde data model, any nesting", "why_tests_cant": "The set of values is infinite and recursively nested; a test samples a few shapes.", "anchors": ["serde/src/to_value.rs", "serde/src/to_serialize.rs"]}
{"id": "C38", "title": "Derived implementations stream well-formed values", "statement": "For every struct or enum definition accepted by the derive macro and every field values, the derived Value implementation makes a well-formed call sequence with one field call per non-skipped field, in declaration order, with matching begin/end arguments.", "quantifier": "every type definition (fields, attributes) and every field value", "why_tests_cant": "Unbounded family of types.", "anchors": ["derive_macros/src/stream/*.rs", "derive_macros/src/derive/*.rs"]}
{"id": "C39", "title": "Derived field indexes are distinct", "statement": "In a derived record-tuple or tuple without explicit indexes, implicit field indexes are 0,1,2,... and remain distinct when flattened fields are interleaved.", "quantifier": "every field list and every flattened content", "why_tests_cant": "Unbounded family of types.", "anchors": ["derive_macros/src/index.rs", "derive_macros/src/stream/stream_record_tuple.rs"]}
{"id": "C40", "title": "Standard library values stream well-formed calls", "statement": "The Value implementations for primitives, text, byte wrappers, options, unit, slices, arrays, tuples, maps and references stream well-formed call sequences of the documented shape with exact size hints.", "quantifier": "every nested combination of these types and contents", "why_tests_cant": "The set of values is infinite and recursively nested; a test samples a few shapes.", "anchors": ["src/data/*.rs", "ref/src/*.rs"]}
{"id": "C41", "title": "The JSON reader's two-counter stack tracks nesting exactly", "statement": "The reader's pair of counters accepts an opening/closing bracket history exactly when a real stack of bracket kinds would (barring counter overflow, which is an error), reports the kind of the innermost open container, and accepts the end exactly when all are closed.", "quantifier": "every history of map/seq begins and ends", "why_tests_cant": "Histories are unbounded.", "anchors": ["experiments/src/json/from_slice.rs:371-428"]}
{"id": "C42", "title": "Tag identity follows the tag's name", "statement": "Building a tag from any name never panics, on either byte order; two tags are equal exactly when their names are equal (even if their cached hashes collide); the built-in tags are pairwise distinct.", "quantifier": "all names; all pairs of built-in tags", "why_tests_cant": "Infinitely many names.", "anchors": ["src/data.rs:208-302", "src/tags.rs"]}
{"id": "C43", "title": "Embedded JSON passes through verbatim", "statement": "A value tagged as JSON text (JsonStr/JsonSlice) in value position is written byte for byte, and a text tagged as JSON-native is written between quotes byte for byte.", "quantifier": "every text, every fragmentation, every surrounding value", "why_tests_cant": "The set of values is infinite and recursively nested; a test samples a few shapes.", "anchors": ["json/src/tags.rs", "json/src/to_fmt.rs tagged_begin"]}
{"id": "C44", "title": "Recorded tokens replay to themselves", "statement": "Collecting the tokens of any value and streaming the tokens again gives the same tokens; a token buffer and a ValueBuf replay agree up to fragment merging.", "quantifier": "every value", "why_tests_cant": "The set of values is infinite and recursively nested; a test samples a few shapes.", "anchors": ["test/src/lib.rs"]}
{"id": "C45", "title": "Failure is prompt and sticky", "statement": "When a call on the output stream fails, a value makes no further calls on it, the failure is reported to the caller, and what had been written is a prefix of what the successful run would have written.", "quantifier": "every value, every failure point of the underlying writer", "why_tests_cant": "Every failure point of every value.", "anchors": ["src/result.rs", "json/src/to_fmt.rs", "json/src/to_io.rs"]}
{"id": "C46", "title": "Labels never touch freed text and never leak it", "statement": "For every history of creating, borrowing, tagging, cloning, owning and dropping labels that the borrow checker accepts, no label reads or frees text that is not allocated, no two labels free the same text, each label reads the text it was made from, and when all labels are dropped nothing stays allocated.", "quantifier": "all finite histories of label operations", "why_tests_cant": "Unbounded histories; undefined behaviour need not show in a test.", "anchors": ["src/data.rs:29-58 Label, Drop", " src/data.rs:566-620 Clone, to_owned, new_owned"]}
{"id": "C47", "title": "Values taken from a ValueBuf replay like the buffer", "statement": "After any calls, the Value returned by to_value (a copy) and by into_value (the buffer's own parts) streams exactly the calls the buffer itself streams.", "quantifier": "every finite call sequence", "why_tests_cant": "ranges over all histories of the buffer, including mismatched and partial ones", "anchors": ["buffer/src/value.rs:ValueBuf::to_value", "buffer/src/value.rs:ValueBuf::into_value", "src/data.rs:Label::clone"]}
{"id": "C48", "title": "Displaying a wrapped value fails only with the writer", "statement": "Formatting a ToFmt wrapper succeeds on every value, failing ones too, if the underlying writer accepts everything, so to_string on it never panics; and if the writer fails on a value that does not fail, the failure is reported.", "quantifier": "every value behaviour and every writer", "why_tests_cant": "Every value and every failure point of the writer.", "anchors": ["fmt/src/to_fmt.rs:46-57"]}
{"id": "C49", "title": "Debug-style output is valid UTF-8", "statement": "Every token sval_fmt gives its writer is valid UTF-8 whenever the strings in the value are, whatever calls the value makes.", "quantifier": "every value behaviour and every writer", "why_tests_cant": "Escaping cuts texts at positions that depend on their content.", "anchors": ["fmt/src/writer.rs", "fmt/src/token_write.rs:332-374"]}
{"id": "C50", "title": "Debug-style text literals read back", "statement": "The Debug-style output of a text is a quoted literal that, read with the escapes of Rust string literals, is the text; so distinct texts are written differently.", "quantifier": "every valid UTF-8 text, however fragmented", "why_tests_cant": "Every text.", "anchors": ["fmt/src/token_write.rs:332-374", "fmt/src/writer.rs:149-175"]}
{"id": "C51", "title": "Conversions of library types agree with what they stream", "statement": "For every value of a standard library type (however nested), tag, to_bool, to_f32, to_f64, to_text and to_binary return exactly what streaming the value shows, and an integer conversion returns only the integer streamed and only if it fits the target type.", "quantifier": "every nested combination of the supported types and contents, every conversion", "why_tests_cant": "Infinite, recursively nested family of values.", "anchors": ["src/data/number.rs", "src/data/option.rs", "src/data/text.rs", "src/data/binary.rs", "src/value.rs: impl_value_forward", "ref/src/lib.rs"]}
{"id": "C52", "title": "Derived variant indexes are Rust discriminants", "statement": "In a derived enum without index attributes, the index streamed for a variant is the discriminant Rust gives that variant (explicit discriminants included).", "quantifier": "every list of variants, discriminants and field values", "why_tests_cant": "Unbounded family of enums.", "anchors": ["derive_macros/src/derive/derive_enum.rs", "derive_macros/src/index.rs"]}
{"id": "C53", "title": "A sval value sent through serde and back is the same value, up to what serde has no room for", "statement": "Take any sval value that serializes through serde without an error and has no null and no unnamed record in it. Serializing it and reading the serde calls back as a sval value gives a well-formed sval value with the same kinds, names, field names, variant names and indexes, lengths, children in order and primitive values; only tags other than the option and unit ones, the indexes of fields and the tags of labels may be lost.", "quantifier": "every well-formed sval value, every way of streaming it (recursing or not at each place), every nesting depth", "why_tests_cant": "The two conversions meet through serde traits with thirty methods; a test picks a few values, while the claim covers every nesting of every kind.", "anchors": ["serde/src/to_serialize.rs: ToSerialize, Serializer", " serde/src/to_value.rs: ToValue, Stream"]}
{"id": "C54", "title": "Reading a JSON text gives the value it stands for", "statement": "Streaming a JSON text through the JSON reader makes exactly the calls of one value: null, booleans, arrays as sequences and objects as maps with text keys, strings as text equal to the unescaped string, numbers as their own text tagged as JSON numbers; white space is ignored, members and elements keep their order.", "quantifier": "every JSON text (any size, any white space, any member order) the reader supports: no capital E exponent, no escapes other than \\n \\r \\\" \\\\, nesting within the range of its counters", "why_tests_cant": "There are infinitely many JSON texts; a test reads a few of them.", "anchors": ["experiments/src/json/from_slice.rs: JsonSliceReader::stream_resume", "experiments/src/json/from_slice.rs: str_fragment", "experiments/src/json/from_slice.rs: number"]}
{"id": "C55", "title": "The JSON reader accepts only balanced texts, passes on only valid text, and ends", "statement": "Whatever bytes it is given, the reader finishes within one turn per byte; every piece of text it streams is valid UTF-8; and if it succeeds then the brackets outside of strings were balanced and properly nested.", "quantifier": "every byte sequence, JSON or not", "why_tests_cant": "Malformed inputs cannot be enumerated.", "anchors": ["experiments/src/json/from_slice.rs: JsonSliceReader", "experiments/src/json/from_slice.rs: Stack"]}
{"id": "C56", "title": "JSON read and written again is the same JSON", "statement": "A JSON text streamed from the reader into the JSON writer gives a JSON text for the same JSON value, and the JSON text written for a value is read back as a value standing for the same JSON.", "quantifier": "every JSON text the reader supports; every value with a JSON image whose text the reader supports", "why_tests_cant": "The reader and the writer would have to be run on all texts and all values.", "anchors": ["experiments/src/json/from_slice.rs: JsonSliceReader", "json/src/to_fmt.rs: Formatter"]}
{"id": "C57", "title": "The fixed-capacity storage used without an allocator is memory safe and drops each value once", "statement": "Whatever sequence of pushes, pops, overwrites and clears is made on it, the inline vector behaves as a list bounded by its capacity: it never reads an uninitialised slot and never panics, a push is refused exactly when it is full, cloning never panics, and every value it was given is returned or dropped exactly once by the time the vector is dropped.", "quantifier": "every capacity, every element type, every sequence of operations", "why_tests_cant": "A memory error can depend on the exact history of pushes, pops and clears, and tests run a few.", "anchors": ["buffer/src/value.rs: array_vec::ArrayVec::push", "buffer/src/value.rs: array_vec::ArrayVec::pop", "buffer/src/value.rs: array_vec::ArrayVec::clear", "buffer/src/value.rs: Clone for ArrayVec", "buffer/src/value.rs: Drop for ArrayVec"]}
{"id": "C58", "title": "What a value buffer accepts without an allocator", "statement": "Built without alloc, buffering a value succeeds exactly when the value is a scalar, one borrowed text or binary, or an empty container, with labels that need no allocation; it then replays exactly as a buffer with an allocator would, and anything else is an error (a panic in a debug build). Whatever calls are made, failed ones included, replaying never panics, and no call panics before a call has failed.", "quantifier": "every value, every sequence of stream calls, debug and release builds", "why_tests_cant": "The set of values that fit, and the states reachable after failed calls, are infinite.", "anchors": ["buffer/src/value.rs: Stream for ValueBuf", "buffer/src/value.rs: ValueBuf::collect", "buffer/src/value.rs: ValueBuf::collect_owned", "buffer/src/value.rs: push_begin", "buffer/src/error.rs: Error::no_alloc", "src/data.rs: Label::try_to_owned"]}
{"id": "C59", "title": "Buffering a value first does not change what is made of it", "statement": "Collect any well-formed value into a ValueBuf and use the buffer in its place. The Debug-style text (sval_fmt) is the same; every serde serializer is made the same calls; collecting the buffer again gives an equal buffer; the JSON is the same provided labels tagged as not needing escapes really need none and number texts come in one piece or may be cut anywhere.", "quantifier": "all well-formed values, of any size and depth and however their texts are cut; all serde serializers that treat children as opaque; all float renderings", "why_tests_cant": "Tests compare a handful of buffered values with their originals; buffering joins texts, drops label tags and re-announces sizes, and whether any downstream format notices depends on every combination of tags, labels, cuts and nesting.", "anchors": ["buffer/src/value.rs ValueBuf::collect", "buffer/src/value.rs impl Value for ValueBuf", "json/src/to_fmt.rs Formatter", "fmt/src/writer.rs", "serde/src/to_serialize.rs"]}
{"id": "C60", "title": "Values made from fmt traits and from encoded JSON are what they say", "statement": "A Debug or Display value adapted into a sval value streams as one text holding exactly what it formats to, into any stream, and fails when the formatting or the stream fails; adapting a sval value to Display and back gives the text of the value. A JsonStr is written to JSON byte for byte, alone, in a sequence or after buffering, and denotes what its text denotes.", "quantifier": "all Display/Debug behaviours that stop at a failed write, all streams, all values, all strings", "why_tests_cant": "The adapters are generic over every formatter implementation and every stream; failures can happen at any fragment.", "anchors": ["fmt/src/to_value.rs DebugToValue, DisplayToValue, stream_debug, stream_display", "src/data/text.rs Display, stream_display_fragments", "fmt/src/to_fmt.rs ToFmt", "json/src/value.rs JsonStr"]}
{"id": "C61", "title": "Derive attributes are honoured or refused", "statement": "In a definition with #[derive(Value)] that compiles, every sval attribute is one documented for the place it stands in and stands there once, over all #[sval(..)] lists; it has a value of its kind; the order of attributes and their spread over lists do not matter; labels and tags written on variants and fields are the ones streamed; every isize can be written as an index.", "quantifier": "every definition (struct, tuple, newtype, unit, enum, union), every list of attributes on every item, every literal", "why_tests_cant": "the combinations of attributes, places and values are unbounded, and that nothing wrong compiles cannot be seen from definitions that do", "anchors": ["derive_macros/src/attr.rs check", "derive_macros/src/attr.rs get_unchecked", "derive_macros/src/attr.rs sval_attr", "derive_macros/src/attr.rs IndexAttr", "derive_macros/src/derive.rs derive", "derive_macros/src/derive/derive_enum.rs EnumAttrs"]}
{"id": "C62", "title": "Values that look at errors are served like any other", "statement": "A value may look at the result of each call it makes and go on after a failure. Forwarding wrappers stay invisible to it and Computed only weakens borrows; on a stream that accepts its calls it has the effect of those calls; on a stream that goes on refusing it has no effect after the first failure; in every case the stream ends in the state the calls made lead to; a conversion to a boolean or integer returns one it streamed, and a conversion to a text or bytes returns the only fragment it streamed, borrowed; a collected text or bytes are all the fragments streamed, in order; a collected buffer replays properly nested. A JSON or writer entry point that returns Ok has passed everything on.", "quantifier": "every value as a decision tree over the results of its calls, nested values included; every stream; every stack of wrappers", "why_tests_cant": "Values may branch on every result; tests use values that stop at the first error.", "anchors": ["src/value.rs: Value::stream, default_value", "src/stream.rs: impl_stream_forward, Computed", "dynamic/src/stream.rs: dyn Stream", "json/src/to_fmt.rs: stream_to_fmt_write", "buffer/src/value.rs: ValueBuf::collect", "buffer/src/fragments.rs: TextBuf::collect, BinaryBuf::collect"]}
{"id": "C63", "title": "JSON of plain Rust data is what serde_json writes", "statement": "Writing plain Rust data as JSON gives byte for byte the text serde_json gives for the same data with derive(Serialize): numbers, strings, chars, options, sequences, arrays, tuples, maps and derived structs and enums without attributes.", "quantifier": "every datum serde_json accepts, of any size, depth and declaration; every float printer that writes JSON numbers", "why_tests_cant": "The tests compare a few dozen literals; the claim is about every nesting of every kind of data, where flags of the writer could leak from one part to another.", "anchors": ["json/src/lib.rs: crate documentation (serde-compatible)", "json/src/to_fmt.rs: JsonWriter", "derive_macros/src/derive.rs: derive_value", "json/test/lib.rs: assert_json"]}
{"id": "C64", "title": "Derived values drive a serializer as derive(Serialize) does", "statement": "Serializing plain Rust data through sval makes the serializer calls that the same data makes with derive(Serialize): same methods, names, variant indexes, lengths, fields and order.", "quantifier": "every datum, declaration and serializer; any nesting", "why_tests_cant": "Tests compare token lists of a handful of types; the claim is about all types and all serializers.", "anchors": ["serde/src/lib.rs: crate documentation", "serde/src/to_serialize.rs: ToSerialize", "serde/test/lib.rs: assert_ser_tokens", "derive_macros/src/derive.rs: derive_value"]}
{"id": "C65", "title": "Debug text of derived values is that of derive(Debug)", "statement": "Formatting plain Rust data through sval_fmt gives byte for byte what {:?} gives for the same data with derive(Debug).", "quantifier": "every datum and declaration; any Debug printing of floats and any Unicode escape tables", "why_tests_cant": "Tests compare about ten literals, none with a map entry, float, char, quote or empty variant.", "anchors": ["fmt/src/lib.rs: crate documentation (same output as derive(Debug))", "fmt/src/to_fmt.rs: ToFmt", "fmt/src/writer.rs: Writer", "fmt/test/lib.rs: assert_fmt"]}
{"id": "C66", "title": "Derived values need no allocation to go through serde; other values fail cleanly without it", "statement": "Without the alloc feature, plain Rust data (built-in types, collections, structs and enums with derived implementations) drives a serializer exactly as with it, and any other value either does the same as with alloc or produces an error. It never produces something else.", "quantifier": "every value, serializer and nested stream, and for the first part every plain Rust datum and type declaration; release and debug builds", "why_tests_cant": "Which values need buffering depends on the whole shape of the value and on each method of the user stream; a test sees one value in one build configuration", "anchors": ["serde/src/lib.rs: crate documentation (Buffering)", "serde/src/to_serialize.rs: ToSerialize", "nested/src/flat.rs: FlatStream", "nested/src/flat_enum.rs: FlatStreamEnum::push", "nested/src/lib.rs: owned_label_ref", "nested/src/error.rs: Error::no_alloc"]}
{"id": "C67", "title": "Encoding parts of a value ahead of time does not change its JSON", "statement": "Streaming to a byte buffer gives the bytes streaming to a string gives, and the same errors. Any part of a value that stands as a value (the whole, an element, a field, a payload, a map value) can be encoded with stream_to_json_str and put back as a JsonStr, any number of times and at any depth, and the JSON of the whole stays the same, byte for byte.", "quantifier": "all values, all choices of parts at any depth, all float printers that print JSON numbers", "why_tests_cant": "The formatter keeps flags across calls (quotes, names, emptiness) that an embedded part could leave changed for whatever follows it; a test sees one part in one place", "anchors": ["json/src/value.rs: JsonStr", "json/src/to_vec.rs: stream_to_vec", "json/src/to_string.rs: stream_to_json_str", "json/src/to_fmt.rs: Formatter tagged_begin, tagged_end"]}
{"id": "C68", "title": "derive(Value) accepts exactly the documented definitions", "statement": "A derive of Value on a struct or enum expands to an implementation exactly when the attributes obey the rules: no attributes on the field of a newtype, none of the field-level switches on units and newtypes, no tag, label or index on a transparent or dynamic type, transparent only on newtypes, no label (index) on a field whose struct is unlabeled (unindexed), all streamed fields labelled or none, integer discriminants, and numbers that fit an isize. Everything else is refused at compile time rather than streamed wrongly.", "quantifier": "all struct and enum definitions: any number of fields and variants, any attributes and discriminants", "why_tests_cant": "The rules are checked in four places over lists of any length, with running counters; trybuild tests cover single refusals and never all combinations", "anchors": ["derive_macros/src/derive.rs: derive", "derive_macros/src/derive/derive_struct.rs: StructAttrs::from_attrs", "derive_macros/src/derive/derive_newtype.rs: NewtypeAttrs::from_attrs", "derive_macros/src/derive/derive_unit_struct.rs: UnitStructAttrs::from_attrs", "derive_macros/src/derive/derive_enum.rs: EnumAttrs::from_attrs, derive_enum", "derive_macros/src/stream/stream_record_tuple.rs: stream_record_tuple", "derive_macros/src/stream/stream_newtype.rs: stream_newtype", "derive_macros/src/index.rs: IndexAllocator"]}
{"id": "C69", "title": "A custom TokenWrite receives each piece of a value at the method for it", "statement": "When a value is formatted with stream_to_token_write, an implementation of TokenWrite receives, whatever methods it overrides, one fixed sequence of method calls determined by the value alone, in order, until one of its methods fails: numbers, atoms, type names, field names, text fragments (unescaped) and the begin, separator and end methods of each kind of container, with is_first true for the first element, entry or field only and is_empty true for containers without any. A method it leaves out behaves as its documented default, in terms of the methods it does have; an implementation with nothing overridden, the Formatter and a mutable reference to an implementation give the same text.", "quantifier": "all values and event sequences, all implementations of TokenWrite with any subset of methods overridden, failing or not", "why_tests_cant": "The sequence must be right for every shape and nesting of values and every subset of overridden methods, and the first/empty flags depend on everything streamed before.", "anchors": ["fmt/src/token_write.rs: TokenWrite", "fmt/src/writer.rs: Writer", "fmt/src/to_write.rs: stream_to_token_write"]}
{"id": "C70", "title": "Whether a JSON text is read, is an error or panics can be told from its bytes", "statement": "Reading a JSON text ends the way a plain scan of its bytes says: it panics at the first capital exponent, unknown escape or bracket that overflows a counter; it is an error at the first string piece that is not UTF-8 or bracket the counters have no room for; whichever comes first. If there is none it is read, as the value it stands for. So with known escapes, no capital exponents and at most 63 levels it never panics: UTF-8 is read, anything else is an error.", "quantifier": "every JSON text, of any size and depth, UTF-8 or not", "why_tests_cant": "A test sees one text end one way; which of several obstacles comes first, at any depth, takes all texts.", "anchors": ["experiments/src/json/from_slice.rs: JsonSliceReader::stream_resume", "experiments/src/json/from_slice.rs: str_fragment", "experiments/src/json/from_slice.rs: Stack"]}
{"id": "C71", "title": "Reading JSON and writing it again only removes white space", "statement": "When a JSON text is streamed from the reader into the JSON writer, either reading fails and nothing is returned, or the text written is byte for byte the one read without the white space outside of its strings: numbers keep their digits, strings their escapes, members their order. Doing it again changes nothing, and what the writer wrote for a value comes back as the same bytes.", "quantifier": "every JSON text; every ordinary value written", "why_tests_cant": "Every number literal, escape and nesting would have to be tried in every place.", "anchors": ["experiments/src/json/from_slice.rs: JsonSliceReader", "json/src/to_fmt.rs: Formatter", "json/src/to_string.rs: stream_to_string"]}
{"id": "C72", "title": "The exact JSON text of every ordinary value, and exactly when it is right", "statement": "For every ordinary value (text-like keys, no raw-text tags) the JSON writer succeeds, and the text it writes is given by a small function of the value: the compact text plus one extra opening for each named value that follows a key that is an enum or tagged value with a name, and one extra closing for each enum without a name directly inside an enum. So the text denotes the value exactly when there is neither; if only one of the two kinds of mistake occurs the text is not JSON at all; if both occur the same number of times the text can be JSON of another value. Derived Rust data without attributes gives JSON exactly when no map in it has an enum or newtype key with a named value.", "quantifier": "every ordinary value of any size and depth; every float printer that writes JSON numbers; every derived Rust datum", "why_tests_cant": "An exact condition needs both directions for all values; tests that pass say nothing about the values that are written wrongly.", "anchors": ["json/src/to_fmt.rs: Formatter, internally_tagged_begin, internally_tagged_end, stream_enum_begin, stream_enum_end, map_key_begin"]}
{"id": "C73", "title": "A nested stream that writes only its required methods sees every value", "statement": "A sval_nested stream whose author writes only the required methods (null, bool, i64, f64, text_computed, the begin methods and the computed and end methods of the containers) receives every well-formed value, borrowed or computed, through those methods: every integer exactly, as an i64 if it is one and as its decimal digits if not; f32 as f64; text whole; bytes as a sequence of as many numbers; a tag as the text of its label, or null for the absent option or no label; a tagged value as the value in it; sequences, maps, records, tuples and enums with the same children in the same order, each of which can be streamed again the same way. Two different integers never arrive as the same thing.", "quantifier": "every author's stream (arbitrary answers, failing or not), every well-formed value of any depth and width, streamed by reference or computed", "why_tests_cant": "the default methods call each other and stream back into the same stream; tests fix one stream and a few values", "anchors": ["nested/src/lib.rs: trait Stream, StreamSeq, StreamMap, StreamTuple, StreamRecord, StreamEnum, default_stream", " nested/src/flat.rs: FlatStream", " src/data/number.rs: stream_number"]}
{"id": "C74", "title": "Text and binary buffers work without an allocator, for one borrowed fragment", "statement": "Without the alloc feature TextBuf::collect and BinaryBuf::collect succeed exactly on values that lend their whole text or bytes in one piece, with the result they have with alloc; every other value is an error in a release build (a panic in a debug build only where an allocation would be needed). After any history of pushes and clears a buffer holds the first non-empty fragment borrowed since the last clear, and each call is accepted exactly when it needs no allocation.", "quantifier": "every value of any nesting and every cut of its text into borrowed and computed fragments; every history of buffer operations; debug and release builds", "why_tests_cant": "Values, cuts and histories are unbounded, and the two builds behave differently; tests with alloc never run this code.", "anchors": ["buffer/src/fragments.rs: FragmentBuf, TextCollector, BinaryCollector, TextBuf::collect, BinaryBuf::collect", "buffer/src/error.rs: Error::no_alloc"]}
{"id": "C75", "title": "Output, buffers and calls stay in proportion to what was streamed", "statement": "Writing a value as JSON or as Debug text gives at most six bytes for each call the value makes, each byte of text, binary and labels it hands over and each digit its numbers print to. A ValueBuf keeps at most one part for each call made on it and never more bytes than it was handed, and reading it back makes at most three calls for each part and hands each byte over at most twice. Reading a JSON text makes at most eight calls for each byte of it, and hands over no more bytes than the text has. All of this also holds when the run ends with an error, and for the buffer and the reader on ill-formed calls and texts.", "quantifier": "Every value (a list of calls of any length and nesting, failing or not), every sequence of calls on a buffer, every byte string as JSON text, every float printer and every table of character escapes within its bound", "why_tests_cant": "A test bounds the sizes of its own inputs; that no input blows up (the danger for a service that serializes data from others) is a statement about all of them.", "anchors": ["json/src/to_fmt.rs: stream_to_fmt_write, Formatter, escape_str", "fmt/src/writer.rs: Writer", "fmt/src/token_write.rs: write_escape_debug", "buffer/src/value.rs: ValueBuf", "experiments/src/json/from_slice.rs: JsonSlice"]}
{"id": "C76", "title": "A serializer's own error reaches the caller", "statement": "When a serde Serializer fails while a sval value is serialized through sval_serde::serialize or ToSerialize, the caller gets the serializer's error, as from serializing the same data directly. (False: an error raised by an element, key, value or field of a container, or by beginning a container that is not empty, is replaced by S::Error::custom; only errors of values without parts, of the end call, and of beginning an empty container come through, also inside options and newtypes. Success, failure and results are the same.)", "quantifier": "Every serializer with every error behaviour (any method may fail at any call with any error), and every well-formed value of any size and nesting", "why_tests_cant": "Which call fails and with what error is up to the serializer and its writer; tests use serializers that do not fail, so the replaced error never shows.", "anchors": ["serde/src/to_serialize.rs: ToSerialize::serialize, SerializeSeq, SerializeMap, SerializeRecord, SerializeTuple, SerializeRecordVariant, SerializeTupleVariant", "nested/src/flat.rs: FlatStream::finish, try_catch"]}
{"id": "C77", "title": "The error of a JSON encoder says what went wrong", "statement": "If encoding to JSON fails, the error is an I/O error with a source exactly if the io::Write answered with an error; \"attempt to serialize a non-string key\" exactly if the value has an array or object where a map key must stand; and generic otherwise, that is if the value itself failed or the fmt::Write did. The first thing that goes wrong decides.", "quantifier": "every value, well-formed or not, failing or not; every fmt::Write; every io::Write, short, interrupted, refusing or failing at any point", "why_tests_cant": "The kind depends on which of three independent parties (value, encoder, writer) fails first, at any point of any value; tests fix one.", "anchors": ["json/src/error.rs:Error", "json/src/to_fmt.rs:stream_to_fmt_write", "json/src/to_fmt.rs:Formatter::err", "json/src/to_io.rs:stream_to_io_write", "json/src/to_string.rs:stream_to_string"]}
{"id": "C78", "title": "The error of a failed buffer or collect says what was met", "statement": "If TextBuf::collect or BinaryBuf::collect fails, its error reads 'unexpected X, expected text' or 'unexpected X, expected binary', where X is the kind of the first thing in the value that is not accepted, as it appears in the basic data model. The error of a ValueBuf is that of the last call it refused: a fragment outside of a text or binary of its kind, or an end with nothing open; if the buffer refused nothing, collecting says that the value itself failed. Clearing a buffer clears its error, and nothing else about collecting depends on the error.", "quantifier": "every value, well-formed or not, passing failures on or not; every history of calls on a buffer", "why_tests_cant": "which thing is met first, or which call is refused last, depends on the whole value and its reaction to earlier failures", "anchors": ["buffer/src/error.rs:Error", "buffer/src/fragments.rs:TextCollector", "buffer/src/fragments.rs:BinaryCollector", "buffer/src/value.rs:ValueBuf::into_err", "buffer/src/value.rs:push_end"]}
{"id": "C79", "title": "The error of a nested stream is the error of the stream it was given", "statement": "When a value that streams something well-formed is streamed into a nested stream (one that receives whole values rather than begin/end calls), the outcome is exactly that of the calls that mirror the value, made in order: if one of them fails, streaming fails with that very error. An enum whose content is not a variant fails, once the enum began, with a stated reason; a tuple or record nested two enums deep panics. Any error that is not one of the given stream has no source and one of four known texts. Whether the value itself fails after its calls makes no difference; a value that stops early is reported as an incomplete stream. All errors can be told apart by text and source.", "quantifier": "all values, through whatever direct, value and value_computed calls, that stream a well-formed tree; all nested streams, failing at any call in any way; all error predicates", "why_tests_cant": "a test runs one stream failing at one place; that no call site replaces or drops an error needs every stream, every failing call and every value", "anchors": ["nested/src/flat.rs: FlatStream, State::value_with, try_catch, value, value_computed", "nested/src/flat_enum.rs: FlatStreamEnum", "nested/src/error.rs: Error, source", "nested/src/lib.rs: stream"]}
{"id": "C80", "title": "A format applies to each number in a value and to nothing else", "statement": "format!(\"{:..}\", ToFmt::new(v)) with any width, fill, alignment, sign, zero and precision options writes the text of v with each integer, each byte of a binary value and each float written as std writes it on its own under the same options, and everything else (texts, numbers streamed as tagged text, names, punctuation, the text of an error) as with no options. With no options it is ToFmt::new(v).to_string(). It never fails or panics.", "quantifier": "all values, all format options, all Display implementations of floats, all writers", "why_tests_cant": "The options reach every number at any depth of any value; tests try a few formats on a few values.", "anchors": ["fmt/src/writer.rs: impl TokenWrite for fmt::Formatter", "fmt/src/to_fmt.rs: ToFmt, stream_to_fmt", "fmt/src/token_write.rs: TokenWrite::write_token"]}
{"id": "C81", "title": "What sval_serde says went wrong", "statement": "When serializing a sval value through serde fails, the error is either one the serializer itself gave or S::Error::custom of a fixed message that names what went wrong: the part of the container that could not be serialized, or the name, index or length that serde needs and the value does not have, or the enum that serde has no room for. Which message it is, and which of the serializer's errors are passed on rather than replaced, is determined by the value and the serializer. There are no other messages.", "quantifier": "all values, through whatever direct, value and value_computed calls, that stream a well-formed tree of any depth; all serializers, failing at any call in any way; all S::Error::custom", "why_tests_cant": "each message is chosen at one of thirty places depending on what the serializer answered before; tests exercise a few serializers that hardly ever fail", "anchors": ["serde/src/to_serialize.rs: ToSerialize, Serializer, SerializeSeq, SerializeMap, SerializeTuple, SerializeRecord, SerializeEnum, SerializeRecordVariant, SerializeTupleVariant", " nested/src/error.rs: Error::invalid_value, Display"]}
{"id": "C82", "title": "A struct with flattened fields is the struct written out by hand", "statement": "A struct with #[sval(flatten)] on some of its fields streams what the same struct streams with the fields of the flattened values written out in their place: the same names in the same order, at consecutive positions, each with its own value. So every consumer treats it like the struct written out, and sval_json writes what serde_json writes with #[serde(flatten)] on the same fields, whether a struct, an option of one, a map or a newtype variant is flattened, at any depth.", "quantifier": "all structs with named fields any of which are flattened, containing plain Rust data and such structs at any depth; all streams, all serializers", "why_tests_cant": "flattening composes: each flattened field may itself be a struct with flattened fields, and positions depend on how many fields every value before it had at run time", "anchors": ["derive_macros/src/stream/stream_record_tuple.rs: stream_record_tuple", "flatten/src/lib.rs: flatten_to_record_tuple", "flatten/src/flattener.rs: Flattener", "serde/src/to_serialize.rs: record_begin", "json/src/to_fmt.rs: Formatter"]}
{"id": "C83", "title": "Builds without overflow checks read JSON the same", "statement": "Reading a text with the JSON reader gives the same calls and the same outcome whether or not the program is built with overflow checks (debug or release). In particular a release build, too, only accepts texts whose brackets nest, and so ends every container it begins.", "quantifier": "all byte strings, at any nesting depth", "why_tests_cant": "the two builds differ only when a 64-bit counter reaches its maximum, after some hundred containers of a particular pattern; tests run in one build and nest a few levels", "anchors": ["experiments/src/json/from_slice.rs: Stack, JsonSliceReader, JsonSlice"]}
{"id": "C84", "title": "Flattening is the same in builds without overflow checks", "statement": "Flattening a value into a map, sequence, tuple or record makes the same calls and has the same outcome whether or not the program is built with overflow checks (debug or release). In particular a release build, too, ends only what was begun on the outer stream.", "quantifier": "all values that stream a well-formed tree of any shape and depth, flattened into any of the five kinds of container from any position; all outer streams, failing at any call", "why_tests_cant": "the builds differ only on values for which a counter passes below zero or above its maximum; tests run in one build, on a few values", "anchors": ["flatten/src/flattener.rs: Flattener, flattenable_end", "flatten/src/index.rs: IndexAllocator", "flatten/src/lib.rs: flatten_to_map, flatten_to_record_tuple"]}
{"id": "C85", "title": "Labels are safe to send to and share with other threads", "statement": "Labels can be created, tagged, read, cloned, made owned, dropped, sent to other threads and shared with them by reference in any way safe Rust accepts. However the steps of the threads interleave, no freed text is read or freed again, no two accesses race, each read and each copy sees exactly the text the label was made of, and once all labels are gone nothing is leaked.", "quantifier": "any number of threads and labels, all texts, all schedules (interleavings of single byte reads, allocations, frees and hand-overs) that the borrow checker accepts", "why_tests_cant": "the Send and Sync implementations are unsafe promises about every schedule; a test runs a few of them, and a data race need not show", "anchors": ["src/data.rs: unsafe impl Send for Label, unsafe impl Sync for Label, Drop for Label, Clone for Label, Label::as_str, Label::to_owned, Label::new_owned"]}
{"id": "C86", "title": "Buffers only refer to memory that is there", "statement": "Whatever a program the borrow checker accepts does with buffers and buffered values (streaming borrowed and computed fragments, clearing, copying, owning and dropping them while texts come and go), no buffer is read where its text is gone: a buffer refers only to texts that were passed to it as borrowed, computed fragments and labels are copied before the call returns, and an owned buffer refers to nothing. Each buffer reads as if texts never went away.", "quantifier": "every history of calls on any number of buffers and values, well-formed or not, interleaved with texts being made and released whenever no type borrows them", "why_tests_cant": "the lifetime transmutes in into_owned are promises about every buffer; a test that replays freed text need not notice", "anchors": ["buffer/src/value.rs: ValueBuf::into_owned, Value::into_owned, ValuePart::into_owned_in_place, ValueBuf::to_value, Stream for ValueBuf", "buffer/src/fragments.rs: Fragment::into_owned_in_place, FragmentBuf::into_owned_in_place, FragmentBuf::push, FragmentBuf::push_computed"]}
