# Design

A Rocq (Coq 8.16.1) model of `sval-rs/sval` (source in /repo) and machine-checked
theorems about it. The properties are in `properties.jsonl`; the mapping from
properties to theorems is in `MANIFEST.json`.

## Method

* Streams are state machines over *events*: one constructor per `sval::Stream`
  method. A value is the list of calls it makes, possibly nesting other values
  through `value`/`value_computed`, possibly failing by itself.
* Well-formed values are finite *trees* of the data model with an emission
  function; the specification side never mentions the machines.
* Results are data: `Ok`, `Err`, and panics are explicit outcomes.
* Where the faithful model violates the property, the violation is proved as a
  `_refuted` theorem with a concrete witness, and the part that does hold is
  proved as a `_partial` theorem.

## Plan per property

* **C01 Required-only streams still receive the whole value.** Core.v event type and default_call (one-step default of each optional method); Lower.v full lowering; spec = Simplify tree to a 6-constructor core tree; induction on trees.
* **C02 Overriding any subset of optional methods never changes what is received.** Lowering parameterised by an arbitrary boolean set of overridden methods, with a rank function for termination; prove completing later equals lowering at once, for all sets and lists.
* **C03 Default integer widening is exact.** Decimal printing defined and inverted; case analysis on width and range; independent NUMBER grammar as an inductive predicate.
* **C04 value_computed only weakens borrows.** Calls include nested value / value_computed; interpreter through an explicit Computed wrapper versus map over the flat event list.
* **C05 Forwarding wrappers are transparent.** Wrapper = stream transformer on method tables; prove the wrapped run equals the direct run for every underlying (possibly failing) stream, every wrapper stack.
* **C06 Integer extraction never lies.** Extract streams as state machines over all call lists; soundness and characterisation by induction over the call list.
* **C07 Integer extraction is complete across widths.** Same model; expected false for signed narrow widths (Extract accepts only the 128-bit event), so a _refuted theorem plus the exact set of widths for which it holds.
* **C08 Text and binary extraction only borrows what was streamed.** Extract state machine, exact characterisation of accepted call lists.
* **C09 Boolean, float and tag extraction are exact.** As C08.
* **C10 Labels and indexes compare by content only.** Label/Index records with eqb/compare/hash input; equivalence, totality, congruence.
* **C11 Index conversions are exact.** Index over Z with range checks; characterisation.
* **C12 Owned copies of a label keep the label.** Model of clone/to_owned with the tag field; expected false for tags (_refuted), text preservation proved.
* **C13 Text and binary buffers hold exactly the concatenated fragments.** FragmentBuf state machine; invariant over operation histories.
* **C14 TextBuf::collect never panics.** Model collect with an explicit panic outcome; expected false for failing values (_refuted), total for others.
* **C15 Buffering a value and replaying it is lossless.** ValueBuf parts/stack machine with lengths, and the slice-based replay loop; simulation with trees, induction on trees; replay equals normalised events.
* **C16 ValueBuf::is_complete tells exactly when a whole value is buffered.** Same machine; invariant relating stack and open containers; every strict prefix.
* **C17 Owning a buffered value changes nothing but borrows.** Model into_owned as map over parts; commute with replay.
* **C18 A cleared ValueBuf is as good as new.** Equality of cleared state with the initial state up to nothing; hence of all further runs.
* **C19 ValueBuf never corrupts on mismatched calls.** Invariant over arbitrary event lists: ranges of closed parts are nested and in bounds; replay total.
* **C20 JSON output is well-formed and denotes the value.** Json formatter state machine over bytes; independent JSON AST, grammar (inductive), and image function; induction on trees.
* **C21 JSON strings round-trip.** escape_str as in the code (table and start/flush indices) and an independent decoder of the JSON string grammar; round trip by induction.
* **C22 How a text is fragmented does not affect output.** Corollaries over fragment lists for Json, Fmt and buffers. `C22_number_any_cut_exactly` says which texts under a NUMBER tag may be cut anywhere without changing the JSON: an if and only if over all UTF-8 texts.
* **C23 JSON numbers are exact.** Decimal printing is canonical and parses back; float classes.
* **C24 NUMBER-tagged text becomes a valid JSON number of the same value.** Text handler state machine; grammar; expected to fail for exponents after a lone zero (_refuted), proved for the rest. JsonNumExactSpec.v gives in closed form what any text under `NUMBER`, in any fragments, becomes (`C24_any_text_exactly`), panics included.
* **C25 JSON map keys are strings or the stream fails.** Key trees classification; error outcome of begin calls inside keys.
* **C26 JSON enums are externally tagged.** Part of the tree induction of C20 with the internal-tag flag in the invariant.
* **C27 JSON state does not leak between siblings.** Flag-independence lemma; expected false after enum keys (_refuted), proved for other siblings. JsonContextSpec.v defines a value with one place left open; induction on it shows that what stands there is written as on its own (`C27_own_text_anywhere`), and with it C22, C24 and C43 at any depth.
* **C28 JSON to an io::Write writes everything or fails.** Write loop against an arbitrary oracle of writer results; expected false for Ok(0) (_refuted), proved for other writers.
* **C29 JSON output is valid UTF-8.** UTF-8 validity as a DFA over bytes; escaping and writing preserve it.
* **C30 Debug-style output has balanced delimiters.** Fmt writer state machine emitting tokens; balance as a stack check; expected caveat for empty variants (_refuted), proved for the rest.
* **C31 fmt::stream_to_string never panics.** to_string with panic outcome; expected false for failing values (_refuted).
* **C32 Flattening hoists exactly the immediate children.** Flattener state machine as event transformer; spec on trees; induction; nested maps expected to break (_refuted).
* **C33 Flattening allocates offsets without gaps.** Index allocator arithmetic in the same model.
* **C34 Flattened keys become their text.** LabelBuf state machine over key events; numeric parts expected to overwrite (_refuted), text-only keys proved.
* **C35 Recursive and flat views agree.** FlatStream as a machine producing a recursive call tree; spec tree; induction; sequences inside buffered values expected to break (_refuted).
* **C36 sval_nested never panics on well-formed streams.** Same model with explicit panic outcome; nested enums holding tuples or records expected to panic (_refuted).
* **C37 serde values survive the round trip through sval.** serde data model AST; to_value as emission; to_serialize as the recursive consumer; composition.
  Values that give up half-way: SerdeFailModel.v keeps the calls made before; `C37_giving_up_exact` says what every serializer is told of them (finding 22).
* **C38 Derived implementations stream well-formed values.** Derive as a function from a field list and values to calls; shown to be emission of a tree.
* **C39 Derived field indexes are distinct.** Run-time index variable threaded through fields; distinctness by induction.
* **C40 Standard library values stream well-formed calls.** Rust value AST for std types; stream function per impl; shown to be emission of a tree with exact hints.
* **C41 The JSON reader's two-counter stack tracks nesting exactly.** Pair of naturals below 2^64 versus list of kinds; refinement, induction over histories.
* **C42 Tag identity follows the tag's name.** compute_id over bytes with 64-bit wrap; distinctness of the finite set of built-in tags by computation. A one-byte change of a name changes the hash (TagIdProps.v: each round of the hash is injective in its word and in its state).
* **C43 Embedded JSON passes through verbatim.** Part of the Json model; anywhere
  inside other values by induction on the place (JsonContextSpec.v).
* **C44 Recorded tokens replay to themselves.** TokenBuf as list; replay identity.
* **C45 Failure is prompt and sticky.** Writer with a failure oracle; prefix theorem for every event list.

* **C46 Labels never touch freed text and never leak it.** Explicit heap of boxes; labels as pointers; invariant over operation histories.
* **C47 Values taken from a ValueBuf replay like the buffer.** ValueSlice replay on the parts of the buffer machine.
* **C48 Displaying a wrapped value fails only with the writer.** Display wrapper over an arbitrary writer with a failure oracle.
* **C49 Debug-style output is valid UTF-8.** Invariant over every token written.
* **C50 Debug-style text literals read back.** Independent decoder of Rust string literals; round trip by induction.
* **C51 Conversions of library types agree with what they stream.** The overridden conversions of each type against the generic extraction of C06-C09.
* **C52 Derived variant indexes are Rust discriminants.** The macro's index allocator against an independent definition of Rust's discriminant rule. `VariantNumProps.v` gives the index of every variant of every indexed enum (`C52_index_exactly`) and exactly which variants get the Rust discriminant (`C52_discriminant_exactly_when`).
* **C53 A sval value sent through serde and back is the same value.** Composition of the two halves of the serde bridge, through a serializer that rebuilds the value.
* **C54 Reading a JSON text gives the value it stands for.** Reader state machine; mutual induction over the RFC 8259 derivation.
* **C55 The JSON reader accepts only balanced texts, passes on only valid text, and ends.** Invariant over turns, for arbitrary bytes.
* **C56 JSON read and written again is the same JSON.** Composition of C54 and C20, with two lemmas: the writer keeps the reader's lexer between tokens (induction on the value), and a JSON text leaves no bracket open (induction on the grammar, ReadBackProps.v).
* **C57 The fixed-capacity storage is memory safe.** ArrayVecModel.v models
  `MaybeUninit` slots, with undefined behaviour as an outcome; an invariant ties
  the slots to a bounded list (ArrayVecSpec.v), and multiset accounting shows
  that nothing is dropped twice or never.
* **C58 What a value buffer accepts without an allocator.** NoAllocModel.v, over
  the bounded lists of C57; simulation by the buffer of C15 for accepted calls,
  case analysis on trees for the rest, an invariant for histories with failures.
* **C59 Buffering a value first does not change what is made of it.**
  Composition: the tree a buffer replays (C15) against the readings of JSON
  (C22), Debug text (C30), serde (C37) and the buffer's own parts.
* **C60 Values made from fmt traits and from encoded JSON are what they say.**
  AdapterModel.v: a `Display` is an arbitrary sequence of writes, a stream an
  arbitrary step function; composition with C14, C21, C27, C30, C45.
* **C61 Derive attributes are honoured or refused.** AttrModel.v: definitions
  with their attributes as written, read into what DeriveModel.v takes.
  Permutation and no-duplicate lemmas about the checks, composed with C38's macro.
  `C61_read_exactly`, `C61_compiles_exactly` (AttrExactProps.v): what a definition means, as a relation, and when it compiles.
* **C62 Values that look at errors are served like any other.** AdaptiveModel.v:
  a value is a decision tree over the results of its calls. Reduction to a run
  without wrappers, then induction on the tree; invariants kept by accepted and
  refused calls for the conversions.
* **C63 JSON of plain Rust data is what serde_json writes.** RustModel.v: Rust
  data and declarations without attributes, and the calls their impls and the
  generated code make, composed from StdModel.v and DeriveModel.v. RustSpec.v: the
  text serde_json writes, by recursion on the data. JsonTextProofs.v gives the exact
  text of a tree; induction on the data relates the two.
* **C64 Derived values drive a serializer as derive(Serialize) does.**
  RustSerdeSpec.v: the data in `serde`'s data model. Induction on the data through
  the recursive view and C37.
* **C65 Debug text of derived values is that of derive(Debug).** RustFmtSpec.v: what
  the standard library and derive(Debug) print. Induction on the data through C30.
  `C65_text_exactly` (RustFmtExactProps.v) gives the text of all data, the differences included.
* **C66 Without `alloc`: derived values need no buffer, others are errors.**
  NestedNoAllocModel.v: nested streams and `ToSerialize` over the fixed-size buffer.
  NestedNoAllocSpec.v: the values whose every level can be handed on as it comes.
  Equality with the `alloc` build for those; for all other values a relation between
  the runs of the two builds, and between two nested streams of which one may fail
  (NestedMono.v), kept by every call.
* **C67 JSON encoded in parts, or into bytes, is the same JSON.** PreencodeModel.v:
  `stream_to_vec` and `stream_to_json_str`. PreencodeSpec.v: the relation between a
  value and the value with parts replaced by the `JsonStr` of their own text.
  Induction on that relation with C27; `stream_to_vec` by simulation (JsonSimProofs.v).
* **C68 derive accepts exactly the documented definitions.** The refusals of DeriveModel.v
  (`derive d = None`) against DeriveAcceptSpec.v, rule by rule, as an equivalence;
  induction over the loops over fields and variants with the numbering of DeriveSpec.v.
* **C69 A custom `TokenWrite` receives each piece of a value at the method for it.**
  TokenWriteModel.v: the `Writer` calling the methods of an arbitrary implementation, and
  the defaults of those it leaves out. TokenWriteSpec.v: the calls for a tree, as
  documented and as they are. The sequence by induction on trees for a recording
  implementation, and for any by a simulation as for C45; the defaults by induction on
  how deep they call each other.
* **C70 Whether a JSON text is read, is an error or panics can be told from its bytes.** `fate_of` (ReaderFateSpec.v) scans the bytes; mutual induction over the RFC 8259 derivation, with the counters of C41 followed exactly (StackExactProps.v).
* **C71 Reading JSON and writing it again only removes white space.** `minify` (MinifySpec.v) drops white space outside of strings; the induction of C70 carries along what each piece of text is without it, and the exact text of C20, extended to texts under the number and JSON tags, says what is written.
* **C72 The exact JSON text of every ordinary value, and exactly when it is right.** `written` (WrittenSpec.v) gives the text with the extra openings and closings of finding 5; `all_written` follows the writer by induction. Every JSON text has as many closing braces as opening ones outside strings, and its colons and quotes are determined by its image (CountProofs.v), so counting decides which texts are right; RustExactProps.v carries the result to derived data and turns C63 into an equivalence.
* **C73 A nested stream that writes only its required methods sees every value.** NestedDefaultModel.v puts the bodies of `default_stream` in place of every
  method that has one and ties the knot (they stream into the stream itself) with
  fuel; NestedDefaultSpec.v says which required methods are then called. Uses the
  one-level theorem of C35 at every turn of the knot. Partial for the reasons C35 is.
* **C74 Text and binary buffers work without an allocator, for one borrowed fragment.** FragNoAllocModel.v is FragModel.v without `alloc`, in debug and release builds; the collectors are followed by induction over the value, with the fragments heard before the first refusal (FragNoAllocSpec.v).
* **C75 Sizes stay in proportion.** For JSON, the Debug writer, `ValueBuf` and the JSON reader, the most that one call (or one byte of text) can add is bounded method by method, and the bounds are summed over any run, default methods included (SizeSpec.v counts calls and bytes). The bounds hold of failing runs and, for the buffer and the reader, of ill-formed calls and texts.
* **C76 The serializer's own error.** SerdeErrModel.v models `ToSerialize` again with the contents of `S::Error`. The claim that the caller sees the serializer's error is false inside containers (finding 19); proved: exactly which error comes out, for every serializer and value (`C76_exact`), that only the error differs (`C76_same_but_for_the_error`), and that forgetting errors gives SerdeModel.v (`C76_refines`).
* **C77 Errors of the JSON encoder.** Kinds, messages and sources (JsonErrModel.v on top of JsonModel.v). For every value and every writer: which kind comes out (`C77_string`, `C77_fmt_write`, `C77_io_write`); for well-formed values the exact condition on the tree (`misplaced`, JsonErrSpec.v; `C77_invalid_key_exactly`). That an invalid key is a key of a map is false of values tagged as numbers or embedded JSON (finding 20) and proved without those.
* **C78 Errors of buffers and collectors.** BufErrModel.v: the collectors of FragModel.v and the buffer of BufferModel.v with the error they keep and its text. Same outcomes as before (`C78_same_outcome`, by simulation); for well-formed values the exact error, from the tree (`C78_text_error`, `C78_bytes_error`); for values that go on after failures, that of the last refused method (`C78_any_text_error`, `C78_any_bytes_error`); for any history of calls on a `ValueBuf`, from two counts over the history (`C78_buffer_error`, BufErrSpec.v `told`). "can't end at this index" is never reported, which these say as well. Not modelled: the errors without `alloc`.
* **C79 The error of a nested stream.** NestedErrModel.v: the flat-to-nested stream of NestedModel.v with the error it keeps, its text and its source. For every value that streams something well-formed the outcome is that of the mirroring calls, errors included (`C79_error_exactly`), or for an enum with a variant it cannot have the stated refusal (`C79_refused_exactly`). Proof: a nested stream that keeps its first error in its objects (`keeping`) never fails, so the theorem for C35 applies to it; a simulation carries the result back; a second comparison puts in the errors the code replaces when an enum's variant comes through `value`. That any error is the user's own (`C79_users_error`) is refuted for such variants, proved otherwise, in particular for values that make their calls directly. Hypothesis `only_calls_closures`: the closure handed to `nested` is only called, not inspected.
* **C80 Format options.** FormatterModel.v: the `TokenWrite` of a `Formatter` with its options, with `pad_integral` and `padding` of `core::fmt` written out; floats by any function of the options. FormatterSpec.v: how the documentation of `std::fmt` pads an integer, and the text of a tree with integers and floats written by given functions. Proof: every writer receives the same writes, method by method (C69), then induction on the tree (`C80_text`). No options give the text of C48 (`C80_no_options`); values without integers, floats and bytes are untouched (`C80_nothing_else`).
* **C81 What sval_serde says.** SerdeTextModel.v is SerdeErrModel.v with the message at each place that makes one, over NestedErrModel.v. SerdeTextSpec.v says, by recursion on the recursive view of a value, what comes of serializing it (`tells`). Proof: C79's exact answer at each level, then induction on the depth (`C81_exact`). Taking all messages for one error gives SerdeErrModel.v (`C81_refines`). Messages that should name a part: finding 23.
* **C82 Flattened fields.** FlatRustModel.v puts the macro (DeriveModel.v), which calls sval_flatten (FlattenModel.v), around plain Rust data and around such structs again. FlatRustSpec.v writes the struct out by hand (`written`) and says what serde_json gives with `#[serde(flatten)]` (`flat_json`). Proof: by induction on the value, that flattening puts every child where `written` has it (`lands`), C38 for the generated code, C20 and C63 for the text, C81 for sval_serde. Finding 24.
* **C83 The JSON reader without overflow checks.** ReaderWrapModel.v is the reader with the four stack methods wrapping around; `overflow_from` (ReaderWrapSpec.v) says from the bytes alone whether the counters overflow. Proof: turn by turn, the two readers do the same until a bracket overflows. Finding 25.
* **C84 Flattening without overflow checks.** FlattenWrapModel.v is the flattener with a wrapping depth counter and wrapping positions; `stray_ends` (FlattenWrapSpec.v) lists the ends that nothing began and `placed_around` the positions, which wrap around within `isize`. Proof: step by step the same until a panic; otherwise (`C84_wraps_exactly`) as for C32, with positions that always exist; around an enum, by induction over the value with the depth counter at `usize::MAX - n`. Finding 26.
* **C85 Labels and threads.** LabelThreadModel.v runs the label methods of LabelHeapModel.v in any number of threads, text read byte by byte, every access recorded. Undefined behaviour is reading or freeing a dead box, or an access that races. The borrow checker's rules (`may`) are conditions on steps: assumed, not modelled from `rustc`. Proof: an invariant: whoever can reach a label knows of every write to it and its box, every access to them is known to someone who can still reach it, and a label that borrows is only reachable by those who reach what it borrows from. `before` and `race` (LabelThreadSpec.v) are defined on the history alone; the model's race check is proved sound for them.
* **C86 Buffers and memory.** MemBufModel.v runs `ValueBuf` and `Value` on a memory of texts that can go away; borrowed fragments are addresses, a computed fragment is gone when the call returns, and reading what is gone is a fault. `borrow_checked` (MemBufSpec.v) is the borrow checker's rule, assumed: a text stays while the type of a buffer or value borrows it, and `into_owned` gives a type that borrows nothing, which is what its `unsafe` block promises. Proof: an invariant that each buffer reads as the plain buffer of BufferModel.v run on the same program, and refers only to what its type borrows.

## File conventions

`XModel.v` is the model of code; each definition cites the file and lines it
models. `XSpec.v` is specification: it mentions no machine. `XProofs.v` holds
lemmas, `XProps.v` the property theorems, with an `Example` near each showing
that its hypotheses can be met, and `Print Assumptions` at the end. Names:
`Cnn_something` is proved as stated; `Cnn_something_partial` is proved for part
of the inputs, and then `Cnn_something` is the full statement as a `Definition
... : Prop` and `Cnn_something_refuted` proves its negation from a concrete
counterexample.

## Trusted base

* Coq 8.16.1: its kernel (including `vm_compute`) and `coqc`.
* `Print Assumptions` says "Closed under the global context" for every theorem
  in MANIFEST.json: no axioms, not even of the standard library. (`vcheck` lists
  seven constants of `Coq.ssr.ssrunder`: they are parameters of a module type
  instance in the Coq distribution that `Lia` loads; no theorem
  depends on them.) Functional extensionality and classical logic are not used.
* That the model says what the Rust source says. Every model definition cites
  its lines; the simplifications are listed below and beside the definitions.
* That the specification files say what the English says. They are small:
  Tree.v, LowerSpec.v, ExtractSpec.v, FragSpec.v, BufferSpec.v, ArrayVecSpec.v,
  NoAllocSpec.v, FragNoAllocSpec.v, BufferedSpec.v, AttrSpec.v, LabelHeapSpec.v, LabelThreadSpec.v, MemBufSpec.v,
  TokenSpec.v, StdSpec.v, DeriveSpec.v, FmtSpec.v, FlattenSpec.v, NestedSpec.v,
  NestedDefaultSpec.v,
  SerdeSpec.v, SerdeFailSpec.v, SerdeTextSpec.v, JsonGrammar.v (RFC 8259), JsonSpec.v, ReaderSpec.v, ReaderFateSpec.v, MinifySpec.v, SizeSpec.v, WrittenSpec.v, the first section of
  ReadBackProps.v, Utf8.v
  (RFC 3629).

### Parameters, which theorems take as explicit hypotheses

* `ryu` and `core::fmt` float printers: `json_printer` (finite floats are printed
  as JSON numbers) where needed, or UTF-8 output only; otherwise arbitrary.
* The escapes `core::fmt` gives for non-ASCII characters in `{:?}` (C49, C50).
* Writers, streams, serializers: arbitrary state machines, failing whenever they
  like; where a restriction is needed it is a hypothesis of the theorem.

### Modelling decisions

* A value is the list of calls it makes, nested values included, and whether it
  fails on its own. Values that look at what the stream returned and go on after
  an error are modelled in AdaptiveModel.v; C62 says what carries over to them.
* `usize`/`isize` have 64 bits. Arithmetic overflow panics (overflow checks on),
  as in a debug build.
* Bytes are `ascii`; `str` is a byte list, with UTF-8 validity as a predicate.
* Floats are `spec_float` (IEEE class, sign, mantissa, exponent). NaN payloads
  are not kept.
* Lifetimes are erased; borrowed and computed fragments are distinct events, and
  LabelHeapModel.v models the raw pointers of `Label` explicitly, and LabelThreadModel.v
  their use from several threads. MemBufModel.v follows what buffers refer to, and for how long it is there.
* Memory exhaustion and stack depth are not modelled.
* Cargo features: `std`/`alloc` on; the no-alloc `TextBuf` and `BinaryBuf` (C13, C74) and `ValueBuf`
  (C57, C58) are also modelled.

## What is modelled

| Source | Model | Not modelled |
|---|---|---|
| `src/stream.rs` | Event.v, LowerModel.v (all default methods), ForwardModel.v (`&mut`, `Box`, `Computed`), AdaptiveModel.v | `Result` plumbing beyond ok/error |
| `src/value.rs` | ExtractModel.v (conversions), StdModel.v (forwarding impls) | |
| `src/data.rs`, `src/data/*.rs`, `src/result.rs` | Base.v, DataModel.v, LabelHeapModel.v, LabelThreadModel.v, StdModel.v | `Debug` of labels, indexes and tags; `Error` |
| `ref/src` | StdModel.v | |
| `dynamic/src` | ForwardModel.v, StdModel.v (values behind trait objects) | the unsafe-free trait-object plumbing, beyond which method calls which |
| `buffer/src/fragments.rs` | FragModel.v; without `alloc`: FragNoAllocModel.v | `Debug`/`Display` of the buffers |
| `buffer/src/value.rs` | BufferModel.v; without `alloc`: NoAllocModel.v, ArrayVecModel.v; references and what they outlive: MemBufModel.v | `Debug` of buffers |
| `json/src/error.rs` | JsonErrModel.v | |
| `buffer/src/error.rs`, `nested/src/error.rs` | BufErrModel.v, NestedErrModel.v: kinds, texts and sources with `alloc` | `NoAlloc` texts |
| `fmt/src` | FmtModel.v, TokenWriteModel.v, AdapterModel.v, FormatterModel.v (options of a format) | the `Display` of floats; a `Display` argument of a `TokenWrite` method is its text |
| whole programs: data, derive, output | RustModel.v, RustSpec.v, FlatRustModel.v, FlatRustSpec.v, RustSerdeSpec.v, RustFmtSpec.v | `serde_json`, derive(Serialize) and derive(Debug) are specifications written from their documentation |
| `json/src` | JsonModel.v, JsonErrModel.v, AdapterModel.v, PreencodeModel.v | `json/src/value.rs` casts of `&str` to `&JsonStr` |
| `flatten/src` | FlattenModel.v; FlattenWrapModel.v without overflow checks | |
| `nested/src` | NestedModel.v; default methods: NestedDefaultModel.v; without `alloc`: NestedNoAllocModel.v; errors: NestedErrModel.v | `Unsupported`, which has no values |
| `serde/src` | SerdeModel.v, SerdeErrModel.v, SerdeFailModel.v, SerdeTextModel.v | messages given to `Error::custom` in `to_value.rs`; the `serde` crate's traits are modelled from their documentation |
| `derive_macros/src` | DeriveModel.v, AttrModel.v (attributes) | `syn`'s parsing of tokens; generics and bounds |
| `test/src` | TokenModel.v | |
| `experiments/src/json` | ReaderModel.v, StackModel.v; ReaderWrapModel.v without overflow checks | |
| examples, benches, tests | none | |

## Findings

Each is a theorem (`_refuted` or named) or a checked example in the Props file.

1. `Label::to_owned` drops the label's tag and so does cloning an owned label
   (C12); hence `ValueBuf` loses label tags (C15).
2. `TextBuf::collect`/`BinaryBuf::collect` panic when the value itself fails
   (C14); so does `sval_fmt::stream_to_string` (C31).
3. `ValueBuf`: a fragment on an empty buffer panics (C19); `is_complete` is true
   after nothing but a tag hint (C16). Without `alloc`, the end that matches a
   refused begin panics (C58). Because label tags are lost, a `VALUE_IDENT` label
   that needs escapes is written differently in JSON after buffering (C59).
4. `42i32.to_i64()` is `None`: signed values narrower than the asked width do not
   convert (C07).
5. JSON: `NUMBER` text `0e5` loses its digit; text that is no number may panic
   or give invalid JSON (C24). `stream_to_io_write` truncates silently when the
   writer answers `Ok(0)` (C28). The internally-tagged flag leaks out of map keys
   and the next value misses its closing brace; an unnamed enum in an enum gets
   one too many (C20, C26, C27). A key under `JSON_VALUE`, `NUMBER` or
   `JSON_NUMBER` is written raw (C25).
6. `sval_fmt` writes the label of an enum again after an empty variant (C30);
   `ToFmt`'s `Display` swallows writer errors (C48),
   and so loses failures of a stream it is adapted back into (C60).
7. `sval_flatten`: `map_key_end` of a nested map arrives as `map_key_begin`; a
   tagged value around an enum underflows the depth and panics (C32); numeric
   parts of keys overwrite text (C34); `isize` overflow of indexes panics (C33).
8. `sval_nested`: a tuple or record in an enum in an enum panics; `enum_begin`
   directly followed by `enum_end` does not return (C36); sequences rebuilt from a buffer lack
   `seq_value_begin/end` (C35); a failure after the value is complete is lost (C36).
9. `sval_serde`: tagged values without a static label (arrays, big numbers) are
   an error, nested enums are not supported, unnamed records become tuples, null
   becomes `None`, `char` becomes a string (C37).
10. Derive: index attributes and flattened fields collide (C39); an index
    attribute on a variant is not seen by the numbering of later variants, and a discriminant given by a path
    mis-numbers the variants after it (C52); `tag()` of a transparent newtype is
    `None` (C38). Labels on variants of `dynamic` and `unlabeled_variants` enums
    and tags on flattened fields and fields of sequences are accepted and ignored;
    attribute values on skipped fields are not checked; the least `isize` cannot
    be an index or discriminant, nor the greatest a discriminant (C61).
11. A `NaN` token is never equal to itself, so no test of it passes (C44).
12. The reader's two-counter stack overflows (and panics) at 104 nested
    containers of a suitable pattern (C41). The reader panics on every escape other than `\n \r \" \\`,
    thus on the writer's own output for tabs and control characters, on `1E5`,
    on `{"a":1,}` and on a lone quote (C54). It accepts `[1 2]`, `[1,]`, `1 2`,
    the empty text and strings that never end (C55).
13. The entry points trust the value: one that ignores the failure of a call makes
    `stream_to_string` return `Ok` with broken JSON, and an `io` error is not
    reported (C62).
14. "serde-compatible" JSON: a derived unit struct is written as its name, where
    serde_json writes `null`; a map whose key is a newtype or unit variant and
    whose value is a struct comes out as broken JSON, `{"7":{"User":{"name":"x"}}`
    (C63, the leak of finding 5 in plain derived data).
15. `ToSerialize` of a Rust array is an error for every serializer, so a derived
    struct with an array field cannot be serialized (C64).
16. `ToFmt` is not derive(Debug) for floats (`1` for `1.0`), `char`s (`"a"`),
    strings with `'`, non-empty maps (`{ 1: true }`), one-tuples, empty tuple and record
    structs, and enums around an empty variant (`A([])E`) (C65).
17. Without `alloc` a `char` anywhere in derived data is an error through
    `sval_serde`, although the documentation says derived values need no
    buffering; and values that need buffering panic in debug builds, where the
    documentation promises errors (C66).
18. `TokenWrite::write_map_value_begin` is told `is_first` by a flag that streaming the
    key may have changed: with a non-empty container, a tag or an enum as the first key it
    gets `false`, and with an empty container as a later key `true`
    (`fmt/src/writer.rs:284-290`; `C69_documented_calls_refuted`). The default ignores the
    argument, so only implementations overriding that method see it.
19. `ToSerialize` replaces the serializer's error by `S::Error::custom` when it is
    raised by an element, key, value or field, or by beginning a container that is
    not empty (C76). An I/O error of the writer under `serde_json`, say, arrives as
    `failed to serialize sequence element`; code that matches on the error kind
    misses it. At the top level, and in options and newtypes, errors are kept.
20. A named newtype variant under `NUMBER`, `JSON_NUMBER` or `JSON_VALUE`, and any array or
    object under one of them, fails as `attempt to serialize a non-string key` although
    there is no map (C77).
21. `sval_nested` replaces an error of the user's own stream by "failed to stream value" when the
    content of an enum is handed over through `value` or `value_computed`
    (`nested/src/flat.rs:184-185, 198-199`), but passes it on when the same content is streamed by
    direct calls (C79). And whether the value itself returns an error makes no difference at all
    to the outcome: only the calls it made count (`C79_own_failure_ignored`).
22. `ToSerialize` fails a `Some` whose value gives up before the serializer hears of
    `serialize_some`, for the value is buffered first; of `Some(Some(v))` it hears twice before `v`
    fails (`C37_same_failures_refuted`, `C37_giving_up_exact`). Only a serializer that goes on after
    the failure of a child can tell; the others fail in both cases (`C37_giving_up_fails`).
23. `ToSerialize` reports a struct field that cannot be serialized as "failed to serialize tuple
    field" (`serde/src/to_serialize.rs:417-419`), the message of tuples; and a unit variant without a
    32-bit index as "unit variant index must a 32bit value" (503), one word short
    (`C81_names_the_part_refuted`, `C81_parts_exact`).
24. **A struct with a flattened field is not the struct written out.** The macro gives
    no number of fields when any is flattened (`stream_record_tuple.rs:104-107`), and
    sval_serde needs one: it refuses every such struct with "missing struct len"
    (`C82_serde_refuses`), whatever the serializer. In JSON a flattened struct variant
    loses its name where serde writes `"Variant":{..}` (`C82_json_refuted`,
    `C82_struct_variant`), and a map inside a flattened value comes out as
    `{"k,"3}` (`C82_nested_map`, from C32). Otherwise the text is that of serde_json
    (`C82_json_partial`).
25. **Without overflow checks the JSON reader accepts texts whose brackets do not
    nest.** Where a debug build panics on `1 + u64::MAX` (finding on C41), a release
    build computes 0: opening and closing containers of one kind goes unnoticed from
    then on. A text 105 containers deep with a brace that is never closed is accepted,
    and the calls made begin a map that never ends (`C83_no_value`,
    `C83_accepted_texts_nest_refuted`). Up to 63 levels both builds agree on every
    text (`C83_shallow_texts`).
26. **Without overflow checks, flattening an option of an enum ends something that
    nothing began** (`flatten/src/flattener.rs:139`). Where a debug build panics
    (finding on C32), a release build sends the outer stream the `tagged_end` of the
    `Some` after the fields (`C84_flatten_exact`, `C84_ends_what_nothing_began`). In
    JSON, a struct whose first field is a flattened `Some(E::Unit)` is written
    `{"Some","c":1}`, which is not JSON (`C84_json_broken`).

## Wrong programs

`seeded/LOG.jsonl` records edits of the model that imitate realistic bugs, with
the theorems that no longer prove. Where an edit went unnoticed, the theorem
tightened in response is named.
