# Formal model of chomp in Rocq (Coq 8.16.1)

Sources: `/repo` (llogiq/chomp at the pinned commit), read as text only.
Properties: `properties.jsonl` (C01, C02, ...). Status per property: `MANIFEST.json` (written by `tools/manifest.py`
from the theorem names and `tools/notes.json`). Tests of the theorems against wrong programs: `seeded/LOG.jsonl`.

## 1. Trusted base

* The Coq 8.16.1 kernel (and `coqchk`).
* `Print Assumptions` is run on every property theorem in the `Props*.v` files. Every one answers
  "Closed under the global context": no theorem depends on any axiom, none of the standard library's either.
  (`coqchk` on the whole library also reports constants of `Coq.ssr.ssrunder`, axioms by design of the standard
  library that are loaded with `lia`; no theorem uses them.)
* The hand translation from Rust to Gallina. Every definition of the model cites the file and lines it models and
  states its simplifications in the comment (`tools/cites.py` checks the citations). For src/input.rs,
  src/parse_result.rs, src/parse.rs, src/parsers.rs, src/combinators/*.rs and src/buffer/*.rs, C87 and C88 take the place of this trust:
  there `tools/rust_text.py` writes the Rust text down as a syntax tree (`RustText.v`, `BufferText.v`; check with
  `python3 tools/rust_text.py /repo | diff - rocq/theories/RustText.v` and
  `python3 tools/rust_text.py /repo buffer | diff - rocq/theories/BufferText.v`),
  and the model is proved to be its meaning. What is trusted instead is that program and the interpreter `Rust.v`: types are not
  checked, values have no addresses, `drop` does nothing. For the other files nothing ties the Gallina text to the Rust text mechanically. As evidence,
  `Conformance.v` replays the assertions of the crate's own unit tests on the model: those of src/parsers.rs, src/combinators/*.rs
  translated by `tools/conformance.py` (320 assertions), those of src/input.rs, src/parse_result.rs, src/parse.rs, src/ascii.rs
  and src/buffer/stateful.rs by hand (without the call counters). `ConformanceMacro.v` replays all 44 tests of src/macros.rs (97
  assertions, translated by `tools/macro_tests.py`: the invocations as token trees, the emitted code run); `ConformanceDocs.v` the
  examples in the documentation, by hand.
* Rust semantics used in the translation: evaluation order, slices as values, `Vec`/`Iterator`/`FromIterator`
  from std, the `conv` crate's `value_from` being the exact injection, floats following IEEE 754 (C69 only), `bitflags` being bit sets, closures.
* For `parse!`: the matching of `macro_rules` (first rule that matches, a failing `$e:expr` is an error).

## 2. Modelling decisions

* **Items and slices.** Item type `I` is an arbitrary `Type`; `==` on items is an arbitrary boolean function unless a
  theorem says otherwise (Rust's `PartialEq` promises nothing more). A slice is the list of its items: addresses are
  not modelled (only lengths and contents are ever used by the code, apart from lifetimes). `Place.v` is the model
  with addresses; C82 shows that the two agree on contents and says where the slices lie.
* **Input** `Input(mode, slice)` is a record with the END_OF_INPUT bit and the list. Linearity (`#[must_use]`,
  no `Clone`) is a static discipline, modelled for clients only (`Client.v`, C65).
* **ParseResult/State**: `Data | Error | Incomplete`, plus two outcomes a *call* can have: `Panic` (the Rust code
  panics) and `NoFuel` (the model's loop budget ran out: used to speak about non-termination).
* **usize** is `nat` in the main model: no wrap-around, a debug build, allocation never fails. Integer parsing in `ascii` has widths, debug
  panics and release wrapping. `Word.v` repeats the arithmetic of buffers and streams for an arbitrary machine (word size, build
  mode, greatest vector); C43 relates the two models, so that the theorems about streams carry over where the numbers fit.
* **Loops** take fuel; separate theorems show when it suffices, that more fuel changes nothing, and when no fuel suffices.
* **FnMut** parsers are state-passing functions `S -> input -> pres * S`; plain parsers are the case `S = unit`.
  The predicates and continuations handed to primitives and combinators are pure there. `Effects.v` models them as actions on a
  world (any type) which may panic: what they do to the outside, and to each other, is visible in the world. Collections do not act
  on it.
* **FromIterator** is an arbitrary state machine which may call `next()`, `size_hint()`, finish at any time, or
  go on after `None`. `Vec` is one instance.
* **Buffers**: backing memory is a list of optional items (`None` = never written). `Vec::reserve` may give more than asked for:
  by how much is decided by an arbitrary function. Exposing a `None`, or copying outside the memory, is the outcome `Undefined`;
  handing an uninitialised slice to `read` for writing is not counted as such. Debug build: a failing `debug_assert!` or an
  underflow of `usize` is `Panicked`. (A parser which returns a longer remainder than it got thus panics in `parse`; in a release
  build, see `Word.v`, it "unconsumes" data.) `Unwind.v` models the state in which a panicking call leaves a buffer
  or stream, for programs that catch panics. `deref_mut` is modelled as writing all visible items.
* **DataSource**: an arbitrary state machine; one read returns the items it wrote to the slice and the count it
  claims, or an I/O error (possibly after scribbling). Contract: count <= written <= slice length and a count of 0 for a
  non-empty slice only at the end of data (C86 is without the latter). `read` may panic in `Unwind.v` only.
* **io::Error** is opaque; inlining attributes are not modelled. `verbose_error` is a boolean parameter. The texts of `Debug`/`Display`
  for the crate's own error types are in `Messages.v` (derived `Debug` in its one-line form), the benchmarks in `Bench.v`.
* **parse!**: token trees are modelled; a term's inner `$expr` tokens are opaque. The emitted code has a semantics with one value and
  one error type; `ret` and `err` are keywords (as the macro treats them).
* **HTTP**: the format is that of the example, which is laxer than RFC 2616 in places (refutations beside C41).

## 3. Files (rocq/theories)

Model (no proofs): 

| file | models |
|---|---|
| `Base.v` | src/input.rs, src/parse_result.rs, src/parse.rs |
| `Parsers.v` | src/parsers.rs |
| `Combinators.v` | src/combinators/{macros,bounded,mod}.rs, and of std: `FromIterator`, `Vec`'s implementation of it |
| `Ascii.v` | src/ascii.rs, machine integers |
| `Buffer.v` | src/buffer/{buffer,data_source}.rs |
| `Stream.v` | src/buffer/{stateful,slice,mod}.rs |
| `Macro.v` | src/macros.rs: expansion of token trees, and the meaning of the emitted code |
| `Http.v` | examples/http_parser.rs |
| `MacroHttp.v` | the invocations of `parse!` in examples/http_parser.rs as tokens, to compare with `Http.v` |
| `Derived.v` | the derived `PartialEq`, `Ord`, `Hash` of all types, and what the derived `Debug` of buffers reads |
| `Word.v` | src/buffer/{buffer,stateful,slice}.rs again, on machines with finite words, in debug and release builds |
| `Unwind.v` | src/buffer/{buffer,stateful,slice,data_source}.rs once more, with the states that caught panics leave behind |
| `Effects.v` | src/{parsers,parse_result}.rs, src/combinators/*.rs and the calls of `parse` once more, with callbacks that act on a world and may panic |
| `Numbers.v` | `decimal` and `signed` of src/ascii.rs for any number type |
| `BufferText.v` | The functions of src/buffer/data_source.rs, src/buffer/buffer.rs, src/buffer/slice.rs, src/buffer/stateful.rs as syntax; written by `tools/rust_text.py` |
| `BufferTextModel.v` | How streams, buffers and sources of the model stand as values of the interpreter; data sources, buffers and parsers from outside the crate |
| `Rust.v` | The part of Rust the text needs: syntax, and an interpreter with fuel (std's `Option`, slices, iterators, `mem::replace`, `FromIterator`) |
| `RustText.v` | The functions of src/input.rs, src/parse_result.rs, src/parse.rs, src/parsers.rs, src/combinators/mod.rs, src/combinators/bounded.rs as syntax; written by `tools/rust_text.py` |
| `TextModel.v` | How values of the model stand as values of the interpreter; closures, parsers and collections from outside the crate |
| `Format.v` | The parser of a format: src/parsers.rs:45-388, src/parse_result.rs:142-204, src/combinators/mod.rs:58-344, src/combinators/bounded.rs:717-745 |
| `Docs.v` | The programs in the documentation: src/lib.rs:22-158, src/macros.rs:27-96, src/parse_result.rs:409-417, src/buffer/mod.rs:19-24, README.md |
| `Place.v` | src/parsers.rs, src/combinators, src/ascii.rs, src/parse.rs, src/buffer/slice.rs once more, with the address and the length of every slice |
| `MacroEffects.v` | the code emitted by `parse!` with user code that acts on a world and may panic |
| `Nested.v` | `Source` as the `io::Read` of another `Source` (src/buffer/stateful.rs:54-56, 170-183, src/buffer/data_source.rs:27-50) |
| `PegMeter.v` | the closures of `Peg.v` with a counter for calls of closures, predicates and `PartialEq` (specification device, over `Effects.v`) |
| `Peg.v` | grammars written with the library: one call per expression, recursive functions as rules (src/combinators/mod.rs:34-364, src/parsers.rs, src/parse_result.rs:110-183) |
| `Floats.v` | IEEE 754 binary floats (integers, infinities, not-a-number) as a number type of src/ascii.rs:123-163 |
| `Client.v` | clients of the public interface: bodies of functions and closures which move inputs and results (`src/input.rs`, `src/parse_result.rs`, `src/parse.rs`, combinators from Effects.v) |
| `Bounds.v` | the bounds of src/ascii.rs:123-125, 150, 161, conv's `ValueFrom` between integer types |
| `StdIo.v` | std's `read_exact`, `read_to_end`, `read_until` over src/buffer/stateful.rs:170-199 |
| `Meter.v` | src/buffer/buffer.rs:120-165, 227-289 with counters for `ptr::copy`, allocations and items received |
| `Bench.v` | benches/combinators.rs, benches/http_bench.rs |
| `Messages.v` | `Debug`, `Display`, `description` of src/parsers.rs, src/parse.rs, src/parse_result.rs, src/buffer/mod.rs; panic messages of src/parse_result.rs |

Specifications (they do not use the model's helpers), lemmas, and property theorems:

| area | specification | lemmas | theorems |
|---|---|---|---|
| C01-C08, C10-C12 | `SpecBase.v` | `BaseProofs.v` | `PropsBase.v` |
| C13-C21 | `SpecIter.v` (repeated application), `SpecCollect.v` (what a collection sees), `SpecSep.v` (separators, termination), `SpecTill.v` (many_till with a stateful end) | `IterProofs.v`, `ManyProofs.v`, `TillProofs.v`, `TillStateProofs.v`, `CollectProofs.v`, `SkipProofs.v`, `SepProofs.v`, `TermProofs.v`, `CountProofs.v` | `PropsIter.v` |
| C22-C24 | `SpecAscii.v` (decimal notation) | `AsciiProofs.v` | `PropsAscii.v` |
| C09, C25, C26 | `SpecSafe.v` (expressions of the library) | `SafeProofs.v`, `StableProofs.v` | `PropsSafe.v` |
| C27-C29, C39 | `SpecBuffer.v` (queue, sources) | `BufferProofs.v` | `PropsBuffer.v` |
| C28, C30-C38 | `SpecStream.v` (histories, programs) | `StreamProofs.v`, `SimProofs.v`, `HistoryProofs.v` | `PropsStream.v` |
| C40 | `SpecMacro.v` (the documented EBNF and prose) | `MacroProofs.v` | `PropsMacro.v`, `PropsMacroHttp.v` |
| C41, C42 | `SpecHttp.v` (the format) | `HttpProofs.v`, `HttpStreamProofs.v` | `PropsHttp.v` |
| C46 | `SpecFeature.v` (program texts in two builds) | `FeatureProofs.v`, `FeatureStreamProofs.v` | `PropsFeature.v` |
| C47 | `SpecLimit.v` (limited buffers, modest demands) | `LimitProofs.v`, `LimitTightProofs.v` | `PropsLimit.v` |
| C48, C49 | `SpecDerived.v` (laws of Eq, Ord, Hash) | `DerivedProofs.v` | `PropsDerived.v` |
| C43-C45 | `SpecWord.v` (machines, builds, all calls) | `WordProofs.v`, `WordSafeProofs.v`, `FrugalProofs.v`, `WordLimitProofs.v` | `PropsWord.v` |
| C51 | `SpecReads.v` (sources whose calls are written down) | `ReadsProofs.v` | `PropsReads.v` |
| C52 | `SpecGather.v` (what a collection does with its items) | `GatherProofs.v` | `PropsGather.v` |
| C53 | `SpecEffects.v` (calls of user code in order, expressions over worlds) | `EffectsProofs.v`, `EffectsIterProofs.v`, `EffectsStreamProofs.v`, `EffectsExprProofs.v` | `PropsEffects.v` |
| C54 | `SpecNumbers.v` (types that calculate like the integers) | | `PropsNumbers.v` |
| C55 | `SpecMacro.v`, `SpecSafe.v`, `SpecStream.v` | `MacroProofs.v`, `StableProofs.v` | `PropsMacroStream.v` |
| C56 | `SpecMessages.v` (telling apart, decimal numbers) | `MessagesProofs.v` | `PropsMessages.v` |
| C57 | `SpecIter.v`, `SpecHttp.v` | `ManyProofs.v`, `HttpProofs.v` | `PropsBench.v` |
| C58 | `SpecMeter.v` | `MeterProofs.v` | `PropsMeter.v` |
| C59 | `SpecMixed.v` | `MixedProofs.v` | `PropsMixed.v` |
| C60 | `SpecAscii.v` | `AsciiProofs.v` | `PropsBounds.v` |
| C61 | `SpecOpaque.v` (program texts over two item types) | `OpaqueProofs.v`, `OpaqueStreamProofs.v` | `PropsOpaque.v` |
| C62 | `SpecLaws.v` (same outcome with every large enough budget; shifted ranges) | `LawsProofs.v` | `PropsLaws.v` |
| C63 | `SpecBuffer.v` (the contract), `SpecAnyBuffer.v` (buffers that keep it and that do not) | (the generic lemmas of C28 to C35 and C59) | `PropsAnyBuffer.v` |
| C64 | `SpecPaced.v` | `PacedProofs.v` | `PropsPaced.v` |
| C65 | `SpecClient.v` | `LinearProofs.v`, `ClientProofs.v` | `PropsClient.v` |
| C66 | `SpecLoop.v` | `LoopProofs.v` | `PropsLoop.v` |
| C67 | `SpecChain.v` | `ChainProofs.v` | `PropsChain.v` |
| C68 | `SpecAttempts.v` | `AttemptsProofs.v` | `PropsAttempts.v` |
| C69 | `SpecFloats.v` | `FloatProofs.v` | `PropsFloats.v` |
| C70 | `SpecPeg.v` | `PegProofs.v`, `PegTotal.v` | `PropsPeg.v` |
| C71 | `SpecPeg.v` | `PegTotal.v` | `PropsPeg.v` |
| C72 | `SpecBlame.v` | `BlameProofs.v` | `PropsBlame.v` |
| C73 | `SpecBnf.v` | `BnfProofs.v` | `PropsBnf.v` |
| C74 | `PegMeter.v`, `SpecBnf.v` | `TimeProofs.v`, `Ll1Linear.v` | `PropsTime.v` |
| C75 | `SpecWork.v`, `SpecBnf.v` | `WorkProofs.v` | `PropsWork.v` |
| C76 | `SpecLines.v`, `SpecBlame.v` | `LinesProofs.v` | `PropsLines.v` |
| C77 | `SpecBuffer.v`, `SpecStream.v` | `SimProofs.v` | `PropsNested.v` |
| C78 | `SpecUnfold.v` | `UnfoldProofs.v` | `PropsUnfold.v` |
| C79 | `SpecKeep.v` | `KeepProofs.v` | `PropsKeep.v` |
| C80 | `SpecMacroEffects.v` | `MacroEffectsProofs.v` | `PropsMacroEffects.v` |
| C81 | `SpecUse.v` | `UseProofs.v` | `PropsUse.v` |
| C82 | `SpecPlace.v` | `PlaceProofs.v` | `PropsPlace.v` |
| C83 | `SpecDocs.v` | `DocsProofs.v` | `PropsDocs.v` |
| C84 | `SpecFormat.v`, `SpecFormatStream.v` | `FormatProofs.v`, `FormatStreamProofs.v` | `PropsFormat.v` |
| C85 | `SpecCatch.v` | `CatchProofs.v` | `PropsCatch.v` |
| C86 | `SpecFollow.v` | `FollowProofs.v`, `WaitProofs.v` | `PropsFollow.v` |
| C87 | `Rust.v`, `RustText.v`, `TextModel.v` | `TextProofs.v`, `TextComb.v`, `TextLoop.v`, `TextSkip.v`, `TextMany.v`, `TextTill.v`, `TextSep.v` | `PropsText.v` |
| C88 | `BufferText.v`, `BufferTextModel.v` (and `Rust.v`) | `TextWp.v`, `BufferTextProofs.v`, `BufferTextSource.v`, `BufferTextParse.v`, `BufferTextRead.v`, `BufferTextInst.v` | `PropsStreamText.v` |
| C89 | `SpecTextHistory.v` (and those of C88) | `TextHistoryProofs.v` | `PropsTextHistory.v`, `PropsTextSlice.v` |
| C90 | `SpecTextAny.v` (and those of C89) | `TextAnyProofs.v` | `PropsTextAny.v`, `PropsTextAnySlice.v` |
| C44, C50 | `SpecUnwind.v` (histories with caught panics) | `UnwindProofs.v` | `PropsUnwind.v` |

A theorem `Cnn_..._refuted` shows that the faithful model violates a claim: it exhibits the violation.
A theorem `Cnn_..._partial` proves less than its claim (the rest is false for the code, see the `_refuted` theorems of the same claim); what is missing is said beside it and in the manifest.

### Not modelled

* The texts of `Debug` for types other than the errors (of the buffers only what `Debug` reads), attributes, the timing loop of `Bencher`.
* Lifetimes (a static discipline). Linearity is modelled for clients in `Client.v` (C65).
* rustc's matching of `$expr`, `$ty`, `$pat` (abstract, with stated laws), its recursion limit, hygiene, type checking.

## 4. Plan per property

* C01, C02: `bind` takes the `From` conversion explicitly; case analysis. Associativity: iff on the commuting conversions.
* C03-C08: executable model of each primitive; specification by `++`, `Forall`, first-mismatch index; outcome iff.
* C09, C25, C26: an inductive predicate generating all parsers that can be built from the library (continuations
  are arbitrary functions from values to built parsers); induction. Unsafe-for-streaming parsers (`peek`, `eof`,
  `take_remainder`, general `many_till`) are excluded from C25/C26 and counterexamples proved.
* C10-C12: case analysis plus laws.
* C13, C14, C16, C17, C18: relational big-step specification of repeated application (independent of iterators); the model
  goes through the iterator/collector machinery of the macros. Soundness and completeness by induction.
* C15, C21: invariant over arbitrary collector state machines.
* C19: expected to be refuted by the faithful model for `..b` and for `a..a`; exact conditions otherwise.
* C20: fuel adequacy, monotonicity, divergence.
* C22-C24: decision over all bytes; digits through an independent printer (Coq's `Decimal`), widths through Z ranges.
* C27-C30: invariants over operation histories; conservation equation `before ++ delivered = consumed ++ after`.
* C31, C32: simulation between Source+retry and SliceStream for stable parsers; measure = data left + fault budget.
* C33: holds when requests fit; refuted in general (a full FixedSizeBuffer or a GrowingBuffer over its limit reports end).
* C34-C39: case analysis / induction on reads.
* C40: token-level model of the munching rules, EBNF as inductive relation, equivalence by strong induction.
* C41, C42: grammar-directed printer for requests, round trip, then C31.
* C46: a program text is a family of parsers indexed by the feature flag; the two members are run in lock step.
* C47: lock step of a limited and an unlimited buffer while the capacity is within the limit; invariant `lean` bounds the capacity.
* C48: lexicographic products of lawful comparisons. C49: expected to be refuted; exact conditions, and an invariant once all is written.
* C43-C45: the operations of two builds are related step by step (equal unless the debug build panics); invariants that survive
  wrap-around for the absence of undefined behaviour; refutations for the additions that are not checked.
* C51: the request of a Source is justified by the verdict of the parser it was made for (C26); induction over the fill loop.
* C52: a collection that takes everything is followed item by item alongside `Vec`; the iterators of `bounded.rs` are fused, that of
  `many_till` is not.
* C53: the world is threaded through every call; each primitive against a specification of calls in a row; a preorder on worlds kept by
  all callbacks is kept by every expression of the library; the pure model is the case of answers that do not depend on the world.
* C54: the operations of the type are parameters; induction over the digits with the value read so far; a relation between two types is
  kept by every step.
* C55: code emitted for a phrase looks at one input only; any set of parsers closed under ret, err, map, bind and or contains the blocks whose
  terms it contains; then C31.
* C56: texts are strings; what stands in front of a comma or bracket is determined because it contains none; decimal numerals by induction on
  their length.
* C57: C13 and C20 give the outcome of a repetition, C41 that of a request; a `SliceStream` over everything is at the end of input.
* C58: what buffers move: a meter counts the copies of `request_space`; the amount moved is paid for by the items received since the last move (potential argument over all histories); worst cases for `fill_buf` and look-ahead in closed form.
* C59: parsing and reading the same Source: programs mixing `parse`, `read` and std's `read_exact`, `read_until`, `read_to_end` give the answers of a reference over the list of data; single calls by induction over the retries, whole programs by induction over the program.
* C60: the type bounds of the number parsers: conv's table of lossless conversions against the ranges of the types, for every width; what compiles never meets a conversion error, so C23/C24 apply to every program that compiles.
* C61: relational parametricity: a program text over two item types is run in lock step, parsers, combinators, both buffers (memory slot by slot) and the whole interface of Source; renaming, no invented items and carried data follow.
* C62: laws between combinators: ranges, runs of items, factoring of alternatives, look_ahead, option and matched_by; with counterexamples to laws that look as good but fail.
* C63: a Source over any implementation of the trait `Buffer` that keeps a contract stated independently of the two in the crate.
* C64: a Source driven by hand: explicit `fill`, `set_autofill` and `reset` at any time between the calls of `parse`.
* C65: clients which hold inputs and results in variables and move them about (linearity of `Input`).
* C66: the loop `while let Ok(t) = stream.parse(p)` and `many(p)`.
* C67: calls of `parse` one after the other and the same parsers put together with `bind`; induction over the chain.
* C68: requests of a parser along extensions of its input; induction over the expression, and over the calls of a Source.
* C69: rounding proved to be the nearest float by cases on the unit in the last place; errors by induction over the digits.
* C70: from derivations to parsers by induction over the derivation, with the number of items looked at; back by induction over the budget and the expression.
* C71: derivations exist by induction over the length of the text, the rank of the rule and the expression; over a Source by C63 and C66.
* C72: by induction over the relation which finds the cause, with C70 for the parts that succeed; streaming by C25.
* C73: what a derivation consumes is a phrase, by induction over derivations; the converse by induction over phrases, with FIRST and FOLLOW; where the next item does not start an expression, it fails after a look at one literal at most; what is not looked at does not matter, which bounds the requests (with C26).
* C74: the parsers with a meter are related to a cost relation on texts; by induction over it each expression either does next to nothing (its first item is not there), or reads a phrase at a price proportional to its length, or has found an error, after which nothing more is read; potential A per item, weights per expression and rank of the rules.
* C75: potential argument over the sequence of calls: a call which gives a value and is followed by another one costs A per item consumed (C74), since the rest begins with an item which may follow; the others cost A per item of the buffer, and are counted; retries are bounded by the items still to come, each asking for at least one.
* C76: induction over derivations: an expression whose terminals match no end of line looks no further than the end of its line and leaves it; errors stand at or before it by C72; the program is then followed line by line on the slice, and C63 carries it over to a Source.
* C77: the read of a Source keeps the relation "buffered items, then what the own source delivers"; so it meets the contract of data sources, and C63 applies to the outer Source; by repetition to towers of Sources.
* C78: the outcome relations of C20 are unfolded by their first application; where stopping is allowed the rest cannot fail, which gives the form with or; uniqueness by induction on the length of what is left.
* C79: a parser with a world is turned into one that shows the world it leaves with its value or error; then the simulation of C31 applies call by call; firmness of expressions by induction, loops by the simulation of iterators of C25, which here keeps track of the world also where a callback panics.
* C80: the phrase of an accepted block (C40) is given a meaning with a world; the emitted code is shown to have it by induction over the phrase; then the user code is made to note each run in the world and the record is compared with the pieces of the text.
* C81: the invariant of C64 (buffer and source together hold what remains, flags and request are right) is kept by every call of the interface; each call, and each call left by a caught panic of the parser, is explained from it; explanations are unique.
* C82: every parser and combinator is related to its copy with addresses, by a relation that also says where remainders lie in the input; loops by the relation between iterators of C61.
* C83: the possible outcomes of each program are listed by an inductive relation on the text; the program is shown to produce each, and the list to cover every text. The text of the programs goes through the model of `parse!`.
* C84: a format says which text a value is written as, by recursion on the format and without the library; its parser is one library call per constructor. Each combinator keeps four facts (texts start, are read back, other texts are refused, an answer is given), so the induction on the format is short; the facts for loops come from the outcome relations of C01 to C05. Stability (C26) carries the result to streams.
* C85: turn every panic of a data source into an error of a number of its own. The calls of a Source with the panicking source are then those with the failing source, the error turned back into a panic; this needs no invariant. Programs that call again after caught panics inherit C43.
* C86: as C31, with a budget of pauses beside that of errors, and a measure in which a pause pays for the calls after the `reset`. At a pause the parser has been run with the end-of-input flag on data that is not all; a parser that does not take the end for an answer then asks for more.
* C87: the Rust text as a syntax tree with an interpreter in continuation-passing style. One symbolic run per function; for the loops one lemma per round, then induction over the fuel of the model; calls between functions of the text by their own lemmas.
* C88: as C87, for src/buffer/*.rs, with variables that are written through references. Rules of a weakest-precondition calculus for the interpreter (`TextWp.v`) where a function calls others; the methods of `Source` are proved from an interface of the buffer in it, which the two buffers of the text and any other meet.
* C89: induction over the calls made on the text: by C88 each of them ends as the call of the model, so that the invariants of the histories of the model (C28, C30) hold of the values of the text.
* C90: the invariant (the buffer is sound and shows an end of what was delivered) over the calls made on the text with any parser; the checked subtraction in parse and the assertion in consume turn everything else into a panic.
* C50: the calls return or unwind with a state; the invariants of C44 hold in both; case analysis for the effect of a panicking parser.
