{
 "C01": [
  "proved",
  "Associativity holds exactly when the From conversions commute (stated as iff); unconditional for one error type."
 ],
 "C13": [
  "proved",
  "For every range admitting some count, plus 0..0 and ..0. The claim is false for a..a with a > 0, which the assertion lets through: C13_equal_bounds_never_succeed."
 ],
 "C16": [
  "partial",
  "Proved in lock step for every range and parser except two cases in which the code really differs from many; both are refuted by C16_exact_incomplete0_refuted (shadowed n) and C16_equal_bounds_refuted (a..a)."
 ],
 "C17": [
  "proved",
  "sep_by = option(sep_by1) needs parsers that keep the input mode (every parser built from the library does); C17_sep_by has no such condition."
 ],
 "C18": [
  "partial",
  "Proved for all ranges, also with a stateful end (C18_stateful_*), except that for ..b an end succeeding before the maximum panics: exact description in C18_many_till_to / C18_stateful_to. The code runs end twice at the maximum of a..b: invisible when a failed end goes on failing (C18_stateful_once), visible otherwise (C18_once_refuted)."
 ],
 "C19": [
  "partial",
  "Proved for a..b (a < b), a.., .., n, any state. Refuted for ..b (exact condition C19_to_panics_iff) and a..a (C19_equal_bounds_refuted)."
 ],
 "C20": [
  "proved",
  "Fuel counts iterator steps. Applications are counted for many, skip_many, many_till (parser and end) and sep_by (parser and separator); the counts are shown tight by examples. For a..b the end parser of many_till runs up to max + 2 times."
 ],
 "C21": [
  "partial",
  "Upper bound: always, for every collection. Lower bound: in iterations that succeed; refuted otherwise (C21_lower_refuted)."
 ],
 "C24": [
  "partial",
  "Proved for every signed width; the part 'every value can be parsed back' is refuted for the least value in debug builds (C24_least_refuted), and proved for it in release builds."
 ],
 "C09": [
  "proved",
  "Induction over all expressions (SpecSafe.built). Excluded: a user asking for zero items (C09_incomplete_zero_refuted)."
 ],
 "C25": [
  "proved",
  "Stream-safe expressions are SpecSafe.safe. What is left out of it is refuted: peek, take_remainder, eof, and many_till whose end is undecided where the item parser is not."
 ],
 "C28": [
  "proved",
  "For sources whose returned count does not exceed what they wrote (obeys); without it false: C28_lying_source_refuted. For Source: C28_source_fixed/_growing over every history of calls."
 ],
 "C29": [
  "proved",
  "With a limit only while the capacity stays within it. Beyond the statement: over-limit buffers (C29_over_limit_refuted, C29_limit_exceeded_refuted) and zero-sized items, whose vectors have capacity without length, so that no room is ever made (C29_zero_sized_refuted)."
 ],
 "C31": [
  "proved",
  "Slices inside ParseError are compared by C31_slices and C31_slices_fixed: on a Source the slice is the part of the remainder read so far. Needs the stream-safety hypotheses: parsers succeeding without input are excluded (C31_no_input_refuted); full FixedSizeBuffer and over-limit GrowingBuffer differ (C31_fixed_full_refuted, C31_limit_refuted). For a limit that is large enough see C47."
 ],
 "C32": [
  "proved",
  "For parsers asking for at least one item; C32_asks_nothing_refuted shows endless retries otherwise."
 ],
 "C33": [
  "partial",
  "Proved for an unlimited GrowingBuffer in every history, and for a FixedSizeBuffer if the parsers need at most its size. The code violates the claim otherwise: a FixedSizeBuffer that is full marks its slice as the last (C33_fixed_full_refuted), and so does a GrowingBuffer over its limit (C33_limit_refuted). For a limit that is large enough see C47."
 ],
 "C35": [
  "partial",
  "Proved for FixedSizeBuffer (a read may stop at the buffer size) and unlimited GrowingBuffer, except fill_buf while the capacity is 0, which really reports a false end (C35_fill_buf_refuted); over its limit a GrowingBuffer reports a false end to read (C35_limit_refuted). For a limit that is large enough see C47."
 ],
 "C36": [
  "partial",
  "The code violates the claim: reset switches automatic filling off (C36_autofill_refuted). Proved: data kept, and after reset plus set_autofill(true) parsing continues exactly with the unconsumed data, from every history state."
 ],
 "C38": [
  "proved",
  "Relative to lawful comparisons of items and errors (PartialEq arguments)."
 ],
 "C40": [
  "partial",
  "Proved for every token sequence: the macro accepts exactly the grammar, provided Rust code inside a term has no operator outside parentheses and a trailing ';' is allowed; derivations are unique and the emitted code does what the phrase means. rustc's own fragment matching ($expr, $ty, $pat) is an abstract parameter with stated laws. To the letter the claim is false: trailing ';' and the empty block are accepted (C40_outside_refuted), Rust code containing '>>' (a shift, or nested generics in 'ret @ ty') is rejected though the EBNF derives it (C40_shift_refuted). C40_http: the macro turns the tokens of the six invocations in examples/http_parser.rs into the parsers of Http.v. Not modelled: the recursion limit of rustc."
 ],
 "C41": [
  "proved",
  "The format is SpecHttp.message. C41_one_line_refuted and C41_control_refuted record where that format, hence the example, is laxer than RFC 2616: a URI may contain line ends, DEL is a token character."
 ],
 "C42": [
  "partial",
  "Proved for every chunking and fault schedule over an unlimited GrowingBuffer, and over a FixedSizeBuffer for requests that fit. The example itself uses a 6144 byte FixedSizeBuffer: its outcome is proved exactly for every file read without I/O error (C42_main_exact: the number of requests if the file is a sequence of requests of at most 6144 bytes each, a panic otherwise), and for every file with an I/O error before its end (C42_main_broken: a panic). Not provable because false: a request longer than the buffer (C42_big_refuted) or an I/O error (C42_error_refuted) ends the program in a panic."
 ],
 "C43": [
  "proved",
  "C43_growing_program: whole programs over a GrowingBuffer on every machine that can allocate what they need at most; C43_fixed_program the same over a FixedSizeBuffer (parsers that panic included). Panics of the debug build are the only difference, and they are why C44 and C45 are separate. The comparison of single calls with unbounded integers leaves open the case where the unbounded model does not end (a lying source)."
 ],
 "C44": [
  "partial",
  "Proved for a Source over either buffer with any calls and any parsers, and for a FixedSizeBuffer used directly, if the data source obeys its contract; for a GrowingBuffer used directly if no more is consumed than it holds. The code violates the claim otherwise, in release builds: GrowingBuffer::request_space does not check used <= populated (C44_growing_buffer_refuted), and a DataSource (a safe trait) that reports more items than it had room for leads to copies out of bounds (C44_fixed_buffer_refuted, C44_lying_refuted). The derived == of FixedSizeBuffer and {:?} of both buffers and of Source read uninitialised memory in every build, see C49. The theorems named _unwind cover use after caught panics and writes through deref_mut."
 ],
 "C45": [
  "partial",
  "Proved for every expression of the library whose explicit numbers (take, string, incomplete) are bounded, over a FixedSizeBuffer, a SliceStream, and (if no more than M items are asked for at a time) a GrowingBuffer, on machines with room for the sum. The code violates the claim for lengths taken from the data: buffer.len() + n is not checked (C45_retry_refuted: endless retries in release; C45_panic_refuted; C45_slice_refuted: Incomplete(0)), and a GrowingBuffer tries to allocate whatever is asked for, even with a limit (C45_growing_refuted)."
 ],
 "C46": [
  "partial",
  "Proved as stated for programs without string (C46_outcome and C46_slice_program_partial, C46_source_program_partial with strings = false). A failed string is reported at its start in the verbose build and at the first mismatch in the plain one (C07): with string everything but the error position is proved to agree (strings = true), and a program that goes on after such an error on a stream does see different items: C46_stream_refuted. Whole programs with string agree if they leave the stream alone after a failed step that uses it (C46_slice_stopping, C46_fixed_stopping, C46_growing_stopping). The HTTP example's main behaves the same in both builds (C46_http)."
 ],
 "C47": [
  "proved",
  "M counts the items a parser has been shown and asks for on top. The bound is sharp: under a limit of 2M-2 data is lost to a false end of input (C47_tight_refuted, for every M >= 2; for M = 1 that limit is 0, no limit)."
 ],
 "C48": [
  "proved",
  "The places of EPlain among the verbose errors and of the model's Panic and NoFuel among results are arbitrary (they never occur together with the others); the laws hold with them included."
 ],
 "C49": [
  "partial",
  "The code violates the claim: the derived implementations go through the whole backing vector, so that with_size(n) == with_size(n) and printing a new buffer read uninitialised memory in safe code (C49_fresh_refuted, C49_growing_refuted), and consumed items make buffers with the same data unequal (C49_data_refuted). Proved: exactly when it happens (C49_eq_exact, C49_debug_exact), that a FixedSizeBuffer which has been full once is safe for ever after (C49_full_partial), and that equal buffers are identical (C49_equal_partial)."
 ],
 "C50": [
  "partial",
  "A panicking parser has no effect, and no item that a read has delivered is lost. The code violates the claim for items that a panicking read has already taken: an IteratorDataSource whose iterator panics drops the items it got before (C50_iterator_refuted)."
 ],
 "C51": [
  "proved",
  "The two exceptions in the statement are real: C51_first_refuted (the first read is made even for a parser that needs no input), C51_full_refuted (a full FixedSizeBuffer has the source called with an empty slice)."
 ],
 "C52": [
  "partial",
  "Proved for every collection that takes all the items (C52_many_partial, C52_as_vec_partial, C52_sep_partial, C52_till_partial), and for [()] it is skip_many. False in general, shown for the code as it is: a collection that stops early leaves many Incomplete(1) as long as the input may go on, even if nothing more is wanted (C52_early gives the exact outcome, C52_early_refuted), many_till always (C52_early_till, C52_early_till_refuted); a collection that calls next() after the end makes many_till go on behind the end (C52_restless_till_refuted)."
 ],
 "C53": [
  "proved",
  "Effects are not undone by a rejected alternative (C53_rollback_refuted), and 'once per item' holds within a call of parse, not over retries (C53_once_refuted; the cost of retrying is bounded by C53_growing_cost and C53_fixed_cost). Exact repetition is stated for Vec; collections are taken not to act on the world."
 ],
 "C55": [
  "proved",
  "terms: what named calls and inline code of a block mean, for any variables; C55_terms_needed: a call is a block, so the conditions on terms are needed"
 ],
 "C56": [
  "proved",
  "Also refuted: Display does not tell an expected item from an expected string where items are lists; expect does not tell how much is wanted, nor tells arbitrary user errors from an incomplete state; the message documented at src/parse_result.rs:281 has a space the code does not write."
 ],
 "C57": [
  "proved",
  "Bench.v models what the closures given to Bencher::iter return; the parsers of benches/http_bench.rs:23-118 are those of examples/http_parser.rs."
 ],
 "C58": [
  "proved",
  "Amounts are counted by a meter added to the buffers; that it changes nothing else is C58_undisturbed_*. C58_fill_buf and C58_ahead give the worst cases exactly."
 ],
 "C59": [
  "proved",
  "The two conditions (read into slices the buffer can fill; read_until only with some capacity) are shown to be needed by C59_read_refuted and C59_until_refuted. I/O errors are taken to be of the kinds that are retried."
 ],
 "C60": [
  "proved",
  "The table of lossless conversions is that of the crate conv, which is not in the repository (trusted, checked against the five compile-fail tests). C60_i8_refuted: the bound is stricter than needed for i8."
 ],
 "C61": [
  "proved",
  "For GrowingBuffer the allocator is assumed to give the same amounts for both item types (in Rust they may depend on the size of an item; zero-sized items start with another capacity). C61_equality_needed shows that the condition on == is needed. In a uniformly typed model like this one the statement is a free theorem for every function that does not look at items; what could break it in Rust is unsafe code looking at their representation, which is modelled item by item (memory cells), not byte by byte."
 ],
 "C62": [
  "proved",
  "Equations of programs that loop are stated for every loop budget that is large enough: the two sides settle on the same outcomes (or both loop for ever)."
 ],
 "C63": [
  "proved",
  "The documentation of the trait states only part of the contract (consume at most len, a count not above the slice); that request_space and a failed fill keep the items, that len and deref agree, and that a fill after request_space offers a non-empty slice are not written down but relied on by Source."
 ],
 "C64": [
  "proved",
  "Between two calls of parse only fill, set_autofill and reset are interleaved; reading as well (io::Read) is C59, without them."
 ],
 "C65": [
  "proved",
  "The documentation's claim (src/input.rs:200-206) that inputs cannot be duplicated, thrown away by accident or constructed at will holds for clients which keep to one input per scope; C65_exchange_refuted shows that types and lifetimes do not enforce it. That the exchanging closure is accepted by the compiler is read off the signature of parse_only, it was not compiled. Throwing away is possible (DoDrop) but then the body cannot return. Caught panics are not modelled."
 ],
 "C66": [
  "proved",
  "The parser has no state of its own; parsers with state are C53."
 ],
 "C67": [
  "proved",
  "Exact on slices for parsers that fail on the empty input (C67_slice); a parser that succeeds on nothing is not asked at the end of the data by a call of its own (C67_end_refuted). C67_small_buffer_refuted shows that the condition on the buffer is needed."
 ],
 "C68": [
  "proved",
  "Expressions as `sized` defines; C68_fixed and C68_growing hold for every parser that bounds its requests. C68_least and C68_met show that neither bound can be lowered; C68_take_while_refuted that take_while has none."
 ],
 "C69": [
  "proved",
  "Floats.v models the arithmetic of IEEE 754 (part of the trusted base; C69_round and C69_ops prove that it yields the nearest float, ties to even). Refuted: C69_nearest_refuted, C69_monotone_refuted."
 ],
 "C70": [
  "proved",
  "The semantics (SpecPeg.v) is that of the literature with the number of items looked at, and does not mention the library. Refuted: C70_earliest_refuted (a literal is asked for as a whole even when its first item cannot match)."
 ],
 "C71": [
  "proved",
  "Well-formedness is the usual syntactic condition (Ford 2004, 3.6), with the nullable rules and an order of the rules as witnesses. What a call that does not return does (stack overflow) is not modelled."
 ],
 "C72": [
  "proved",
  "The cause (SpecBlame.v) is defined over the derivations of SpecPeg.v, not over the parser."
 ],
 "C73": [
  "proved",
  "The conditions are needed: C73_order_refuted (alternatives which start alike, greedy repetition, ambiguity)."
 ],
 "C74": [
  "proved",
  "Calls of user code are counted; what the library does between two calls is bounded by them. C74_exponential shows that the LL(1) condition is needed."
 ],
 "C75": [
  "proved",
  "Calls of user code are counted (C74). The bound for a growing buffer is quadratic (C75_source with the retries, C75_growing_refuted); C75_fixed is linear for a fixed size."
 ],
 "C76": [
  "proved",
  "The parsers of a grammar are those of C70/C71. C76_literal_refuted and C76_quotation_refuted show what the conditions are for."
 ],
 "C77": [
  "proved",
  "Panics of a reader are not modelled (C77_returns shows that the inner Source does not panic). Towers of any height by repeated use of C77_reader (C77_case_any: three Sources)."
 ],
 "C78": [
  "proved",
  "The library's loops are iterators; the equations are those of the recursive functions a user would write with bind, or and ret. C78_till_or_refuted shows the case where many_till differs from or."
 ],
 "C79": [
  "proved",
  "C79_answers is the main theorem, C79_firm, C79_tentative and C79_copy say which parsers qualify; C79_refuted and C79_tentative_refuted show that the condition is needed and is not automatic. C79_decisive is about the end parser of many_till, C79_again_refuted shows that asking again matters."
 ],
 "C80": [
  "proved",
  "C80_order, C80_waits and C80_straight give the order; C80_text relates the pieces to the tokens; C80_stream rests on C79; C80_rollback_refuted shows that effects of a rejected alternative remain. From conversions of errors are the identity, as in the model of C40."
 ],
 "C81": [
  "proved",
  "C81_explained is the main theorem; C81_determined, C81_same and C81_order say that explanations are unique, independent of the way there and lose nothing; C81_returns and C81_answers are about progress; C81_fair names the parsers over a GrowingBuffer; C81_caught ties the state after a caught panic to the model of C50. consume is called with no more than is visible, as BufRead demands. Parsers are to suit (C79): firm, leaving no trace with a request, needing input."
 ],
 "C82": [
  "proved",
  "C82_parsers, C82_rest and C82_pieces are about the parsers, C82_results to C82_named_loops and C82_ascii about everything built from them. C82_misplaced and C82_position_refuted show the wrong place of an empty remainder, which is the behaviour of the code; C82_stream shows that SliceStream does not suffer from it. Memory is a function from addresses to items, an address counts items; a slice is never moved while it is in use."
 ],
 "C83": [
  "proved",
  "C83_name, C83_log, C83_launch and C83_heading are equivalences with a list of all outcomes; C83_ip_debug, C83_ip_release and C83_ip_panics say exactly when the address parser returns and panics. C83_ip_refuted, C83_log_refuted and C83_my_combinator_refuted show what the programs do not do although a reader may expect it. C83_streams to C83_heading_fixed are about Sources, C83_text about the macro."
 ],
 "C84": [
  "proved",
  "C84_read_back and C84_only are the two directions, C84_whole the equivalence, C84_unique its consequence about texts alone. C84_budget: the step budget of the modelled loops makes no difference. C84_cut, C84_arrived and C84_source are about data that arrives in pieces. C84_ambiguous_refuted shows that the condition on formats is needed."
 ],
 "C85": [
  "proved",
  "C85_calls_fixed and C85_calls_growing have no hypotheses. C85_fixed_program and C85_growing_program have the conditions of C43. C85_iterator_fixed and C85_iterator_growing are about iterators that panic, behind a wrapper that asks for one item at a time; C85_iterator_refuted shows that items are missed without it, so the condition on the source is needed."
 ],
 "C86": [
  "proved",
  "C86_fixed and C86_growing are the equations, C86_records is the case of one record parser built from the library, with no further condition on the data. C86_later_fixed and C86_later_growing are the equations from any reachable state. C86_waiting says which parsers qualify. C86_take_while_refuted and C86_or_refuted show that the condition on parsers is needed. C86_end_fixed and C86_end_growing: without reset the end is final."
 ],
 "C87": [
  "proved",
  "One theorem per function. Trusted: that tools/rust_text.py parses the text correctly, and that Rust.v is the meaning of that part of Rust. The loop theorems have the hypothesis that the model's loop ends (not NoFuel); that the text does not end where the model's loop never ends is not stated."
 ],
 "C88": [
  "proved",
  "One theorem per function. Trusted: tools/rust_text.py and Rust.v, as for C87. Hypotheses: the model's loop ends (not Stuck); for GrowingBuffer the length of the vector is at most its capacity (std's Vec). In a Source: ReadDataSource, IteratorDataSource or any other data source, with FixedSizeBuffer or GrowingBuffer; any other Buffer with any other data source."
 ],
 "C89": [
  "proved",
  "About executions of the text itself (BufferText.v by the interpreter Rust.v); the model occurs only in the proofs and as the data source given from outside. consume is called with no more than buffer() shows. A Source has parsers of one type of values and one of errors (sums give all). Trusted: tools/rust_text.py and Rust.v, as for C87 and C88."
 ],
 "C90": [
  "proved",
  "About executions of the text itself, as C89, but with no demand on the parser except that it ends. Of a debug build: the panics are those of debug_assert! and of checked subtraction; for release builds see C44. Executions that go on after a caught panic are not covered. Trusted: tools/rust_text.py and Rust.v, as for C87 and C88."
 ]
}