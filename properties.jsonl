{"id": "C01", "title": "bind/ret form a monad", "statement": "ret followed by bind(f) is f; bind(ret) changes nothing; and (m.bind(f)).bind(g) equals m.bind(|i,x| f(i,x).bind(g)) exactly when the error conversions used on the two sides agree on the error carried by m (always the case when all parsers share one error type). Lifting a Result with from_result is ret for Ok and err, at the whole current slice, for Err.", "quantifier": "every input slice and input mode, every parse result, every pair of continuation parsers, every choice of error types and From conversions", "why_tests_cant": "unit tests check the three laws on one number and one literal; the laws quantify over all continuations, including failing, incomplete, panicking and error-converting ones", "anchors": ["src/parse_result.rs: ParseResult::bind, ParseResult::then", "src/input.rs: Input::ret, Input::err, Input::from_result"]}
{"id": "C02", "title": "map, map_err and inspect only touch what they name", "statement": "map/map_err obey the functor laws, map leaves position and errors untouched, map_err leaves values and position untouched, inspect returns its argument unchanged and runs its observer exactly once on success and never otherwise, and map(f) is bind(ret . f).", "quantifier": "every parse result and every function", "why_tests_cant": "laws over all functions and all result states; tests run single instances", "anchors": ["src/parse_result.rs: ParseResult::map, map_err, inspect"]}
{"id": "C03", "title": "Primitive token parsers decide on exactly the first item", "statement": "any, satisfy, satisfy_with, token, not_token, peek and peek_next look only at the first item: they consume exactly that item (peek variants: none) iff it meets the condition, report an error at the unchanged position otherwise, and ask for exactly one more item when the slice is empty (peek answers None instead).", "quantifier": "every item type, every slice, both input modes, every predicate and every user-supplied equality", "why_tests_cant": "universally quantified over predicates and slices", "anchors": ["src/parsers.rs: any, satisfy, satisfy_with, token, not_token, peek, peek_next"]}
{"id": "C04", "title": "take(n) returns exactly n items or the exact shortfall", "statement": "take(n) returns the first n items and leaves the rest; if fewer than n are present it reports Incomplete with precisely the number of missing items, in either input mode.", "quantifier": "every slice, every n, both modes", "why_tests_cant": "unbounded n and slice lengths", "anchors": ["src/parsers.rs: take"]}
{"id": "C05", "title": "take_while / take_while1 / take_till are maximal munch", "statement": "On success the returned items all satisfy (take_till: all fail) the predicate and the remainder is empty or begins with an item that does not (take_till: does); empty results are possible only for take_while and take_till; a slice exhausted before a stopping item is final only on the last slice (and never for take_till), otherwise Incomplete(1).", "quantifier": "every predicate, slice and mode; an exact characterisation of every outcome", "why_tests_cant": "an iff over all predicates and slices", "anchors": ["src/parsers.rs: take_while, take_while1, take_till"]}
{"id": "C06", "title": "scan / run_scanner stop at the first rejected item with the right state", "statement": "The returned slice is the longest prefix accepted by the state machine started in s; run_scanner also returns the state after exactly that prefix; if the whole slice is accepted the result is Incomplete(1) in both modes.", "quantifier": "every state type, transition function, start state and slice", "why_tests_cant": "quantifies over arbitrary state machines", "anchors": ["src/parsers.rs: scan, run_scanner"]}
{"id": "C07", "title": "string matches literally and reports the first mismatch", "statement": "string(s) succeeds iff s is a prefix of the input (item by item under ==), returning those items and consuming |s|; with fewer than |s| items it reports the exact shortfall even when a mismatch is already visible; otherwise it fails, and without verbose errors the reported position is the first differing item, with verbose errors the start.", "quantifier": "every s, slice, mode, equality and both error configurations", "why_tests_cant": "quantifies over all strings and mismatch positions", "anchors": ["src/parsers.rs: string, err::string"]}
{"id": "C08", "title": "eof and take_remainder", "statement": "eof succeeds iff the slice is empty and is the last slice, and otherwise fails without consuming; take_remainder returns the whole slice and leaves nothing.", "quantifier": "every slice and mode", "why_tests_cant": "iff over all inputs", "anchors": ["src/parsers.rs: eof, take_remainder"]}
{"id": "C09", "title": "Every library-built parser consumes a prefix", "statement": "Any parser assembled from the library's primitives and combinators leaves a suffix of its input on success, reports an error slice that is a suffix of its input, never changes the input mode, and never asks for zero more items.", "quantifier": "every expression built from the primitives and combinators (with arbitrary user predicates, mapping functions and continuations), every slice and mode", "why_tests_cant": "quantifies over all programs that can be written with the library; needs induction over the construction", "anchors": ["src/parsers.rs", "src/combinators/mod.rs", "src/combinators/bounded.rs", "src/ascii.rs", "src/parse_result.rs"]}
{"id": "C10", "title": "or backtracks completely and is associative", "statement": "or(f, g) gives f's result if f succeeds, otherwise (f failed, or was incomplete on the last slice) exactly what g gives on the original input, and propagates f's Incomplete when more input may come; or is associative and idempotent, with err as left unit.", "quantifier": "every pair/triple of parsers, slice and mode", "why_tests_cant": "algebraic laws over all parsers", "anchors": ["src/combinators/mod.rs: or"]}
{"id": "C11", "title": "option never fails", "statement": "option(f, d) succeeds with f's value or with d at the unchanged position; it never reports an error, never reports Incomplete on the last slice, and equals or(f, ret d).", "quantifier": "every parser, default, slice and mode", "why_tests_cant": "quantifies over all parsers", "anchors": ["src/combinators/mod.rs: option"]}
{"id": "C12", "title": "look_ahead and matched_by report without disturbing", "statement": "look_ahead(f) has f's value/error/incompleteness but on success leaves the input exactly as it was; matched_by(f) behaves as f and additionally returns exactly the items f consumed (returned ++ remainder = input).", "quantifier": "every parser that leaves a suffix of its input, every slice and mode", "why_tests_cant": "quantifies over all parsers", "anchors": ["src/combinators/mod.rs: look_ahead, matched_by"]}
{"id": "C13", "title": "bounded::many returns exactly the maximal run within its bounds", "statement": "For each of the ranges a..b, a.., .., ..b and n, many(r, p) into a Vec succeeds with us iff us are the results of successive applications of p, their number lies in the range, and iteration stopped because the maximum was reached or p failed (or was incomplete on the last slice) right after; it fails / is incomplete iff p fails / is incomplete before that is possible, with p's own error or request.", "quantifier": "every range (with start<end where both given), parser (including stateful FnMut closures), slice and mode", "why_tests_cant": "an exact characterisation over all iteration counts; needs induction over the iteration", "anchors": ["src/combinators/bounded.rs: BoundedRange::parse_many for Range, RangeFrom, RangeFull, RangeTo, usize", "src/combinators/macros.rs: run_iter"]}
{"id": "C14", "title": "count(n) returns exactly n items", "statement": "count(i, n, p) succeeds iff p succeeds n times in a row and then returns exactly those n results without running p again.", "quantifier": "every n, parser, slice, mode", "why_tests_cant": "unbounded n", "anchors": ["src/combinators/mod.rs: count", "src/combinators/bounded.rs: parse_many for usize"]}
{"id": "C15", "title": "No collection ever receives more items than the bound", "statement": "Whatever FromIterator implementation is used - also one that stops early, asks for size hints, or keeps calling next() after the end - bounded::many and bounded::many_till hand it at most the maximum number of items of the range.", "quantifier": "every FromIterator implementation (arbitrary state machine), every range with a maximum, every parser", "why_tests_cant": "quantifies over all consumers of the iterator, which user code supplies", "anchors": ["src/combinators/macros.rs: run_from_iter, run_iter, run_iter_till", "src/combinators/bounded.rs"]}
{"id": "C16", "title": "skip_many is many without the values", "statement": "skip_many(r, p) gives the same outcome as many(r, p) with the collected values replaced by ().", "quantifier": "every range, parser, slice and mode", "why_tests_cant": "quantifies over all parsers and ranges", "anchors": ["src/combinators/bounded.rs: BoundedRange::skip_many, parse_many"]}
{"id": "C17", "title": "sep_by and sep_by1 match their grammar", "statement": "sep_by1(p, sep) is p followed by many(sep then p); sep_by is option of that with an empty collection; the separator is never run before the first item and a trailing separator is not consumed.", "quantifier": "every pair of parsers (with possibly different error types), slice and mode", "why_tests_cant": "quantifies over all parsers; involves a stateful closure shared across iterations", "anchors": ["src/combinators/mod.rs: sep_by, sep_by1"]}
{"id": "C18", "title": "many_till collects up to the first success of end", "statement": "many_till(r, p, end) succeeds with us iff p succeeds |us| times, end fails at every permitted earlier stopping point and succeeds after the last item, |us| is in the range, and what end consumed is consumed; a failure or incompleteness of p before that is propagated.", "quantifier": "every range, pair of parsers, slice and mode", "why_tests_cant": "exact characterisation over all iteration counts", "anchors": ["src/combinators/bounded.rs: BoundedRange::many_till", "src/combinators/macros.rs: run_iter_till, iter_till_end_test"]}
{"id": "C19", "title": "bounded::many_till never panics on a valid range", "statement": "For every range with start <= end no combination of parsers that do not themselves panic makes bounded::many_till panic.", "quantifier": "every range, parsers, slice, mode", "why_tests_cant": "the unreachable!() arms are claims about all executions", "anchors": ["src/combinators/bounded.rs: many_till (unreachable! arms) for Range, RangeFrom, RangeTo, usize"]}
{"id": "C20", "title": "Iteration terminates when the parser consumes", "statement": "The unbounded combinators (many, many1, sep_by, skip_many, many_till) return after at most length+1 applications when every successful application of the parser consumes at least one item, return after at most max+1 applications for bounded ranges whatever the parser, and never return when an unbounded iteration is given a parser that succeeds without consuming.", "quantifier": "every parser and slice", "why_tests_cant": "termination and non-termination cannot be observed by tests", "anchors": ["src/combinators/bounded.rs", "src/combinators/mod.rs"]}
{"id": "C21", "title": "size_hint is a correct bound", "statement": "At every point of an iteration the upper bound reported to the collection is an upper bound on the items it will still receive, and the lower bound is a lower bound on them.", "quantifier": "every range, parser, point of the iteration", "why_tests_cant": "quantifies over all points of all iterations", "anchors": ["src/combinators/bounded.rs: size_hint blocks", "src/combinators/macros.rs: run_iter, run_iter_till"]}
{"id": "C22", "title": "ASCII predicates classify all bytes as documented", "statement": "is_lowercase/uppercase/digit/alpha/alphanumeric/whitespace/horizontal_space/end_of_line hold exactly for the documented bytes.", "quantifier": "all 256 byte values", "why_tests_cant": "a total statement; tests sample", "anchors": ["src/ascii.rs: is_*"]}
{"id": "C23", "title": "decimal computes the number written", "statement": "decimal::<T> consumes the maximal run of digits and, when the number written fits T, returns exactly that number; printing any representable non-negative number in decimal and parsing it back gives the number and consumes exactly its digits; when it does not fit, debug builds panic and release builds return it modulo 2^width.", "quantifier": "every integer width/signedness the bound admits, every digit string of any length, any leading zeros, any following input", "why_tests_cant": "unbounded digit strings, every width", "anchors": ["src/ascii.rs: decimal, to_decimal"]}
{"id": "C24", "title": "signed applies the sign", "statement": "signed(decimal) returns +n or -n for an optional sign followed by digits whenever the magnitude fits the type; every value of the type can be written and parsed back.", "quantifier": "every signed width, every value", "why_tests_cant": "edge values of every width", "anchors": ["src/ascii.rs: signed"]}
{"id": "C25", "title": "Streaming verdicts are never revised", "statement": "If a parser built from the stream-safe part of the library returns a value or an error on a not-last slice, it returns the same value or error (same consumption) on every longer input starting with that slice, in either mode.", "quantifier": "every parser built from the stream-safe primitives and combinators, every slice and every continuation of it", "why_tests_cant": "quantifies over all extensions of the input and all programs", "anchors": ["src/parsers.rs", "src/combinators", "src/ascii.rs"]}
{"id": "C26", "title": "Requests for more input are never excessive", "statement": "If such a parser reports Incomplete(n) on a not-last slice, then with any fewer than n further items it would still be incomplete, so a Source that waits for n items never waits longer than necessary; and n is at least 1.", "quantifier": "every stream-safe parser, slice and continuation", "why_tests_cant": "quantifies over all extensions", "anchors": ["src/parsers.rs", "src/combinators", "src/buffer/stateful.rs: Source::fill"]}
{"id": "C27", "title": "Buffers keep the data intact and ordered", "statement": "For FixedSizeBuffer and GrowingBuffer, whatever sequence of request_space, fill, consume and failing reads: used <= populated <= length always holds, the exposed slice is exactly the items read and not yet consumed, in order; request_space and failed reads never change it. Writing through deref_mut replaces exactly the exposed items.", "quantifier": "every operation sequence, every data source behaviour within its contract, every allocator growth policy", "why_tests_cant": "all histories of operations on unsafe memory-moving code (marked TODO: Tests upstream)", "anchors": ["src/buffer/buffer.rs: FixedSizeBuffer, GrowingBuffer"]}
{"id": "C28", "title": "Uninitialised memory is never exposed", "statement": "A parser, io::Read or BufRead caller never observes a slot of the backing memory that no successful read has written, provided the data source's returned count does not exceed what it wrote.", "quantifier": "every operation history, data source and allocator", "why_tests_cant": "uninitialised reads are undefined behaviour and invisible to ordinary tests; all histories", "anchors": ["src/buffer/buffer.rs: with_size, request_space, deref", "src/buffer/stateful.rs"]}
{"id": "C29", "title": "request_space makes room", "statement": "After request_space(k) there is room for k further items in a GrowingBuffer without limit, of items that take up space, always, and in a FixedSizeBuffer exactly when the unconsumed data plus k fits its size; a FixedSizeBuffer never changes its capacity.", "quantifier": "every reachable buffer state, k and allocator policy", "why_tests_cant": "all reachable states", "anchors": ["src/buffer/buffer.rs: request_space"]}
{"id": "C30", "title": "Source neither loses, duplicates nor reorders data", "statement": "Over any history of parse, fill, io::Read::read, BufRead::fill_buf/consume, reset and set_autofill calls, with any transient I/O errors, the items handed to parsers and readers as consumed followed by those still buffered are exactly the items delivered by the data source, in order.", "quantifier": "every history of calls, every data source behaviour, both buffer kinds, every well-behaved parser", "why_tests_cant": "all histories and fault points", "anchors": ["src/buffer/stateful.rs: Source::{fill, fill_requested, parse, reset, set_autofill}, io::Read, io::BufRead"]}
{"id": "C31", "title": "Streaming a source equals parsing the whole slice", "statement": "Running any sequence of stream-safe parsers over a Source, retrying on Retry and I/O errors, yields the same sequence of values, errors and Incomplete reports as running it over a SliceStream of the whole data, whatever the sizes of the reads; with a GrowingBuffer without limit always, with FixedSizeBuffer when every request fits its size; a parser that is run where nothing remains is to ask for input there, as one that succeeds on nothing is run by a Source before the end is known but not by a SliceStream. The slice shown in a ParseError by the Source is a prefix of the one shown by the SliceStream (starting at the same position).", "quantifier": "every data, every chunking and fault schedule, every sequence of stream-safe parsers", "why_tests_cant": "all schedules of a nondeterministic environment", "anchors": ["src/buffer/stateful.rs: Source", "src/buffer/slice.rs: SliceStream", "src/buffer/buffer.rs"]}
{"id": "C32", "title": "Retry always makes progress", "statement": "After Retry the next parse call on an auto-filling Source either works on strictly more input, or on input marked as last, or reports an I/O error; hence the number of retries before a final answer is bounded by the input.", "quantifier": "every data source obeying its contract, every parser asking for at least one item", "why_tests_cant": "liveness over all schedules", "anchors": ["src/buffer/stateful.rs: Source::parse, Source::fill"]}
{"id": "C33", "title": "End of input is only reported at the end of the data", "statement": "Source reports EndOfInput (and runs parsers on a slice marked last) only after the data source itself has reported its end.", "quantifier": "every data source, every buffer, every history", "why_tests_cant": "all histories and buffer states", "anchors": ["src/buffer/stateful.rs: Source::fill, is_empty, parse"]}
{"id": "C34", "title": "Parse errors consume exactly up to the error position", "statement": "After ParseError(rest, e) the stream stands at the start of rest, after Ok it stands right behind what the parser consumed, and after Retry, Incomplete, EndOfInput and IoError the unconsumed data is unchanged - for both Source and SliceStream.", "quantifier": "every stream state and well-behaved parser", "why_tests_cant": "all states", "anchors": ["src/buffer/stateful.rs: parse", "src/buffer/slice.rs: parse"]}
{"id": "C35", "title": "io::Read and BufRead on Source honour their contracts", "statement": "read fills the given slice with the next unconsumed items (as many as fit or remain), returns Ok(0) only for an empty slice or at the end of data; fill_buf returns an empty slice only at the end of data; an I/O error loses nothing.", "quantifier": "every Source state, slice length and data source", "why_tests_cant": "all states and histories", "anchors": ["src/buffer/stateful.rs: impl io::Read, impl io::BufRead"]}
{"id": "C36", "title": "reset keeps the stream usable", "statement": "After reset the buffered data is unchanged and parsing continues with automatic filling as configured before.", "quantifier": "every Source state", "why_tests_cant": "all states", "anchors": ["src/buffer/stateful.rs: reset, set_autofill"]}
{"id": "C37", "title": "parse_only and SliceStream agree", "statement": "parse_only(p, s) and SliceStream::new(s).parse(p) give the same value, error and (as items beyond the slice) shortfall for every non-empty s; SliceStream then continues exactly behind what was consumed.", "quantifier": "every parser and slice", "why_tests_cant": "all parsers and slices", "anchors": ["src/parse.rs: parse_only", "src/buffer/slice.rs", "src/buffer/mod.rs: From<ParseError> for StreamError"]}
{"id": "C38", "title": "StreamError equality", "statement": "== on StreamError is symmetric and transitive and holds exactly for structurally equal values, I/O errors being equal to nothing (not even themselves).", "quantifier": "all values", "why_tests_cant": "relation over all values", "anchors": ["src/buffer/mod.rs: PartialEq for StreamError"]}
{"id": "C39", "title": "IteratorDataSource delivers the iterator", "statement": "Reads from an IteratorDataSource return the iterator's items in order, fill the slice completely unless the iterator ended, and 0 only for an empty slice or an ended iterator.", "quantifier": "every iterator and every sequence of slice lengths", "why_tests_cant": "all sequences of reads", "anchors": ["src/buffer/data_source.rs: IteratorDataSource::read"]}
{"id": "C40", "title": "parse! means what its grammar says", "statement": "For every token sequence, the expansion of parse! groups >>, <|> and <* exactly as the documented EBNF (precedence and right associativity), statements bind exactly the documented scope, and anything outside the EBNF is rejected.", "quantifier": "every token sequence of any length", "why_tests_cant": "macro rules are unrolled for up to 11 tokens; longer sequences go through recursive munching which tests sample", "anchors": ["src/macros.rs: parse!, __parse_internal!, parser!"]}
{"id": "C41", "title": "The HTTP example parser is correct", "statement": "examples/http_parser's request parser returns exactly the method, uri, version and header lines of every well-formed request and stops right behind it, whatever follows; whatever it accepts has the documented shape.", "quantifier": "every well-formed request of any size, any trailing data, both modes", "why_tests_cant": "unbounded inputs", "anchors": ["examples/http_parser.rs"]}
{"id": "C42", "title": "The HTTP example is chunking-independent", "statement": "Reading any concatenation of well-formed requests through a Source in arbitrarily sized reads yields exactly those requests.", "quantifier": "every list of requests, every chunking, every fault schedule", "why_tests_cant": "all schedules", "anchors": ["examples/http_parser.rs: main", "src/buffer/stateful.rs"]}
{"id": "C43", "title": "Word size and build mode do not change results", "statement": "Whatever a debug build of the buffers, Source and SliceStream does without panicking, a release build does identically, and both do what the code does with unbounded integers; as long as the numbers involved fit into usize and the vectors can be allocated, every machine and build gives the same results.", "quantifier": "every word size, allocation limit and build mode, every state, data source and parser, whole programs", "why_tests_cant": "tests run in one build mode on one word size", "anchors": ["src/buffer/buffer.rs", "src/buffer/stateful.rs", "src/buffer/slice.rs"]}
{"id": "C44", "title": "No undefined behaviour through the safe interface in any build", "statement": "No sequence of calls of the safe functions of the buffers and of Source, with any parser and any amounts, exposes uninitialised memory, copies out of bounds or loops for ever, in debug or release builds; not even if calls panic (by themselves, in the parser or in the data source) and the panic is caught.", "quantifier": "every machine, every call history, every parser including ill-behaved ones", "why_tests_cant": "undefined behaviour is not observable by assertions, and release builds drop the debug assertions", "anchors": ["src/buffer/buffer.rs:120-165", "src/buffer/buffer.rs:227-289", "src/buffer/stateful.rs:81-246"]}
{"id": "C45", "title": "A request for more input is not lost to integer overflow", "statement": "The number of items a parser asks for, added to what is in the buffer, is what the stream then waits for, reports as Incomplete or makes room for; it neither wraps around nor makes the process panic, however large the lengths in the data are.", "quantifier": "every parser expression of the library, every machine, every chunking", "why_tests_cant": "needs lengths near usize::MAX in the data", "anchors": ["src/buffer/stateful.rs:235", "src/buffer/slice.rs:107", "src/buffer/buffer.rs:246"]}
{"id": "C46", "title": "The feature verbose_error changes error reports only", "statement": "A program compiled with the feature verbose_error and without it gives the same values, consumes the same items, asks for the same amounts of input and panics in the same cases; it fails in the same cases, at the same position, only the error values differ; over a stream it continues in the same way after each call.", "quantifier": "every expression over the library's primitives and combinators (with arbitrary predicates, continuations, closures and collections), every input and input mode, every stream, data source and buffer", "why_tests_cant": "the unit tests run in one configuration at a time and never compare the two; the claim ranges over all programs", "anchors": ["src/parsers.rs: Error, err::unexpected, err::expected, err::string (both versions)", "src/parsers.rs: string", "src/buffer/slice.rs: SliceStream::parse", "src/buffer/stateful.rs: Source::parse", "examples/http_parser.rs: main"]}
{"id": "C47", "title": "The limit of a GrowingBuffer", "statement": "While its capacity is within the limit, a Source over a GrowingBuffer with a limit answers every call exactly as over one without. If nobody asks for more than M items at a time (M at least 1) and the allocator never gives more than A items on top of what it is asked for, the capacity never exceeds 2M-1+A, so that under any limit of at least that much all guarantees of the unlimited buffer hold: true end of input (C33), the contracts of read and fill_buf (C35), the answers of the SliceStream (C31). Memory is allocated only while the capacity is within the limit; once it exceeds the limit, the capacity never changes again.", "quantifier": "every limit, allocator, data source, demand M, history and program", "why_tests_cant": "the allocator's choices and all histories", "anchors": ["src/buffer/buffer.rs: GrowingBuffer::with_limit, request_space (lines 195-271)", "src/buffer/stateful.rs: Source"]}
{"id": "C48", "title": "Derived comparisons are lawful", "statement": "If equality, order and hash of the items, values and errors obey the laws of Rust's Eq, Ord and Hash, then so do those derived for Input, Error, ParseResult, ParseError and SliceStream: == is an equivalence (and holds for identical values only, if it does so for the components), cmp is a total order agreeing with ==, equal values hash equally. Successes come before errors before requests for more input; input that may continue before input that has ended. Otherwise inputs are ordered as words over their items (a proper prefix is less), errors by their position first, successes by their input first. Different values feed different things to the hasher if their components do (prefix-freeness).", "quantifier": "all values, all lawful component comparisons", "why_tests_cant": "laws quantify over pairs and triples of values of arbitrary types", "anchors": ["src/input.rs:77", "src/parse_result.rs:17", "src/parse_result.rs:82", "src/parse.rs:6", "src/parsers.rs:416", "src/parsers.rs:496", "src/buffer/slice.rs:42"]}
{"id": "C49", "title": "Comparing and printing buffers", "statement": "Comparing two FixedSizeBuffers with ==, or printing a buffer or a Source with {:?}, never reads memory that has not been written, and its outcome depends only on the data the buffers hold.", "quantifier": "all buffers reachable by the operations of the trait Buffer", "why_tests_cant": "reading uninitialised memory has no observable outcome that could be asserted", "anchors": ["src/buffer/buffer.rs:61", "src/buffer/buffer.rs:173", "src/buffer/stateful.rs:31"]}
{"id": "C50", "title": "Caught panics do no harm", "statement": "A parser that panics has no effect: when the panic is caught, parsing with any other parser gives what it would have given in the first place. No call of a Source that panics, be it in the parser, in the data source or in a check, loses items: what was visible still is, followed by all that has been taken from the source since. A SliceStream is unchanged.", "quantifier": "every machine and build, every history including caught panics, every parser, every data source", "why_tests_cant": "all points at which a panic can happen in all histories", "anchors": ["src/buffer/stateful.rs:81-246", "src/buffer/slice.rs:81-110", "src/buffer/buffer.rs:120-289", "src/buffer/data_source.rs:71-90"]}
{"id": "C51", "title": "A Source reads no sooner than it must", "statement": "While a parser is being retried on a Source, the data source is asked for more only when the parser cannot answer on what has been received so far (and has not consumed), apart from the very first read, and as long as there is room it is given a non-empty slice. So in a dialogue an answer never waits for data behind it. After an answer the next call of parse does not read before running its parser; once the end of the stream has been reported parse does not read any more. io::Read::read and fill_buf ask for more only while fewer items than wanted (than the capacity) are there.", "quantifier": "every stable parser, every sequence of parsers, every data source, chunking and fault schedule, both buffers", "why_tests_cant": "all points in time at which a read could happen, in all histories", "anchors": ["src/buffer/stateful.rs:81-120", "src/buffer/stateful.rs:170-193", "src/buffer/stateful.rs:206-246"]}
{"id": "C52", "title": "Any collection will do", "statement": "many, many1, count, sep_by, sep_by1, many_till and the bounded forms of them with a collection T: FromIterator other than Vec consume the same, fail and ask for more in the same cases as with Vec, and T is what FromIterator makes of the items that Vec would get, also if from_iter asks for size hints or calls next() again after the end. A collection that stops before the end (Option<Vec<_>>, Result<Vec<_>, _>) ends the repetition there.", "quantifier": "every collection, parser with captured state, range, input", "why_tests_cant": "all implementations of FromIterator, all parsers and inputs", "anchors": ["src/combinators/bounded.rs:19-54", "src/combinators/bounded.rs:165-700", "src/combinators/mod.rs:37-150"]}
{"id": "C53", "title": "User code is called in order, once per item", "statement": "Predicates, parsers and continuations handed to the library may have side effects and may panic. take_while, take_while1, take_till, scan, skip_while, satisfy and the like call them on the items in the order of the input, once for each item decided on and never after the answer is settled; string does so with the equality of items; the combinators run their parts in the order in which they are written, a part that is not reached not at all, and a panic ends it all there. Nothing but the callbacks changes the outside, and what a rejected alternative did is not undone. If the answers do not depend on the outside, the results are those of the model without effects. A call of parse on a stream runs the parser at most once; retrying a search over n items that arrive in any pieces calls the predicate at most n(n+3)/2 times.", "quantifier": "every callback (effects, panics), every input, every expression of the library, every history of a stream", "why_tests_cant": "all callbacks with arbitrary effects, all inputs and chunkings; a counter in a test sees one of them", "anchors": ["src/parsers.rs:45-388", "src/parse_result.rs:82-330", "src/combinators/mod.rs:37-420", "src/combinators/bounded.rs:165-700", "src/combinators/macros.rs:1-120", "src/buffer/stateful.rs:206-246", "src/buffer/slice.rs:81-110"]}
{"id": "C54", "title": "Numbers of any type", "statement": "decimal and signed work for every type with ValueFrom, Add and Mul: if the type's sums and products are right as far as the number goes, the number written there is the result (times the sign, the sign being the left factor), exactly for integers of any size, modulo 2^n for wrapping types, the greatest value for saturating ones, up to the exact range for floats. Two types that calculate alike give the same results, panic for panic. Where there is no number, no operation of the type is called.", "quantifier": "every number type (with panicking operations), every numeral, every input, both builds", "why_tests_cant": "the unit tests check seven integer types on six numerals; user types are unbounded", "anchors": ["src/ascii.rs:123-131", "src/ascii.rs:150-163"]}
{"id": "C55", "title": "parse! blocks on streams", "statement": "A block accepted by parse! whose terms (named calls and inline code) are well-behaved and stable parsers is a well-behaved, stable parser; if the terms are built from the library, so is the block; if no term panics or runs forever, neither does the block. So any program running parse! blocks one after the other over a Source gets the same results, in whatever pieces the data comes, as over the whole data at once: with a GrowingBuffer always, with any other buffer as long as it can hold what the blocks ask for.", "quantifier": "every accepted token sequence, every meaning of the user's Rust code, every binding of variables, every data source schedule", "why_tests_cant": "macro invocations, user parsers and chunkings are unbounded; the tests run a dozen invocations on whole slices", "anchors": ["src/macros.rs:428-590", "src/buffer/stateful.rs:206-246", "src/buffer/slice.rs:81-110"]}
{"id": "C56", "title": "Messages tell failures apart", "statement": "For items whose texts are plain (bytes are), the Debug and Display texts of Error, and the Debug texts of ParseError, StreamError and ParseResult determine the value and begin with the name its variant has in the source; description determines the kind of error. unwrap and unwrap_err panic with messages from which one can tell an error from an incomplete state, and the number of items asked for, written in decimal; expect tells an error of the library from an incomplete state.", "quantifier": "every item type with plain texts, every error, every result, every number", "why_tests_cant": "the texts are checked by two should_panic examples of the documentation, without comparing the message", "anchors": ["src/parsers.rs:416-458", "src/parsers.rs:496-521", "src/parse_result.rs:295-382", "src/parse.rs:6-13", "src/buffer/mod.rs:51-66"]}
{"id": "C57", "title": "The benchmarks do the work they measure", "statement": "count, many and many1 of any over a SliceStream give all of the data and consume it, whatever its size; with too little data count consumes nothing. A single request followed by anything is parsed and exactly it is consumed. many(request) gives every request of a sequence of requests; on other data it gives the requests at the front, leaves the rest, and never fails.", "quantifier": "all data, all sizes, every sequence of requests", "why_tests_cant": "benchmarks discard their results; a parser failing early would only look fast", "anchors": ["benches/combinators.rs:11-88", "benches/http_bench.rs:120-175"]}
{"id": "C58", "title": "What buffers move", "statement": "If nobody asks for more than M items at a time and fill_buf is not called, a FixedSizeBuffer of S slots (2M <= S+1) under a Source moves at most M-1 items for every S+2-2M items received, however the data arrives: less than a quarter of the data if S >= 6M, nothing if single items are asked for. A GrowingBuffer allocates at most M times and relocates at most M(M-1)/2 items, however long the stream is and whatever the allocator does. By contrast, taking items one by one through fill_buf and consume moves S-1 items per item, and a parser that looks M items ahead over a GrowingBuffer makes it move M-1 items per item.", "quantifier": "every data source, chunking, fault schedule, parser and history; every size S and demand M; every allocator and limit", "why_tests_cant": "the amount depends on all chunkings and histories; the worst cases grow with the length of the stream", "anchors": ["src/buffer/buffer.rs: FixedSizeBuffer::request_space, GrowingBuffer::request_space", "src/buffer/stateful.rs: fill_requested, fill, read, fill_buf, parse"]}
{"id": "C59", "title": "Parsing and reading the same Source", "statement": "A program may mix parse with read and with std's read_exact, read_until and read_to_end on one Source, choosing each call by the answers so far: for every chunking and fault schedule it gets exactly the answers which a reference over the list of data gives (a parser takes what it takes from the whole rest, read n the next n items, read_until the items through the first delimiter, read_to_end what is left). So a Source can be handed from a parser to a reader and back without losing, repeating or reordering an item. read_exact and read_to_end are right even for slices larger than a FixedSizeBuffer; a single read is not; and over a fresh GrowingBuffer read_until finds nothing whatever there is.", "quantifier": "every data source, chunking, fault schedule and program; every buffer size, allocator and sequence of slice sizes; for GrowingBuffer every previous history of the Source", "why_tests_cant": "the state left by a parser (request, flags, read-ahead data) meets every possible following call under every chunking", "anchors": ["src/buffer/stateful.rs: impl io::Read, impl io::BufRead, parse, fill_requested", "src/buffer/buffer.rs"]}
{"id": "C60", "title": "The type bounds of the number parsers", "statement": "The bounds ValueFrom<u8, Err=NoError> and ValueFrom<i8, Err=NoError> admit exactly the integer types to which all values of u8 (of i8) belong. Of Rust's fixed-width types decimal takes all but i8, and signed(i, decimal) exactly i16, i32 and i64. In a program that compiles no unwrap_ok meets an error value: with checked conversions in place of the exact ones both parsers do the same, so C23 and C24 cover every program that compiles. Every type signed rejects would fail at a minus sign; decimal rejects i8 although it would do.", "quantifier": "every integer type (every width and signedness), every input, every number parser", "why_tests_cant": "the compile-fail tests name five types and no run-time test can contain a program that does not compile", "anchors": ["src/ascii.rs: signed, decimal, to_decimal", "tests/compile-fail/ascii_signed_unsigned_type*.rs"]}
{"id": "C61", "title": "Items are opaque", "statement": "The library looks at items only through the callbacks and the == it is given. The same program over two item types, whose callbacks and == answer alike for items that belong together, gives on data that belongs together results that do: same outcome, same position, same request, values and errors item for item. This holds for every parser and combinator, for SliceStream, for both buffers (uninitialised slots included) and for any sequence of calls of the interface of Source over sources that deliver and fail alike. So renaming the items renames the answers and nothing else, no item in a result is invented, and data carried along with items (say, positions in a file) makes no difference and comes along. An == that looks at what is carried does make a difference.", "quantifier": "every program text over the library's functions, all item types and relations between them, every input, source, fault schedule and sequence of calls", "why_tests_cant": "it quantifies over all item types and all relations between them; tests run with u8", "anchors": ["src/parsers.rs", "src/combinators/", "src/parse_result.rs", "src/input.rs", "src/buffer/buffer.rs", "src/buffer/slice.rs", "src/buffer/stateful.rs"]}
{"id": "C62", "title": "Different ways to write a parser agree", "statement": "Rewriting a parser with the laws a reader would expect does not change what it does. many(0..)=many(..), many(0..b)=many(..b), many(n..n+1)=count(n), whatever the collection; a range shifted by a is count(a) followed by the rest; many twice is many; sep_by with an empty separator is many. many(satisfy f) is take_while(f) and many1(satisfy f) is take_while1(f), as are the slices matched by skip_many; take_till is take_while of the opposite except at the end of the last data; many_till(any, satisfy f) is take_till(f) and then satisfy(f); scan is run_scanner without its state; count(n, any) and take(n), take(n+m) and string(s++t) agree with their parts on success. A common beginning can be taken out of or; map, map_err and look_ahead go through or; disjoint alternatives commute; look_ahead p followed by p is p; matched_by of a sequence is the concatenation. Laws that fail, each with a counterexample: skip_many(n..n+1) against skip_many(n) for a parser that asks for nothing, many twice for a closure with state, failing of string in parts, peek as an option, a common end taken out of or, or with one string the beginning of the other.", "quantifier": "all parsers, callbacks, ranges, inputs (for the range laws all collections and closures with state)", "why_tests_cant": "an equation between two programs for all parsers and inputs; tests compare at samples", "anchors": ["src/combinators/mod.rs:34-364", "src/combinators/bounded.rs:102-746", "src/parsers.rs:46-400"]}
{"id": "C63", "title": "A Source works over any buffer that behaves as a queue", "statement": "Source is generic over the trait Buffer, which anybody may implement. For every implementation which behaves as a queue (deref and len show the items, consume removes from the front, fill appends what the source wrote and offers some place as long as space was requested and fits, request_space keeps the items) all that is claimed of a Source holds: no call panics or is undefined (C28), nothing is lost, repeated or reordered (C30), the answers of a program are those over the data as a slice (C31), hence the same over any two such buffers and any two ways the data comes; Retry makes progress and ends (C32); the end is reported only at the end, as long as the buffer can hold what is asked for (C33); position (C34), reading (C35) and mixed programs (C59). Both buffers of the crate keep the contract, as does one that fills page by page. Six implementations with one mistake each do not, and give wrong answers.", "quantifier": "all buffer implementations that keep the contract, all sources, histories, programs", "why_tests_cant": "quantifies over implementations of a trait; tests use the two there are", "anchors": ["src/buffer/buffer.rs:15-55", "src/buffer/stateful.rs:30-330"]}
{"id": "C64", "title": "However a Source is filled, the answers are the same", "statement": "With automatic filling switched off parse never touches the data source, whatever the buffer, so that Retry is answered again and again until fill is called; a call which fills by itself is the same as fill followed by a call which does not. In every execution of a program over a Source (over any buffer that behaves as a queue and can hold what is asked for) in which fill, set_autofill and reset are called at any time and as often as one likes between the calls of parse, the answers so far are those of the same program over the data as a slice, no call fails to return, parse panics only where the program panics over the slice, and the program can be finished with the right answers both automatically and by hand. Filling by hand after each Retry, ignoring I/O errors, answers after at most one round more than there are items and errors.", "quantifier": "all executions with fill, set_autofill and reset interleaved, all programs, sources and buffers that keep the contract", "why_tests_cant": "interleavings of five operations of any length with all states of source and buffer", "anchors": ["src/buffer/stateful.rs:81-120", "src/buffer/stateful.rs:148-167", "src/buffer/stateful.rs:206-246"]}
{"id": "C65", "title": "Input is linear: a client can neither forge nor duplicate it", "statement": "Input and ParseResult are moved, never copied. Take any client of the public interface: function and closure bodies which hold inputs and results in local and captured variables, turn them into each other with ret, err, incomplete, bind, map, map_err and the combinators (whose closures run bodies of the same kind), drop them, panic, read and write shared memory, and run parsers on other slices with parse_only. If it uses neither Input::new nor lets the body of a nested parse_only capture its inputs or results, then the parser it makes is honest (it leaves a suffix of its input in the same mode, blames a suffix, or asks for at least one item), no scope ever holds more than one input or result, nothing is left over when it returns, and Stream::parse on a slice panics only if the parser itself does. If it does use them, whatever it returns stems from its input or one of those it made. Honesty then fails: with Input::new, and with two nested parsers which exchange their inputs; on a slice stream the exchange makes a debug build panic in parse, and sends a release build back to the first item at every call. A client which uses no iterating combinator always returns.", "quantifier": "all client programs (closures with shared state of any type), all inputs, all word sizes and builds", "why_tests_cant": "quantifies over all programs a user can write against the interface", "anchors": ["src/input.rs:62-105", "src/input.rs:124-158", "src/input.rs:196-240", "src/parse.rs:48-61", "src/parse_result.rs:142-150", "src/buffer/slice.rs:81-110"]}
{"id": "C66", "title": "A loop over a stream is many", "statement": "For every well-behaved parser that fails on the empty input: calling parse on a slice stream until it fails collects exactly the values of many on the slice; the call that fails answers EndOfInput if many leaves nothing, else with the parser's own failure on what many leaves; the loop makes one call more than there are values; it panics or goes on for ever exactly if many does. The loop ends with EndOfInput exactly if parse_only of many followed by eof succeeds, with the same values, and so it does on a Source over any buffer that behaves as a queue, in whatever pieces the data comes and whatever I/O errors there are. A parser that succeeds on the empty input makes many loop for ever while the stream ends.", "quantifier": "all parsers, all data, all sources, buffers and chunkings", "why_tests_cant": "relates two loops of unbounded length over all inputs and chunkings", "anchors": ["src/buffer/slice.rs:81-110", "src/buffer/stateful.rs:206-246", "src/combinators/mod.rs:128-134", "src/parsers.rs:400-406"]}
{"id": "C67", "title": "Calls one after the other are one call", "statement": "Take parsers in a row, each chosen depending on the values before it. If all the calls of parse with them, one by one, succeed, then one call of parse with the parsers put together by bind succeeds with the same values and leaves the stream at the same place. If one of them fails with an error, so does the one call, with the same error at the same place. If one has too little input, the one call reports the shortage seen from where it started and consumes nothing, whereas the calls before keep what they consumed. If the data ends between two calls the next one is told EndOfInput, while the one call fails as its parser does on nothing. Panics and loops are the same. Over a Source the answers, and those of whatever the program does next, are the same as over the whole data in both forms, provided the buffer can hold what is asked for; the one call may need a larger buffer.", "quantifier": "all parsers, all dependencies on values, all data and positions, all sources, buffers and chunkings, all programs going on afterwards", "why_tests_cant": "relates programs of any length with dependent calls over all inputs and chunkings", "anchors": ["src/buffer/slice.rs:81-110", "src/buffer/stateful.rs:206-246", "src/parse_result.rs:142-150"]}
{"id": "C68", "title": "Fields of known length cost one attempt each", "statement": "Count in an expression over the library the parts that say at once how much they need: one item (any, satisfy, token, peek_next) or a given number of items (take, string); parts in a row or tried one after the other add up, a repetition of at most m times counts m times, and the length of a part may depend on the values before it. If there are k of them, the expression asks for more input at most k times when it always gets what it asked for. So a Source runs it at most k + 1 times until there is an answer, however large the fields are, whatever the sizes of the reads, whichever of them fail, and however small the buffer is; and the answer comes after at most k + 1 calls plus one for each failing read. The bound is met for every k. For take_while and its like there is no such number.", "quantifier": "all expressions over the parts named, all parsers bounding their requests, all states of Source reached with automatic filling, all data sources, chunkings, failing reads, both buffers of any size and limit", "why_tests_cant": "a bound on the number of runs over all chunkings, fault sequences, expression sizes and field lengths", "anchors": ["src/buffer/stateful.rs:105-120", "src/buffer/stateful.rs:206-246", "src/parsers.rs:176-184", "src/parsers.rs:369-389", "src/combinators/bounded.rs:128-176"]}
{"id": "C69", "title": "Numbers read as floats", "statement": "decimal and signed with f32 or f64 (any IEEE binary format with at least 8 significant bits): a numeral always gives a finite number or infinity, never not-a-number, and nothing panics; a sign changes the sign and nothing else. Numbers up to 2^p, p being the number of significant bits, are read exactly, however many leading zeros they have; so are numbers with k zeros at the end if the rest times 5^k is below 2^p (powers of ten up to 10^10 or 10^22). With k digits the result, where finite, is within 2k parts in 2^p of the number; numbers that much below the largest float are finite, that much above it infinite. The result need not be the nearest float, and a larger number of as many digits may give a smaller one. (The model's sums and products are those of IEEE 754, infinities and signs of zero included.)", "quantifier": "every precision from 8 bits on and every exponent range above it, every numeral, sign, input and build", "why_tests_cant": "all numerals of all lengths and all formats; the error is bounded by induction over the digits", "anchors": ["src/ascii.rs:123-131", "src/ascii.rs:150-163"]}
{"id": "C70", "title": "Parsers written with the combinators are parsing expression grammars", "statement": "Write a parsing expression grammar with the library, each rule a function and each expression one call (satisfy, string, take_while, bind, then, or, option, look_ahead, matched_by, many, many1, count, sep_by1). On a whole text the parser succeeds with exactly the value and the rest which the grammar derives, fails exactly if the grammar derives failure, and never returns exactly if there is no derivation (left recursion, repetition of what matches nothing); it never panics. While more input may come it answers as soon as the items which the expression looks at are there, the answer being the one for every continuation, and asks before that, never for more than is looked at. parse_only with eof accepts exactly the texts that are matched to the end. Expressions do one thing on a text, so derivations are unique.", "quantifier": "every grammar (any number of rules, any recursion), expression, item type and equality, text, continuation, build", "why_tests_cant": "all grammars and all texts; non-termination; all continuations", "anchors": ["src/combinators/mod.rs:34-364", "src/parsers.rs:45-54", "src/parsers.rs:209-226", "src/parsers.rs:371-388", "src/parse_result.rs:110-183"]}
{"id": "C71", "title": "Well-formed grammars always return, also over a Source", "statement": "The parsers of a grammar without left recursion and without repetitions of what may match nothing return on every input, whole or not, without a panic. Such a parser keeps the contract of parsers: it leaves a rest of its input, and more input does not change its answers. A loop of calls of it on a Source gives the values of e* on the whole data and then one error, EndOfInput exactly if everything has been matched, whatever the pieces in which the data comes, whatever I/O errors there are and whatever the buffer, if it can hold what is looked at.", "quantifier": "every well-formed grammar, expression, item type, text, source, lawful buffer, division into pieces, I/O errors", "why_tests_cant": "termination on all inputs; all grammars; all schedules of reads", "anchors": ["src/combinators/mod.rs:34-364", "src/buffer/stateful.rs:206-246"]}
{"id": "C72", "title": "A failure is reported as that of the last thing tried", "statement": "When a parser written as a grammar (C70) fails, the failure has exactly one cause: an item or a literal that does not match at some rest of the text, the last alternative of a choice, the failing part of a sequence, the first missing repetition. The error (or the number of missing items) which the whole parser reports, and its place, are those of the cause: nothing is lost, replaced or moved on the way through the combinators. While more input may come it is the same, whatever follows. A stream stands at that place afterwards, and has not moved if items were missing.", "quantifier": "every grammar, expression, text, continuation, position in a stream, build with and without verbose errors", "why_tests_cant": "all grammars and texts", "anchors": ["src/combinators/mod.rs:34-364", "src/combinators/bounded.rs:104-499", "src/parse_result.rs:110-183", "src/parsers.rs:371-388", "src/buffer/slice.rs:81-110"]}
{"id": "C73", "title": "LL(1) grammars mean what BNF says", "statement": "Ordered choice and greedy repetition (C70) are not what a reader of a BNF grammar expects. A parser written as a grammar without look-ahead only ever accepts phrases of the BNF grammar and returns their values; and if the grammar is LL(1) (alternatives start with different items, what is optional or repeated does not start like what follows it, no left recursion) it accepts all of them: a text is accepted as a whole if and only if it is a phrase, in exactly one way. A phrase is found in front of anything that may follow it, after a look at no more items behind it than the longest literal has. Over a Source a sequence of phrases gives their values and EndOfInput, however the data comes in, if the buffer can hold one phrase and that many items more. Conversely, if the answers over a Source are values and then EndOfInput, the data is a sequence of phrases with these values.", "quantifier": "every LL(1) grammar, expression, text, sequence of records; every data source, chunking, fault schedule and buffer which behaves as a queue", "why_tests_cant": "all grammars, texts and chunkings", "anchors": ["src/combinators/mod.rs:34-364", "src/combinators/bounded.rs:104-499", "src/parsers.rs:209-388", "src/parse_result.rs:110-183", "src/buffer/stateful.rs:81-246"]}
{"id": "C74", "title": "Parsers for LL(1) grammars take linear time", "statement": "How often a parser written as a grammar (C70) calls user code (closures which are parsers, predicates, PartialEq): for an LL(1) grammar of finitely many rules there is a number A such that on any buffer of n items, valid or not, complete or not, at most A(n+1) calls are made; and where a phrase is found in front of something that may follow it, at most A(m+1), m being the length of the phrase, whatever is in the buffer behind it. At least one call is made for each item consumed. Backtracking makes this false for well-formed grammars in general: S = 'a' S 'b' / 'a' S 'c' / \"\" makes at least 2^n calls on n times 'a'.", "quantifier": "every LL(1) grammar, expression and buffer content; both settings of verbose_error", "why_tests_cant": "a bound for all texts of all lengths and all grammars", "anchors": ["src/combinators/mod.rs:34-364", "src/combinators/bounded.rs:104-499", "src/combinators/macros.rs:5-96", "src/parsers.rs:45-54", "src/parsers.rs:209-388", "src/parse_result.rs:110-183"]}
{"id": "C75", "title": "Reading a stream of records of an LL(1) grammar takes linear time", "statement": "Records of an LL(1) grammar of finitely many rules are read by calls of parse one after the other. On a slice of n items the whole loop makes at most A(n+1) calls of user code, however many records there are and whatever the slice contains. For a Source with any lawful buffer, all calls together make at most A(n+1)(1+r) calls of user code, r being the number of calls of parse answered neither by a value nor by an I/O error. If the buffer holds at most size items (FixedSizeBuffer), a loop which goes on after Retry and I/O errors makes at most A(size+1)(n+1), however the input arrives and however often reading fails. With a GrowingBuffer there is no such bound linear in n: a record of n items which arrives item by item costs at least n^2/2.", "quantifier": "every LL(1) grammar, every input, every data source, division into pieces and sequence of I/O errors, every buffer meeting the contract", "why_tests_cant": "an amortised bound over all sequences of calls, grammars and arrivals of the input", "anchors": ["src/buffer/slice.rs:81-110", "src/buffer/stateful.rs:81-120", "src/buffer/stateful.rs:205-257", "src/parsers.rs:45-388", "src/combinators/mod.rs:34-364"]}
{"id": "C76", "title": "A malformed line of a file spoils only itself", "statement": "A program reads records line by line; when parse answers an error, it skips the rest of the line with take_till and any and goes on. If the record parser keeps to its line (it consumes the line with its end, or blames a place in it, and what follows the line makes no difference), the program gets for each line exactly the answers it would get if the file had no other line, to the end of the file; replacing a line changes the answers for that line only. From a Source it is the same, however the input arrives, if the buffer holds the longest line. The parser of every well-formed grammar whose items and literals match no end of line keeps to its line, if literals are written item by item; the answers are those the grammar prescribes: the value if the grammar matches the line, else the error of the blamed item. With longer literals the program may stop at the last line with Incomplete, and with items which match the end of line an error loses following lines.", "quantifier": "every file of lines, every such parser or well-formed grammar, every data source, division into pieces and sequence of I/O errors, every buffer meeting the contract", "why_tests_cant": "all combinations of right and wrong lines, grammars, buffers and arrivals; the position of the error within the line depends on all of them", "anchors": ["src/buffer/slice.rs:81-110", "src/buffer/stateful.rs:183-260", "src/parsers.rs:276-286", "src/parsers.rs:25-32", "src/parsers.rs:371-388", "src/combinators/mod.rs:34-364"]}
{"id": "C77", "title": "A Source can be read through another Source", "statement": "Source implements io::Read, so a Source can be the reader of another one. Over any lawful buffer holding at least one item the inner Source is a proper reader of what it has not handed out yet, also after any use of it (parse, read, fill, consume, reset); reading it never panics. So every program over the outer Source gets the answers it would get on the rest of the data as one slice, over any two buffers and however the data arrives, and likewise through any number of Sources; nothing that is in the inner buffer is lost. Over a GrowingBuffer at its limit this fails: the inner Source reports a false end.", "quantifier": "every program, pair of lawful buffers, history of the inner Source, data source, division into pieces and sequence of I/O errors", "why_tests_cant": "two buffers, two fill strategies and arbitrary prior use interact; all sizes and histories", "anchors": ["src/buffer/stateful.rs:54-56", "src/buffer/stateful.rs:113-148", "src/buffer/stateful.rs:170-183", "src/buffer/data_source.rs:27-50"]}
{"id": "C78", "title": "Loops are the recursive functions one would write", "statement": "Every loop equals its recursive definition, with all values, errors, positions and requests, on last and on streaming slices: many(p) is (p followed by many(p)) or nothing, many1(p) is p followed by many(p), count(n + 1, p) is p followed by count(n, p), bounded loops likewise for every range, also with closures that remember; sep_by1(p, s) is p followed by many(s then p), sep_by is that or nothing; skip_many(p) is (p then skip_many(p)) or nothing; many_till first tries its end. If p consumes something, the recursion has only one solution that returns, namely the loop. On the last slice the step of many_till is or(end, p followed by the rest); before that it is not, as many_till goes on with p where or would wait for more input.", "quantifier": "every parser, separator, end parser, range and input slice, last or not; for the forms with or: parsers that stay in the mode of the input, as all made from the library do", "why_tests_cant": "equality of two programs on all inputs and for all parsers", "anchors": ["src/combinators/bounded.rs:104-780", "src/combinators/mod.rs:34-320", "src/combinators/macros.rs:40-272", "src/parse_result.rs:60-200"]}
{"id": "C79", "title": "State kept by closures is right over a stream if requests leave no trace", "statement": "Closures may keep state over the calls of a stream (counters, symbol tables, positions). In stream-safe expressions over the library what the closures did to that state before a value, an error or a panic is never revised by more input, whatever they do; many_till is among these expressions if its end parser, where it is undecided, is undecided when asked again and so are the items (a single item as the end qualifies). If moreover a request for more input leaves the state alone, a program over a Source (any buffer that keeps the contract, any cutting of the data, failed reads, repeated calls) gets the same answers and ends with the same state as over the data as one slice, where each call is made once. Parsers without callbacks, single-item parsers and string, and map, map_err, inspect, option, matched_by, look_ahead over such parsers leave no trace with a request; searches, sequences, alternatives and loops may; working on a copy of the state that is kept unless more input is requested makes any parser so, with the same results. Without it the state may differ though the answers do not: a predicate that counts its calls counts repeated calls again.", "quantifier": "every program over parse, every state type, every callback, every expression of the class, every buffer that keeps the contract, every data source that delivers the data, every schedule of chunks and failed reads", "why_tests_cant": "the cuts of the data, the failed reads and the callbacks are unbounded and arbitrary", "anchors": ["src/buffer/stateful.rs:206-246", "src/buffer/slice.rs:81-110", "src/parsers.rs:45-388", "src/parse_result.rs:142-251", "src/combinators/mod.rs:34-364", "src/combinators/bounded.rs:104-780"]}
{"id": "C80", "title": "User code in a parse! block is run in the order of the text", "statement": "The user code in a parse! block (expressions behind ret and err, inline parsers, called parsers) may have effects and may panic. An accepted block does to the world what its one reading as a phrase says. Whatever the user code does, the pieces that are run are among those of the text, in the order of the text, none twice; the last one that is run ends as the block does (with a value, an error, a request or a panic) and those before it ended with a value, an error or a request, so nothing is run after a panic; while more input may come nothing is run after a request. Without alternatives the pieces that are run are the first ones of the text, all but the last with a value, and all of them if the block succeeds. If the answers of the user code do not depend on the world, the block answers as without effects. If the user code is firm so is the block, and programs of such blocks on a copy of the state over a Source end with the answers and the state of the slice. What a rejected alternative did is not undone.", "quantifier": "every token sequence accepted as a block, every lawful treatment of Rust expressions, every user code with effects and panics, every state, every input, every program of blocks over any lawful buffer and data source", "why_tests_cant": "blocks, user code, states and inputs are unbounded", "anchors": ["src/macros.rs:453-528", "src/input.rs:124-147", "src/parse_result.rs:142-251", "src/combinators/mod.rs:94-106"]}
{"id": "C81", "title": "Every use of a Source is explained by the data that remains", "statement": "A client may make any calls of the interface of a Source in any order and as often as it likes: parse with closures that act on the client's state, fill, set_autofill, reset, read, fill_buf, consume, buffer, len, is_empty; it may catch panics of its closures and go on, and may change its own state in between. Over any buffer that keeps the contract and any data source that delivers the data, every answer is explained by the list of data that remains and the state: a final answer of parse and the state it leaves are those of the parser on all that remains; a panic of the parser that is caught leaves what remains and the state as the parser, on all that remains, leaves it when it panics; Retry and I/O errors leave both alone; EndOfInput means that nothing remains; read gives the next items, some if there are any, and as many as wanted if the buffer can hold them; fill_buf and buffer show a beginning of what remains; is_empty is never wrongly true. Explanations are unique, what remains is always an end of the data. At any time every call returns, parse panics only if the parser panics on what remains, and with automatic filling switched on a repeated call of parse comes to a final answer.", "quantifier": "every sequence of calls, every client state and every action on it, every parser that suits the buffer, every buffer that keeps the contract, every data source that delivers the data, every schedule of chunks and failed reads", "why_tests_cant": "sequences of calls, parsers, states, chunkings and failures are unbounded", "anchors": ["src/buffer/stateful.rs:44-246", "src/buffer/mod.rs:20-119", "src/buffer/data_source.rs:10-90"]}
{"id": "C82", "title": "Slices are parts of the input, in their place", "statement": "Every slice that the library hands out (in values, remainders and errors) is a part of the input it was given, not a copy from elsewhere, and has the items that the model without addresses says. take, take_while, take_while1, take_till, scan, run_scanner, take_remainder, string and matched_by return the part that starts where their input starts and is as long as what they consumed. A remainder or error slice that is not empty is the rest of the input up to its end. Remainders reach to the end even if they are empty, except after take_while, take_while1 and take_remainder that took all of a non-empty input: then the empty remainder lies at the start. So the position of an error is found from its length; its address gives the wrong position in exactly this case. parse_only hands on the slices of the parser, and a stream over a slice moves by lengths, so it is not affected.", "quantifier": "every memory content, every place and length of the input, every parser built from the library's parsers and combinators, with closures that keep state and every kind of range, both settings of verbose_error", "why_tests_cant": "tests compare the contents of slices, which do not show where they lie; inputs, places and parsers are unbounded", "anchors": ["src/parsers.rs:215-410", "src/combinators/mod.rs:328-364", "src/combinators/bounded.rs:104-698", "src/parse.rs:52-61", "src/buffer/slice.rs:81-110"]}
{"id": "C83", "title": "The programs in the documentation, on every input", "statement": "The programs printed in the documentation do the following on every input, not only on the one they are shown with. The name parser returns (f, l) exactly if the text is a non-empty word f without a space, a space, and a non-empty l up to a newline or the end; all other texts give the listed errors or ask for one more byte. The address parser reads \"ip:\", four decimal numbers with dots between them and a semicolon: in a debug build exactly if the numbers are at most 255, and it panics exactly if one is larger after good ones; in a release build every number is accepted and reduced modulo 256. The severity parser returns a level exactly if the text starts with its word; over data that may continue it waits for five bytes even if WARN or INFO is complete, and four or fewer other bytes are reported as incomplete rather than wrong. The two digits never overflow, in subtraction or in the sum. The heading parser returns the first heading of level one, over a Source if the line fits into the buffer. my_combinator differs from option exactly where option asks for more data. Over a Source each of the programs ends with the answer for all the data. parse! makes exactly these parsers of the printed text, with or without types after ret, and with the semicolon that README.md puts after ret.", "quantifier": "every input slice, last or not, both settings of verbose_error, debug and release builds, every data source with any chunks and errors", "why_tests_cant": "each doc test runs its program on one literal; the number of inputs is unbounded and the panics and wrapped numbers lie outside the shown ones", "anchors": ["src/lib.rs:22-44", "src/lib.rs:147-158", "src/macros.rs:27-96", "src/parse_result.rs:408-422", "src/buffer/mod.rs:15-26", "README.md:49-103"]}
{"id": "C84", "title": "What is written in a format is read back", "statement": "A format is made of literals, items of a class, runs of items, slices of a fixed length, sequences, sequences where the first value determines the second part, alternatives, options, repetitions in a range (collected or skipped), lists with separators, repetitions up to an end, the text itself, and parsers of one's own. It says which texts a value may be written as. If the next item always tells what comes next, the parser built from the library's functions for the format reads every written value back and leaves what follows, provided what follows does not start with an item that could prolong the text. parse_only of the parser followed by eof returns x for a text exactly if x may be written as that text, so no text has two values. Even in an ambiguous format everything that is read was written. The parser always returns. If only a part of a text has arrived it asks for more; if all has, it gives the value or asks for more. A loop over a stream of records, from any data source in any pieces with any errors, yields the values of the records and then the end of input exactly if the data is the text of those records.", "quantifier": "every format (of any depth, with continuations depending on values), every value and text, every continuation of the text, both settings of verbose_error, every data source and lawful buffer", "why_tests_cant": "formats, values and texts are unbounded, and the claim is about all of them; a test fixes a grammar and some texts", "anchors": ["src/parsers.rs:45-54", "src/parsers.rs:176-260", "src/parsers.rs:371-388", "src/parse_result.rs:142-204", "src/combinators/mod.rs:58-344", "src/combinators/bounded.rs:717-745", "src/buffer/stateful.rs:196-238"]}
{"id": "C85", "title": "A reader that panics is a reader that fails", "statement": "If the data source panics during parse, fill, read or fill_buf of a Source and the panic is caught, the Source (buffer, request, flags) and the data source are left exactly as if the read had returned an I/O error instead. Hence, if panicking reads lose no data, a program that calls parse again after Retry, after I/O errors and after caught panics, with both buffers and on every platform and build, gets the answers that it gets from a SliceStream with all the data, after at most 2 * n + e + 2 calls per answer for n items and e failing or panicking reads. An IteratorDataSource whose iterator panics loses the items it took before within the same read; if it is never asked for more than one item at a time, it loses none and the program gets all items.", "quantifier": "every data source (with any panics and errors), every state of a Source with either buffer, every parser, every machine word size and build; for programs every script of parsers whose answers are final", "why_tests_cant": "the number and position of the panics, the data and the programs are unbounded; a test catches a panic in a few places", "anchors": ["src/buffer/stateful.rs:81-119", "src/buffer/stateful.rs:170-194", "src/buffer/stateful.rs:201-238", "src/buffer/buffer.rs:120-283", "src/buffer/data_source.rs:9-86"]}
{"id": "C86", "title": "Data that comes after the end was reported", "statement": "A source (socket, growing file) may report its end, a read of zero items, and have more data later. A client that on EndOfInput and Incomplete calls reset and set_autofill(true) and parses again, and that repeats the call on Retry and IoError, gets, wherever the pauses and the I/O errors are and with both buffers, exactly the answers it would get from a SliceStream over all the data, also for records that span a pause; a call for which the data does not suffice waits. It needs at most 3 * z + 2 * n + e + 3 calls of parse per answer for z pauses, n items and e errors. The same holds from any state of a Source on, whatever was done with it before, for the data not yet handed out, once reset and set_autofill(true) have been called. This holds for parsers which do not take the end of the input for an answer; those built with any, satisfy, token, take, take_till, string, sequencing, count, many_till, and or with alternatives that are undecided together, do not. It fails for take_while1 (splits a number at a pause) and for or of two keywords (refuses a keyword with a pause in it). Without reset the end is final: every later parse answers EndOfInput and the source is not asked again.", "quantifier": "every data source with any number of pauses and errors at any place, every data, every program of parse calls, both buffers, fresh or in any state that can be reached", "why_tests_cant": "the positions of pauses and errors, the data and the programs are unbounded; a test uses a handful of pauses", "anchors": ["src/buffer/stateful.rs:76-168", "src/buffer/stateful.rs:188-238", "src/combinators/mod.rs:94-106", "src/parsers.rs:209-260"]}
{"id": "C87", "title": "The model is the meaning of the program text", "statement": "Take the text of the functions of src/input.rs, src/parse_result.rs, src/parse.rs, src/parsers.rs, src/combinators/mod.rs and src/combinators/bounded.rs (macros expanded) as a syntax tree, and run it with an interpreter of the part of Rust it uses. Then every parser, every method of Input and ParseResult, parse_only, and every combinator ends, for every input, predicate, closure, stateful parser, range and collection, and with either setting of the feature verbose_error, with exactly the result the model computes, panics included, as soon as the interpreter has enough fuel and the loop of the model ends.", "quantifier": "every input, item type, predicate, closure, stateful (also panicking) parser, range of repetitions, FromIterator and feature setting", "why_tests_cant": "a unit test runs one input; that a model and the program agree on all inputs, parsers and collections can only be proved", "anchors": ["src/input.rs:47-160", "src/parse_result.rs:29-330", "src/parse.rs:56-75", "src/parsers.rs:26-400", "src/combinators/mod.rs:40-420", "src/combinators/bounded.rs:40-700"]}
{"id": "C88", "title": "The model of the streams is the meaning of the program text", "statement": "Take the text of the functions of src/buffer/data_source.rs, buffer.rs, slice.rs and stateful.rs as a syntax tree, and run it with an interpreter of the part of Rust it uses, with vectors whose memory can be uninitialised, raw copies, and variables written through references. Then every function of SliceStream, ReadDataSource, IteratorDataSource, FixedSizeBuffer, GrowingBuffer and Source ends, for every state it can be called in, every data source, every parser and (in a Source) either buffer of the crate or any other, with exactly the result the model computes, and leaves exactly the state the model computes; it panics where the model panics, and reads uninitialised or foreign memory only where the model says so.", "quantifier": "every state of the buffers (also inconsistent ones), every data source, iterator, other buffer and parser, every allocation strategy and request", "why_tests_cant": "that a model and the program agree on all states, sources, parsers and allocators, and on undefined behaviour, no finite number of runs shows", "anchors": ["src/buffer/data_source.rs:24-90", "src/buffer/buffer.rs:73-289", "src/buffer/slice.rs:43-110", "src/buffer/stateful.rs:31-251"]}
{"id": "C89", "title": "Nothing a user of a Source does makes the program text go wrong", "statement": "Run the program text of src/buffer: make a Source with its own constructors, from a reader, an iterator or a data source that keeps the contract of read, with a FixedSizeBuffer or GrowingBuffer made by their own constructors, and then call parse, fill, read, fill_buf, consume, reset and set_autofill in any order, with any parsers that answer and leave an end of their input. Then every further call ends with a value: no panic, no undefined behaviour, no endless run. The items handed out so far, followed by what buffer() shows, are exactly the items the source has delivered so far, in order; for an iterator or reader with given data they are a beginning of it. A call of parse runs the parser on what buffer() showed and the newly read items, and leaves what the parser left, unless the source failed or there was nothing at all. The same holds of a SliceStream made from a slice by the text and used by its parse: it hands out the slice from its beginning, and every call ends with what the parser gave on all the rest of it.", "quantifier": "every sequence of calls, every reader, iterator or data source in every state, every parser, buffer size, limit and allocation strategy", "why_tests_cant": "sequences of calls, sources and parsers are unbounded, and the text is run with uninitialised memory and every allocator", "anchors": ["src/buffer/stateful.rs:43-247", "src/buffer/buffer.rs:73-289", "src/buffer/data_source.rs:24-91", "src/buffer/slice.rs:48-110"]}
{"id": "C90", "title": "No parser and no consume count brings the program text of a stream to undefined behaviour", "statement": "Run the program text of src/buffer as a debug build does (debug_assert! and overflow checks on): make a Source with its own constructors from a source that keeps the contract of read, then call parse, fill, read, fill_buf, consume, reset and set_autofill in any order, parse with any parser at all that ends (it may panic, hand back items it was not given, or more of them than it got) and consume with any number. After any calls that ended with a value: buffer() shows items the source delivered, the newest ones, in order and without gaps; parse runs the parser on the shown and the newly delivered items, leaves as many of the last of them as the parser handed back, and panics exactly when the parser panics or hands back more than it got (it may also report an error of the source, or the end, and take nothing); consume of k takes exactly k items if so many are shown, and panics if not; all other calls end with a value. So undefined behaviour (memory outside the buffer, uninitialised items) is not reached. A SliceStream used in the same way gives each parser the rest of its slice, is left with as many items as the parser handed back, and panics exactly when the parser panics or hands back more than it got.", "quantifier": "every sequence of calls, every source, buffer, limit and allocation strategy, every parser that ends, every number given to consume", "why_tests_cant": "the parsers that misbehave and the sequences of calls are unbounded; reading uninitialised memory need not show in a test", "anchors": ["src/buffer/stateful.rs:43-247", "src/buffer/buffer.rs:73-289", "src/buffer/slice.rs:50-110"]}
