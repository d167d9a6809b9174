{
 "claims": [
  {
   "property": "C01",
   "status": "proved",
   "theorems": [
    "C01_left_identity",
    "C01_right_identity",
    "C01_associativity",
    "C01_associativity_same_error",
    "C01_then_cases",
    "C01_from_result"
   ],
   "note": "Associativity holds exactly when the From conversions commute (stated as iff); unconditional for one error type."
  },
  {
   "property": "C02",
   "status": "proved",
   "theorems": [
    "C02_map_identity",
    "C02_map_compose",
    "C02_map_err_identity",
    "C02_map_err_compose",
    "C02_map_map_err_commute",
    "C02_map_touches_only_value",
    "C02_map_err_touches_only_error",
    "C02_map_is_bind_ret",
    "C02_inspect"
   ],
   "note": ""
  },
  {
   "property": "C03",
   "status": "proved",
   "theorems": [
    "C03_any",
    "C03_satisfy",
    "C03_satisfy_with",
    "C03_token",
    "C03_not_token",
    "C03_peek",
    "C03_peek_next"
   ],
   "note": ""
  },
  {
   "property": "C04",
   "status": "proved",
   "theorems": [
    "C04_take_enough",
    "C04_take_short",
    "C04_take_total"
   ],
   "note": ""
  },
  {
   "property": "C05",
   "status": "proved",
   "theorems": [
    "C05_take_while",
    "C05_take_while1",
    "C05_take_till"
   ],
   "note": ""
  },
  {
   "property": "C06",
   "status": "proved",
   "theorems": [
    "C06_scan",
    "C06_run_scanner"
   ],
   "note": ""
  },
  {
   "property": "C07",
   "status": "proved",
   "theorems": [
    "C07_string_match",
    "C07_string_short",
    "C07_string_mismatch",
    "C07_string_total"
   ],
   "note": ""
  },
  {
   "property": "C08",
   "status": "proved",
   "theorems": [
    "C08_eof",
    "C08_take_remainder"
   ],
   "note": ""
  },
  {
   "property": "C09",
   "status": "proved",
   "theorems": [
    "C09_built",
    "C09_ascii",
    "C09_names",
    "C09_incomplete_zero_refuted"
   ],
   "note": "Induction over all expressions (SpecSafe.built). Excluded: a user asking for zero items (C09_incomplete_zero_refuted)."
  },
  {
   "property": "C10",
   "status": "proved",
   "theorems": [
    "C10_or_cases",
    "C10_or_associative",
    "C10_or_idempotent",
    "C10_or_err_left_unit",
    "C10_or_ret_left_zero"
   ],
   "note": ""
  },
  {
   "property": "C11",
   "status": "proved",
   "theorems": [
    "C11_option_cases",
    "C11_option_never_fails",
    "C11_option_is_or_ret"
   ],
   "note": ""
  },
  {
   "property": "C12",
   "status": "proved",
   "theorems": [
    "C12_look_ahead",
    "C12_matched_by"
   ],
   "note": ""
  },
  {
   "property": "C13",
   "status": "proved",
   "theorems": [
    "C13_many_sound",
    "C13_many_complete",
    "C13_outcome_unique",
    "C13_empty_ranges",
    "C13_reversed_range",
    "C13_many1_unrolls",
    "C13_equal_bounds_never_succeed"
   ],
   "note": "For every range admitting some count, plus 0..0 and ..0. The claim is false for a..a with a > 0, which the assertion lets through: C13_equal_bounds_never_succeed."
  },
  {
   "property": "C14",
   "status": "proved",
   "theorems": [
    "C14_count_sound",
    "C14_count_complete",
    "C14_count_fails"
   ],
   "note": ""
  },
  {
   "property": "C15",
   "status": "proved",
   "theorems": [
    "C15_many_max",
    "C15_many_till_max",
    "C15_many_log",
    "C15_many_till_log"
   ],
   "note": ""
  },
  {
   "property": "C16",
   "status": "partial",
   "theorems": [
    "C16_skip_is_many_partial",
    "C16_skip_many_unbounded",
    "C16_exact_incomplete0_refuted",
    "C16_equal_bounds_refuted"
   ],
   "note": "Proved in lock step for every range and parser except two cases in which the code really differs from many; both are refuted by C16_exact_incomplete0_refuted (shadowed n) and C16_equal_bounds_refuted (a..a)."
  },
  {
   "property": "C17",
   "status": "proved",
   "theorems": [
    "C17_sep_by1",
    "C17_sep_by_is_option",
    "C17_sep_by",
    "C17_sep_by1_stops"
   ],
   "note": "sep_by = option(sep_by1) needs parsers that keep the input mode (every parser built from the library does); C17_sep_by has no such condition."
  },
  {
   "property": "C18",
   "status": "partial",
   "theorems": [
    "C18_many_till_sound_partial",
    "C18_many_till_complete_partial",
    "C18_many_till_to",
    "C18_many_till_to_sound",
    "C18_outcome_unique",
    "C18_empty_ranges",
    "C18_stateful_sound_partial",
    "C18_stateful_complete_partial",
    "C18_stateful_to",
    "C18_stateful_to_sound",
    "C18_stateful_once",
    "C18_stateful_unique",
    "C18_once_refuted"
   ],
   "note": "Proved for all ranges, also with a stateful end (C18_stateful_*), except that for ..b an end succeeding before the maximum panics: exact description in C18_many_till_to / C18_stateful_to. The code runs end twice at the maximum of a..b: invisible when a failed end goes on failing (C18_stateful_once), visible otherwise (C18_once_refuted)."
  },
  {
   "property": "C19",
   "status": "partial",
   "theorems": [
    "C19_no_panic_partial",
    "C19_to_panics_iff",
    "C19_to_refuted",
    "C19_equal_bounds_refuted"
   ],
   "note": "Proved for a..b (a < b), a.., .., n, any state. Refuted for ..b (exact condition C19_to_panics_iff) and a..a (C19_equal_bounds_refuted)."
  },
  {
   "property": "C20",
   "status": "proved",
   "theorems": [
    "C20_consuming_terminates",
    "C20_bounded_terminates",
    "C20_skip_terminates",
    "C20_skip_bounded_terminates",
    "C20_sep_terminates",
    "C20_till_terminates",
    "C20_till_bounded_terminates",
    "C20_applications",
    "C20_applications_skip",
    "C20_applications_till",
    "C20_applications_sep",
    "C20_fuel",
    "C20_fuel_till",
    "C20_fuel_skip",
    "C20_endless",
    "C20_endless_till",
    "C20_not_consuming",
    "C20_endless_sep"
   ],
   "note": "Fuel counts iterator steps. Applications are counted for many, skip_many, many_till (parser and end) and sep_by (parser and separator); the counts are shown tight by examples. For a..b the end parser of many_till runs up to max + 2 times."
  },
  {
   "property": "C21",
   "status": "partial",
   "theorems": [
    "C21_upper_many",
    "C21_upper_many_till",
    "C21_success_many_partial",
    "C21_success_many_till_partial",
    "C21_tracing",
    "C21_tracing_till",
    "C21_lower_refuted"
   ],
   "note": "Upper bound: always, for every collection. Lower bound: in iterations that succeed; refuted otherwise (C21_lower_refuted)."
  },
  {
   "property": "C22",
   "status": "proved",
   "theorems": [
    "C22_lowercase",
    "C22_uppercase",
    "C22_digit",
    "C22_alpha",
    "C22_alphanumeric",
    "C22_whitespace",
    "C22_horizontal_space",
    "C22_end_of_line",
    "C22_digit_parser",
    "C22_skip_whitespace"
   ],
   "note": ""
  },
  {
   "property": "C23",
   "status": "proved",
   "theorems": [
    "C23_fits",
    "C23_overflow_debug",
    "C23_overflow_release",
    "C23_round_trip",
    "C23_no_number",
    "C23_total"
   ],
   "note": ""
  },
  {
   "property": "C24",
   "status": "partial",
   "theorems": [
    "C24_fits",
    "C24_round_trip_partial",
    "C24_release",
    "C24_release_least",
    "C24_least_refuted",
    "C24_sign_alone"
   ],
   "note": "Proved for every signed width; the part 'every value can be parsed back' is refuted for the least value in debug builds (C24_least_refuted), and proved for it in release builds."
  },
  {
   "property": "C25",
   "status": "proved",
   "theorems": [
    "C25_value",
    "C25_error",
    "C25_panic",
    "C25_undecided",
    "C25_ascii",
    "C25_names",
    "C25_vec",
    "C25_peek_refuted",
    "C25_take_remainder_refuted",
    "C25_eof_refuted",
    "C25_many_till_refuted"
   ],
   "note": "Stream-safe expressions are SpecSafe.safe. What is left out of it is refuted: peek, take_remainder, eof, and many_till whose end is undecided where the item parser is not."
  },
  {
   "property": "C26",
   "status": "proved",
   "theorems": [
    "C26_not_excessive",
    "C26_waiting_is_needed"
   ],
   "note": ""
  },
  {
   "property": "C27",
   "status": "proved",
   "theorems": [
    "C27_fixed",
    "C27_growing",
    "C27_failed_read",
    "C27_fixed_mut",
    "C27_growing_mut"
   ],
   "note": ""
  },
  {
   "property": "C28",
   "status": "proved",
   "theorems": [
    "C28_fixed",
    "C28_growing",
    "C28_lying_source_refuted",
    "C28_source_fixed",
    "C28_source_growing"
   ],
   "note": "For sources whose returned count does not exceed what they wrote (obeys); without it false: C28_lying_source_refuted. For Source: C28_source_fixed/_growing over every history of calls."
  },
  {
   "property": "C29",
   "status": "proved",
   "theorems": [
    "C29_fixed",
    "C29_growing",
    "C29_limited",
    "C29_over_limit_refuted",
    "C29_limit_exceeded_refuted",
    "C29_zero_sized_refuted"
   ],
   "note": "With a limit only while the capacity stays within it. Beyond the statement: over-limit buffers (C29_over_limit_refuted, C29_limit_exceeded_refuted) and zero-sized items, whose vectors have capacity without length, so that no room is ever made (C29_zero_sized_refuted)."
  },
  {
   "property": "C30",
   "status": "proved",
   "theorems": [
    "C30_fixed",
    "C30_growing"
   ],
   "note": ""
  },
  {
   "property": "C31",
   "status": "proved",
   "theorems": [
    "C31_growing",
    "C31_fixed",
    "C31_slices",
    "C31_slices_fixed",
    "C31_chunks",
    "C31_iterator",
    "C31_safe_suits",
    "C31_safe",
    "C31_fixed_full_refuted",
    "C31_limit_refuted",
    "C31_no_input_refuted",
    "C31_resume"
   ],
   "note": "Slices inside ParseError are compared by C31_slices and C31_slices_fixed: on a Source the slice is the part of the remainder read so far. Needs the stream-safety hypotheses: parsers succeeding without input are excluded (C31_no_input_refuted); full FixedSizeBuffer and over-limit GrowingBuffer differ (C31_fixed_full_refuted, C31_limit_refuted). For a limit that is large enough see C47."
  },
  {
   "property": "C32",
   "status": "proved",
   "theorems": [
    "C32_fixed",
    "C32_growing",
    "C32_bounded_fixed",
    "C32_bounded_growing",
    "C32_asks_nothing_refuted"
   ],
   "note": "For parsers asking for at least one item; C32_asks_nothing_refuted shows endless retries otherwise."
  },
  {
   "property": "C33",
   "status": "partial",
   "theorems": [
    "C33_fixed_partial",
    "C33_growing_partial",
    "C33_fixed_full_refuted",
    "C33_limit_refuted"
   ],
   "note": "Proved for an unlimited GrowingBuffer in every history, and for a FixedSizeBuffer if the parsers need at most its size. The code violates the claim otherwise: a FixedSizeBuffer that is full marks its slice as the last (C33_fixed_full_refuted), and so does a GrowingBuffer over its limit (C33_limit_refuted). For a limit that is large enough see C47."
  },
  {
   "property": "C34",
   "status": "proved",
   "theorems": [
    "C34_fixed",
    "C34_growing",
    "C34_slice",
    "C34_slice_answers",
    "C34_longer_remainder"
   ],
   "note": ""
  },
  {
   "property": "C35",
   "status": "partial",
   "theorems": [
    "C35_fixed_partial",
    "C35_growing_partial",
    "C35_fill_buf_refuted",
    "C35_limit_refuted"
   ],
   "note": "Proved for FixedSizeBuffer (a read may stop at the buffer size) and unlimited GrowingBuffer, except fill_buf while the capacity is 0, which really reports a false end (C35_fill_buf_refuted); over its limit a GrowingBuffer reports a false end to read (C35_limit_refuted). For a limit that is large enough see C47."
  },
  {
   "property": "C36",
   "status": "partial",
   "theorems": [
    "C36_fixed_partial",
    "C36_growing_partial",
    "C36_switch",
    "C36_autofill_refuted"
   ],
   "note": "The code violates the claim: reset switches automatic filling off (C36_autofill_refuted). Proved: data kept, and after reset plus set_autofill(true) parsing continues exactly with the unconsumed data, from every history state."
  },
  {
   "property": "C37",
   "status": "proved",
   "theorems": [
    "C37_agree",
    "C37_empty",
    "C37_by_hand"
   ],
   "note": ""
  },
  {
   "property": "C38",
   "status": "proved",
   "theorems": [
    "C38_iff",
    "C38_symmetric",
    "C38_transitive",
    "C38_io_error"
   ],
   "note": "Relative to lawful comparisons of items and errors (PartialEq arguments)."
  },
  {
   "property": "C39",
   "status": "proved",
   "theorems": [
    "C39_read",
    "C39_zero",
    "C39_sequence"
   ],
   "note": ""
  },
  {
   "property": "C40",
   "status": "partial",
   "theorems": [
    "C40_first_operator",
    "C40_input_only",
    "C40_grammar_partial",
    "C40_meaning",
    "C40_one_result",
    "C40_derived",
    "C40_precedence",
    "C40_let_last",
    "C40_let_typed_last",
    "C40_let_semi_last",
    "C40_outside_refuted",
    "C40_shift_refuted",
    "C40_http"
   ],
   "note": "Proved for every token sequence: the macro accepts exactly the grammar, provided Rust code inside a term has no operator outside parentheses and a trailing ';' is allowed; derivations are unique and the emitted code does what the phrase means. rustc's own fragment matching ($expr, $ty, $pat) is an abstract parameter with stated laws. To the letter the claim is false: trailing ';' and the empty block are accepted (C40_outside_refuted), Rust code containing '>>' (a shift, or nested generics in 'ret @ ty') is rejected though the EBNF derives it (C40_shift_refuted). C40_http: the macro turns the tokens of the six invocations in examples/http_parser.rs into the parsers of Http.v. Not modelled: the recursion limit of rustc."
  },
  {
   "property": "C41",
   "status": "proved",
   "theorems": [
    "C41_accepts",
    "C41_only",
    "C41_unambiguous",
    "C41_total",
    "C41_fuel",
    "C41_prefix",
    "C41_stable",
    "C41_roundtrip",
    "C41_normalise",
    "C41_one_line_refuted",
    "C41_control_refuted"
   ],
   "note": "The format is SpecHttp.message. C41_one_line_refuted and C41_control_refuted record where that format, hence the example, is laxer than RFC 2616: a URI may contain line ends, DEL is a token character."
  },
  {
   "property": "C42",
   "status": "partial",
   "theorems": [
    "C42_growing_partial",
    "C42_fixed_partial",
    "C42_chunks",
    "C42_main",
    "C42_main_decides",
    "C42_main_exact",
    "C42_loop_decides",
    "C42_big_refuted",
    "C42_error_refuted",
    "C42_main_broken",
    "C42_loop_broken",
    "C42_main_chunks_broken"
   ],
   "note": "Proved for every chunking and fault schedule over an unlimited GrowingBuffer, and over a FixedSizeBuffer for requests that fit. The example itself uses a 6144 byte FixedSizeBuffer: its outcome is proved exactly for every file read without I/O error (C42_main_exact: the number of requests if the file is a sequence of requests of at most 6144 bytes each, a panic otherwise), and for every file with an I/O error before its end (C42_main_broken: a panic). Not provable because false: a request longer than the buffer (C42_big_refuted) or an I/O error (C42_error_refuted) ends the program in a panic."
  },
  {
   "property": "C43",
   "status": "proved",
   "theorems": [
    "C43_release_fixed",
    "C43_release_growing",
    "C43_release_slice",
    "C43_release_program",
    "C43_debug_fixed",
    "C43_debug_growing",
    "C43_fits_fixed",
    "C43_fits_growing",
    "C43_fits_slice",
    "C43_fixed_program",
    "C43_growing_program",
    "C43_growing_debug"
   ],
   "note": "C43_growing_program: whole programs over a GrowingBuffer on every machine that can allocate what they need at most; C43_fixed_program the same over a FixedSizeBuffer (parsers that panic included). Panics of the debug build are the only difference, and they are why C44 and C45 are separate. The comparison of single calls with unbounded integers leaves open the case where the unbounded model does not end (a lying source)."
  },
  {
   "property": "C44",
   "status": "partial",
   "theorems": [
    "C44_fixed_unwind_partial",
    "C44_growing_unwind_partial",
    "C44_fixed_buffer_unwind_partial",
    "C44_growing_buffer_unwind_partial",
    "C44_fixed_partial",
    "C44_growing_partial",
    "C44_fixed_buffer_partial",
    "C44_growing_buffer_partial",
    "C44_growing_buffer_refuted",
    "C44_fixed_buffer_refuted",
    "C44_lying_refuted"
   ],
   "note": "Proved for a Source over either buffer with any calls and any parsers, and for a FixedSizeBuffer used directly, if the data source obeys its contract; for a GrowingBuffer used directly if no more is consumed than it holds. The code violates the claim otherwise, in release builds: GrowingBuffer::request_space does not check used <= populated (C44_growing_buffer_refuted), and a DataSource (a safe trait) that reports more items than it had room for leads to copies out of bounds (C44_fixed_buffer_refuted, C44_lying_refuted). The derived == of FixedSizeBuffer and {:?} of both buffers and of Source read uninitialised memory in every build, see C49. The theorems named _unwind cover use after caught panics and writes through deref_mut."
  },
  {
   "property": "C45",
   "status": "partial",
   "theorems": [
    "C45_requests_partial",
    "C45_program_partial",
    "C45_growing_program_partial",
    "C45_slice_partial",
    "C45_retry_refuted",
    "C45_panic_refuted",
    "C45_slice_refuted",
    "C45_growing_refuted"
   ],
   "note": "Proved for every expression of the library whose explicit numbers (take, string, incomplete) are bounded, over a FixedSizeBuffer, a SliceStream, and (if no more than M items are asked for at a time) a GrowingBuffer, on machines with room for the sum. The code violates the claim for lengths taken from the data: buffer.len() + n is not checked (C45_retry_refuted: endless retries in release; C45_panic_refuted; C45_slice_refuted: Incomplete(0)), and a GrowingBuffer tries to allocate whatever is asked for, even with a limit (C45_growing_refuted)."
  },
  {
   "property": "C46",
   "status": "partial",
   "theorems": [
    "C46_outcome",
    "C46_parse_only",
    "C46_slice",
    "C46_source",
    "C46_slice_program_partial",
    "C46_source_program_partial",
    "C46_slice_stopping",
    "C46_fixed_stopping",
    "C46_growing_stopping",
    "C46_stream_refuted",
    "C46_http"
   ],
   "note": "Proved as stated for programs without string (C46_outcome and C46_slice_program_partial, C46_source_program_partial with strings = false). A failed string is reported at its start in the verbose build and at the first mismatch in the plain one (C07): with string everything but the error position is proved to agree (strings = true), and a program that goes on after such an error on a stream does see different items: C46_stream_refuted. Whole programs with string agree if they leave the stream alone after a failed step that uses it (C46_slice_stopping, C46_fixed_stopping, C46_growing_stopping). The HTTP example's main behaves the same in both builds (C46_http)."
  },
  {
   "property": "C47",
   "status": "proved",
   "theorems": [
    "C47_unnoticed",
    "C47_history",
    "C47_ends",
    "C47_reads",
    "C47_program",
    "C47_growth",
    "C47_beyond",
    "C47_tight_refuted"
   ],
   "note": "M counts the items a parser has been shown and asks for on top. The bound is sharp: under a limit of 2M-2 data is lost to a false end of input (C47_tight_refuted, for every M >= 2; for M = 1 that limit is 0, no limit)."
  },
  {
   "property": "C48",
   "status": "proved",
   "theorems": [
    "C48_input",
    "C48_error",
    "C48_result",
    "C48_parse_error",
    "C48_slice_stream",
    "C48_variants",
    "C48_order_exact",
    "C48_hash_prefix_free"
   ],
   "note": "The places of EPlain among the verbose errors and of the model's Panic and NoFuel among results are arbitrary (they never occur together with the others); the laws hold with them included."
  },
  {
   "property": "C49",
   "status": "partial",
   "theorems": [
    "C49_eq_exact",
    "C49_debug_exact",
    "C49_fresh_refuted",
    "C49_growing_refuted",
    "C49_populated_partial",
    "C49_full_partial",
    "C49_equal_partial",
    "C49_data_refuted",
    "C49_source"
   ],
   "note": "The code violates the claim: the derived implementations go through the whole backing vector, so that with_size(n) == with_size(n) and printing a new buffer read uninitialised memory in safe code (C49_fresh_refuted, C49_growing_refuted), and consumed items make buffers with the same data unequal (C49_data_refuted). Proved: exactly when it happens (C49_eq_exact, C49_debug_exact), that a FixedSizeBuffer which has been full once is safe for ever after (C49_full_partial), and that equal buffers are identical (C49_equal_partial)."
  },
  {
   "property": "C50",
   "status": "partial",
   "theorems": [
    "C50_same_fixed",
    "C50_same_growing",
    "C50_retry_fixed",
    "C50_retry_growing",
    "C50_slice",
    "C50_lossless_fixed_partial",
    "C50_lossless_growing_partial",
    "C50_iterator_same",
    "C50_iterator_reads",
    "C50_iterator_refuted"
   ],
   "note": "A panicking parser has no effect, and no item that a read has delivered is lost. The code violates the claim for items that a panicking read has already taken: an IteratorDataSource whose iterator panics drops the items it got before (C50_iterator_refuted)."
  },
  {
   "property": "C51",
   "status": "proved",
   "theorems": [
    "C51_needed_growing",
    "C51_needed_fixed",
    "C51_dialogue",
    "C51_prompt",
    "C51_quiet",
    "C51_over",
    "C51_read_fixed",
    "C51_read_growing",
    "C51_first_refuted",
    "C51_full_refuted"
   ],
   "note": "The two exceptions in the statement are real: C51_first_refuted (the first read is made even for a parser that needs no input), C51_full_refuted (a full FixedSizeBuffer has the source called with an empty slice)."
  },
  {
   "property": "C52",
   "status": "partial",
   "theorems": [
    "C52_many_partial",
    "C52_as_vec_partial",
    "C52_sep_partial",
    "C52_till_partial",
    "C52_fold",
    "C52_skip_is_unit",
    "C52_content",
    "C52_early",
    "C52_early_till",
    "C52_early_refuted",
    "C52_early_till_refuted",
    "C52_restless_till_refuted"
   ],
   "note": "Proved for every collection that takes all the items (C52_many_partial, C52_as_vec_partial, C52_sep_partial, C52_till_partial), and for [()] it is skip_many. False in general, shown for the code as it is: a collection that stops early leaves many Incomplete(1) as long as the input may go on, even if nothing more is wanted (C52_early gives the exact outcome, C52_early_refuted), many_till always (C52_early_till, C52_early_till_refuted); a collection that calls next() after the end makes many_till go on behind the end (C52_restless_till_refuted)."
  },
  {
   "property": "C53",
   "status": "proved",
   "theorems": [
    "C53_take_while",
    "C53_take_while1",
    "C53_take_till",
    "C53_scan",
    "C53_string",
    "C53_one_item",
    "C53_choice",
    "C53_rollback_refuted",
    "C53_bind",
    "C53_results",
    "C53_many",
    "C53_skip_many",
    "C53_sep_by",
    "C53_many_till",
    "C53_named",
    "C53_only_callbacks",
    "C53_pure",
    "C53_call",
    "C53_fixed_cost",
    "C53_growing_cost",
    "C53_search_cost",
    "C53_quadratic",
    "C53_once_refuted"
   ],
   "note": "Effects are not undone by a rejected alternative (C53_rollback_refuted), and 'once per item' holds within a call of parse, not over retries (C53_once_refuted; the cost of retrying is bounded by C53_growing_cost and C53_fixed_cost). Exact repetition is stated for Vec; collections are taken not to act on the world."
  },
  {
   "property": "C54",
   "status": "proved",
   "theorems": [
    "C54_instance",
    "C54_value",
    "C54_round_trip",
    "C54_no_number",
    "C54_alike",
    "C54_signed",
    "C54_signed_no_one",
    "C54_signed_value",
    "C54_big",
    "C54_wrapping",
    "C54_saturating",
    "C54_laws_refuted"
   ],
   "note": ""
  },
  {
   "property": "C55",
   "status": "proved",
   "theorems": [
    "C55_built",
    "C55_safe",
    "C55_well_behaved",
    "C55_stable",
    "C55_no_panic",
    "C55_ends",
    "C55_stream",
    "C55_any_buffer",
    "C55_terms_needed"
   ],
   "note": "terms: what named calls and inline code of a block mean, for any variables; C55_terms_needed: a call is a block, so the conditions on terms are needed"
  },
  {
   "property": "C56",
   "status": "proved",
   "theorems": [
    "C56_number",
    "C56_bytes",
    "C56_debug",
    "C56_display",
    "C56_display_refuted",
    "C56_description",
    "C56_parse_error",
    "C56_stream_error",
    "C56_result",
    "C56_names",
    "C56_unwrap",
    "C56_unwrap_message",
    "C56_unwrap_err_message",
    "C56_expect",
    "C56_expect_refuted",
    "C56_token",
    "C56_token_there",
    "C56_take",
    "C56_documented_refuted"
   ],
   "note": "Also refuted: Display does not tell an expected item from an expected string where items are lists; expect does not tell how much is wanted, nor tells arbitrary user errors from an incomplete state; the message documented at src/parse_result.rs:281 has a space the code does not write."
  },
  {
   "property": "C57",
   "status": "proved",
   "theorems": [
    "C57_count",
    "C57_count_all",
    "C57_count_short",
    "C57_many",
    "C57_no_data",
    "C57_single",
    "C57_many_requests",
    "C57_all_requests"
   ],
   "note": "Bench.v models what the closures given to Bencher::iter return; the parsers of benches/http_bench.rs:23-118 are those of examples/http_parser.rs."
  },
  {
   "property": "C58",
   "status": "proved",
   "theorems": [
    "C58_undisturbed_fixed",
    "C58_undisturbed_growing",
    "C58_fixed",
    "C58_quarter",
    "C58_single",
    "C58_data",
    "C58_growing",
    "C58_fill_buf",
    "C58_ahead"
   ],
   "note": "Amounts are counted by a meter added to the buffers; that it changes nothing else is C58_undisturbed_*. C58_fill_buf and C58_ahead give the worst cases exactly."
  },
  {
   "property": "C59",
   "status": "proved",
   "theorems": [
    "C59_fixed",
    "C59_growing",
    "C59_growing_later",
    "C59_handover",
    "C59_until_refuted",
    "C59_read_refuted"
   ],
   "note": "The two conditions (read into slices the buffer can fill; read_until only with some capacity) are shown to be needed by C59_read_refuted and C59_until_refuted. I/O errors are taken to be of the kinds that are retried."
  },
  {
   "property": "C60",
   "status": "proved",
   "theorems": [
    "C60_decimal",
    "C60_signed",
    "C60_primitive",
    "C60_exact",
    "C60_covered",
    "C60_rejected",
    "C60_i8_refuted"
   ],
   "note": "The table of lossless conversions is that of the crate conv, which is not in the repository (trusted, checked against the five compile-fail tests). C60_i8_refuted: the bound is stricter than needed for i8."
  },
  {
   "property": "C61",
   "status": "proved",
   "theorems": [
    "C61_parser",
    "C61_parse_only",
    "C61_fixed",
    "C61_growing",
    "C61_iterator",
    "C61_slice",
    "C61_source",
    "C61_fixed_program",
    "C61_growing_program",
    "C61_rename",
    "C61_no_inventing",
    "C61_carried",
    "C61_equality_needed"
   ],
   "note": "For GrowingBuffer the allocator is assumed to give the same amounts for both item types (in Rust they may depend on the size of an item; zero-sized items start with another capacity). C61_equality_needed shows that the condition on == is needed. In a uniformly typed model like this one the statement is a free theorem for every function that does not look at items; what could break it in Rust is unsafe code looking at their representation, which is modelled item by item (memory cells), not byte by byte."
  },
  {
   "property": "C62",
   "status": "proved",
   "theorems": [
    "C62_ranges",
    "C62_skip_ranges",
    "C62_skip_exact_refuted",
    "C62_shift",
    "C62_count_sum",
    "C62_at_least",
    "C62_many_twice",
    "C62_many_twice_refuted",
    "C62_sep_nothing",
    "C62_run",
    "C62_matched_run",
    "C62_take_till",
    "C62_through",
    "C62_scan",
    "C62_run_twice",
    "C62_take",
    "C62_remainder",
    "C62_take_sum",
    "C62_string_app",
    "C62_string_app_refuted",
    "C62_items",
    "C62_peek_refuted",
    "C62_built",
    "C62_factor",
    "C62_factor_right_refuted",
    "C62_map_or",
    "C62_or_comm",
    "C62_or_comm_refuted",
    "C62_look_ahead",
    "C62_option",
    "C62_matched"
   ],
   "note": "Equations of programs that loop are stated for every loop budget that is large enough: the two sides settle on the same outcomes (or both loop for ever)."
  },
  {
   "property": "C63",
   "status": "proved",
   "theorems": [
    "C63_fixed",
    "C63_growing",
    "C63_limited",
    "C63_paged",
    "C63_safe",
    "C63_conserves",
    "C63_answers",
    "C63_interchangeable",
    "C63_progress",
    "C63_bounded",
    "C63_ends",
    "C63_position",
    "C63_reads",
    "C63_programs",
    "C63_contract_refuted",
    "C63_contract_broken"
   ],
   "note": "The documentation of the trait states only part of the contract (consume at most len, a count not above the slice); that request_space and a failed fill keep the items, that len and deref agree, and that a fill after request_space offers a non-empty slice are not written down but relied on by Source."
  },
  {
   "property": "C64",
   "status": "proved",
   "theorems": [
    "C64_off",
    "C64_stalls",
    "C64_splits",
    "C64_paced",
    "C64_by_hand",
    "C64_either"
   ],
   "note": "Between two calls of parse only fill, set_autofill and reset are interleaved; reading as well (io::Read) is C59, without them."
  },
  {
   "property": "C65",
   "status": "proved",
   "theorems": [
    "C65_linear",
    "C65_one",
    "C65_stream",
    "C65_stems",
    "C65_returns",
    "C65_new_refuted",
    "C65_exchange_refuted",
    "C65_exchange_stream"
   ],
   "note": "The documentation's claim (src/input.rs:200-206) that inputs cannot be duplicated, thrown away by accident or constructed at will holds for clients which keep to one input per scope; C65_exchange_refuted shows that types and lifetimes do not enforce it. That the exchanging closure is accepted by the compiler is read off the signature of parse_only, it was not compiled. Throwing away is possible (DoDrop) but then the body cannot return. Caught panics are not modelled."
  },
  {
   "property": "C66",
   "status": "proved",
   "theorems": [
    "C66_many",
    "C66_calls",
    "C66_panics",
    "C66_forever",
    "C66_all",
    "C66_source",
    "C66_padding_refuted"
   ],
   "note": "The parser has no state of its own; parsers with state are C53."
  },
  {
   "property": "C67",
   "status": "proved",
   "theorems": [
    "C67_slice",
    "C67_success",
    "C67_source",
    "C67_end_refuted",
    "C67_small_buffer_refuted"
   ],
   "note": "Exact on slices for parsers that fail on the empty input (C67_slice); a parser that succeeds on nothing is not asked at the end of the data by a call of its own (C67_end_refuted). C67_small_buffer_refuted shows that the condition on the buffer is needed."
  },
  {
   "property": "C68",
   "status": "proved",
   "theorems": [
    "C68_sized",
    "C68_one",
    "C68_count",
    "C68_take_while_refuted",
    "C68_least",
    "C68_fixed",
    "C68_growing",
    "C68_fixed_answers",
    "C68_growing_answers",
    "C68_met"
   ],
   "note": "Expressions as `sized` defines; C68_fixed and C68_growing hold for every parser that bounds its requests. C68_least and C68_met show that neither bound can be lowered; C68_take_while_refuted that take_while has none."
  },
  {
   "property": "C69",
   "status": "proved",
   "theorems": [
    "C69_round",
    "C69_ops",
    "C69_overflow",
    "C69_infinities",
    "C69_total",
    "C69_sign",
    "C69_exact",
    "C69_from",
    "C69_small",
    "C69_zeros",
    "C69_error",
    "C69_infinite",
    "C69_finite",
    "C69_nearest_refuted",
    "C69_monotone_refuted"
   ],
   "note": "Floats.v models the arithmetic of IEEE 754 (part of the trusted base; C69_round and C69_ops prove that it yields the nearest float, ties to even). Refuted: C69_nearest_refuted, C69_monotone_refuted."
  },
  {
   "property": "C70",
   "status": "proved",
   "theorems": [
    "C70_slice",
    "C70_unique",
    "C70_stream",
    "C70_prefix",
    "C70_whole",
    "C70_left_recursion",
    "C70_idle_loop",
    "C70_earliest_refuted"
   ],
   "note": "The semantics (SpecPeg.v) is that of the literature with the number of items looked at, and does not mention the library. Refuted: C70_earliest_refuted (a literal is asked for as a whole even when its first item cannot match)."
  },
  {
   "property": "C71",
   "status": "proved",
   "theorems": [
    "C71_returns",
    "C71_parser",
    "C71_source"
   ],
   "note": "Well-formedness is the usual syntactic condition (Ford 2004, 3.6), with the nullable rules and an order of the rules as witnesses. What a call that does not return does (stack overflow) is not modelled."
  },
  {
   "property": "C72",
   "status": "proved",
   "theorems": [
    "C72_cause",
    "C72_report",
    "C72_stream",
    "C72_stands"
   ],
   "note": "The cause (SpecBlame.v) is defined over the derivations of SpecPeg.v, not over the parser."
  },
  {
   "property": "C73",
   "status": "proved",
   "theorems": [
    "C73_phrases",
    "C73_found",
    "C73_language",
    "C73_unambiguous",
    "C73_source",
    "C73_source_only",
    "C73_order_refuted"
   ],
   "note": "The conditions are needed: C73_order_refuted (alternatives which start alike, greedy repetition, ambiguity)."
  },
  {
   "property": "C74",
   "status": "proved",
   "theorems": [
    "C74_undisturbed",
    "C74_counted",
    "C74_linear",
    "C74_exponential"
   ],
   "note": "Calls of user code are counted; what the library does between two calls is bounded by them. C74_exponential shows that the LL(1) condition is needed."
  },
  {
   "property": "C75",
   "status": "proved",
   "theorems": [
    "C75_slice",
    "C75_slice_loop",
    "C75_source",
    "C75_bounded",
    "C75_fixed",
    "C75_growing_refuted"
   ],
   "note": "Calls of user code are counted (C74). The bound for a growing buffer is quadratic (C75_source with the retries, C75_growing_refuted); C75_fixed is linear for a fixed size."
  },
  {
   "property": "C76",
   "status": "proved",
   "theorems": [
    "C76_slice",
    "C76_isolated",
    "C76_source",
    "C76_grammar",
    "C76_file",
    "C76_file_source",
    "C76_literal_refuted",
    "C76_quotation_refuted"
   ],
   "note": "The parsers of a grammar are those of C70/C71. C76_literal_refuted and C76_quotation_refuted show what the conditions are for."
  },
  {
   "property": "C77",
   "status": "proved",
   "theorems": [
    "C77_reader",
    "C77_returns",
    "C77_answers",
    "C77_handover",
    "C77_programs",
    "C77_limit_refuted"
   ],
   "note": "Panics of a reader are not modelled (C77_returns shows that the inner Source does not panic). Towers of any height by repeated use of C77_reader (C77_case_any: three Sources)."
  },
  {
   "property": "C78",
   "status": "proved",
   "theorems": [
    "C78_required",
    "C78_optional",
    "C78_nothing",
    "C78_ranges",
    "C78_many",
    "C78_many1",
    "C78_count",
    "C78_at_most",
    "C78_sep_by1",
    "C78_sep_by",
    "C78_skip_many",
    "C78_till",
    "C78_till_or",
    "C78_till_or_refuted",
    "C78_many_unique",
    "C78_many_solution",
    "C78_till_unique",
    "C78_built"
   ],
   "note": "The library's loops are iterators; the equations are those of the recursive functions a user would write with bind, or and ret. C78_till_or_refuted shows the case where many_till differs from or."
  },
  {
   "property": "C79",
   "status": "proved",
   "theorems": [
    "C79_firm",
    "C79_tentative",
    "C79_copy",
    "C79_answers",
    "C79_suits",
    "C79_refuted",
    "C79_tentative_refuted",
    "C79_decisive",
    "C79_again_refuted"
   ],
   "note": "C79_answers is the main theorem, C79_firm, C79_tentative and C79_copy say which parsers qualify; C79_refuted and C79_tentative_refuted show that the condition is needed and is not automatic. C79_decisive is about the end parser of many_till, C79_again_refuted shows that asking again matters."
  },
  {
   "property": "C80",
   "status": "proved",
   "theorems": [
    "C80_meaning",
    "C80_text",
    "C80_order",
    "C80_waits",
    "C80_straight",
    "C80_steady",
    "C80_keeping",
    "C80_stream",
    "C80_rollback_refuted"
   ],
   "note": "C80_order, C80_waits and C80_straight give the order; C80_text relates the pieces to the tokens; C80_stream rests on C79; C80_rollback_refuted shows that effects of a rejected alternative remain. From conversions of errors are the identity, as in the model of C40."
  },
  {
   "property": "C81",
   "status": "proved",
   "theorems": [
    "C81_explained",
    "C81_determined",
    "C81_same",
    "C81_order",
    "C81_returns",
    "C81_answers",
    "C81_fair",
    "C81_caught"
   ],
   "note": "C81_explained is the main theorem; C81_determined, C81_same and C81_order say that explanations are unique, independent of the way there and lose nothing; C81_returns and C81_answers are about progress; C81_fair names the parsers over a GrowingBuffer; C81_caught ties the state after a caught panic to the model of C50. consume is called with no more than is visible, as BufRead demands. Parsers are to suit (C79): firm, leaving no trace with a request, needing input."
  },
  {
   "property": "C82",
   "status": "proved",
   "theorems": [
    "C82_parsers",
    "C82_rest",
    "C82_pieces",
    "C82_misplaced",
    "C82_results",
    "C82_bind",
    "C82_then",
    "C82_maps",
    "C82_alternatives",
    "C82_loops",
    "C82_named_loops",
    "C82_ascii",
    "C82_position",
    "C82_position_refuted",
    "C82_parse_only",
    "C82_stream"
   ],
   "note": "C82_parsers, C82_rest and C82_pieces are about the parsers, C82_results to C82_named_loops and C82_ascii about everything built from them. C82_misplaced and C82_position_refuted show the wrong place of an empty remainder, which is the behaviour of the code; C82_stream shows that SliceStream does not suffer from it. Memory is a function from addresses to items, an address counts items; a slice is never moved while it is in use."
  },
  {
   "property": "C83",
   "status": "proved",
   "theorems": [
    "C83_name",
    "C83_name_ok",
    "C83_ip_debug",
    "C83_ip_release",
    "C83_ip_panics",
    "C83_ip_refuted",
    "C83_log",
    "C83_log_ok",
    "C83_log_waits",
    "C83_log_refuted",
    "C83_launch",
    "C83_launch_safe",
    "C83_read_digit",
    "C83_heading",
    "C83_my_combinator",
    "C83_my_combinator_refuted",
    "C83_streams",
    "C83_stream_values",
    "C83_heading_fixed",
    "C83_text"
   ],
   "note": "C83_name, C83_log, C83_launch and C83_heading are equivalences with a list of all outcomes; C83_ip_debug, C83_ip_release and C83_ip_panics say exactly when the address parser returns and panics. C83_ip_refuted, C83_log_refuted and C83_my_combinator_refuted show what the programs do not do although a reader may expect it. C83_streams to C83_heading_fixed are about Sources, C83_text about the macro."
  },
  {
   "property": "C84",
   "status": "proved",
   "theorems": [
    "C84_read_back",
    "C84_only",
    "C84_whole",
    "C84_unique",
    "C84_refuses",
    "C84_returns",
    "C84_budget",
    "C84_cut",
    "C84_arrived",
    "C84_source",
    "C84_ambiguous_refuted"
   ],
   "note": "C84_read_back and C84_only are the two directions, C84_whole the equivalence, C84_unique its consequence about texts alone. C84_budget: the step budget of the modelled loops makes no difference. C84_cut, C84_arrived and C84_source are about data that arrives in pieces. C84_ambiguous_refuted shows that the condition on formats is needed."
  },
  {
   "property": "C85",
   "status": "proved",
   "theorems": [
    "C85_calls_fixed",
    "C85_calls_growing",
    "C85_fixed_program",
    "C85_growing_program",
    "C85_iterator_fixed",
    "C85_iterator_growing",
    "C85_iterator_refuted"
   ],
   "note": "C85_calls_fixed and C85_calls_growing have no hypotheses. C85_fixed_program and C85_growing_program have the conditions of C43. C85_iterator_fixed and C85_iterator_growing are about iterators that panic, behind a wrapper that asks for one item at a time; C85_iterator_refuted shows that items are missed without it, so the condition on the source is needed."
  },
  {
   "property": "C86",
   "status": "proved",
   "theorems": [
    "C86_fixed",
    "C86_growing",
    "C86_later_fixed",
    "C86_later_growing",
    "C86_waiting",
    "C86_records",
    "C86_end_fixed",
    "C86_end_growing",
    "C86_take_while_refuted",
    "C86_or_refuted"
   ],
   "note": "C86_fixed and C86_growing are the equations, C86_records is the case of one record parser built from the library, with no further condition on the data. C86_later_fixed and C86_later_growing are the equations from any reachable state. C86_waiting says which parsers qualify. C86_take_while_refuted and C86_or_refuted show that the condition on parsers is needed. C86_end_fixed and C86_end_growing: without reset the end is final."
  },
  {
   "property": "C87",
   "status": "proved",
   "theorems": [
    "C87_any",
    "C87_satisfy",
    "C87_satisfy_with",
    "C87_token",
    "C87_not_token",
    "C87_peek",
    "C87_peek_next",
    "C87_take",
    "C87_eof",
    "C87_take_remainder",
    "C87_take_while",
    "C87_take_while1",
    "C87_take_till",
    "C87_run_scanner",
    "C87_scan",
    "C87_string",
    "C87_input_new",
    "C87_Input_new",
    "C87_ret",
    "C87_err",
    "C87_incomplete",
    "C87_from_result",
    "C87_clone",
    "C87_buffer",
    "C87_replace",
    "C87_is_last_slice",
    "C87_bind",
    "C87_then",
    "C87_map",
    "C87_map_err",
    "C87_inspect",
    "C87_unwrap",
    "C87_expect",
    "C87_unwrap_err",
    "C87_parse_only",
    "C87_option",
    "C87_or",
    "C87_look_ahead",
    "C87_matched_by",
    "C87_bounded_skip_many",
    "C87_skip_many",
    "C87_skip_many1",
    "C87_bounded_many",
    "C87_bounded_many_till",
    "C87_many",
    "C87_many1",
    "C87_count",
    "C87_many_till",
    "C87_sep_by",
    "C87_sep_by1"
   ],
   "note": "One theorem per function. Trusted: that tools/rust_text.py parses the text correctly, and that Rust.v is the meaning of that part of Rust. The loop theorems have the hypothesis that the model's loop ends (not NoFuel); that the text does not end where the model's loop never ends is not stated."
  },
  {
   "property": "C88",
   "status": "proved",
   "theorems": [
    "C88_slice_new",
    "C88_into_stream",
    "C88_slice_len",
    "C88_slice_is_empty",
    "C88_slice_parse",
    "C88_read_new",
    "C88_read_into_inner",
    "C88_read_source",
    "C88_iterator_new",
    "C88_iterator_into_inner",
    "C88_iterator_source",
    "C88_fixed_new",
    "C88_fixed_with_size",
    "C88_fixed_deref",
    "C88_fixed_deref_mut",
    "C88_fixed_fill",
    "C88_fixed_request_space",
    "C88_fixed_consume",
    "C88_fixed_len",
    "C88_fixed_capacity",
    "C88_growing_new",
    "C88_growing_with_limit",
    "C88_growing_deref",
    "C88_growing_deref_mut",
    "C88_growing_fill",
    "C88_growing_request_space",
    "C88_growing_consume",
    "C88_growing_len",
    "C88_growing_capacity",
    "C88_source_new",
    "C88_from_read",
    "C88_from_iter",
    "C88_with_buffer",
    "C88_fill_requested",
    "C88_source_fill",
    "C88_source_len",
    "C88_source_is_empty",
    "C88_source_capacity",
    "C88_source_buffer",
    "C88_source_reset",
    "C88_source_set_autofill",
    "C88_source_read",
    "C88_source_fill_buf",
    "C88_source_consume",
    "C88_source_parse"
   ],
   "note": "One theorem per function. Trusted: tools/rust_text.py and Rust.v, as for C87. Hypotheses: the model's loop ends (not Stuck); for GrowingBuffer the length of the vector is at most its capacity (std's Vec). In a Source: ReadDataSource, IteratorDataSource or any other data source, with FixedSizeBuffer or GrowingBuffer; any other Buffer with any other data source."
  },
  {
   "property": "C89",
   "status": "proved",
   "theorems": [
    "C89_items",
    "C89_prefix",
    "C89_iterator",
    "C89_calls",
    "C89_parse",
    "C89_slice"
   ],
   "note": "About executions of the text itself (BufferText.v by the interpreter Rust.v); the model occurs only in the proofs and as the data source given from outside. consume is called with no more than buffer() shows. A Source has parsers of one type of values and one of errors (sums give all). Trusted: tools/rust_text.py and Rust.v, as for C87 and C88."
  },
  {
   "property": "C90",
   "status": "proved",
   "theorems": [
    "C90_shows",
    "C90_parse",
    "C90_consume",
    "C90_calls",
    "C90_part",
    "C90_slice"
   ],
   "note": "About executions of the text itself, as C89, but with no demand on the parser except that it ends. Of a debug build: the panics are those of debug_assert! and of checked subtraction; for release builds see C44. Executions that go on after a caught panic are not covered. Trusted: tools/rust_text.py and Rust.v, as for C87 and C88."
  }
 ]
}