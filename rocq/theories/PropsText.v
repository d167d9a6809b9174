(** C87: the model is the meaning of the text of the program.  The text is RustText.v, written by tools/rust_text.py from /repo/src; its meaning is that
    of Rust.v.  Each theorem says: with enough fuel, and whatever more there is, the call of the function in the text ends exactly as the
    function of the model.  [verbose] is the feature [verbose_error] (src/parsers.rs:408-530). *)
From Coq Require Import List Bool Arith String Lia.
From Verif Require Import Base.
From Verif Require Parsers.
From Verif Require Import Combinators Rust RustText TextModel TextProofs TextComb TextLoop TextSkip TextMany TextTill TextSep.
Import ListNotations.

Set Implicit Arguments.
Local Open Scope string_scope.
Local Open Scope nat_scope.

(** * src/parsers.rs *)

Section TextParsers.
  Context {I : Type}.
  Variable verbose : bool.
  Variable eqb : I -> I -> bool.
  Notation says O foreign starts acts f vs r := (settles (fun n => @call I O (text verbose) foreign eqb (fun v => v) starts acts n "" f vs) r).

  Theorem C87_any O foreign starts acts i :
    says O foreign starts acts "any" [w_input i] (w_pres VItem w_error (Parsers.any i)).
  Proof. apply text_any_says. Qed.
  Theorem C87_satisfy f starts acts i :
    says unit (outside_pred f) starts acts "satisfy" [w_input i; VObj tt] (w_pres VItem w_error (Parsers.satisfy verbose f i)).
  Proof. apply text_satisfy_says. Qed.
  Theorem C87_satisfy_with {T} (f : I -> T) (p : T -> bool) starts acts i :
    says _ (outside_with f p) starts acts "satisfy_with" [w_input i; VObj WithMap; VObj WithPred]
      (w_pres (fun t => VObj (WithValue t)) w_error (Parsers.satisfy_with verbose f p i)).
  Proof. apply text_satisfy_with_says. Qed.
  Theorem C87_token O foreign starts acts t i :
    says O foreign starts acts "token" [w_input i; VItem t] (w_pres VItem w_error (Parsers.token verbose eqb t i)).
  Proof. apply text_token_says. Qed.
  Theorem C87_not_token O foreign starts acts t i :
    says O foreign starts acts "not_token" [w_input i; VItem t] (w_pres VItem w_error (Parsers.not_token verbose eqb t i)).
  Proof. apply text_not_token_says. Qed.
  Theorem C87_peek O foreign starts acts i :
    says O foreign starts acts "peek" [w_input i] (w_pres (w_option VItem) w_error (Parsers.peek i)).
  Proof. apply text_peek_says. Qed.
  Theorem C87_peek_next O foreign starts acts i :
    says O foreign starts acts "peek_next" [w_input i] (w_pres VItem w_error (Parsers.peek_next i)).
  Proof. apply text_peek_next_says. Qed.
  Theorem C87_take O foreign starts acts num i :
    says O foreign starts acts "take" [w_input i; VNat num] (w_pres VSlice w_error (Parsers.take num i)).
  Proof. apply text_take_says. Qed.
  Theorem C87_eof O foreign starts acts i :
    says O foreign starts acts "eof" [w_input i] (w_pres (fun _ => VUnit) w_error (Parsers.eof verbose i)).
  Proof. apply text_eof_says. Qed.
  Theorem C87_take_remainder O foreign starts acts i :
    says O foreign starts acts "take_remainder" [w_input i] (w_pres VSlice w_error (Parsers.take_remainder i)).
  Proof. apply text_take_remainder_says. Qed.
  Theorem C87_take_while f starts acts i :
    says unit (outside_pred f) starts acts "take_while" [w_input i; VObj tt] (w_pres VSlice w_error (Parsers.take_while f i)).
  Proof. apply text_take_while_says. Qed.
  Theorem C87_take_while1 f starts acts i :
    says unit (outside_pred f) starts acts "take_while1" [w_input i; VObj tt] (w_pres VSlice w_error (Parsers.take_while1 verbose f i)).
  Proof. apply text_take_while1_says. Qed.
  Theorem C87_take_till f starts acts i :
    says unit (outside_pred f) starts acts "take_till" [w_input i; VObj tt] (w_pres VSlice w_error (Parsers.take_till f i)).
  Proof. apply text_take_till_says. Qed.
  Theorem C87_run_scanner {S} (f : S -> I -> option S) s0 starts acts i :
    says _ (outside_scan f) starts acts "run_scanner" [w_input i; VObj (ScanState s0); VObj ScanStep]
      (w_pres (fun r => VCon "" "" [VSlice (fst r); VObj (ScanState (snd r))]) w_error (Parsers.run_scanner s0 f i)).
  Proof. apply text_run_scanner_says. Qed.
  Theorem C87_scan {S} (f : S -> I -> option S) s0 starts acts i :
    says _ (outside_scan f) starts acts "scan" [w_input i; VObj (ScanState s0); VObj ScanStep]
      (w_pres VSlice w_error (Parsers.scan s0 f i)).
  Proof. apply text_scan_says. Qed.
  Theorem C87_string O foreign starts acts t i :
    says O foreign starts acts "string" [w_input i; VSlice t] (w_pres VSlice w_error (Parsers.string verbose eqb t i)).
  Proof. apply text_string_says. Qed.
End TextParsers.

(** * src/input.rs, src/parse_result.rs *)

Section TextMethods.
  Context {I T U E V : Type}.
  Variable eqb : I -> I -> bool.
  Variable verbose : bool.
  Notation says O foreign conv starts acts ty f vs r :=
    (settles (fun n => @call I O (text verbose) foreign eqb conv starts acts n ty f vs) r).
  Notation method := (method_thing T U E V).

  Theorem C87_input_new O foreign conv starts acts (i : input I) :
    says O foreign conv starts acts "input" "new" [VFlags (if last i then 1 else 0); VSlice (buf i)] (Val (w_input i)).
  Proof. apply text_input_new_says. Qed.
  Theorem C87_Input_new O foreign conv starts acts (b : list I) :
    says O foreign conv starts acts "Input" "new" [VSlice b] (Val (w_input (input_new b))).
  Proof. apply text_Input_new_says. Qed.
  Theorem C87_ret foreign conv starts acts (i : input I) t :
    says method foreign conv starts acts "Input" "ret" [w_input i; w_old t] (w_pres w_old w_olderr (ret t i)).
  Proof. apply text_ret_says. Qed.
  Theorem C87_err foreign conv starts acts (i : input I) e :
    says method foreign conv starts acts "Input" "err" [w_input i; w_olderr e] (w_pres w_old w_olderr (err e i)).
  Proof. apply text_err_says. Qed.
  Theorem C87_incomplete foreign conv starts acts (i : input I) n :
    says method foreign conv starts acts "Input" "incomplete" [w_input i; VNat n] (w_pres w_old w_olderr (incomplete n i)).
  Proof. apply text_incomplete_says. Qed.
  Theorem C87_from_result foreign conv starts acts (i : input I) (r : T + E) :
    says method foreign conv starts acts "Input" "from_result"
      [w_input i; match r with inl t => VCon "Result" "Ok" [w_old t] | inr e => VCon "Result" "Err" [w_olderr e] end]
      (w_pres w_old w_olderr (from_result r i)).
  Proof. apply text_from_result_says. Qed.
  Theorem C87_clone O foreign conv starts acts (i : input I) :
    says O foreign conv starts acts "Input" "clone" [w_input i] (Val (w_input i)).
  Proof. apply text_clone_says. Qed.
  Theorem C87_buffer O foreign conv starts acts (i : input I) :
    says O foreign conv starts acts "Input" "buffer" [w_input i] (Val (VSlice (buf i))).
  Proof. apply text_buffer_says. Qed.
  Theorem C87_replace O foreign conv starts acts (i : input I) b :
    says O foreign conv starts acts "Input" "replace" [w_input i; VSlice b] (Val (w_input (replace i b))).
  Proof. apply text_replace_says. Qed.
  Theorem C87_is_last_slice O foreign conv starts acts (i : input I) :
    says O foreign conv starts acts "Input" "is_last_slice" [w_input i] (Val (VBool (last i))).
  Proof. apply text_is_last_slice_says. Qed.
  Theorem C87_bind (f : input I -> T -> pres I U V) (conv : E -> V) starts acts (r : pres I T E) v :
    w_pres w_old w_olderr r = Val v ->
    says method (outside_bind f) (w_from conv) starts acts "ParseResult" "bind" [v; VObj MClosure]
      (w_pres w_new w_newerr (bind conv r f)).
  Proof. apply text_bind_says; assumption. Qed.
  Theorem C87_then (f : input I -> pres I U V) (conv : E -> V) starts acts (r : pres I T E) v :
    w_pres w_old w_olderr r = Val v ->
    says method (outside_then f) (w_from conv) starts acts "ParseResult" "then" [v; VObj MClosure]
      (w_pres w_new w_newerr (then_ conv r f)).
  Proof. apply text_then_says; assumption. Qed.
  Theorem C87_map (f : T -> U) conv starts acts (r : pres I T E) v :
    w_pres w_old w_olderr r = Val v ->
    says method (outside_map f) conv starts acts "ParseResult" "map" [v; VObj MClosure] (w_pres w_new w_olderr (map f r)).
  Proof. apply text_map_says; assumption. Qed.
  Theorem C87_map_err (f : E -> V) conv starts acts (r : pres I T E) v :
    w_pres w_old w_olderr r = Val v ->
    says method (outside_map_err f) conv starts acts "ParseResult" "map_err" [v; VObj MClosure] (w_pres w_old w_newerr (map_err f r)).
  Proof. apply text_map_err_says; assumption. Qed.
  Theorem C87_inspect (f : T -> U) conv starts acts (r : pres I T E) v {W} (g : T -> W -> W) w :
    w_pres w_old w_olderr r = Val v ->
    says method (outside_map f) conv starts acts "ParseResult" "inspect" [v; VObj MClosure] (w_pres w_old w_olderr (fst (inspect g r w))).
  Proof. apply text_inspect_says; assumption. Qed.
  Theorem C87_unwrap foreign conv starts acts (r : pres I T E) v :
    w_pres w_old w_olderr r = Val v ->
    says method foreign conv starts acts "ParseResult" "unwrap" [v] (w_unwrapped w_old (unwrap r)).
  Proof. apply text_unwrap_says; assumption. Qed.
  Theorem C87_expect foreign conv starts acts (r : pres I T E) v msg :
    w_pres w_old w_olderr r = Val v ->
    says method foreign conv starts acts "ParseResult" "expect" [v; msg] (w_unwrapped w_old (unwrap r)).
  Proof. apply text_expect_says; assumption. Qed.
  Theorem C87_unwrap_err foreign conv starts acts (r : pres I T E) v :
    w_pres w_old w_olderr r = Val v ->
    says method foreign conv starts acts "ParseResult" "unwrap_err" [v] (w_unwrapped w_olderr (unwrap_err r)).
  Proof. apply text_unwrap_err_says; assumption. Qed.
End TextMethods.

(** * src/parse.rs:52-61; src/combinators/mod.rs:58-106, 328-364 *)

Section TextOnce.
  Context {I T E : Type}.
  Variable eqb : I -> I -> bool.
  Variable verbose : bool.
  Variables f g : parser I T E.
  Notation once := (once_thing T E).
  Notation says conv starts acts fn vs r :=
    (settles (fun n => @call I once (text verbose) (outside_once f g) eqb conv starts acts n "" fn vs) r).

  Theorem C87_parse_only conv starts acts s :
    says conv starts acts "parse_only" [VObj OnceF; VSlice s] (w_outcome w_once w_oncerr (parse_only f s)).
  Proof. apply text_parse_only_says. Qed.
  Theorem C87_option conv starts acts (i : input I) d :
    says conv starts acts "option" [w_input i; VObj OnceF; w_once d] (w_pres w_once w_oncerr (option_ f d i)).
  Proof. apply text_option_says. Qed.
  Theorem C87_or conv starts acts (i : input I) :
    says conv starts acts "or" [w_input i; VObj OnceF; VObj OnceG] (w_pres w_once w_oncerr (or_ f g i)).
  Proof. apply text_or_says. Qed.
  Theorem C87_look_ahead conv starts acts (i : input I) :
    says conv starts acts "look_ahead" [w_input i; VObj OnceF] (w_pres w_once w_oncerr (look_ahead f i)).
  Proof. apply text_look_ahead_says. Qed.
  Theorem C87_matched_by conv starts acts (i : input I) :
    says conv starts acts "matched_by" [w_input i; VObj OnceF]
      (w_pres (fun p => VCon "" "" [VSlice (fst p); w_once (snd p)]) w_oncerr (matched_by f i)).
  Proof. apply text_matched_by_says. Qed.
End TextOnce.

(** * skip_many: src/combinators/bounded.rs:154-191, 292-321, 403-419, 502-530, 621-652, 741-746, src/combinators/mod.rs:287-317 *)

Section TextSkips.
  Context {P Q C U V T E N I : Type}.
  Notation thing := (thing P Q C U V T E N).
  Notation value := (value I thing).
  Variable eqb : I -> I -> bool.
  Variable verbose : bool.
  Variable p : sparser P I U E.
  Variable q : sparser Q I V N.
  Variable conv : value -> value.
  Variable starts : thing.
  Variable acts : thing -> caction value value thing.
  Notation says ty f vs r := (settles (fun n => call (text verbose) (outside_parsers p q) eqb conv starts acts n ty f vs) r).

  Theorem C87_bounded_skip_many fuel s r i :
    bskip_many fuel r s p i <> NoFuel ->
    says "bounded" "skip_many" [w_input i; w_range r; VObj (TParser s)] (w_pres w_unit w_err (bskip_many fuel r s p i)).
  Proof. apply text_bounded_skip_many_says; assumption. Qed.
  Theorem C87_skip_many fuel s i :
    skip_many fuel s p i <> NoFuel ->
    says "" "skip_many" [w_input i; VObj (TParser s)] (w_pres w_unit w_err (skip_many fuel s p i)).
  Proof. apply text_skip_many_says; assumption. Qed.
  Theorem C87_skip_many1 fuel s i :
    skip_many1 fuel s p i <> NoFuel ->
    says "" "skip_many1" [w_input i; VObj (TParser s)] (w_pres w_unit w_err (skip_many1 fuel s p i)).
  Proof. apply text_skip_many1_says; assumption. Qed.
End TextSkips.

(** * many, many_till, sep_by: src/combinators/macros.rs:5-272, src/combinators/bounded.rs, src/combinators/mod.rs:34-40, 128-270 *)

Section TextCollects.
  Context {P Q C U V T E N I : Type}.
  Notation thing := (thing P Q C U V T E N).
  Notation value := (value I thing).
  Variable eqb : I -> I -> bool.
  Variable verbose : bool.
  Variable p : sparser P I U E.
  Variable q : sparser Q I V N.
  Variable cnv : N -> E.
  Variable col : collector U T C.
  Notation says ty f vs r :=
    (settles (fun n => call (text verbose) (outside_parsers p q) eqb (w_conv cnv) (TCollect (cinit col)) (w_acts col) n ty f vs) r).

  Theorem C87_bounded_many fuel s r i :
    bmany fuel col r s p i <> NoFuel ->
    says "bounded" "many" [w_input i; w_range r; VObj (TParser s)] (w_pres w_out w_err (bmany fuel col r s p i)).
  Proof. apply text_bounded_many_says; assumption. Qed.
  Theorem C87_bounded_many_till fuel s e r i :
    bmany_till fuel col r s e p q i <> NoFuel ->
    says "bounded" "many_till" [w_input i; w_range r; VObj (TParser s); VObj (TOther e)] (w_pres w_out w_err (bmany_till fuel col r s e p q i)).
  Proof. apply text_bounded_many_till_says; assumption. Qed.
  Theorem C87_many fuel s i :
    many fuel col s p i <> NoFuel -> says "" "many" [w_input i; VObj (TParser s)] (w_pres w_out w_err (many fuel col s p i)).
  Proof. apply text_many_says; assumption. Qed.
  Theorem C87_many1 fuel s i :
    many1 fuel col s p i <> NoFuel -> says "" "many1" [w_input i; VObj (TParser s)] (w_pres w_out w_err (many1 fuel col s p i)).
  Proof. apply text_many1_says; assumption. Qed.
  Theorem C87_count fuel num s i :
    count fuel col num s p i <> NoFuel ->
    says "" "count" [w_input i; VNat num; VObj (TParser s)] (w_pres w_out w_err (count fuel col num s p i)).
  Proof. apply text_count_says; assumption. Qed.
  Theorem C87_many_till fuel s e i :
    many_till fuel col s e p q i <> NoFuel ->
    says "" "many_till" [w_input i; VObj (TParser s); VObj (TOther e)] (w_pres w_out w_err (many_till fuel col s e p q i)).
  Proof. apply text_many_till_says; assumption. Qed.
  Theorem C87_sep_by fuel sp ss i :
    sep_by fuel col cnv sp ss p q i <> NoFuel ->
    says "" "sep_by" [w_input i; VObj (TParser sp); VObj (TOther ss)] (w_pres w_out w_err (sep_by fuel col cnv sp ss p q i)).
  Proof. apply text_sep_by_says; assumption. Qed.
  Theorem C87_sep_by1 fuel sp ss i :
    sep_by1 fuel col cnv sp ss p q i <> NoFuel ->
    says "" "sep_by1" [w_input i; VObj (TParser sp); VObj (TOther ss)] (w_pres w_out w_err (sep_by1 fuel col cnv sp ss p q i)).
  Proof. apply text_sep_by1_says; assumption. Qed.
End TextCollects.

(** * Concrete cases *)

Section Cases.
  (** A digit parser in the style of src/parsers.rs:45 and a separator, over [nat] (7 separates). *)
  Let digit : sparser nat nat nat nat :=
    fun s i => match buf i with
               | [] => (Incomplete 1, s)
               | x :: b => if x <? 5 then (Data (mkInput (last i) b) x, S s) else (Error b s, s)
               end.
  Let comma : sparser nat nat unit bool :=
    fun s i => match buf i with
               | [] => (Incomplete 1, s)
               | x :: b => if x =? 7 then (Data (mkInput (last i) b) tt, S s) else (Error b true, s)
               end.
  Let run (f : string) (vs : list (value nat (thing nat nat (bool * list nat) nat unit (list nat) nat bool))) :=
    call (text true) (outside_parsers digit comma) Nat.eqb (w_conv (fun _ : bool => 42)) (TCollect (cinit (vec_collector nat)))
      (w_acts (vec_collector nat)) 100 "" f vs.

  Example C87_sep_by_case :
    run "sep_by" [w_input (mkInput true [1; 7; 2; 7; 3; 9]); VObj (TParser 0); VObj (TOther 0)]
    = Val (w_result "Data" [w_input (mkInput true [9]); w_out [1; 2; 3]]).
  Proof. vm_compute. reflexivity. Qed.
  Example C87_sep_by_fuel : sep_by 10 (vec_collector nat) (fun _ : bool => 42) 0 0 digit comma (mkInput true [1; 7; 2; 7; 3; 9]) <> NoFuel.
  Proof. vm_compute. discriminate. Qed.
  Example C87_many_case :
    run "many" [w_input (mkInput false [1; 2; 7; 3]); VObj (TParser 0)] = Val (w_result "Data" [w_input (mkInput false [7; 3]); w_out [1; 2]]).
  Proof. vm_compute. reflexivity. Qed.
  Example C87_count_case : run "count" [w_input (mkInput false [1; 2; 7; 3]); VNat 3; VObj (TParser 0)] = Val (w_result "Error" [VSlice [3]; w_err 2]).
  Proof. vm_compute. reflexivity. Qed.
  Example C87_count_fuel : count 10 (vec_collector nat) 3 0 digit (mkInput false [1; 2; 7; 3]) <> NoFuel.
  Proof. vm_compute. discriminate. Qed.
  Example C87_many_till_case :
    run "many_till" [w_input (mkInput true [1; 2; 7; 3]); VObj (TParser 0); VObj (TOther 0)]
    = Val (w_result "Data" [w_input (mkInput true [3]); w_out [1; 2]]).
  Proof. vm_compute. reflexivity. Qed.
  Example C87_skip_many1_case : run "skip_many1" [w_input (mkInput false [1; 2]); VObj (TParser 0)] = Val (w_result "Incomplete" [VNat 1]).
  Proof. vm_compute. reflexivity. Qed.
  Example C87_skip_many1_fuel : skip_many1 10 0 digit (mkInput false [1; 2]) <> NoFuel.
  Proof. vm_compute. discriminate. Qed.
  Example C87_string_case :
    run "string" [w_input (mkInput true [1; 2; 7; 3]); VSlice [1; 3]] = Val (w_result "Error" [VSlice [1; 2; 7; 3]; VCon "Error" "String" [VSlice [1; 3]]]).
  Proof. vm_compute. reflexivity. Qed.
  (** Without enough fuel there is no answer. *)
  Example C87_tired_case :
    call (text true) (outside_parsers digit comma) Nat.eqb (w_conv (fun _ : bool => 42)) (TCollect (cinit (vec_collector nat)))
      (w_acts (vec_collector nat)) 12 "" "many" [w_input (mkInput false [1; 2; 7; 3]); VObj (TParser 0)] = Tired.
  Proof. vm_compute. reflexivity. Qed.
  (** A closure that panics, a result that is unwrapped. *)
  Example C87_bind_case :
    call (text false) (outside_bind (fun i (t : nat) => if t =? 0 then @Panic nat nat nat else Data i (t + 1))) Nat.eqb (w_from S) MClosure no_acts 60
      "ParseResult" "bind" [w_result "Data" [w_input (mkInput true [5]); w_old 3]; VObj MClosure]
    = Val (w_result "Data" [w_input (mkInput true [5]); w_new 4]).
  Proof. vm_compute. reflexivity. Qed.
  Example C87_bind_panic :
    call (text false) (outside_bind (fun i (t : nat) => if t =? 0 then @Panic nat nat nat else Data i (t + 1))) Nat.eqb (w_from S) MClosure no_acts 60
      "ParseResult" "bind" [w_result "Data" [w_input (mkInput true [5]); w_old 0]; VObj MClosure] = Panicking.
  Proof. vm_compute. reflexivity. Qed.
End Cases.

Print Assumptions C87_any.
Print Assumptions C87_satisfy.
Print Assumptions C87_satisfy_with.
Print Assumptions C87_token.
Print Assumptions C87_not_token.
Print Assumptions C87_peek.
Print Assumptions C87_peek_next.
Print Assumptions C87_take.
Print Assumptions C87_eof.
Print Assumptions C87_take_remainder.
Print Assumptions C87_take_while.
Print Assumptions C87_take_while1.
Print Assumptions C87_take_till.
Print Assumptions C87_run_scanner.
Print Assumptions C87_scan.
Print Assumptions C87_string.
Print Assumptions C87_input_new.
Print Assumptions C87_Input_new.
Print Assumptions C87_ret.
Print Assumptions C87_err.
Print Assumptions C87_incomplete.
Print Assumptions C87_from_result.
Print Assumptions C87_clone.
Print Assumptions C87_buffer.
Print Assumptions C87_replace.
Print Assumptions C87_is_last_slice.
Print Assumptions C87_bind.
Print Assumptions C87_then.
Print Assumptions C87_map.
Print Assumptions C87_map_err.
Print Assumptions C87_inspect.
Print Assumptions C87_unwrap.
Print Assumptions C87_expect.
Print Assumptions C87_unwrap_err.
Print Assumptions C87_parse_only.
Print Assumptions C87_option.
Print Assumptions C87_or.
Print Assumptions C87_look_ahead.
Print Assumptions C87_matched_by.
Print Assumptions C87_bounded_skip_many.
Print Assumptions C87_skip_many.
Print Assumptions C87_skip_many1.
Print Assumptions C87_bounded_many.
Print Assumptions C87_bounded_many_till.
Print Assumptions C87_many.
Print Assumptions C87_many1.
Print Assumptions C87_count.
Print Assumptions C87_many_till.
Print Assumptions C87_sep_by.
Print Assumptions C87_sep_by1.
