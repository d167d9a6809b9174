(** Where slices lie in memory: src/input.rs, src/parse_result.rs, src/parsers.rs, src/ascii.rs and src/combinators/{macros,bounded,mod}.rs once
    more, where a slice is an address and a length.  (In Base.v a slice is the list of its items.)  Slicing out of bounds panics here.  No proofs here. *)
From Coq Require Import List Bool Arith ZArith.
From Coq.Init Require Import Byte.
From Verif Require Import Base Parsers Combinators Ascii Buffer.
Import ListNotations.

Set Implicit Arguments.

(** [&'a [I]] (src/input.rs:78): the address of the first item, counted in items, and the number of items. *)
Record slice : Type := mkSlice { s_at : nat; s_len : nat }.

(** The items of a slice; [mem] is what lies at every address. (Rust reference; the slice of src/input.rs:78.) *)
Definition read {I} (mem : nat -> I) (s : slice) : list I := List.map mem (seq (s_at s) (s_len s)).

(** src/input.rs:78 [struct Input]. *)
Record l_input : Type := mkLInput { l_last : bool; l_buf : slice }.

(** src/parse_result.rs:18-31 [enum State], see [pres]. *)
Inductive l_res (T E : Type) : Type :=
| LData (i : l_input) (t : T)
| LError (b : slice) (e : E)
| LIncomplete (n : nat)
| LPanic
| LNoFuel.
Arguments LData {T E} i t.
Arguments LError {T E} b e.
Arguments LIncomplete {T E} n.
Arguments LPanic {T E}.
Arguments LNoFuel {T E}.

(** [Fn(Input<I>) -> ParseResult<I, T, E>] of src/input.rs:69-75, see [parser]. *)
Definition l_parser (T E : Type) : Type := l_input -> l_res T E.

(** [&b[n..]] (std; as in src/parsers.rs:30, 180, 214): panics if [n] is beyond the end. *)
Definition from_index {T E} (b : slice) (n : nat) (k : slice -> l_res T E) : l_res T E :=
  if n <=? s_len b then k (mkSlice (s_at b + n) (s_len b - n)) else LPanic.

(** [&b[..n]] (std; as in src/parsers.rs:180, 214, 221). *)
Definition to_index {T E} (b : slice) (n : nat) (k : slice -> l_res T E) : l_res T E :=
  if n <=? s_len b then k (mkSlice (s_at b) n) else LPanic.

(** src/input.rs:124-126 [Input::ret]. *)
Definition l_ret {T E} (t : T) (i : l_input) : l_res T E := LData i t.

(** src/input.rs:145-147 [Input::err]. *)
Definition l_err {T E} (e : E) (i : l_input) : l_res T E := LError (l_buf i) e.

(** src/input.rs:156-158 [Input::incomplete]. *)
Definition l_incomplete {T E} (n : nat) (i : l_input) : l_res T E := LIncomplete n.

(** src/input.rs:181-186 [Input::from_result]. *)
Definition l_from_result {T E} (r : T + E) (i : l_input) : l_res T E :=
  match r with
  | inl t => LData i t
  | inr e => LError (l_buf i) e
  end.

(** src/input.rs:256-258 [InputBuffer::replace]. *)
Definition l_replace (i : l_input) (b : slice) : l_input := mkLInput (l_last i) b.

(** src/parse_result.rs:220-227 [ParseResult::map_err]. *)
Definition l_map_err {T E V} (f : E -> V) (r : l_res T E) : l_res T V :=
  match r with
  | LData i t => LData i t
  | LError b e => LError b (f e)
  | LIncomplete n => LIncomplete n
  | LPanic => LPanic
  | LNoFuel => LNoFuel
  end.

(** src/parse_result.rs:142-150 [ParseResult::bind], see [bind]. *)
Definition l_bind {T U E V} (conv : E -> V) (r : l_res T E) (f : l_input -> T -> l_res U V) : l_res U V :=
  match r with
  | LData i t => l_map_err (fun v : V => v) (f i t)
  | LError b e => LError b (conv e)
  | LIncomplete n => LIncomplete n
  | LPanic => LPanic
  | LNoFuel => LNoFuel
  end.

(** src/parse_result.rs:179-183 [ParseResult::then]. *)
Definition l_then {T U E V} (conv : E -> V) (r : l_res T E) (f : l_input -> l_res U V) : l_res U V :=
  l_bind conv r (fun i _ => f i).

(** src/parse_result.rs:197-204 [ParseResult::map]. *)
Definition l_map {T U E} (f : T -> U) (r : l_res T E) : l_res U E :=
  match r with
  | LData i t => LData i (f t)
  | LError b e => LError b e
  | LIncomplete n => LIncomplete n
  | LPanic => LPanic
  | LNoFuel => LNoFuel
  end.

(** src/parse_result.rs:244-251 [ParseResult::inspect], see [inspect]. *)
Definition l_inspect {T E W} (f : T -> W -> W) (r : l_res T E) (w : W) : l_res T E * W :=
  match r with
  | LData _ t => (r, f t w)
  | _ => (r, w)
  end.

(** * src/parsers.rs *)

Section LocatedParsers.
  Context {I : Type}.
  (** Feature flag verbose_error (Cargo.toml:33). *)
  Variable verbose : bool.
  (** [I: PartialEq]. *)
  Variable eqb : I -> I -> bool.
  (** What lies in memory. *)
  Variable mem : nat -> I.

  (** src/parsers.rs:482-486 (verbose) and 547-555 (plain) [err::string]. *)
  Definition l_err_string {T} (i : l_input) (offset : nat) (expected : list I) : l_res T (error I) :=
    if verbose then l_err (EString expected) i
    else from_index (l_buf i) offset (fun b => l_err EPlain (l_replace i b)).

  (** src/parsers.rs:25-32 [any]. *)
  Definition l_any (i : l_input) : l_res I (error I) :=
    let b := l_buf i in
    match first (read mem b) with
    | None => l_incomplete 1 i
    | Some c => from_index b 1 (fun r => l_ret c (l_replace i r))
    end.

  (** src/parsers.rs:45-54 [satisfy]. *)
  Definition l_satisfy (f : I -> bool) (i : l_input) : l_res I (error I) :=
    let b := l_buf i in
    match first (read mem b) with
    | None => l_incomplete 1 i
    | Some c => if f c then from_index b 1 (fun r => l_ret c (l_replace i r)) else l_err (err_unexpected verbose) i
    end.

  (** src/parsers.rs:71-88 [satisfy_with]. *)
  Definition l_satisfy_with {T} (f : I -> T) (p : T -> bool) (i : l_input) : l_res T (error I) :=
    let b := l_buf i in
    match first (read mem b) with
    | Some n =>
        let t := f n in
        if p t then from_index b 1 (fun r => l_ret t (l_replace i r)) else l_err (err_unexpected verbose) i
    | None => l_incomplete 1 i
    end.

  (** src/parsers.rs:100-108 [token]. *)
  Definition l_token (t : I) (i : l_input) : l_res I (error I) :=
    let b := l_buf i in
    match first (read mem b) with
    | None => l_incomplete 1 i
    | Some c => if eqb t c then from_index b 1 (fun r => l_ret c (l_replace i r)) else l_err (err_expected verbose t) i
    end.

  (** src/parsers.rs:120-128 [not_token]. *)
  Definition l_not_token (t : I) (i : l_input) : l_res I (error I) :=
    let b := l_buf i in
    match first (read mem b) with
    | None => l_incomplete 1 i
    | Some c => if negb (eqb t c) then from_index b 1 (fun r => l_ret c (l_replace i r)) else l_err (err_unexpected verbose) i
    end.

  (** src/parsers.rs:143-147 [peek]. *)
  Definition l_peek (i : l_input) : l_res (option I) (error I) := l_ret (first (read mem (l_buf i))) i.

  (** src/parsers.rs:159-164 [peek_next]. *)
  Definition l_peek_next (i : l_input) : l_res I (error I) :=
    match first (read mem (l_buf i)) with
    | None => l_incomplete 1 i
    | Some c => l_ret c i
    end.

  (** src/parsers.rs:176-184 [take]. *)
  Definition l_take (num : nat) (i : l_input) : l_res slice (error I) :=
    let b := l_buf i in
    if num <=? s_len b then from_index b num (fun r => to_index b num (fun d => l_ret d (l_replace i r)))
    else l_incomplete (num - s_len b) i.

  (** src/parsers.rs:209-226 [take_while]: at the end of the last slice the remainder is [&b[..0]], at the start of [b]. *)
  Definition l_take_while (f : I -> bool) (i : l_input) : l_res slice (error I) :=
    let b := l_buf i in
    match position (fun c => Bool.eqb (f c) false) (read mem b) with
    | Some n => from_index b n (fun r => to_index b n (fun d => l_ret d (l_replace i r)))
    | None => if l_last i then to_index b 0 (fun r => l_ret b (l_replace i r)) else l_incomplete 1 i
    end.

  (** src/parsers.rs:242-260 [take_while1]. *)
  Definition l_take_while1 (f : I -> bool) (i : l_input) : l_res slice (error I) :=
    let b := l_buf i in
    match position (fun c => Bool.eqb (f c) false) (read mem b) with
    | Some 0 => l_err (err_unexpected verbose) i
    | Some n => from_index b n (fun r => to_index b n (fun d => l_ret d (l_replace i r)))
    | None => if (0 <? s_len b) && l_last i then to_index b 0 (fun r => l_ret b (l_replace i r)) else l_incomplete 1 i
    end.

  (** src/parsers.rs:276-286 [take_till]. *)
  Definition l_take_till (f : I -> bool) (i : l_input) : l_res slice (error I) :=
    let b := l_buf i in
    match position f (read mem b) with
    | Some n => from_index b n (fun r => to_index b n (fun d => l_ret d (l_replace i r)))
    | None => l_incomplete 1 i
    end.

  (** src/parsers.rs:303-314 [scan], see [scan]. *)
  Definition l_scan {S : Type} (s : S) (f : S -> I -> option S) (i : l_input) : l_res slice (error I) :=
    let b := l_buf i in
    let step (st : option (option S)) (c : I) :=
      match st with
      | Some (Some s0) => let st' := f s0 c in (match st' with None => true | Some _ => false end, Some st')
      | _ => (true, None)
      end in
    match position_st step (Some (Some s)) (read mem b) with
    | (_, None) => LPanic
    | (Some n, _) => from_index b n (fun r => to_index b n (fun d => l_ret d (l_replace i r)))
    | (None, _) => l_incomplete 1 i
    end.

  (** src/parsers.rs:330-341 [run_scanner]. *)
  Definition l_run_scanner {S : Type} (s : S) (f : S -> I -> option S) (i : l_input) : l_res (slice * S) (error I) :=
    let b := l_buf i in
    let step (state : S) (c : I) :=
      match f state c with
      | None => (true, state)
      | Some v => (false, v)
      end in
    match position_st step s (read mem b) with
    | (Some n, state) => from_index b n (fun r => to_index b n (fun d => l_ret (d, state) (l_replace i r)))
    | (None, _) => l_incomplete 1 i
    end.

  (** src/parsers.rs:351-358 [take_remainder]: the remainder is [&b[..0]], at the start of [b]. *)
  Definition l_take_remainder (i : l_input) : l_res slice (error I) :=
    let b := l_buf i in to_index b 0 (fun r => l_ret b (l_replace i r)).

  (** src/parsers.rs:371-388 [string]; the string to match is some slice elsewhere, of which only the items matter. *)
  Definition l_string (s : list I) (i : l_input) : l_res slice (error I) :=
    let b := l_buf i in
    if s_len b <? length s then l_incomplete (length s - s_len b) i
    else
      to_index b (length s) (fun d =>
      match string_mismatch eqb 0 s (read mem d) with
      | Some j => l_err_string i j s
      | None => from_index b (length s) (fun r => l_ret d (l_replace i r))
      end).

  (** src/parsers.rs:400-406 [eof]. *)
  Definition l_eof (i : l_input) : l_res unit (error I) :=
    if (s_len (l_buf i) =? 0) && l_last i then l_ret tt i else l_err (err_unexpected verbose) i.
End LocatedParsers.

(** A parser closure of type [FnMut(Input<I>) -> ParseResult<I, T, E>] with captured state [S], as taken by every function
    of src/combinators/bounded.rs: the state before the call is passed in, the state after it is returned. *)
Definition l_sparser (S T E : Type) : Type := S -> l_input -> l_res T E * S.

(** A plain function used as [FnMut] (e.g. [any] in src/combinators/bounded.rs:13): no captured state. *)
Definition l_pure {T E} (p : l_parser T E) : l_sparser unit T E := fun _ i => (p i, tt).

(** * run_iter! *)

(** src/combinators/macros.rs:56-60 [enum EndState]. *)
Inductive l_end_state (E : Type) : Type :=
| LESError (b : slice) (e : E)
| LESIncomplete (n : nat).
Arguments LESError {E} b e.
Arguments LESIncomplete {E} n.

(** src/combinators/macros.rs:62-76 [struct Iter]; [it_ps] is the captured state of the field [parser]. *)
Record l_iter (S E D : Type) : Type :=
  mkLIter { l_it_state : l_end_state E; l_it_ps : S; l_it_buf : l_input; l_it_data : D }.

(** src/combinators/macros.rs:97-119 [Iter::next].  [pre] says whether the pre-hook returns [None]; [on] is the on-hook. *)
Definition l_iter_next {S T E D} (p : l_sparser S T E) (pre : D -> bool) (on : D -> D) (it : l_iter S E D)
  : step (l_iter S E D) T :=
  if pre (l_it_data it) then Stop it
  else
    match p (l_it_ps it) (l_it_buf it) with
    | (LData b v, s) => Yield v (mkLIter (l_it_state it) s b (on (l_it_data it)))
    | (LError b e, s) => Stop (mkLIter (LESError b e) s (l_it_buf it) (l_it_data it))
    | (LIncomplete n, s) => Stop (mkLIter (LESIncomplete n) s (l_it_buf it) (l_it_data it))
    | (LPanic, _) => StepPanic
    | (LNoFuel, _) => StepNoFuel
    end.

(** src/combinators/macros.rs:122-140: the initial [Iter], [run_from_iter!], then the arms [fin] on (result, end_state). *)
Definition l_run_iter {S U T E D C} (fuel : nat) (col : collector U T C) (i : l_input) (s0 : S) (p : l_sparser S U E)
    (data : D) (hint : D -> nat * option nat) (pre : D -> bool) (on : D -> D)
    (fin : T -> l_input -> D -> l_end_state E -> l_res T E) : l_res T E :=
  match from_iter fuel (l_iter_next p pre on) (fun it => hint (l_it_data it)) (cact col) (cinit col)
          (mkLIter (LESIncomplete 1) s0 i data) with
  | FDone t it => fin t (l_it_buf it) (l_it_data it) (l_it_state it)
  | FPanic => LPanic
  | FNoFuel => LNoFuel
  end.

Section LocatedMany.
  Context {S U T E C : Type}.
  Variable fuel : nat.
  Variable col : collector U T C.
  Variable s0 : S.
  Variable f : l_sparser S U E.

  (** src/combinators/bounded.rs:104-151 [parse_many for Range<usize>]. *)
  Definition l_parse_many_range (a b : nat) (i : l_input) : l_res T E :=
    if negb (a <=? b) then LPanic
    else
      l_run_iter fuel col i s0 f (a, Nat.max b 1 - 1)
        (fun d => (fst d, Some (snd d)))
        (fun d => snd d =? 0)
        (fun d => (dec0 (fst d), snd d - 1))
        (fun result s d st =>
           match d, st with
           | (0, 0), _ => l_ret result s
           | (0, _), LESError _ _ => l_ret result s
           | (0, _), LESIncomplete n => if l_last s then l_ret result s else l_incomplete n s
           | (_, _), LESError b e => l_err e (l_replace s b)
           | (_, _), LESIncomplete n => l_incomplete n s
           end).

  (** src/combinators/bounded.rs:253-289 [parse_many for RangeFrom<usize>]. *)
  Definition l_parse_many_from (a : nat) (i : l_input) : l_res T E :=
    l_run_iter fuel col i s0 f a
      (fun d => (d, None))
      (fun _ => false)
      dec0
      (fun result s d st =>
         match d, st with
         | 0, LESError _ _ => l_ret result s
         | 0, LESIncomplete n => if l_last s then l_ret result s else l_incomplete n s
         | _, LESError b e => l_err e (l_replace s b)
         | _, LESIncomplete n => l_incomplete n s
         end).

  (** src/combinators/bounded.rs:371-400 [parse_many for RangeFull]. *)
  Definition l_parse_many_full (i : l_input) : l_res T E :=
    l_run_iter fuel col i s0 f tt
      (fun _ => (0, None))
      (fun _ => false)
      (fun d => d)
      (fun result s d st =>
         match st with
         | LESError _ _ => l_ret result s
         | LESIncomplete n => if l_last s then l_ret result s else l_incomplete n s
         end).

  (** src/combinators/bounded.rs:460-499 [parse_many for RangeTo<usize>]. *)
  Definition l_parse_many_to (b : nat) (i : l_input) : l_res T E :=
    l_run_iter fuel col i s0 f (Nat.max b 1 - 1)
      (fun d => (0, Some d))
      (fun d => d =? 0)
      (fun d => d - 1)
      (fun result s d st =>
         match d, st with
         | 0, _ => l_ret result s
         | _, LESError _ _ => l_ret result s
         | _, LESIncomplete n => if l_last s then l_ret result s else l_incomplete n s
         end).

  (** src/combinators/bounded.rs:583-618 [parse_many for usize]. *)
  Definition l_parse_many_exact (n : nat) (i : l_input) : l_res T E :=
    l_run_iter fuel col i s0 f n
      (fun d => (d, Some d))
      (fun d => d =? 0)
      (fun d => d - 1)
      (fun result s d st =>
         match d, st with
         | 0, _ => l_ret result s
         | _, LESError b e => l_err e (l_replace s b)
         | _, LESIncomplete n => l_incomplete n s
         end).
End LocatedMany.

(** * run_iter_till! *)

(** src/combinators/macros.rs:161-166 [enum EndStateTill]. *)
Inductive l_end_state_till (E : Type) : Type :=
| LTError (b : slice) (e : E)
| LTIncomplete (n : nat)
| LTEndSuccess.
Arguments LTError {E} b e.
Arguments LTIncomplete {E} n.
Arguments LTEndSuccess {E}.

(** src/combinators/macros.rs:168-183 [struct IterTill]; [tt_ps]/[tt_es] are the captured states of [parser]/[end]. *)
Record l_iter_till (S SE E D : Type) : Type :=
  mkLIterTill { l_tt_state : l_end_state_till E; l_tt_ps : S; l_tt_es : SE; l_tt_buf : l_input; l_tt_data : D }.

(** src/combinators/macros.rs:263-272 [iter_till_end_test!]. *)
Definition l_end_test {S SE V N E D} (end_ : l_sparser SE V N) (it : l_iter_till S SE E D)
  : pre_res (l_iter_till S SE E D) :=
  match end_ (l_tt_es it) (l_tt_buf it) with
  | (LData b _, s) => PreNone (mkLIterTill LTEndSuccess (l_tt_ps it) s b (l_tt_data it))
  | (LError _ _, s) | (LIncomplete _, s) =>
      PreGo (mkLIterTill (l_tt_state it) (l_tt_ps it) s (l_tt_buf it) (l_tt_data it))
  | (LPanic, _) => PrePanic
  | (LNoFuel, _) => PreNoFuel
  end.

(** src/combinators/macros.rs:212-234 [IterTill::next]. *)
Definition l_iter_till_next {S SE T E D} (p : l_sparser S T E)
    (pre : l_iter_till S SE E D -> pre_res (l_iter_till S SE E D)) (on : D -> D) (it0 : l_iter_till S SE E D)
  : step (l_iter_till S SE E D) T :=
  match pre it0 with
  | PrePanic => StepPanic
  | PreNoFuel => StepNoFuel
  | PreNone it => Stop it
  | PreGo it =>
      match p (l_tt_ps it) (l_tt_buf it) with
      | (LData b v, s) => Yield v (mkLIterTill (l_tt_state it) s (l_tt_es it) b (on (l_tt_data it)))
      | (LError b e, s) => Stop (mkLIterTill (LTError b e) s (l_tt_es it) (l_tt_buf it) (l_tt_data it))
      | (LIncomplete n, s) => Stop (mkLIterTill (LTIncomplete n) s (l_tt_es it) (l_tt_buf it) (l_tt_data it))
      | (LPanic, _) => StepPanic
      | (LNoFuel, _) => StepNoFuel
      end
  end.

(** src/combinators/macros.rs:238-257: the initial [IterTill], [run_from_iter!], then the arms. *)
Definition l_run_iter_till {S SE U T E D C} (fuel : nat) (col : collector U T C) (i : l_input) (s0 : S) (e0 : SE)
    (p : l_sparser S U E) (data : D) (hint : D -> nat * option nat)
    (pre : l_iter_till S SE E D -> pre_res (l_iter_till S SE E D)) (on : D -> D)
    (fin : T -> l_input -> D -> l_end_state_till E -> l_res T E) : l_res T E :=
  match from_iter fuel (l_iter_till_next p pre on) (fun it => hint (l_tt_data it)) (cact col) (cinit col)
          (mkLIterTill (LTIncomplete 1) s0 e0 i data) with
  | FDone t it => fin t (l_tt_buf it) (l_tt_data it) (l_tt_state it)
  | FPanic => LPanic
  | FNoFuel => LNoFuel
  end.

Section LocatedTill.
  Context {S SE U V T E N C : Type}.
  Variable fuel : nat.
  Variable col : collector U T C.
  Variable s0 : S.
  Variable e0 : SE.
  Variable p : l_sparser S U E.
  Variable end_ : l_sparser SE V N.

  (** src/combinators/bounded.rs:194-248 [many_till for Range<usize>]; [unreachable!()] is [Panic]. *)
  Definition l_many_till_range (a b : nat) (i : l_input) : l_res T E :=
    if negb (a <=? b) then LPanic
    else
      l_run_iter_till fuel col i s0 e0 p (a, Nat.max b 1 - 1)
        (fun d => (fst d, Some (snd d)))
        (fun it =>
           pre_seq (if fst (l_tt_data it) =? 0 then l_end_test end_ it else PreGo it)
             (fun it => if snd (l_tt_data it) =? 0
                        then pre_seq (l_end_test end_ it) (fun it => PreNone it)
                        else PreGo it))
        (fun d => (dec0 (fst d), snd d - 1))
        (fun result s d st =>
           match d, st with
           | (0, _), LTEndSuccess => l_ret result s
           | (_, _), LTError b e => l_err e (l_replace s b)
           | (_, _), LTIncomplete n => l_incomplete n s
           | (_, _), LTEndSuccess => LPanic
           end).

  (** src/combinators/bounded.rs:324-366 [many_till for RangeFrom<usize>]. *)
  Definition l_many_till_from (a : nat) (i : l_input) : l_res T E :=
    l_run_iter_till fuel col i s0 e0 p a
      (fun d => (d, None))
      (fun it => if l_tt_data it =? 0 then l_end_test end_ it else PreGo it)
      dec0
      (fun result s d st =>
         match d, st with
         | 0, LTEndSuccess => l_ret result s
         | _, LTError b e => l_err e (l_replace s b)
         | _, LTIncomplete n => l_incomplete n s
         | _, LTEndSuccess => LPanic
         end).

  (** src/combinators/bounded.rs:422-455 [many_till for RangeFull]. *)
  Definition l_many_till_full (i : l_input) : l_res T E :=
    l_run_iter_till fuel col i s0 e0 p tt
      (fun _ => (0, None))
      (fun it => l_end_test end_ it)
      (fun d => d)
      (fun result s d st =>
         match st with
         | LTEndSuccess => l_ret result s
         | LTError b e => l_err e (l_replace s b)
         | LTIncomplete n => l_incomplete n s
         end).

  (** src/combinators/bounded.rs:533-578 [many_till for RangeTo<usize>]. *)
  Definition l_many_till_to (b : nat) (i : l_input) : l_res T E :=
    l_run_iter_till fuel col i s0 e0 p (Nat.max b 1 - 1)
      (fun d => (0, Some d))
      (fun it => pre_seq (l_end_test end_ it) (fun it => if l_tt_data it =? 0 then PreNone it else PreGo it))
      (fun d => d - 1)
      (fun result s d st =>
         match d, st with
         | 0, LTEndSuccess => l_ret result s
         | _, LTError b e => l_err e (l_replace s b)
         | _, LTIncomplete n => l_incomplete n s
         | _, LTEndSuccess => LPanic
         end).

  (** src/combinators/bounded.rs:655-698 [many_till for usize]. *)
  Definition l_many_till_exact (n : nat) (i : l_input) : l_res T E :=
    l_run_iter_till fuel col i s0 e0 p n
      (fun d => (d, Some d))
      (fun it => if l_tt_data it =? 0 then pre_seq (l_end_test end_ it) (fun it => PreNone it) else PreGo it)
      (fun d => d - 1)
      (fun result s d st =>
         match d, st with
         | 0, LTEndSuccess => l_ret result s
         | _, LTError b e => l_err e (l_replace s b)
         | _, LTIncomplete n => l_incomplete n s
         | _, LTEndSuccess => LPanic
         end).
End LocatedTill.

(** * skip_many *)

Section LocatedSkip.
  Context {S T E : Type}.
  Variable f : l_sparser S T E.

  (** src/combinators/bounded.rs:163-190: the loop of [skip_many for Range<usize>]. *)
  Fixpoint l_skip_loop_range (fuel min max : nat) (s : S) (i : l_input) : l_res unit E :=
    match fuel with
    | O => LNoFuel
    | Datatypes.S fuel' =>
        if max =? 0 then l_ret tt i
        else
          match f s i with
          | (LData b _, s') => l_skip_loop_range fuel' (dec0 min) (max - 1) s' b
          | (LError b e, _) => if min =? 0 then l_ret tt i else l_err e (l_replace i b)
          | (LIncomplete n, _) => if (min =? 0) && l_last i then l_ret tt i else l_incomplete n i
          | (LPanic, _) => LPanic
          | (LNoFuel, _) => LNoFuel
          end
    end.

  (** src/combinators/bounded.rs:154-191 [skip_many for Range<usize>]. *)
  Definition l_skip_many_range (fuel : nat) (s0 : S) (a b : nat) (i : l_input) : l_res unit E :=
    if negb (a <=? b) then LPanic else l_skip_loop_range fuel a (Nat.max b 1 - 1) s0 i.

  (** src/combinators/bounded.rs:292-321 [skip_many for RangeFrom<usize>]. *)
  Fixpoint l_skip_many_from (fuel : nat) (s : S) (min : nat) (i : l_input) : l_res unit E :=
    match fuel with
    | O => LNoFuel
    | Datatypes.S fuel' =>
        match f s i with
        | (LData b _, s') => l_skip_many_from fuel' s' (dec0 min) b
        | (LError b e, _) => if min =? 0 then l_ret tt i else l_err e (l_replace i b)
        | (LIncomplete n, _) => if (min =? 0) && l_last i then l_ret tt i else l_incomplete n i
        | (LPanic, _) => LPanic
        | (LNoFuel, _) => LNoFuel
        end
    end.

  (** src/combinators/bounded.rs:403-419 [skip_many for RangeFull]. *)
  Fixpoint l_skip_many_full (fuel : nat) (s : S) (i : l_input) : l_res unit E :=
    match fuel with
    | O => LNoFuel
    | Datatypes.S fuel' =>
        match f s i with
        | (LData b _, s') => l_skip_many_full fuel' s' b
        | (LError _ _, _) => l_ret tt i
        | (LIncomplete n, _) => if l_last i then l_ret tt i else l_incomplete n i
        | (LPanic, _) => LPanic
        | (LNoFuel, _) => LNoFuel
        end
    end.

  (** src/combinators/bounded.rs:508-529: the loop of [skip_many for RangeTo<usize>]. *)
  Fixpoint l_skip_loop_to (fuel max : nat) (s : S) (i : l_input) : l_res unit E :=
    match fuel with
    | O => LNoFuel
    | Datatypes.S fuel' =>
        if max =? 0 then l_ret tt i
        else
          match f s i with
          | (LData b _, s') => l_skip_loop_to fuel' (max - 1) s' b
          | (LError _ _, _) => l_ret tt i
          | (LIncomplete n, _) => if l_last i then l_ret tt i else l_incomplete n i
          | (LPanic, _) => LPanic
          | (LNoFuel, _) => LNoFuel
          end
    end.

  (** src/combinators/bounded.rs:502-530 [skip_many for RangeTo<usize>]. *)
  Definition l_skip_many_to (fuel : nat) (s0 : S) (b : nat) (i : l_input) : l_res unit E :=
    l_skip_loop_to fuel (Nat.max b 1 - 1) s0 i.

  (** src/combinators/bounded.rs:621-652 [skip_many for usize].  The [n] of the arm [State::Incomplete(n)] (line 643) shadows the
      counter, so line 643 compares the *requested* amount with 0. *)
  Fixpoint l_skip_many_exact (fuel : nat) (s : S) (n : nat) (i : l_input) : l_res unit E :=
    match fuel with
    | O => LNoFuel
    | Datatypes.S fuel' =>
        if n =? 0 then l_ret tt i
        else
          match f s i with
          | (LData b _, s') => l_skip_many_exact fuel' s' (n - 1) b
          | (LError b e, _) => if n =? 0 then l_ret tt i else l_err e (l_replace i b)
          | (LIncomplete n, _) => if n =? 0 then l_ret tt i else l_incomplete n i
          | (LPanic, _) => LPanic
          | (LNoFuel, _) => LNoFuel
          end
    end.
End LocatedSkip.

(** * Dispatch *)

(** src/combinators/bounded.rs:717-724 [many]: trait dispatch. *)
Definition l_bmany {S U T E C} (fuel : nat) (col : collector U T C) (r : range) (s0 : S) (f : l_sparser S U E)
    (i : l_input) : l_res T E :=
  match r with
  | RRange a b => l_parse_many_range fuel col s0 f a b i
  | RFrom a => l_parse_many_from fuel col s0 f a i
  | RFull => l_parse_many_full fuel col s0 f i
  | RTo b => l_parse_many_to fuel col s0 f b i
  | RExact n => l_parse_many_exact fuel col s0 f n i
  end.

(** src/combinators/bounded.rs:741-746 [skip_many]: trait dispatch. *)
Definition l_bskip_many {S T E} (fuel : nat) (r : range) (s0 : S) (f : l_sparser S T E) (i : l_input) : l_res unit E :=
  match r with
  | RRange a b => l_skip_many_range f fuel s0 a b i
  | RFrom a => l_skip_many_from f fuel s0 a i
  | RFull => l_skip_many_full f fuel s0 i
  | RTo b => l_skip_many_to f fuel s0 b i
  | RExact n => l_skip_many_exact f fuel s0 n i
  end.

(** src/combinators/bounded.rs:763-773 [many_till]: trait dispatch. *)
Definition l_bmany_till {S SE U V T E N C} (fuel : nat) (col : collector U T C) (r : range) (s0 : S) (e0 : SE)
    (p : l_sparser S U E) (end_ : l_sparser SE V N) (i : l_input) : l_res T E :=
  match r with
  | RRange a b => l_many_till_range fuel col s0 e0 p end_ a b i
  | RFrom a => l_many_till_from fuel col s0 e0 p end_ a i
  | RFull => l_many_till_full fuel col s0 e0 p end_ i
  | RTo b => l_many_till_to fuel col s0 e0 p end_ b i
  | RExact n => l_many_till_exact fuel col s0 e0 p end_ n i
  end.

(** * src/combinators/mod.rs *)

(** src/combinators/mod.rs:34-40 [count]. *)
Definition l_count {S U T E C} (fuel : nat) (col : collector U T C) (num : nat) (s0 : S) (p : l_sparser S U E)
    (i : l_input) : l_res T E := l_bmany fuel col (RExact num) s0 p i.

(** src/combinators/mod.rs:58-70 [option].  [FnOnce] parsers are modelled as functions without captured state. *)
Definition l_option_ {T E} (f : l_parser T E) (default : T) (i : l_input) : l_res T E :=
  match f i with
  | LData b d => l_ret d b
  | LError _ _ => l_ret default i
  | LIncomplete n => if l_last i then l_ret default i else l_incomplete n i
  | LPanic => LPanic
  | LNoFuel => LNoFuel
  end.

(** src/combinators/mod.rs:94-106 [or]. *)
Definition l_or_ {T E} (f g : l_parser T E) (i : l_input) : l_res T E :=
  match f i with
  | LData b d => l_ret d b
  | LError _ _ => g i
  | LIncomplete n => if l_last i then g i else l_incomplete n i
  | LPanic => LPanic
  | LNoFuel => LNoFuel
  end.

(** src/combinators/mod.rs:128-134 [many]. *)
Definition l_many {S U T E C} (fuel : nat) (col : collector U T C) (s0 : S) (f : l_sparser S U E) (i : l_input)
  : l_res T E := l_bmany fuel col RFull s0 f i.

(** src/combinators/mod.rs:157-163 [many1]. *)
Definition l_many1 {S U T E C} (fuel : nat) (col : collector U T C) (s0 : S) (f : l_sparser S U E) (i : l_input)
  : l_res T E := l_bmany fuel col (RFrom 1) s0 f i.

(** src/combinators/mod.rs:194-200 and 235-241: the closure shared by [sep_by] and [sep_by1].  Captured state: the flag [item] and the
    captured states of [p] and [sep]. *)
Definition l_sep_item {SP SS U V E N} (conv : N -> E) (p : l_sparser SP U E) (sep : l_sparser SS V N)
  : l_sparser (bool * SP * SS) U E :=
  fun st i =>
    let '(item, sp, ss) := st in
    let '(r0, ss') := if item then let '(r, ss') := sep ss i in (l_map (fun _ => tt) r, ss') else (l_ret tt i, ss) in
    match r0 with
    | LData j _ =>
        (* [.then(&mut p)]: the conversion of [bind] is not used on success *)
        let '(r1, sp') := p sp j in
        let r := l_then conv r0 (fun _ => r1) in
        let '(r', item') := l_inspect (fun _ _ => true) r item in
        (r', (item', sp', ss'))
    | _ =>
        let r := l_then conv r0 (fun j => fst (p sp j)) in
        let '(r', item') := l_inspect (fun _ _ => true) r item in
        (r', (item', sp, ss'))
    end.

(** src/combinators/mod.rs:182-203 [sep_by]. *)
Definition l_sep_by {SP SS U V T E N C} (fuel : nat) (col : collector U T C) (conv : N -> E) (sp0 : SP) (ss0 : SS)
    (p : l_sparser SP U E) (sep : l_sparser SS V N) (i : l_input) : l_res T E :=
  l_bmany fuel col RFull (false, sp0, ss0) (l_sep_item conv p sep) i.

(** src/combinators/mod.rs:223-244 [sep_by1]. *)
Definition l_sep_by1 {SP SS U V T E N C} (fuel : nat) (col : collector U T C) (conv : N -> E) (sp0 : SP) (ss0 : SS)
    (p : l_sparser SP U E) (sep : l_sparser SS V N) (i : l_input) : l_res T E :=
  l_bmany fuel col (RFrom 1) (false, sp0, ss0) (l_sep_item conv p sep) i.

(** src/combinators/mod.rs:261-270 [many_till]. *)
Definition l_many_till {S SE U V T E N C} (fuel : nat) (col : collector U T C) (s0 : S) (e0 : SE)
    (p : l_sparser S U E) (end_ : l_sparser SE V N) (i : l_input) : l_res T E :=
  l_bmany_till fuel col RFull s0 e0 p end_ i.

(** src/combinators/mod.rs:287-291 [skip_many]. *)
Definition l_skip_many {S T E} (fuel : nat) (s0 : S) (f : l_sparser S T E) (i : l_input) : l_res unit E :=
  l_bskip_many fuel RFull s0 f i.

(** src/combinators/mod.rs:314-317 [skip_many1]. *)
Definition l_skip_many1 {S T E} (fuel : nat) (s0 : S) (f : l_sparser S T E) (i : l_input) : l_res unit E :=
  l_bskip_many fuel (RFrom 1) s0 f i.

(** src/combinators/mod.rs:328-344 [matched_by], see [matched_by] for the underflow of [buf.len() - b.buffer().len()]. *)
Definition l_matched_by {T E} (f : l_parser T E) (i : l_input) : l_res (slice * T) E :=
  let b0 := l_buf i in
  match f i with
  | LData b t =>
      if s_len b0 <? s_len (l_buf b) then LPanic
      else to_index b0 (s_len b0 - s_len (l_buf b)) (fun n => l_ret (n, t) b)
  | LError b e => l_err e (l_replace i b)
  | LIncomplete n => l_incomplete n i
  | LPanic => LPanic
  | LNoFuel => LNoFuel
  end.

(** src/combinators/mod.rs:357-364 [look_ahead]. *)
Definition l_look_ahead {T E} (f : l_parser T E) (i : l_input) : l_res T E :=
  match f i with
  | LData _ t => l_ret t i
  | LError b e => l_err e (l_replace i b)
  | LIncomplete n => l_incomplete n i
  | LPanic => LPanic
  | LNoFuel => LNoFuel
  end.

(** * src/ascii.rs *)

Section LocatedAscii.
  (** Feature flag verbose_error (Cargo.toml:33). *)
  Variable verbose : bool.
  (** Overflow checks (debug build). *)
  Variable checked : bool.
  (** What lies in memory. *)
  Variable mem : nat -> byte.

  (** src/ascii.rs:82-84 [skip_whitespace]. *)
  Definition l_skip_whitespace (i : l_input) : l_res unit (error byte) := l_map (fun _ => tt) (l_take_while mem is_whitespace i).

  (** src/ascii.rs:101-103 [digit]. *)
  Definition l_digit (i : l_input) : l_res byte (error byte) := l_satisfy verbose mem is_digit i.

  (** src/ascii.rs:150-152 [decimal]. *)
  Definition l_decimal (T : int_ty) (i : l_input) : l_res Z (error byte) :=
    l_bind (fun e => e) (l_take_while1 verbose mem is_digit i)
      (fun i buf => match to_decimal checked T (read mem buf) with Some v => l_ret v i | None => LPanic end).

  (** src/ascii.rs:123-131 [signed]. *)
  Definition l_signed (T : int_ty) (f : l_parser Z (error byte)) (i : l_input) : l_res Z (error byte) :=
    l_bind (fun e => e)
      (l_option_
         (fun i => l_map (fun s => if byte_eqb s "+" then 1%Z else (-1)%Z)
                     (l_satisfy verbose mem (fun c => byte_eqb c "-" || byte_eqb c "+") i))
         1%Z i)
      (fun i sign =>
         match f i with
         | LData j num => match int_result T checked (sign * num) with Some v => LData j v | None => LPanic end
         | r => r
         end).
End LocatedAscii.

(** * Running parsers *)

(** [Result<T, ParseError<I, E>>] of src/parse.rs:7-13, 52 and [Result<T, StreamError<I, E>>] of src/buffer/slice.rs:85, where the constructors that a
    slice cannot give are left out; and the two further outcomes of a call. *)
Inductive l_answer (T E : Type) : Type :=
| LOk (t : T)
| LParseError (b : slice) (e : E)
| LTooShort (n : nat)
| LEndOfInput.
Arguments LOk {T E} t.
Arguments LParseError {T E} b e.
Arguments LTooShort {T E} n.
Arguments LEndOfInput {T E}.

(** src/parse.rs:52-61 [parse_only]. *)
Definition l_parse_only {T E} (p : l_parser T E) (s : slice) : run (l_answer T E) :=
  match p (mkLInput true s) with
  | LData _ t => Done (LOk t)
  | LError b e => Done (LParseError b e)
  | LIncomplete n => Done (LTooShort n)
  | LPanic => Panicked
  | LNoFuel => Stuck
  end.

(** src/buffer/slice.rs:43-46 [struct SliceStream]. *)
Record l_stream : Type := mkLStream { ls_pos : nat; ls_slice : slice }.

(** src/buffer/slice.rs:81-110 [parse]; the position is moved by a difference of lengths, addresses play no role. *)
Definition l_slice_parse {T E} (p : l_parser T E) (s : l_stream) : run (l_stream * l_answer T E) :=
  let! l := usize_sub (s_len (ls_slice s)) (ls_pos s) in
  if l =? 0 then Done (s, LEndOfInput)
  else
    match p (mkLInput true (mkSlice (s_at (ls_slice s) + ls_pos s) (s_len (ls_slice s) - ls_pos s))) with
    | LData remainder data =>
        let! n := usize_sub l (s_len (l_buf remainder)) in
        Done (mkLStream (ls_pos s + n) (ls_slice s), LOk data)
    | LError remainder e =>
        let! n := usize_sub l (s_len remainder) in
        Done (mkLStream (ls_pos s + n) (ls_slice s), LParseError remainder e)
    | LIncomplete n => Done (s, LTooShort (n + l))
    | LPanic => Panicked
    | LNoFuel => Stuck
    end.
