(** Model of src/combinators/{macros,bounded,mod}.rs.  No proofs here. *)
From Coq Require Import List Bool Arith.
From Verif Require Import Base Parsers.
Import ListNotations.

Set Implicit Arguments.

(** A parser closure of type [FnMut(Input<I>) -> ParseResult<I, T, E>] with captured state [S], as taken by every function
    of src/combinators/bounded.rs: the state before the call is passed in, the state after it is returned. *)
Definition sparser (S I T E : Type) : Type := S -> input I -> pres I T E * S.

(** A plain function used as [FnMut] (e.g. [any] in src/combinators/bounded.rs:13): no captured state. *)
Definition pure {I T E} (p : parser I T E) : sparser unit I T E := fun _ i => (p i, tt).

(** * FromIterator *)

(** What an implementation of [FromIterator::from_iter] (std; called at src/combinators/macros.rs:17) can do next with the
    iterator it is given: finish, call [next()], call [size_hint()], or panic. *)
Inductive caction (U T C : Type) : Type :=
| CFinish (t : T)
| CNext (k : option U -> C)
| CHint (k : nat * option nat -> C)
| CPanic.
Arguments CFinish {U T C} t.
Arguments CNext {U T C} k.
Arguments CHint {U T C} k.
Arguments CPanic {U T C}.

(** An arbitrary [FromIterator<U> for T] (std): a state machine with states [C]. *)
Record collector (U T C : Type) : Type := mkCollector { cinit : C; cact : C -> caction U T C }.

(** [Vec<U>: FromIterator<U>] (std): pushes until [next()] gives [None].  Simplification: the calls to [size_hint()] only
    choose an allocation size, which is not modelled here (see [vec_reserving] below). *)
Definition vec_collector (U : Type) : collector U (list U) (bool * list U) :=
  mkCollector (false, [])
    (fun c => match c with
              | (true, acc) => CFinish acc
              | (false, acc) => CNext (fun o => match o with
                                                | Some u => (false, acc ++ [u])
                                                | None => (true, acc)
                                                end)
              end).

(** [Vec<U>: FromIterator<U>] with its allocation behaviour (std [SpecFromIterNested::from_iter]): after the first item it reads
    [size_hint()] and allocates [lower + 1] slots, panicking ("capacity overflow") beyond [cap_max] slots.  States: before the
    first item; after it, about to ask for the hint; pushing; finished; panicking.  Simplification: later reallocations
    never fail. *)
Inductive vec_state (U : Type) : Type :=
| VStart | VFirst (u : U) | VPush (acc : list U) | VFinish (acc : list U) | VOverflow.
Arguments VStart {U}.
Arguments VFirst {U} u.
Arguments VPush {U} acc.
Arguments VFinish {U} acc.
Arguments VOverflow {U}.
(** See [vec_state]: std's [Vec] as used by src/combinators/macros.rs:17. *)
Definition vec_reserving (U : Type) (cap_max : nat) : collector U (list U) (vec_state U) :=
  mkCollector VStart
    (fun c => match c with
              | VStart => CNext (fun o => match o with Some u => VFirst u | None => VFinish [] end)
              | VFirst u => CHint (fun h => if fst h + 1 <=? cap_max then VPush [u] else VOverflow)
              | VPush acc => CNext (fun o => match o with Some u => VPush (acc ++ [u]) | None => VFinish acc end)
              | VFinish acc => CFinish acc
              | VOverflow => CPanic
              end).

(** Outcome of one [Iterator::next()] call (src/combinators/macros.rs:97-119 and 212-234): [Some(u)], [None], or the nested
    parser panicked / ran out of fuel. *)
Inductive step (It U : Type) : Type :=
| Yield (u : U) (it : It)
| Stop (it : It)
| StepPanic
| StepNoFuel.
Arguments Yield {It U} u it.
Arguments Stop {It U} it.
Arguments StepPanic {It U}.
Arguments StepNoFuel {It U}.

(** Outcome of [FromIterator::from_iter] (src/combinators/macros.rs:5-36 [run_from_iter!]): the collection together with the iterator
    whose [end_state()] is taken afterwards. *)
Inductive fres (T It : Type) : Type :=
| FDone (t : T) (it : It)
| FPanic
| FNoFuel.
Arguments FDone {T It} t it.
Arguments FPanic {T It}.
Arguments FNoFuel {T It}.

(** src/combinators/macros.rs:5-36 [run_from_iter!]: drives the iterator as the collector demands.  The [inspect] wrapper there
    only forwards [next] and [size_hint].  [fuel] bounds the number of collector actions. *)
Fixpoint from_iter {U T C It : Type} (fuel : nat) (next : It -> step It U) (hint : It -> nat * option nat)
    (act : C -> caction U T C) (c : C) (it : It) : fres T It :=
  match fuel with
  | O => FNoFuel
  | S fuel' =>
      match act c with
      | CFinish t => FDone t it
      | CPanic => FPanic
      | CHint k => from_iter fuel' next hint act (k (hint it)) it
      | CNext k =>
          match next it with
          | Yield u it' => from_iter fuel' next hint act (k (Some u)) it'
          | Stop it' => from_iter fuel' next hint act (k None) it'
          | StepPanic => FPanic
          | StepNoFuel => FNoFuel
          end
      end
  end.

(** * run_iter! *)

(** src/combinators/macros.rs:56-60 [enum EndState]. *)
Inductive end_state (I E : Type) : Type :=
| ESError (b : list I) (e : E)
| ESIncomplete (n : nat).
Arguments ESError {I E} b e.
Arguments ESIncomplete {I E} n.

(** src/combinators/macros.rs:62-76 [struct Iter]; [it_ps] is the captured state of the field [parser]. *)
Record iter (S I E D : Type) : Type :=
  mkIter { it_state : end_state I E; it_ps : S; it_buf : input I; it_data : D }.

(** src/combinators/macros.rs:97-119 [Iter::next].  [pre] says whether the pre-hook returns [None]; [on] is the on-hook. *)
Definition iter_next {S I T E D} (p : sparser S I T E) (pre : D -> bool) (on : D -> D) (it : iter S I E D)
  : step (iter S I E D) T :=
  if pre (it_data it) then Stop it
  else
    match p (it_ps it) (it_buf it) with
    | (Data b v, s) => Yield v (mkIter (it_state it) s b (on (it_data it)))
    | (Error b e, s) => Stop (mkIter (ESError b e) s (it_buf it) (it_data it))
    | (Incomplete n, s) => Stop (mkIter (ESIncomplete n) s (it_buf it) (it_data it))
    | (Panic, _) => StepPanic
    | (NoFuel, _) => StepNoFuel
    end.

(** src/combinators/macros.rs:122-140: the initial [Iter], [run_from_iter!], then the arms [fin] on (result, end_state). *)
Definition run_iter {S I U T E D C} (fuel : nat) (col : collector U T C) (i : input I) (s0 : S) (p : sparser S I U E)
    (data : D) (hint : D -> nat * option nat) (pre : D -> bool) (on : D -> D)
    (fin : T -> input I -> D -> end_state I E -> pres I T E) : pres I T E :=
  match from_iter fuel (iter_next p pre on) (fun it => hint (it_data it)) (cact col) (cinit col)
          (mkIter (ESIncomplete 1) s0 i data) with
  | FDone t it => fin t (it_buf it) (it_data it) (it_state it)
  | FPanic => Panic
  | FNoFuel => NoFuel
  end.

(** [if x == 0 { 0 } else { x - 1 }] (src/combinators/bounded.rs:129, 170, 232, 271, 301, 351). *)
Definition dec0 (x : nat) : nat := if x =? 0 then 0 else x - 1.

Section ParseMany.
  Context {S I U T E C : Type}.
  Variable fuel : nat.
  Variable col : collector U T C.
  Variable s0 : S.
  Variable f : sparser S I U E.

  (** src/combinators/bounded.rs:104-151 [parse_many for Range<usize>]. *)
  Definition parse_many_range (a b : nat) (i : input I) : pres I T E :=
    if negb (a <=? b) then Panic
    else
      run_iter fuel col i s0 f (a, Nat.max b 1 - 1)
        (fun d => (fst d, Some (snd d)))
        (fun d => snd d =? 0)
        (fun d => (dec0 (fst d), snd d - 1))
        (fun result s d st =>
           match d, st with
           | (0, 0), _ => ret result s
           | (0, _), ESError _ _ => ret result s
           | (0, _), ESIncomplete n => if last s then ret result s else incomplete n s
           | (_, _), ESError b e => err e (replace s b)
           | (_, _), ESIncomplete n => incomplete n s
           end).

  (** src/combinators/bounded.rs:253-289 [parse_many for RangeFrom<usize>]. *)
  Definition parse_many_from (a : nat) (i : input I) : pres I T E :=
    run_iter fuel col i s0 f a
      (fun d => (d, None))
      (fun _ => false)
      dec0
      (fun result s d st =>
         match d, st with
         | 0, ESError _ _ => ret result s
         | 0, ESIncomplete n => if last s then ret result s else incomplete n s
         | _, ESError b e => err e (replace s b)
         | _, ESIncomplete n => incomplete n s
         end).

  (** src/combinators/bounded.rs:371-400 [parse_many for RangeFull]. *)
  Definition parse_many_full (i : input I) : pres I T E :=
    run_iter fuel col i s0 f tt
      (fun _ => (0, None))
      (fun _ => false)
      (fun d => d)
      (fun result s d st =>
         match st with
         | ESError _ _ => ret result s
         | ESIncomplete n => if last s then ret result s else incomplete n s
         end).

  (** src/combinators/bounded.rs:460-499 [parse_many for RangeTo<usize>]. *)
  Definition parse_many_to (b : nat) (i : input I) : pres I T E :=
    run_iter fuel col i s0 f (Nat.max b 1 - 1)
      (fun d => (0, Some d))
      (fun d => d =? 0)
      (fun d => d - 1)
      (fun result s d st =>
         match d, st with
         | 0, _ => ret result s
         | _, ESError _ _ => ret result s
         | _, ESIncomplete n => if last s then ret result s else incomplete n s
         end).

  (** src/combinators/bounded.rs:583-618 [parse_many for usize]. *)
  Definition parse_many_exact (n : nat) (i : input I) : pres I T E :=
    run_iter fuel col i s0 f n
      (fun d => (d, Some d))
      (fun d => d =? 0)
      (fun d => d - 1)
      (fun result s d st =>
         match d, st with
         | 0, _ => ret result s
         | _, ESError b e => err e (replace s b)
         | _, ESIncomplete n => incomplete n s
         end).
End ParseMany.

(** * run_iter_till! *)

(** src/combinators/macros.rs:161-166 [enum EndStateTill]. *)
Inductive end_state_till (I E : Type) : Type :=
| TError (b : list I) (e : E)
| TIncomplete (n : nat)
| TEndSuccess.
Arguments TError {I E} b e.
Arguments TIncomplete {I E} n.
Arguments TEndSuccess {I E}.

(** src/combinators/macros.rs:168-183 [struct IterTill]; [tt_ps]/[tt_es] are the captured states of [parser]/[end]. *)
Record iter_till (S SE I E D : Type) : Type :=
  mkIterTill { tt_state : end_state_till I E; tt_ps : S; tt_es : SE; tt_buf : input I; tt_data : D }.

(** How a pre-hook ends: go on with the parser, [return None], or [end] panicked / ran out of fuel. The [pre] block of [run_iter_till!] (src/combinators/macros.rs:218-221) and [return None] of src/combinators/macros.rs:263-272. *)
Inductive pre_res (It : Type) : Type :=
| PreGo (it : It)
| PreNone (it : It)
| PrePanic
| PreNoFuel.
Arguments PreGo {It} it.
Arguments PreNone {It} it.
Arguments PrePanic {It}.
Arguments PreNoFuel {It}.

(** Sequencing of statements inside a pre-hook block. As in src/combinators/bounded.rs:344-349, 553-561. *)
Definition pre_seq {It} (a : pre_res It) (k : It -> pre_res It) : pre_res It :=
  match a with PreGo it => k it | x => x end.

(** src/combinators/macros.rs:263-272 [iter_till_end_test!]. *)
Definition end_test {S SE I V N E D} (end_ : sparser SE I V N) (it : iter_till S SE I E D)
  : pre_res (iter_till S SE I E D) :=
  match end_ (tt_es it) (tt_buf it) with
  | (Data b _, s) => PreNone (mkIterTill TEndSuccess (tt_ps it) s b (tt_data it))
  | (Error _ _, s) | (Incomplete _, s) =>
      PreGo (mkIterTill (tt_state it) (tt_ps it) s (tt_buf it) (tt_data it))
  | (Panic, _) => PrePanic
  | (NoFuel, _) => PreNoFuel
  end.

(** src/combinators/macros.rs:212-234 [IterTill::next]. *)
Definition iter_till_next {S SE I T E D} (p : sparser S I T E)
    (pre : iter_till S SE I E D -> pre_res (iter_till S SE I E D)) (on : D -> D) (it0 : iter_till S SE I E D)
  : step (iter_till S SE I E D) T :=
  match pre it0 with
  | PrePanic => StepPanic
  | PreNoFuel => StepNoFuel
  | PreNone it => Stop it
  | PreGo it =>
      match p (tt_ps it) (tt_buf it) with
      | (Data b v, s) => Yield v (mkIterTill (tt_state it) s (tt_es it) b (on (tt_data it)))
      | (Error b e, s) => Stop (mkIterTill (TError b e) s (tt_es it) (tt_buf it) (tt_data it))
      | (Incomplete n, s) => Stop (mkIterTill (TIncomplete n) s (tt_es it) (tt_buf it) (tt_data it))
      | (Panic, _) => StepPanic
      | (NoFuel, _) => StepNoFuel
      end
  end.

(** src/combinators/macros.rs:238-257: the initial [IterTill], [run_from_iter!], then the arms. *)
Definition run_iter_till {S SE I U T E D C} (fuel : nat) (col : collector U T C) (i : input I) (s0 : S) (e0 : SE)
    (p : sparser S I U E) (data : D) (hint : D -> nat * option nat)
    (pre : iter_till S SE I E D -> pre_res (iter_till S SE I E D)) (on : D -> D)
    (fin : T -> input I -> D -> end_state_till I E -> pres I T E) : pres I T E :=
  match from_iter fuel (iter_till_next p pre on) (fun it => hint (tt_data it)) (cact col) (cinit col)
          (mkIterTill (TIncomplete 1) s0 e0 i data) with
  | FDone t it => fin t (tt_buf it) (tt_data it) (tt_state it)
  | FPanic => Panic
  | FNoFuel => NoFuel
  end.

Section ManyTill.
  Context {S SE I U V T E N C : Type}.
  Variable fuel : nat.
  Variable col : collector U T C.
  Variable s0 : S.
  Variable e0 : SE.
  Variable p : sparser S I U E.
  Variable end_ : sparser SE I V N.

  (** src/combinators/bounded.rs:194-248 [many_till for Range<usize>]; [unreachable!()] is [Panic]. *)
  Definition many_till_range (a b : nat) (i : input I) : pres I T E :=
    if negb (a <=? b) then Panic
    else
      run_iter_till fuel col i s0 e0 p (a, Nat.max b 1 - 1)
        (fun d => (fst d, Some (snd d)))
        (fun it =>
           pre_seq (if fst (tt_data it) =? 0 then end_test end_ it else PreGo it)
             (fun it => if snd (tt_data it) =? 0
                        then pre_seq (end_test end_ it) (fun it => PreNone it)
                        else PreGo it))
        (fun d => (dec0 (fst d), snd d - 1))
        (fun result s d st =>
           match d, st with
           | (0, _), TEndSuccess => ret result s
           | (_, _), TError b e => err e (replace s b)
           | (_, _), TIncomplete n => incomplete n s
           | (_, _), TEndSuccess => Panic
           end).

  (** src/combinators/bounded.rs:324-366 [many_till for RangeFrom<usize>]. *)
  Definition many_till_from (a : nat) (i : input I) : pres I T E :=
    run_iter_till fuel col i s0 e0 p a
      (fun d => (d, None))
      (fun it => if tt_data it =? 0 then end_test end_ it else PreGo it)
      dec0
      (fun result s d st =>
         match d, st with
         | 0, TEndSuccess => ret result s
         | _, TError b e => err e (replace s b)
         | _, TIncomplete n => incomplete n s
         | _, TEndSuccess => Panic
         end).

  (** src/combinators/bounded.rs:422-455 [many_till for RangeFull]. *)
  Definition many_till_full (i : input I) : pres I T E :=
    run_iter_till fuel col i s0 e0 p tt
      (fun _ => (0, None))
      (fun it => end_test end_ it)
      (fun d => d)
      (fun result s d st =>
         match st with
         | TEndSuccess => ret result s
         | TError b e => err e (replace s b)
         | TIncomplete n => incomplete n s
         end).

  (** src/combinators/bounded.rs:533-578 [many_till for RangeTo<usize>]. *)
  Definition many_till_to (b : nat) (i : input I) : pres I T E :=
    run_iter_till fuel col i s0 e0 p (Nat.max b 1 - 1)
      (fun d => (0, Some d))
      (fun it => pre_seq (end_test end_ it) (fun it => if tt_data it =? 0 then PreNone it else PreGo it))
      (fun d => d - 1)
      (fun result s d st =>
         match d, st with
         | 0, TEndSuccess => ret result s
         | _, TError b e => err e (replace s b)
         | _, TIncomplete n => incomplete n s
         | _, TEndSuccess => Panic
         end).

  (** src/combinators/bounded.rs:655-698 [many_till for usize]. *)
  Definition many_till_exact (n : nat) (i : input I) : pres I T E :=
    run_iter_till fuel col i s0 e0 p n
      (fun d => (d, Some d))
      (fun it => if tt_data it =? 0 then pre_seq (end_test end_ it) (fun it => PreNone it) else PreGo it)
      (fun d => d - 1)
      (fun result s d st =>
         match d, st with
         | 0, TEndSuccess => ret result s
         | _, TError b e => err e (replace s b)
         | _, TIncomplete n => incomplete n s
         | _, TEndSuccess => Panic
         end).
End ManyTill.

(** * skip_many *)

Section SkipMany.
  Context {S I T E : Type}.
  Variable f : sparser S I T E.

  (** src/combinators/bounded.rs:163-190: the loop of [skip_many for Range<usize>]. *)
  Fixpoint skip_loop_range (fuel min max : nat) (s : S) (i : input I) : pres I unit E :=
    match fuel with
    | O => NoFuel
    | Datatypes.S fuel' =>
        if max =? 0 then ret tt i
        else
          match f s i with
          | (Data b _, s') => skip_loop_range fuel' (dec0 min) (max - 1) s' b
          | (Error b e, _) => if min =? 0 then ret tt i else err e (replace i b)
          | (Incomplete n, _) => if (min =? 0) && last i then ret tt i else incomplete n i
          | (Panic, _) => Panic
          | (NoFuel, _) => NoFuel
          end
    end.

  (** src/combinators/bounded.rs:154-191 [skip_many for Range<usize>]. *)
  Definition skip_many_range (fuel : nat) (s0 : S) (a b : nat) (i : input I) : pres I unit E :=
    if negb (a <=? b) then Panic else skip_loop_range fuel a (Nat.max b 1 - 1) s0 i.

  (** src/combinators/bounded.rs:292-321 [skip_many for RangeFrom<usize>]. *)
  Fixpoint skip_many_from (fuel : nat) (s : S) (min : nat) (i : input I) : pres I unit E :=
    match fuel with
    | O => NoFuel
    | Datatypes.S fuel' =>
        match f s i with
        | (Data b _, s') => skip_many_from fuel' s' (dec0 min) b
        | (Error b e, _) => if min =? 0 then ret tt i else err e (replace i b)
        | (Incomplete n, _) => if (min =? 0) && last i then ret tt i else incomplete n i
        | (Panic, _) => Panic
        | (NoFuel, _) => NoFuel
        end
    end.

  (** src/combinators/bounded.rs:403-419 [skip_many for RangeFull]. *)
  Fixpoint skip_many_full (fuel : nat) (s : S) (i : input I) : pres I unit E :=
    match fuel with
    | O => NoFuel
    | Datatypes.S fuel' =>
        match f s i with
        | (Data b _, s') => skip_many_full fuel' s' b
        | (Error _ _, _) => ret tt i
        | (Incomplete n, _) => if last i then ret tt i else incomplete n i
        | (Panic, _) => Panic
        | (NoFuel, _) => NoFuel
        end
    end.

  (** src/combinators/bounded.rs:508-529: the loop of [skip_many for RangeTo<usize>]. *)
  Fixpoint skip_loop_to (fuel max : nat) (s : S) (i : input I) : pres I unit E :=
    match fuel with
    | O => NoFuel
    | Datatypes.S fuel' =>
        if max =? 0 then ret tt i
        else
          match f s i with
          | (Data b _, s') => skip_loop_to fuel' (max - 1) s' b
          | (Error _ _, _) => ret tt i
          | (Incomplete n, _) => if last i then ret tt i else incomplete n i
          | (Panic, _) => Panic
          | (NoFuel, _) => NoFuel
          end
    end.

  (** src/combinators/bounded.rs:502-530 [skip_many for RangeTo<usize>]. *)
  Definition skip_many_to (fuel : nat) (s0 : S) (b : nat) (i : input I) : pres I unit E :=
    skip_loop_to fuel (Nat.max b 1 - 1) s0 i.

  (** src/combinators/bounded.rs:621-652 [skip_many for usize].  The [n] of the arm [State::Incomplete(n)] (line 643) shadows the
      counter, so line 643 compares the *requested* amount with 0. *)
  Fixpoint skip_many_exact (fuel : nat) (s : S) (n : nat) (i : input I) : pres I unit E :=
    match fuel with
    | O => NoFuel
    | Datatypes.S fuel' =>
        if n =? 0 then ret tt i
        else
          match f s i with
          | (Data b _, s') => skip_many_exact fuel' s' (n - 1) b
          | (Error b e, _) => if n =? 0 then ret tt i else err e (replace i b)
          | (Incomplete n, _) => if n =? 0 then ret tt i else incomplete n i
          | (Panic, _) => Panic
          | (NoFuel, _) => NoFuel
          end
    end.
End SkipMany.

(** * Dispatch *)

(** The five implementors of [trait BoundedRange] (src/combinators/bounded.rs:102, 251, 369, 458, 581). *)
Inductive range : Type :=
| RRange (a b : nat)
| RFrom (a : nat)
| RFull
| RTo (b : nat)
| RExact (n : nat).

(** src/combinators/bounded.rs:717-724 [many]: trait dispatch. *)
Definition bmany {S I U T E C} (fuel : nat) (col : collector U T C) (r : range) (s0 : S) (f : sparser S I U E)
    (i : input I) : pres I T E :=
  match r with
  | RRange a b => parse_many_range fuel col s0 f a b i
  | RFrom a => parse_many_from fuel col s0 f a i
  | RFull => parse_many_full fuel col s0 f i
  | RTo b => parse_many_to fuel col s0 f b i
  | RExact n => parse_many_exact fuel col s0 f n i
  end.

(** src/combinators/bounded.rs:741-746 [skip_many]: trait dispatch. *)
Definition bskip_many {S I T E} (fuel : nat) (r : range) (s0 : S) (f : sparser S I T E) (i : input I) : pres I unit E :=
  match r with
  | RRange a b => skip_many_range f fuel s0 a b i
  | RFrom a => skip_many_from f fuel s0 a i
  | RFull => skip_many_full f fuel s0 i
  | RTo b => skip_many_to f fuel s0 b i
  | RExact n => skip_many_exact f fuel s0 n i
  end.

(** src/combinators/bounded.rs:763-773 [many_till]: trait dispatch. *)
Definition bmany_till {S SE I U V T E N C} (fuel : nat) (col : collector U T C) (r : range) (s0 : S) (e0 : SE)
    (p : sparser S I U E) (end_ : sparser SE I V N) (i : input I) : pres I T E :=
  match r with
  | RRange a b => many_till_range fuel col s0 e0 p end_ a b i
  | RFrom a => many_till_from fuel col s0 e0 p end_ a i
  | RFull => many_till_full fuel col s0 e0 p end_ i
  | RTo b => many_till_to fuel col s0 e0 p end_ b i
  | RExact n => many_till_exact fuel col s0 e0 p end_ n i
  end.

(** * src/combinators/mod.rs *)

(** src/combinators/mod.rs:34-40 [count]. *)
Definition count {S I U T E C} (fuel : nat) (col : collector U T C) (num : nat) (s0 : S) (p : sparser S I U E)
    (i : input I) : pres I T E := bmany fuel col (RExact num) s0 p i.

(** src/combinators/mod.rs:58-70 [option].  [FnOnce] parsers are modelled as functions without captured state. *)
Definition option_ {I T E} (f : parser I T E) (default : T) (i : input I) : pres I T E :=
  match f i with
  | Data b d => ret d b
  | Error _ _ => ret default i
  | Incomplete n => if last i then ret default i else incomplete n i
  | Panic => Panic
  | NoFuel => NoFuel
  end.

(** src/combinators/mod.rs:94-106 [or]. *)
Definition or_ {I T E} (f g : parser I T E) (i : input I) : pres I T E :=
  match f i with
  | Data b d => ret d b
  | Error _ _ => g i
  | Incomplete n => if last i then g i else incomplete n i
  | Panic => Panic
  | NoFuel => NoFuel
  end.

(** src/combinators/mod.rs:128-134 [many]. *)
Definition many {S I U T E C} (fuel : nat) (col : collector U T C) (s0 : S) (f : sparser S I U E) (i : input I)
  : pres I T E := bmany fuel col RFull s0 f i.

(** src/combinators/mod.rs:157-163 [many1]. *)
Definition many1 {S I U T E C} (fuel : nat) (col : collector U T C) (s0 : S) (f : sparser S I U E) (i : input I)
  : pres I T E := bmany fuel col (RFrom 1) s0 f i.

(** src/combinators/mod.rs:194-200 and 235-241: the closure shared by [sep_by] and [sep_by1].  Captured state: the flag [item] and the
    captured states of [p] and [sep]. *)
Definition sep_item {SP SS I U V E N} (conv : N -> E) (p : sparser SP I U E) (sep : sparser SS I V N)
  : sparser (bool * SP * SS) I U E :=
  fun st i =>
    let '(item, sp, ss) := st in
    let '(r0, ss') := if item then let '(r, ss') := sep ss i in (map (fun _ => tt) r, ss') else (ret tt i, ss) in
    match r0 with
    | Data j _ =>
        (* [.then(&mut p)]: the conversion of [bind] is not used on success *)
        let '(r1, sp') := p sp j in
        let r := then_ conv r0 (fun _ => r1) in
        let '(r', item') := inspect (fun _ _ => true) r item in
        (r', (item', sp', ss'))
    | _ =>
        let r := then_ conv r0 (fun j => fst (p sp j)) in
        let '(r', item') := inspect (fun _ _ => true) r item in
        (r', (item', sp, ss'))
    end.

(** src/combinators/mod.rs:182-203 [sep_by]. *)
Definition sep_by {SP SS I U V T E N C} (fuel : nat) (col : collector U T C) (conv : N -> E) (sp0 : SP) (ss0 : SS)
    (p : sparser SP I U E) (sep : sparser SS I V N) (i : input I) : pres I T E :=
  bmany fuel col RFull (false, sp0, ss0) (sep_item conv p sep) i.

(** src/combinators/mod.rs:223-244 [sep_by1]. *)
Definition sep_by1 {SP SS I U V T E N C} (fuel : nat) (col : collector U T C) (conv : N -> E) (sp0 : SP) (ss0 : SS)
    (p : sparser SP I U E) (sep : sparser SS I V N) (i : input I) : pres I T E :=
  bmany fuel col (RFrom 1) (false, sp0, ss0) (sep_item conv p sep) i.

(** src/combinators/mod.rs:261-270 [many_till]. *)
Definition many_till {S SE I U V T E N C} (fuel : nat) (col : collector U T C) (s0 : S) (e0 : SE)
    (p : sparser S I U E) (end_ : sparser SE I V N) (i : input I) : pres I T E :=
  bmany_till fuel col RFull s0 e0 p end_ i.

(** src/combinators/mod.rs:287-291 [skip_many]. *)
Definition skip_many {S I T E} (fuel : nat) (s0 : S) (f : sparser S I T E) (i : input I) : pres I unit E :=
  bskip_many fuel RFull s0 f i.

(** src/combinators/mod.rs:314-317 [skip_many1]. *)
Definition skip_many1 {S I T E} (fuel : nat) (s0 : S) (f : sparser S I T E) (i : input I) : pres I unit E :=
  bskip_many fuel (RFrom 1) s0 f i.

(** src/combinators/mod.rs:328-344 [matched_by].  [buf.len() - b.buffer().len()] underflows when the remainder is longer than the
    input: debug builds panic there, release builds panic in the slicing that follows. *)
Definition matched_by {I T E} (f : parser I T E) (i : input I) : pres I (list I * T) E :=
  let b0 := buf i in
  match f i with
  | Data b t =>
      if length b0 <? length (buf b) then Panic
      else ret (firstn (length b0 - length (buf b)) b0, t) b
  | Error b e => err e (replace i b)
  | Incomplete n => incomplete n i
  | Panic => Panic
  | NoFuel => NoFuel
  end.

(** src/combinators/mod.rs:357-364 [look_ahead]. *)
Definition look_ahead {I T E} (f : parser I T E) (i : input I) : pres I T E :=
  match f i with
  | Data _ t => ret t i
  | Error b e => err e (replace i b)
  | Incomplete n => incomplete n i
  | Panic => Panic
  | NoFuel => NoFuel
  end.
