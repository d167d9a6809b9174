(** Model of src/input.rs, src/parse_result.rs and src/parse.rs.  No proofs here. *)
From Coq Require Import List Bool Arith.
Import ListNotations.

Set Implicit Arguments.

(** src/input.rs:78 [struct Input<'a, I>(InputMode, &'a [I])].
    [last] is the END_OF_INPUT bit of the mode (src/input.rs:4-11, the only bit there is; [false] is DEFAULT).
    Simplification: the slice is the list of its items, its address is not modelled. *)
Record input (I : Type) : Type := mkInput { last : bool; buf : list I }.
Arguments mkInput {I} last buf.

(** src/parse_result.rs:18-31 [enum State] (wrapped by [struct ParseResult], lines 83, 94-96 and 423-430).
    [Panic] and [NoFuel] are not values of the Rust type: they are the two further outcomes that *calling* a
    parser can have in the model: the Rust code panics; the model's loop budget is exhausted. *)
Inductive pres (I T E : Type) : Type :=
| Data (i : input I) (t : T)
| Error (b : list I) (e : E)
| Incomplete (n : nat)
| Panic
| NoFuel.
Arguments Data {I T E} i t.
Arguments Error {I T E} b e.
Arguments Incomplete {I T E} n.
Arguments Panic {I T E}.
Arguments NoFuel {I T E}.

(** The type [Fn(Input<I>) -> ParseResult<I, T, E>] of src/input.rs:69-75 (pure parsers). *)
Definition parser (I T E : Type) : Type := input I -> pres I T E.

(** src/input.rs:85-87 [new], and src/input.rs:103-105 [Input::new] (always END_OF_INPUT). *)
Definition input_new {I} (b : list I) : input I := mkInput true b.

(** src/input.rs:124-126 [Input::ret]. *)
Definition ret {I T E} (t : T) (i : input I) : pres I T E := Data i t.

(** src/input.rs:145-147 [Input::err]: the error carries the current slice. *)
Definition err {I T E} (e : E) (i : input I) : pres I T E := Error (buf i) e.

(** src/input.rs:156-158 [Input::incomplete]. *)
Definition incomplete {I T E} (n : nat) (i : input I) : pres I T E := Incomplete n.

(** src/input.rs:181-186 [Input::from_result]; [inl] is [Ok], [inr] is [Err]. *)
Definition from_result {I T E} (r : T + E) (i : input I) : pres I T E :=
  match r with
  | inl t => Data i t
  | inr e => Error (buf i) e
  end.

(** src/input.rs:256-258 [InputBuffer::replace]: same mode, other slice. *)
Definition replace {I} (i : input I) (b : list I) : input I := mkInput (last i) b.

(** src/parse_result.rs:220-227 [ParseResult::map_err]. *)
Definition map_err {I T E V} (f : E -> V) (r : pres I T E) : pres I T V :=
  match r with
  | Data i t => Data i t
  | Error b e => Error b (f e)
  | Incomplete n => Incomplete n
  | Panic => Panic
  | NoFuel => NoFuel
  end.

(** src/parse_result.rs:142-150 [ParseResult::bind].  [conv] is the [V: From<E>] instance.  On success the code calls
    [f(i, t).map_err(From::from)], where this [From] is the reflexive [From<V> for V], i.e. the identity. *)
Definition bind {I T U E V} (conv : E -> V) (r : pres I T E) (f : input I -> T -> pres I U V) : pres I U V :=
  match r with
  | Data i t => map_err (fun v : V => v) (f i t)
  | Error b e => Error b (conv e)
  | Incomplete n => Incomplete n
  | Panic => Panic
  | NoFuel => NoFuel
  end.

(** src/parse_result.rs:179-183 [ParseResult::then]. *)
Definition then_ {I T U E V} (conv : E -> V) (r : pres I T E) (f : input I -> pres I U V) : pres I U V :=
  bind conv r (fun i _ => f i).

(** src/parse_result.rs:197-204 [ParseResult::map]. *)
Definition map {I T U E} (f : T -> U) (r : pres I T E) : pres I U E :=
  match r with
  | Data i t => Data i (f t)
  | Error b e => Error b e
  | Incomplete n => Incomplete n
  | Panic => Panic
  | NoFuel => NoFuel
  end.

(** src/parse_result.rs:244-251 [ParseResult::inspect].  The observer [f] has side effects only: it is modelled as
    a transformer of an arbitrary outside state [w]. *)
Definition inspect {I T E W} (f : T -> W -> W) (r : pres I T E) (w : W) : pres I T E * W :=
  match r with
  | Data _ t => (r, f t w)
  | _ => (r, w)
  end.

(** src/parse_result.rs:295-303 [ParseResult::unwrap]; [None] is the panic. *)
Definition unwrap {I T E} (r : pres I T E) : option T :=
  match r with Data _ t => Some t | _ => None end.

(** src/parse_result.rs:372-382 [ParseResult::unwrap_err]; [None] is the panic. *)
Definition unwrap_err {I T E} (r : pres I T E) : option E :=
  match r with Error _ e => Some e | _ => None end.

(** src/parse.rs:7-13 [enum ParseError]. *)
Inductive parse_error (I E : Type) : Type :=
| PErr (b : list I) (e : E)
| PIncomplete (n : nat).
Arguments PErr {I E} b e.
Arguments PIncomplete {I E} n.

(** The result of an API entry point that runs a parser: [Result<T, Err>], or the parser panicked / ran out of
    model fuel.  (Model-only type, no counterpart in /repo besides [Result] in src/parse.rs:52.) *)
Inductive outcome (T Err : Type) : Type :=
| OOk (t : T)
| OErr (e : Err)
| OPanic
| ONoFuel.
Arguments OOk {T Err} t.
Arguments OErr {T Err} e.
Arguments OPanic {T Err}.
Arguments ONoFuel {T Err}.

(** src/parse.rs:52-61 [parse_only]. *)
Definition parse_only {I T E} (p : parser I T E) (s : list I) : outcome T (parse_error I E) :=
  match p (mkInput true s) with
  | Data _ t => OOk t
  | Error b e => OErr (PErr b e)
  | Incomplete n => OErr (PIncomplete n)
  | Panic => OPanic
  | NoFuel => ONoFuel
  end.
