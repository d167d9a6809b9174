(** Model of src/buffer/mod.rs, src/buffer/stateful.rs and src/buffer/slice.rs.  No proofs here.
    Debug build, unbounded [usize]: see Buffer.v. *)
From Coq Require Import List Bool Arith.
From Verif Require Import Base Buffer.
Import ListNotations.

Set Implicit Arguments.

(** src/buffer/mod.rs:52-66 [enum StreamError]. *)
Inductive stream_error (I E : Type) : Type :=
| SParseError (b : list I) (e : E)
| SIncomplete (n : nat)
| SIoError (e : nat)
| SEndOfInput
| SRetry.
Arguments SParseError {I E} b e.
Arguments SIncomplete {I E} n.
Arguments SIoError {I E} e.
Arguments SEndOfInput {I E}.
Arguments SRetry {I E}.

(** [==] on slices, used in src/buffer/mod.rs:73. *)
Fixpoint list_eqb {A} (eqb : A -> A -> bool) (l1 l2 : list A) : bool :=
  match l1, l2 with
  | [], [] => true
  | x :: l1, y :: l2 => eqb x y && list_eqb eqb l1 l2
  | _, _ => false
  end.

(** src/buffer/mod.rs:68-80 [PartialEq for StreamError]; [ieqb], [eeqb] are [==] of items and errors. *)
Definition stream_error_eqb {I E} (ieqb : I -> I -> bool) (eeqb : E -> E -> bool) (x y : stream_error I E) : bool :=
  match x, y with
  | SParseError b1 e1, SParseError b2 e2 => list_eqb ieqb b1 b2 && eeqb e1 e2
  | SIncomplete n1, SIncomplete n2 => n1 =? n2
  | SEndOfInput, SEndOfInput => true
  | SRetry, SRetry => true
  | _, _ => false
  end.

(** src/buffer/mod.rs:82-90 [From<ParseError> for StreamError]. *)
Definition stream_error_from {I E} (e : parse_error I E) : stream_error I E :=
  match e with
  | PErr b e => SParseError b e
  | PIncomplete n => SIncomplete n
  end.

(** [Result<T, StreamError<I, E>>]: [inl] is [Ok], [inr] is [Err]. src/buffer/stateful.rs:206, src/buffer/slice.rs:85. *)
Definition sres (I T E : Type) : Type := (T + stream_error I E)%type.

(** * SliceStream *)

(** src/buffer/slice.rs:43-46 [struct SliceStream]. *)
Record slice_stream (I : Type) : Type := mkSliceStream { ss_pos : nat; ss_slice : list I }.

(** src/buffer/slice.rs:51-56 [new], and [into_stream] for slices (lines 71-79). *)
Definition slice_new {I} (s : list I) : slice_stream I := mkSliceStream 0 s.

(** src/buffer/slice.rs:60-62 [len]. *)
Definition slice_len {I} (s : slice_stream I) : run nat := usize_sub (length (ss_slice s)) (ss_pos s).

(** src/buffer/slice.rs:66-68 [is_empty]. *)
Definition slice_is_empty {I} (s : slice_stream I) : run bool := let! l := slice_len s in Done (l =? 0).

(** src/buffer/slice.rs:81-110 [parse].  A panic of the parser is a panic here. *)
Definition slice_parse {I T E} (p : parser I T E) (s : slice_stream I) : run (slice_stream I * sres I T E) :=
  let! empty := slice_is_empty s in
  if empty then Done (s, inr SEndOfInput)
  else
    match p (mkInput true (skipn (ss_pos s) (ss_slice s))) with
    | Data remainder data =>
        let! l := slice_len s in
        let! n := usize_sub l (length (buf remainder)) in
        Done (mkSliceStream (ss_pos s + n) (ss_slice s), inl data)
    | Error remainder err =>
        let! l := slice_len s in
        let! n := usize_sub l (length remainder) in
        Done (mkSliceStream (ss_pos s + n) (ss_slice s), inr (SParseError remainder err))
    | Incomplete n =>
        let! l := slice_len s in
        Done (s, inr (SIncomplete (n + l)))
    | Panic => Panicked
    | NoFuel => Stuck
    end.

(** * Source *)

(** src/buffer/stateful.rs:32-41 [struct Source], the three flags of [ParserState] (lines 17-28) as booleans. *)
Record src (St B : Type) : Type := mkSrc {
  src_source : St; src_buffer : B; src_request : nat; src_incomplete : bool; src_eoi : bool; src_auto : bool }.

Section Source.
  Context {St I B : Type}.
  (** The [DataSource] and the [Buffer]. *)
  Variable ds : data_source St I.
  Variable ops : buffer_ops I B.

  (** src/buffer/stateful.rs:70-77 [with_buffer]; [new], [from_read] and [from_iter] (lines 46-65) call it. *)
  Definition src_with_buffer (s : St) (b : B) : src St B := mkSrc s b 0 true false true.

  (** Replacing the pair of source and buffer. The fields of src/buffer/stateful.rs:31-41. *)
  Definition src_with (st : src St B) (b : B) (s : St) : src St B :=
    mkSrc s b (src_request st) (src_incomplete st) (src_eoi st) (src_auto st).

  (** src/buffer/stateful.rs:92-97: the loop of [fill_requested]. *)
  Fixpoint fill_loop (fuel request read : nat) (b : B) (s : St) : run (B * St * io nat) :=
    match fuel with
    | 0 => Stuck
    | S fuel =>
        let! l := op_len ops b in
        if l <? request then
          let! (b, s, r) := op_fill ops ds b s in
          match r with
          | IoErr e => Done (b, s, IoErr e)
          | IoOk 0 => Done (b, s, IoOk read)
          | IoOk n => fill_loop fuel request (read + n) b s
          end
        else Done (b, s, IoOk read)
    end.

  (** src/buffer/stateful.rs:81-101 [fill_requested].  Each iteration but the last adds items, hence the loop budget. *)
  Definition fill_requested (request : nat) (st : src St B) : run (src St B * io nat) :=
    let! l := op_len ops (src_buffer st) in
    if l <? request then
      let! diff := usize_sub request l in
      let! b := op_request_space ops (src_buffer st) diff in
      let! (b, s, r) := fill_loop (S diff) request 0 b (src_source st) in
      Done (src_with st b s, r)
    else Done (st, IoOk 0).

  (** src/buffer/stateful.rs:105-120 [fill]. *)
  Definition src_fill (st : src St B) : run (src St B * io nat) :=
    let req := Nat.max 1 (src_request st) in
    let! (st, r) := fill_requested req st in
    match r with
    | IoErr e => Done (st, IoErr e)
    | IoOk n =>
        let! l := op_len ops (src_buffer st) in
        Done (mkSrc (src_source st) (src_buffer st) (src_request st) false (negb (req <=? l)) (src_auto st), IoOk n)
    end.

  (** src/buffer/stateful.rs:124-126 [len]. *)
  Definition src_len (st : src St B) : run nat := op_len ops (src_buffer st).

  (** src/buffer/stateful.rs:130-132 [is_empty]. *)
  Definition src_is_empty (st : src St B) : run bool :=
    if src_eoi st then let! l := src_len st in Done (l =? 0) else Done false.

  (** src/buffer/stateful.rs:138-140 [capacity]. *)
  Definition src_capacity (st : src St B) : nat := op_capacity ops (src_buffer st).

  (** src/buffer/stateful.rs:144-146 [buffer]. *)
  Definition src_view (st : src St B) : run (list I) := op_deref ops (src_buffer st).

  (** src/buffer/stateful.rs:153-155 [reset]. *)
  Definition src_reset (st : src St B) : src St B :=
    mkSrc (src_source st) (src_buffer st) (src_request st) false false false.

  (** src/buffer/stateful.rs:161-167 [set_autofill]. *)
  Definition src_set_autofill (v : bool) (st : src St B) : src St B :=
    mkSrc (src_source st) (src_buffer st) (src_request st) (src_incomplete st) (src_eoi st) v.

  (** src/buffer/stateful.rs:170-183 [io::Read::read] into a slice of length [n]; the items copied are returned instead of their
      number ([Read for &[u8]], line 177, copies as many as fit).  Generalised from [u8]. *)
  Definition src_read (n : nat) (st : src St B) : run (src St B * io (list I)) :=
    let! l := src_len st in
    let! (st, r) := (if l <? n then fill_requested n st else Done (st, IoOk 0)) in
    match r with
    | IoErr e => Done (st, IoErr e)
    | IoOk _ =>
        let! data := op_deref ops (src_buffer st) in
        let out := firstn n data in
        let! b := op_consume ops (src_buffer st) (length out) in
        Done (src_with st b (src_source st), IoOk out)
    end.

  (** src/buffer/stateful.rs:185-193 [BufRead::fill_buf]. *)
  Definition src_fill_buf (st : src St B) : run (src St B * io (list I)) :=
    let! (st, r) := fill_requested (src_capacity st) st in
    match r with
    | IoErr e => Done (st, IoErr e)
    | IoOk _ => let! data := src_view st in Done (st, IoOk data)
    end.

  (** src/buffer/stateful.rs:195-198 [BufRead::consume]. *)
  Definition src_consume (n : nat) (st : src St B) : run (src St B) :=
    let! b := op_consume ops (src_buffer st) n in Done (src_with st b (src_source st)).

  (** src/buffer/stateful.rs:206-246 [parse].  A panic of the parser is a panic here. *)
  Definition src_parse {T E} (p : parser I T E) (st : src St B) : run (src St B * sres I T E) :=
    let! (st, filled) := (if src_incomplete st && src_auto st then src_fill st else Done (st, IoOk 0)) in
    match filled with
    | IoErr e => Done (st, inr (SIoError e))
    | IoOk _ =>
        let! empty := src_is_empty st in
        if empty then Done (st, inr SEndOfInput)
        else
          let! data := op_deref ops (src_buffer st) in
          match p (mkInput (src_eoi st) data) with
          | Data remainder v =>
              let! l := op_len ops (src_buffer st) in
              let! n := usize_sub l (length (buf remainder)) in
              let! b := op_consume ops (src_buffer st) n in
              Done (src_with st b (src_source st), inl v)
          | Error remainder e =>
              let! l := op_len ops (src_buffer st) in
              let! n := usize_sub l (length remainder) in
              let! b := op_consume ops (src_buffer st) n in
              Done (src_with st b (src_source st), inr (SParseError remainder e))
          | Incomplete n =>
              let! l := op_len ops (src_buffer st) in
              let request := l + n in
              if src_eoi st then
                Done (mkSrc (src_source st) (src_buffer st) request (src_incomplete st) (src_eoi st) (src_auto st), inr (SIncomplete request))
              else
                Done (mkSrc (src_source st) (src_buffer st) request true (src_eoi st) (src_auto st), inr SRetry)
          | Panic => Panicked
          | NoFuel => Stuck
          end
    end.
End Source.
