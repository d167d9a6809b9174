(** What buffers may move. *)
From Coq Require Import List Bool Arith.
From Verif Require Import Base Buffer Stream SpecBase SpecSafe SpecBuffer SpecStream Meter.
Import ListNotations.

Set Implicit Arguments.

(** A Source with the meter of its buffer taken away. *)
Definition unmetered {St B} (st : src St (B * meter)) : src St B :=
  mkSrc (src_source st) (fst (src_buffer st)) (src_request st) (src_incomplete st) (src_eoi st) (src_auto st).

Definition meter_of {St B} (st : src St (B * meter)) : meter := snd (src_buffer st).

(** The same outcome, but for the meter. *)
Definition apart_from_meter {St B R} (r : run (src St (B * meter) * R)) : run (src St B * R) := let! (st, x) := r in Done (unmetered st, x).

(** No call of the interface is disturbed by the meter. *)
Record undisturbed {St I B} (ds : data_source St I) (ops : buffer_ops I B) (mops : buffer_ops I (B * meter)) (st : src St (B * meter)) : Prop := mkUndisturbed {
  ud_parse : forall T E (p : parser I T E), apart_from_meter (src_parse ds mops p st) = src_parse ds ops p (unmetered st);
  ud_fill : apart_from_meter (src_fill ds mops st) = src_fill ds ops (unmetered st);
  ud_read : forall n, apart_from_meter (src_read ds mops n st) = src_read ds ops n (unmetered st);
  ud_fill_buf : apart_from_meter (src_fill_buf ds mops st) = src_fill_buf ds ops (unmetered st);
  ud_consume : forall n, (let! st' := src_consume mops n st in Done (unmetered st')) = src_consume ops n (unmetered st) }.

(** The states of a Source when nobody asks for more than [M] items at a time: neither the caller of [read], nor a parser, what it has been
    shown included.  [filling]: is [fill_buf] called too?  The panics of the calls are not caught. *)
Inductive demanding {St I B} (ds : data_source St I) (ops : buffer_ops I B) (filling : bool) (M : nat) (s0 : St) (b0 : B) : src St B -> Prop :=
| de_new : demanding ds ops filling M s0 b0 (src_with_buffer s0 b0)
| de_parse : forall st T E (p : parser I T E) st' r, demanding ds ops filling M s0 b0 st ->
    src_parse ds ops p st = Done (st', r) -> src_request st' <= M -> demanding ds ops filling M s0 b0 st'
| de_fill : forall st st' r, demanding ds ops filling M s0 b0 st -> src_fill ds ops st = Done (st', r) -> demanding ds ops filling M s0 b0 st'
| de_read : forall st n st' r, demanding ds ops filling M s0 b0 st -> n <= M -> src_read ds ops n st = Done (st', r) -> demanding ds ops filling M s0 b0 st'
| de_fill_buf : forall st st' r, demanding ds ops filling M s0 b0 st -> filling = true -> src_fill_buf ds ops st = Done (st', r) ->
    demanding ds ops filling M s0 b0 st'
| de_consume : forall st n st', demanding ds ops filling M s0 b0 st -> src_consume ops n st = Done st' -> demanding ds ops filling M s0 b0 st'
| de_reset : forall st, demanding ds ops filling M s0 b0 st -> demanding ds ops filling M s0 b0 (src_reset st)
| de_autofill : forall st v, demanding ds ops filling M s0 b0 st -> demanding ds ops filling M s0 b0 (src_set_autofill v st).

(** Items taken one by one by way of [BufRead]: [fill_buf], [consume(1)], [n] times. *)
Fixpoint take_singly {St I B} (ds : data_source St I) (ops : buffer_ops I B) (n : nat) (st : src St B) : run (src St B) :=
  match n with
  | 0 => Done st
  | S n => let! (st, _) := src_fill_buf ds ops st in let! st := src_consume ops 1 st in take_singly ds ops n st
  end.

(** A parser that takes one item when it sees [M]. *)
Definition ahead {I} (M : nat) : parser I unit unit :=
  fun i => if length (buf i) <? M then Incomplete (M - length (buf i)) else Data (mkInput (last i) (tl (buf i))) tt.

(** The same parser called [n] times, whatever the answer. *)
Fixpoint parse_times {St I B T E} (ds : data_source St I) (ops : buffer_ops I B) (p : parser I T E) (n : nat) (st : src St B) : run (src St B) :=
  match n with
  | 0 => Done st
  | S n => let! (st, _) := src_parse ds ops p st in parse_times ds ops p n st
  end.
