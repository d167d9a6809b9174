(** What caught panics are supposed to change: nothing. *)
From Coq Require Import List Bool Arith.
From Verif Require Import Base Buffer Stream Word Unwind SpecBuffer SpecWord.
Import ListNotations.

Set Implicit Arguments.

(** The call is over, one way or the other, and the object is left like this. *)
Definition leaves {S A} (c : call S A) (st : S) : Prop := c = Unwinds st \/ exists a, c = Returns st a.

(** Neither undefined behaviour nor an endless loop. *)
Definition survives {S A} (c : call S A) : Prop := c <> Breaks /\ c <> Loops.

(** The contract of [DataSource::read] as in [obeys], for a source that may panic instead of returning; then nothing is promised. *)
Definition p_obeys {St I} (ds : panicky_source St I) : Prop :=
  forall s n s' w k, ps_read ds s n = (s', w, Some (IoOk k)) -> k <= n /\ exists c, length c = k /\ writes w c.

(** Observing a source, as [logged]: the items of the reads that returned. *)
Definition p_logged {St I} (ds : panicky_source St I) : panicky_source (log St I) I :=
  mkPanickySource (fun l n =>
    let '(s, w, r) := ps_read ds (log_state l) n in
    (match r with
     | Some (IoOk k) => mkLog s (log_items l ++ delivered w k) (log_ended l || ((k =? 0) && (0 <? n)))
     | _ => mkLog s (log_items l) (log_ended l)
     end, w, r)).

(** All states of a Source, by any calls whatsoever, each of which may panic and be caught. *)
Inductive u_history {St I B} (m : machine) (ds : panicky_source St I) (ops : u_ops I B) (s0 : St) (b0 : B) : src St B -> Prop :=
| uh_new : u_history m ds ops s0 b0 (src_with_buffer s0 b0)
| uh_parse : forall st T E (p : parser I T E) st', u_history m ds ops s0 b0 st -> leaves (u_src_parse m ds ops p st) st' -> u_history m ds ops s0 b0 st'
| uh_fill : forall st st', u_history m ds ops s0 b0 st -> leaves (u_src_fill m ds ops st) st' -> u_history m ds ops s0 b0 st'
| uh_read : forall st n st', u_history m ds ops s0 b0 st -> n < w_size m -> leaves (u_src_read m ds ops n st) st' -> u_history m ds ops s0 b0 st'
| uh_fill_buf : forall st st', u_history m ds ops s0 b0 st -> leaves (u_src_fill_buf m ds ops st) st' -> u_history m ds ops s0 b0 st'
| uh_consume : forall st n st', u_history m ds ops s0 b0 st -> n < w_size m -> leaves (u_src_consume ops n st) st' -> u_history m ds ops s0 b0 st'
| uh_reset : forall st, u_history m ds ops s0 b0 st -> u_history m ds ops s0 b0 (src_reset st)
| uh_autofill : forall st v, u_history m ds ops s0 b0 st -> u_history m ds ops s0 b0 (src_set_autofill v st).

(** Every call in this state is defined. *)
Record all_survive {St I B} (m : machine) (ds : panicky_source St I) (ops : u_ops I B) (st : src St B) : Prop := mkAllSurvive {
  as_parse : forall T E (p : parser I T E), u_src_parse m ds ops p st <> Breaks;
  as_parse_ends : forall T E (p : parser I T E), (forall i, p i <> NoFuel) -> u_src_parse m ds ops p st <> Loops;
  as_fill : survives (u_src_fill m ds ops st);
  as_read : forall n, n < w_size m -> survives (u_src_read m ds ops n st);
  as_fill_buf : survives (u_src_fill_buf m ds ops st);
  as_consume : forall n, n < w_size m -> survives (u_src_consume ops n st);
  as_len : defined (u_len ops (src_buffer st));
  as_is_empty : defined (u_src_is_empty ops st);
  as_view : defined (u_deref ops (src_buffer st)) }.

(** All states of a buffer used directly, its visible items also being overwritten; [may]: the amounts that may be consumed. *)
Inductive u_reached {I B} (m : machine) (ops : u_ops I B) (write : B -> list I -> run B) (may : B -> nat -> Prop) (b0 : B) : B -> Prop :=
| ur_new : u_reached m ops write may b0 b0
| ur_request : forall b n b', u_reached m ops write may b0 b -> n < w_size m -> leaves (u_request_space ops b n) b' -> u_reached m ops write may b0 b'
| ur_consume : forall b n b', u_reached m ops write may b0 b -> n < w_size m -> may b n -> leaves (u_consume ops b n) b' -> u_reached m ops write may b0 b'
| ur_fill : forall St (ds : panicky_source St I) s b b' s', u_reached m ops write may b0 b -> p_obeys ds -> leaves (u_fill ops ds b s) (b', s') ->
    u_reached m ops write may b0 b'
| ur_write : forall b l b', u_reached m ops write may b0 b -> write b l = Done b' -> u_reached m ops write may b0 b'.

Record buffer_survives {I B} (m : machine) (ops : u_ops I B) (write : B -> list I -> run B) (b : B) : Prop := mkBufferSurvives {
  bs_deref : defined (u_deref ops b);
  bs_len : defined (u_len ops b);
  bs_request : forall n, n < w_size m -> survives (u_request_space ops b n);
  bs_consume : forall n, survives (u_consume ops b n);
  bs_fill : forall St (ds : panicky_source St I) s, p_obeys ds -> survives (u_fill ops ds b s);
  bs_write : forall l, defined (write b l) }.

(** At most what the buffer holds. *)
Definition u_held {I B} (ops : u_ops I B) (b : B) (n : nat) : Prop := exists l, u_deref ops b = Done l /\ n <= length l.

(** Going from [st] to [st'], nothing has been lost: what was visible still is, followed by what has been read in between. *)
Definition lossless {St I B} (ops : u_ops I B) (st st' : src (log St I) B) : Prop :=
  forall v, u_deref ops (src_buffer st) = Done v ->
    exists c, log_items (src_source st') = log_items (src_source st) ++ c /\ u_deref ops (src_buffer st') = Done (v ++ c).
