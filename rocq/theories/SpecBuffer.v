(** What buffers and data sources are supposed to do, independently of how they do it. *)
From Coq Require Import List Bool Arith.
From Verif Require Import Base Buffer.
Import ListNotations.

Set Implicit Arguments.

(** * Data sources *)

(** The contract of [DataSource::read] (src/buffer/data_source.rs:13-19) that safety rests on: a count does not exceed the slice, and that
    many items have been written at its start.  What was written: [c]. *)
Definition writes {I} (w : memory I) (c : list I) : Prop := firstn (length c) w = List.map Some c.

Definition obeys {St I} (ds : data_source St I) : Prop :=
  forall s n s' w k, ds_read ds s n = (s', w, IoOk k) -> k <= n /\ exists c, length c = k /\ writes w c.

(** The items delivered by a read that returned [k]. *)
Fixpoint somes {I} (w : memory I) : list I :=
  match w with
  | [] => []
  | Some x :: w => x :: somes w
  | None :: w => somes w
  end.
Definition delivered {I} (w : memory I) (k : nat) : list I := somes (firstn k w).

(** A source observed: [log_items] all items delivered so far, in order; [log_ended]: it has reported its end, i.e. returned [Ok(0)] for a
    non-empty slice. *)
Record log (St I : Type) : Type := mkLog { log_state : St; log_items : list I; log_ended : bool }.
Definition logged {St I} (ds : data_source St I) : data_source (log St I) I :=
  mkDataSource (fun l n =>
    let '(s, w, r) := ds_read ds (log_state l) n in
    (match r with
     | IoOk k => mkLog s (log_items l ++ delivered w k) (log_ended l || ((k =? 0) && (0 <? n)))
     | IoErr _ => mkLog s (log_items l) (log_ended l)
     end, w, r)).

(** What a sequence of reads got: the items, the number of errors, and whether one of them reported the end. *)
Inductive reads {St I} (ds : data_source St I) : St -> St -> list I -> nat -> bool -> Prop :=
| rd_none : forall s, reads ds s s [] 0 false
| rd_ok : forall s n s1 w k s2 l e b, ds_read ds s n = (s1, w, IoOk k) -> reads ds s1 s2 l e b ->
    reads ds s s2 (delivered w k ++ l) e (((k =? 0) && (0 <? n)) || b)
| rd_err : forall s n s1 w x s2 l e b, ds_read ds s n = (s1, w, IoErr x) -> reads ds s1 s2 l e b -> reads ds s s2 l (S e) b.

(** A source that delivers exactly the data [d] from its state [s] on, in reads of any size, with at most [e] I/O errors in
    between; it reports its end only at the end.  [R] is any relation that is kept by every read. *)
Definition delivers {St I} (ds : data_source St I) (R : St -> list I -> nat -> Prop) : Prop :=
  forall s d e, R s d e -> forall n s' w r, ds_read ds s n = (s', w, r) ->
    match r with
    | IoErr _ => exists e', e = S e' /\ R s' d e'
    | IoOk k => k <= n /\ exists c d', d = c ++ d' /\ length c = k /\ writes w c /\ R s' d' e /\ (k = 0 -> n = 0 \/ d = [])
    end.

(** * Buffers as queues *)

(** A buffer of the kind [ops] is, in its states [inv], a queue [view] with room for [room] further items without moving;
    [fits m]: it can hold [m] items.  A single call of [fill] need not offer all of that room to the source, but some of it. *)
Record queue_like {I B} (ops : buffer_ops I B) (inv : B -> Prop) (view : B -> list I) (room : B -> nat) (fits : nat -> Prop) : Prop := mkQueue {
  q_deref : forall b, inv b -> op_deref ops b = Done (view b);
  q_len : forall b, inv b -> op_len ops b = Done (length (view b));
  q_consume : forall b k, inv b -> k <= length (view b) ->
    exists b', op_consume ops b k = Done b' /\ inv b' /\ view b' = skipn k (view b);
  q_request : forall b k, inv b ->
    exists b', op_request_space ops b k = Done b' /\ inv b' /\ view b' = view b /\
      forall j, j <= k -> fits (length (view b) + j) -> j <= room b';
  q_fill : forall b, inv b -> exists m, (0 < room b -> 0 < m) /\
    forall St (ds : data_source St I) s s' w r, obeys ds -> ds_read ds s m = (s', w, r) ->
    exists b', op_fill ops ds b s = Done (b', s', r) /\ inv b' /\
      match r with
      | IoOk k => view b' = view b ++ delivered w k /\ room b - k <= room b'
      | IoErr _ => view b' = view b
      end;
  q_fits : forall m m', m' <= m -> fits m -> fits m' }.

(** All states a buffer gets into by the operations of the trait, used as documented; [got]: the items read so far,
    [gone]: how many of them have been consumed. *)
Inductive reached {I B} (ops : buffer_ops I B) (b0 : B) : B -> list I -> nat -> Prop :=
| r_new : reached ops b0 b0 [] 0
| r_request : forall b got gone k b', reached ops b0 b got gone -> op_request_space ops b k = Done b' -> reached ops b0 b' got gone
| r_consume : forall b got gone k b', reached ops b0 b got gone -> gone + k <= length got ->
    op_consume ops b k = Done b' -> reached ops b0 b' got (gone + k)
| r_fill : forall St (ds : data_source St I) s s' b got gone b' r, reached ops b0 b got gone -> obeys ds ->
    op_fill ops (logged ds) b (mkLog s got false) = Done (b', s', r) -> reached ops b0 b' (log_items s') gone.

(** The same, if the visible items are also overwritten ([write]): what has been overwritten counts as read. *)
Inductive reached_mut {I B} (ops : buffer_ops I B) (write : B -> list I -> run B) (b0 : B) : B -> list I -> nat -> Prop :=
| rm_new : reached_mut ops write b0 b0 [] 0
| rm_request : forall b got gone k b', reached_mut ops write b0 b got gone -> op_request_space ops b k = Done b' -> reached_mut ops write b0 b' got gone
| rm_consume : forall b got gone k b', reached_mut ops write b0 b got gone -> gone + k <= length got ->
    op_consume ops b k = Done b' -> reached_mut ops write b0 b' got (gone + k)
| rm_fill : forall St (ds : data_source St I) s s' b got gone b' r, reached_mut ops write b0 b got gone -> obeys ds ->
    op_fill ops (logged ds) b (mkLog s got false) = Done (b', s', r) -> reached_mut ops write b0 b' (log_items s') gone
| rm_write : forall b got gone l b', reached_mut ops write b0 b got gone -> write b l = Done b' -> reached_mut ops write b0 b' (firstn gone got ++ l) gone.
