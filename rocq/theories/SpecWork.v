(** Calls of a stream one after the other, with what they do to a world (C75). *)
From Coq Require Import List Bool Arith.
From Verif Require Import Base Parsers Combinators Buffer Stream.
Import ListNotations.

Set Implicit Arguments.

(** [calls call st w outs st' w']: the calls made one after the other, beginning with the stream [st] in the world [w], are answered by [outs]. *)
Inductive calls {S O W : Type} (call : S -> W -> run (S * O) * W) : S -> W -> list O -> S -> W -> Prop :=
| calls_none : forall st w, calls call st w [] st w
| calls_more : forall st w st1 o w1 outs st2 w2, call st w = (Done (st1, o), w1) -> calls call st1 w1 outs st2 w2 -> calls call st w (o :: outs) st2 w2.

(** Answers which are neither a value nor an I/O error. *)
Definition vain {I T E} (o : sres I T E) : nat :=
  match o with
  | inl _ => 0
  | inr (SIoError _) => 0
  | inr _ => 1
  end.
Definition in_vain {I T E} (outs : list (sres I T E)) : nat := list_sum (List.map vain outs).

(** Values, [Retry] and I/O errors: one goes on calling. *)
Definition goes_on {I T E} (o : sres I T E) : Prop :=
  match o with
  | inl _ => True
  | inr (SIoError _) => True
  | inr SRetry => True
  | inr _ => False
  end.

(** A loop which makes such calls until there is an answer of another kind, and collects the values. *)
Fixpoint looping {S I T E W : Type} (call : S -> W -> run (S * sres I T E) * W) (fuel : nat) (st : S) (w : W) : run (list T * stream_error I E * S) * W :=
  match fuel with
  | 0 => (Stuck, w)
  | Datatypes.S fuel =>
      match call st w with
      | (Done (st, inl v), w) =>
          match looping call fuel st w with
          | (Done (vs, x, st), w) => (Done (v :: vs, x, st), w)
          | r => r
          end
      | (Done (st, inr SRetry), w) => looping call fuel st w
      | (Done (st, inr (SIoError _)), w) => looping call fuel st w
      | (Done (st, inr x), w) => (Done ([], x, st), w)
      | (Panicked, w) => (Panicked, w)
      | (Undefined, w) => (Undefined, w)
      | (Stuck, w) => (Stuck, w)
      end
  end.
