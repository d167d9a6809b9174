(** Formats that can be read from a stream (C84). *)
From Coq Require Import List Bool Arith.
From Verif Require Import Base Parsers Combinators SpecBase SpecSafe SpecFormat Format.
Import ListNotations.

Set Implicit Arguments.

Section Streams.
  Context {I : Type}.
  Variable verbose : bool.
  Variable eqb : I -> I -> bool.
  Variable extra : nat.

  (** The parsers of one's own do not revise their answers and answer nothing without items; the end of a repetition is seen as soon as the item is. *)
  Fixpoint streams {T} (f : fmt I T) : Prop :=
    match f with
    | FLit _ | FItem _ | FSpan _ | FSpan1 _ | FTake _ => True
    | FOwn _ N _ _ p => stable p /\ hungry N p
    | FMap _ f => streams f
    | FSeq a b => streams a /\ streams b
    | FBind a b => streams a /\ forall v, streams (b v)
    | FAlt a b => streams a /\ streams b
    | FOption a | FMany _ a | FSkip _ a => streams a
    | FSepBy a s | FSepBy1 a s => streams a /\ streams s
    | FTill a e => streams a /\ streams e /\ decisive (pure (reader verbose eqb extra a)) (reader verbose eqb extra e)
    | FSlice a => streams a
    end.
End Streams.
