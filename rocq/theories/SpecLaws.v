(** Different ways to write a parser (C62). *)
From Coq Require Import List Bool Arith.
From Verif Require Import Base Parsers Combinators SpecBase SpecIter.
Import ListNotations.

Set Implicit Arguments.

(** A parser that loops, modelled with a loop budget: with every budget that is large enough it gives [res]. *)
Definition settles {I T E} (g : nat -> pres I T E) (res : pres I T E) : Prop :=
  res <> NoFuel /\ exists f0, forall fuel, f0 <= fuel -> g fuel = res.

(** Two ways to write the same: whatever comes of one comes of the other (so either both loop for ever or neither does). *)
Definition alike {I T E} (g h : nat -> pres I T E) : Prop := forall res, settles g res <-> settles h res.

(** The range [r], after [a] further applications. *)
Definition shifted (a : nat) (r : range) : range :=
  match r with
  | RRange x y => RRange (a + x) (a + y)
  | RFrom x => RFrom (a + x)
  | RFull => RFrom a
  | RTo y => RRange a (a + y)
  | RExact n => RExact (a + n)
  end.

(** A parser that leaves no more than it was given, and if it succeeds or fails stays in the same mode: all parsers made from the
    library do (C09). *)
Definition leaves_suffix {I T E} (p : parser I T E) : Prop :=
  forall i j t, p i = Data j t -> last j = last i /\ suffix (buf j) (buf i).
