(** The vocabulary of property C65. *)
From Coq Require Import List Bool Arith.
From Verif Require Import Base Parsers Combinators Buffer Stream Effects SpecBase SpecSafe Client.
Import ListNotations.

Set Implicit Arguments.

(** The parsers a client uses are built with the library, it never asks for zero items; the inputs it makes itself ([Input::new] and captured by the
    body of a [parse_only]) are among [O], and with [cap] false the bodies of its [parse_only] capture none of its inputs and results. *)
Fixpoint uses {I T E M} (O : input I -> Prop) (cap : Prop) (c : client I T E M) {struct c} : Prop :=
  match c with
  | DoGive _ => True
  | DoPanic => True
  | DoRet _ _ k => uses O cap k
  | DoErr _ _ k => uses O cap k
  | DoIncomplete _ n k => 1 <= n /\ uses O cap k
  | DoUse _ p k => built p /\ uses O cap k
  | DoBind _ body k => (forall t, uses O cap (body t)) /\ uses O cap k
  | DoMap _ _ k => uses O cap k
  | DoMapErr _ _ k => uses O cap k
  | DoOption _ body _ k => uses O cap body /\ uses O cap k
  | DoOr _ b1 b2 k => uses O cap b1 /\ uses O cap b2 /\ uses O cap k
  | DoMatched _ body _ k => uses O cap body /\ uses O cap k
  | DoAhead _ body k => uses O cap body /\ uses O cap k
  | DoMany _ _ _ _ body k => uses O cap body /\ uses O cap k
  | DoTill _ _ _ _ body end_ k => uses O cap body /\ uses O cap end_ /\ uses O cap k
  | DoSkip _ _ _ body _ k => uses O cap body /\ uses O cap k
  | DoSepBy _ _ _ _ body sep k => uses O cap body /\ uses O cap sep /\ uses O cap k
  | DoLook k => forall m, uses O cap (k m)
  | DoStore _ k => uses O cap k
  | DoDrop _ k => uses O cap k
  | DoOnly s captures body k => (captures = true -> cap /\ O (mkInput true s)) /\ uses O cap body /\ (forall x, uses O cap (k x))
  | DoFresh i k => O i /\ uses O cap k
  end.

(** A client which forges nothing: no [Input::new], no exchange of inputs between a parser and one nested in it. *)
Definition forges_nothing {I T E M} (c : client I T E M) : Prop := uses (fun _ => False) False c.

(** [r] comes from the input [i] or from one of [O]. *)
Definition stems {I T E} (O : input I -> Prop) (i : input I) (r : pres I T E) : Prop :=
  match r with
  | Data j _ => exists o, (o = i \/ O o) /\ last j = last o /\ suffix (buf j) (buf o)
  | Error b _ => exists o, (o = i \/ O o) /\ suffix b (buf o)
  | Incomplete n => 1 <= n
  | Panic => True
  | NoFuel => True
  end.

(** No calls of the iterating combinators, and the parsers it uses return. *)
Fixpoint loopless {I T E M} (c : client I T E M) {struct c} : Prop :=
  match c with
  | DoGive _ => True
  | DoPanic => True
  | DoRet _ _ k => loopless k
  | DoErr _ _ k => loopless k
  | DoIncomplete _ _ k => loopless k
  | DoUse _ p k => (forall i, p i <> NoFuel) /\ loopless k
  | DoBind _ body k => (forall t, loopless (body t)) /\ loopless k
  | DoMap _ _ k => loopless k
  | DoMapErr _ _ k => loopless k
  | DoOption _ body _ k => loopless body /\ loopless k
  | DoOr _ b1 b2 k => loopless b1 /\ loopless b2 /\ loopless k
  | DoMatched _ body _ k => loopless body /\ loopless k
  | DoAhead _ body k => loopless body /\ loopless k
  | DoMany _ _ _ _ _ _ => False
  | DoTill _ _ _ _ _ _ _ => False
  | DoSkip _ _ _ _ _ _ => False
  | DoSepBy _ _ _ _ _ _ _ => False
  | DoLook k => forall m, loopless (k m)
  | DoStore _ k => loopless k
  | DoDrop _ k => loopless k
  | DoOnly _ _ body k => loopless body /\ (forall x, loopless (k x))
  | DoFresh _ k => loopless k
  end.
