(** Several calls of [parse] in a row, and the same parsers put together into one (C67). *)
From Coq Require Import List Bool Arith.
From Verif Require Import Base Parsers Buffer Stream SpecBase SpecSafe SpecStream SpecLoop.
Import ListNotations.

Set Implicit Arguments.

(** [let t = stream.parse(p)?; ...]: parsers in a row, each chosen depending on the values before it. *)
Inductive chain (I T E : Type) : Type :=
| Finish
| Call (p : parser I T E) (k : T -> chain I T E).
Arguments Finish {I T E}.
Arguments Call {I T E} p k.

(** All its parsers, whatever the values. *)
Fixpoint each {I T E} (P : parser I T E -> Prop) (c : chain I T E) : Prop :=
  match c with
  | Finish => True
  | Call p k => P p /\ forall t, each P (k t)
  end.

(** One parser doing all: [p(i).bind(|i, t| ...)]; the values. *)
Fixpoint in_one {I T E} (c : chain I T E) : parser I (list T) E := fun i =>
  match c with
  | Finish => ret [] i
  | Call p k => bind (fun e => e) (p i) (fun j t => map (cons t) (in_one (k t) j))
  end.

(** One call for each, on a SliceStream: the values, and the error which ends it. *)
Fixpoint talk {I T E} (c : chain I T E) (s : slice_stream I) : run (slice_stream I * list T * option (stream_error I E)) :=
  match c with
  | Finish => Done (s, [], None)
  | Call p k =>
      let! (s, r) := slice_parse p s in
      match r with
      | inl t => let! (s, ts, e) := talk (k t) s in Done (s, t :: ts, e)
      | inr e => Done (s, [], Some e)
      end
  end.

(** The parser whose turn it is after these values. *)
Fixpoint turn {I T E} (c : chain I T E) (ts : list T) : option (parser I T E) :=
  match c, ts with
  | Finish, _ => None
  | Call p _, [] => Some p
  | Call _ k, t :: ts => turn (k t) ts
  end.

(** The same as programs, going on with [after] when all is done or something failed. *)
Fixpoint one_by_one {I T E} (c : chain I T E) (after : script I (list T) E) : script I (list T) E :=
  match c with
  | Finish => after
  | Call p k => Next (fun i => map (fun t => [t]) (p i)) (fun r => match r with inl [t] => one_by_one (k t) after | _ => after end)
  end.
Definition at_once {I T E} (c : chain I T E) (after : script I (list T) E) : script I (list T) E := Next (in_one c) (fun _ => after).
