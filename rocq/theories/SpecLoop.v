(** A loop over a stream: parse until something goes wrong (C66). *)
From Coq Require Import List Bool Arith.
From Verif Require Import Base Parsers Combinators Buffer Stream SpecBase SpecSafe SpecStream SpecIter SpecLaws.
Import ListNotations.

Set Implicit Arguments.

(** [loop { match stream.parse(p) { Ok(t) => ts.push(t), Err(e) => break } }], giving up after [n] calls. *)
Fixpoint until_failure {I T E} (p : parser I T E) (n : nat) : script I T E :=
  match n with
  | 0 => SpecStream.Stop
  | S n => Next p (fun r => match r with inl _ => until_failure p n | inr _ => SpecStream.Stop end)
  end.

(** [p] does not succeed on [i], and does not panic or loop either. *)
Definition fails_on {I T E} (p : parser I T E) (i : input I) : Prop := (exists b e, p i = Error b e) \/ (exists n, p i = Incomplete n).

(** How the loop ends when [rest] is what remains and [p] fails there: the end of the input, or [p]'s own failure. *)
Definition ending {I T E} (p : parser I T E) (rest : list I) (e : stream_error I E) : Prop :=
  match rest with
  | [] => e = SEndOfInput
  | _ => (exists b x, p (mkInput true rest) = Error b x /\ e = SParseError [] x) \/
         (exists n, p (mkInput true rest) = Incomplete n /\ e = SIncomplete (n + length rest))
  end.

(** [many(i, p)] (src/combinators/mod.rs:128-134) into a [Vec], then [eof], with the errors of [eof] converted by [conv]. *)
Definition all_of {I T E} (v : bool) (conv : error I -> E) (p : parser I T E) (fuel : nat) : parser I (list T) E := fun i =>
  bind (fun e => e) (many fuel (vec_collector T) tt (pure p) i) (fun j ts => map (fun _ => ts) (map_err conv (eof v j))).
