(** Programs which use a Source both as a stream of parses and as a reader. *)
From Coq Require Import List Bool Arith.
From Verif Require Import Base Buffer Stream StdIo SpecBase SpecBuffer SpecSafe SpecStream.
Import ListNotations.

Set Implicit Arguments.

(** What a call answers. *)
Inductive reply (I T E : Type) : Type :=
| Parsed (r : sres I T E)
| Items (l : list I)
| Exactly (o : option (list I)).
Arguments Parsed {I T E} r.
Arguments Items {I T E} l.
Arguments Exactly {I T E} o.

Inductive request (I T E : Type) : Type :=
| Parse (p : parser I T E)
| Read (n : nat)
| Read_exact (n : nat)
| Read_until (stop : I -> bool)
| Read_to_end (sizes : nat -> nat).
Arguments Parse {I T E} p.
Arguments Read {I T E} n.
Arguments Read_exact {I T E} n.
Arguments Read_until {I T E} stop.
Arguments Read_to_end {I T E} sizes.

(** A program chooses each call depending on the answers so far. *)
Inductive program (I T E : Type) : Type :=
| Finish
| Call (q : request I T E) (k : reply I T E -> program I T E).
Arguments Finish {I T E}.
Arguments Call {I T E} q k.

(** * On a Source *)

Definition serve {St I B T E} (ds : data_source St I) (ops : buffer_ops I B) (fuel : nat) (q : request I T E) (st : src St B)
  : run (src St B * reply I T E) :=
  match q with
  | Parse p => let! (st, r) := insist ds ops fuel p st in Done (st, Parsed (forget r))
  | Read n => let! (st, l) := again_read ds ops fuel n st in Done (st, Items l)
  | Read_exact n => let! (st, o) := read_exact ds ops fuel [] n st in Done (st, Exactly o)
  | Read_until stop => let! (st, l) := read_until ds ops fuel stop [] st in Done (st, Items l)
  | Read_to_end sizes => let! (st, l) := read_to_end ds ops fuel sizes [] st in Done (st, Items l)
  end.

Fixpoint executed {St I B T E} (ds : data_source St I) (ops : buffer_ops I B) (fuel : nat) (c : program I T E) (st : src St B)
  : run (list (reply I T E)) :=
  match c with
  | Finish => Done []
  | Call q k =>
      let! (st, a) := serve ds ops fuel q st in
      let! l := executed ds ops fuel (k a) st in
      Done (a :: l)
  end.

(** * On the data *)

(** The front of the data through the first item with [stop], and what is behind. *)
Fixpoint cut {I} (stop : I -> bool) (l : list I) : list I * list I :=
  match l with
  | [] => ([], [])
  | x :: l => if stop x then ([x], l) else let '(a, b) := cut stop l in (x :: a, b)
  end.

(** What a call means where [rest] is the data that remains: the reply, and the data that remains then. *)
Definition meaning {I T E} (q : request I T E) (rest : list I) : run (reply I T E * list I) :=
  match q with
  | Parse p =>
      match rest with
      | [] => Done (Parsed (inr SEndOfInput), [])
      | _ =>
          match p (mkInput true rest) with
          | Data j v => Done (Parsed (inl v), buf j)
          | Error b e => Done (Parsed (inr (SParseError [] e)), b)
          | Incomplete n => Done (Parsed (inr (SIncomplete (n + length rest))), rest)
          | Panic => Panicked
          | NoFuel => Stuck
          end
      end
  | Read n => Done (Items (firstn n rest), skipn n rest)
  | Read_exact n => Done (Exactly (if n <=? length rest then Some (firstn n rest) else None), skipn n rest)
  | Read_until stop => let '(a, b) := cut stop rest in Done (Items a, b)
  | Read_to_end _ => Done (Items rest, [])
  end.

Fixpoint meant {I T E} (c : program I T E) (rest : list I) : run (list (reply I T E)) :=
  match c with
  | Finish => Done []
  | Call q k =>
      let! (a, rest) := meaning q rest in
      let! l := meant (k a) rest in
      Done (a :: l)
  end.

(** * Which programs *)

(** A call that may be made where [rest] remains: the parser suits, a single [read] is into a slice which the buffer can fill, and
    [read_until] is used only if [lines]. *)
Definition proper {I T E} (fits : nat -> Prop) (lines : Prop) (q : request I T E) (rest : list I) : Prop :=
  match q with
  | Parse p => suits fits rest p
  | Read n => fits (Nat.min n (length rest))
  | Read_exact _ => True
  | Read_until _ => lines
  | Read_to_end _ => True
  end.

Inductive proper_program {I T E} (fits : nat -> Prop) (lines : Prop) : program I T E -> list I -> Prop :=
| pp_finish : forall rest, proper_program fits lines Finish rest
| pp_call : forall q k rest, proper fits lines q rest ->
    (forall a rest', meaning q rest = Done (a, rest') -> proper_program fits lines (k a) rest') ->
    proper_program fits lines (Call q k) rest.
