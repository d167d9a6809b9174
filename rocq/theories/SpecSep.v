(** Specification notions for separators, termination and numbers of applications. *)
From Coq Require Import List Bool Arith.
From Verif Require Import Base Combinators.
Import ListNotations.

Set Implicit Arguments.

(** "[sep] then [p]": the separator's value is dropped, its error converted. *)
Definition sep_then {SP SS I U V E N : Type} (conv : N -> E) (p : sparser SP I U E) (sep : sparser SS I V N)
  : sparser (SP * SS) I U E :=
  fun st i =>
    match sep (snd st) i with
    | (Data j _, ss) => (fst (p (fst st) j), (snd (p (fst st) j), ss))
    | (Error b e, ss) => (Error b (conv e), (fst st, ss))
    | (Incomplete n, ss) => (Incomplete n, (fst st, ss))
    | (Panic, ss) => (Panic, (fst st, ss))
    | (NoFuel, ss) => (NoFuel, (fst st, ss))
    end.

(** "First [p], then [rest] from where [p] stopped, the values put together". *)
Definition first_then {S I U E : Type} (p : sparser S I U E) (rest : S -> input I -> pres I (list U) E) (s : S) (i : input I)
  : pres I (list U) E :=
  match p s i with
  | (Data j u, s') =>
      match rest s' j with
      | Data k us => Data k (u :: us)
      | Error b e => Error b e
      | Incomplete n => Incomplete n
      | Panic => Panic
      | NoFuel => NoFuel
      end
  | (Error b e, _) => Error b e
  | (Incomplete n, _) => Incomplete n
  | (Panic, _) => Panic
  | (NoFuel, _) => NoFuel
  end.

(** Every successful application consumes. *)
Definition consuming {S I U E : Type} (p : sparser S I U E) : Prop :=
  forall s i j u s', p s i = (Data j u, s') -> length (buf j) < length (buf i).

(** No successful application leaves more than there was. *)
Definition shrinking {S I U E : Type} (p : sparser S I U E) : Prop :=
  forall s i j u s', p s i = (Data j u, s') -> length (buf j) <= length (buf i).

(** Successful applications keep the mode (END_OF_INPUT) of the input. *)
Definition keeps_mode {S I U E : Type} (p : sparser S I U E) : Prop :=
  forall s i j u s', p s i = (Data j u, s') -> last j = last i.

(** The parser itself always returns. *)
Definition returns {S I U E : Type} (p : sparser S I U E) : Prop := forall s i s', p s i <> (NoFuel, s').

(** [p] for the first [k] applications; from then on anything ([alt]). *)
Definition limited {S I U E : Type} (k : nat) (p : sparser S I U E) (alt : S -> input I -> pres I U E)
  : sparser (nat * S) I U E :=
  fun st i =>
    if fst st <? k then (fst (p (snd st) i), (Datatypes.S (fst st), snd (p (snd st) i)))
    else (alt (snd st) i, st).

(** [p] can be applied successfully for ever from [s], [i]: [P] is closed under successful application. *)
Definition endless {S I U E : Type} (p : sparser S I U E) (s : S) (i : input I) : Prop :=
  exists P : S -> input I -> Prop, P s i /\
    forall s i, P s i -> exists j u s', p s i = (Data j u, s') /\ P s' j.

(** As [endless], and [end_] never succeeds (nor panics) on the way. *)
Definition endless_till {S I U V E N : Type} (p : sparser S I U E) (end_ : parser I V N) (s : S) (i : input I) : Prop :=
  exists P : S -> input I -> Prop, P s i /\
    forall s i, P s i -> (exists j u s', p s i = (Data j u, s') /\ P s' j) /\
      ((exists b e, end_ i = Error b e) \/ (exists n, end_ i = Incomplete n)).
