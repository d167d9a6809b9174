(** What a program has in common when the crate is compiled with and without the feature verbose_error (C46). *)
From Coq Require Import List Bool Arith.
From Verif Require Import Base Parsers Combinators Buffer Stream SpecBase SpecSafe SpecStream.
Import ListNotations.

Set Implicit Arguments.

(** * The claims *)

(** The same outcome, apart from the error value; of the slices [b], [c] of two errors [at_ b c] holds. *)
Definition agree {I T E} (at_ : list I -> list I -> Prop) (r1 r2 : pres I T E) : Prop :=
  match r1, r2 with
  | Data i t, Data j u => i = j /\ t = u
  | Error b _, Error c _ => at_ b c
  | Incomplete n, Incomplete m => n = m
  | Panic, Panic => True
  | NoFuel, NoFuel => True
  | _, _ => False
  end.

(** Where the errors stand: with [string] in the program the plain build may stand further on. *)
Definition place {I} (strings : bool) (verbose plain : list I) : Prop :=
  if strings then suffix plain verbose else verbose = plain.

(** The answers of a stream, apart from the error value. *)
Definition same_answer {I T E} (r1 r2 : sres I T E) : Prop :=
  match r1, r2 with
  | inr (SParseError b _), inr (SParseError c _) => b = c
  | inl t, inl u => t = u
  | inr (SIncomplete n), inr (SIncomplete m) => n = m
  | inr (SIoError n), inr (SIoError m) => n = m
  | inr SEndOfInput, inr SEndOfInput => True
  | inr SRetry, inr SRetry => True
  | _, _ => False
  end.

Definition parse_error_result {I T E} (r : sres I T E) (b : list I) : Prop := exists e, r = inr (SParseError b e).

(** * Programs *)

(** A program text, compiled with the feature ([true]) and without: every expression over the functions of src/input.rs,
    src/parse_result.rs, src/parsers.rs and src/combinators.  Errors supplied by the user, and what [map_err] and [From] do
    with errors, may differ between the two; values, predicates and continuations may not.  Captured state of a closure may not depend
    on errors.  [strings]: whether [string] is used. *)
Inductive text {I : Type} (strings : bool) : forall T E, (bool -> parser I T E) -> Prop :=
| x_ext : forall T E (p q : bool -> parser I T E), text strings p -> (forall v i, p v i = q v i) -> text strings q
| x_panic : forall T E, @text I strings T E (fun _ _ => Panic)
| x_ret : forall T E (t : T), @text I strings T E (fun _ => ret t)
| x_err : forall T E (e : bool -> E), @text I strings T E (fun v => err (e v))
| x_incomplete : forall T E n, @text I strings T E (fun _ => incomplete n)
| x_from_result : forall T E (r : T + E), text strings (fun _ => from_result r)
| x_map : forall T U E (f : T -> U) (p : bool -> parser I T E), text strings p -> text strings (fun v i => map f (p v i))
| x_map_err : forall T E V (f : bool -> E -> V) (p : bool -> parser I T E), text strings p -> text strings (fun v i => map_err (f v) (p v i))
| x_inspect : forall T E W (f : T -> W -> W) (w : W) (p : bool -> parser I T E),
    text strings p -> text strings (fun v i => fst (inspect f (p v i) w))
| x_bind : forall T U E V (conv : bool -> E -> V) (p : bool -> parser I T E) (f : bool -> input I -> T -> pres I U V),
    text strings p -> (forall t, text strings (fun v i => f v i t)) -> text strings (fun v i => bind (conv v) (p v i) (f v))
| x_then : forall T U E V (conv : bool -> E -> V) (p : bool -> parser I T E) (f : bool -> parser I U V),
    text strings p -> text strings f -> text strings (fun v i => then_ (conv v) (p v i) (f v))
| x_any : text strings (fun _ => any)
| x_satisfy : forall f, text strings (fun v => satisfy v f)
| x_satisfy_with : forall T (f : I -> T) g, text strings (fun v => satisfy_with v f g)
| x_token : forall eqb t, text strings (fun v => token v eqb t)
| x_not_token : forall eqb t, text strings (fun v => not_token v eqb t)
| x_peek : text strings (fun _ => peek)
| x_peek_next : text strings (fun _ => peek_next)
| x_take : forall n, text strings (fun _ => take n)
| x_take_while : forall f, text strings (fun _ => take_while f)
| x_take_while1 : forall f, text strings (fun v => take_while1 v f)
| x_take_till : forall f, text strings (fun _ => take_till f)
| x_scan : forall S (s : S) f, text strings (fun _ => scan s f)
| x_run_scanner : forall S (s : S) f, text strings (fun _ => run_scanner s f)
| x_take_remainder : text strings (fun _ => take_remainder)
| x_string : forall eqb s, strings = true -> text strings (fun v => string v eqb s)
| x_eof : text strings (fun v => eof v)
| x_bmany : forall S U T E C fuel (col : collector U T C) r s0 (p : bool -> sparser S I U E),
    (forall s, text strings (fun v i => fst (p v s i))) -> (forall s i, snd (p true s i) = snd (p false s i)) ->
    text strings (fun v => bmany fuel col r s0 (p v))
| x_bskip_many : forall S U E fuel r s0 (p : bool -> sparser S I U E),
    (forall s, text strings (fun v i => fst (p v s i))) -> (forall s i, snd (p true s i) = snd (p false s i)) ->
    text strings (fun v => bskip_many fuel r s0 (p v))
| x_bmany_till : forall S SE U V T E N C fuel (col : collector U T C) r s0 e0 (p : bool -> sparser S I U E) (end_ : bool -> sparser SE I V N),
    (forall s, text strings (fun v i => fst (p v s i))) -> (forall s i, snd (p true s i) = snd (p false s i)) ->
    (forall s, text strings (fun v i => fst (end_ v s i))) -> (forall s i, snd (end_ true s i) = snd (end_ false s i)) ->
    text strings (fun v => bmany_till fuel col r s0 e0 (p v) (end_ v))
| x_sep_by : forall SP SS U V T E N C fuel (col : collector U T C) (conv : bool -> N -> E) sp0 ss0
    (p : bool -> sparser SP I U E) (sep : bool -> sparser SS I V N),
    (forall s, text strings (fun v i => fst (p v s i))) -> (forall s i, snd (p true s i) = snd (p false s i)) ->
    (forall s, text strings (fun v i => fst (sep v s i))) -> (forall s i, snd (sep true s i) = snd (sep false s i)) ->
    text strings (fun v => sep_by fuel col (conv v) sp0 ss0 (p v) (sep v))
| x_sep_by1 : forall SP SS U V T E N C fuel (col : collector U T C) (conv : bool -> N -> E) sp0 ss0
    (p : bool -> sparser SP I U E) (sep : bool -> sparser SS I V N),
    (forall s, text strings (fun v i => fst (p v s i))) -> (forall s i, snd (p true s i) = snd (p false s i)) ->
    (forall s, text strings (fun v i => fst (sep v s i))) -> (forall s i, snd (sep true s i) = snd (sep false s i)) ->
    text strings (fun v => sep_by1 fuel col (conv v) sp0 ss0 (p v) (sep v))
| x_option : forall T E (p : bool -> parser I T E) d, text strings p -> text strings (fun v => option_ (p v) d)
| x_or : forall T E (p q : bool -> parser I T E), text strings p -> text strings q -> text strings (fun v => or_ (p v) (q v))
| x_matched_by : forall T E (p : bool -> parser I T E), text strings p -> text strings (fun v => matched_by (p v))
| x_look_ahead : forall T E (p : bool -> parser I T E), text strings p -> text strings (fun v => look_ahead (p v)).
Arguments text {I} strings {T E} p.

(** * Streams *)

(** The two builds did the same; or both report an error, standing at different places. *)
Definition same_call {I T E X} (strings : bool) (a b : X * sres I T E) : Prop :=
  (fst a = fst b /\ same_answer (snd a) (snd b)) \/
  (strings = true /\ exists u w, parse_error_result (snd a) u /\ parse_error_result (snd b) w /\ suffix w u).

(** Two builds of a program over a stream that does not use [string] and whose further course does not depend on error values. *)
Inductive script_text {I T E} : script I T E -> script I T E -> Prop :=
| st_stop : script_text Stop Stop
| st_next : forall (p : bool -> parser I T E) k1 k2, text false p ->
    (forall r1 r2, same_answer r1 r2 -> script_text (k1 r1) (k2 r2)) -> script_text (Next (p true) k1) (Next (p false) k2).

(** Two builds of a program that may use [string] in some of its steps, and then does not use the stream any more if such a step fails. *)
Definition no_parse_error {I T E} (r : sres I T E) : Prop := forall b e, r <> inr (SParseError b e).
Inductive script_stops {I T E} : script I T E -> script I T E -> Prop :=
| sp_stop : script_stops Stop Stop
| sp_next : forall strings (p : bool -> parser I T E) k1 k2, text strings p -> well_behaved (p true) ->
    (forall r1 r2, same_answer r1 r2 -> strings = false \/ no_parse_error r1 -> script_stops (k1 r1) (k2 r2)) ->
    (strings = true -> forall e1 e2, k1 (inr (SParseError [] e1)) = Stop /\ k2 (inr (SParseError [] e2)) = Stop) ->
    script_stops (Next (p true) k1) (Next (p false) k2).
