(** What "built from the library" means, and what is claimed of such parsers (C09, C25, C26). *)
From Coq Require Import List Bool Arith.
From Verif Require Import Base Parsers Combinators SpecBase.
Import ListNotations.

Set Implicit Arguments.

(** * The claims *)

(** A result that leaves a suffix of the input and its mode alone, or blames a suffix of the input, or asks for something. *)
Definition honest {I T E} (i : input I) (r : pres I T E) : Prop :=
  match r with
  | Data j _ => last j = last i /\ suffix (buf j) (buf i)
  | Error b _ => suffix b (buf i)
  | Incomplete n => 1 <= n
  | Panic => True
  | NoFuel => True
  end.

Definition well_behaved {I T E} (p : parser I T E) : Prop := forall i, honest i (p i).

(** The result [r2] on an input extended by [c] (and with mode [l]) upholds the result [r1] on a not-last slice:
    values, errors and panics stay; a request for [n] items was not excessive. *)
Definition upholds {I T E} (l : bool) (c : list I) (r1 r2 : pres I T E) : Prop :=
  match r1 with
  | Data j v => r2 = Data (mkInput l (buf j ++ c)) v
  | Error b e => r2 = Error (b ++ c) e
  | Incomplete n => l = false -> length c < n -> exists m, r2 = Incomplete m
  | Panic => r2 = Panic
  | NoFuel => True
  end.

Definition stable {I T E} (p : parser I T E) : Prop :=
  forall b l c, upholds l c (p (mkInput false b)) (p (mkInput l (b ++ c))).

(** * Conditions on user code *)

(** A closure whose captured state after a value or an error depends only on the verdict's cause, not on what lies behind. *)
Definition carries {S I T E} (p : sparser S I T E) : Prop :=
  forall s b l c,
    (exists j v, fst (p s (mkInput false b)) = Data j v) \/ (exists r e, fst (p s (mkInput false b)) = Error r e) ->
    snd (p s (mkInput l (b ++ c))) = snd (p s (mkInput false b)).

(** The collection asks for no further items. *)
Inductive quiet {U T C : Type} (act : C -> caction U T C) : C -> Prop :=
| quiet_finish : forall c t, act c = CFinish t -> quiet act c
| quiet_hint : forall c k, act c = CHint k -> (forall h, quiet act (k h)) -> quiet act c.

(** The collection takes all items: it finishes only after [next()] gave [None], and then calls it no more. *)
Definition exhausts {U T C : Type} (col : collector U T C) : Prop :=
  exists P : C -> Prop, P (cinit col) /\
    forall c, P c ->
      match cact col c with
      | CFinish _ => False
      | CNext k => (forall u, P (k (Some u))) /\ quiet (cact col) (k None)
      | CHint k => forall h, P (k h)
      | CPanic => True
      end.

(** Where the end parser of [many_till] is undecided, the item parser is as well, and asks for no more. *)
Definition decisive {S I U V E N : Type} (p : sparser S I U E) (end_ : parser I V N) : Prop :=
  forall s b n, end_ (mkInput false b) = Incomplete n ->
    exists m, fst (p s (mkInput false b)) = Incomplete m /\ m <= n.

(** * Parsers built from the library *)

(** Every expression over the functions of src/input.rs, src/parse_result.rs, src/parsers.rs and src/combinators; user functions
    are arbitrary; continuations and closures are, at each value and captured state, such expressions again. [ext]: equality of
    parsers is pointwise.  The only excluded use is asking for zero items. *)
Inductive built {I : Type} : forall T E, parser I T E -> Prop :=
| b_ext : forall T E (p q : parser I T E), built p -> (forall i, p i = q i) -> built q
| b_panic : forall T E, @built I T E (fun _ => Panic)
| b_ret : forall T E (t : T), @built I T E (ret t)
| b_err : forall T E (e : E), @built I T E (err e)
| b_incomplete : forall T E n, 1 <= n -> @built I T E (incomplete n)
| b_from_result : forall T E (r : T + E), built (from_result r)
| b_map : forall T U E (f : T -> U) (p : parser I T E), built p -> built (fun i => map f (p i))
| b_map_err : forall T E V (f : E -> V) (p : parser I T E), built p -> built (fun i => map_err f (p i))
| b_inspect : forall T E W (f : T -> W -> W) (w : W) (p : parser I T E), built p -> built (fun i => fst (inspect f (p i) w))
| b_bind : forall T U E V (conv : E -> V) (p : parser I T E) (f : input I -> T -> pres I U V),
    built p -> (forall t, built (fun i => f i t)) -> built (fun i => bind conv (p i) f)
| b_then : forall T U E V (conv : E -> V) (p : parser I T E) (f : parser I U V),
    built p -> built f -> built (fun i => then_ conv (p i) f)
| b_any : built any
| b_satisfy : forall v f, built (satisfy v f)
| b_satisfy_with : forall T v (f : I -> T) g, built (satisfy_with v f g)
| b_token : forall v eqb t, built (token v eqb t)
| b_not_token : forall v eqb t, built (not_token v eqb t)
| b_peek : built peek
| b_peek_next : built peek_next
| b_take : forall n, built (take n)
| b_take_while : forall f, built (take_while f)
| b_take_while1 : forall v f, built (take_while1 v f)
| b_take_till : forall f, built (take_till f)
| b_scan : forall S (s : S) f, built (scan s f)
| b_run_scanner : forall S (s : S) f, built (run_scanner s f)
| b_take_remainder : built take_remainder
| b_string : forall v eqb s, built (string v eqb s)
| b_eof : forall v, built (eof v)
| b_bmany : forall S U T E C fuel (col : collector U T C) r s0 (p : sparser S I U E),
    (forall s, built (fun i => fst (p s i))) -> built (bmany fuel col r s0 p)
| b_bskip_many : forall S U E fuel r s0 (p : sparser S I U E),
    (forall s, built (fun i => fst (p s i))) -> built (bskip_many fuel r s0 p)
| b_bmany_till : forall S SE U V T E N C fuel (col : collector U T C) r s0 e0 (p : sparser S I U E) (end_ : sparser SE I V N),
    (forall s, built (fun i => fst (p s i))) -> (forall s, built (fun i => fst (end_ s i))) ->
    built (bmany_till fuel col r s0 e0 p end_)
| b_sep_by : forall SP SS U V T E N C fuel (col : collector U T C) (conv : N -> E) sp0 ss0 (p : sparser SP I U E) (sep : sparser SS I V N),
    (forall s, built (fun i => fst (p s i))) -> (forall s, built (fun i => fst (sep s i))) ->
    built (sep_by fuel col conv sp0 ss0 p sep)
| b_sep_by1 : forall SP SS U V T E N C fuel (col : collector U T C) (conv : N -> E) sp0 ss0 (p : sparser SP I U E) (sep : sparser SS I V N),
    (forall s, built (fun i => fst (p s i))) -> (forall s, built (fun i => fst (sep s i))) ->
    built (sep_by1 fuel col conv sp0 ss0 p sep)
| b_option : forall T E (p : parser I T E) d, built p -> built (option_ p d)
| b_or : forall T E (p q : parser I T E), built p -> built q -> built (or_ p q)
| b_matched_by : forall T E (p : parser I T E), built p -> built (matched_by p)
| b_look_ahead : forall T E (p : parser I T E), built p -> built (look_ahead p).
Arguments built {I T E} p.

(** The stream-safe part: without [peek], [take_remainder] and [eof], whose verdict depends on where the slice ends; collections
    must take all items; [many_till] needs a decisive end. *)
Inductive safe {I : Type} : forall T E, parser I T E -> Prop :=
| s_ext : forall T E (p q : parser I T E), safe p -> (forall i, p i = q i) -> safe q
| s_panic : forall T E, @safe I T E (fun _ => Panic)
| s_ret : forall T E (t : T), @safe I T E (ret t)
| s_err : forall T E (e : E), @safe I T E (err e)
| s_incomplete : forall T E n, 1 <= n -> @safe I T E (incomplete n)
| s_from_result : forall T E (r : T + E), safe (from_result r)
| s_map : forall T U E (f : T -> U) (p : parser I T E), safe p -> safe (fun i => map f (p i))
| s_map_err : forall T E V (f : E -> V) (p : parser I T E), safe p -> safe (fun i => map_err f (p i))
| s_inspect : forall T E W (f : T -> W -> W) (w : W) (p : parser I T E), safe p -> safe (fun i => fst (inspect f (p i) w))
| s_bind : forall T U E V (conv : E -> V) (p : parser I T E) (f : input I -> T -> pres I U V),
    safe p -> (forall t, safe (fun i => f i t)) -> safe (fun i => bind conv (p i) f)
| s_then : forall T U E V (conv : E -> V) (p : parser I T E) (f : parser I U V),
    safe p -> safe f -> safe (fun i => then_ conv (p i) f)
| s_any : safe any
| s_satisfy : forall v f, safe (satisfy v f)
| s_satisfy_with : forall T v (f : I -> T) g, safe (satisfy_with v f g)
| s_token : forall v eqb t, safe (token v eqb t)
| s_not_token : forall v eqb t, safe (not_token v eqb t)
| s_peek_next : safe peek_next
| s_take : forall n, safe (take n)
| s_take_while : forall f, safe (take_while f)
| s_take_while1 : forall v f, safe (take_while1 v f)
| s_take_till : forall f, safe (take_till f)
| s_scan : forall S (s : S) f, safe (scan s f)
| s_run_scanner : forall S (s : S) f, safe (run_scanner s f)
| s_string : forall v eqb s, safe (string v eqb s)
| s_bmany : forall S U T E C fuel (col : collector U T C) r s0 (p : sparser S I U E),
    exhausts col -> carries p -> (forall s, safe (fun i => fst (p s i))) -> safe (bmany fuel col r s0 p)
| s_bskip_many : forall S U E fuel r s0 (p : sparser S I U E),
    carries p -> (forall s, safe (fun i => fst (p s i))) -> safe (bskip_many fuel r s0 p)
| s_bmany_till : forall S U V T E N C fuel (col : collector U T C) r s0 (p : sparser S I U E) (end_ : parser I V N),
    exhausts col -> carries p -> decisive p end_ ->
    (forall s, safe (fun i => fst (p s i))) -> safe end_ ->
    safe (bmany_till fuel col r s0 tt p (pure end_))
| s_sep_by : forall SP SS U V T E N C fuel (col : collector U T C) (conv : N -> E) sp0 ss0 (p : sparser SP I U E) (sep : sparser SS I V N),
    exhausts col -> carries p -> carries sep ->
    (forall s, safe (fun i => fst (p s i))) -> (forall s, safe (fun i => fst (sep s i))) ->
    safe (sep_by fuel col conv sp0 ss0 p sep)
| s_sep_by1 : forall SP SS U V T E N C fuel (col : collector U T C) (conv : N -> E) sp0 ss0 (p : sparser SP I U E) (sep : sparser SS I V N),
    exhausts col -> carries p -> carries sep ->
    (forall s, safe (fun i => fst (p s i))) -> (forall s, safe (fun i => fst (sep s i))) ->
    safe (sep_by1 fuel col conv sp0 ss0 p sep)
| s_option : forall T E (p : parser I T E) d, safe p -> safe (option_ p d)
| s_or : forall T E (p q : parser I T E), safe p -> safe q -> safe (or_ p q)
| s_matched_by : forall T E (p : parser I T E), safe p -> safe (matched_by p)
| s_look_ahead : forall T E (p : parser I T E), safe p -> safe (look_ahead p).
Arguments safe {I T E} p.
