(** State which closures keep over the calls of a stream (C79).  Mentions parsers as functions of a world and an input, streams and
    their answers only. *)
From Coq Require Import List Bool Arith.
From Verif Require Import Base Parsers Combinators Buffer Stream SpecBase SpecSafe SpecStream Effects SpecEffects.
Import ListNotations.

Set Implicit Arguments.

(** * Conditions on a parser *)

(** As [upholds] of SpecSafe.v, and what has been done to the world stays as well: with a value, an error or a panic comes the same world. *)
Definition upholds_w {W I T E} (l : bool) (c : list I) (x1 x2 : pres I T E * W) : Prop :=
  match x1 with
  | (Data j v, w) => x2 = (Data (mkInput l (buf j ++ c)) v, w)
  | (Error b e, w) => x2 = (Error (b ++ c) e, w)
  | (Incomplete n, _) => l = false -> length c < n -> exists m, fst x2 = Incomplete m
  | (Panic, w) => x2 = (Panic, w)
  | (NoFuel, _) => True
  end.

Definition firm_at {W I T E} (w : W) (p : sparser W I T E) : Prop :=
  forall b l c, upholds_w l c (p w (mkInput false b)) (p w (mkInput l (b ++ c))).
Definition firm {W I T E} (p : sparser W I T E) : Prop := forall w, firm_at w p.

(** A request for more input leaves the world alone. *)
Definition tentative_at {W I T E} (w : W) (p : sparser W I T E) : Prop := forall i n, fst (p w i) = Incomplete n -> snd (p w i) = w.
Definition tentative {W I T E} (p : sparser W I T E) : Prop := forall w, tentative_at w p.

(** User code which makes it so: works on a copy of the world, which is kept unless more input is requested. *)
Definition on_a_copy {W I T E} (p : sparser W I T E) : sparser W I T E := fun w i =>
  match p w i with
  | (Incomplete n, _) => (Incomplete n, w)
  | x => x
  end.

(** Where the end parser of [many_till] is undecided, it still is when asked again (as happens at the end of a range), and the item parser, called
    afterwards, is as well and asks for no more. *)
Definition decisive_w {W I U V E N} (p : sparser W I U E) (end_ : sparser W I V N) : Prop := forall w b n w1,
  end_ w (mkInput false b) = (Incomplete n, w1) ->
  (exists n', fst (end_ w1 (mkInput false b)) = Incomplete n') /\ exists m, fst (p w1 (mkInput false b)) = Incomplete m /\ m <= n.

(** * Expressions over the library *)

(** The stream-safe expressions, as [safe] of SpecSafe.v, with arbitrary callbacks that act on the world.  User code may also be a
    parser by itself if it is firm. *)
Inductive keeping {W I : Type} : forall T E, sparser W I T E -> Prop :=
| k_ext : forall T E (p q : sparser W I T E), keeping p -> (forall w i, p w i = q w i) -> keeping q
| k_user : forall T E (p : sparser W I T E), firm p -> (forall w, well_behaved (fun i => fst (p w i))) -> keeping p
| k_lifted : forall T E (p : parser I T E), safe p -> keeping (lifted p)
| k_map : forall T U E (f : callback W T U) (p : sparser W I T E), keeping p ->
    keeping (fun w i => let (r, w) := p w i in map_w f r w)
| k_map_err : forall T E V (f : callback W E V) (p : sparser W I T E), keeping p ->
    keeping (fun w i => let (r, w) := p w i in map_err_w f r w)
| k_inspect : forall T E (f : callback W T unit) (p : sparser W I T E), keeping p ->
    keeping (fun w i => let (r, w) := p w i in inspect_w f r w)
| k_bind : forall T U E V (conv : callback W E V) (p : sparser W I T E) (f : T -> sparser W I U V), keeping p ->
    (forall t, keeping (f t)) -> keeping (fun w i => let (r, w) := p w i in bind_w conv r f w)
| k_then : forall T U E V (conv : callback W E V) (p : sparser W I T E) (f : sparser W I U V), keeping p -> keeping f ->
    keeping (fun w i => let (r, w) := p w i in then_w conv r f w)
| k_satisfy : forall v f, keeping (satisfy_w v f)
| k_satisfy_with : forall T v icl tcl (f : callback W I T) g, keeping (satisfy_with_w v icl tcl f g)
| k_token : forall v eq t, keeping (token_w v eq t)
| k_not_token : forall v ne t, keeping (not_token_w v ne t)
| k_take_while : forall f, keeping (take_while_w f)
| k_take_while1 : forall v f, keeping (take_while1_w v f)
| k_take_till : forall icl f, keeping (take_till_w icl f)
| k_scan : forall S (s : S) f, keeping (scan_w s f)
| k_run_scanner : forall S (s : S) f, keeping (run_scanner_w s f)
| k_string : forall v ne s, keeping (string_w v ne s)
| k_option : forall T E (p : sparser W I T E) d, keeping p -> keeping (option_w p d)
| k_or : forall T E (p q : sparser W I T E), keeping p -> keeping q -> keeping (or_w p q)
| k_matched_by : forall T E (p : sparser W I T E), keeping p -> keeping (matched_by_w p)
| k_look_ahead : forall T E (p : sparser W I T E), keeping p -> keeping (look_ahead_w p)
| k_bmany : forall U T E C fuel (col : collector U T C) r (p : sparser W I U E), exhausts col -> keeping p -> keeping (bmany_w fuel col p r)
| k_bskip_many : forall U E fuel r (p : sparser W I U E), keeping p -> keeping (bskip_many_w p fuel r)
| k_bmany_till : forall U V T E N C fuel (col : collector U T C) r (p : sparser W I U E) (end_ : sparser W I V N), exhausts col ->
    decisive_w p end_ -> keeping p -> keeping end_ -> keeping (bmany_till_w fuel col p end_ r)
| k_sep_by : forall U V T E N C fuel (col : collector U T C) conv (p : sparser W I U E) (sep : sparser W I V N), exhausts col ->
    keeping p -> keeping sep -> keeping (sep_by_w fuel col conv p sep)
| k_sep_by1 : forall U V T E N C fuel (col : collector U T C) conv (p : sparser W I U E) (sep : sparser W I V N), exhausts col ->
    keeping p -> keeping sep -> keeping (sep_by1_w fuel col conv p sep).
Arguments keeping {W I T E} p.

(** * Programs with a world *)

(** As [script] of SpecStream.v; the parsers act on the world, and between the calls the program may look at it and change it. *)
Inductive work (W I T E : Type) : Type :=
| Finish
| Change (f : W -> W) (c : work W I T E)
| Parse (p : sparser W I T E) (k : sres I T E -> W -> work W I T E).
Arguments Finish {W I T E}.
Arguments Change {W I T E} f c.
Arguments Parse {W I T E} p k.

(** What follows a call: the answer is noted, the program goes on with the world as it is. *)
Definition proceed {W X A} (call : run (X * A) * W) (k : X -> A -> W -> run (list A * W)) : run (list A * W) :=
  match call with
  | (Done (x, a), w) => match k x a w with Done (l, w) => Done (a :: l, w) | r => r end
  | (Panicked, _) => Panicked
  | (Undefined, _) => Undefined
  | (Stuck, _) => Stuck
  end.

(** An answer without its slice. *)
Definition bare {W X I T E} (call : run (X * sres I T E) * W) : run (X * sres I T E) * W :=
  match call with
  | (Done (x, a), w) => (Done (x, forget a), w)
  | c => c
  end.

(** On a SliceStream, on a Source (repeating a call that answers [Retry] or [IoError]): the answers and the world at the end. *)
Fixpoint slice_work {W I T E} (c : work W I T E) (s : slice_stream I) (w : W) : run (list (sres I T E) * W) :=
  match c with
  | Finish => Done ([], w)
  | Change f c => slice_work c s (f w)
  | Parse p k => proceed (bare (slice_parse_w p s w)) (fun s r w => slice_work (k r w) s w)
  end.
Fixpoint source_work {W St I B T E} (ds : data_source St I) (ops : buffer_ops I B) (fuel : nat) (c : work W I T E) (st : src St B) (w : W)
  : run (list (sres I T E) * W) :=
  match c with
  | Finish => Done ([], w)
  | Change f c => source_work ds ops fuel c st (f w)
  | Parse p k => proceed (bare (insist_w ds ops fuel p st w)) (fun st r w => source_work ds ops fuel (k r w) st w)
  end.

(** As [suits] of SpecStream.v, in the world [w]. *)
Record suits_w {W I T E} (fits : nat -> Prop) (rest : list I) (w : W) (p : sparser W I T E) : Prop := mkSuitsW {
  sw_firm : firm_at w p;
  sw_tentative : tentative_at w p;
  sw_well_behaved : well_behaved (fun i => fst (p w i));
  sw_decides : forall i, fst (p w i) <> NoFuel;
  sw_needs_input : rest = [] -> exists n, fst (p w (mkInput false [])) = Incomplete n;
  sw_fits : forall b c n, rest = b ++ c -> fst (p w (mkInput false b)) = Incomplete n -> fits (Nat.min (length b + n) (length rest)) }.

Inductive work_suits {W I T E} (fits : nat -> Prop) : slice_stream I -> W -> work W I T E -> Prop :=
| ws_finish : forall s w, work_suits fits s w Finish
| ws_change : forall s w f c, work_suits fits s (f w) c -> work_suits fits s w (Change f c)
| ws_parse : forall s w p k, suits_w fits (skipn (ss_pos s) (ss_slice s)) w p ->
    (forall s' r w', slice_parse_w p s w = (Done (s', r), w') -> work_suits fits s' w' (k (forget r) w')) ->
    work_suits fits s w (Parse p k).
