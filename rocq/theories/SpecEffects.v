(** What the library does with callbacks that act on an outside world (C53).  Mentions callbacks, parsers as functions and results only. *)
From Coq Require Import List Bool Arith.
From Verif Require Import Base Parsers Combinators Buffer Stream SpecIter SpecSafe Effects.
Import ListNotations.

Set Implicit Arguments.

(** [called f w cs bs w']: calling [f] on each of [cs], in this order and once each, is answered by [bs]. *)
Inductive called {W A B} (f : callback W A B) : W -> list A -> list B -> W -> Prop :=
| called_nil : forall w, called f w [] [] w
| called_cons : forall w c cs b bs w1 w2, f c w = (Some b, w1) -> called f w1 cs bs w2 -> called f w (c :: cs) (b :: bs) w2.

(** The same with all answers equal to [b]. *)
Definition all_called {W A B} (f : callback W A B) (b : B) (w : W) (cs : list A) (w' : W) : Prop := called f w cs (repeat b (length cs)) w'.

(** A scanner run over [cs]: each call gets the state which the one before it returned. *)
Inductive scanned {W A S} (f : callback W (S * A) (option S)) : S -> W -> list A -> S -> W -> Prop :=
| scanned_nil : forall s w, scanned f s w [] s w
| scanned_cons : forall s w c cs s1 w1 s2 w2, f (s, c) w = (Some (Some s1), w1) -> scanned f s1 w1 cs s2 w2 -> scanned f s w (c :: cs) s2 w2.

(** How far a search through [b] gets while the answer is [go]: to the end, up to the item which gets the other answer, or up to the
    one at which [f] panics. *)
Inductive verdict (A : Type) : Type :=
| Through
| UpTo (cs : list A) (c : A) (rest : list A)
| Dead.
Arguments Through {A}.
Arguments UpTo {A} cs c rest.
Arguments Dead {A}.

Inductive search {W A} (f : callback W A bool) (go : bool) (w : W) (b : list A) : verdict A -> W -> Prop :=
| search_through : forall w', all_called f go w b w' -> search f go w b Through w'
| search_up_to : forall cs c rest w1 w', b = cs ++ c :: rest -> all_called f go w cs w1 -> f c w1 = (Some (negb go), w') ->
    search f go w b (UpTo cs c rest) w'
| search_dead : forall cs c rest w1 w', b = cs ++ c :: rest -> all_called f go w cs w1 -> f c w1 = (None, w') -> search f go w b Dead w'.

(** The same for a scanner; the state is the last one returned. *)
Inductive scan_search {W A S} (f : callback W (S * A) (option S)) (s : S) (w : W) (b : list A) : verdict A -> S -> W -> Prop :=
| scan_through : forall s' w', scanned f s w b s' w' -> scan_search f s w b Through s' w'
| scan_up_to : forall cs c rest s' w1 w', b = cs ++ c :: rest -> scanned f s w cs s' w1 -> f (s', c) w1 = (Some None, w') ->
    scan_search f s w b (UpTo cs c rest) s' w'
| scan_dead : forall cs c rest s' w1 w', b = cs ++ c :: rest -> scanned f s w cs s' w1 -> f (s', c) w1 = (None, w') ->
    scan_search f s w b Dead s' w'.

(** The answers do not depend on the world and there is one: [g]. *)
Definition answers {W A B} (f : callback W A B) (g : A -> B) : Prop := forall a w, fst (f a w) = Some (g a).

(** The same for a parser; panics are answers here. *)
Definition parses_as {W I T E} (p : sparser W I T E) (q : parser I T E) : Prop := forall w i, fst (p w i) = q i.

(** The callback (parser) changes the world only as [R] says. *)
Definition acts {W A B} (R : W -> W -> Prop) (f : callback W A B) : Prop := forall a w, R w (snd (f a w)).
Definition moves {W I T E} (R : W -> W -> Prop) (p : sparser W I T E) : Prop := forall w i, R w (snd (p w i)).
Definition preorder {W} (R : W -> W -> Prop) : Prop := (forall w, R w w) /\ (forall u v w, R u v -> R v w -> R u w).

(** Repetition, step by step, where [p k] parses the item after the first [k].  [many_goes r p k w i res w']: [k] items have been parsed;
    [res] holds the items still to come; [w'] is the world at the end. *)
Inductive many_goes {W I U E} (r : range) (p : nat -> sparser W I U E) : nat -> W -> input I -> pres I (list U) E -> W -> Prop :=
| mg_max : forall k w i, ~ may_grow r k -> in_range r k -> many_goes r p k w i (Data i []) w
| mg_item : forall k w i j u w1 res w2, may_grow r k -> p k w i = (Data j u, w1) -> many_goes r p (S k) w1 j res w2 ->
    many_goes r p k w i (map (cons u) res) w2
| mg_stop : forall k w i b e w1, may_grow r k -> p k w i = (Error b e, w1) -> in_range r k -> many_goes r p k w i (Data i []) w1
| mg_error : forall k w i b e w1, may_grow r k -> p k w i = (Error b e, w1) -> ~ in_range r k -> many_goes r p k w i (Error b e) w1
| mg_end : forall k w i n w1, may_grow r k -> p k w i = (Incomplete n, w1) -> in_range r k -> last i = true -> many_goes r p k w i (Data i []) w1
| mg_incomplete : forall k w i n w1, may_grow r k -> p k w i = (Incomplete n, w1) -> ~ in_range r k \/ last i = false ->
    many_goes r p k w i (Incomplete n) w1
| mg_panic : forall k w i w1, may_grow r k -> p k w i = (Panic, w1) -> many_goes r p k w i Panic w1.

(** [end_], run up to [m] times in a row at [i]: it succeeds at last, or never; or it panics. *)
Inductive tried {W I V N} (end_ : sparser W I V N) (i : input I) : nat -> W -> option (option (input I)) -> W -> Prop :=
| tried_0 : forall w, tried end_ i 0 w (Some None) w
| tried_yes : forall m w j v w1, end_ w i = (Data j v, w1) -> tried end_ i (S m) w (Some (Some j)) w1
| tried_panic : forall m w w1, end_ w i = (Panic, w1) -> tried end_ i (S m) w None w1
| tried_error : forall m w b x w1 o w2, end_ w i = (Error b x, w1) -> tried end_ i m w1 o w2 -> tried end_ i (S m) w o w2
| tried_incomplete : forall m w n w1 o w2, end_ w i = (Incomplete n, w1) -> tried end_ i m w1 o w2 -> tried end_ i (S m) w o w2.

(** [many_till]: after [k] items [end_] is tried [att k] times, then comes the parser. *)
Inductive till_goes {W I U V E N} (r : range) (att : nat -> nat) (p : sparser W I U E) (end_ : sparser W I V N)
  : nat -> W -> input I -> pres I (list U) E -> W -> Prop :=
| tg_end : forall k w i j w1, tried end_ i (att k) w (Some (Some j)) w1 -> till_goes r att p end_ k w i (Data j []) w1
| tg_end_panic : forall k w i w1, tried end_ i (att k) w None w1 -> till_goes r att p end_ k w i Panic w1
| tg_max : forall k w i w1, tried end_ i (att k) w (Some None) w1 -> ~ may_grow r k -> till_goes r att p end_ k w i (Incomplete 1) w1
| tg_item : forall k w i w1 j u w2 res w3, tried end_ i (att k) w (Some None) w1 -> may_grow r k -> p w1 i = (Data j u, w2) ->
    till_goes r att p end_ (S k) w2 j res w3 -> till_goes r att p end_ k w i (map (cons u) res) w3
| tg_error : forall k w i w1 b e w2, tried end_ i (att k) w (Some None) w1 -> may_grow r k -> p w1 i = (Error b e, w2) ->
    till_goes r att p end_ k w i (Error b e) w2
| tg_incomplete : forall k w i w1 n w2, tried end_ i (att k) w (Some None) w1 -> may_grow r k -> p w1 i = (Incomplete n, w2) ->
    till_goes r att p end_ k w i (Incomplete n) w2
| tg_panic : forall k w i w1 w2, tried end_ i (att k) w (Some None) w1 -> may_grow r k -> p w1 i = (Panic, w2) ->
    till_goes r att p end_ k w i Panic w2.

(** The result of a function with a budget, and the world it leaves. *)
Definition gives_w {W I T E} (f : nat -> pres I T E * W) (res : pres I T E) (w : W) : Prop := res <> NoFuel /\ exists fuel, f fuel = (res, w).

(** [sep] and then [p], the errors of [sep] being converted. *)
Definition sep_then {W I U V E N} (conv : callback W N E) (p : sparser W I U E) (sep : sparser W I V N) (w : W) (i : input I)
  : pres I U E * W :=
  match sep w i with
  | (Data j _, w1) => p w1 j
  | (Error b x, w1) => match conv x w1 with (Some e, w2) => (Error b e, w2) | (None, w2) => (Panic, w2) end
  | (Incomplete n, w1) => (Incomplete n, w1)
  | (Panic, w1) => (Panic, w1)
  | (NoFuel, w1) => (NoFuel, w1)
  end.

(** The items of a list with separators: the first is parsed by [p], each further one by [sep] and [p]. *)
Definition separated {W I U V E N} (conv : callback W N E) (p : sparser W I U E) (sep : sparser W I V N) (k : nat) : sparser W I U E :=
  match k with 0 => p | S _ => sep_then conv p sep end.

(** * Expressions over the library *)

(** Expressions over the functions of src/parsers.rs, src/parse_result.rs and src/combinators, as [built] of SpecSafe.v, with user code
    that acts on the world as [R] says.  User code may also be a parser by itself, if it does not tamper with the input. *)
Inductive over {W I : Type} (R : W -> W -> Prop) : forall T E, sparser W I T E -> Prop :=
| o_ext : forall T E (p q : sparser W I T E), over R p -> (forall w i, p w i = q w i) -> over R q
| o_user : forall T E (p : sparser W I T E), moves R p -> (forall w, well_behaved (fun i => fst (p w i))) -> over R p
| o_lifted : forall T E (p : parser I T E), built p -> over R (lifted p)
| o_map : forall T U E (f : callback W T U) (p : sparser W I T E), acts R f -> over R p ->
    over R (fun w i => let (r, w) := p w i in map_w f r w)
| o_map_err : forall T E V (f : callback W E V) (p : sparser W I T E), acts R f -> over R p ->
    over R (fun w i => let (r, w) := p w i in map_err_w f r w)
| o_inspect : forall T E (f : callback W T unit) (p : sparser W I T E), acts R f -> over R p ->
    over R (fun w i => let (r, w) := p w i in inspect_w f r w)
| o_bind : forall T U E V (conv : callback W E V) (p : sparser W I T E) (f : T -> sparser W I U V), acts R conv -> over R p ->
    (forall t, over R (f t)) -> over R (fun w i => let (r, w) := p w i in bind_w conv r f w)
| o_then : forall T U E V (conv : callback W E V) (p : sparser W I T E) (f : sparser W I U V), acts R conv -> over R p -> over R f ->
    over R (fun w i => let (r, w) := p w i in then_w conv r f w)
| o_satisfy : forall v f, acts R f -> over R (satisfy_w v f)
| o_satisfy_with : forall T v icl tcl (f : callback W I T) g, acts R icl -> acts R tcl -> acts R f -> acts R g ->
    over R (satisfy_with_w v icl tcl f g)
| o_token : forall v eq t, acts R eq -> over R (token_w v eq t)
| o_not_token : forall v ne t, acts R ne -> over R (not_token_w v ne t)
| o_take_while : forall f, acts R f -> over R (take_while_w f)
| o_take_while1 : forall v f, acts R f -> over R (take_while1_w v f)
| o_take_till : forall icl f, acts R icl -> acts R f -> over R (take_till_w icl f)
| o_scan : forall S (s : S) f, acts R f -> over R (scan_w s f)
| o_run_scanner : forall S (s : S) f, acts R f -> over R (run_scanner_w s f)
| o_string : forall v ne s, acts R ne -> over R (string_w v ne s)
| o_option : forall T E (p : sparser W I T E) d, over R p -> over R (option_w p d)
| o_or : forall T E (p q : sparser W I T E), over R p -> over R q -> over R (or_w p q)
| o_matched_by : forall T E (p : sparser W I T E), over R p -> over R (matched_by_w p)
| o_look_ahead : forall T E (p : sparser W I T E), over R p -> over R (look_ahead_w p)
| o_bmany : forall U T E C fuel (col : collector U T C) r (p : sparser W I U E), over R p -> over R (bmany_w fuel col p r)
| o_bskip_many : forall U E fuel r (p : sparser W I U E), over R p -> over R (bskip_many_w p fuel r)
| o_bmany_till : forall U V T E N C fuel (col : collector U T C) r (p : sparser W I U E) (end_ : sparser W I V N), over R p -> over R end_ ->
    over R (bmany_till_w fuel col p end_ r)
| o_sep_by : forall U V T E N C fuel (col : collector U T C) conv (p : sparser W I U E) (sep : sparser W I V N), acts R conv ->
    over R p -> over R sep -> over R (sep_by_w fuel col conv p sep)
| o_sep_by1 : forall U V T E N C fuel (col : collector U T C) conv (p : sparser W I U E) (sep : sparser W I V N), acts R conv ->
    over R p -> over R sep -> over R (sep_by1_w fuel col conv p sep).
Arguments over {W I} R {T E} p.

(** The same expression with callbacks that act on the world, and with functions which answer alike. *)
Inductive renders {W I : Type} : forall T E, sparser W I T E -> parser I T E -> Prop :=
| r_ext : forall T E (p q : sparser W I T E) (p' q' : parser I T E), renders p p' -> (forall w i, p w i = q w i) -> (forall i, p' i = q' i) ->
    renders q q'
| r_user : forall T E (p : sparser W I T E) (q : parser I T E), parses_as p q -> renders p q
| r_map : forall T U E (f : callback W T U) g (p : sparser W I T E) q, answers f g -> renders p q ->
    renders (fun w i => let (r, w) := p w i in map_w f r w) (fun i => map g (q i))
| r_map_err : forall T E V (f : callback W E V) g (p : sparser W I T E) q, answers f g -> renders p q ->
    renders (fun w i => let (r, w) := p w i in map_err_w f r w) (fun i => map_err g (q i))
| r_inspect : forall T E (f : callback W T unit) (p : sparser W I T E) q, answers f (fun _ => tt) -> renders p q ->
    renders (fun w i => let (r, w) := p w i in inspect_w f r w) q
| r_bind : forall T U E V (conv : callback W E V) c (p : sparser W I T E) q (f : T -> sparser W I U V) g, answers conv c -> renders p q ->
    (forall t, renders (f t) (fun i => g i t)) -> renders (fun w i => let (r, w) := p w i in bind_w conv r f w) (fun i => bind c (q i) g)
| r_then : forall T U E V (conv : callback W E V) c (p : sparser W I T E) q (f : sparser W I U V) g, answers conv c -> renders p q ->
    renders f g -> renders (fun w i => let (r, w) := p w i in then_w conv r f w) (fun i => then_ c (q i) g)
| r_satisfy : forall v f g, answers f g -> renders (satisfy_w v f) (satisfy v g)
| r_satisfy_with : forall T v icl tcl (f : callback W I T) p g q, answers icl (fun c => c) -> answers tcl (fun t => t) -> answers f g ->
    answers p q -> renders (satisfy_with_w v icl tcl f p) (satisfy_with v g q)
| r_token : forall v eq eqb t, answers eq (fun ab => eqb (fst ab) (snd ab)) -> renders (token_w v eq t) (token v eqb t)
| r_not_token : forall v ne eqb t, answers ne (fun ab => negb (eqb (fst ab) (snd ab))) -> renders (not_token_w v ne t) (not_token v eqb t)
| r_take_while : forall f g, answers f g -> renders (take_while_w f) (take_while g)
| r_take_while1 : forall v f g, answers f g -> renders (take_while1_w v f) (take_while1 v g)
| r_take_till : forall icl f g, answers icl (fun c => c) -> answers f g -> renders (take_till_w icl f) (take_till g)
| r_scan : forall S (s : S) f g, answers f (fun sc => g (fst sc) (snd sc)) -> renders (scan_w s f) (scan s g)
| r_run_scanner : forall S (s : S) f g, answers f (fun sc => g (fst sc) (snd sc)) -> renders (run_scanner_w s f) (run_scanner s g)
| r_string : forall v ne eqb s, answers ne (fun ab => negb (eqb (fst ab) (snd ab))) -> renders (string_w v ne s) (string v eqb s)
| r_option : forall T E (p : sparser W I T E) q d, renders p q -> renders (option_w p d) (option_ q d)
| r_or : forall T E (p1 p2 : sparser W I T E) q1 q2, renders p1 q1 -> renders p2 q2 -> renders (or_w p1 p2) (or_ q1 q2)
| r_matched_by : forall T E (p : sparser W I T E) q, renders p q -> renders (matched_by_w p) (matched_by q)
| r_look_ahead : forall T E (p : sparser W I T E) q, renders p q -> renders (look_ahead_w p) (look_ahead q)
| r_bmany : forall U T E C fuel (col : collector U T C) r (p : sparser W I U E) q, renders p q ->
    renders (bmany_w fuel col p r) (bmany fuel col r tt (pure q))
| r_bskip_many : forall U E fuel r (p : sparser W I U E) q, renders p q -> renders (bskip_many_w p fuel r) (bskip_many fuel r tt (pure q))
| r_bmany_till : forall U V T E N C fuel (col : collector U T C) r (p : sparser W I U E) q (end_ : sparser W I V N) e, renders p q ->
    renders end_ e -> renders (bmany_till_w fuel col p end_ r) (bmany_till fuel col r tt tt (pure q) (pure e))
| r_sep_by : forall U V T E N C fuel (col : collector U T C) conv c (p : sparser W I U E) q (sep : sparser W I V N) s, answers conv c ->
    renders p q -> renders sep s -> renders (sep_by_w fuel col conv p sep) (sep_by fuel col c tt tt (pure q) (pure s))
| r_sep_by1 : forall U V T E N C fuel (col : collector U T C) conv c (p : sparser W I U E) q (sep : sparser W I V N) s, answers conv c ->
    renders p q -> renders sep s -> renders (sep_by1_w fuel col conv p sep) (sep_by1 fuel col c tt tt (pure q) (pure s)).
Arguments renders {W I T E} p q.

(** * Streams *)

(** On a Source, repeating a call that answers [Retry] or [IoError], at most [fuel] times; the world goes on through the calls. *)
Fixpoint insist_w {W St I B T E} (ds : data_source St I) (ops : buffer_ops I B) (fuel : nat) (p : sparser W I T E) (st : src St B) (w : W)
  : run (src St B * sres I T E) * W :=
  match fuel with
  | 0 => (Stuck, w)
  | S fuel =>
      match src_parse_w ds ops p st w with
      | (Done (st, r), w) =>
          match r with
          | inr SRetry => insist_w ds ops fuel p st w
          | inr (SIoError _) => insist_w ds ops fuel p st w
          | _ => (Done (st, r), w)
          end
      | (r, w) => (r, w)
      end
  end.

(** [g 0 + ... + g n]. *)
Fixpoint sum_to (g : nat -> nat) (n : nat) : nat := match n with 0 => g 0 | S m => sum_to g m + g n end.
