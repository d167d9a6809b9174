(** All the ways to use a Source (C81): every call of its public interface, in any order, by a client with a state of its own, and what
    the answers mean for the data that remains. *)
From Coq Require Import List Bool Arith.
From Verif Require Import Base Parsers Combinators Buffer Stream SpecBase SpecSafe SpecStream Effects SpecEffects SpecKeep.
Import ListNotations.

Set Implicit Arguments.

(** * What a client sees *)

(** A call and its answer. *)
Inductive event (W I : Type) : Type :=
| Asked T E (p : sparser W I T E) (r : sres I T E)          (* parse, with a closure that acts on the client's state *)
| Crashed T E (p : sparser W I T E)                         (* parse, with a parser that panics; the panic is caught *)
| Filled (r : io nat)                                       (* fill *)
| Got (n : nat) (r : io (list I))                           (* io::Read::read into a slice of length n *)
| Offered (cap : nat) (r : io (list I))                     (* io::BufRead::fill_buf, capacity being cap *)
| Consumed (n : nat)                                        (* io::BufRead::consume *)
| Seen (l : list I) (len : nat) (empty : bool)              (* buffer, len, is_empty *)
| Reset
| Autofill (v : bool)
| Acted (f : W -> W).                                       (* the client, without the Source *)
Arguments Asked {W I T E} p r.
Arguments Crashed {W I T E} p.
Arguments Filled {W I} r.
Arguments Got {W I} n r.
Arguments Offered {W I} cap r.
Arguments Consumed {W I} n.
Arguments Seen {W I} l len empty.
Arguments Reset {W I}.
Arguments Autofill {W I} v.
Arguments Acted {W I} f.

(** * On a Source *)

(** The call has been made and has been answered so.  No more is consumed than is visible, as BufRead demands. *)
Inductive happens {W St I B} (ds : data_source St I) (ops : buffer_ops I B) : event W I -> src St B -> W -> src St B -> W -> Prop :=
| hp_parse T E (p : sparser W I T E) r st w st' w' : src_parse_w ds ops p st w = (Done (st', r), w') -> happens ds ops (Asked p r) st w st' w'
| hp_crash T E (p : sparser W I T E) st w st' w' : src_parse_crash ds ops p st w = Some (st', w') -> happens ds ops (Crashed p) st w st' w'
| hp_fill r st w st' : src_fill ds ops st = Done (st', r) -> happens ds ops (Filled r) st w st' w
| hp_read n r st w st' : src_read ds ops n st = Done (st', r) -> happens ds ops (Got n r) st w st' w
| hp_fill_buf r st w st' : src_fill_buf ds ops st = Done (st', r) -> happens ds ops (Offered (src_capacity ops st) r) st w st' w
| hp_consume n l st w st' : src_view ops st = Done l -> n <= length l -> src_consume ops n st = Done st' -> happens ds ops (Consumed n) st w st' w
| hp_see l n b st w : src_view ops st = Done l -> src_len ops st = Done n -> src_is_empty ops st = Done b -> happens ds ops (Seen l n b) st w st w
| hp_reset st w : happens ds ops Reset st w (src_reset st) w
| hp_autofill v st w : happens ds ops (Autofill v) st w (src_set_autofill v st) w
| hp_act f st w : happens ds ops (Acted f) st w st (f w).

Inductive happen {W St I B} (ds : data_source St I) (ops : buffer_ops I B) : list (event W I) -> src St B -> W -> src St B -> W -> Prop :=
| hps_nil st w : happen ds ops [] st w st w
| hps_cons e es st w st1 w1 st2 w2 : happens ds ops e st w st1 w1 -> happen ds ops es st1 w1 st2 w2 -> happen ds ops (e :: es) st w st2 w2.

(** * In terms of the data that remains *)

(** [l] is a beginning of [rest]. *)
Definition begins {I} (l rest : list I) : Prop := exists more, rest = l ++ more.

(** What an answer says about the data [rest] that remains and the state [w] of the client; what is left of it then, and the state then. *)
Definition explains {W I} (fits : nat -> Prop) (e : event W I) (rest : list I) (w : W) (rest' : list I) (w' : W) : Prop :=
  match e with
  | Asked p r =>
      match r with
      | inl v => rest <> [] /\ exists j, p w (mkInput true rest) = (Data j v, w') /\ rest' = buf j
      | inr (SParseError l x) => rest <> [] /\ p w (mkInput true rest) = (Error rest' x, w') /\ begins l rest'
      | inr (SIncomplete n) => rest <> [] /\ rest' = rest /\ w' = w /\ exists m, p w (mkInput true rest) = (Incomplete m, w) /\ n = length rest + m
      | inr SEndOfInput => rest = [] /\ rest' = [] /\ w' = w
      | inr SRetry | inr (SIoError _) => rest' = rest /\ w' = w
      end
  | Crashed p => rest <> [] /\ rest' = rest /\ p w (mkInput true rest) = (Panic, w')
  | Got n (IoOk l) => rest = l ++ rest' /\ w' = w /\ length l <= n /\ (l = [] -> n = 0 \/ rest = []) /\
      (fits (Nat.min n (length rest)) -> l = firstn n rest)
  | Offered cap (IoOk l) => rest' = rest /\ w' = w /\ begins l rest /\ (l = [] -> cap = 0 \/ rest = []) /\
      (fits (Nat.min cap (length rest)) -> Nat.min cap (length rest) <= length l)
  | Consumed n => n <= length rest /\ rest' = skipn n rest /\ w' = w
  | Seen l n empty => rest' = rest /\ w' = w /\ begins l rest /\ n = length l /\ (empty = true -> rest = [])
  | Filled _ | Got _ (IoErr _) | Offered _ (IoErr _) | Reset | Autofill _ => rest' = rest /\ w' = w
  | Acted f => rest' = rest /\ w' = f w
  end.

Inductive explain {W I} (fits : nat -> Prop) : list (event W I) -> list I -> W -> list I -> W -> Prop :=
| exs_nil rest w : explain fits [] rest w rest w
| exs_cons e es rest w rest1 w1 rest2 w2 : explains fits e rest w rest1 w1 -> explain fits es rest1 w1 rest2 w2 -> explain fits (e :: es) rest w rest2 w2.

(** * Which clients *)

(** The parser suits the data that remains (SpecKeep.v); nothing is asked of the other calls. *)
Definition fair {W I} (fits : nat -> Prop) (e : event W I) (rest : list I) (w : W) : Prop :=
  match e with
  | Asked p _ | Crashed p => suits_w fits rest w p
  | _ => True
  end.
(** At each point of the way. *)
Fixpoint all_fair {W I} (fits : nat -> Prop) (es : list (event W I)) (rest : list I) (w : W) : Prop :=
  match es with
  | [] => True
  | e :: es => fair fits e rest w /\ forall rest' w', explains fits e rest w rest' w' -> all_fair fits es rest' w'
  end.
