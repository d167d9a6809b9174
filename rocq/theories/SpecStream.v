(** What streams are supposed to do. *)
From Coq Require Import List Bool Arith.
From Verif Require Import Base Buffer Stream SpecBase SpecBuffer SpecSafe.
Import ListNotations.

Set Implicit Arguments.

(** * Histories of a Source *)

(** A parser that also tells which items it consumed, with its value and with its error. *)
Definition telling {I T E} (p : parser I T E) : parser I (list I * T) (list I * E) :=
  fun i => match p i with
           | Data j v => Data j (firstn (length (buf i) - length (buf j)) (buf i), v)
           | Error b e => Error b (firstn (length (buf i) - length b) (buf i), e)
           | Incomplete n => Incomplete n
           | Panic => Panic
           | NoFuel => NoFuel
           end.

Definition told {I T E} (r : sres I (list I * T) (list I * E)) : list I :=
  match r with
  | inl (h, _) => h
  | inr (SParseError _ (h, _)) => h
  | inr _ => []
  end.

(** All states a Source gets into by the calls of its interface; the list has the items handed out for good: consumed by
    a parser, copied by [read], or consumed by [BufRead::consume].  [admits] restricts the parsers used. *)
Inductive history {St I B} (ds : data_source St I) (ops : buffer_ops I B) (admits : forall T E, parser I T E -> Prop) (s0 : St) (b0 : B)
  : src St B -> list I -> Prop :=
| h_new : history ds ops admits s0 b0 (src_with_buffer s0 b0) []
| h_parse : forall st out T E (p : parser I T E) st' r, history ds ops admits s0 b0 st out -> well_behaved p -> admits T E p ->
    src_parse ds ops (telling p) st = Done (st', r) -> history ds ops admits s0 b0 st' (out ++ told r)
| h_fill : forall st out st' r, history ds ops admits s0 b0 st out -> src_fill ds ops st = Done (st', r) -> history ds ops admits s0 b0 st' out
| h_read : forall st out n st' r, history ds ops admits s0 b0 st out -> src_read ds ops n st = Done (st', r) ->
    history ds ops admits s0 b0 st' (out ++ match r with IoOk l => l | IoErr _ => [] end)
| h_fill_buf : forall st out st' r, history ds ops admits s0 b0 st out -> src_fill_buf ds ops st = Done (st', r) -> history ds ops admits s0 b0 st' out
| h_consume : forall st out l n st', history ds ops admits s0 b0 st out -> src_view ops st = Done l -> n <= length l ->
    src_consume ops n st = Done st' -> history ds ops admits s0 b0 st' (out ++ firstn n l)
| h_reset : forall st out, history ds ops admits s0 b0 st out -> history ds ops admits s0 b0 (src_reset st) out
| h_autofill : forall st out v, history ds ops admits s0 b0 st out -> history ds ops admits s0 b0 (src_set_autofill v st) out.

(** * Single calls *)

(** The same state, with a fresh log of what the source does from now on. *)
Definition watch {St I B} (st : src St B) : src (log St I) B :=
  mkSrc (mkLog (src_source st) [] false) (src_buffer st) (src_request st) (src_incomplete st) (src_eoi st) (src_auto st).

(** [p] has been run on [d], which it was told is the last slice if [l]; the stream answers [out] and stands before [rest]. *)
Definition ran {I T E} (p : parser I T E) (l : bool) (d : list I) (out : sres I T E) (rest : list I) : Prop :=
  match p (mkInput l d) with
  | Data j v => out = inl v /\ rest = buf j
  | Error b e => out = inr (SParseError b e) /\ rest = b
  | Incomplete n => out = inr (if l then SIncomplete (length d + n) else SRetry) /\ rest = d
  | Panic => False
  | NoFuel => False
  end.

(** A parser that never asks for zero further items, and always comes to an answer. *)
Definition asks {I T E} (p : parser I T E) : Prop :=
  forall l b, p (mkInput l b) <> Incomplete 0 /\ p (mkInput l b) <> Panic /\ p (mkInput l b) <> NoFuel.

(** A parser which shows what it is given. *)
Definition spy {I} : parser I (bool * list I) unit := fun i => Data i (last i, buf i).

(** * Programs over a stream *)

(** A program calls [parse] with parsers chosen depending on the answers so far.  Of an error it sees the error, not the
    slice. *)
Definition forget {I T E} (r : sres I T E) : sres I T E :=
  match r with
  | inr (SParseError _ e) => inr (SParseError [] e)
  | _ => r
  end.

Inductive script (I T E : Type) : Type :=
| Stop
| Next (p : parser I T E) (k : sres I T E -> script I T E).
Arguments Stop {I T E}.
Arguments Next {I T E} p k.

(** On a SliceStream; the answers. *)
Fixpoint on_slice {I T E} (c : script I T E) (s : slice_stream I) : run (list (sres I T E)) :=
  match c with
  | Stop => Done []
  | Next p k =>
      let! (s, r) := slice_parse p s in
      let! rs := on_slice (k (forget r)) s in
      Done (forget r :: rs)
  end.

(** On a Source, repeating a call that answers [Retry] or [IoError], at most [fuel] times. *)
Fixpoint insist {St I B T E} (ds : data_source St I) (ops : buffer_ops I B) (fuel : nat) (p : parser I T E) (st : src St B)
  : run (src St B * sres I T E) :=
  match fuel with
  | 0 => Stuck
  | S fuel =>
      let! (st, r) := src_parse ds ops p st in
      match r with
      | inr SRetry => insist ds ops fuel p st
      | inr (SIoError _) => insist ds ops fuel p st
      | _ => Done (st, r)
      end
  end.

Fixpoint on_source {St I B T E} (ds : data_source St I) (ops : buffer_ops I B) (fuel : nat) (c : script I T E) (st : src St B)
  : run (list (sres I T E)) :=
  match c with
  | Stop => Done []
  | Next p k =>
      let! (st, r) := insist ds ops fuel p st in
      let! rs := on_source ds ops fuel (k (forget r)) st in
      Done (forget r :: rs)
  end.

(** The same runs, answers with their slices. *)
Fixpoint on_slice_full {I T E} (c : script I T E) (s : slice_stream I) : run (list (sres I T E)) :=
  match c with
  | Stop => Done []
  | Next p k =>
      let! (s, r) := slice_parse p s in
      let! rs := on_slice_full (k (forget r)) s in
      Done (r :: rs)
  end.

Fixpoint on_source_full {St I B T E} (ds : data_source St I) (ops : buffer_ops I B) (fuel : nat) (c : script I T E) (st : src St B)
  : run (list (sres I T E)) :=
  match c with
  | Stop => Done []
  | Next p k =>
      let! (st, r) := insist ds ops fuel p st in
      let! rs := on_source_full ds ops fuel (k (forget r)) st in
      Done (r :: rs)
  end.

(** The same answer; in an error the first may show less of the data behind the same position. *)
Definition shows_part_of {I T E} (r1 r2 : sres I T E) : Prop :=
  match r1, r2 with
  | inr (SParseError b1 e1), inr (SParseError b2 e2) => e1 = e2 /\ exists c, b2 = b1 ++ c
  | _, _ => r1 = r2
  end.

(** The same way to end, with related values. *)
Definition same_run {A B} (R : A -> B -> Prop) (r1 : run A) (r2 : run B) : Prop :=
  match r1, r2 with
  | Done a, Done b => R a b
  | Panicked, Panicked => True
  | Undefined, Undefined => True
  | Stuck, Stuck => True
  | _, _ => False
  end.

(** A parser that may be run where [rest] is what remains of the data, over a buffer which can hold [m] items if [fits m]. *)
Record suits {I T E} (fits : nat -> Prop) (rest : list I) (p : parser I T E) : Prop := mkSuits {
  su_stable : stable p;
  su_well_behaved : well_behaved p;
  su_decides : forall i, p i <> NoFuel;
  su_needs_input : rest = [] -> exists n, p (mkInput false []) = Incomplete n;
  su_fits : forall b c n, rest = b ++ c -> p (mkInput false b) = Incomplete n -> fits (Nat.min (length b + n) (length rest)) }.

(** A program all of whose calls do so, on the slice. *)
Inductive script_suits {I T E} (fits : nat -> Prop) : slice_stream I -> script I T E -> Prop :=
| ss_stop : forall s, script_suits fits s Stop
| ss_next : forall s p k, suits fits (skipn (ss_pos s) (ss_slice s)) p ->
    (forall s' r, slice_parse p s = Done (s', r) -> script_suits fits s' (k (forget r))) ->
    script_suits fits s (Next p k).

(** * Concrete sources *)

(** A reader that hands out the data in given chunks, failing at the given points: any chunking and fault schedule. *)
Definition chunk_read {I} (cs : list (option (list I))) (n : nat) : list (option (list I)) * memory I * io nat :=
  match cs with
  | [] => ([], [], IoOk 0)
  | None :: cs => (cs, [], IoErr 0)
  | Some c :: cs =>
      (match skipn n c with [] => cs | r => Some r :: cs end, List.map Some (firstn n c), IoOk (length (firstn n c)))
  end.

Definition chunks_data {I} (cs : list (option (list I))) : list I :=
  flat_map (fun c => match c with Some l => l | None => [] end) cs.
Definition chunks_errors {I} (cs : list (option (list I))) : nat :=
  length (filter (fun c => match c with Some _ => false | None => true end) cs).

(** Schedules with non-empty chunks (a read of zero items would mean the end). *)
Definition schedule {I} (cs : list (option (list I))) (d : list I) (e : nat) : Prop :=
  ~ In (Some []) cs /\ d = chunks_data cs /\ e = chunks_errors cs.

(** An iterator yields these items in turn, and arrives in this state. *)
Inductive yields {It I} (next : It -> option I * It) : It -> list I -> It -> Prop :=
| y_nil : forall it, yields next it [] it
| y_cons : forall it i it1 l it2, next it = (Some i, it1) -> yields next it1 l it2 -> yields next it (i :: l) it2.

(** An iterator that yields exactly these items and then ends for good. *)
Definition exactly {It I} (next : It -> option I * It) (it : It) (d : list I) (e : nat) : Prop :=
  exists it' (P : It -> Prop), yields next it d it' /\ P it' /\ forall x, P x -> exists y, next x = (None, y) /\ P y.
