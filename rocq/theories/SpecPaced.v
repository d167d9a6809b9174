(** Driving a Source by hand: [fill], [set_autofill] and [reset] between the calls of [parse]. *)
From Coq Require Import List Bool Arith.
From Verif Require Import Base Buffer Stream SpecStream.
Import ListNotations.

Set Implicit Arguments.

(** An answer after which the same call is to be made again. *)
Definition again {I T E} (r : sres I T E) : Prop := r = inr SRetry \/ exists x, r = inr (SIoError x).

(** An execution of a program over a Source, and the answers so far.  Anything may happen between two calls of [parse], as often as
    one likes and for whatever reason: an explicit [fill], whose result is ignored; switching automatic filling on or off; [reset].
    When [parse] wants to be called again, this need not happen at once. *)
Inductive paced {St I B T E} (ds : data_source St I) (ops : buffer_ops I B) : script I T E -> src St B -> list (sres I T E) -> script I T E -> src St B -> Prop :=
| pc_now : forall c st, paced ds ops c st [] c st
| pc_answer : forall p k st st1 r rs c' st', src_parse ds ops p st = Done (st1, r) -> ~ again r -> paced ds ops (k (forget r)) st1 rs c' st' ->
    paced ds ops (Next p k) st (forget r :: rs) c' st'
| pc_again : forall p k st st1 r rs c' st', src_parse ds ops p st = Done (st1, r) -> again r -> paced ds ops (Next p k) st1 rs c' st' ->
    paced ds ops (Next p k) st rs c' st'
| pc_fill : forall c st st1 r rs c' st', src_fill ds ops st = Done (st1, r) -> paced ds ops c st1 rs c' st' -> paced ds ops c st rs c' st'
| pc_autofill : forall c st v rs c' st', paced ds ops c (src_set_autofill v st) rs c' st' -> paced ds ops c st rs c' st'
| pc_reset : forall c st rs c' st', paced ds ops c (src_reset st) rs c' st' -> paced ds ops c st rs c' st'.

(** The beginning of a program over a slice. *)
Inductive sliced {I T E} : script I T E -> slice_stream I -> list (sres I T E) -> script I T E -> slice_stream I -> Prop :=
| sl_now : forall c s, sliced c s [] c s
| sl_answer : forall p k s s1 r rs c' s', slice_parse p s = Done (s1, r) -> sliced (k (forget r)) s1 rs c' s' -> sliced (Next p k) s (forget r :: rs) c' s'.

(** Filling by hand, the way meant by [set_autofill(false)]: [parse]; when it says [Retry], [fill] whatever comes of it, and again. *)
Fixpoint by_hand {St I B T E} (ds : data_source St I) (ops : buffer_ops I B) (fuel : nat) (p : parser I T E) (st : src St B) : run (src St B * sres I T E) :=
  match fuel with
  | 0 => Stuck
  | S fuel =>
      let! (st, r) := src_parse ds ops p st in
      match r with
      | inr SRetry => let! (st, _) := src_fill ds ops st in by_hand ds ops fuel p st
      | _ => Done (st, r)
      end
  end.

Fixpoint on_source_by_hand {St I B T E} (ds : data_source St I) (ops : buffer_ops I B) (fuel : nat) (c : script I T E) (st : src St B) : run (list (sres I T E)) :=
  match c with
  | SpecStream.Stop => Done []
  | Next p k =>
      let! (st, r) := by_hand ds ops fuel p st in
      let! rs := on_source_by_hand ds ops fuel (k (forget r)) st in
      Done (forget r :: rs)
  end.
