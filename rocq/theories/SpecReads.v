(** When a Source reads from its data source. *)
From Coq Require Import List Bool Arith.
From Verif Require Import Base Buffer Stream SpecBase SpecBuffer SpecSafe SpecStream.
Import ListNotations.

Set Implicit Arguments.

(** A source whose calls are written down: [tr_items] all items delivered so far; [tr_calls] for each call of [read], in order, the items delivered
    before it and the length of the slice it was given. *)
Record trace (St I : Type) : Type := mkTrace { tr_state : St; tr_items : list I; tr_calls : list (list I * nat) }.
Definition traced {St I} (ds : data_source St I) : data_source (trace St I) I :=
  mkDataSource (fun t n =>
    let '(s, w, r) := ds_read ds (tr_state t) n in
    (mkTrace s (tr_items t ++ match r with IoOk k => delivered w k | IoErr _ => [] end) (tr_calls t ++ [(tr_items t, n)]), w, r)).

(** The calls made from [t] to [t'] are [cs]. *)
Definition called {St I} (t t' : trace St I) (cs : list (list I * nat)) : Prop := tr_calls t' = tr_calls t ++ cs.

(** The states of a Source between two answers: a new one; after a parser has been insisted on. *)
Inductive polite {St I B} (ds : data_source St I) (ops : buffer_ops I B) (s0 : St) (b0 : B) : src (trace St I) B -> Prop :=
| po_new : polite ds ops s0 b0 (src_with_buffer (mkTrace s0 [] []) b0)
| po_insist : forall st fuel T E (p : parser I T E) st' r, polite ds ops s0 b0 st -> stable p -> well_behaved p ->
    insist (traced ds) ops fuel p st = Done (st', r) -> polite ds ops s0 b0 st'.

(** All states a traced Source gets into by any calls (the parsers need only be [well_behaved]). *)
Definition any_history {St I B} (ds : data_source St I) (ops : buffer_ops I B) (s0 : St) (b0 : B) (st : src (trace St I) B) (out : list I) : Prop :=
  history (traced ds) ops (fun _ _ _ => True) (mkTrace s0 [] []) b0 st out.

(** A sequence of calls of [parse], with any parsers. *)
Inductive parses {St I B} (ds : data_source St I) (ops : buffer_ops I B) : src St B -> src St B -> Prop :=
| ps_none : forall st, parses ds ops st st
| ps_parse : forall st T E (p : parser I T E) st1 r st2, src_parse ds ops p st = Done (st1, r) -> parses ds ops st1 st2 -> parses ds ops st st2.

(** Neither a request to repeat the call nor an I/O error. *)
Definition answered {I T E} (r : sres I T E) : Prop := match r with inr SRetry | inr (SIoError _) => False | _ => True end.

(** The stream has come to its end. *)
Definition over {I T E} (r : sres I T E) : Prop := match r with inr SEndOfInput | inr (SIncomplete _) => True | _ => False end.

(** A value or an error. *)
Definition decided {I T E} (r : pres I T E) : Prop := match r with Data _ _ | Error _ _ => True | _ => False end.
