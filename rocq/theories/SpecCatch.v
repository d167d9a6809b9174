(** Data sources that panic now and then, and clients that catch the panics and call again (C85). *)
From Coq Require Import List Bool Arith.
From Verif Require Import Base Buffer Stream Word Unwind SpecBuffer SpecStream SpecWord SpecUnwind.
Import ListNotations.

Set Implicit Arguments.

(** * Sources *)

(** As [delivers]: exactly the data [d] from the state [s] on, with at most [e] reads in between that fail or panic, and lose nothing. *)
Definition p_delivers {St I} (ds : panicky_source St I) (R : St -> list I -> nat -> Prop) : Prop :=
  forall s d e, R s d e -> forall n s' w r, ps_read ds s n = (s', w, r) ->
    match r with
    | None | Some (IoErr _) => exists e', e = S e' /\ R s' d e'
    | Some (IoOk k) => k <= n /\ exists c d', d = c ++ d' /\ length c = k /\ writes w c /\ R s' d' e /\ (k = 0 -> n = 0 \/ d = [])
    end.

(** The same source, with the error 0 in place of panics; its own errors are numbered from 1 on. *)
Definition failing {St I} (ds : panicky_source St I) : data_source St I :=
  mkDataSource (fun s n => let '(s, w, r) := ps_read ds s n in
    (s, w, match r with None => IoErr 0 | Some (IoErr e) => IoErr (S e) | Some (IoOk k) => IoOk k end)).

(** Back again: a call that reports the error 0 panics instead. *)
Definition thrown_io {S A} (c : call S (io A)) : call S (io A) :=
  match c with
  | Returns s (IoErr 0) => Unwinds s
  | Returns s (IoErr (S e)) => Returns s (IoErr e)
  | _ => c
  end.
Definition thrown {S I T E} (c : call S (sres I T E)) : call S (sres I T E) :=
  match c with
  | Returns s (inr (SIoError 0)) => Unwinds s
  | Returns s (inr (SIoError (S e))) => Returns s (inr (SIoError e))
  | _ => c
  end.

(** Every call that reads panics where it would report the error, and leaves the same behind. *)
Record panics_are_errors {St I B} (m : machine) (ds : panicky_source St I) (ops : u_ops I B) (st : src St B) : Prop := mkPanicsErrors {
  pe_parse : forall T E (p : parser I T E), u_src_parse m ds ops p st = thrown (u_src_parse m (calm (failing ds)) ops p st);
  pe_fill : u_src_fill m ds ops st = thrown_io (u_src_fill m (calm (failing ds)) ops st);
  pe_read : forall n, u_src_read m ds ops n st = thrown_io (u_src_read m (calm (failing ds)) ops n st);
  pe_fill_buf : u_src_fill_buf m ds ops st = thrown_io (u_src_fill_buf m (calm (failing ds)) ops st) }.

(** * Clients *)

(** [parse], called again after [Retry], after an I/O error, and after a panic. *)
Fixpoint u_insist {St I B T E} (m : machine) (ds : panicky_source St I) (ops : u_ops I B) (fuel : nat) (p : parser I T E) (st : src St B)
  : run (src St B * sres I T E) :=
  match fuel with
  | 0 => Stuck
  | S fuel =>
      match u_src_parse m ds ops p st with
      | Returns st (inr SRetry) | Returns st (inr (SIoError _)) | Unwinds st => u_insist m ds ops fuel p st
      | Returns st r => Done (st, r)
      | Breaks => Undefined
      | Loops => Stuck
      end
  end.

(** A program whose steps depend on the answers so far, as [on_source]. *)
Fixpoint u_on_source {St I B T E} (m : machine) (ds : panicky_source St I) (ops : u_ops I B) (fuel : nat) (c : script I T E) (st : src St B)
  : run (list (sres I T E)) :=
  match c with
  | Stop => Done []
  | Next p k =>
      let! (st, r) := u_insist m ds ops fuel p st in
      let! rs := u_on_source m ds ops fuel (k (forget r)) st in
      Done (forget r :: rs)
  end.

(** * Iterators *)

(** A source that is never asked for more than one item at a time (a wrapper that a client may write). *)
Definition singly {St I} (ds : panicky_source St I) : panicky_source St I := mkPanickySource (fun s n => ps_read ds s (Nat.min n 1)).

(** The iterator [next] yields the items [d], panicking at most [e] times on the way, and then reports its end for ever. *)
Definition hands_out {It I} (next : It -> option (option I) * It) (R : It -> list I -> nat -> Prop) : Prop :=
  forall it d e, R it d e ->
    match next it with
    | (None, it') => exists e', e = S e' /\ R it' d e'
    | (Some (Some x), it') => exists d', d = x :: d' /\ R it' d' e
    | (Some None, it') => d = [] /\ R it' [] e
    end.
