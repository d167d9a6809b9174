(** Sources whose data goes on after they have reported an end: a socket, a file that is still written to (C86). *)
From Coq Require Import List Bool Arith.
From Verif Require Import Base Parsers Combinators Buffer Stream SpecBase SpecBuffer SpecSafe SpecStream SpecIter.
Import ListNotations.

Set Implicit Arguments.

(** * Sources *)

(** A source that delivers exactly the data [d] from its state [s] on, in reads of any size, with at most [e] I/O errors in between, and which
    reports an end at most [z] times although there is data to come.  [R] is any relation that is kept by every read. *)
Definition pausing {St I} (ds : data_source St I) (R : St -> list I -> nat -> nat -> Prop) : Prop :=
  forall s d z e, R s d z e -> forall n s' w r, ds_read ds s n = (s', w, r) ->
    match r with
    | IoErr _ => exists e', e = S e' /\ R s' d z e'
    | IoOk k => k <= n /\ exists c d', d = c ++ d' /\ length c = k /\ writes w c /\
        (((k = 0 -> n = 0 \/ d = []) /\ R s' d' z e) \/ (k = 0 /\ exists z', z = S z' /\ R s' d' z' e))
    end.

(** The reader of SpecStream.v with any chunks: an empty one is a read of zero items. *)
Definition timetable {I} (cs : list (option (list I))) (d : list I) (z e : nat) : Prop :=
  d = chunks_data cs /\ z = length (filter (fun c => match c with Some [] => true | _ => false end) cs) /\ e = chunks_errors cs.

(** * The client *)

(** A client that waits for more: where the stream reports its end or missing data, it calls [reset] and [set_autofill(true)], and parses again;
    at most [fuel] calls of [parse]. *)
Fixpoint follow {St I B T E} (ds : data_source St I) (ops : buffer_ops I B) (fuel : nat) (p : parser I T E) (st : src St B)
  : run (src St B * sres I T E) :=
  match fuel with
  | 0 => Stuck
  | S fuel =>
      let! (st, r) := src_parse ds ops p st in
      match r with
      | inr SRetry => follow ds ops fuel p st
      | inr (SIoError _) => follow ds ops fuel p st
      | inr SEndOfInput => follow ds ops fuel p (src_set_autofill true (src_reset st))
      | inr (SIncomplete _) => follow ds ops fuel p (src_set_autofill true (src_reset st))
      | _ => Done (st, r)
      end
  end.

Fixpoint following {St I B T E} (ds : data_source St I) (ops : buffer_ops I B) (fuel : nat) (c : script I T E) (st : src St B)
  : run (list (sres I T E)) :=
  match c with
  | Stop => Done []
  | Next p k =>
      let! (st, r) := follow ds ops fuel p st in
      let! rs := following ds ops fuel (k (forget r)) st in
      Done (forget r :: rs)
  end.

(** The same program over all the data at once, with the end left open: a call for which the data does not suffice does not return. *)
Fixpoint on_open {I T E} (c : script I T E) (s : slice_stream I) : run (list (sres I T E)) :=
  match c with
  | Stop => Done []
  | Next p k =>
      let! (s, r) := slice_parse p s in
      match r with
      | inr SEndOfInput => Stuck
      | inr (SIncomplete _) => Stuck
      | _ => let! rs := on_open (k (forget r)) s in Done (forget r :: rs)
      end
  end.

(** * Parsers *)

(** A parser that does not take the end of the input for an answer. *)
Definition patient {I T E} (p : parser I T E) : Prop :=
  forall b n, p (mkInput false b) = Incomplete n -> exists m, p (mkInput true b) = Incomplete m.

(** Only where [rest] does not end yet. *)
Definition patient_in {I T E} (rest : list I) (p : parser I T E) : Prop :=
  forall b c n, rest = b ++ c -> c <> [] -> p (mkInput false b) = Incomplete n -> exists m, p (mkInput true b) = Incomplete m.

Inductive script_follows {I T E} (fits : nat -> Prop) : slice_stream I -> script I T E -> Prop :=
| sf_stop : forall s, script_follows fits s Stop
| sf_next : forall s p k, suits fits (skipn (ss_pos s) (ss_slice s)) p -> patient_in (skipn (ss_pos s) (ss_slice s)) p ->
    (forall s' r, slice_parse p s = Done (s', r) -> script_follows fits s' (k (forget r))) ->
    script_follows fits s (Next p k).

(** Parsers built without [take_while], [many] and the like, which end where the input ends, and without [option], which does so too. In [or], the
    alternative must be undecided wherever the first one is; [many_till] needs a decisive end. *)
Inductive waiting {I : Type} : forall T E, parser I T E -> Prop :=
| w_ext : forall T E (p q : parser I T E), waiting p -> (forall i, p i = q i) -> waiting q
| w_ret : forall T E (t : T), @waiting I T E (ret t)
| w_err : forall T E (e : E), @waiting I T E (err e)
| w_incomplete : forall T E n, 1 <= n -> @waiting I T E (incomplete n)
| w_from_result : forall T E (r : T + E), waiting (from_result r)
| w_map : forall T U E (f : T -> U) (p : parser I T E), waiting p -> waiting (fun i => map f (p i))
| w_map_err : forall T E V (f : E -> V) (p : parser I T E), waiting p -> waiting (fun i => map_err f (p i))
| w_bind : forall T U E V (conv : E -> V) (p : parser I T E) (f : input I -> T -> pres I U V),
    waiting p -> (forall t, waiting (fun i => f i t)) -> waiting (fun i => bind conv (p i) f)
| w_then : forall T U E V (conv : E -> V) (p : parser I T E) (f : parser I U V),
    waiting p -> waiting f -> waiting (fun i => then_ conv (p i) f)
| w_any : waiting any
| w_satisfy : forall v f, waiting (satisfy v f)
| w_satisfy_with : forall T v (f : I -> T) g, waiting (satisfy_with v f g)
| w_token : forall v eqb t, waiting (token v eqb t)
| w_not_token : forall v eqb t, waiting (not_token v eqb t)
| w_peek_next : waiting peek_next
| w_take : forall n, waiting (take n)
| w_take_till : forall f, waiting (take_till f)
| w_string : forall v eqb s, waiting (string v eqb s)
| w_or : forall T E (p q : parser I T E), waiting p -> waiting q ->
    (forall b n, p (mkInput false b) = Incomplete n -> exists m, q (mkInput false b) = Incomplete m) -> waiting (or_ p q)
| w_matched_by : forall T E (p : parser I T E), waiting p -> waiting (matched_by p)
| w_look_ahead : forall T E (p : parser I T E), waiting p -> waiting (look_ahead p)
| w_count : forall U E fuel n (p : parser I U E), waiting p -> (forall i, p i <> NoFuel) -> waiting (count fuel (vec_collector U) n tt (pure p))
| w_many_till : forall U V E N fuel r (p : parser I U E) (end_ : parser I V N), nonempty r -> waiting p -> waiting end_ ->
    (forall i, p i <> NoFuel) -> (forall i, end_ i <> NoFuel) -> decisive (pure p) end_ ->
    waiting (bmany_till fuel (vec_collector U) r tt tt (pure p) (pure end_)).

(** The same parser, [n] times. *)
Fixpoint records {I T E} (p : parser I T E) (n : nat) : script I T E :=
  match n with
  | 0 => Stop
  | S n => Next p (fun _ => records p n)
  end.

(** What is left after the end was reported, if nobody calls [reset]: nothing, for ever, whatever the source has. *)
Definition at_the_end {St I B} (ds : data_source St I) (ops : buffer_ops I B) (st : src St B) : Prop :=
  forall T E (p : parser I T E), src_parse ds ops p st = Done (st, inr SEndOfInput).
