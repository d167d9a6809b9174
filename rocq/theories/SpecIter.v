(** Specification of repeated application, independent of the iterator machinery of the model.
    Mentions only parsers as functions and the result type. *)
From Coq Require Import List Bool Arith.
From Verif Require Import Base Combinators.
Import ListNotations.

Set Implicit Arguments.

(** [iterates p s i us s' j]: starting at input [i] (closure state [s]), successive applications of [p] succeed with the values [us],
    ending at input [j] (closure state [s']). *)
Inductive iterates {St I U E : Type} (p : sparser St I U E) : St -> input I -> list U -> St -> input I -> Prop :=
| iterates_nil : forall s i, iterates p s i [] s i
| iterates_cons : forall s i u s1 i1 us s2 i2,
    p s i = (Data i1 u, s1) -> iterates p s1 i1 us s2 i2 -> iterates p s i (u :: us) s2 i2.

(** The counts a range admits. *)
Definition in_range (r : range) (k : nat) : Prop :=
  match r with
  | RRange a b => a <= k < b
  | RFrom a => a <= k
  | RFull => True
  | RTo b => k < b
  | RExact n => k = n
  end.

(** Some larger count is admitted. *)
Definition may_grow (r : range) (k : nat) : Prop := exists k', k < k' /\ in_range r k'.

(** Some count is admitted. *)
Definition nonempty (r : range) : Prop := exists k, in_range r k.

(** [p] cannot go on at [j]: it fails, or it is incomplete and no more input can come. *)
Definition gives_up {St I U E : Type} (p : sparser St I U E) (s : St) (j : input I) : Prop :=
  (exists b e, fst (p s j) = Error b e) \/ (exists n, fst (p s j) = Incomplete n /\ last j = true).

(** What [many(r, p)] collecting into a [Vec] must do. *)
Inductive many_outcome {St I U E : Type} (r : range) (p : sparser St I U E) (s0 : St) (i : input I)
  : pres I (list U) E -> Prop :=
| mo_data : forall us s j,
    iterates p s0 i us s j -> in_range r (length us) ->
    (~ may_grow r (length us) \/ gives_up p s j) ->
    many_outcome r p s0 i (Data j us)
| mo_error : forall us s j b e,
    iterates p s0 i us s j -> ~ in_range r (length us) -> may_grow r (length us) ->
    fst (p s j) = Error b e ->
    many_outcome r p s0 i (Error b e)
| mo_incomplete : forall us s j n,
    iterates p s0 i us s j -> may_grow r (length us) -> fst (p s j) = Incomplete n ->
    (~ in_range r (length us) \/ last j = false) ->
    many_outcome r p s0 i (Incomplete n)
| mo_panic : forall us s j,
    iterates p s0 i us s j -> may_grow r (length us) -> fst (p s j) = Panic ->
    many_outcome r p s0 i Panic.

(** [iterates_till r p end_ k s i us s' j]: as [iterates], the first application being number [k]+1, and [end_] does not succeed at any
    point where the range admits stopping before an application. *)
Inductive iterates_till {St I U V E N : Type} (r : range) (p : sparser St I U E) (end_ : parser I V N)
  : nat -> St -> input I -> list U -> St -> input I -> Prop :=
| till_nil : forall k s i, iterates_till r p end_ k s i [] s i
| till_cons : forall k s i u s1 i1 us s2 i2,
    (in_range r k -> (exists b e, end_ i = Error b e) \/ (exists n, end_ i = Incomplete n)) ->
    p s i = (Data i1 u, s1) ->
    iterates_till r p end_ (S k) s1 i1 us s2 i2 ->
    iterates_till r p end_ k s i (u :: us) s2 i2.

(** [end_] does not succeed (nor panic) here, or may not be tried here. *)
Definition end_fails {I V N : Type} (r : range) (end_ : parser I V N) (k : nat) (i : input I) : Prop :=
  in_range r k -> (exists b e, end_ i = Error b e) \/ (exists n, end_ i = Incomplete n).

(** What [many_till(r, p, end)] collecting into a [Vec] must do. *)
Inductive till_outcome {St I U V E N : Type} (r : range) (p : sparser St I U E) (end_ : parser I V N) (s0 : St) (i : input I)
  : pres I (list U) E -> Prop :=
| to_data : forall us s j k v,
    iterates_till r p end_ 0 s0 i us s j -> in_range r (length us) -> end_ j = Data k v ->
    till_outcome r p end_ s0 i (Data k us)
| to_error : forall us s j b e,
    iterates_till r p end_ 0 s0 i us s j -> end_fails r end_ (length us) j -> may_grow r (length us) ->
    fst (p s j) = Error b e ->
    till_outcome r p end_ s0 i (Error b e)
| to_incomplete : forall us s j n,
    iterates_till r p end_ 0 s0 i us s j -> end_fails r end_ (length us) j -> may_grow r (length us) ->
    fst (p s j) = Incomplete n ->
    till_outcome r p end_ s0 i (Incomplete n)
| to_exhausted : forall us s j,
    iterates_till r p end_ 0 s0 i us s j -> in_range r (length us) -> end_fails r end_ (length us) j ->
    ~ may_grow r (length us) ->
    till_outcome r p end_ s0 i (Incomplete 1)
| to_panic : forall us s j,
    iterates_till r p end_ 0 s0 i us s j -> end_fails r end_ (length us) j -> may_grow r (length us) ->
    fst (p s j) = Panic ->
    till_outcome r p end_ s0 i Panic
| to_panic_end : forall us s j,
    iterates_till r p end_ 0 s0 i us s j -> in_range r (length us) -> end_ j = Panic ->
    till_outcome r p end_ s0 i Panic.
