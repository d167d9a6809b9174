(** [many_till] with an [end] that has captured state (C18), where it matters how often [end] is run. *)
From Coq Require Import List Bool Arith.
From Verif Require Import Base Combinators SpecIter.
Import ListNotations.

Set Implicit Arguments.

(** [end_], run [m] times in a row at [i] from closure state [e], succeeds none of the times (nor panics), and leaves the state [e']. *)
Inductive fails {SE I V N : Type} (end_ : sparser SE I V N) (i : input I) : nat -> SE -> SE -> Prop :=
| fails_0 : forall e, fails end_ i 0 e e
| fails_S : forall m e e1 e2,
    (exists b x, end_ e i = (Error b x, e1)) \/ (exists n, end_ e i = (Incomplete n, e1)) ->
    fails end_ i m e1 e2 -> fails end_ i (S m) e e2.

(** As [iterates], the first application being number [k]+1; after [k] items [end_] is run [att k] times, always without success. *)
Inductive iterates_till_st {St SE I U V E N : Type} (att : nat -> nat) (p : sparser St I U E) (end_ : sparser SE I V N)
  : nat -> St -> SE -> input I -> list U -> St -> SE -> input I -> Prop :=
| till_st_nil : forall k s e i, iterates_till_st att p end_ k s e i [] s e i
| till_st_cons : forall k s e i u s1 e1 i1 us s2 e2 i2,
    fails end_ i (att k) e e1 -> p s i = (Data i1 u, s1) ->
    iterates_till_st att p end_ (S k) s1 e1 i1 us s2 e2 i2 ->
    iterates_till_st att p end_ k s e i (u :: us) s2 e2 i2.

(** What [many_till(r, p, end)] collecting into a [Vec] must do, if [end] is run up to [att k] times after [k] items. *)
Inductive till_outcome_st {St SE I U V E N : Type} (r : range) (att : nat -> nat) (p : sparser St I U E) (end_ : sparser SE I V N)
    (s0 : St) (e0 : SE) (i : input I) : pres I (list U) E -> Prop :=
| tos_data : forall us s e j m e1 e2 k v,
    iterates_till_st att p end_ 0 s0 e0 i us s e j -> in_range r (length us) ->
    m < att (length us) -> fails end_ j m e e1 -> end_ e1 j = (Data k v, e2) ->
    till_outcome_st r att p end_ s0 e0 i (Data k us)
| tos_error : forall us s e j e1 b x,
    iterates_till_st att p end_ 0 s0 e0 i us s e j -> fails end_ j (att (length us)) e e1 -> may_grow r (length us) ->
    fst (p s j) = Error b x ->
    till_outcome_st r att p end_ s0 e0 i (Error b x)
| tos_incomplete : forall us s e j e1 n,
    iterates_till_st att p end_ 0 s0 e0 i us s e j -> fails end_ j (att (length us)) e e1 -> may_grow r (length us) ->
    fst (p s j) = Incomplete n ->
    till_outcome_st r att p end_ s0 e0 i (Incomplete n)
| tos_exhausted : forall us s e j e1,
    iterates_till_st att p end_ 0 s0 e0 i us s e j -> in_range r (length us) -> fails end_ j (att (length us)) e e1 ->
    ~ may_grow r (length us) ->
    till_outcome_st r att p end_ s0 e0 i (Incomplete 1)
| tos_panic : forall us s e j e1,
    iterates_till_st att p end_ 0 s0 e0 i us s e j -> fails end_ j (att (length us)) e e1 -> may_grow r (length us) ->
    fst (p s j) = Panic ->
    till_outcome_st r att p end_ s0 e0 i Panic
| tos_panic_end : forall us s e j m e1,
    iterates_till_st att p end_ 0 s0 e0 i us s e j -> in_range r (length us) ->
    m < att (length us) -> fails end_ j m e e1 -> fst (end_ e1 j) = Panic ->
    till_outcome_st r att p end_ s0 e0 i Panic.

(** Once wherever the range admits stopping: what one expects. *)
Definition once (r : range) (k : nat) : nat :=
  match r with
  | RRange a b => if (a <=? k) && (k <? b) then 1 else 0
  | RFrom a => if a <=? k then 1 else 0
  | RFull => 1
  | RTo b => if k <? b then 1 else 0
  | RExact n => if k =? n then 1 else 0
  end.

(** The same, but twice at the maximum of a range [a..b]. *)
Definition twice_at_max (r : range) (k : nat) : nat :=
  match r with
  | RRange a b => if (a <=? k) && (k <? b) then (if S k =? b then 2 else 1) else 0
  | _ => once r k
  end.

(** Whether the result of [end] is a success does not change when it is run again at the same place. *)
Definition steady {SE I V N : Type} (end_ : sparser SE I V N) : Prop :=
  forall i e e1, fails end_ i 1 e e1 -> exists e2, fails end_ i 1 e1 e2.
