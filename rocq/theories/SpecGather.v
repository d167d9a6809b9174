(** What a collection (an arbitrary [FromIterator], see [collector]) does with the items it is given.  Mentions collectors only. *)
From Coq Require Import List Bool Arith.
From Verif Require Import Base Combinators.
Import ListNotations.

Set Implicit Arguments.

Section Collections.
  Context {U T C : Type}.
  Variable act : C -> caction U T C.

  (** [closes again c t]: having been told the end, the collection returns [t], whatever size hints it is given if it asks for them.  It may
      call [next()] again, and be told the end again, only if [again]. *)
  Inductive closes (again : bool) : C -> T -> Prop :=
  | closes_finish : forall c t, act c = CFinish t -> closes again c t
  | closes_hint : forall c k t, act c = CHint k -> (forall h, closes again (k h) t) -> closes again c t
  | closes_again : forall c k t, again = true -> act c = CNext k -> closes again (k None) t -> closes again c t.

  (** [gathers again c us t]: the collection takes the items [us] until it is told the end, and returns [t]. *)
  Inductive gathers (again : bool) : C -> list U -> T -> Prop :=
  | gathers_end : forall c k t, act c = CNext k -> closes again (k None) t -> gathers again c [] t
  | gathers_item : forall c k u us t, act c = CNext k -> gathers again (k (Some u)) us t -> gathers again c (u :: us) t
  | gathers_hint : forall c k us t, act c = CHint k -> (forall h, gathers again (k h) us t) -> gathers again c us t.

  (** [stops_after c us t]: after the items [us] the collection returns [t], without having asked for another one. *)
  Inductive stops_after : C -> list U -> T -> Prop :=
  | stops_finish : forall c t, act c = CFinish t -> stops_after c [] t
  | stops_item : forall c k u us t, act c = CNext k -> stops_after (k (Some u)) us t -> stops_after c (u :: us) t
  | stops_hint : forall c k us t, act c = CHint k -> (forall h, stops_after (k h) us t) -> stops_after c us t.
End Collections.

(** The collection takes whatever there is; [g] says what it makes of it. *)
Definition gathering {U T C} (again : bool) (col : collector U T C) (g : list U -> T) : Prop :=
  forall us, gathers (cact col) again (cinit col) us (g us).

(** The result of a function of the model with a budget: [res] with some budget (all greater ones give the same, C20), not an exhausted one. *)
Definition gives {I T E} (f : nat -> pres I T E) (res : pres I T E) : Prop := res <> NoFuel /\ exists fuel, f fuel = res.

(** A closure that changes its captured state only when it succeeds. *)
Definition quiet {S I U E} (p : sparser S I U E) : Prop := forall s i r s', p s i = (r, s') -> (forall j u, r <> Data j u) -> s' = s.

(** [FromIterator] of the usual collections (std): starting with [t0], add every item ([Extend::extend], e.g. of [HashMap], [String],
    [LinkedList], [()]). *)
Definition fold_collector {U T} (t0 : T) (add : T -> U -> T) : collector U T (bool * T) :=
  mkCollector (false, t0)
    (fun c => match c with
              | (true, t) => CFinish t
              | (false, t) => CNext (fun o => match o with Some u => (false, add t u) | None => (true, t) end)
              end).

(** [FromIterator<Option<U>> for Option<Vec<U>>] (std; [Result] likewise): [None] at once when an item is [None]. *)
Definition option_collector (U : Type) : collector (option U) (option (list U)) (option (bool * list U)) :=
  mkCollector (Some (false, []))
    (fun c => match c with
              | None => CFinish None
              | Some (true, l) => CFinish (Some l)
              | Some (false, l) => CNext (fun o => match o with
                                                   | Some (Some u) => Some (false, l ++ [u])
                                                   | Some None => None
                                                   | None => Some (true, l)
                                                   end)
              end).
