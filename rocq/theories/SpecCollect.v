(** Devices for speaking about what a collection (an arbitrary [FromIterator]) sees.  They wrap a collector; they do not
    mention the iterators or the ranges' implementation. *)
From Coq Require Import List Bool Arith.
From Verif Require Import Base Combinators.
Import ListNotations.

Set Implicit Arguments.

(** The largest count of a range with an end ("end is exclusive"). *)
Definition max_count (r : range) : option nat :=
  match r with
  | RRange _ b => Some (b - 1)
  | RFrom _ => None
  | RFull => None
  | RTo b => Some (b - 1)
  | RExact n => Some n
  end.

(** The smallest count of a range. *)
Definition min_count (r : range) : nat :=
  match r with
  | RRange a _ => a
  | RFrom a => a
  | RFull => 0
  | RTo _ => 0
  | RExact n => n
  end.

(** [col] until it has received more than [m] items; from then on it behaves as [alt]. *)
Definition beyond {U T C : Type} (m : nat) (col : collector U T C) (alt : C -> caction U T (nat * C))
  : collector U T (nat * C) :=
  mkCollector (0, cinit col)
    (fun st => let '(k, c) := st in
       if k <=? m then
         match cact col c with
         | CFinish t => CFinish t
         | CPanic => CPanic
         | CHint f => CHint (fun h => (k, f h))
         | CNext f => CNext (fun o => (match o with Some _ => S k | None => k end, f o))
         end
       else alt c).

(** [col] until it has received more items than the upper bound of a size hint given to it before promised; from then on it
    behaves as [alt].  The state holds the number of items still promised ([None]: no promise). *)
Definition overrun {U T C : Type} (col : collector U T C) (alt : C -> caction U T (option (option nat) * C))
  : collector U T (option (option nat) * C) :=
  mkCollector (Some None, cinit col)
    (fun st => let '(k, c) := st in
       match k with
       | Some q =>
           match cact col c with
           | CFinish t => CFinish t
           | CPanic => CPanic
           | CHint f => CHint (fun h => (Some (match snd h, q with
                                               | Some a, Some b => Some (Nat.min a b)
                                               | Some a, None => Some a
                                               | None, _ => q
                                               end), f h))
           | CNext f => CNext (fun o => (match o, q with
                                         | Some _, Some 0 => None
                                         | Some _, Some (S q') => Some (Some q')
                                         | _, _ => Some q
                                         end, f o))
           end
       | None => alt c
       end).

(** What a collection observes. *)
Inductive event (U : Type) : Type :=
| EvItem (u : U)
| EvEnd
| EvHint (lo : nat) (hi : option nat).
Arguments EvItem {U} u.
Arguments EvEnd {U}.
Arguments EvHint {U} lo hi.

(** [col], returning with its result everything it observed, in order. *)
Definition tracing {U T C : Type} (col : collector U T C) : collector U (T * list (event U)) (C * list (event U)) :=
  mkCollector (cinit col, [])
    (fun st => let '(c, log) := st in
       match cact col c with
       | CFinish t => CFinish (t, log)
       | CPanic => CPanic
       | CHint f => CHint (fun h => (f h, log ++ [EvHint (fst h) (snd h)]))
       | CNext f => CNext (fun o => (f o, log ++ [match o with Some u => EvItem u | None => EvEnd end]))
       end).

(** Number of items in a log. *)
Fixpoint items {U : Type} (l : list (event U)) : nat :=
  match l with
  | [] => 0
  | EvItem _ :: r => S (items r)
  | _ :: r => items r
  end.

(** A log in which the number of items is within the range and every size hint was right about the items that followed. *)
Definition log_ok {U : Type} (r : range) (log : list (event U)) : Prop :=
  min_count r <= items log /\
    (forall m, max_count r = Some m -> items log <= m) /\
    (forall l1 lo hi l2, log = l1 ++ EvHint lo hi :: l2 -> lo <= items l2 /\ (forall h, hi = Some h -> items l2 <= h)).
