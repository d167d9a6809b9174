(** Small specifications used by the statements about the primitive parsers.  Nothing here mentions the model's functions. *)
From Coq Require Import List Bool Arith.
Import ListNotations.

Set Implicit Arguments.

(** [accepts f s xs s']: the state machine [f] started in [s] accepts every item of [xs] and ends in [s']. *)
Inductive accepts {S A : Type} (f : S -> A -> option S) : S -> list A -> S -> Prop :=
| accepts_nil : forall s, accepts f s [] s
| accepts_cons : forall s x s1 xs s2, f s x = Some s1 -> accepts f s1 xs s2 -> accepts f s (x :: xs) s2.

(** Item by item equal under the user's equality. *)
Definition same_items {A : Type} (eqb : A -> A -> bool) (xs ys : list A) : Prop :=
  Forall2 (fun x y => eqb x y = true) xs ys.

(** [n] is the index of the first position where [xs] and [ys] differ. *)
Definition first_difference {A : Type} (eqb : A -> A -> bool) (xs ys : list A) (n : nat) : Prop :=
  exists x y, nth_error xs n = Some x /\ nth_error ys n = Some y /\ eqb x y = false /\
    forall k, k < n -> exists x' y', nth_error xs k = Some x' /\ nth_error ys k = Some y' /\ eqb x' y' = true.

(** [r] is what is left of [b] after removing some initial part. *)
Definition suffix {A : Type} (r b : list A) : Prop := exists pre, b = pre ++ r.
