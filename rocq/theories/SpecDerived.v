(** What comparisons are supposed to satisfy (documentation of [PartialEq], [Eq], [Ord], [Hash]), and histories of buffers. *)
From Coq Require Import List Bool Arith.
From Verif Require Import Base Parsers Buffer Stream SpecBuffer.
Import ListNotations.

Set Implicit Arguments.

(** [==] is an equivalence. *)
Record equivalence {A} (eqb : A -> A -> bool) : Prop := mkEquivalence {
  eq_refl_law : forall x, eqb x x = true;
  eq_sym_law : forall x y, eqb x y = eqb y x;
  eq_trans_law : forall x y z, eqb x y = true -> eqb y z = true -> eqb x z = true }.

(** [==] holds for identical values only. *)
Definition decides {A} (eqb : A -> A -> bool) : Prop := forall x y, eqb x y = true <-> x = y.

(** [cmp] is a total order, consistent with [==]. *)
Record total_order {A} (eqb : A -> A -> bool) (cmp : A -> A -> comparison) : Prop := mkTotalOrder {
  ord_eq : forall x y, cmp x y = Eq <-> eqb x y = true;
  ord_dual : forall x y, cmp y x = CompOpp (cmp x y);
  ord_trans : forall x y z c, cmp x y = c -> cmp y z = c -> cmp x z = c }.

(** Equal values hash equally. *)
Definition hashes {A} (eqb : A -> A -> bool) (hash : A -> list nat) : Prop := forall x y, eqb x y = true -> hash x = hash y.

(** The documentation of [Hash] asks more of a good implementation: what different values feed to the hasher is different, whatever
    is fed after it (prefix-freeness). *)
Definition prefix_free {A} (eqb : A -> A -> bool) (hash : A -> list nat) : Prop :=
  forall x y r s, hash x ++ r = hash y ++ s -> eqb x y = true /\ r = s.

(** The order of words: at the first difference the lesser item decides, and a proper prefix comes first. *)
Definition word_less {A} (cmp : A -> A -> comparison) (l1 l2 : list A) : Prop :=
  exists p q r1 r2, l1 = p ++ r1 /\ l2 = q ++ r2 /\ Forall2 (fun x y => cmp x y = Eq) p q /\
    match r1, r2 with [], _ :: _ => True | x :: _, y :: _ => cmp x y = Lt | _, _ => False end.
(** Words of items that count as equal. *)
Definition word_same {A} (cmp : A -> A -> comparison) : list A -> list A -> Prop := Forall2 (fun x y => cmp x y = Eq).

(** * Buffers *)

(** All slots of the memory have been written. *)
Definition all_written {I} (m : memory I) : Prop := Forall (fun x => x <> None) m.

(** The buffer state [b'] comes after [b]: any operations of the trait in between, with sources that obey their contract. *)
Inductive since {I B} (ops : buffer_ops I B) (b : B) : B -> Prop :=
| s_now : since ops b b
| s_request : forall b1 k b2, since ops b b1 -> op_request_space ops b1 k = Done b2 -> since ops b b2
| s_consume : forall b1 k b2, since ops b b1 -> op_consume ops b1 k = Done b2 -> since ops b b2
| s_fill : forall b1 St (ds : data_source St I) s s' r b2, since ops b b1 -> obeys ds -> op_fill ops ds b1 s = Done (b2, s', r) -> since ops b b2.
