(** Specifications for number parsing over any number type: what it means that a type calculates like the integers.  Mentions nothing of the parsers. *)
From Coq Require Import List Bool ZArith.
From Coq.Init Require Import Byte.
From Coq.Strings Require Import Byte.
From Verif Require Import Numbers.
Import ListNotations.
Open Scope Z_scope.

(** [phi] gives the number of the type for each integer.  Sums and products of natural numbers come out right as long as they are [within] some range
    (all numbers that fit, or that a float represents exactly, or all there are), and so do the digits and ten. *)
Record counts {T} (ops : num_ops T) (within : Z -> Prop) (phi : Z -> T) : Prop := mkCounts {
  counts_below : forall a b, 0 <= a <= b -> within b -> within a;
  counts_digit : forall d, 0 <= d <= 10 -> from_u8 ops d = Some (phi d);
  counts_add : forall a d, 0 <= a -> 0 <= d <= 9 -> within (a + d) -> num_add ops (phi a) (phi d) = Some (phi (a + d));
  counts_mul : forall a, 0 <= a -> within (a * 10) -> num_mul ops (phi a) (phi 10) = Some (phi (a * 10)) }.

(** The same for signs: 1 and -1 times a number. *)
Record counts_signs {T} (ops : num_ops T) (within : Z -> Prop) (phi : Z -> T) : Prop := mkCountsSigns {
  signs_from : forall s, s = 1 \/ s = -1 -> from_i8 ops s = Some (phi s);
  signs_mul : forall s n, s = 1 \/ s = -1 -> 0 <= n -> within n -> num_mul ops (phi s) (phi n) = Some (phi (s * n)) }.

(** Two outcomes correspond: both panic, or both are values, related by [R]. *)
Definition both {T U} (R : T -> U -> Prop) (x : option T) (y : option U) : Prop :=
  match x, y with
  | Some t, Some u => R t u
  | None, None => True
  | _, _ => False
  end.

(** Two number types calculate alike. *)
Record alike {T U} (R : T -> U -> Prop) (o : num_ops T) (o' : num_ops U) : Prop := mkAlike {
  alike_u8 : forall z, 0 <= z <= 255 -> both R (from_u8 o z) (from_u8 o' z);
  alike_i8 : forall z, -128 <= z <= 127 -> both R (from_i8 o z) (from_i8 o' z);
  alike_add : forall a a' b b', R a a' -> R b b' -> both R (num_add o a b) (num_add o' a' b');
  alike_mul : forall a a' b b', R a a' -> R b b' -> both R (num_mul o a b) (num_mul o' a' b') }.
