(** The unit tests of src/macros.rs:606-1573, stated about the model and checked by computation.  Generated by tools/macro_tests.py.  They are
    evidence that the model is the code (the expected values are those the authors assert), not proofs of properties.

    The tests replace [Input] and [ParseResult] by simplified types (src/macros.rs:624-667) whose input is one number; here that is an input with
    the number as its only item.  rustc's fragments are those the tests need. *)
From Coq Require Import List Bool Arith ZArith String.
From Verif Require Import Base Combinators Macro SpecMacro.
Import ListNotations.
Open Scope Z_scope.
Open Scope nat_scope.

(** Values and errors of the tests. *)
Inductive val : Type :=
| VNum (z : Z)
| VStr (s : string)
| VTup (l : list val)
| VBad.
Bind Scope Z_scope with Z.
Definition v_add (a b : val) : val := match a, b with VNum x, VNum y => VNum (x + y) | _, _ => VBad end.
Definition v_sub (a b : val) : val := match a, b with VNum x, VNum y => VNum (x - y) | _, _ => VBad end.
Fixpoint val_eqb (a b : val) : bool :=
  match a, b with
  | VNum x, VNum y => Z.eqb x y
  | VStr s, VStr t => String.eqb s t
  | VTup l, VTup k =>
      (fix go l k := match l, k with [], [] => true | x :: l, y :: k => val_eqb x y && go l k | _, _ => false end) l k
  | _, _ => false
  end.

(** src/macros.rs:624-667: [Input(z)], and the outcomes. *)
Definition inp (z : Z) : input Z := mkInput true [z].
Definition value (z : Z) (v : val) : parser Z val val := fun _ => Data (inp z) v.
Definition error (z : Z) (v : val) : parser Z val val := fun _ => Error [z] v.
Definition value_here (v : val) : parser Z val val := ret v.
Definition error_here (v : val) : parser Z val val := err v.
Definition bad : parser Z val val := fun _ => Panic.
(** [assert_eq!(i.0, z)] and [assert_eq!(a, b)] in the functions of the tests. *)
Definition at_ (z : Z) (p : parser Z val val) : parser Z val val := fun i => match buf i with [x] => if Z.eqb x z then p i else Panic | _ => Panic end.
Definition same (a b : val) (p : parser Z val val) : parser Z val val := if val_eqb a b then p else bad.
Definition arg (ps : list val) (n : nat) : val := nth n ps VBad.

(** What the binders of closures bind: identifiers, pairs of them, typed identifiers. *)
Definition tenv : Type := list (binder * val).
Fixpoint var (rho : tenv) (n : nat) : val :=
  match rho with
  | [] => VBad
  | (b, v) :: rho =>
      match b with
      | BPat [Ident m] => if m =? n then v else var rho n
      | BPat [Group [Ident x; Comma; Ident y]] =>
          match v with
          | VTup [a; b] => if x =? n then a else if y =? n then b else var rho n
          | _ => VBad
          end
      | BTyped m _ => if m =? n then v else var rho n
      | _ => var rho n
      end
  end.
