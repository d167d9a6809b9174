(** Model of the type bounds of src/ascii.rs:123-125, 150, 161: which integer types the number parsers can be used with.  No proofs here.

    The trait [ValueFrom] is that of the crate conv 0.3 (Cargo.toml:25), whose source is not part of the repository: between integer types it is the
    checked conversion, and its error type is [NoError] (no value) for the widening conversions.  tests/compile-fail/ascii_signed_unsigned_type*.rs
    show this table at work. *)
From Coq Require Import Bool ZArith.
From Verif Require Import Base Ascii Numbers.
Open Scope Z_scope.

(** The type [i8] of src/ascii.rs:124. *)
Definition i8 : int_ty := mkInt 8 true.

(** [T::value_from(z)] (src/ascii.rs:128-129, 162): [z] if it is a value of [T]; [None] stands for the error value. *)
Definition value_from (T : int_ty) (z : Z) : option Z := if (int_min T <=? z) && (z <=? int_max T) then Some z else None.

(** Whether [<T as ValueFrom<S>>::Err] is [NoError] (src/ascii.rs:124, 150, 161): conv's table, by signedness and width. *)
Definition no_error (T S : int_ty) : bool :=
  match is_signed S, is_signed T with
  | false, false => width S <=? width T
  | true, true => width S <=? width T
  | false, true => width S <? width T
  | true, false => false
  end.

(** src/ascii.rs:150, 161: [decimal::<T>] compiles (every integer type is [Copy + Add<Output=T> + Mul<Output=T>]). *)
Definition decimal_compiles (T : int_ty) : bool := no_error T u8.

(** src/ascii.rs:124: [signed::<T, F>] compiles, for some number parser [F]. *)
Definition signed_compiles (T : int_ty) : bool := no_error T i8.

(** [signed(i, decimal)] compiles, as in tests/compile-fail/ascii_signed_unsigned_type.rs:10. The bounds are those of src/ascii.rs:123-125, 150. *)
Definition signed_decimal_compiles (T : int_ty) : bool := signed_compiles T && decimal_compiles T.

(** The operations with conv's conversions in them, whether or not the bounds hold: here [unwrap_ok] of an error panics, as [unwrap] would. *)
Definition conv_num (T : int_ty) (checked : bool) : num_ops Z :=
  mkNum (value_from T) (value_from T) (fun a b => int_result T checked (a + b)) (fun a b => int_result T checked (a * b)).
