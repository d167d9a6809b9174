(** Model of the number parsers of src/ascii.rs:123-163 for any number type [T], not only machine integers: user code implements
    [ValueFrom<u8>], [ValueFrom<i8>], [Add] and [Mul] (big integers, [Wrapping], saturating and checked types, floats, matrices ...).
    No proofs here. *)
From Coq Require Import List Bool ZArith.
From Coq.Init Require Import Byte.
From Coq.Strings Require Import Byte.
From Verif Require Import Base Parsers Combinators Ascii.
Import ListNotations.

Set Implicit Arguments.

(** The bounds of src/ascii.rs:124, 150, 161: [T: Copy + ValueFrom<u8, Err=NoError> + ValueFrom<i8, Err=NoError> + Add<Output=T> + Mul<Output=T>].
    Any of the functions may panic ([None]).  They are functions of their arguments (no effects).  [from_u8] and [from_i8] are only ever called on values
    of the types [u8] and [i8], which are given as integers. *)
Record num_ops (T : Type) : Type := mkNum {
  from_u8 : Z -> option T;
  from_i8 : Z -> option T;
  num_add : T -> T -> option T;
  num_mul : T -> T -> option T }.

(** Calling a function that may panic after another. As in the arguments of src/ascii.rs:162. *)
Definition and_then {A B} (x : option A) (f : A -> option B) : option B := match x with Some a => f a | None => None end.

(** src/parse_result.rs:197-204 [ParseResult::map] with a function that may panic. *)
Definition map_p {I T U E} (f : T -> option U) (r : pres I T E) : pres I U E :=
  match r with
  | Data i t => match f t with Some u => Data i u | None => Panic end
  | Error b e => Error b e
  | Incomplete n => Incomplete n
  | Panic => Panic
  | NoFuel => NoFuel
  end.

Section Numbers.
  (** Feature flag verbose_error (Cargo.toml:33); overflow checks of [n - b'0'] on [u8] (debug build). *)
  Variables (verbose checked : bool).
  Context {T : Type}.
  Variable ops : num_ops T.

  (** One step of the fold of src/ascii.rs:162: [a * T::value_from(10).unwrap_ok() + T::value_from(n - b'0').unwrap_ok()], operands from left to right. *)
  Definition num_step (a : option T) (n : byte) : option T :=
    and_then a (fun a =>
    and_then (from_u8 ops 10) (fun ten =>
    and_then (num_mul ops a ten) (fun m =>
    and_then (int_result u8 checked (Z.of_N (code n) - Z.of_N (code "0"))) (fun d =>
    and_then (from_u8 ops d) (fun d =>
    num_add ops m d))))).

  (** src/ascii.rs:161-163 [to_decimal]. *)
  Definition num_to_decimal (buf : list byte) : option T := fold_left num_step buf (from_u8 ops 0).

  (** src/ascii.rs:150-152 [decimal]. *)
  Definition num_decimal (i : input byte) : pres byte T (error byte) :=
    bind (fun e => e) (take_while1 verbose is_digit i)
      (fun i buf => match num_to_decimal buf with Some v => ret v i | None => Panic end).

  (** src/ascii.rs:123-131 [signed]: the default [T::value_from(1)] is an argument of [option], so it is computed first. *)
  Definition num_signed (f : parser byte T (error byte)) (i : input byte) : pres byte T (error byte) :=
    match from_i8 ops 1 with
    | None => Panic
    | Some one =>
        bind (fun e => e)
          (option_
             (fun i => map_p (fun s => from_i8 ops (if byte_eqb s "+" then 1 else -1)%Z)
                         (satisfy verbose (fun c => byte_eqb c "-" || byte_eqb c "+") i))
             one i)
          (fun i sign => map_p (num_mul ops sign) (f i))
    end.
End Numbers.

(** The primitive integer types: [+] and [*] panic on overflow in a debug build ([checked]) and wrap otherwise; [value_from] is exact (conv 0.3.2). *)
Definition int_num (T : int_ty) (checked : bool) : num_ops Z :=
  mkNum Some Some (fun a b => int_result T checked (a + b)) (fun a b => int_result T checked (a * b)).

(** Integers of any size (e.g. [num::BigInt]). A type for the parameter [T] of src/ascii.rs:123-125, 150. *)
Definition big_num : num_ops Z := mkNum Some Some (fun a b => Some (a + b)%Z) (fun a b => Some (a * b)%Z).

(** [std::num::Wrapping<T>]: always modulo 2^[width], in every build.  (The crate would need a newtype for [ValueFrom].) *)
Definition wrapping_num (T : int_ty) : num_ops Z :=
  mkNum (fun z => Some (int_wrap T z)) (fun z => Some (int_wrap T z)) (fun a b => Some (int_wrap T (a + b))) (fun a b => Some (int_wrap T (a * b))).

(** A user type with saturating operations ([u64::saturating_add] ...), up to [m]. A type for the parameter [T] of src/ascii.rs:123-125, 150. *)
Definition saturating_num (m : Z) : num_ops Z :=
  mkNum (fun z => Some (Z.min z m)) (fun z => Some (Z.min z m)) (fun a b => Some (Z.min (a + b) m)) (fun a b => Some (Z.min (a * b) m)).
