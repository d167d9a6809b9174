(** Model of src/ascii.rs.  Items are bytes ([u8] is Coq's 256-valued [Byte.byte]).  No proofs here. *)
From Coq Require Import List Bool Arith ZArith.
From Coq.Init Require Import Byte.
From Coq.Strings Require Import Byte.
From Verif Require Import Base Parsers Combinators.
Import ListNotations.

Set Implicit Arguments.

(** [u8] as a number; comparisons of [u8] (src/ascii.rs:15 etc.) compare these. *)
Definition code (c : byte) : N := Byte.to_N c.

(** [c == d] on [u8]. As in src/ascii.rs:36, 42, 48, 127. *)
Definition byte_eqb (c d : byte) : bool := Byte.eqb c d.

(** src/ascii.rs:14-16 [is_lowercase]. *)
Definition is_lowercase (c : byte) : bool := (code "a" <=? code c)%N && (code c <=? code "z")%N.

(** src/ascii.rs:20-22 [is_uppercase]. *)
Definition is_uppercase (c : byte) : bool := (code "A" <=? code c)%N && (code c <=? code "Z")%N.

(** src/ascii.rs:35-37 [is_whitespace]; [&&] binds tighter than [||]. *)
Definition is_whitespace (c : byte) : bool := (9 <=? code c)%N && (code c <=? 13)%N || byte_eqb c " ".

(** src/ascii.rs:41-43 [is_horizontal_space]; [x09] is ['\t']. *)
Definition is_horizontal_space (c : byte) : bool := byte_eqb c x09 || byte_eqb c " ".

(** src/ascii.rs:47-49 [is_end_of_line]; [x0a] is ['\n'], [x0d] is ['\r']. *)
Definition is_end_of_line (c : byte) : bool := byte_eqb c x0a || byte_eqb c x0d.

(** src/ascii.rs:53-55 [is_digit]. *)
Definition is_digit (c : byte) : bool := (code "0" <=? code c)%N && (code c <=? code "9")%N.

(** src/ascii.rs:59-61 [is_alpha]. *)
Definition is_alpha (c : byte) : bool := is_lowercase c || is_uppercase c.

(** src/ascii.rs:65-67 [is_alphanumeric]. *)
Definition is_alphanumeric (c : byte) : bool := is_alpha c || is_digit c.

(** * Primitive integer types *)

(** An integer type [T] of src/ascii.rs:124, 150, 161 ([u8] ... [i64], or any other width): bits and signedness. *)
Record int_ty : Type := mkInt { width : Z; is_signed : bool }.

(** Least and greatest value of the type (Rust reference). *)
Definition int_min (t : int_ty) : Z := if is_signed t then - 2 ^ (width t - 1) else 0.
Definition int_max (t : int_ty) : Z := if is_signed t then 2 ^ (width t - 1) - 1 else 2 ^ width t - 1.

(** Two's complement wrap-around (Rust reference). *)
Definition int_wrap (t : int_ty) (z : Z) : Z :=
  if is_signed t then (z + 2 ^ (width t - 1)) mod 2 ^ width t - 2 ^ (width t - 1) else z mod 2 ^ width t.

(** The result of [+], [*] or [-] on a primitive integer type whose exact result is [z].  [checked]: overflow checks are compiled in
    (debug builds) and an overflow panics ([None]); otherwise it wraps. Used at src/ascii.rs:130, 162. *)
Definition int_result (t : int_ty) (checked : bool) (z : Z) : option Z :=
  if (int_min t <=? z)%Z && (z <=? int_max t)%Z then Some z
  else if checked then None else Some (int_wrap t z).

(** The type [u8] itself, for [n - b'0'] in src/ascii.rs:162. *)
Definition u8 : int_ty := mkInt 8 false.

(** * Parsers *)

Section Ascii.
  (** Feature flag verbose_error (Cargo.toml:33). *)
  Variable verbose : bool.
  (** Overflow checks (debug build). *)
  Variable checked : bool.

  (** src/ascii.rs:82-84 [skip_whitespace]. *)
  Definition skip_whitespace (i : input byte) : pres byte unit (error byte) :=
    map (fun _ => tt) (take_while is_whitespace i).

  (** src/ascii.rs:101-103 [digit]. *)
  Definition digit (i : input byte) : pres byte byte (error byte) := satisfy verbose is_digit i.

  Section Int.
    Variable T : int_ty.

    (** One step of the fold of src/ascii.rs:162; [None] is a panic. [T::value_from] is the exact injection of [u8] into [T]. *)
    Definition to_decimal_step (a : option Z) (n : byte) : option Z :=
      match a with
      | None => None
      | Some a =>
          match int_result T checked (a * 10) with
          | None => None
          | Some m =>
              match int_result u8 checked (Z.of_N (code n) - Z.of_N (code "0")) with
              | None => None
              | Some d => int_result T checked (m + d)
              end
          end
      end.

    (** src/ascii.rs:161-163 [to_decimal]. *)
    Definition to_decimal (buf : list byte) : option Z := fold_left to_decimal_step buf (Some 0%Z).

    (** src/ascii.rs:150-152 [decimal]. *)
    Definition decimal (i : input byte) : pres byte Z (error byte) :=
      bind (fun e => e) (take_while1 verbose is_digit i)
        (fun i buf => match to_decimal buf with Some v => ret v i | None => Panic end).

    (** src/ascii.rs:123-131 [signed]; [f] is the number parser.  [T::value_from] is the exact injection of [i8] into [T]. *)
    Definition signed (f : parser byte Z (error byte)) (i : input byte) : pres byte Z (error byte) :=
      bind (fun e => e)
        (option_
           (fun i => map (fun s => if byte_eqb s "+" then 1%Z else (-1)%Z)
                       (satisfy verbose (fun c => byte_eqb c "-" || byte_eqb c "+") i))
           1%Z i)
        (fun i sign =>
           match f i with
           | Data j num => match int_result T checked (sign * num) with Some v => Data j v | None => Panic end
           | r => r
           end).
  End Int.
End Ascii.
