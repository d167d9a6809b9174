(** Specifications for ASCII parsing: decimal notation.  Mentions nothing of the model of src/ascii.rs. *)
From Coq Require Import List Bool ZArith Decimal.
From Coq.Init Require Import Byte.
From Coq.Strings Require Import Byte.
From Coq.Strings Require String.
Import ListNotations.

(** The value of a decimal digit. *)
Definition digit_value (c : byte) : option Z :=
  match c with
  | "0" => Some 0 | "1" => Some 1 | "2" => Some 2 | "3" => Some 3 | "4" => Some 4
  | "5" => Some 5 | "6" => Some 6 | "7" => Some 7 | "8" => Some 8 | "9" => Some 9
  | _ => None
  end%byte%Z.

Definition a_digit (c : byte) : Prop := digit_value c <> None.

(** Positional value: each digit times the power of ten of its place. *)
Fixpoint number (ds : list byte) : Z :=
  match ds with
  | [] => 0
  | c :: r => match digit_value c with Some d => d * 10 ^ Z.of_nat (length r) | None => 0 end + number r
  end%Z.

(** Writing a number down: Coq's own decimal notation ([N.to_uint]) spelled in ASCII. *)
Fixpoint spell (u : uint) : list byte :=
  match u with
  | Nil => []
  | D0 u => "0" :: spell u | D1 u => "1" :: spell u | D2 u => "2" :: spell u | D3 u => "3" :: spell u
  | D4 u => "4" :: spell u | D5 u => "5" :: spell u | D6 u => "6" :: spell u | D7 u => "7" :: spell u
  | D8 u => "8" :: spell u | D9 u => "9" :: spell u
  end%byte.

Definition print (n : N) : list byte := spell (N.to_uint n).

(** With a sign. *)
Definition print_signed (z : Z) : list byte :=
  match z with
  | Zneg p => "-"%byte :: print (Npos p)
  | _ => print (Z.to_N z)
  end.

(** What follows a number: nothing at the end of the input, or something that is not a digit. *)
Definition ends_number (last : bool) (rest : list byte) : Prop :=
  match rest with
  | [] => last = true
  | c :: _ => ~ a_digit c
  end.

(** [v] is [z] reduced modulo 2^[w] into the range [lo] to [hi]. *)
Definition reduced (w lo hi z v : Z) : Prop := (lo <= v <= hi /\ v mod 2 ^ w = z mod 2 ^ w)%Z.

(** The bytes of a literal, for the classifications. *)
Definition bytes (s : String.string) : list byte := String.list_byte_of_string s.
