(** Model of the texts of the library: [Debug], [Display] and [description] of its errors and results, and the messages of its panics.
    No proofs here.  [{:?}] without flags; a formatter which refuses to write is not modelled, so the functions give the whole text.  The
    texts of user types are parameters. *)
From Coq Require Import List Bool Arith NArith String Ascii.
From Coq.Init Require Import Byte.
From Verif Require Import Base Parsers Buffer Stream.
Import ListNotations.
Local Open Scope string_scope.
Local Notation text := String.string.

Set Implicit Arguments.

(** The digits written by std for a [usize], used by src/parse_result.rs:299-301, 378-380 and by the derived implementations. *)
Definition digit_text (n : nat) : text := String (ascii_of_nat (48 + n)) "".
(** std's [Display] and [Debug] for [usize] and [u8] (src/parse_result.rs:300, 379): divide by ten until nothing is left.  Unbounded numbers. *)
Fixpoint nat_digits (fuel n : nat) : text :=
  match fuel with
  | 0 => ""
  | S fuel => if (n <? 10)%nat then digit_text n else nat_digits fuel (n / 10) ++ digit_text (n mod 10)
  end.
(** The same with fuel enough: the text of a [usize], src/parse_result.rs:300, 379. *)
Definition nat_text (n : nat) : text := nat_digits (S n) n.
(** The text of a [u8], the usual type of items (src/parsers.rs:441, 443). *)
Definition byte_text (b : byte) : text := nat_text (N.to_nat (Byte.to_N b)).

(** std's [Debug] for [Vec<I>] and [&[I]] (src/parsers.rs:443, src/parse_result.rs:28, src/parse.rs:10). *)
Definition list_text {A} (show : A -> text) (l : list A) : text := "[" ++ concat ", " (List.map show l) ++ "]".

(** What [#[derive(Debug)]] writes for a tuple variant or struct: src/parsers.rs:416, 496; src/parse_result.rs:17, 82; src/input.rs:77;
    src/parse.rs:6; src/buffer/mod.rs:51. *)
Definition tuple_text (name : text) (fields : list text) : text :=
  match fields with
  | [] => name
  | _ => name ++ "(" ++ concat ", " fields ++ ")"
  end.

Section Items.
  Context {I : Type}.
  Variable show : I -> text.
  (** The text of [PhantomData<I>], which depends on the version of std; src/parsers.rs:497. *)
  Variable phantom : text.

  (** src/parsers.rs:416-424 and 496-497: the derived [Debug for Error]. *)
  Definition error_debug (e : error I) : text :=
    match e with
    | Expected c => tuple_text "Expected" [show c]
    | Unexpected => tuple_text "Unexpected" []
    | EString s => tuple_text "String" [list_text show s]
    | EPlain => tuple_text "Error" [phantom]
    end.

  (** src/parsers.rs:437-446 and 510-514: [Display for Error]. *)
  Definition error_display (e : error I) : text :=
    match e with
    | Expected c => "expected " ++ show c
    | Unexpected => "unexpected"
    | EString s => "expected " ++ list_text show s
    | EPlain => "generic parse error (chomp was compiled without --feature verbose_error)"
    end.

  (** src/parsers.rs:449-458 and 517-521: [description] of [error::Error for Error]. *)
  Definition error_description (e : error I) : text :=
    match e with
    | Expected _ => "expected a certain token, received another"
    | Unexpected => "received an unexpected token"
    | EString _ => "expected a certain string of tokens, encountered an unexpected token"
    | EPlain => "generic parse error (chomp was compiled without --feature verbose_error)"
    end.

  Context {T E : Type}.
  Variable show_t : T -> text.
  Variable show_e : E -> text.

  (** src/parse.rs:6-13: the derived [Debug for ParseError]. *)
  Definition parse_error_debug (e : parse_error I E) : text :=
    match e with
    | PErr b e => tuple_text "Error" [list_text show b; show_e e]
    | PIncomplete n => tuple_text "Incomplete" [nat_text n]
    end.

  (** src/buffer/mod.rs:51-66: the derived [Debug for StreamError]; [show_io] is std's [Debug for io::Error]. *)
  Definition stream_error_debug (show_io : nat -> text) (e : stream_error I E) : text :=
    match e with
    | SParseError b e => tuple_text "ParseError" [list_text show b; show_e e]
    | SIncomplete n => tuple_text "Incomplete" [nat_text n]
    | SIoError e => tuple_text "IoError" [show_io e]
    | SEndOfInput => tuple_text "EndOfInput" []
    | SRetry => tuple_text "Retry" []
    end.

  (** src/input.rs:77-78: the derived [Debug for Input]; [mode] is what bitflags writes for an [InputMode] (src/input.rs:4-11). *)
  Definition input_debug (mode : bool -> text) (i : input I) : text :=
    tuple_text "Input" [mode (last i); list_text show (buf i)].

  (** src/parse_result.rs:17-31 and 82-83: the derived [Debug for State] and [ParseResult].  A panic or an endless loop gives no result, so no
      text. *)
  Definition pres_debug (mode : bool -> text) (r : pres I T E) : option text :=
    let parse_result s := Some (tuple_text "ParseResult" [s]) in
    match r with
    | Data i t => parse_result (tuple_text "Data" [input_debug mode i; show_t t])
    | Error b e => parse_result (tuple_text "Error" [list_text show b; show_e e])
    | Incomplete n => parse_result (tuple_text "Incomplete" [nat_text n])
    | Panic => None
    | NoFuel => None
    end.

  (** src/parse_result.rs:295-303 [unwrap]: the value, or the message of the panic.  [None]: there is no result to unwrap. *)
  Definition unwrap_says (r : pres I T E) : option (T + text) :=
    match r with
    | Data _ t => Some (inl t)
    | Error _ e => Some (inr ("called `ParseResult::unwrap` on an error: " ++ show_e e))
    | Incomplete n => Some (inr ("called `ParseResult::unwrap` on an incomplete state (requested " ++ nat_text n ++ " tokens)"))
    | Panic => None
    | NoFuel => None
    end.

  (** src/parse_result.rs:328-334 [expect]. *)
  Definition expect_says (msg : text) (r : pres I T E) : option (T + text) :=
    match r with
    | Data _ t => Some (inl t)
    | Error _ e => Some (inr (msg ++ ": " ++ show_e e))
    | Incomplete _ => Some (inr (msg ++ ": Parser in an incomplete state"))
    | Panic => None
    | NoFuel => None
    end.

  (** src/parse_result.rs:372-382 [unwrap_err]. *)
  Definition unwrap_err_says (r : pres I T E) : option (E + text) :=
    match r with
    | Data _ t => Some (inr ("called `ParseResult::unwrap_err` on a success state: " ++ show_t t))
    | Error _ e => Some (inl e)
    | Incomplete n => Some (inr ("called `ParseResult::unwrap_err` on an incomplete state (requested " ++ nat_text n ++ " tokens)"))
    | Panic => None
    | NoFuel => None
    end.
End Items.
