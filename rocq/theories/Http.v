(** Model of examples/http_parser.rs.  [parse!] is written out as it expands (property C40): a statement is a [bind].  No proofs here. *)
From Coq Require Import List Bool Arith NArith.
From Coq.Init Require Import Byte.
From Coq.Strings Require Import Byte.
From Verif Require Import Base Parsers Combinators Ascii Buffer Stream.
Import ListNotations.

Set Implicit Arguments.

(** examples/http_parser.rs:22-27 [struct Request]. *)
Record request_t : Type := mkRequest { method : list byte; uri : list byte; version : list byte }.

(** examples/http_parser.rs:29-33 [struct Header]. *)
Record header_t : Type := mkHeader { name : list byte; value : list (list byte) }.

(** examples/http_parser.rs:35-59 [is_token]; the range patterns first, then the single bytes ([x5c] is the backslash, [x22] the double quote). *)
Definition is_token (c : byte) : bool :=
  if (128 <=? code c)%N && (code c <=? 255)%N then false
  else if (code c <=? 31)%N then false
  else match c with
       | "("%byte | ")"%byte | "<"%byte | ">"%byte | "@"%byte | ","%byte | ";"%byte | ":"%byte | x5c | x22 | "/"%byte
       | "["%byte | "]"%byte | "?"%byte | "="%byte | "{"%byte | "}"%byte | " "%byte => false
       | _ => true
       end.

(** examples/http_parser.rs:61-65. *)
Definition is_horizontal_space (c : byte) : bool := byte_eqb c " " || byte_eqb c x09.
Definition is_space (c : byte) : bool := byte_eqb c " ".
Definition is_not_space (c : byte) : bool := negb (byte_eqb c " ").
Definition is_end_of_line (c : byte) : bool := byte_eqb c x0d || byte_eqb c x0a.
Definition is_http_version (c : byte) : bool := (code "0" <=? code c)%N && (code c <=? code "9")%N || byte_eqb c ".".

(** src/buffer/buffer.rs:9. *)
Definition default_buffer_size : nat := 6 * 1024.

(** A parser over bytes with the error type of src/parsers.rs ([U8Result], src/lib.rs). *)
Definition u8_parser (T : Type) : Type := parser byte T (error byte).

Section Http.
  (** Feature [verbose_error]. *)
  Variable verbose : bool.

  (** A statement [let x = p; k] of [parse!], src/macros.rs:455; [From] is the identity. *)
  Definition stmt {T U} (p : u8_parser T) (k : T -> u8_parser U) : u8_parser U :=
    fun i => bind (fun e => e) (p i) (fun i t => k t i).

  (** examples/http_parser.rs:67-73 [end_of_line]. *)
  Definition end_of_line : u8_parser byte :=
    or_ (stmt (token verbose byte_eqb x0d) (fun _ =>
         stmt (token verbose byte_eqb x0a) (fun _ =>
         ret x0d)))
        (token verbose byte_eqb x0a).

  (** examples/http_parser.rs:75-80 [http_version]. *)
  Definition http_version : u8_parser (list byte) :=
    stmt (string verbose byte_eqb ["H"; "T"; "T"; "P"; "/"]%byte) (fun _ =>
    take_while1 verbose is_http_version).

  (** examples/http_parser.rs:82-96 [request_line]. *)
  Definition request_line : u8_parser request_t :=
    stmt (take_while1 verbose is_token) (fun method =>
    stmt (take_while1 verbose is_space) (fun _ =>
    stmt (take_while1 verbose is_not_space) (fun uri =>
    stmt (take_while1 verbose is_space) (fun _ =>
    stmt http_version (fun version =>
    ret (mkRequest method uri version)))))).

  (** examples/http_parser.rs:98-106 [message_header_line]. *)
  Definition message_header_line : u8_parser (list byte) :=
    stmt (take_while1 verbose is_horizontal_space) (fun _ =>
    stmt (take_till is_end_of_line) (fun line =>
    stmt end_of_line (fun _ =>
    ret line))).

  (** examples/http_parser.rs:108-119 [message_header].  [fuel] bounds the number of calls of [next()] in [many1]; collected into a [Vec]. *)
  Definition message_header (fuel : nat) : u8_parser header_t :=
    stmt (take_while1 verbose is_token) (fun name =>
    stmt (token verbose byte_eqb ":"%byte) (fun _ =>
    stmt (many1 fuel (vec_collector (list byte)) tt (pure message_header_line)) (fun lines =>
    ret (mkHeader name lines)))).

  (** examples/http_parser.rs:121-130 [request], with fuel for [many], [many1]. *)
  Definition request_fuel (fuel : nat) : u8_parser (request_t * list header_t) :=
    stmt request_line (fun r =>
    stmt end_of_line (fun _ =>
    stmt (many fuel (vec_collector header_t) tt (pure (message_header fuel))) (fun h =>
    stmt end_of_line (fun _ =>
    ret (r, h))))).

  (** examples/http_parser.rs:121-130 [request]: the fuel is always enough, see C41. *)
  Definition request : u8_parser (request_t * list header_t) := fun i => request_fuel (length (buf i) + 2) i.

  (** examples/http_parser.rs:138-145: the loop of [main], for any source and buffer.  [n] is the count.  [Panicked]: the [panic!] of line 143 (or one
      in the parser).  [Stuck]: out of fuel. *)
  Fixpoint main_loop {St B} (ds : data_source St byte) (ops : buffer_ops byte B) (fuel : nat) (i : src St B) (n : nat) : run nat :=
    match fuel with
    | 0 => Stuck
    | S fuel =>
        let! (i, r) := src_parse ds ops request i in
        match r with
        | inl _ => main_loop ds ops fuel i (S n)
        | inr SRetry => main_loop ds ops fuel i n
        | inr SEndOfInput => Done n
        | inr _ => Panicked
        end
    end.

  (** examples/http_parser.rs:135-147 [main], given the opened file: [Source::new] (src/buffer/stateful.rs:46-48) has a
      [FixedSizeBuffer] of the default size (src/buffer/buffer.rs:76-78).  The result is the number printed. *)
  Definition http_main {St} (ds : data_source St byte) (fuel : nat) (file : St) : run nat :=
    let! b := fixed_with_size default_buffer_size in
    main_loop ds (fixed_ops byte) fuel (src_with_buffer file b) 0.
End Http.
