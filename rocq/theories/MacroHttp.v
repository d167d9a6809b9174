(** The invocations of [parse!] in examples/http_parser.rs as token trees, and what the Rust code in them means.  No proofs here.
    [Http.v] has the same parsers written out by hand; property C40 shows that the macro makes these of the tokens. *)
From Coq Require Import List Bool Arith.
From Coq.Init Require Import Byte.
From Verif Require Import Base Parsers Combinators Ascii Macro Http.
Import ListNotations.

Set Implicit Arguments.

(** Identifiers of examples/http_parser.rs:67-130. *)
Definition n_token := 10. Definition n_string := 11. Definition n_take_while1 := 12. Definition n_take_till := 13.
Definition n_many1 := 14. Definition n_many := 15.
Definition n_is_http_version := 20. Definition n_is_token := 21. Definition n_is_space := 22. Definition n_is_not_space := 23.
Definition n_is_horizontal_space := 24. Definition n_is_end_of_line := 25.
Definition n_end_of_line := 30. Definition n_http_version := 31. Definition n_request_line := 32. Definition n_message_header_line := 33.
Definition n_message_header := 34.
Definition n_method := 40. Definition n_uri := 41. Definition n_version := 42. Definition n_line := 43. Definition n_name := 44.
Definition n_lines := 45. Definition n_r := 46. Definition n_h := 47.
Definition n_Request := 50. Definition n_Header := 51.
(** Literals ([b'\r'], [b'\n'], [b':'], [b"HTTP/"]) and groups in braces (lines 90-94 and 114-117) of examples/http_parser.rs. *)
Definition o_cr := 0. Definition o_lf := 1. Definition o_colon := 2. Definition o_http := 3. Definition o_request := 4. Definition o_header := 5.

(** A call with one argument, and without: [f(x)], [f()], as tokens in examples/http_parser.rs:67-130. *)
Definition call1 (f : nat) (x : tok) : list tok := [Ident f; Group [x]].
Definition call0 (f : nat) : list tok := [Ident f; Group []].
Definition let_ (x : nat) (e : list tok) : list tok := Let :: Ident x :: Eq :: e ++ [Semi].

(** examples/http_parser.rs:68-71, within [end_of_line]. *)
Definition t_end_of_line : list tok :=
  call1 n_token (Other o_cr) ++ [Semi] ++
  call1 n_token (Other o_lf) ++ [Semi] ++
  [Ident kw_ret; Other o_cr].
(** examples/http_parser.rs:76-79, within [http_version]. *)
Definition t_http_version : list tok :=
  call1 n_string (Other o_http) ++ [Semi] ++
  call1 n_take_while1 (Ident n_is_http_version).
(** examples/http_parser.rs:83-95, within [request_line]. *)
Definition t_request_line : list tok :=
  let_ n_method (call1 n_take_while1 (Ident n_is_token)) ++
  call1 n_take_while1 (Ident n_is_space) ++ [Semi] ++
  let_ n_uri (call1 n_take_while1 (Ident n_is_not_space)) ++
  call1 n_take_while1 (Ident n_is_space) ++ [Semi] ++
  let_ n_version (call0 n_http_version) ++
  [Ident kw_ret; Ident n_Request; Other o_request].
(** examples/http_parser.rs:99-105, within [message_header_line]. *)
Definition t_message_header_line : list tok :=
  call1 n_take_while1 (Ident n_is_horizontal_space) ++ [Semi] ++
  let_ n_line (call1 n_take_till (Ident n_is_end_of_line)) ++
  call0 n_end_of_line ++ [Semi] ++
  [Ident kw_ret; Ident n_line].
(** examples/http_parser.rs:109-118, within [message_header]. *)
Definition t_message_header : list tok :=
  let_ n_name (call1 n_take_while1 (Ident n_is_token)) ++
  call1 n_token (Other o_colon) ++ [Semi] ++
  let_ n_lines (call1 n_many1 (Ident n_message_header_line)) ++
  [Ident kw_ret; Ident n_Header; Other o_header].
(** examples/http_parser.rs:122-129, within [request]. *)
Definition t_request : list tok :=
  let_ n_r (call0 n_request_line) ++
  call0 n_end_of_line ++ [Semi] ++
  let_ n_h (call1 n_many (Ident n_message_header)) ++
  call0 n_end_of_line ++ [Semi] ++
  [Ident kw_ret; Group [Ident n_r; Comma; Ident n_h]].

(** All values of examples/http_parser.rs:67-130 in one type, as the model of the macro has only one. *)
Inductive hval : Type :=
| HByte (b : byte)
| HBytes (l : list byte)
| HRequest (r : request_t)
| HLines (l : list (list byte))
| HHeader (h : header_t)
| HHeaders (l : list header_t)
| HPair (r : request_t) (l : list header_t)
| HNone.

(** rustc's choice for examples/http_parser.rs:67-130, which are of a few forms: expressions of one or two tokens, one parameter or none, patterns which are identifiers; no
    types occur. *)
Definition http_rustc : rustc := {|
  is_expr := fun ts => match ts with [Ident _] | [Other _] | [Group _] | [Ident _; Other _] => true | _ => false end;
  typed := fun _ => None;
  args := fun ts => match ts with [] => Some [] | [Ident n] => Some [[Ident n]] | [Other n] => Some [[Other n]] | _ => None end;
  let_pat := fun ts => match ts with Ident n :: Eq :: rest => Some ([Ident n], rest) | _ => None end;
  let_typed := fun _ => None |}.

(** The value of a variable of examples/http_parser.rs:67-130. *)
Fixpoint hvar (rho : list (binder * hval)) (n : nat) : hval :=
  match rho with
  | [] => HNone
  | (BPat [Ident m], v) :: rho => if m =? n then v else hvar rho n
  | _ :: rho => hvar rho n
  end.
(** The byte literals of examples/http_parser.rs:69-72, 112. *)
Definition hlit (n : nat) : option byte :=
  if n =? o_cr then Some x0d else if n =? o_lf then Some x0a else if n =? o_colon then Some ":"%byte else None.
(** The expressions after [ret]: lines 71, 90-94, 105, 114-117, 129 of examples/http_parser.rs. *)
Definition hexpr (rho : list (binder * hval)) (ts : list tok) : hval :=
  match ts with
  | [Other n] => match hlit n with Some b => HByte b | None => HNone end
  | [Ident n] => hvar rho n
  | [Ident n; Other m] =>
      if (n =? n_Request) && (m =? o_request) then
        match hvar rho n_method, hvar rho n_uri, hvar rho n_version with
        | HBytes a, HBytes b, HBytes c => HRequest (mkRequest a b c)
        | _, _, _ => HNone
        end
      else if (n =? n_Header) && (m =? o_header) then
        match hvar rho n_name, hvar rho n_lines with
        | HBytes a, HLines b => HHeader (mkHeader a b)
        | _, _ => HNone
        end
      else HNone
  | [Group [Ident a; Comma; Ident b]] =>
      match hvar rho a, hvar rho b with
      | HRequest r, HHeaders h => HPair r h
      | _, _ => HNone
      end
  | _ => HNone
  end.

Section Calls.
  Variable verbose : bool.
  (** Fuel for [many] and [many1], as in [Http.v]. *)
  Variable fuel : nat.

  (** Functions named as arguments, examples/http_parser.rs:35-65. *)
  Definition hpred (n : nat) : option (byte -> bool) :=
    if n =? n_is_http_version then Some is_http_version
    else if n =? n_is_token then Some is_token
    else if n =? n_is_space then Some is_space
    else if n =? n_is_not_space then Some is_not_space
    else if n =? n_is_horizontal_space then Some is_horizontal_space
    else if n =? n_is_end_of_line then Some is_end_of_line
    else None.
  (** A parser with its value put into the common type (no counterpart in examples/http_parser.rs). *)
  Definition lift {T} (f : T -> hval) (p : u8_parser T) : u8_parser hval := fun i => map f (p i).
  (** The functions called in examples/http_parser.rs:67-130: those of the library, and those of the example as [Http.v] has them. *)
  Definition hcall (f : nat) (ps : list (list tok)) : u8_parser hval :=
    match ps with
    | [] =>
        if f =? n_end_of_line then lift HByte (end_of_line verbose)
        else if f =? n_http_version then lift HBytes (http_version verbose)
        else if f =? n_request_line then lift HRequest (request_line verbose)
        else fun _ => NoFuel
    | [[Other n]] =>
        if f =? n_token then match hlit n with Some b => lift HByte (token verbose byte_eqb b) | None => fun _ => NoFuel end
        else if (f =? n_string) && (n =? o_http) then lift HBytes (string verbose byte_eqb ["H"; "T"; "T"; "P"; "/"]%byte)
        else fun _ => NoFuel
    | [[Ident n]] =>
        if f =? n_take_while1 then match hpred n with Some p => lift HBytes (take_while1 verbose p) | None => fun _ => NoFuel end
        else if f =? n_take_till then match hpred n with Some p => lift HBytes (take_till p) | None => fun _ => NoFuel end
        else if (f =? n_many1) && (n =? n_message_header_line) then
          lift HLines (many1 fuel (vec_collector (list byte)) tt (pure (message_header_line verbose)))
        else if (f =? n_many) && (n =? n_message_header) then
          lift HHeaders (many fuel (vec_collector header_t) tt (pure (message_header verbose fuel)))
        else fun _ => NoFuel
    | _ => fun _ => NoFuel
    end.
  (** The Rust code in the invocations of examples/http_parser.rs:67-130. *)
  Definition hmeaning : @meaning byte hval (error byte) := {|
    m_value := hexpr;
    m_error := fun _ _ => EPlain;
    m_inline := fun _ _ _ _ => NoFuel;
    m_call := fun _ f ps => hcall f ps |}.

  (** [parse!{i; ts}], src/macros.rs:428-430. *)
  Definition invoke (ts : list tok) : option (u8_parser hval) :=
    match expand_parse http_rustc (Some ts) with
    | Some c => Some (fun i => eval hmeaning c [] [i])
    | None => None
    end.
End Calls.
