(** The programs in the documentation of the library: the crate (src/lib.rs), the macro (src/macros.rs), [IntoInner] (src/parse_result.rs), the
    buffers (src/buffer/mod.rs) and README.md.  No proofs here.

    First the parsers as [parse!] makes them of the text, then the text as token trees with the meaning of the Rust code in it.  Lifetimes are left
    out; numbers of type [u8] are integers with the overflow of [u8] (see Ascii.v). *)
From Coq Require Import List Bool Arith ZArith.
From Coq.Init Require Import Byte.
From Coq.Strings Require Import Byte.
From Verif Require Import Base Parsers Combinators Ascii Macro Http.
Import ListNotations.

Set Implicit Arguments.

(** Closures in the programs: [|c| c != x], src/lib.rs:29, 31; src/macros.rs:33, 35; src/buffer/mod.rs:20, 23. *)
Definition other_than (x c : byte) : bool := negb (byte_eqb c x).
(** [|c| c != b'\r' && c != b'\n'], src/buffer/mod.rs:23. *)
Definition in_line (c : byte) : bool := other_than x0d c && other_than x0a c.
(** [|c| b'0' <= c && c <= b'9'], src/lib.rs:157, README.md:71. *)
Definition zero_to_nine (c : byte) : bool := (Ascii.code "0"%byte <=? Ascii.code c)%N && (Ascii.code c <=? Ascii.code "9"%byte)%N.

(** [struct Name], src/lib.rs:22-25, src/macros.rs:27-30, README.md:87-90. *)
Record name_t : Type := mkName { first_name : list byte; last_name : list byte }.
(** [enum Log], src/macros.rs:82-87. *)
Inductive log_t : Type := LogError | LogWarning | LogInfo | LogDebug.

Section Docs.
  (** Feature [verbose_error]. *)
  Variable verbose : bool.
  (** Overflow checks are compiled in (debug builds). *)
  Variable checked : bool.

  (** [name], src/lib.rs:27-38, src/macros.rs:32-41, README.md:92-103. *)
  Definition doc_name : u8_parser name_t :=
    stmt (take_while1 verbose (other_than " "%byte)) (fun first =>
    stmt (token verbose byte_eqb " "%byte) (fun _ =>
    stmt (take_while1 verbose (other_than x0a)) (fun last =>
    ret (mkName first last)))).

  (** [p <* q], src/macros.rs:528. *)
  Definition skipping {T U} (p : u8_parser T) (q : u8_parser U) : u8_parser T :=
    stmt p (fun l i => map (fun _ => l) (q i)).

  (** [parse_ip], src/macros.rs:59-69. *)
  Definition parse_ip : u8_parser (Z * Z * Z * Z) :=
    stmt (string verbose byte_eqb ["i"; "p"; ":"]%byte) (fun _ =>
    stmt (skipping (decimal verbose checked u8) (token verbose byte_eqb "."%byte)) (fun a =>
    stmt (skipping (decimal verbose checked u8) (token verbose byte_eqb "."%byte)) (fun b =>
    stmt (skipping (decimal verbose checked u8) (token verbose byte_eqb "."%byte)) (fun c =>
    stmt (decimal verbose checked u8) (fun d =>
    stmt (token verbose byte_eqb ";"%byte) (fun _ =>
    ret (a, b, c, d))))))).

  (** [level], src/macros.rs:90. *)
  Definition level (b : list byte) (r : log_t) : u8_parser log_t := fun i => map (fun _ => r) (string verbose byte_eqb b i).
  (** [log_severity], src/macros.rs:91-96; [<|>] is right-associative (src/macros.rs:505). *)
  Definition log_severity : u8_parser log_t :=
    or_ (level ["E"; "R"; "R"; "O"; "R"]%byte LogError)
    (or_ (level ["W"; "A"; "R"; "N"]%byte LogWarning)
    (or_ (level ["I"; "N"; "F"; "O"]%byte LogInfo)
         (level ["D"; "E"; "B"; "U"; "G"]%byte LogDebug))).

  (** [digit] of src/lib.rs:156-158, [read_digit] of README.md:70-72.  The subtraction can overflow, as far as the types say. *)
  Definition read_digit : u8_parser Z := fun i =>
    match satisfy verbose zero_to_nine i with
    | Data j c => match int_result u8 checked (Z.of_N (Ascii.code c) - Z.of_N (Ascii.code "0"%byte)) with Some v => Data j v | None => Panic end
    | Error b e => Error b e
    | Incomplete n => Incomplete n
    | Panic => Panic
    | NoFuel => NoFuel
    end.

  (** [f], src/lib.rs:147-154, README.md:49-56.  The addition can overflow, as far as the types say. *)
  Definition launch : u8_parser (Z * Z * Z) :=
    stmt read_digit (fun a =>
    stmt read_digit (fun b =>
    stmt (string verbose byte_eqb ["m"; "i"; "s"; "s"; "i"; "l"; "e"; "s"]%byte) (fun _ =>
    fun i => match int_result u8 checked (a + b) with Some c => ret (a, b, c) i | None => Panic end))).

  (** The parser of src/buffer/mod.rs:19-24; a statement without [let] binds [_]. *)
  Definition first_heading : u8_parser (list byte) :=
    stmt (take_while (other_than "#"%byte)) (fun _ =>
    stmt (token verbose byte_eqb "#"%byte) (fun _ =>
    stmt (take_while1 verbose Ascii.is_whitespace) (fun _ =>
    take_while1 verbose in_line))).
End Docs.

(** [my_combinator], src/parse_result.rs:409-417.  A panic of [f] goes through. *)
Definition my_combinator {I T E} (f : parser I T E) (default : T) (i : input I) : pres I T E :=
  match f i with
  | Data b d => ret d b
  | Error _ _ => ret default i
  | Incomplete _ => ret default i
  | Panic => Panic
  | NoFuel => NoFuel
  end.

(** * The text *)

(** Identifiers in src/lib.rs:29-36, 149-152; src/macros.rs:33-40, 61-67, 92-95; src/buffer/mod.rs:20-23; README.md:51-54, 94-101. *)
Definition d_take_while1 := 10. Definition d_token := 11. Definition d_string := 12. Definition d_decimal := 13. Definition d_level := 14.
Definition d_digit := 15. Definition d_take_while := 16. Definition d_read_digit := 17.
Definition d_first := 20. Definition d_last := 21. Definition d_a := 22. Definition d_b := 23. Definition d_c := 24. Definition d_d := 25.
Definition d_Name := 30. Definition d_is_whitespace := 31.
(** Literals, closures, paths and groups in braces, each as one token, in
    src/lib.rs:29-36, 149-152; src/macros.rs:33-40, 61-67, 92-95; src/buffer/mod.rs:20-23; README.md:51-54, 94-101. *)
Definition o_space := 0. Definition o_dot := 1. Definition o_semicolon := 2. Definition o_hash := 3.
Definition o_not_space := 10. Definition o_not_newline := 11. Definition o_not_hash := 12. Definition o_not_line_end := 13.
Definition o_ip := 20. Definition o_missiles := 21. Definition o_ERROR := 22. Definition o_WARN := 23. Definition o_INFO := 24. Definition o_DEBUG := 25.
Definition o_name := 30. Definition o_plus := 31.
Definition o_Error := 40. Definition o_Warning := 41. Definition o_Info := 42. Definition o_Debug := 43.
Definition o_any_type := 50. Definition o_error_type := 51.

(** [f(x)], [f()] and [let x = e;] as tokens, as in src/lib.rs:28-37. *)
Definition d_call1 (f : nat) (x : tok) : list tok := [Ident f; Group [x]].
Definition d_call0 (f : nat) : list tok := [Ident f; Group []].
Definition d_let (x : nat) (e : list tok) : list tok := Let :: Ident x :: Eq :: e ++ [Semi].

(** src/lib.rs:29-36, README.md:94-101. *)
Definition t_name : list tok :=
  d_let d_first (d_call1 d_take_while1 (Other o_not_space)) ++
  d_call1 d_token (Other o_space) ++ [Semi] ++
  d_let d_last (d_call1 d_take_while1 (Other o_not_newline)) ++
  [Ident kw_ret; Ident d_Name; Other o_name].
(** src/macros.rs:33-40, with the types of the result written: [ret @ _, Error<_>: Name{..}]. *)
Definition t_name_typed : list tok :=
  d_let d_first (d_call1 d_take_while1 (Other o_not_space)) ++
  d_call1 d_token (Other o_space) ++ [Semi] ++
  d_let d_last (d_call1 d_take_while1 (Other o_not_newline)) ++
  [Ident kw_ret; At; Other o_any_type; Comma; Other o_error_type; Colon; Ident d_Name; Other o_name].
(** src/macros.rs:61-67. *)
Definition t_ip : list tok :=
  d_call1 d_string (Other o_ip) ++ [Semi] ++
  d_let d_a (d_call0 d_decimal ++ [Lt; Star] ++ d_call1 d_token (Other o_dot)) ++
  d_let d_b (d_call0 d_decimal ++ [Lt; Star] ++ d_call1 d_token (Other o_dot)) ++
  d_let d_c (d_call0 d_decimal ++ [Lt; Star] ++ d_call1 d_token (Other o_dot)) ++
  d_let d_d (d_call0 d_decimal) ++
  d_call1 d_token (Other o_semicolon) ++ [Semi] ++
  [Ident kw_ret; Group [Ident d_a; Comma; Ident d_b; Comma; Ident d_c; Comma; Ident d_d]].
(** [level(w, v)], src/macros.rs:92-95. *)
Definition t_level (w v : nat) : list tok := [Ident d_level; Group [Other w; Comma; Other v]].
(** src/macros.rs:92-95. *)
Definition t_log : list tok :=
  t_level o_ERROR o_Error ++ [Lt; Bar; Gt] ++
  t_level o_WARN o_Warning ++ [Lt; Bar; Gt] ++
  t_level o_INFO o_Info ++ [Lt; Bar; Gt] ++
  t_level o_DEBUG o_Debug.
(** [(a, b, a + b)], src/lib.rs:152, README.md:54. *)
Definition t_sum : tok := Group [Ident d_a; Comma; Ident d_b; Comma; Ident d_a; Other o_plus; Ident d_b].
(** src/lib.rs:149-152. *)
Definition t_launch : list tok :=
  d_let d_a (d_call0 d_digit) ++
  d_let d_b (d_call0 d_digit) ++
  d_call1 d_string (Other o_missiles) ++ [Semi] ++
  [Ident kw_ret; t_sum].
(** README.md:51-54: the same as src/lib.rs:149-152, with [read_digit] and a semicolon after the last line. *)
Definition t_launch_readme : list tok :=
  d_let d_a (d_call0 d_read_digit) ++
  d_let d_b (d_call0 d_read_digit) ++
  d_call1 d_string (Other o_missiles) ++ [Semi] ++
  [Ident kw_ret; t_sum; Semi].
(** src/buffer/mod.rs:20-23. *)
Definition t_heading : list tok :=
  d_call1 d_take_while (Other o_not_hash) ++ [Semi] ++
  d_call1 d_token (Other o_hash) ++ [Semi] ++
  d_call1 d_take_while1 (Ident d_is_whitespace) ++ [Semi] ++
  d_call1 d_take_while1 (Other o_not_line_end).

(** All values of the programs (src/lib.rs:22-25, 147; src/macros.rs:59, 82-87) in one type, as the model of the macro has only one. *)
Inductive dval : Type :=
| DByte (b : byte)
| DBytes (l : list byte)
| DName (n : name_t)
| DNum (z : Z)
| DQuad (v : Z * Z * Z * Z)
| DTriple (v : Z * Z * Z)
| DLog (l : log_t)
| DNone.

(** rustc's choice for the programs, which have few forms: expressions of one or two tokens, up to two parameters of one token, patterns which are
    identifiers, types of one token (the form [ret @ t, e: x] of src/macros.rs:464). *)
Definition doc_rustc : rustc := {|
  is_expr := fun ts => match ts with [Ident _] | [Other _] | [Group _] | [Ident _; Other _] => true | _ => false end;
  typed := fun ts => match ts with [Other t; Comma; Other e; Colon; Ident n; Other m] => Some ([Other t], [Other e], [Ident n; Other m]) | _ => None end;
  args := fun ts => match ts with
                    | [] => Some [] | [Ident n] => Some [[Ident n]] | [Other n] => Some [[Other n]]
                    | [Other n; Comma; Other m] => Some [[Other n]; [Other m]] | _ => None
                    end;
  let_pat := fun ts => match ts with Ident n :: Eq :: rest => Some ([Ident n], rest) | _ => None end;
  let_typed := fun _ => None |}.

(** The value of a variable of the programs cited above, as in src/lib.rs:34. *)
Fixpoint dvar (rho : list (binder * dval)) (n : nat) : dval :=
  match rho with
  | [] => DNone
  | (BPat [Ident m], v) :: rho => if m =? n then v else dvar rho n
  | _ :: rho => dvar rho n
  end.

(** The byte literals, byte strings, closures and paths behind the tokens of
    src/lib.rs:29-36, 149-152; src/macros.rs:33-40, 61-67, 92-95; src/buffer/mod.rs:20-23; README.md:51-54, 94-101. *)
Definition dlit (n : nat) : option byte :=
  if n =? o_space then Some " "%byte else if n =? o_dot then Some "."%byte else if n =? o_semicolon then Some ";"%byte
  else if n =? o_hash then Some "#"%byte else None.
Definition dstring (n : nat) : option (list byte) :=
  if n =? o_ip then Some ["i"; "p"; ":"]%byte
  else if n =? o_missiles then Some ["m"; "i"; "s"; "s"; "i"; "l"; "e"; "s"]%byte
  else if n =? o_ERROR then Some ["E"; "R"; "R"; "O"; "R"]%byte
  else if n =? o_WARN then Some ["W"; "A"; "R"; "N"]%byte
  else if n =? o_INFO then Some ["I"; "N"; "F"; "O"]%byte
  else if n =? o_DEBUG then Some ["D"; "E"; "B"; "U"; "G"]%byte
  else None.
Definition dpred (n : nat) : option (byte -> bool) :=
  if n =? o_not_space then Some (other_than " "%byte)
  else if n =? o_not_newline then Some (other_than x0a)
  else if n =? o_not_hash then Some (other_than "#"%byte)
  else if n =? o_not_line_end then Some in_line
  else None.
Definition dlog (n : nat) : option log_t :=
  if n =? o_Error then Some LogError else if n =? o_Warning then Some LogWarning
  else if n =? o_Info then Some LogInfo else if n =? o_Debug then Some LogDebug else None.

Section Calls.
  Variable verbose checked : bool.

  (** The expressions after [ret]: src/lib.rs:33-36; src/macros.rs:37-40, 67.  [a + b] of src/lib.rs:152 can overflow only if a digit is above 127:
      the value then stands for the panic. *)
  Definition dexpr (rho : list (binder * dval)) (ts : list tok) : dval :=
    match ts with
    | [Ident n; Other m] =>
        if (n =? d_Name) && (m =? o_name) then
          match dvar rho d_first, dvar rho d_last with
          | DBytes a, DBytes b => DName (mkName a b)
          | _, _ => DNone
          end
        else DNone
    | [Group [Ident a; Comma; Ident b; Comma; Ident c; Comma; Ident d]] =>
        match dvar rho a, dvar rho b, dvar rho c, dvar rho d with
        | DNum a, DNum b, DNum c, DNum d => DQuad (a, b, c, d)
        | _, _, _, _ => DNone
        end
    | [Group [Ident a; Comma; Ident b; Comma; Ident a'; Other p; Ident b']] =>
        match dvar rho a, dvar rho b, dvar rho a', dvar rho b' with
        | DNum a, DNum b, DNum a', DNum b' =>
            if p =? o_plus then match int_result u8 checked (a' + b') with Some c => DTriple (a, b, c) | None => DNone end else DNone
        | _, _, _, _ => DNone
        end
    | _ => DNone
    end.

  (** A parser with its value put into the common type (no counterpart in src/lib.rs:29-36 and the other programs). *)
  Definition dlift {T} (f : T -> dval) (p : u8_parser T) : u8_parser dval := fun i => map f (p i).
  (** The functions called in the programs cited above (src/lib.rs:29-31 and so on). *)
  Definition dcall (f : nat) (ps : list (list tok)) : u8_parser dval :=
    match ps with
    | [] =>
        if f =? d_decimal then dlift DNum (decimal verbose checked u8)
        else if (f =? d_digit) || (f =? d_read_digit) then dlift DNum (read_digit verbose checked)
        else fun _ => NoFuel
    | [[Other n]] =>
        if f =? d_token then match dlit n with Some b => dlift DByte (token verbose byte_eqb b) | None => fun _ => NoFuel end
        else if f =? d_string then match dstring n with Some s => dlift DBytes (string verbose byte_eqb s) | None => fun _ => NoFuel end
        else if f =? d_take_while1 then match dpred n with Some p => dlift DBytes (take_while1 verbose p) | None => fun _ => NoFuel end
        else if f =? d_take_while then match dpred n with Some p => dlift DBytes (take_while p) | None => fun _ => NoFuel end
        else fun _ => NoFuel
    | [[Ident n]] =>
        if (f =? d_take_while1) && (n =? d_is_whitespace) then dlift DBytes (take_while1 verbose Ascii.is_whitespace) else fun _ => NoFuel
    | [[Other w]; [Other v]] =>
        if f =? d_level then match dstring w, dlog v with Some s, Some r => dlift DLog (level verbose s r) | _, _ => fun _ => NoFuel end
        else fun _ => NoFuel
    | _ => fun _ => NoFuel
    end.
  (** The Rust code in the invocations cited above (src/lib.rs:28-37 and so on). *)
  Definition dmeaning : @meaning byte dval (error byte) := {|
    m_value := dexpr;
    m_error := fun _ _ => EPlain;
    m_inline := fun _ _ _ _ => NoFuel;
    m_call := fun _ f ps => dcall f ps |}.

  (** [parse!{i; ts}], src/macros.rs:428-430, or [parser!{ts}], 601-603. *)
  Definition dinvoke (ts : list tok) : option (u8_parser dval) :=
    match expand_parse doc_rustc (Some ts) with
    | Some c => Some (fun i => eval dmeaning c [] [i])
    | None => None
    end.
End Calls.
