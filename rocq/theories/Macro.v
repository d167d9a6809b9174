(** Model of the macros of src/macros.rs: [parse!], [__parse_internal!], [parser!].  No proofs here.

    Token trees ([tt]) are modelled as far as the macro distinguishes them.  What rustc's own parser decides for the fragments [$expr],
    [$ty], [$pat] is a parameter ([rustc]).  The emitted Rust code is modelled as a syntax tree ([code]) with a semantics ([eval]) in terms of
    the modelled library.  Not modelled: the recursion limit of rustc, hygiene (the identifiers [i] and [l] introduced by the macro are
    distinct from the user's), type checking. *)
From Coq Require Import List Bool Arith.
From Verif Require Import Base Combinators.
Import ListNotations.

Set Implicit Arguments.

(** Rust token trees as matched by [$t:tt] in src/macros.rs:429.  [>>] is one token; [<|>] are three, [<*] two (src/macros.rs:482, 505, 528).
    [Group] is a parenthesised group; [Other] any other token or group; [Ident] an identifier which is not a keyword. *)
Inductive tok : Type :=
| Semi | Shr | Lt | Bar | Gt | Star | At | Comma | Colon | Eq | Arrow | Let
| Ident (n : nat)
| Group (l : list tok)
| Other (n : nat).

(** The identifiers [ret] and [err], src/macros.rs:464-470. *)
Definition kw_ret : nat := 0.
Definition kw_err : nat := 1.

(** rustc's matching of fragments in the rules of src/macros.rs: *)
Record rustc : Type := mkRustc {
  (** [$e:expr] up to the end (lines 466, 470, 474). *)
  is_expr : list tok -> bool;
  (** [$t_ty:ty , $e_ty:ty : $e:expr] up to the end (lines 464, 468). *)
  typed : list tok -> option (list tok * list tok * list tok);
  (** [$($param:expr),* $(,)*] up to the end (line 476). *)
  args : list tok -> option (list (list tok));
  (** [$name:pat =] and what follows (line 576). *)
  let_pat : list tok -> option (list tok * list tok);
  (** [$name:ident : $name_ty:ty =] and what follows (line 578). *)
  let_typed : list tok -> option (nat * list tok * list tok) }.

(** What a closure binds besides the input: src/macros.rs:454-456. *)
Inductive binder : Type :=
| BUnder
| BPat (p : list tok)
| BTyped (n : nat) (t : list tok).

(** The emitted code.  An input is referred to by its de Bruijn index: the number of closures [|i, _|], [|i|] between its binding and its
    use. The right-hand sides of src/macros.rs:428-597. *)
Inductive code : Type :=
| CInput (i : nat)                                          (* src/macros.rs:584-585: [$input] *)
| CRet (i : nat) (e : list tok)                             (* line 466: [$input.ret($e)] *)
| CRetTyped (i : nat) (t u e : list tok)                    (* line 464: [$input.ret::<$t_ty, $e_ty>($e)] *)
| CErr (i : nat) (e : list tok)                             (* line 470: [$input.err($e)] *)
| CErrTyped (i : nat) (t u e : list tok)                    (* line 468: [$input.err::<$t_ty, $e_ty>($e)] *)
| CInline (s i : nat) (e : list tok)                        (* line 474: [{ let $state = $input; $e }] *)
| CCall (f i : nat) (ps : list (list tok))                  (* line 476: [$func($input, $($param),* )] *)
| CBind (c : code) (b : binder) (k : code)                  (* lines 454-456, 482: [c.bind(|i, b| k)] *)
| COr (i : nat) (a b : code)                                (* lines 439, 505: [or($input, |i| a, |i| b)] *)
| CSkip (a b : code).                                       (* line 528: [a.bind(|i, l| b.map(|_| l))] *)

(** * Looking for an operator *)

(** The tokens of the operators: [>>] (src/macros.rs:482), [<|>] (505), [<*] (528), [;] (544). *)
Definition op_shr (ts : list tok) : option (list tok) := match ts with Shr :: t => Some t | _ => None end.
Definition op_alt (ts : list tok) : option (list tok) := match ts with Lt :: Bar :: Gt :: t => Some t | _ => None end.
Definition op_skip (ts : list tok) : option (list tok) := match ts with Lt :: Star :: t => Some t | _ => None end.
Definition op_semi (ts : list tok) : option (list tok) := match ts with Semi :: t => Some t | _ => None end.

(** The kinds of rules in src/macros.rs:480-500, 503-523, 526-540, 543-569: [k] tokens and the end, [k] tokens and the operator, [k] tokens and more. *)
Inductive rule : Type :=
| AtEnd (k : nat)
| AtOp (k : nat)
| More (k : nat).

(** Outcome of a rule (src/macros.rs:480-569): what has been collected, and the tokens behind the operator, or those left to look at. *)
Inductive found : Type :=
| Ended (lhs : list tok)
| Found (lhs tail : list tok)
| Going (lhs tail : list tok).

(** One rule, src/macros.rs:480-569; [$($lhs)*] is [lhs]. *)
Definition apply_rule (op : list tok -> option (list tok)) (lhs ts : list tok) (r : rule) : option found :=
  match r with
  | AtEnd k => if length ts =? k then Some (Ended (lhs ++ ts)) else None
  | AtOp k => match op (skipn k ts) with Some tail => Some (Found (lhs ++ firstn k ts) tail) | None => None end
  | More k => if k <=? length ts then Some (Going (lhs ++ firstn k ts) (skipn k ts)) else None
  end.

(** The first rule that matches (macro_rules of Rust), src/macros.rs:480-569. *)
Fixpoint first_rule (op : list tok -> option (list tok)) (rules : list rule) (lhs ts : list tok) : option found :=
  match rules with
  | [] => None
  | r :: rules => match apply_rule op lhs ts r with Some f => Some f | None => first_rule op rules lhs ts end
  end.

(** Rules applied until the operator or the end is met.  Every round eats tokens, hence the bound (src/macros.rs:500, 523, 540, 569). *)
Fixpoint munch (op : list tok -> option (list tok)) (rules : list rule) (fuel : nat) (lhs ts : list tok) : option (list tok * option (list tok)) :=
  match fuel with
  | 0 => None
  | S fuel =>
      match first_rule op rules lhs ts with
      | Some (Ended l) => Some (l, None)
      | Some (Found l tail) => Some (l, Some tail)
      | Some (Going l tail) => munch op rules fuel l tail
      | None => None
      end
  end.
(** From the start, with nothing collected: [@EXPR($input;) ...], src/macros.rs:453, 480, 503, 576. *)
Definition search (op : list tok -> option (list tok)) (rules : list rule) (ts : list tok) : option (list tok * option (list tok)) :=
  munch op rules (S (length ts)) [] ts.

(** src/macros.rs:480-500 ([@EXPR]) in the order of the source; src/macros.rs:503-523 ([@EXPR_ALT]) likewise. *)
Definition expr_rules : list rule :=
  [AtEnd 0; AtOp 0; AtEnd 1; AtOp 1; AtEnd 2; AtOp 2; AtEnd 3; AtOp 3; AtEnd 4; AtOp 4; AtEnd 5; AtOp 5; AtEnd 6; AtOp 6; AtEnd 7; AtOp 7; More 8].
Definition alt_rules : list rule :=
  [AtEnd 0; AtOp 0; AtEnd 1; AtOp 1; AtEnd 2; AtOp 2; AtEnd 3; AtOp 3; AtEnd 4; AtOp 4; AtEnd 5; AtOp 5; AtEnd 6; AtOp 6; AtEnd 7; AtOp 7; More 8].
(** src/macros.rs:526-540 ([@EXPR_SKIP]). *)
Definition skip_rules : list rule :=
  [AtEnd 0; AtOp 0; AtEnd 1; AtOp 1; AtEnd 2; AtOp 2; AtEnd 3; AtOp 3; AtEnd 4; AtOp 4; More 5].
(** src/macros.rs:543-569 ([@STATEMENT]). *)
Definition statement_rules : list rule :=
  [AtEnd 0; AtOp 0; AtEnd 1; AtOp 1; AtEnd 2; AtOp 2; AtEnd 3; AtOp 3; AtEnd 4; AtOp 4; AtEnd 5; AtOp 5; AtEnd 6; AtOp 6; AtEnd 7; AtOp 7;
   AtEnd 8; AtOp 8; AtEnd 9; AtOp 9; AtEnd 10; AtOp 10; More 11].

Section Expand.
  Variable rc : rustc.

  (** src/macros.rs:466, 470: [$e:expr]; nothing else may follow, and something must be there. *)
  Definition whole_expr (ts : list tok) : bool := match ts with [] => false | _ => is_expr rc ts end.

  (** src/macros.rs:458-476 ([@TERM]), in the order of the rules; an [$e:expr] which is none is an error of rustc and no later rule is tried.  [inner] expands the tokens in parentheses ([@EXPR], line 472).  [None]: the macro does not
      compile. *)
  Definition expand_term (inner : list tok -> option code) (input : nat) (ts : list tok) : option code :=
    match ts with
    | Ident f :: rest =>
        if f =? kw_ret then
          match rest with
          | At :: r =>
              match typed rc r with
              | Some (t, u, e) => Some (CRetTyped input t u e)
              | None => if whole_expr rest then Some (CRet input rest) else None
              end
          | _ => if whole_expr rest then Some (CRet input rest) else None
          end
        else if f =? kw_err then
          match rest with
          | At :: r =>
              match typed rc r with
              | Some (t, u, e) => Some (CErrTyped input t u e)
              | None => if whole_expr rest then Some (CErr input rest) else None
              end
          | _ => if whole_expr rest then Some (CErr input rest) else None
          end
        else
          match rest with
          | Arrow :: e => if whole_expr e then Some (CInline f input e) else None
          | [Group l] => match args rc l with Some ps => Some (CCall f input ps) | None => None end
          | _ => None
          end
    | [Group l] => inner l
    | _ => None
    end.

  (** src/macros.rs:480-540: [@EXPR], [@EXPR_ALT], [@EXPR_SKIP].  [fuel] bounds the depth. *)
  Fixpoint expand_expr (fuel input : nat) (ts : list tok) : option code :=
    match fuel with
    | 0 => None
    | S fuel =>
        match search op_shr expr_rules ts with
        | Some (lhs, None) => expand_alt fuel input lhs
        | Some (lhs, Some tail) =>
            match expand_alt fuel input lhs, expand_expr fuel 0 tail with
            | Some a, Some b => Some (CBind a BUnder b)
            | _, _ => None
            end
        | None => None
        end
    end
  with expand_alt (fuel input : nat) (ts : list tok) : option code :=
    match fuel with
    | 0 => None
    | S fuel =>
        match search op_alt alt_rules ts with
        | Some (lhs, None) => expand_skip fuel input lhs
        | Some (lhs, Some tail) =>
            match expand_skip fuel 0 lhs, expand_alt fuel 0 tail with
            | Some a, Some b => Some (COr input a b)
            | _, _ => None
            end
        | None => None
        end
    end
  with expand_skip (fuel input : nat) (ts : list tok) : option code :=
    match fuel with
    | 0 => None
    | S fuel =>
        match search op_skip skip_rules ts with
        | Some (lhs, None) => expand_term (expand_expr fuel input) input lhs
        | Some (lhs, Some tail) =>
            match expand_term (expand_expr fuel input) input lhs, expand_skip fuel 0 tail with
            | Some a, Some b => Some (CSkip a b)
            | _, _ => None
            end
        | None => None
        end
    end.

  (** src/macros.rs:453-456 ([@BIND]): the statement [exp] and what follows it.  [rest] expands the latter. *)
  Definition expand_bind (fuel : nat) (rest : list tok -> option code) (input : nat) (b : binder) (exp tail : list tok) : option code :=
    match exp, tail, b with
    | [], _, _ => None
    | _, [], BUnder => expand_expr fuel input exp
    | _, [], _ => None
    | _, _, _ =>
        match expand_expr fuel input exp, rest tail with
        | Some e, Some k => Some (CBind e b k)
        | _, _ => None
        end
    end.

  (** src/macros.rs:576-580: the three rules for a statement; [$($tail:tt)+] is not empty. *)
  Definition statement_head (ts : list tok) : binder * list tok :=
    match ts with
    | Let :: v =>
        match let_pat rc v with
        | Some (p, t :: rest) => (BPat p, t :: rest)
        | _ =>
            match let_typed rc v with
            | Some (n, ty, t :: rest) => (BTyped n ty, t :: rest)
            | _ => (BUnder, ts)
            end
        end
    | _ => (BUnder, ts)
    end.

  (** src/macros.rs:543-585: [@STATEMENT] and the public rules, for what follows [$input ;]. *)
  Fixpoint expand_block (fuel input : nat) (ts : list tok) : option code :=
    match fuel with
    | 0 => None
    | S fuel =>
        match ts with
        | [] => Some (CInput input)
        | _ =>
            let (b, body) := statement_head ts in
            match search op_semi statement_rules body with
            | Some (exp, tail) => expand_bind fuel (expand_block fuel 0) input b exp (match tail with Some t => t | None => [] end)
            | None => None
            end
        end
    end.
End Expand.

(** Size of token trees, for the fuel; no counterpart in src/macros.rs (rustc's recursion limit is not modelled). *)
Fixpoint tok_size (t : tok) : nat :=
  match t with
  | Group l => S (list_sum (List.map tok_size l))
  | _ => 1
  end.
(** The same for the arguments of a macro, src/macros.rs:429. *)
Definition toks_size (ts : list tok) : nat := list_sum (List.map tok_size ts).

(** src/macros.rs:428-430 [parse!] for [parse!{$input; ts}] ([Some ts]) and [parse!{$input}] ([None]). *)
Definition expand_parse (rc : rustc) (ts : option (list tok)) : option code :=
  match ts with
  | None => Some (CInput 0)
  | Some ts => expand_block rc (4 * toks_size ts + 4) 0 ts
  end.

(** src/macros.rs:601-603 [parser!]: the body of the closure [|i| ...]. *)
Definition expand_parser (rc : rustc) (ts : list tok) : option code := expand_parse rc (Some ts).

(** * What the emitted code does *)
Section Eval.
  Context {I V E : Type}.

  (** Values bound so far, latest first: the parameters of the closures of src/macros.rs:454-456. *)
  Definition env := list (binder * V).
  (** The user's Rust code (a parameter): expressions, and parsers which are called or written inline, src/macros.rs:464-476. *)
  Record meaning : Type := mkMeaning {
    m_value : env -> list tok -> V;
    m_error : env -> list tok -> E;
    m_inline : env -> nat -> list tok -> parser I V E;
    m_call : env -> nat -> list (list tok) -> parser I V E }.
  Variable m : meaning.

  (** Use of the variable of index [i], [$input] in src/macros.rs:453-528; code out of scope is the dummy [NoFuel]. *)
  Definition with_input (ins : list (input I)) (i : nat) (f : input I -> pres I V E) : pres I V E :=
    match nth_error ins i with Some x => f x | None => NoFuel end.

  (** The pattern [_] binds nothing, src/macros.rs:454, 482. *)
  Definition bound (b : binder) (v : V) (rho : env) : env :=
    match b with
    | BUnder => rho
    | _ => (b, v) :: rho
    end.

  (** Rust's evaluation of the emitted code (see [code] for the lines), all values having the same type, all errors too ([From] is the
      identity).  The dummy [NoFuel] for [CInput], which is no parser result. *)
  Fixpoint eval (c : code) (rho : env) (ins : list (input I)) : pres I V E :=
    match c with
    | CInput _ => NoFuel
    | CRet i e => with_input ins i (ret (m_value m rho e))
    | CRetTyped i _ _ e => with_input ins i (ret (m_value m rho e))
    | CErr i e => with_input ins i (err (m_error m rho e))
    | CErrTyped i _ _ e => with_input ins i (err (m_error m rho e))
    | CInline s i e => with_input ins i (m_inline m rho s e)
    | CCall f i ps => with_input ins i (m_call m rho f ps)
    | CBind c b k => bind (fun e => e) (eval c rho ins) (fun i v => eval k (bound b v rho) (i :: ins))
    | COr i a b => with_input ins i (or_ (fun i => eval a rho (i :: ins)) (fun i => eval b rho (i :: ins)))
    | CSkip a b => bind (fun e => e) (eval a rho ins) (fun i l => map (fun _ => l) (eval b rho (i :: ins)))
    end.
End Eval.
