(** Specification of [parse!]: the grammar documented in src/macros.rs:102-135, and what its phrases mean (src/macros.rs:10-100, the prose of
    the documentation).  Independent of the macro rules. *)
From Coq Require Import List Bool Arith.
From Verif Require Import Base Combinators Macro.
Import ListNotations.

Set Implicit Arguments.

(** Phrases. *)
Inductive expr : Type :=
| EThen (a b : expr)                                        (* a >> b *)
| EAlt (a b : expr)                                         (* a <|> b *)
| ESkip (a b : expr)                                        (* a <* b *)
| ERet (e : list tok)
| ERetTyped (t u e : list tok)
| EErr (e : list tok)
| EErrTyped (t u e : list tok)
| EInline (s : nat) (e : list tok)
| ENamed (f : nat) (ps : list (list tok)).

Inductive block : Type :=
| BLast (e : expr)
| BDo (e : expr) (k : block)                                (* e; k *)
| BLet (v : binder) (e : expr) (k : block).                 (* let v = e; k *)

(** What rustc's fragments are made of. *)
Record lawful (rc : rustc) : Prop := {
  law_expr : is_expr rc [] = false;
  law_let_pat : forall v p rest, let_pat rc v = Some (p, rest) -> v = p ++ Eq :: rest;
  law_let_typed : forall v x ty rest, let_typed rc v = Some (x, ty, rest) -> v = Ident x :: Colon :: ty ++ Eq :: rest;
  (** No pattern contains a [:] at the top. *)
  law_let : forall v, let_pat rc v <> None -> let_typed rc v = None;
  law_typed : forall r t u e, typed rc r = Some (t, u, e) -> r = t ++ Comma :: u ++ Colon :: e;
  (** A [;] occurs in Rust expressions and types within groups only. *)
  law_expr_semi : forall e, is_expr rc e = true -> ~ In Semi e;
  law_typed_semi : forall r x, typed rc r = Some x -> ~ In Semi r;
  (** [@] starts no Rust expression. *)
  law_at : forall r, is_expr rc (At :: r) = false }.

(** No operator of the grammar among the tokens themselves (in groups they may occur). *)
Definition plain (ts : list tok) : Prop :=
  (forall l r, ts <> l ++ Shr :: r) /\
  (forall l r, ts <> l ++ Lt :: Bar :: Gt :: r) /\
  (forall l r, ts <> l ++ Lt :: Star :: r) /\
  (forall l r, ts <> l ++ Semi :: r).

Section Grammar.
  Variable rc : rustc.
  (** Which runs of tokens may stand for the Rust code in a term.  [fun _ => True] is the grammar to the letter; it is ambiguous, since [a >> b]
      is a Rust expression too. *)
  Variable leaf : list tok -> Prop.

  (** May a [;] follow the last expression?  Not according to the grammar. *)
  Variable trailing : Prop.

  (** Expr, ExprAlt, ExprSkip, Term of the grammar. *)
  Inductive g_expr : list tok -> expr -> Prop :=
  | g_expr_alt l a : g_alt l a -> g_expr l a
  | g_expr_then l a r b : g_alt l a -> g_expr r b -> g_expr (l ++ Shr :: r) (EThen a b)
  with g_alt : list tok -> expr -> Prop :=
  | g_alt_skip l a : g_skip l a -> g_alt l a
  | g_alt_alt l a r b : g_skip l a -> g_alt r b -> g_alt (l ++ Lt :: Bar :: Gt :: r) (EAlt a b)
  with g_skip : list tok -> expr -> Prop :=
  | g_skip_term l a : g_term l a -> g_skip l a
  | g_skip_skip l a r b : g_term l a -> g_skip r b -> g_skip (l ++ Lt :: Star :: r) (ESkip a b)
  with g_term : list tok -> expr -> Prop :=
  | g_ret_typed r t u e : leaf r -> typed rc r = Some (t, u, e) -> g_term (Ident kw_ret :: At :: r) (ERetTyped t u e)
  | g_ret e : leaf e -> is_expr rc e = true -> g_term (Ident kw_ret :: e) (ERet e)
  | g_err_typed r t u e : leaf r -> typed rc r = Some (t, u, e) -> g_term (Ident kw_err :: At :: r) (EErrTyped t u e)
  | g_err e : leaf e -> is_expr rc e = true -> g_term (Ident kw_err :: e) (EErr e)
  | g_paren l a : g_expr l a -> g_term [Group l] a
  | g_inline s e : s <> kw_ret -> s <> kw_err -> leaf e -> is_expr rc e = true -> g_term (Ident s :: Arrow :: e) (EInline s e)
  | g_named f l ps : f <> kw_ret -> f <> kw_err -> args rc l = Some ps -> g_term [Ident f; Group l] (ENamed f ps).

  (** Block and Statement of the grammar. *)
  Inductive g_block : list tok -> block -> Prop :=
  | g_last l e : g_expr l e -> g_block l (BLast e)
  | g_last_semi l e : trailing -> g_expr l e -> g_block (l ++ [Semi]) (BLast e)
  | g_do l e r k : g_expr l e -> g_block r k -> g_block (l ++ Semi :: r) (BDo e k)
  | g_let_pat v p l e r k :
      let_pat rc v = Some (p, l ++ Semi :: r) -> g_expr l e -> g_block r k -> g_block (Let :: v) (BLet (BPat p) e k)
  | g_let_typed v x ty l e r k :
      let_typed rc v = Some (x, ty, l ++ Semi :: r) -> g_expr l e -> g_block r k ->
      g_block (Let :: v) (BLet (BTyped x ty) e k).
End Grammar.

(** What a phrase means: running it on an input, with the values bound so far, has a result. *)
Section Meaning.
  Context {I V E : Type}.
  Variable m : @meaning I V E.

  (** A result which is no success is passed on. *)
  Definition failure (r : pres I V E) : Prop := forall i v, r <> Data i v.

  Inductive runs : expr -> env -> input I -> pres I V E -> Prop :=
  | r_ret rho i e : runs (ERet e) rho i (Data i (m_value m rho e))
  | r_ret_typed rho i t u e : runs (ERetTyped t u e) rho i (Data i (m_value m rho e))
  | r_err rho i e : runs (EErr e) rho i (Error (buf i) (m_error m rho e))
  | r_err_typed rho i t u e : runs (EErrTyped t u e) rho i (Error (buf i) (m_error m rho e))
  | r_inline rho i s e : runs (EInline s e) rho i (m_inline m rho s e i)
  | r_named rho i f ps : runs (ENamed f ps) rho i (m_call m rho f ps i)
  | r_then a b rho i j v r : runs a rho i (Data j v) -> runs b rho j r -> runs (EThen a b) rho i r
  | r_then_fail a b rho i r : runs a rho i r -> failure r -> runs (EThen a b) rho i r
  | r_alt a b rho i j v : runs a rho i (Data j v) -> runs (EAlt a b) rho i (Data j v)
  | r_alt_error a b rho i s e r : runs a rho i (Error s e) -> runs b rho i r -> runs (EAlt a b) rho i r
  | r_alt_end a b rho i n r : runs a rho i (Incomplete n) -> last i = true -> runs b rho i r -> runs (EAlt a b) rho i r
  | r_alt_more a b rho i n : runs a rho i (Incomplete n) -> last i = false -> runs (EAlt a b) rho i (Incomplete n)
  | r_alt_panic a b rho i : runs a rho i Panic -> runs (EAlt a b) rho i Panic
  | r_alt_fuel a b rho i : runs a rho i NoFuel -> runs (EAlt a b) rho i NoFuel
  | r_skip a b rho i j v k w : runs a rho i (Data j v) -> runs b rho j (Data k w) -> runs (ESkip a b) rho i (Data k v)
  | r_skip_fail_l a b rho i r : runs a rho i r -> failure r -> runs (ESkip a b) rho i r
  | r_skip_fail_r a b rho i j v r : runs a rho i (Data j v) -> runs b rho j r -> failure r -> runs (ESkip a b) rho i r.

  (** A [let] binds its variable in the statements behind it, and nowhere else. *)
  Inductive runs_block : block -> env -> input I -> pres I V E -> Prop :=
  | rb_last e rho i r : runs e rho i r -> runs_block (BLast e) rho i r
  | rb_do e k rho i j v r : runs e rho i (Data j v) -> runs_block k rho j r -> runs_block (BDo e k) rho i r
  | rb_do_fail e k rho i r : runs e rho i r -> failure r -> runs_block (BDo e k) rho i r
  | rb_let x e k rho i j v r : runs e rho i (Data j v) -> runs_block k ((x, v) :: rho) j r -> runs_block (BLet x e k) rho i r
  | rb_let_fail x e k rho i r : runs e rho i r -> failure r -> runs_block (BLet x e k) rho i r.
End Meaning.
