(** Expressions read as context-free grammars (BNF), and the grammars for which one item of look-ahead decides (C73).  Without reference to the library. *)
From Coq Require Import List Bool Arith.
From Verif Require Import SpecBase SpecPeg.
Import ListNotations.

Set Implicit Arguments.

Section Bnf.
  Context {I : Type}.
  Variable eqb : I -> I -> bool.
  Variable g : nat -> peg I.

  (** [matches e x t]: the text [x] is a phrase of [e] with the value [t].  Every alternative and every number of repetitions is as good as any other.
      Look-ahead is not part of BNF. *)
  Inductive matches : peg I -> list I -> tree I -> Prop :=
  | m_empty : matches Empty [] Nothing
  | m_sat : forall f x, f x = true -> matches (Sat f) [x] (One x)
  | m_lit : forall w x, same_items eqb w x -> matches (Lit w) x (Span x)
  | m_run : forall f x, Forall (fun a => f a = true) x -> matches (Run f) x (Span x)
  | m_seq : forall a b x y t u, matches a x t -> matches b y u -> matches (Seq a b) (x ++ y) (Both t u)
  | m_then : forall a b x y t u, matches a x t -> matches b y u -> matches (Then a b) (x ++ y) u
  | m_alt1 : forall a b x t, matches a x t -> matches (Alt a b) x t
  | m_alt2 : forall a b x t, matches b x t -> matches (Alt a b) x t
  | m_opt : forall a x t, matches a x t -> matches (Opt a) x t
  | m_opt_not : forall a, matches (Opt a) [] Nothing
  | m_slice : forall a x t, matches a x t -> matches (Slice a) x (Both (Span x) t)
  | m_star : forall a x ts, repeated a x ts -> matches (Star a) x (Many ts)
  | m_plus : forall a x ts, repeated a x ts -> ts <> [] -> matches (Plus a) x (Many ts)
  | m_times : forall a x ts, repeated a x ts -> matches (Times (length ts) a) x (Many ts)
  | m_sep : forall a b x y t ts, matches a x t -> repeated (Then b a) y ts -> matches (Sep a b) (x ++ y) (Many (t :: ts))
  | m_rule : forall n x t, matches (g n) x t -> matches (Rule n) x t
  with repeated : peg I -> list I -> list (tree I) -> Prop :=
  | r_nil : forall a, repeated a [] []
  | r_cons : forall a x y t ts, matches a x t -> repeated a y ts -> repeated a (x ++ y) (t :: ts).

  (** No look-ahead. *)
  Fixpoint context_free (e : peg I) : Prop :=
    match e with
    | Empty | Sat _ | Lit _ | Run _ | Rule _ => True
    | Seq a b | Then a b | Alt a b | Sep a b => context_free a /\ context_free b
    | Opt a | Slice a | Star a | Plus a | Times _ a => context_free a
    | Ahead _ => False
    end.

  (** Literals have at most [k] items. *)
  Fixpoint short (k : nat) (e : peg I) : Prop :=
    match e with
    | Empty | Sat _ | Run _ | Rule _ => True
    | Lit w => length w <= k
    | Seq a b | Then a b | Alt a b | Sep a b => short k a /\ short k b
    | Opt a | Slice a | Star a | Plus a | Times _ a | Ahead a => short k a
    end.

  (** Which rules may match without consuming anything, as in [well_formed]. *)
  Variable nul : nat -> bool.

  (** The items with which a phrase may start: FIRST in books on compilers. *)
  Inductive starts : peg I -> I -> Prop :=
  | st_sat : forall f c, f c = true -> starts (Sat f) c
  | st_lit : forall x w c, eqb x c = true -> starts (Lit (x :: w)) c
  | st_run : forall f c, f c = true -> starts (Run f) c
  | st_seq1 : forall a b c, starts a c -> starts (Seq a b) c
  | st_seq2 : forall a b c, may_empty nul a = true -> starts b c -> starts (Seq a b) c
  | st_then1 : forall a b c, starts a c -> starts (Then a b) c
  | st_then2 : forall a b c, may_empty nul a = true -> starts b c -> starts (Then a b) c
  | st_alt1 : forall a b c, starts a c -> starts (Alt a b) c
  | st_alt2 : forall a b c, starts b c -> starts (Alt a b) c
  | st_opt : forall a c, starts a c -> starts (Opt a) c
  | st_ahead : forall a c, starts a c -> starts (Ahead a) c
  | st_slice : forall a c, starts a c -> starts (Slice a) c
  | st_star : forall a c, starts a c -> starts (Star a) c
  | st_plus : forall a c, starts a c -> starts (Plus a) c
  | st_times : forall n a c, starts a c -> starts (Times n a) c
  | st_sep1 : forall a b c, starts a c -> starts (Sep a b) c
  | st_sep2 : forall a b c, may_empty nul a = true -> starts b c -> starts (Sep a b) c
  | st_rule : forall n c, starts (g n) c -> starts (Rule n) c.

  (** The items which may follow a phrase of a rule: FOLLOW in books on compilers (any set that is large enough). *)
  Variable follow : nat -> I -> Prop.

  (** Where [F] says which items may come next, one item decides: alternatives start differently, and what may be left out or repeated does not start like
      what follows it. *)
  Fixpoint ll1 (F : I -> Prop) (e : peg I) : Prop :=
    match e with
    | Empty | Sat _ | Lit _ => True
    | Run f => forall c, F c -> f c = false
    | Seq a b | Then a b => ll1 (fun c => starts b c \/ (may_empty nul b = true /\ F c)) a /\ ll1 F b
    | Alt a b => may_empty nul a = false /\ (forall c, starts a c -> ~ starts b c) /\ (may_empty nul b = true -> forall c, F c -> ~ starts a c) /\ ll1 F a /\ ll1 F b
    | Opt a => may_empty nul a = false /\ (forall c, F c -> ~ starts a c) /\ ll1 F a
    | Ahead _ => False
    | Slice a => ll1 F a
    | Star a | Plus a => (forall c, F c -> ~ starts a c) /\ ll1 (fun c => starts a c \/ F c) a
    | Times _ a => ll1 (fun c => starts a c \/ F c) a
    | Sep a b => (forall c, F c -> ~ starts (Then b a) c) /\ ll1 (fun c => starts (Then b a) c \/ F c) a /\
        ll1 (fun c => starts a c \/ (may_empty nul a = true /\ (starts (Then b a) c \/ F c))) b
    | Rule n => forall c, F c -> follow n c
    end.
End Bnf.

(** [rest] is empty or begins with such an item. *)
Definition follows {I} (F : I -> Prop) (rest : list I) : Prop := match rest with [] => True | c :: _ => F c end.

(** An LL(1) grammar with literals of at most [k] items. *)
Record ll1_grammar {I} (eqb : I -> I -> bool) (nul : nat -> bool) (rank : nat -> nat) (follow : nat -> I -> Prop) (k : nat) (g : nat -> peg I) : Prop := mkLl1 {
  lg_well_formed : well_formed nul rank g;
  lg_ll1 : forall n, ll1 eqb g nul follow (follow n) (g n);
  lg_short : forall n, short k (g n);
  lg_one : 1 <= k }.

Scheme matches_mind := Minimality for matches Sort Prop
  with repeated_mind := Minimality for repeated Sort Prop.
Combined Scheme matches_repeated_ind from matches_mind, repeated_mind.
