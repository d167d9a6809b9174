(** Parsing expression grammars, as in the literature (Ford 2004), without reference to the library (C70). *)
From Coq Require Import List Bool Arith.
From Verif Require Import SpecBase.
Import ListNotations.

Set Implicit Arguments.

(** Expressions over items [I].  [Rule n] refers to a rule of the grammar, so grammars may be recursive. *)
Inductive peg (I : Type) : Type :=
| Empty                          (* matches nothing *)
| Sat (f : I -> bool)            (* one item *)
| Lit (w : list I)               (* these items *)
| Run (f : I -> bool)            (* as many items as there are *)
| Seq (a b : peg I)              (* a b, both values *)
| Then (a b : peg I)             (* a b, the second value *)
| Alt (a b : peg I)              (* a / b *)
| Opt (a : peg I)                (* a? *)
| Ahead (a : peg I)              (* &a *)
| Slice (a : peg I)              (* a, and what it matched *)
| Star (a : peg I)               (* a* *)
| Plus (a : peg I)               (* a+ *)
| Times (n : nat) (a : peg I)    (* n times a *)
| Sep (a b : peg I)              (* a (b a)* *)
| Rule (n : nat).
Arguments Empty {I}.
Arguments Rule {I} n.

(** Values. *)
Inductive tree (I : Type) : Type :=
| Nothing
| One (x : I)
| Span (x : list I)
| Both (t u : tree I)
| Many (ts : list (tree I)).
Arguments Nothing {I}.

Section Peg.
  Context {I : Type}.
  (** Equality of items, and the rules of the grammar. *)
  Variable eqb : I -> I -> bool.
  Variable g : nat -> peg I.

  (** After matching [s] up to [s1] with a look at the first [d1] items of [s], a look at the first [d2] items of [s1]. *)
  Definition seen (s s1 : list I) (d1 d2 : nat) : nat := Nat.max d1 (length s - length s1 + d2).

  (** [derives e s r d]: on the text [s] the expression [e] succeeds with a value and the remaining text, or fails ([None]); this is found out by looking at
      the first [d] items of [s] (if there are fewer: at the end of [s]).  A literal is looked at as a whole. *)
  Inductive derives : peg I -> list I -> option (tree I * list I) -> nat -> Prop :=
  | d_empty : forall s, derives Empty s (Some (Nothing, s)) 0
  | d_sat : forall f x s, f x = true -> derives (Sat f) (x :: s) (Some (One x, s)) 1
  | d_sat_not : forall f x s, f x = false -> derives (Sat f) (x :: s) None 1
  | d_sat_end : forall f, derives (Sat f) [] None 1
  | d_lit : forall w x s, same_items eqb w x -> derives (Lit w) (x ++ s) (Some (Span x, s)) (length w)
  | d_lit_not : forall w s, (forall x y, s = x ++ y -> ~ same_items eqb w x) -> derives (Lit w) s None (length w)
  | d_run : forall f x c s, Forall (fun a => f a = true) x -> f c = false -> derives (Run f) (x ++ c :: s) (Some (Span x, c :: s)) (S (length x))
  | d_run_end : forall f x, Forall (fun a => f a = true) x -> derives (Run f) x (Some (Span x, [])) (S (length x))
  | d_seq : forall a b s t s1 d1 u s2 d2, derives a s (Some (t, s1)) d1 -> derives b s1 (Some (u, s2)) d2 ->
      derives (Seq a b) s (Some (Both t u, s2)) (seen s s1 d1 d2)
  | d_seq_not1 : forall a b s d, derives a s None d -> derives (Seq a b) s None d
  | d_seq_not2 : forall a b s t s1 d1 d2, derives a s (Some (t, s1)) d1 -> derives b s1 None d2 -> derives (Seq a b) s None (seen s s1 d1 d2)
  | d_then : forall a b s t s1 d1 r d2, derives a s (Some (t, s1)) d1 -> derives b s1 r d2 -> derives (Then a b) s r (seen s s1 d1 d2)
  | d_then_not : forall a b s d, derives a s None d -> derives (Then a b) s None d
  | d_alt1 : forall a b s x d, derives a s (Some x) d -> derives (Alt a b) s (Some x) d
  | d_alt2 : forall a b s d1 r d2, derives a s None d1 -> derives b s r d2 -> derives (Alt a b) s r (Nat.max d1 d2)
  | d_opt : forall a s x d, derives a s (Some x) d -> derives (Opt a) s (Some x) d
  | d_opt_not : forall a s d, derives a s None d -> derives (Opt a) s (Some (Nothing, s)) d
  | d_ahead : forall a s t s1 d, derives a s (Some (t, s1)) d -> derives (Ahead a) s (Some (t, s)) d
  | d_ahead_not : forall a s d, derives a s None d -> derives (Ahead a) s None d
  | d_slice : forall a x t s1 d, derives a (x ++ s1) (Some (t, s1)) d -> derives (Slice a) (x ++ s1) (Some (Both (Span x) t, s1)) d
  | d_slice_not : forall a s d, derives a s None d -> derives (Slice a) s None d
  | d_star : forall a s ts s1 d1 d2, steps a s ts s1 d1 -> derives a s1 None d2 -> derives (Star a) s (Some (Many ts, s1)) (seen s s1 d1 d2)
  | d_plus : forall a s ts s1 d1 d2, steps a s ts s1 d1 -> ts <> [] -> derives a s1 None d2 -> derives (Plus a) s (Some (Many ts, s1)) (seen s s1 d1 d2)
  | d_plus_not : forall a s d, derives a s None d -> derives (Plus a) s None d
  | d_times : forall a s ts s1 d, steps a s ts s1 d -> derives (Times (length ts) a) s (Some (Many ts, s1)) d
  | d_times_not : forall n a s ts s1 d1 d2, steps a s ts s1 d1 -> length ts < n -> derives a s1 None d2 -> derives (Times n a) s None (seen s s1 d1 d2)
  | d_sep : forall a b s t s1 d1 ts s2 d2 d3, derives a s (Some (t, s1)) d1 -> steps (Then b a) s1 ts s2 d2 -> derives (Then b a) s2 None d3 ->
      derives (Sep a b) s (Some (Many (t :: ts), s2)) (seen s s1 d1 (seen s1 s2 d2 d3))
  | d_sep_not : forall a b s d, derives a s None d -> derives (Sep a b) s None d
  | d_rule : forall n s r d, derives (g n) s r d -> derives (Rule n) s r d
  (** Successive matches of [a]. *)
  with steps : peg I -> list I -> list (tree I) -> list I -> nat -> Prop :=
  | s_nil : forall a s, steps a s [] s 0
  | s_cons : forall a s t s1 d1 ts s2 d2, derives a s (Some (t, s1)) d1 -> steps a s1 ts s2 d2 -> steps a s (t :: ts) s2 (seen s s1 d1 d2).
End Peg.

Scheme derives_mind := Minimality for derives Sort Prop
  with steps_mind := Minimality for steps Sort Prop.
Combined Scheme derives_steps_ind from derives_mind, steps_mind.

(** * Grammars whose parsers return *)

Section WellFormed.
  Context {I : Type}.
  (** Which rules may match without consuming anything, and an order of the rules. *)
  Variable nul : nat -> bool.
  Variable rank : nat -> nat.

  Fixpoint may_empty (e : peg I) : bool :=
    match e with
    | Empty => true
    | Sat _ => false
    | Lit w => match w with [] => true | _ => false end
    | Run _ => true
    | Seq a b | Then a b => may_empty a && may_empty b
    | Alt a b => may_empty a || may_empty b
    | Opt _ | Ahead _ | Star _ => true
    | Slice a | Plus a | Sep a _ => may_empty a
    | Times n a => match n with 0 => true | _ => may_empty a end
    | Rule n => nul n
    end.

  (** What is repeated consumes something; and, with [Some k], the rules called before anything is consumed are below [k] in the order. *)
  Fixpoint good (o : option nat) (e : peg I) : Prop :=
    match e with
    | Empty | Sat _ | Lit _ | Run _ => True
    | Seq a b | Then a b => good o a /\ good (if may_empty a then o else None) b
    | Alt a b => good o a /\ good o b
    | Opt a | Ahead a | Slice a | Times _ a => good o a
    | Star a | Plus a => may_empty a = false /\ good o a
    | Sep a b => may_empty a && may_empty b = false /\ good o a /\ good (if may_empty a then o else None) b
    | Rule n => match o with Some k => rank n < k | None => True end
    end.
End WellFormed.

(** A grammar without left recursion and without repetitions of what may match nothing (Ford 2004, section 3.6: well-formed). *)
Definition well_formed {I} (nul : nat -> bool) (rank : nat -> nat) (g : nat -> peg I) : Prop :=
  forall n, good nul rank (Some (rank n)) (g n) /\ (may_empty nul (g n) = true -> nul n = true).
