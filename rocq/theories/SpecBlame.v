(** Which part of a grammar a failure comes from (C72). *)
From Coq Require Import List Bool Arith.
From Verif Require Import Base Parsers SpecBase SpecPeg.
Import ListNotations.

Set Implicit Arguments.

Section Blame.
  Context {I : Type}.
  Variable eqb : I -> I -> bool.
  Variable g : nat -> peg I.
  Notation derives := (derives eqb g).
  Notation steps := (steps eqb g).

  (** [blames e s q u]: [e] fails on [s], and the last thing tried was [q] (an item or a literal), at the remaining text [u].  Of alternatives it is the
      last one that is blamed, of a sequence the part that fails, of repetitions the first repetition that is missing. *)
  Inductive blames : peg I -> list I -> peg I -> list I -> Prop :=
  | b_sat : forall f s d, derives (Sat f) s None d -> blames (Sat f) s (Sat f) s
  | b_lit : forall w s d, derives (Lit w) s None d -> blames (Lit w) s (Lit w) s
  | b_seq1 : forall a b s q u, blames a s q u -> blames (Seq a b) s q u
  | b_seq2 : forall a b s t s1 d q u, derives a s (Some (t, s1)) d -> blames b s1 q u -> blames (Seq a b) s q u
  | b_then1 : forall a b s q u, blames a s q u -> blames (Then a b) s q u
  | b_then2 : forall a b s t s1 d q u, derives a s (Some (t, s1)) d -> blames b s1 q u -> blames (Then a b) s q u
  | b_alt : forall a b s d q u, derives a s None d -> blames b s q u -> blames (Alt a b) s q u
  | b_ahead : forall a s q u, blames a s q u -> blames (Ahead a) s q u
  | b_slice : forall a s q u, blames a s q u -> blames (Slice a) s q u
  | b_plus : forall a s q u, blames a s q u -> blames (Plus a) s q u
  | b_times : forall n a s ts s1 d q u, steps a s ts s1 d -> length ts < n -> blames a s1 q u -> blames (Times n a) s q u
  | b_sep : forall a b s q u, blames a s q u -> blames (Sep a b) s q u
  | b_rule : forall n s q u, blames (g n) s q u -> blames (Rule n) s q u.

  (** What is reported when an item or a literal fails at [u]; [verbose] is the feature flag verbose_error (Cargo.toml:33).  At the end of the text it is the
      number of missing items, else an error: the place is that of the item, or of the literal's beginning (with verbose errors) or first wrong item
      (without). *)
  Inductive reports (verbose : bool) : peg I -> list I -> pres I (tree I) (error I) -> Prop :=
  | r_sat : forall f x u, f x = false -> reports verbose (Sat f) (x :: u) (Error (x :: u) (if verbose then Unexpected else EPlain))
  | r_sat_end : forall f, reports verbose (Sat f) [] (Incomplete 1)
  | r_lit_end : forall w u n, length u + n = length w -> 1 <= n -> reports verbose (Lit w) u (Incomplete n)
  | r_lit : forall w x y n, length x = length w -> first_difference eqb w x n ->
      reports verbose (Lit w) (x ++ y) (if verbose then Error (x ++ y) (EString w) else Error (skipn n (x ++ y)) EPlain).
End Blame.
