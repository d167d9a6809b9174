(** A parsing expression grammar, written with the library.  No proofs here. *)
From Coq Require Import List Bool Arith.
From Verif Require Import Base Parsers Combinators SpecPeg.
Import ListNotations.

Set Implicit Arguments.

Section Peg.
  Context {I : Type}.
  (** Feature flag verbose_error (Cargo.toml:33), [PartialEq] for the items, the rules. *)
  Variable verbose : bool.
  Variable eqb : I -> I -> bool.
  Variable g : nat -> peg I.

  (** Each expression is one call of the library: [satisfy], [string], [take_while] (src/parsers.rs:45-54, 371-388, 209-226), [bind], [then]
      (src/parse_result.rs:110-183), [or], [option], [look_ahead], [matched_by], [many], [many1], [count], [sep_by1] (src/combinators/mod.rs:34-364).
      A rule is a function, [Rule n] a call of it.  The budget is for the depth of the calls and for the loops; what a call that never returns does (stack
      overflow) is not modelled. *)
  Fixpoint peg_parser (fuel : nat) : peg I -> parser I (tree I) (error I) :=
    fix go (e : peg I) : parser I (tree I) (error I) := fun i =>
      match e with
      | Empty => ret Nothing i
      | Sat f => map (@One I) (satisfy verbose f i)
      | Lit w => map (@Span I) (string verbose eqb w i)
      | Run f => map (@Span I) (take_while f i)
      | Seq a b => bind (fun e => e) (go a i) (fun i t => map (Both t) (go b i))
      | Then a b => then_ (fun e => e) (go a i) (go b)
      | Alt a b => or_ (go a) (go b) i
      | Opt a => option_ (go a) Nothing i
      | Ahead a => look_ahead (go a) i
      | Slice a => map (fun xt => Both (Span (fst xt)) (snd xt)) (matched_by (go a) i)
      | Star a => map (@Many I) (many fuel (vec_collector _) tt (pure (go a)) i)
      | Plus a => map (@Many I) (many1 fuel (vec_collector _) tt (pure (go a)) i)
      | Times n a => map (@Many I) (count fuel (vec_collector _) n tt (pure (go a)) i)
      | Sep a b => map (@Many I) (sep_by1 fuel (vec_collector _) (fun e => e) tt tt (pure (go a)) (pure (go b)) i)
      | Rule n => match fuel with 0 => NoFuel | S fuel => peg_parser fuel (g n) i end
      end.
End Peg.
