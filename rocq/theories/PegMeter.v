(** The parsers of Peg.v with a meter for the calls of user code.  No proofs here.
    The meter is no part of the crate; that it does not disturb is C74_undisturbed. *)
From Coq Require Import List Bool Arith.
From Verif Require Import Base Parsers Combinators Effects SpecPeg.
Import ListNotations.

Set Implicit Arguments.

(** A function of the user's (for instance [F] of src/parsers.rs:46) which counts its calls. *)
Definition tick {A B} (f : A -> B) : callback nat A B := fun a n => (Some (f a), S n).

Section Meter.
  Context {I : Type}.
  (** Feature flag verbose_error (Cargo.toml:33), [PartialEq] for the items, the rules. *)
  Variable verbose : bool.
  Variable eqb : I -> I -> bool.
  Variable g : nat -> peg I.

  (** The closures of Peg.v, where every closure that is a parser counts its calls, as do the predicates and [PartialEq::ne]; functions called as
      there (src/parsers.rs:45-54, 209-226, 371-388; src/parse_result.rs:110-183; src/combinators/mod.rs:34-364).  What the library itself does
      between two such calls is not counted; there are no loops in it but those which make the calls (and, for [many] and its kin, those of the
      collection). *)
  Fixpoint peg_meter (fuel : nat) : peg I -> sparser nat I (tree I) (error I) :=
    fix go (e : peg I) : sparser nat I (tree I) (error I) := fun n i =>
      match e with
      | Empty => (ret Nothing i, S n)
      | Sat f => let (r, n) := satisfy_w verbose (tick f) (S n) i in (map (@One I) r, n)
      | Lit w => let (r, n) := string_w verbose (tick (fun ab => negb (eqb (fst ab) (snd ab)))) w (S n) i in (map (@Span I) r, n)
      | Run f => let (r, n) := take_while_w (tick f) (S n) i in (map (@Span I) r, n)
      | Seq a b =>
          let (r, n) := go a (S n) i in
          bind_w (fun e n => (Some e, n)) r (fun t n i => let (r, n) := go b n i in (map (Both t) r, n)) n
      | Then a b => let (r, n) := go a (S n) i in then_w (fun e n => (Some e, n)) r (go b) n
      | Alt a b => or_w (go a) (go b) (S n) i
      | Opt a => option_w (go a) Nothing (S n) i
      | Ahead a => look_ahead_w (go a) (S n) i
      | Slice a => let (r, n) := matched_by_w (go a) (S n) i in (map (fun xt => Both (Span (fst xt)) (snd xt)) r, n)
      | Star a => let (r, n) := many_w fuel (vec_collector _) (go a) (S n) i in (map (@Many I) r, n)
      | Plus a => let (r, n) := many1_w fuel (vec_collector _) (go a) (S n) i in (map (@Many I) r, n)
      | Times k a => let (r, n) := count_w fuel (vec_collector _) k (go a) (S n) i in (map (@Many I) r, n)
      | Sep a b => let (r, n) := sep_by1_w fuel (vec_collector _) (fun e n => (Some e, n)) (go a) (go b) (S n) i in (map (@Many I) r, n)
      | Rule k => match fuel with 0 => (NoFuel, n) | S fuel => peg_meter fuel (g k) (S n) i end
      end.
End Meter.
