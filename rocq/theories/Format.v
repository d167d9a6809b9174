(** The parser of a format, written with the library.  No proofs here. *)
From Coq Require Import List Bool Arith.
From Verif Require Import Base Parsers Combinators SpecFormat.
Import ListNotations.

Set Implicit Arguments.

Section Format.
  Context {I : Type}.
  (** Feature flag verbose_error (Cargo.toml:33), [PartialEq] for the items (src/parsers.rs:371). *)
  Variable verbose : bool.
  Variable eqb : I -> I -> bool.

  (** The budget of a loop (src/combinators/macros.rs:97-119, src/combinators/bounded.rs:163-190): one step per item, two more, and [extra].  Simplification: the
      Rust loops have none; [extra] makes no difference (C84_budget). *)
  Variable extra : nat.
  Definition steps_for (i : input I) : nat := length (buf i) + 2 + extra.

  (** Each constructor is one call of the library: [string], [satisfy], [take_while], [take_while1], [take] (src/parsers.rs:371-388, 45-54, 209-226, 242-260, 176-184), [map],
      [bind] (src/parse_result.rs:142-204), [or], [option], [many], [skip_many], [sep_by], [sep_by1], [many_till], [matched_by]
      (src/combinators/mod.rs:58-344), [many] and [skip_many] with a range (src/combinators/bounded.rs:717-745). *)
  Fixpoint reader {T} (f : fmt I T) : parser I T (error I) :=
    match f in fmt _ T return parser I T (error I) with
    | FLit w => fun i => map (fun _ => tt) (string verbose eqb w i)
    | FItem c => satisfy verbose c
    | FSpan c => take_while c
    | FSpan1 c => take_while1 verbose c
    | FTake n => take n
    | FOwn _ _ _ _ p => p
    | FMap g f => fun i => map g (reader f i)
    | FSeq a b => fun i => bind (fun e => e) (reader a i) (fun i x => map (pair x) (reader b i))
    | FBind a b => fun i => bind (fun e => e) (reader a i) (fun i x => map (pair x) (reader (b x) i))
    | FAlt a b => or_ (fun i => map inl (reader a i)) (fun i => map inr (reader b i))
    | FOption a => option_ (fun i => map Some (reader a i)) None
    | FMany r a => fun i => bmany (steps_for i) (vec_collector _) r tt (pure (reader a)) i
    | FSkip r a => fun i => bskip_many (steps_for i) r tt (pure (reader a)) i
    | FSepBy a s => fun i => sep_by (steps_for i) (vec_collector _) (fun e => e) tt tt (pure (reader a)) (pure (reader s)) i
    | FSepBy1 a s => fun i => sep_by1 (steps_for i) (vec_collector _) (fun e => e) tt tt (pure (reader a)) (pure (reader s)) i
    | FTill a e => fun i => many_till (steps_for i) (vec_collector _) tt tt (pure (reader a)) (pure (reader e)) i
    | FSlice a => matched_by (reader a)
    end.
End Format.
