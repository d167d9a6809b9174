(** Reading a file of lines, and going on after a malformed one (C76). *)
From Coq Require Import List Bool Arith.
From Verif Require Import Base Parsers Buffer Stream SpecBase SpecSafe SpecStream SpecPeg SpecBlame.
Import ListNotations.

Set Implicit Arguments.

Section Lines.
  Context {I T E : Type}.
  (** Which items end a line. *)
  Variable mark : I -> bool.

  Definition plain (x : list I) : Prop := Forall (fun a => mark a = false) x.
  Definition is_line (x : list I) : Prop := exists y c, x = y ++ [c] /\ plain y /\ mark c = true.

  (** A parser which reads a line with its end, or blames a place in it: what it does is decided by the line. *)
  Definition reads_lines (p : parser I T E) : Prop :=
    forall x c, plain x -> mark c = true ->
      (exists t, forall l y, p (mkInput l (x ++ c :: y)) = Data (mkInput l y) t) \/
      (exists z u e, x = z ++ u /\ forall l y, p (mkInput l (x ++ c :: y)) = Error (u ++ c :: y) e).

  (** [parse!{i; take_till(mark); any(); ret t0}]: the rest of the line is skipped. *)
  Definition skip_line (conv : error I -> E) (t0 : T) : parser I T E :=
    fun i => bind conv (take_till mark i) (fun j (_ : list I) => bind conv (any j) (fun k (_ : I) => ret t0 k)).

  (** A program which reads records, and after an error skips the line. *)
  Fixpoint recovering (p skip : parser I T E) (n : nat) : script I T E :=
    match n with
    | 0 => Stop
    | S n =>
        Next p (fun r =>
          match r with
          | inl _ => recovering p skip n
          | inr (SParseError _ _) => Next skip (fun r => match r with inl _ => recovering p skip n | inr _ => Stop end)
          | inr _ => Stop
          end)
    end.

  (** What it sees of a line that is the whole input. *)
  Definition answers_of (p : parser I T E) (t0 : T) (x : list I) : list (sres I T E) :=
    match p (mkInput true x) with
    | Data _ t => [inl t]
    | Error _ e => [inr (SParseError [] e); inl t0]
    | _ => []
    end.
End Lines.

Section Grammar.
  Context {I : Type}.
  Variable mark : I -> bool.
  Variable eqb : I -> I -> bool.
  Variable g : nat -> peg I.

  (** An expression that matches no end of a line; literals are written item by item. *)
  Fixpoint within_line (e : peg I) : Prop :=
    match e with
    | Empty | Rule _ => True
    | Sat f | Run f => forall c, mark c = true -> f c = false
    | Lit w => length w <= 1 /\ forall a c, In a w -> mark c = true -> eqb a c = false
    | Seq a b | Then a b | Alt a b | Sep a b => within_line a /\ within_line b
    | Opt a | Ahead a | Slice a | Star a | Plus a | Times _ a => within_line a
    end.

  (** The answers for the lines of a file, by the grammar alone: [e] has to match the line up to its end; if not, the error is that of the blamed item, and
      the line is skipped. *)
  Inductive file (verbose : bool) (e : peg I) (t0 : tree I) : list (list I) -> list (sres I (tree I) (error I)) -> Prop :=
  | f_end : file verbose e t0 [] [inr SEndOfInput]
  | f_right : forall x c xs t d out, derives eqb g e (x ++ [c]) (Some (t, [c])) d -> file verbose e t0 xs out ->
      file verbose e t0 ((x ++ [c]) :: xs) (inl (Both t (One c)) :: out)
  | f_wrong : forall x xs q u b err out, blames eqb g (Seq e (Sat mark)) x q u -> reports eqb verbose q u (Error b err) -> file verbose e t0 xs out ->
      file verbose e t0 (x :: xs) (inr (SParseError [] err) :: inl t0 :: out).
End Grammar.
