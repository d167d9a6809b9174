(** How often a parser has to be run for one answer of a stream (C68). *)
From Coq Require Import List Bool Arith.
From Verif Require Import Base Parsers Combinators SpecBase SpecIter SpecSafe.
Import ListNotations.

Set Implicit Arguments.

(** [asks_at_most k p b]: if [p], which has seen the not-last slice [b], is always run again with at least as many further items as it asked for, then
    it asks at most [k] times. *)
Fixpoint asks_at_most {I T E} (k : nat) (p : parser I T E) (b : list I) : Prop :=
  forall n, p (mkInput false b) = Incomplete n ->
    match k with
    | 0 => False
    | S k => forall d, n <= length d -> asks_at_most k p (b ++ d)
    end.

(** A parser that counts its runs. *)
Definition counted {I T E} (p : parser I T E) : sparser nat I T E := fun w i => (p i, S w).

(** Expressions over the library all of whose parts say at once how much they need, with the number of those parts: one item, or a given
    number of items.  Not among them: [take_while] and the like, ranges without an upper bound, [many_till], [sep_by]. *)
Inductive sized {I : Type} : nat -> forall T E, parser I T E -> Prop :=
| z_ext : forall k T E (p q : parser I T E), sized k p -> (forall i, p i = q i) -> sized k q
| z_less : forall k k' T E (p : parser I T E), sized k p -> k <= k' -> sized k' p
| z_panic : forall T E, @sized I 0 T E (fun _ => Panic)
| z_ret : forall T E (t : T), @sized I 0 T E (ret t)
| z_err : forall T E (e : E), @sized I 0 T E (err e)
| z_from_result : forall T E (r : T + E), sized 0 (from_result r)
| z_map : forall k T U E (f : T -> U) (p : parser I T E), sized k p -> sized k (fun i => map f (p i))
| z_map_err : forall k T E V (f : E -> V) (p : parser I T E), sized k p -> sized k (fun i => map_err f (p i))
| z_inspect : forall k T E W (f : T -> W -> W) (w : W) (p : parser I T E), sized k p -> sized k (fun i => fst (inspect f (p i) w))
| z_bind : forall k l T U E V (conv : E -> V) (p : parser I T E) (f : input I -> T -> pres I U V),
    sized k p -> (forall t, sized l (fun i => f i t)) -> sized (k + l) (fun i => bind conv (p i) f)
| z_then : forall k l T U E V (conv : E -> V) (p : parser I T E) (f : parser I U V),
    sized k p -> sized l f -> sized (k + l) (fun i => then_ conv (p i) f)
| z_any : sized 1 any
| z_satisfy : forall v f, sized 1 (satisfy v f)
| z_satisfy_with : forall T v (f : I -> T) g, sized 1 (satisfy_with v f g)
| z_token : forall v eqb t, sized 1 (token v eqb t)
| z_not_token : forall v eqb t, sized 1 (not_token v eqb t)
| z_peek_next : sized 1 peek_next
| z_take : forall n, sized 1 (take n)
| z_string : forall v eqb s, sized 1 (string v eqb s)
| z_bmany : forall k m S U E fuel r s0 (p : sparser S I U E),
    nonempty r -> (forall n, in_range r n -> n <= m) -> carries p -> (forall s, sized k (fun i => fst (p s i))) ->
    sized (m * k) (bmany fuel (vec_collector U) r s0 p)
| z_bskip_many : forall k m S U E fuel r s0 (p : sparser S I U E),
    nonempty r -> (forall n, in_range r n -> n <= m) -> carries p -> (forall s, sized k (fun i => fst (p s i))) ->
    sized (m * k) (bskip_many fuel r s0 p)
| z_option : forall k T E (p : parser I T E) d, sized k p -> sized k (option_ p d)
| z_or : forall k l T E (p q : parser I T E), sized k p -> sized l q -> sized (k + l) (or_ p q)
| z_matched_by : forall k T E (p : parser I T E), sized k p -> sized k (matched_by p)
| z_look_ahead : forall k T E (p : parser I T E), sized k p -> sized k (look_ahead p).
Arguments sized {I} k {T E} p.

(** [n] items one after the other. *)
Fixpoint row_of {I} (n : nat) : parser I unit (error I) :=
  match n with
  | 0 => ret tt
  | S n => fun i => then_ (fun e => e) (any i) (row_of n)
  end.
