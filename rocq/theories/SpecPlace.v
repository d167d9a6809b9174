(** Where the slices of a parser lie: in its input. *)
From Coq Require Import List Bool Arith.
From Verif Require Import Base Parsers Combinators Buffer Stream SpecOpaque Place.
Import ListNotations.

Set Implicit Arguments.

(** [b] lies in [s]. *)
Definition inside (b s : slice) : Prop := s_at s <= s_at b /\ s_at b + s_len b <= s_at s + s_len s.

(** [b] lies in [s] and, if there is anything in it, reaches to its end. *)
Definition rest_of (b s : slice) : Prop := inside b s /\ (s_len b = 0 \/ s_at b + s_len b = s_at s + s_len s).

(** [b] lies in [s] and reaches to its end, be it empty or not. *)
Definition end_of (b s : slice) : Prop := inside b s /\ s_at b + s_len b = s_at s + s_len s.

(** A relation between a part and a whole that can be used step by step, and only says more than [inside]. *)
Record placing (Rel : slice -> slice -> Prop) : Prop := mkPlacing {
  pl_refl : forall s, Rel s s;
  pl_trans : forall a b c, Rel a b -> Rel b c -> Rel a c;
  pl_inside : forall b s, Rel b s -> inside b s }.

Section Follow.
  Context {I : Type}.
  Variable mem : nat -> I.

  (** The input without its address. *)
  Definition plain (i : l_input) : input I := mkInput (l_last i) (read mem (l_buf i)).

  (** A slice as (part of) a value: it lies in the whole [s] and has these items. *)
  Definition piece (s b : slice) (l : list I) : Prop := inside b s /\ read mem b = l.

  (** The result [z] is the result [r] with addresses: the slices in it have the items that those of [r] consist of, and remainders and
      error slices have the place [Rel] in the whole [s].  [RT] and [RE] say what this means for values and errors. *)
  Definition shows (Rel : slice -> slice -> Prop) (s : slice) {T T' E E'} (RT : T -> T' -> Prop) (RE : E -> E' -> Prop) (z : l_res T E) (r : pres I T' E') : Prop :=
    match z, r with
    | LData i t, Data j t' => (j = plain i /\ Rel (l_buf i) s) /\ RT t t'
    | LError b e, Error c e' => (c = read mem b /\ Rel b s) /\ RE e e'
    | LIncomplete n, Incomplete m => n = m
    | LPanic, Panic => True
    | LNoFuel, NoFuel => True
    | _, _ => False
    end.

  (** Values and errors may contain slices; what is in place in a part is in place in the whole. *)
  Definition steady (Rel : slice -> slice -> Prop) {T T'} (RT : slice -> T -> T' -> Prop) : Prop := forall b s, Rel b s -> forall t t', RT b t t' -> RT s t t'.

  (** The parser [z] is the parser [p] with addresses, on every input at every place. *)
  Definition follows (Rel : slice -> slice -> Prop) {T T' E E'} (RT : slice -> T -> T' -> Prop) (RE : slice -> E -> E' -> Prop) (z : l_parser T E) (p : parser I T' E') : Prop :=
    forall i, shows Rel (l_buf i) (RT (l_buf i)) (RE (l_buf i)) (z i) (p (plain i)).

  (** The same for closures with captured state. *)
  Definition s_follows (Rel : slice -> slice -> Prop) {S S' T T' E E'} (RS : S -> S' -> Prop) (RT : slice -> T -> T' -> Prop) (RE : slice -> E -> E' -> Prop)
      (z : l_sparser S T E) (p : sparser S' I T' E') : Prop :=
    forall s s', RS s s' -> forall i,
      shows Rel (l_buf i) (RT (l_buf i)) (RE (l_buf i)) (fst (z s i)) (fst (p s' (plain i))) /\ RS (snd (z s i)) (snd (p s' (plain i))).
End Follow.

(** Values and errors without slices. *)
Definition no_slices {T} (s : slice) (t t' : T) : Prop := t = t'.

(** The stream without its address. *)
Definition plain_stream {I} (mem : nat -> I) (s : l_stream) : slice_stream I := mkSliceStream (ls_pos s) (read mem (ls_slice s)).

(** An answer of [parse] and the same with addresses: the slices lie in [s]. *)
Definition answers_in {I} (mem : nat -> I) (s : slice) {T T' E E'} (RT : T -> T' -> Prop) (RE : E -> E' -> Prop) (x : l_answer T E) (y : sres I T' E') : Prop :=
  match x, y with
  | LOk t, inl t' => RT t t'
  | LParseError b e, inr (SParseError c e') => inside b s /\ c = read mem b /\ RE e e'
  | LTooShort n, inr (SIncomplete m) => n = m
  | LEndOfInput, inr SEndOfInput => True
  | _, _ => False
  end.

(** The position in [s] that the address of the slice [b] stands for, and the one that its length stands for. *)
Definition by_address (s b : slice) : nat := s_at b - s_at s.
Definition by_length (s b : slice) : nat := s_len s - s_len b.
