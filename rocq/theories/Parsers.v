(** Model of src/parsers.rs.  No proofs here. *)
From Coq Require Import List Bool Arith.
From Verif Require Import Base.
Import ListNotations.

Set Implicit Arguments.

(** src/parsers.rs:417-424 [enum Error<I>] with feature verbose_error, and src/parsers.rs:495 [struct Error<I>(PhantomData)]
    without it ([EPlain]).  One type holds both; which constructors occur is decided by the [verbose] flag below. *)
Inductive error (I : Type) : Type :=
| Expected (i : I)
| Unexpected
| EString (s : list I)
| EPlain.
Arguments Expected {I} i.
Arguments Unexpected {I}.
Arguments EString {I} s.
Arguments EPlain {I}.

(** src/parsers.rs:471-473 (verbose) and 537-539 (plain) [err::unexpected]. *)
Definition err_unexpected {I} (verbose : bool) : error I := if verbose then Unexpected else EPlain.

(** src/parsers.rs:476-478 (verbose) and 542-544 (plain) [err::expected]. *)
Definition err_expected {I} (verbose : bool) (t : I) : error I := if verbose then Expected t else EPlain.

(** src/parsers.rs:482-486 (verbose: error at the start of the input) and 547-555 (plain: error at the offset)
    [err::string]. *)
Definition err_string {I T} (verbose : bool) (i : input I) (offset : nat) (expected : list I) : pres I T (error I) :=
  if verbose then err (EString expected) i
  else err EPlain (replace i (skipn offset (buf i))).

(** [b.first()] of a slice (std); used throughout src/parsers.rs. *)
Definition first {A} (b : list A) : option A := match b with [] => None | c :: _ => Some c end.

(** [iter().position(f)] (std); used in src/parsers.rs:213, 246, 280. *)
Fixpoint position {A} (f : A -> bool) (b : list A) : option nat :=
  match b with
  | [] => None
  | c :: r => if f c then Some 0 else option_map S (position f r)
  end.

(** [iter().position(f)] (std) for a closure with captured mutable state, as in src/parsers.rs:308, 335: [f] returns whether to stop
    and the new captured state; the captured state at the end is returned as well. *)
Fixpoint position_st {A S : Type} (f : S -> A -> bool * S) (s : S) (b : list A) : option nat * S :=
  match b with
  | [] => (None, s)
  | c :: r =>
      let (stop, s') := f s c in
      if stop then (Some 0, s')
      else let (n, s'') := position_st f s' r in (option_map Datatypes.S n, s'')
  end.

Section Parsers.
  Context {I : Type}.
  (** Feature flag verbose_error (Cargo.toml:33). *)
  Variable verbose : bool.
  (** [I: PartialEq]: a user-supplied equality. *)
  Variable eqb : I -> I -> bool.

  (** src/parse_result.rs:9 [SimpleResult]. *)
  Definition simple (T : Type) := pres I T (error I).

  (** src/parsers.rs:25-32 [any]. *)
  Definition any (i : input I) : simple I :=
    let b := buf i in
    match first b with
    | None => incomplete 1 i
    | Some c => ret c (replace i (skipn 1 b))
    end.

  (** src/parsers.rs:45-54 [satisfy]. *)
  Definition satisfy (f : I -> bool) (i : input I) : simple I :=
    let b := buf i in
    match first b with
    | None => incomplete 1 i
    | Some c => if f c then ret c (replace i (skipn 1 b)) else err (err_unexpected verbose) i
    end.

  (** src/parsers.rs:71-88 [satisfy_with]. *)
  Definition satisfy_with {T} (f : I -> T) (p : T -> bool) (i : input I) : simple T :=
    let b := buf i in
    match first b with
    | Some n =>
        let t := f n in
        if p t then ret t (replace i (skipn 1 b)) else err (err_unexpected verbose) i
    | None => incomplete 1 i
    end.

  (** src/parsers.rs:100-108 [token]. *)
  Definition token (t : I) (i : input I) : simple I :=
    let b := buf i in
    match first b with
    | None => incomplete 1 i
    | Some c => if eqb t c then ret c (replace i (skipn 1 b)) else err (err_expected verbose t) i
    end.

  (** src/parsers.rs:120-128 [not_token] ([!=] is the negation of [==]). *)
  Definition not_token (t : I) (i : input I) : simple I :=
    let b := buf i in
    match first b with
    | None => incomplete 1 i
    | Some c => if negb (eqb t c) then ret c (replace i (skipn 1 b)) else err (err_unexpected verbose) i
    end.

  (** src/parsers.rs:143-147 [peek]. *)
  Definition peek (i : input I) : simple (option I) := ret (first (buf i)) i.

  (** src/parsers.rs:159-164 [peek_next]. *)
  Definition peek_next (i : input I) : simple I :=
    match first (buf i) with
    | None => incomplete 1 i
    | Some c => ret c i
    end.

  (** src/parsers.rs:176-184 [take]. *)
  Definition take (num : nat) (i : input I) : simple (list I) :=
    let b := buf i in
    if num <=? length b then ret (firstn num b) (replace i (skipn num b))
    else incomplete (num - length b) i.

  (** src/parsers.rs:209-226 [take_while]. *)
  Definition take_while (f : I -> bool) (i : input I) : simple (list I) :=
    let b := buf i in
    match position (fun c => Bool.eqb (f c) false) b with
    | Some n => ret (firstn n b) (replace i (skipn n b))
    | None => if last i then ret b (replace i (firstn 0 b)) else incomplete 1 i
    end.

  (** src/parsers.rs:242-260 [take_while1]. *)
  Definition take_while1 (f : I -> bool) (i : input I) : simple (list I) :=
    let b := buf i in
    match position (fun c => Bool.eqb (f c) false) b with
    | Some 0 => err (err_unexpected verbose) i
    | Some n => ret (firstn n b) (replace i (skipn n b))
    | None => if (0 <? length b) && last i then ret b (replace i (firstn 0 b)) else incomplete 1 i
    end.

  (** src/parsers.rs:276-286 [take_till]. *)
  Definition take_till (f : I -> bool) (i : input I) : simple (list I) :=
    let b := buf i in
    match position f b with
    | Some n => ret (firstn n b) (replace i (skipn n b))
    | None => incomplete 1 i
    end.

  (** src/parsers.rs:303-314 [scan].  The captured state is [Option<S>]; the closure takes it out with
      [mem::replace(..).unwrap()].  In the model the captured state is an [option (option S)] whose [None] records that this
      [unwrap] panicked.  The callback [f: FnMut(S, I) -> Option<S>] is modelled as a function. *)
  Definition scan {S : Type} (s : S) (f : S -> I -> option S) (i : input I) : simple (list I) :=
    let b := buf i in
    let step (st : option (option S)) (c : I) :=
      match st with
      | Some (Some s0) => let st' := f s0 c in (match st' with None => true | Some _ => false end, Some st')
      | _ => (true, None)
      end in
    match position_st step (Some (Some s)) b with
    | (_, None) => Panic
    | (Some n, _) => ret (firstn n b) (replace i (skipn n b))
    | (None, _) => incomplete 1 i
    end.

  (** src/parsers.rs:330-341 [run_scanner]. *)
  Definition run_scanner {S : Type} (s : S) (f : S -> I -> option S) (i : input I) : simple (list I * S) :=
    let b := buf i in
    let step (state : S) (c : I) :=
      match f state c with
      | None => (true, state)
      | Some v => (false, v)
      end in
    match position_st step s b with
    | (Some n, state) => ret (firstn n b, state) (replace i (skipn n b))
    | (None, _) => incomplete 1 i
    end.

  (** src/parsers.rs:351-358 [take_remainder]. *)
  Definition take_remainder (i : input I) : simple (list I) :=
    let b := buf i in ret b (replace i (firstn 0 b)).

  (** The loop of src/parsers.rs:381-385 over [j in 0..s.len()]: first index where [s[j] != d[j]].  [d] has the length of [s];
      [j] counts from the given start. *)
  Fixpoint string_mismatch (j : nat) (s d : list I) : option nat :=
    match s, d with
    | x :: s', y :: d' => if negb (eqb x y) then Some j else string_mismatch (S j) s' d'
    | _, _ => None
    end.

  (** src/parsers.rs:371-388 [string]. *)
  Definition string (s : list I) (i : input I) : simple (list I) :=
    let b := buf i in
    if length b <? length s then incomplete (length s - length b) i
    else
      let d := firstn (length s) b in
      match string_mismatch 0 s d with
      | Some j => err_string verbose i j s
      | None => ret d (replace i (skipn (length s) b))
      end.

  (** src/parsers.rs:400-406 [eof]. *)
  Definition eof (i : input I) : simple unit :=
    if (length (buf i) =? 0) && last i then ret tt i else err (err_unexpected verbose) i.
End Parsers.
