(** Model of the derived implementations ([#[derive(...)]]) of the crate: comparison, hashing, and what [Debug] reads.  No proofs here.

    What [derive] generates (The Rust Reference): [==] compares the fields in order and stops at the first difference; [cmp] is
    lexicographic, enum variants being ordered as they are declared; [hash] feeds the number of the variant and then the fields.
    Comparisons of the type parameters are arguments, as [Hash] is: [hash x] is what [x] feeds to the hasher.
    [Eq] (a marker), [Clone] (of [Error], which copies) and [PhantomData] (all values equal) have no content. *)
From Coq Require Import List Bool Arith.
From Verif Require Import Base Parsers Buffer Stream.
Import ListNotations.

Set Implicit Arguments.

(** The second comparison decides if the first does not. In the derived [Ord] of src/parsers.rs:415-427, src/parse_result.rs:17-33. *)
Definition then_cmp (c d : comparison) : comparison := match c with Eq => d | _ => c end.

(** [Ord] of slices (std): lexicographic, a prefix is less. *)
Fixpoint slice_cmp {A} (cmp : A -> A -> comparison) (l1 l2 : list A) : comparison :=
  match l1, l2 with
  | [], [] => Eq
  | [], _ :: _ => Lt
  | _ :: _, [] => Gt
  | x :: l1, y :: l2 => then_cmp (cmp x y) (slice_cmp cmp l1 l2)
  end.

(** [Hash] of slices (std): the length, then the items. *)
Definition slice_hash {A} (hash : A -> list nat) (l : list A) : list nat := length l :: concat (List.map hash l).

(** src/input.rs:4-11 [InputMode]: [bitflags!] (0.3.3) derives comparison and hashing from the bits. *)
Definition mode_bits (last : bool) : nat := if last then 1 else 0.

Section Items.
  Context {I : Type}.
  Variable ieqb : I -> I -> bool.
  Variable icmp : I -> I -> comparison.
  Variable ihash : I -> list nat.

  (** src/input.rs:77 on [Input]. *)
  Definition input_eqb (x y : input I) : bool := (mode_bits (last x) =? mode_bits (last y)) && list_eqb ieqb (buf x) (buf y).
  Definition input_cmp (x y : input I) : comparison :=
    then_cmp (Nat.compare (mode_bits (last x)) (mode_bits (last y))) (slice_cmp icmp (buf x) (buf y)).
  Definition input_hash (x : input I) : list nat := mode_bits (last x) :: slice_hash ihash (buf x).

  (** src/parsers.rs:416 on [Error] (feature verbose_error), and src/parsers.rs:496 without the feature ([EPlain], which does not occur
      together with the other three: its place among them is arbitrary). *)
  Definition error_tag (e : error I) : nat := match e with Expected _ => 0 | Unexpected => 1 | EString _ => 2 | EPlain => 3 end.
  Definition error_eqb (x y : error I) : bool :=
    match x, y with
    | Expected a, Expected b => ieqb a b
    | Unexpected, Unexpected => true
    | EString a, EString b => list_eqb ieqb a b
    | EPlain, EPlain => true
    | _, _ => false
    end.
  Definition error_cmp (x y : error I) : comparison :=
    match x, y with
    | Expected a, Expected b => icmp a b
    | EString a, EString b => slice_cmp icmp a b
    | _, _ => Nat.compare (error_tag x) (error_tag y)
    end.
  Definition error_hash (x : error I) : list nat :=
    match x with
    | Expected a => error_tag x :: ihash a
    | EString a => error_tag x :: slice_hash ihash a
    | Unexpected => [error_tag x]
    | EPlain => []
    end.

  Section Values.
    Context {T E : Type}.
    Variables (teqb : T -> T -> bool) (tcmp : T -> T -> comparison) (thash : T -> list nat).
    Variables (eeqb : E -> E -> bool) (ecmp : E -> E -> comparison) (ehash : E -> list nat).

    (** src/parse_result.rs:17 on [State], and src/parse_result.rs:82 on [ParseResult], which has it as its only field.  [Panic] and [NoFuel]
        are not values of the type: their places are arbitrary. *)
    Definition state_tag (r : pres I T E) : nat := match r with Data _ _ => 0 | Error _ _ => 1 | Incomplete _ => 2 | Panic => 3 | NoFuel => 4 end.
    Definition state_eqb (x y : pres I T E) : bool :=
      match x, y with
      | Data i t, Data j u => input_eqb i j && teqb t u
      | Error b e, Error c f => list_eqb ieqb b c && eeqb e f
      | Incomplete n, Incomplete m => n =? m
      | _, _ => state_tag x =? state_tag y
      end.
    Definition state_cmp (x y : pres I T E) : comparison :=
      match x, y with
      | Data i t, Data j u => then_cmp (input_cmp i j) (tcmp t u)
      | Error b e, Error c f => then_cmp (slice_cmp icmp b c) (ecmp e f)
      | Incomplete n, Incomplete m => Nat.compare n m
      | _, _ => Nat.compare (state_tag x) (state_tag y)
      end.
    Definition state_hash (x : pres I T E) : list nat :=
      state_tag x :: match x with
                     | Data i t => input_hash i ++ thash t
                     | Error b e => slice_hash ihash b ++ ehash e
                     | Incomplete n => [n]
                     | _ => []
                     end.

    (** src/parse.rs:6 on [ParseError]. *)
    Definition parse_error_eqb (x y : parse_error I E) : bool :=
      match x, y with
      | PErr b e, PErr c f => list_eqb ieqb b c && eeqb e f
      | PIncomplete n, PIncomplete m => n =? m
      | _, _ => false
      end.
  End Values.

  (** src/buffer/slice.rs:42 on [SliceStream]. *)
  Definition slice_stream_eqb (x y : slice_stream I) : bool := (ss_pos x =? ss_pos y) && list_eqb ieqb (ss_slice x) (ss_slice y).
  Definition slice_stream_hash (x : slice_stream I) : list nat := ss_pos x :: slice_hash ihash (ss_slice x).

  (** * Buffers *)

  (** [==] of vectors (std) of the same length: items are compared one after the other.  Looking at a slot which has never been written is
      undefined behaviour. *)
  Fixpoint memory_eqb (m1 m2 : memory I) : run bool :=
    match m1, m2 with
    | [], [] => Done true
    | Some x :: m1, Some y :: m2 => if ieqb x y then memory_eqb m1 m2 else Done false
    | [], _ :: _ | _ :: _, [] => Done false
    | _, _ => Undefined
    end.

  (** src/buffer/buffer.rs:61 [PartialEq for FixedSizeBuffer]: the whole backing vector, [populated], [used]. *)
  Definition fixed_eqb (x y : fixed I) : run bool :=
    let! e := (if length (f_mem x) =? length (f_mem y) then memory_eqb (f_mem x) (f_mem y) else Done false) in
    Done (e && (f_populated x =? f_populated y) && (f_used x =? f_used y)).

  (** src/buffer/buffer.rs:61 [Debug for FixedSizeBuffer]: all items of the backing vector are formatted, whatever [populated] is. The text
      is not modelled, only what it shows. *)
  Definition fixed_debug (b : fixed I) : run (list I * nat * nat) :=
    let! l := expose (f_mem b) in Done (l, f_populated b, f_used b).

  (** src/buffer/buffer.rs:173 [Debug for GrowingBuffer]. *)
  Definition growing_debug (b : growing I) : run (list I * nat * nat * nat) :=
    let! l := expose (g_mem b) in Done (l, g_populated b, g_limit b, g_used b).

  (** src/buffer/stateful.rs:31 [Debug for Source], given that of the buffer; that of the data source is not modelled. *)
  Definition src_debug {St B D} (debug : B -> run D) (st : src St B) : run (D * nat * (bool * bool * bool)) :=
    let! d := debug (src_buffer st) in Done (d, src_request st, (src_incomplete st, src_eoi st, src_auto st)).
End Items.
