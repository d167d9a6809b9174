(** The executions of the text of src/buffer with parsers that may do anything: panic, or hand back what they were not given.  No proofs here. *)
From Coq Require Import List Bool Arith String.
From Verif Require Import Base Combinators Buffer Stream Rust RustText BufferText TextModel BufferTextModel SpecTextHistory.
Import ListNotations.

Set Implicit Arguments.
Local Open Scope string_scope.
Local Open Scope list_scope.
Local Open Scope nat_scope.

(** With enough fuel, and whatever more there is, the call ends in a panic. *)
Definition panics {I O : Type} (g : nat -> out I O (value I O) * list (value I O)) : Prop :=
  exists n, forall m, n <= m -> fst (g m) = Panicking.

(** [p] has been run on [d], which it was told is the last slice if [l] (src/buffer/stateful.rs:218-246): the stream answers and shows the given list, or
    it has panicked (None).  The number of items handed back counts, not what they are. *)
Definition ran_any {I T E : Type} (p : parser I T E) (l : bool) (d : list I) (r : option (sres I T E * list I)) : Prop :=
  let leaves n out := r = if n <=? List.length d then Some (out, skipn (List.length d - n) d) else None in
  match p (mkInput l d) with
  | Data j v => leaves (List.length (buf j)) (inl v)
  | Error b e => leaves (List.length b) (inr (SParseError b e))
  | Incomplete n => r = Some (inr (if l then SIncomplete (List.length d + n) else SRetry), d)
  | Panic => r = None
  | NoFuel => False
  end.

Section TextAny.
  Context {St B0 T E I : Type}.
  Notation thing := (stream_thing St B0 T E).
  Notation value := (value I thing).
  Variable verbose : bool.
  Variable eqb : I -> I -> bool.
  Variable ds : data_source St I.
  Variable next : St -> option I * St.
  Variable ops0 : buffer_ops I B0.
  Variable cap0 : nat.
  Variable extra alloc : nat -> nat.
  Variable starts : thing.
  Variable acts : thing -> caction value value thing.
  Notation text := (@text St B0 T E I verbose eqb ds next ops0 cap0 extra alloc starts acts).
  Notation made := (@made St B0 T E I verbose eqb ds next ops0 cap0 extra alloc starts acts).

  (** The values a Source gets by the calls of src/buffer/stateful.rs: [parse] (205-246) with any parser that ends, [fill] (103-120), [read] (170-183),
      [fill_buf] (185-193), [consume] (195-198) of any number, [reset] (148-155), [set_autofill] (157-167). *)
  Inductive text_states (d : data_source St I) (s0 : St) : value -> Prop :=
  | a_made v : made d s0 v -> text_states d s0 v
  | a_parse v p r v' : text_states d s0 v -> (forall i, p i <> NoFuel) ->
      comes_to (text p "Source" "parse" [VRef 0 []; VObj KParser] [v]) r [v'] -> text_states d s0 v'
  | a_fill v p r v' : text_states d s0 v -> comes_to (text p "Source" "fill" [VRef 0 []] [v]) r [v'] -> text_states d s0 v'
  | a_read v p m cap more count r v' m' : text_states d s0 v ->
      comes_to (text p "Source" "read" [VRef 0 []; VPart 1 [] 0 (List.length m)] [v; VMem m cap more count]) r [v'; VMem m' cap more count] ->
      text_states d s0 v'
  | a_fill_buf v p r v' : text_states d s0 v -> comes_to (text p "Source" "fill_buf" [VRef 0 []] [v]) r [v'] -> text_states d s0 v'
  | a_consume v p k r v' : text_states d s0 v -> comes_to (text p "Source" "consume" [VRef 0 []; VNat k] [v]) r [v'] -> text_states d s0 v'
  | a_reset v p r v' : text_states d s0 v -> comes_to (text p "Source" "reset" [VRef 0 []] [v]) r [v'] -> text_states d s0 v'
  | a_autofill v p a r v' : text_states d s0 v -> comes_to (text p "Source" "set_autofill" [VRef 0 []; VBool a] [v]) r [v'] -> text_states d s0 v'.

  (** The values of a SliceStream over [data], made by [SliceStream::new] (src/buffer/slice.rs:50-56) or [into_stream] (71-79), and then used by
      [parse] (81-110) with any parser that ends. *)
  Inductive text_slice_states (data : list I) : value -> Prop :=
  | as_new p v : comes_to (text p "SliceStream" "new" [VSlice data] []) v [] -> text_slice_states data v
  | as_into p v : comes_to (text p "slice" "into_stream" [VSlice data] []) v [] -> text_slice_states data v
  | as_parse v p r v' : text_slice_states data v -> (forall i, p i <> NoFuel) ->
      comes_to (text p "SliceStream" "parse" [VRef 0 []; VObj KParser] [v]) r [v'] -> text_slice_states data v'.
End TextAny.
