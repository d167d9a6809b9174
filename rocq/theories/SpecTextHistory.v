(** The executions of the text of src/buffer (BufferText.v) that a user of a Source can bring about: a Source made by the constructors of the text,
    then any calls of its methods.  Nothing here speaks of the functions of Buffer.v and Stream.v except for the data sources (the reader and the
    iterator are given from outside).  No proofs here. *)
From Coq Require Import List Bool Arith String.
From Verif Require Import Base Combinators Buffer Stream Rust RustText BufferText TextModel BufferTextModel SpecBuffer SpecSafe SpecStream.
Import ListNotations.

Set Implicit Arguments.
Local Open Scope string_scope.
Local Open Scope list_scope.
Local Open Scope nat_scope.

(** With enough fuel, and whatever more there is, the call ends with the value [v] and leaves [s] in the variables. *)
Definition comes_to {I O : Type} (g : nat -> out I O (value I O) * list (value I O)) (v : value I O) (s : list (value I O)) : Prop :=
  exists n, forall m, n <= m -> g m = (Val v, s).

Section TextMade.
  Context {St B0 T E I : Type}.
  Notation thing := (stream_thing St B0 T E).
  Notation value := (value I thing).
  Variable verbose : bool.
  Variable eqb : I -> I -> bool.
  Variable ds : data_source St I.
  Variable next : St -> option I * St.
  Variable ops0 : buffer_ops I B0.
  Variable cap0 : nat.
  Variable extra alloc : nat -> nat.
  Variable starts : thing.
  Variable acts : thing -> caction value value thing.

  (** A call of the function [f] of [ty] in the text of src/buffer (src/buffer/mod.rs:1-17), where the parser given to [parse] is [p]. *)
  Definition text (p : parser I T E) (ty f : string) (vs s : list value) (n : nat) : out I thing value * list value :=
    @call_in I thing (buffer_text verbose) (outside_stream ds next ops0 p) eqb (new_vectors cap0 extra alloc) starts acts n ty f vs s.

  (** The buffers of src/buffer/buffer.rs: [FixedSizeBuffer::new] (74-78), [with_size] (80-102), [GrowingBuffer::new] (188-192), [with_limit]
      (194-208). *)
  Inductive made_buffer : value -> Prop :=
  | b_fixed p b : comes_to (text p "FixedSizeBuffer" "new" [] []) b [] -> made_buffer b
  | b_sized p n b : comes_to (text p "FixedSizeBuffer" "with_size" [VNat n] []) b [] -> made_buffer b
  | b_growing p b : comes_to (text p "GrowingBuffer" "new" [] []) b [] -> made_buffer b
  | b_limited p n b : comes_to (text p "GrowingBuffer" "with_limit" [VNat n] []) b [] -> made_buffer b.
  (** A Source made by the constructors of src/buffer/stateful.rs:43-77 from the reader, iterator or data source in the state [s]; [d] is the data
      source that is then inside. *)
  Inductive made : data_source St I -> St -> value -> Prop :=
  | m_new p s v : comes_to (text p "Source" "new" [w_ksource s] []) v [] -> made (read_data_source (ds_read ds)) s v
  | m_from_read p s b v : made_buffer b -> comes_to (text p "Source" "from_read" [w_ksource s; b] []) v [] -> made (read_data_source (ds_read ds)) s v
  | m_from_iter p s b v : made_buffer b -> comes_to (text p "Source" "from_iter" [w_ksource s; b] []) v [] -> made (iter_data_source next) s v
  | m_with_buffer p s b v : made_buffer b -> comes_to (text p "Source" "with_buffer" [w_ksource s; b] []) v [] -> made ds s v.

End TextMade.

Section TextHistory.
  Context {St B0 T E I : Type}.
  Notation thing := (stream_thing St B0 (list I * T) (list I * E)).
  Notation value := (value I thing).
  Variable verbose : bool.
  Variable eqb : I -> I -> bool.
  Variable ds : data_source St I.
  Variable next : St -> option I * St.
  Variable ops0 : buffer_ops I B0.
  Variable cap0 : nat.
  Variable extra alloc : nat -> nat.
  Variable starts : thing.
  Variable acts : thing -> caction value value thing.
  Notation text := (@text St B0 (list I * T) (list I * E) I verbose eqb ds next ops0 cap0 extra alloc starts acts).
  Notation made := (@made St B0 (list I * T) (list I * E) I verbose eqb ds next ops0 cap0 extra alloc starts acts).

  (** The items the parser of src/buffer/stateful.rs:207 had taken when it gave the value or error that [parse] returned. *)
  Definition handed (r : value) : list I :=
    match r with
    | VCon _ _ [VObj (KValue (h, _))] => h
    | VCon _ _ [VCon _ _ [_; VObj (KErr (h, _))]] => h
    | _ => []
    end.
  (** The items in the memory [m] given to [read] (src/buffer/stateful.rs:172), of which it returned that it wrote so many. *)
  Definition copied (r : value) (m : memory I) : list I :=
    match r with
    | VCon _ _ [VNat k] => somes (firstn k m)
    | _ => []
    end.
  (** A parser that gives an answer, and no slice but the end of what it was given (src/types.rs:1-20). *)
  Definition usable (p : parser I T E) : Prop := well_behaved p /\ (forall i, p i <> Panic) /\ (forall i, p i <> NoFuel).

  (** The values a Source gets by the calls of src/buffer/stateful.rs: [parse] (205-246), [fill] (103-120), [read] (170-183), [fill_buf] (185-193),
      [consume] (195-198, with no more than the caller has seen), [reset] (148-155), [set_autofill] (157-167).  The list has the items handed out; the
      parsers show what they have taken. *)
  Inductive text_history (d : data_source St I) (s0 : St) : value -> list I -> Prop :=
  | t_made v : made d s0 v -> text_history d s0 v []
  | t_parse v out p r v' : text_history d s0 v out -> usable p ->
      comes_to (text (telling p) "Source" "parse" [VRef 0 []; VObj KParser] [v]) r [v'] -> text_history d s0 v' (out ++ handed r)
  | t_fill v out p r v' : text_history d s0 v out -> comes_to (text p "Source" "fill" [VRef 0 []] [v]) r [v'] -> text_history d s0 v' out
  | t_read v out p m cap more count r v' m' : text_history d s0 v out ->
      comes_to (text p "Source" "read" [VRef 0 []; VPart 1 [] 0 (List.length m)] [v; VMem m cap more count]) r [v'; VMem m' cap more count] ->
      text_history d s0 v' (out ++ copied r m')
  | t_fill_buf v out p r v' : text_history d s0 v out -> comes_to (text p "Source" "fill_buf" [VRef 0 []] [v]) r [v'] -> text_history d s0 v' out
  | t_consume v out p l k r v' : text_history d s0 v out -> comes_to (text p "Source" "buffer" [VRef 0 []] [v]) (VSlice l) [v] -> k <= List.length l ->
      comes_to (text p "Source" "consume" [VRef 0 []; VNat k] [v]) r [v'] -> text_history d s0 v' (out ++ firstn k l)
  | t_reset v out p r v' : text_history d s0 v out -> comes_to (text p "Source" "reset" [VRef 0 []] [v]) r [v'] -> text_history d s0 v' out
  | t_autofill v out p a r v' : text_history d s0 v out -> comes_to (text p "Source" "set_autofill" [VRef 0 []; VBool a] [v]) r [v'] ->
      text_history d s0 v' out.

  (** The values of a SliceStream over [data], made by [SliceStream::new] (src/buffer/slice.rs:50-56) or [into_stream] (71-79), and then used by
      [parse] (81-110); with the items handed out. *)
  Inductive text_slices (data : list I) : value -> list I -> Prop :=
  | ts_new p v : comes_to (text p "SliceStream" "new" [VSlice data] []) v [] -> text_slices data v []
  | ts_into p v : comes_to (text p "slice" "into_stream" [VSlice data] []) v [] -> text_slices data v []
  | ts_parse v gone p r v' : text_slices data v gone -> usable p ->
      comes_to (text (telling p) "SliceStream" "parse" [VRef 0 []; VObj KParser] [v]) r [v'] -> text_slices data v' (gone ++ handed r).
End TextHistory.
