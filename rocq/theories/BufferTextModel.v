(** How the values of Buffer.v and Stream.v are written as values of the text of src/buffer (Rust.v, BufferText.v).  No proofs here. *)
From Coq Require Import List Bool Arith String.
From Verif Require Import Base Combinators Buffer Stream Rust RustText BufferText TextModel.
Import ListNotations.

Set Implicit Arguments.
Local Open Scope string_scope.
Local Open Scope nat_scope.

Section Written.
  Context {I O : Type}.
  Notation value := (value I O).

  (** std's [Vec::new()] and [Vec::with_capacity(n)] (documentation of std): the capacity is [cap0] (zero, or [usize::MAX] for zero-sized items),
      and at least [n]. *)
  Definition new_vectors (cap0 : nat) (extra : nat -> nat) (more : nat -> nat) (v : value) : value :=
    match v with
    | VCon _ _ [VNat n] => VMem [] (n + extra n) more 0
    | _ => VMem [] cap0 more 0
    end.
  (** std's [io::Result]; an [io::Error] is only passed on. *)
  Definition w_io {A : Type} (wa : A -> value) (r : io A) : value :=
    match r with
    | IoOk a => VCon "Result" "Ok" [wa a]
    | IoErr e => VCon "Result" "Err" [VCon "io::Error" "" [VNat e]]
    end.
  (** std's [Cell<usize>], as in src/buffer/buffer.rs:70, 184. *)
  Definition w_cell (n : nat) : value := VCon "Cell" "" [VNat n].

  (** src/buffer/buffer.rs:62-71 [struct FixedSizeBuffer]; of the vector the model has the items only. *)
  Definition w_fixed (cap : nat) (more : nat -> nat) (count : nat) (b : fixed I) : value :=
    VRec "FixedSizeBuffer" [("buffer", VMem (f_mem b) cap more count); ("populated", VNat (f_populated b)); ("used", w_cell (f_used b))].
  (** src/buffer/buffer.rs:174-185 [struct GrowingBuffer]. *)
  Definition w_growing (b : growing I) : value :=
    VRec "GrowingBuffer" [("buffer", VMem (g_mem b) (g_cap b) (g_alloc b) (g_count b)); ("populated", VNat (g_populated b));
                          ("limit", VNat (g_limit b)); ("used", w_cell (g_used b))].

  (** src/buffer/slice.rs:43-46 [struct SliceStream]. *)
  Definition w_slices (s : slice_stream I) : value := VRec "SliceStream" [("pos", VNat (ss_pos s)); ("slice", VSlice (ss_slice s))].

  (** src/buffer/mod.rs:52-66 [enum StreamError]. *)
  Definition w_stream_error {E : Type} (we : E -> value) (e : stream_error I E) : value :=
    match e with
    | SParseError b e => VCon "StreamError" "ParseError" [VSlice b; we e]
    | SIncomplete n => VCon "StreamError" "Incomplete" [VNat n]
    | SIoError e => VCon "StreamError" "IoError" [VCon "io::Error" "" [VNat e]]
    | SEndOfInput => VCon "StreamError" "EndOfInput" []
    | SRetry => VCon "StreamError" "Retry" []
    end.
  (** The [Result] of src/buffer/stateful.rs:206 and src/buffer/slice.rs:85. *)
  Definition w_sres {T E : Type} (wt : T -> value) (we : E -> value) (r : sres I T E) : value :=
    match r with
    | inl t => VCon "Result" "Ok" [wt t]
    | inr e => VCon "Result" "Err" [w_stream_error we e]
    end.

  (** src/buffer/stateful.rs:17-28 [ParserState]. *)
  Definition w_state (incomplete eoi auto : bool) : nat := (if incomplete then 1 else 0) + (if eoi then 2 else 0) + (if auto then 4 else 0).
  (** src/buffer/stateful.rs:31-41 [struct Source], the source and the buffer written by [wsrc] and [wb]. *)
  Definition w_src {St B : Type} (wsrc : St -> value) (wb : B -> value) (st : src St B) : value :=
    VRec "Source" [("source", wsrc (src_source st)); ("buffer", wb (src_buffer st)); ("request", VNat (src_request st));
                   ("state", VFlags (w_state (src_incomplete st) (src_eoi st) (src_auto st)))].
End Written.

(** What is given from outside to src/buffer/*.rs: the [DataSource], [io::Read] or [Iterator] in its states, another implementation of [Buffer], the
    parser of [parse], and its values and errors. *)
Inductive stream_thing (St B T E : Type) : Type :=
| KSource (s : St)
| KBuffer (b : B)
| KParser
| KValue (t : T)
| KErr (e : E).
Arguments KSource {St B T E} s.
Arguments KBuffer {St B T E} b.
Arguments KParser {St B T E}.
Arguments KValue {St B T E} t.
Arguments KErr {St B T E} e.

Section Things.
  Context {St B T E I : Type}.
  Notation thing := (stream_thing St B T E).
  Notation value := (value I thing).
  (** The [DataSource] (also as [io::Read] of src/buffer/data_source.rs:48), the [Iterator] (src/buffer/data_source.rs:79), the [Buffer]
      (src/buffer/stateful.rs:68) and the parser (src/buffer/stateful.rs:207). *)
  Variable ds : data_source St I.
  Variable next : St -> option I * St.
  Variable ops : buffer_ops I B.
  Variable p : parser I T E.

  (** Values and errors of the parser of src/buffer/stateful.rs:207. *)
  Definition w_kvalue (t : T) : value := VObj (KValue t).
  (** Its errors. (src/buffer/stateful.rs:207) *)
  Definition w_kerr (e : E) : value := VObj (KErr e).
  (** A [DataSource] from outside (src/buffer/stateful.rs:68). *)
  Definition w_ksource (s : St) : value := VObj (KSource s).
  (** A [Buffer] from outside (src/buffer/stateful.rs:68). *)
  Definition w_kbuffer (b : B) : value := VObj (KBuffer b).

  (** The methods of src/buffer/data_source.rs:6-22 and src/buffer/buffer.rs:15-55, std's [Iterator::next], and calls of the parser. *)
  Definition outside_stream (o : thing) (m : string) (vs : list value) : answered I thing :=
    match o, vs with
    | KSource s, [VPart _ _ _ n] => let r := ds_read ds s n in GivesWrite (snd (fst r)) (snd r) (KSource (fst (fst r)))
    | KSource s, [] => let r := next s in GivesOption (fst r) VItem (KSource (snd r))
    | KBuffer b, [] =>
        if String.eqb m "len" then GivesRun (op_len ops b) VNat (fun _ => KBuffer b)
        else if String.eqb m "capacity" then Gives (VNat (op_capacity ops b)) (KBuffer b)
        else GivesRun (op_deref ops b) VSlice (fun _ => KBuffer b)
    | KBuffer b, [VNat n] =>
        if String.eqb m "request_space" then GivesRun (op_request_space ops b n) (fun _ => VUnit) KBuffer
        else GivesRun (op_consume ops b n) (fun _ => VUnit) KBuffer
    | KBuffer b, [VObj (KSource s)] =>
        GivesBoth (op_fill ops ds b s) snd (fun x => KBuffer (fst (fst x))) (fun x => KSource (snd (fst x)))
    | KParser, [VCon _ _ [VFlags b; VSlice l]] => GivesResult (p (mkInput (same_nat b 1) l)) w_kvalue w_kerr KParser
    | _, _ => GivesUp
    end.
End Things.
