(** A Source as the reader of another Source. *)
From Coq Require Import List Bool Arith.
From Verif Require Import Base Buffer Stream.
Import ListNotations.

Set Implicit Arguments.

(** src/buffer/stateful.rs:170-183 [impl io::Read for Source] as the [R: io::Read] of [ReadDataSource<R>] (src/buffer/data_source.rs:24-50).  The items copied
    by [src_read] are those written to the front of the slice.  Simplification: readers do not panic in this model (Buffer.v); should the inner call panic, it counts as
    an I/O error (C77_returns: it does not). *)
Definition src_reader {St I B} (ds : data_source St I) (ops : buffer_ops I B) (st : src St B) (n : nat) : src St B * memory I * io nat :=
  match src_read ds ops n st with
  | Done (st, IoOk l) => (st, List.map Some l, IoOk (length l))
  | Done (st, IoErr e) => (st, [], IoErr e)
  | _ => (st, [], IoErr 0)
  end.

(** src/buffer/stateful.rs:54-56 [Source::from_read] and src/buffer/data_source.rs:27-50 [ReadDataSource], over a Source. *)
Definition nested {St I B} (ds : data_source St I) (ops : buffer_ops I B) : data_source (src St B) I := read_data_source (src_reader ds ops).
