(** What the limit of a GrowingBuffer (src/buffer/buffer.rs:178-179, 195-208, 241-244) is supposed to do. *)
From Coq Require Import List Bool Arith.
From Verif Require Import Base Buffer Stream SpecBase SpecSafe SpecBuffer SpecStream.
Import ListNotations.

Set Implicit Arguments.

(** * Two buffers which differ in the limit only *)
Definition limited {I} (limit : nat) (b : growing I) : growing I :=
  mkGrowing (g_mem b) (g_cap b) (g_populated b) limit (g_used b) (g_alloc b) (g_count b).
Definition src_limited {St I} (limit : nat) (st : src St (growing I)) : src St (growing I) :=
  mkSrc (src_source st) (limited limit (src_buffer st)) (src_request st) (src_incomplete st) (src_eoi st) (src_auto st).

(** The state a call ends in, seen with the other limit. *)
Definition ending {A B R} (f : A -> B) (r : run (A * R)) : run (B * R) := let! (a, x) := r in Done (f a, x).

(** No call in the state [st], which has no limit, shows that the limit has been imposed. *)
Record limit_unnoticed {St I} (ds : data_source St I) (limit : nat) (st : src St (growing I)) : Prop := mkUnnoticed {
  lu_parse : forall T E (p : parser I T E),
    src_parse ds (growing_ops I) p (src_limited limit st) = ending (src_limited limit) (src_parse ds (growing_ops I) p st);
  lu_fill : src_fill ds (growing_ops I) (src_limited limit st) = ending (src_limited limit) (src_fill ds (growing_ops I) st);
  lu_read : forall n, src_read ds (growing_ops I) n (src_limited limit st) = ending (src_limited limit) (src_read ds (growing_ops I) n st);
  lu_fill_buf : src_fill_buf ds (growing_ops I) (src_limited limit st) = ending (src_limited limit) (src_fill_buf ds (growing_ops I) st);
  lu_consume : forall n, src_consume (growing_ops I) n (src_limited limit st) =
    (let! st' := src_consume (growing_ops I) n st in Done (src_limited limit st'));
  lu_view : src_view (growing_ops I) (src_limited limit st) = src_view (growing_ops I) st;
  lu_len : src_len (growing_ops I) (src_limited limit st) = src_len (growing_ops I) st;
  lu_is_empty : src_is_empty (growing_ops I) (src_limited limit st) = src_is_empty (growing_ops I) st;
  lu_capacity : src_capacity (growing_ops I) (src_limited limit st) = src_capacity (growing_ops I) st }.

(** * Modest demands *)

(** The histories of a Source (SpecStream.v) in which nobody asks for more than [M] items at a time: neither the caller of [read], nor a
    parser, what it has been shown included. *)
Inductive modest_history {St I B} (ds : data_source St I) (ops : buffer_ops I B) (M : nat) (s0 : St) (b0 : B) : src St B -> list I -> Prop :=
| mh_new : modest_history ds ops M s0 b0 (src_with_buffer s0 b0) []
| mh_parse : forall st out T E (p : parser I T E) st' r, modest_history ds ops M s0 b0 st out -> well_behaved p ->
    src_parse ds ops (telling p) st = Done (st', r) -> src_request st' <= M -> modest_history ds ops M s0 b0 st' (out ++ told r)
| mh_fill : forall st out st' r, modest_history ds ops M s0 b0 st out -> src_fill ds ops st = Done (st', r) -> modest_history ds ops M s0 b0 st' out
| mh_read : forall st out n st' r, modest_history ds ops M s0 b0 st out -> n <= M -> src_read ds ops n st = Done (st', r) ->
    modest_history ds ops M s0 b0 st' (out ++ match r with IoOk l => l | IoErr _ => [] end)
| mh_fill_buf : forall st out st' r, modest_history ds ops M s0 b0 st out -> src_fill_buf ds ops st = Done (st', r) -> modest_history ds ops M s0 b0 st' out
| mh_consume : forall st out l n st', modest_history ds ops M s0 b0 st out -> src_view ops st = Done l -> n <= length l ->
    src_consume ops n st = Done st' -> modest_history ds ops M s0 b0 st' (out ++ firstn n l)
| mh_reset : forall st out, modest_history ds ops M s0 b0 st out -> modest_history ds ops M s0 b0 (src_reset st) out
| mh_autofill : forall st out v, modest_history ds ops M s0 b0 st out -> modest_history ds ops M s0 b0 (src_set_autofill v st) out.

(** A parser that, shown any part of [rest], never asks for more than [M] items in all. *)
Definition asks_within {I T E} (M : nat) (rest : list I) (p : parser I T E) : Prop :=
  forall b c n, rest = b ++ c -> p (mkInput false b) = Incomplete n -> length b + n <= M.

(** A program none of whose calls does, on the slice. *)
Inductive script_within {I T E} (M : nat) : slice_stream I -> script I T E -> Prop :=
| sw_stop : forall s, script_within M s Stop
| sw_next : forall s p k, asks_within M (skipn (ss_pos s) (ss_slice s)) p ->
    (forall s' r, slice_parse p s = Done (s', r) -> script_within M s' (k (forget r))) ->
    script_within M s (Next p k).

(** * Later states *)

(** What can become of a Source by any calls of its interface which return. *)
Inductive later {St I B} (ds : data_source St I) (ops : buffer_ops I B) (st0 : src St B) : src St B -> Prop :=
| l_now : later ds ops st0 st0
| l_parse : forall st T E (p : parser I T E) st' r, later ds ops st0 st -> src_parse ds ops p st = Done (st', r) -> later ds ops st0 st'
| l_fill : forall st st' r, later ds ops st0 st -> src_fill ds ops st = Done (st', r) -> later ds ops st0 st'
| l_read : forall st n st' r, later ds ops st0 st -> src_read ds ops n st = Done (st', r) -> later ds ops st0 st'
| l_fill_buf : forall st st' r, later ds ops st0 st -> src_fill_buf ds ops st = Done (st', r) -> later ds ops st0 st'
| l_consume : forall st n st', later ds ops st0 st -> src_consume ops n st = Done st' -> later ds ops st0 st'
| l_reset : forall st, later ds ops st0 st -> later ds ops st0 (src_reset st)
| l_autofill : forall st v, later ds ops st0 st -> later ds ops st0 (src_set_autofill v st).
