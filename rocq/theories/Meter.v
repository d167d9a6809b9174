(** The buffers of src/buffer/buffer.rs with a meter for the items they copy about.  No proofs here.
    See Buffer.v for the simplifications.  The meter is no part of the crate; that it does not disturb is C58_undisturbed. *)
From Coq Require Import List Bool Arith.
From Verif Require Import Base Buffer Stream.
Import ListNotations.

Set Implicit Arguments.

(** What has happened to a buffer so far: the number of [ptr::copy]s (src/buffer/buffer.rs:140, 264) and of items moved by them, the number of
    times that [Vec::reserve] (line 249) had to allocate and of items it relocated in doing so, the items that [fill] (lines 122-129, 229-236)
    reported.  (Model-only type.) *)
Record meter : Type := mkMeter { mt_moves : nat; mt_moved : nat; mt_allocations : nat; mt_relocated : nat; mt_received : nat }.

(** Nothing yet. As of src/buffer/buffer.rs:82-101, 200-208, new buffers. *)
Definition meter_zero : meter := mkMeter 0 0 0 0 0.

(** One [ptr::copy] of [n] items, src/buffer/buffer.rs:140, 264. *)
Definition meter_move (n : nat) (m : meter) : meter :=
  mkMeter (S (mt_moves m)) (mt_moved m + n) (mt_allocations m) (mt_relocated m) (mt_received m).

(** One allocation, src/buffer/buffer.rs:249, for a vector of [n] items.  All of them count, though an allocator may leave them where they are. *)
Definition meter_allocation (n : nat) (m : meter) : meter :=
  mkMeter (mt_moves m) (mt_moved m) (S (mt_allocations m)) (mt_relocated m + n) (mt_received m).

(** A [fill] that reports [n] items, src/buffer/buffer.rs:126, 233. *)
Definition meter_received (n : nat) (m : meter) : meter :=
  mkMeter (mt_moves m) (mt_moved m) (mt_allocations m) (mt_relocated m) (mt_received m + n).

(** src/buffer/buffer.rs:132-147 [request_space] of FixedSizeBuffer, with the meter. *)
Definition fixed_request_space_m {I} (x : fixed I * meter) (items : nat) : run (fixed I * meter) :=
  let '(b, mt) := x in
  let! _ := assert (f_used b <=? f_populated b) in
  let! room := usize_sub (length (f_mem b)) (f_populated b) in
  if room <? items then
    let! n := usize_sub (f_populated b) (f_used b) in
    let! m := copy_down (f_mem b) (f_used b) n in
    Done (mkFixed m n 0, meter_move n mt)
  else Done (b, mt).

(** src/buffer/buffer.rs:239-271 [request_space] of GrowingBuffer, with the meter. *)
Definition growing_request_space_m {I} (x : growing I * meter) (items : nat) : run (growing I * meter) :=
  let '(b, mt) := x in
  if negb (g_limit b =? 0) && (g_limit b <? g_cap b) then Done (b, mt)
  else
    let! l := growing_len b in
    let mt := if (g_cap b <? items + l) && negb (items <=? g_cap b - length (g_mem b)) then meter_allocation (length (g_mem b)) mt else mt in
    let b := if g_cap b <? items + l then growing_set_len (growing_reserve b items) else b in
    let! room := usize_sub (length (g_mem b)) (g_populated b) in
    if room <? items then
      let! n := usize_sub (g_populated b) (g_used b) in
      let! m := copy_down (g_mem b) (g_used b) n in
      Done (mkGrowing m (g_cap b) n (g_limit b) 0 (g_alloc b) (g_count b), meter_move n mt)
    else Done (b, mt).

(** [fill] of either buffer (src/buffer/buffer.rs:121-130, 228-237), with the meter. *)
Definition metered_fill {I B} (ops : buffer_ops I B) St (ds : data_source St I) (x : B * meter) (s : St) : run (B * meter * St * io nat) :=
  let '(b, mt) := x in
  let! (b, s, r) := op_fill ops ds b s in
  Done (b, match r with IoOk n => meter_received n mt | IoErr _ => mt end, s, r).

(** A buffer with a meter, src/buffer/buffer.rs:120-165, 227-289; [request] is its [request_space]. *)
Definition metered {I B} (ops : buffer_ops I B) (request : B * meter -> nat -> run (B * meter)) : buffer_ops I (B * meter) :=
  mkBufferOps (fun x => op_deref ops (fst x)) (@metered_fill I B ops) request
    (fun x k => let! b := op_consume ops (fst x) k in Done (b, snd x)) (fun x => op_len ops (fst x)) (fun x => op_capacity ops (fst x)).

(** src/buffer/buffer.rs:120-165 and 227-289 with meters. *)
Definition fixed_metered (I : Type) : buffer_ops I (fixed I * meter) := metered (fixed_ops I) fixed_request_space_m.
Definition growing_metered (I : Type) : buffer_ops I (growing I * meter) := metered (growing_ops I) growing_request_space_m.
