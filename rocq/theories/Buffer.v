(** Model of src/buffer/buffer.rs and src/buffer/data_source.rs.  No proofs here.

    Debug build: [debug_assert!] and overflow checks are on, a failing one is [Panicked].  (A release build differs only in the
    calls that are [Panicked] here for one of these two reasons.)
    Simplification: [usize] is unbounded ([nat]); allocation never fails. *)
From Coq Require Import List Bool Arith.
From Verif Require Import Base.
Import ListNotations.

Set Implicit Arguments.

(** The outcome of running code: it finishes, panics, or does something undefined; [Stuck] is an exhausted loop budget of the
    model.  (Model-only type.) For src/buffer/buffer.rs:120-165, 227-289 and src/buffer/stateful.rs:70-275. *)
Inductive run (A : Type) : Type :=
| Done (a : A)
| Panicked
| Undefined
| Stuck.
Arguments Done {A} a.
Arguments Panicked {A}.
Arguments Undefined {A}.
Arguments Stuck {A}.

(** Sequencing of code. Statements in a row, as in src/buffer/buffer.rs:133-147. *)
Definition run_bind {A B} (r : run A) (f : A -> run B) : run B :=
  match r with
  | Done a => f a
  | Panicked => Panicked
  | Undefined => Undefined
  | Stuck => Stuck
  end.
Notation "'let!' x := r 'in' k" := (run_bind r (fun x => k)) (at level 200, x pattern, r at level 100, k at level 200).

(** [io::Result<A>]; an [io::Error] is only ever passed on, it is a number here. src/buffer/buffer.rs:29, src/buffer/data_source.rs:21. *)
Inductive io (A : Type) : Type :=
| IoOk (a : A)
| IoErr (e : nat).
Arguments IoOk {A} a.
Arguments IoErr {A} e.

(** [a - b] on [usize]. As in src/buffer/buffer.rs:138, 144, 158, 282, src/buffer/slice.rs:62. *)
Definition usize_sub (a b : nat) : run nat := if b <=? a then Done (a - b) else Panicked.

(** [assert!] and [debug_assert!]. src/buffer/buffer.rs:83, 124, 136, 151, 231, 275. *)
Definition assert (c : bool) : run unit := if c then Done tt else Panicked.

(** * Memory *)

(** Backing memory ([Vec<I>], src/buffer/buffer.rs:64, 176): its items up to [Vec::len]; [None] is a slot which has never been
    written (the unsafe [set_len] of src/buffer/buffer.rs:88-90 and 257-259 makes such slots part of the vector). *)
Definition memory (I : Type) : Type := list (option I).

(** Making a slice of memory visible: all of it must have been written. The results of [deref], src/buffer/buffer.rs:103-110, 211-218. *)
Fixpoint expose {I} (m : memory I) : run (list I) :=
  match m with
  | [] => Done []
  | None :: _ => Undefined
  | Some x :: m => let! l := expose m in Done (x :: l)
  end.

(** Writes by a data source into the slice it was given: [Some x] writes [x], [None] leaves the slot alone. src/buffer/buffer.rs:123, 230. *)
Fixpoint overwrite {I} (w m : memory I) : memory I :=
  match w, m with
  | Some x :: w, _ :: m => Some x :: overwrite w m
  | None :: w, y :: m => y :: overwrite w m
  | _, m => m
  end.

(** [ptr::copy(p.offset(from), p, count)] on the memory. src/buffer/buffer.rs:140-142, 264-266. *)
Definition copy_down {I} (m : memory I) (from count : nat) : run (memory I) :=
  if from + count <=? length m then Done (firstn count (skipn from m) ++ skipn count m) else Undefined.

(** * Data sources *)

(** src/buffer/data_source.rs:6-22 [trait DataSource].  A source has a state; [read] gets the length of the slice (it must not read
    from it) and yields the new state, what it wrote into the slice (also when failing), and its result.
    Simplification: [read] does not panic. *)
Record data_source (St I : Type) : Type := mkDataSource { ds_read : St -> nat -> St * memory I * io nat }.

(** src/buffer/data_source.rs:24-50 [ReadDataSource]: hands [read] on to the [io::Read]; [R] with [r] is that reader. *)
Definition read_data_source {R I} (r : R -> nat -> R * memory I * io nat) : data_source R I := mkDataSource (fun s n => r s n).

(** src/buffer/data_source.rs:71-90 [IteratorDataSource::read]: the loop, with [k] slots to go ([buffer.len() - n]).
    [next] is [Iterator::next]. *)
Fixpoint iter_read {It I} (next : It -> option I * It) (k : nat) (it : It) : It * memory I * nat :=
  match k with
  | 0 => (it, [], 0)
  | S k =>
      match next it with
      | (Some i, it) => let '(it, w, n) := iter_read next k it in (it, Some i :: w, S n)
      | (None, it) => (it, [], 0)
      end
  end.

(** src/buffer/data_source.rs:52-91 [IteratorDataSource]. *)
Definition iter_data_source {It I} (next : It -> option I * It) : data_source It I :=
  mkDataSource (fun s k => let '(s, w, n) := iter_read next k s in (s, w, IoOk n)).

(** * The trait [Buffer] *)

(** src/buffer/buffer.rs:15-55 [trait Buffer<I>: Deref<Target=[I]>] as a dictionary for the implementation [B].
    [is_empty] (lines 47-50) is not used by the crate. *)
Record buffer_ops (I B : Type) : Type := mkBufferOps {
  op_deref : B -> run (list I);
  op_fill : forall St, data_source St I -> B -> St -> run (B * St * io nat);
  op_request_space : B -> nat -> run B;
  op_consume : B -> nat -> run B;
  op_len : B -> run nat;
  op_capacity : B -> nat }.

(** * FixedSizeBuffer *)

(** src/buffer/buffer.rs:62-71 [struct FixedSizeBuffer]. *)
Record fixed (I : Type) : Type := mkFixed { f_mem : memory I; f_populated : nat; f_used : nat }.

(** src/buffer/buffer.rs:82-101 [with_size]; [new] (lines 75-78) is [with_size(6 * 1024)]. *)
Definition fixed_with_size {I} (size : nat) : run (fixed I) :=
  let! _ := assert (0 <? size) in Done (mkFixed (repeat None size) 0 0).

(** src/buffer/buffer.rs:104-111 [deref]: slicing with [used..populated] panics when out of order or out of range. *)
Definition fixed_deref {I} (b : fixed I) : run (list I) :=
  let! _ := assert ((f_used b <=? f_populated b) && (f_populated b <=? length (f_mem b))) in
  expose (firstn (f_populated b - f_used b) (skipn (f_used b) (f_mem b))).

(** src/buffer/buffer.rs:113-118 [deref_mut]: the same slice, to write to.  What is done with it here is [copy_from_slice(l)]
    (documentation of [slice]: panics unless the lengths agree), of which any other writing to initialised memory is a case.
    (Model-only combination of the two.) *)
Definition fixed_write {I} (b : fixed I) (l : list I) : run (fixed I) :=
  let! old := fixed_deref b in
  let! _ := assert (length l =? length old) in
  Done (mkFixed (firstn (f_used b) (f_mem b) ++ List.map Some l ++ skipn (f_populated b) (f_mem b)) (f_populated b) (f_used b)).

(** src/buffer/buffer.rs:121-130 [fill]: slicing with [populated..] panics when out of range. *)
Definition fixed_fill {I St} (ds : data_source St I) (b : fixed I) (s : St) : run (fixed I * St * io nat) :=
  let! _ := assert (f_populated b <=? length (f_mem b)) in
  let '(s, w, r) := ds_read ds s (length (f_mem b) - f_populated b) in
  let m := firstn (f_populated b) (f_mem b) ++ overwrite w (skipn (f_populated b) (f_mem b)) in
  match r with
  | IoErr e => Done (mkFixed m (f_populated b) (f_used b), s, IoErr e)
  | IoOk n =>
      let! _ := assert (f_populated b + n <=? length m) in
      Done (mkFixed m (f_populated b + n) (f_used b), s, IoOk n)
  end.

(** src/buffer/buffer.rs:132-147 [request_space]. *)
Definition fixed_request_space {I} (b : fixed I) (items : nat) : run (fixed I) :=
  let! _ := assert (f_used b <=? f_populated b) in
  let! room := usize_sub (length (f_mem b)) (f_populated b) in
  if room <? items then
    let! n := usize_sub (f_populated b) (f_used b) in
    let! m := copy_down (f_mem b) (f_used b) n in
    Done (mkFixed m n 0)
  else Done b.

(** src/buffer/buffer.rs:149-154 [consume]. *)
Definition fixed_consume {I} (b : fixed I) (items : nat) : run (fixed I) :=
  let! _ := assert (f_used b + items <=? f_populated b) in
  Done (mkFixed (f_mem b) (f_populated b) (f_used b + items)).

(** src/buffer/buffer.rs:156-159 [len]. *)
Definition fixed_len {I} (b : fixed I) : run nat := usize_sub (f_populated b) (f_used b).

(** src/buffer/buffer.rs:161-164 [capacity]. *)
Definition fixed_capacity {I} (b : fixed I) : nat := length (f_mem b).

(** src/buffer/buffer.rs:120-165 [impl Buffer<I> for FixedSizeBuffer<I>]. *)
Definition fixed_ops (I : Type) : buffer_ops I (fixed I) :=
  mkBufferOps fixed_deref (@fixed_fill I) fixed_request_space fixed_consume fixed_len fixed_capacity.

(** * GrowingBuffer *)

(** src/buffer/buffer.rs:174-185 [struct GrowingBuffer].  [g_cap] is [Vec::capacity] of the memory.  [g_alloc k] is by how much the
    allocator exceeds the amount asked for in the [k]-th allocation, [g_count] counts allocations (model-only fields, so that
    theorems hold for every allocator). *)
Record growing (I : Type) : Type := mkGrowing {
  g_mem : memory I; g_cap : nat; g_populated : nat; g_limit : nat; g_used : nat;
  g_alloc : nat -> nat; g_count : nat }.

(** src/buffer/buffer.rs:200-208 [with_limit]; [new] (lines 189-192) is [with_limit(0)].  [cap0] is the capacity of [Vec::new()]: zero,
    but [usize::MAX] for zero-sized item types (documentation of [Vec::capacity]). *)
Definition growing_with_limit {I} (cap0 : nat) (alloc : nat -> nat) (limit : nat) : growing I :=
  mkGrowing [] cap0 0 limit 0 alloc 0.

(** src/buffer/buffer.rs:211-218 [deref]. *)
Definition growing_deref {I} (b : growing I) : run (list I) :=
  let! _ := assert ((g_used b <=? g_populated b) && (g_populated b <=? length (g_mem b))) in
  expose (firstn (g_populated b - g_used b) (skipn (g_used b) (g_mem b))).

(** src/buffer/buffer.rs:220-225 [deref_mut], with [copy_from_slice(l)]; see [fixed_write]. *)
Definition growing_write {I} (b : growing I) (l : list I) : run (growing I) :=
  let! old := growing_deref b in
  let! _ := assert (length l =? length old) in
  Done (mkGrowing (firstn (g_used b) (g_mem b) ++ List.map Some l ++ skipn (g_populated b) (g_mem b)) (g_cap b) (g_populated b)
          (g_limit b) (g_used b) (g_alloc b) (g_count b)).

(** src/buffer/buffer.rs:228-237 [fill]. *)
Definition growing_fill {I St} (ds : data_source St I) (b : growing I) (s : St) : run (growing I * St * io nat) :=
  let! _ := assert (g_populated b <=? length (g_mem b)) in
  let '(s, w, r) := ds_read ds s (length (g_mem b) - g_populated b) in
  let m := firstn (g_populated b) (g_mem b) ++ overwrite w (skipn (g_populated b) (g_mem b)) in
  match r with
  | IoErr e => Done (mkGrowing m (g_cap b) (g_populated b) (g_limit b) (g_used b) (g_alloc b) (g_count b), s, IoErr e)
  | IoOk n =>
      let! _ := assert (g_populated b + n <=? length m) in
      Done (mkGrowing m (g_cap b) (g_populated b + n) (g_limit b) (g_used b) (g_alloc b) (g_count b), s, IoOk n)
  end.

(** src/buffer/buffer.rs:273-278 [consume]. *)
Definition growing_consume {I} (b : growing I) (items : nat) : run (growing I) :=
  let! _ := assert (g_used b + items <=? g_populated b) in
  Done (mkGrowing (g_mem b) (g_cap b) (g_populated b) (g_limit b) (g_used b + items) (g_alloc b) (g_count b)).

(** src/buffer/buffer.rs:280-283 [len]. *)
Definition growing_len {I} (b : growing I) : run nat := usize_sub (g_populated b) (g_used b).

(** [Vec::reserve] (documentation): at least [items] beyond the length; nothing if there already are. Called at src/buffer/buffer.rs:248. *)
Definition growing_reserve {I} (b : growing I) (items : nat) : growing I :=
  if items <=? g_cap b - length (g_mem b) then b
  else mkGrowing (g_mem b) (length (g_mem b) + items + g_alloc b (g_count b)) (g_populated b) (g_limit b) (g_used b)
         (g_alloc b) (S (g_count b)).

(** [Vec::set_len(cap)] of src/buffer/buffer.rs:257-259, [cap] being the capacity. *)
Definition growing_set_len {I} (b : growing I) : growing I :=
  mkGrowing (g_mem b ++ repeat None (g_cap b - length (g_mem b))) (g_cap b) (g_populated b) (g_limit b) (g_used b)
    (g_alloc b) (g_count b).

(** src/buffer/buffer.rs:239-271 [request_space]. *)
Definition growing_request_space {I} (b : growing I) (items : nat) : run (growing I) :=
  if negb (g_limit b =? 0) && (g_limit b <? g_cap b) then Done b
  else
    let! l := growing_len b in
    let b := if g_cap b <? items + l then growing_set_len (growing_reserve b items) else b in
    let! room := usize_sub (length (g_mem b)) (g_populated b) in
    if room <? items then
      let! n := usize_sub (g_populated b) (g_used b) in
      let! m := copy_down (g_mem b) (g_used b) n in
      Done (mkGrowing m (g_cap b) n (g_limit b) 0 (g_alloc b) (g_count b))
    else Done b.

(** src/buffer/buffer.rs:285-288 [capacity]: the length of the vector. *)
Definition growing_capacity {I} (b : growing I) : nat := length (g_mem b).

(** src/buffer/buffer.rs:227-289 [impl Buffer<I> for GrowingBuffer<I>]. *)
Definition growing_ops (I : Type) : buffer_ops I (growing I) :=
  mkBufferOps growing_deref (@growing_fill I) growing_request_space growing_consume growing_len growing_capacity.
