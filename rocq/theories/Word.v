(** Machine words and build modes: the model of src/buffer/{buffer,stateful,slice}.rs again, with [usize] of a given width, debug or
    release build, and allocations that fail.  No proofs here.  Buffer.v and Stream.v have [usize] unbounded and a debug build; only
    the functions that do arithmetic are repeated. *)
From Coq Require Import List Bool Arith.
From Verif Require Import Base Buffer Stream.
Import ListNotations.

Set Implicit Arguments.

(** The platform and the build: [w_size] is [usize::MAX + 1]; [w_debug]: overflow checks and [debug_assert!] are on (both are by default
    in a debug build, and off in a release build); [w_alloc] is the greatest capacity of a [Vec] of the items
    ([isize::MAX / size_of::<I>()], documentation of [Vec]).  (Model-only type.) For src/buffer/{buffer,stateful,slice}.rs. *)
Record machine : Type := mkMachine { w_size : nat; w_debug : bool; w_alloc : nat }.

(** [a + b] on [usize] (src/buffer/buffer.rs:124, 127, 153, 246, 277; src/buffer/stateful.rs:95, 235; src/buffer/slice.rs:96, 103, 107): a panic or
    wrap-around. *)
Definition w_add (m : machine) (a b : nat) : run nat :=
  if a + b <? w_size m then Done (a + b) else if w_debug m then Panicked else Done ((a + b) mod w_size m).

(** [a - b] on [usize] (src/buffer/buffer.rs:139, 141, 158, 263, 265, 282; src/buffer/stateful.rs:88, 223, 230; src/buffer/slice.rs:61, 96, 103). *)
Definition w_sub (m : machine) (a b : nat) : run nat :=
  if b <=? a then Done (a - b) else if w_debug m then Panicked else Done ((a + w_size m) - b).

(** [debug_assert!(a + b <= c)] (src/buffer/buffer.rs:124, 151, 231, 275): neither the sum nor the comparison exists in a release build. *)
Definition w_debug_assert_sum (m : machine) (a b c : nat) : run unit :=
  if w_debug m then let! s := w_add m a b in assert (s <=? c) else Done tt.

(** * FixedSizeBuffer *)

(** src/buffer/buffer.rs:82-101 [with_size]; [Vec::with_capacity] panics above the greatest capacity. *)
Definition w_fixed_with_size {I} (m : machine) (size : nat) : run (fixed I) :=
  let! _ := assert (0 <? size) in
  let! _ := assert (size <=? w_alloc m) in
  Done (mkFixed (repeat None size) 0 0).

(** src/buffer/buffer.rs:121-130 [fill]. *)
Definition w_fixed_fill {I} (m : machine) {St} (ds : data_source St I) (b : fixed I) (s : St) : run (fixed I * St * io nat) :=
  let! _ := assert (f_populated b <=? length (f_mem b)) in
  let '(s, w, r) := ds_read ds s (length (f_mem b) - f_populated b) in
  let mem := firstn (f_populated b) (f_mem b) ++ overwrite w (skipn (f_populated b) (f_mem b)) in
  match r with
  | IoErr e => Done (mkFixed mem (f_populated b) (f_used b), s, IoErr e)
  | IoOk n =>
      let! _ := w_debug_assert_sum m (f_populated b) n (length mem) in
      let! populated := w_add m (f_populated b) n in
      Done (mkFixed mem populated (f_used b), s, IoOk n)
  end.

(** src/buffer/buffer.rs:132-147 [request_space]; the [assert!] of line 136 is there in every build. *)
Definition w_fixed_request_space {I} (m : machine) (b : fixed I) (items : nat) : run (fixed I) :=
  let! _ := assert (f_used b <=? f_populated b) in
  let! room := w_sub m (length (f_mem b)) (f_populated b) in
  if room <? items then
    let! n := w_sub m (f_populated b) (f_used b) in
    let! mem := copy_down (f_mem b) (f_used b) n in
    Done (mkFixed mem n 0)
  else Done b.

(** src/buffer/buffer.rs:149-154 [consume]. *)
Definition w_fixed_consume {I} (m : machine) (b : fixed I) (items : nat) : run (fixed I) :=
  let! _ := w_debug_assert_sum m (f_used b) items (f_populated b) in
  let! used := w_add m (f_used b) items in
  Done (mkFixed (f_mem b) (f_populated b) used).

(** src/buffer/buffer.rs:156-159 [len]. *)
Definition w_fixed_len {I} (m : machine) (b : fixed I) : run nat := w_sub m (f_populated b) (f_used b).

(** src/buffer/buffer.rs:120-165 [impl Buffer<I> for FixedSizeBuffer<I>]; [deref] (bounds-checked in every build) and [capacity] as
    in Buffer.v. *)
Definition w_fixed_ops (I : Type) (m : machine) : buffer_ops I (fixed I) :=
  mkBufferOps fixed_deref (@w_fixed_fill I m) (w_fixed_request_space m) (w_fixed_consume m) (w_fixed_len m) fixed_capacity.

(** * GrowingBuffer *)

(** src/buffer/buffer.rs:228-237 [fill]. *)
Definition w_growing_fill {I} (m : machine) {St} (ds : data_source St I) (b : growing I) (s : St) : run (growing I * St * io nat) :=
  let! _ := assert (g_populated b <=? length (g_mem b)) in
  let '(s, w, r) := ds_read ds s (length (g_mem b) - g_populated b) in
  let mem := firstn (g_populated b) (g_mem b) ++ overwrite w (skipn (g_populated b) (g_mem b)) in
  match r with
  | IoErr e => Done (mkGrowing mem (g_cap b) (g_populated b) (g_limit b) (g_used b) (g_alloc b) (g_count b), s, IoErr e)
  | IoOk n =>
      let! _ := w_debug_assert_sum m (g_populated b) n (length mem) in
      let! populated := w_add m (g_populated b) n in
      Done (mkGrowing mem (g_cap b) populated (g_limit b) (g_used b) (g_alloc b) (g_count b), s, IoOk n)
  end.

(** src/buffer/buffer.rs:273-278 [consume]. *)
Definition w_growing_consume {I} (m : machine) (b : growing I) (items : nat) : run (growing I) :=
  let! _ := w_debug_assert_sum m (g_used b) items (g_populated b) in
  let! used := w_add m (g_used b) items in
  Done (mkGrowing (g_mem b) (g_cap b) (g_populated b) (g_limit b) used (g_alloc b) (g_count b)).

(** src/buffer/buffer.rs:280-283 [len]. *)
Definition w_growing_len {I} (m : machine) (b : growing I) : run nat := w_sub m (g_populated b) (g_used b).

(** [Vec::reserve] (documentation): as [growing_reserve], but panics if the new capacity would be too great. Called at src/buffer/buffer.rs:248. *)
Definition w_growing_reserve {I} (m : machine) (b : growing I) (items : nat) : run (growing I) :=
  let b' := growing_reserve b items in
  if items <=? g_cap b - length (g_mem b) then Done b'
  else let! _ := assert (g_cap b' <=? w_alloc m) in Done b'.

(** src/buffer/buffer.rs:239-271 [request_space]; unlike that of [FixedSizeBuffer] it does not [assert!] that [used <= populated]. *)
Definition w_growing_request_space {I} (m : machine) (b : growing I) (items : nat) : run (growing I) :=
  if negb (g_limit b =? 0) && (g_limit b <? g_cap b) then Done b
  else
    let! l := w_growing_len m b in
    let! total := w_add m items l in
    let! b := (if g_cap b <? total then let! b := w_growing_reserve m b items in Done (growing_set_len b) else Done b) in
    let! room := w_sub m (length (g_mem b)) (g_populated b) in
    if room <? items then
      let! n := w_sub m (g_populated b) (g_used b) in
      let! mem := copy_down (g_mem b) (g_used b) n in
      Done (mkGrowing mem (g_cap b) n (g_limit b) 0 (g_alloc b) (g_count b))
    else Done b.

(** src/buffer/buffer.rs:227-289 [impl Buffer<I> for GrowingBuffer<I>]. *)
Definition w_growing_ops (I : Type) (m : machine) : buffer_ops I (growing I) :=
  mkBufferOps growing_deref (@w_growing_fill I m) (w_growing_request_space m) (w_growing_consume m) (w_growing_len m) growing_capacity.

(** * SliceStream *)

(** src/buffer/slice.rs:60-62 [len]. *)
Definition w_slice_len {I} (m : machine) (s : slice_stream I) : run nat := w_sub m (length (ss_slice s)) (ss_pos s).

(** src/buffer/slice.rs:81-110 [parse], with [is_empty] (lines 66-68).  The slicing of line 93 is bounds-checked in every build. *)
Definition w_slice_parse {I T E} (m : machine) (p : parser I T E) (s : slice_stream I) : run (slice_stream I * sres I T E) :=
  let! l := w_slice_len m s in
  if l =? 0 then Done (s, inr SEndOfInput)
  else
    let! _ := assert (ss_pos s <=? length (ss_slice s)) in
    match p (mkInput true (skipn (ss_pos s) (ss_slice s))) with
    | Data remainder data =>
        let! n := w_sub m l (length (buf remainder)) in
        let! pos := w_add m (ss_pos s) n in
        Done (mkSliceStream pos (ss_slice s), inl data)
    | Error remainder err =>
        let! n := w_sub m l (length remainder) in
        let! pos := w_add m (ss_pos s) n in
        Done (mkSliceStream pos (ss_slice s), inr (SParseError remainder err))
    | Incomplete n =>
        let! total := w_add m n l in
        Done (s, inr (SIncomplete total))
    | Panic => Panicked
    | NoFuel => Stuck
    end.

(** * Source *)
Section Source.
  Context {St I B : Type}.
  Variable m : machine.
  (** The [DataSource] and the [Buffer]; the latter is one of those above. *)
  Variable ds : data_source St I.
  Variable ops : buffer_ops I B.

  (** src/buffer/stateful.rs:92-97: the loop of [fill_requested]. *)
  Fixpoint w_fill_loop (fuel request read : nat) (b : B) (s : St) : run (B * St * io nat) :=
    match fuel with
    | 0 => Stuck
    | S fuel =>
        let! l := op_len ops b in
        if l <? request then
          let! (b, s, r) := op_fill ops ds b s in
          match r with
          | IoErr e => Done (b, s, IoErr e)
          | IoOk 0 => Done (b, s, IoOk read)
          | IoOk n => let! read := w_add m read n in w_fill_loop fuel request read b s
          end
        else Done (b, s, IoOk read)
    end.

  (** src/buffer/stateful.rs:81-101 [fill_requested].  Each iteration but the last adds items to those in the buffer (in a release build
      the length may wrap around, but the capacity bounds the iterations), hence the loop budget. *)
  Definition w_fill_requested (request : nat) (st : src St B) : run (src St B * io nat) :=
    let! l := op_len ops (src_buffer st) in
    if l <? request then
      let! diff := w_sub m request l in
      let! b := op_request_space ops (src_buffer st) diff in
      let! (b, s, r) := w_fill_loop (S (diff + op_capacity ops b)) request 0 b (src_source st) in
      Done (src_with st b s, r)
    else Done (st, IoOk 0).

  (** src/buffer/stateful.rs:105-120 [fill]. *)
  Definition w_src_fill (st : src St B) : run (src St B * io nat) :=
    let req := Nat.max 1 (src_request st) in
    let! (st, r) := w_fill_requested req st in
    match r with
    | IoErr e => Done (st, IoErr e)
    | IoOk n =>
        let! l := op_len ops (src_buffer st) in
        Done (mkSrc (src_source st) (src_buffer st) (src_request st) false (negb (req <=? l)) (src_auto st), IoOk n)
    end.

  (** src/buffer/stateful.rs:170-183 [io::Read::read], see [src_read]. *)
  Definition w_src_read (n : nat) (st : src St B) : run (src St B * io (list I)) :=
    let! l := src_len ops st in
    let! (st, r) := (if l <? n then w_fill_requested n st else Done (st, IoOk 0)) in
    match r with
    | IoErr e => Done (st, IoErr e)
    | IoOk _ =>
        let! data := op_deref ops (src_buffer st) in
        let out := firstn n data in
        let! b := op_consume ops (src_buffer st) (length out) in
        Done (src_with st b (src_source st), IoOk out)
    end.

  (** src/buffer/stateful.rs:185-193 [BufRead::fill_buf]. *)
  Definition w_src_fill_buf (st : src St B) : run (src St B * io (list I)) :=
    let! (st, r) := w_fill_requested (src_capacity ops st) st in
    match r with
    | IoErr e => Done (st, IoErr e)
    | IoOk _ => let! data := src_view ops st in Done (st, IoOk data)
    end.

  (** src/buffer/stateful.rs:206-246 [parse]. *)
  Definition w_src_parse {T E} (p : parser I T E) (st : src St B) : run (src St B * sres I T E) :=
    let! (st, filled) := (if src_incomplete st && src_auto st then w_src_fill st else Done (st, IoOk 0)) in
    match filled with
    | IoErr e => Done (st, inr (SIoError e))
    | IoOk _ =>
        let! empty := src_is_empty ops st in
        if empty then Done (st, inr SEndOfInput)
        else
          let! data := op_deref ops (src_buffer st) in
          match p (mkInput (src_eoi st) data) with
          | Data remainder v =>
              let! l := op_len ops (src_buffer st) in
              let! n := w_sub m l (length (buf remainder)) in
              let! b := op_consume ops (src_buffer st) n in
              Done (src_with st b (src_source st), inl v)
          | Error remainder e =>
              let! l := op_len ops (src_buffer st) in
              let! n := w_sub m l (length remainder) in
              let! b := op_consume ops (src_buffer st) n in
              Done (src_with st b (src_source st), inr (SParseError remainder e))
          | Incomplete n =>
              let! l := op_len ops (src_buffer st) in
              let! request := w_add m l n in
              if src_eoi st then
                Done (mkSrc (src_source st) (src_buffer st) request (src_incomplete st) (src_eoi st) (src_auto st), inr (SIncomplete request))
              else
                Done (mkSrc (src_source st) (src_buffer st) request true (src_eoi st) (src_auto st), inr SRetry)
          | Panic => Panicked
          | NoFuel => Stuck
          end
    end.
End Source.
