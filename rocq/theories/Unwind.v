(** Panics that are caught: the model of src/buffer/{buffer,stateful,slice}.rs once more, with the state that a panicking call leaves
    behind, and with data sources that panic.  No proofs here.  ([std::panic::catch_unwind] lets a program go on using a buffer or a
    stream after a call of it has panicked.)  Machines as in Word.v. *)
From Coq Require Import List Bool Arith.
From Verif Require Import Base Buffer Stream Word.
Import ListNotations.

Set Implicit Arguments.

(** The outcome of a call of a function with access to an object [S]: it returns, or panics, and leaves the object as it then is; or it does
    something undefined, or a loop budget of the model is exhausted.  (Model-only type.) For the methods of src/buffer/buffer.rs:15-55 and src/buffer/stateful.rs:70-275. *)
Inductive call (S A : Type) : Type :=
| Returns (st : S) (a : A)
| Unwinds (st : S)
| Breaks
| Loops.
Arguments Returns {S A} st a.
Arguments Unwinds {S A} st.
Arguments Breaks {S A}.
Arguments Loops {S A}.

(** A computation that does not change the object, which is in the state [st], and what follows it. Statements in a row of src/buffer/buffer.rs:120-165, 227-289. *)
Definition at_state {S X A} (st : S) (r : run X) (k : X -> call S A) : call S A :=
  match r with
  | Done x => k x
  | Panicked => Unwinds st
  | Undefined => Breaks
  | Stuck => Loops
  end.
Notation "'let?' x := r 'at' st 'in' k" := (at_state st r (fun x => k)) (at level 200, x pattern, r at level 100, st at level 100, k at level 200).

(** A call on a part of the object; [put] gives the whole object for the part. As [self.buffer.fill(&mut self.source)] at src/buffer/stateful.rs:93. *)
Definition on_part {S S' X A} (put : S' -> S) (c : call S' X) (k : S' -> X -> call S A) : call S A :=
  match c with
  | Returns s x => k s x
  | Unwinds s => Unwinds (put s)
  | Breaks => Breaks
  | Loops => Loops
  end.

(** What is seen of a call if nothing is caught. (Model-only: relates this file to Buffer.v and Stream.v, the same src/buffer/stateful.rs.) *)
Definition outcome {S A} (c : call S A) : run (S * A) :=
  match c with
  | Returns s a => Done (s, a)
  | Unwinds _ => Panicked
  | Breaks => Undefined
  | Loops => Stuck
  end.

(** src/buffer/data_source.rs:6-22 [trait DataSource], where [read] may panic ([None]) after having written something. *)
Record panicky_source (St I : Type) : Type := mkPanickySource { ps_read : St -> nat -> St * memory I * option (io nat) }.

(** A source of Buffer.v as one that does not panic. (The trait is src/buffer/data_source.rs:6-22.) *)
Definition calm {St I} (ds : data_source St I) : panicky_source St I :=
  mkPanickySource (fun s n => let '(s, w, r) := ds_read ds s n in (s, w, Some r)).

(** src/buffer/data_source.rs:52-91 [IteratorDataSource], with an iterator whose [next] may panic ([None]).  As [iter_read]; the items already
    written stay written. *)
Fixpoint iter_read_p {It I} (next : It -> option (option I) * It) (k : nat) (it : It) : It * memory I * option nat :=
  match k with
  | 0 => (it, [], Some 0)
  | S k =>
      match next it with
      | (Some (Some i), it) => let '(it, w, n) := iter_read_p next k it in (it, Some i :: w, match n with Some n => Some (S n) | None => None end)
      | (Some None, it) => (it, [], Some 0)
      | (None, it) => (it, [], None)
      end
  end.
Definition iter_source_p {It I} (next : It -> option (option I) * It) : panicky_source It I :=
  mkPanickySource (fun s k => let '(s, w, n) := iter_read_p next k s in (s, w, match n with Some n => Some (IoOk n) | None => None end)).

(** src/buffer/buffer.rs:15-55 [trait Buffer], see [buffer_ops]. *)
Record u_ops (I B : Type) : Type := mkUOps {
  u_deref : B -> run (list I);
  u_fill : forall St, panicky_source St I -> B -> St -> call (B * St) (io nat);
  u_request_space : B -> nat -> call B unit;
  u_consume : B -> nat -> call B unit;
  u_len : B -> run nat;
  u_capacity : B -> nat }.

(** * FixedSizeBuffer *)

(** src/buffer/buffer.rs:121-130 [fill]: the closure of [map] runs after the source has written; [populated] is assigned last. *)
Definition u_fixed_fill {I} (m : machine) {St} (ds : panicky_source St I) (b : fixed I) (s : St) : call (fixed I * St) (io nat) :=
  let? _ := assert (f_populated b <=? length (f_mem b)) at (b, s) in
  let '(s, w, r) := ps_read ds s (length (f_mem b) - f_populated b) in
  let mem := firstn (f_populated b) (f_mem b) ++ overwrite w (skipn (f_populated b) (f_mem b)) in
  let b := mkFixed mem (f_populated b) (f_used b) in
  match r with
  | None => Unwinds (b, s)
  | Some (IoErr e) => Returns (b, s) (IoErr e)
  | Some (IoOk n) =>
      let? _ := w_debug_assert_sum m (f_populated b) n (length mem) at (b, s) in
      let? populated := w_add m (f_populated b) n at (b, s) in
      Returns (mkFixed mem populated (f_used b), s) (IoOk n)
  end.

(** src/buffer/buffer.rs:132-147 [request_space]: everything that can panic comes before the copy (the subtraction of line 144 is that of
    line 141). *)
Definition u_fixed_request_space {I} (m : machine) (b : fixed I) (items : nat) : call (fixed I) unit :=
  let? _ := assert (f_used b <=? f_populated b) at b in
  let? room := w_sub m (length (f_mem b)) (f_populated b) at b in
  if room <? items then
    let? n := w_sub m (f_populated b) (f_used b) at b in
    let? mem := copy_down (f_mem b) (f_used b) n at b in
    Returns (mkFixed mem n 0) tt
  else Returns b tt.

(** src/buffer/buffer.rs:149-154 [consume]. *)
Definition u_fixed_consume {I} (m : machine) (b : fixed I) (items : nat) : call (fixed I) unit :=
  let? _ := w_debug_assert_sum m (f_used b) items (f_populated b) at b in
  let? used := w_add m (f_used b) items at b in
  Returns (mkFixed (f_mem b) (f_populated b) used) tt.

(** src/buffer/buffer.rs:120-165 [impl Buffer<I> for FixedSizeBuffer<I>]. *)
Definition u_fixed_ops (I : Type) (m : machine) : u_ops I (fixed I) :=
  mkUOps fixed_deref (@u_fixed_fill I m) (u_fixed_request_space m) (u_fixed_consume m) (w_fixed_len m) fixed_capacity.

(** * GrowingBuffer *)

(** src/buffer/buffer.rs:228-237 [fill]. *)
Definition u_growing_fill {I} (m : machine) {St} (ds : panicky_source St I) (b : growing I) (s : St) : call (growing I * St) (io nat) :=
  let? _ := assert (g_populated b <=? length (g_mem b)) at (b, s) in
  let '(s, w, r) := ps_read ds s (length (g_mem b) - g_populated b) in
  let mem := firstn (g_populated b) (g_mem b) ++ overwrite w (skipn (g_populated b) (g_mem b)) in
  let b := mkGrowing mem (g_cap b) (g_populated b) (g_limit b) (g_used b) (g_alloc b) (g_count b) in
  match r with
  | None => Unwinds (b, s)
  | Some (IoErr e) => Returns (b, s) (IoErr e)
  | Some (IoOk n) =>
      let? _ := w_debug_assert_sum m (g_populated b) n (length mem) at (b, s) in
      let? populated := w_add m (g_populated b) n at (b, s) in
      Returns (mkGrowing mem (g_cap b) populated (g_limit b) (g_used b) (g_alloc b) (g_count b), s) (IoOk n)
  end.

(** src/buffer/buffer.rs:239-271 [request_space]: the subtractions of lines 263 and 265 come after the reallocation and [set_len]. *)
Definition u_growing_request_space {I} (m : machine) (b : growing I) (items : nat) : call (growing I) unit :=
  if negb (g_limit b =? 0) && (g_limit b <? g_cap b) then Returns b tt
  else
    let? l := w_growing_len m b at b in
    let? total := w_add m items l at b in
    let? b := (if g_cap b <? total then let! b := w_growing_reserve m b items in Done (growing_set_len b) else Done b) at b in
    let? room := w_sub m (length (g_mem b)) (g_populated b) at b in
    if room <? items then
      let? n := w_sub m (g_populated b) (g_used b) at b in
      let? mem := copy_down (g_mem b) (g_used b) n at b in
      Returns (mkGrowing mem (g_cap b) n (g_limit b) 0 (g_alloc b) (g_count b)) tt
    else Returns b tt.

(** src/buffer/buffer.rs:273-278 [consume]. *)
Definition u_growing_consume {I} (m : machine) (b : growing I) (items : nat) : call (growing I) unit :=
  let? _ := w_debug_assert_sum m (g_used b) items (g_populated b) at b in
  let? used := w_add m (g_used b) items at b in
  Returns (mkGrowing (g_mem b) (g_cap b) (g_populated b) (g_limit b) used (g_alloc b) (g_count b)) tt.

(** src/buffer/buffer.rs:227-289 [impl Buffer<I> for GrowingBuffer<I>]. *)
Definition u_growing_ops (I : Type) (m : machine) : u_ops I (growing I) :=
  mkUOps growing_deref (@u_growing_fill I m) (u_growing_request_space m) (u_growing_consume m) (w_growing_len m) growing_capacity.

(** * SliceStream *)

(** src/buffer/slice.rs:81-110 [parse]: the position is assigned after everything that can panic. *)
Definition u_slice_parse {I T E} (m : machine) (p : parser I T E) (s : slice_stream I) : call (slice_stream I) (sres I T E) :=
  let? l := w_slice_len m s at s in
  if l =? 0 then Returns s (inr SEndOfInput)
  else
    let? _ := assert (ss_pos s <=? length (ss_slice s)) at s in
    match p (mkInput true (skipn (ss_pos s) (ss_slice s))) with
    | Data remainder data =>
        let? n := w_sub m l (length (buf remainder)) at s in
        let? pos := w_add m (ss_pos s) n at s in
        Returns (mkSliceStream pos (ss_slice s)) (inl data)
    | Error remainder err =>
        let? n := w_sub m l (length remainder) at s in
        let? pos := w_add m (ss_pos s) n at s in
        Returns (mkSliceStream pos (ss_slice s)) (inr (SParseError remainder err))
    | Incomplete n =>
        let? total := w_add m n l at s in
        Returns s (inr (SIncomplete total))
    | Panic => Unwinds s
    | NoFuel => Loops
    end.

(** * Source *)
Section Source.
  Context {St I B : Type}.
  Variable m : machine.
  Variable ds : panicky_source St I.
  Variable ops : u_ops I B.

  (** src/buffer/stateful.rs:92-97: the loop of [fill_requested]. *)
  Fixpoint u_fill_loop (fuel request read : nat) (b : B) (s : St) : call (B * St) (io nat) :=
    match fuel with
    | 0 => Loops
    | S fuel =>
        let? l := u_len ops b at (b, s) in
        if l <? request then
          on_part (fun x => x) (u_fill ops ds b s) (fun x r =>
            let '(b, s) := x in
            match r with
            | IoErr e => Returns (b, s) (IoErr e)
            | IoOk 0 => Returns (b, s) (IoOk read)
            | IoOk n => let? read := w_add m read n at (b, s) in u_fill_loop fuel request read b s
            end)
        else Returns (b, s) (IoOk read)
    end.

  (** src/buffer/stateful.rs:81-101 [fill_requested]. *)
  Definition u_fill_requested (request : nat) (st : src St B) : call (src St B) (io nat) :=
    let? l := u_len ops (src_buffer st) at st in
    if l <? request then
      let? diff := w_sub m request l at st in
      on_part (fun b => src_with st b (src_source st)) (u_request_space ops (src_buffer st) diff) (fun b _ =>
      on_part (fun x => src_with st (fst x) (snd x)) (u_fill_loop (S (diff + u_capacity ops b)) request 0 b (src_source st)) (fun x r =>
      Returns (src_with st (fst x) (snd x)) r))
    else Returns st (IoOk 0).

  (** src/buffer/stateful.rs:105-120 [fill]: [INCOMPLETE] is removed (line 110) before the length is asked for. *)
  Definition u_src_fill (st : src St B) : call (src St B) (io nat) :=
    let req := Nat.max 1 (src_request st) in
    on_part (fun st => st) (u_fill_requested req st) (fun st r =>
    match r with
    | IoErr e => Returns st (IoErr e)
    | IoOk n =>
        let st := mkSrc (src_source st) (src_buffer st) (src_request st) false (src_eoi st) (src_auto st) in
        let? l := u_len ops (src_buffer st) at st in
        Returns (mkSrc (src_source st) (src_buffer st) (src_request st) false (negb (req <=? l)) (src_auto st)) (IoOk n)
    end).

  (** src/buffer/stateful.rs:170-183 [io::Read::read], see [src_read]. *)
  Definition u_src_read (n : nat) (st : src St B) : call (src St B) (io (list I)) :=
    let? l := u_len ops (src_buffer st) at st in
    on_part (fun st => st) (if l <? n then u_fill_requested n st else Returns st (IoOk 0)) (fun st r =>
    match r with
    | IoErr e => Returns st (IoErr e)
    | IoOk _ =>
        let? data := u_deref ops (src_buffer st) at st in
        let out := firstn n data in
        on_part (fun b => src_with st b (src_source st)) (u_consume ops (src_buffer st) (length out)) (fun b _ =>
        Returns (src_with st b (src_source st)) (IoOk out))
    end).

  (** src/buffer/stateful.rs:185-193 [BufRead::fill_buf]. *)
  Definition u_src_fill_buf (st : src St B) : call (src St B) (io (list I)) :=
    on_part (fun st => st) (u_fill_requested (u_capacity ops (src_buffer st)) st) (fun st r =>
    match r with
    | IoErr e => Returns st (IoErr e)
    | IoOk _ => let? data := u_deref ops (src_buffer st) at st in Returns st (IoOk data)
    end).

  (** src/buffer/stateful.rs:195-198 [BufRead::consume]. *)
  Definition u_src_consume (n : nat) (st : src St B) : call (src St B) unit :=
    on_part (fun b => src_with st b (src_source st)) (u_consume ops (src_buffer st) n) (fun b _ => Returns (src_with st b (src_source st)) tt).

  (** src/buffer/stateful.rs:129-131 [is_empty]. *)
  Definition u_src_is_empty (st : src St B) : run bool :=
    if src_eoi st then let! l := u_len ops (src_buffer st) in Done (l =? 0) else Done false.

  (** src/buffer/stateful.rs:206-246 [parse]. *)
  Definition u_src_parse {T E} (p : parser I T E) (st : src St B) : call (src St B) (sres I T E) :=
    on_part (fun st => st) (if src_incomplete st && src_auto st then u_src_fill st else Returns st (IoOk 0)) (fun st filled =>
    match filled with
    | IoErr e => Returns st (inr (SIoError e))
    | IoOk _ =>
        let? empty := u_src_is_empty st at st in
        if empty then Returns st (inr SEndOfInput)
        else
          let? data := u_deref ops (src_buffer st) at st in
          match p (mkInput (src_eoi st) data) with
          | Data remainder v =>
              let? l := u_len ops (src_buffer st) at st in
              let? n := w_sub m l (length (buf remainder)) at st in
              on_part (fun b => src_with st b (src_source st)) (u_consume ops (src_buffer st) n) (fun b _ =>
              Returns (src_with st b (src_source st)) (inl v))
          | Error remainder e =>
              let? l := u_len ops (src_buffer st) at st in
              let? n := w_sub m l (length remainder) at st in
              on_part (fun b => src_with st b (src_source st)) (u_consume ops (src_buffer st) n) (fun b _ =>
              Returns (src_with st b (src_source st)) (inr (SParseError remainder e)))
          | Incomplete n =>
              let? l := u_len ops (src_buffer st) at st in
              let? request := w_add m l n at st in
              if src_eoi st then
                Returns (mkSrc (src_source st) (src_buffer st) request (src_incomplete st) (src_eoi st) (src_auto st)) (inr (SIncomplete request))
              else
                Returns (mkSrc (src_source st) (src_buffer st) request true (src_eoi st) (src_auto st)) (inr SRetry)
          | Panic => Unwinds st
          | NoFuel => Loops
          end
    end).
End Source.
