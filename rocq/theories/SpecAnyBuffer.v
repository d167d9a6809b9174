(** Buffers made by users of the crate: the contract, and some buffers to try it with. *)
From Coq Require Import List Bool Arith.
From Verif Require Import Base Buffer SpecBuffer.
Import ListNotations.

Set Implicit Arguments.

(** * The contract *)

(** What an implementation of the trait [Buffer] (src/buffer/buffer.rs:15-55) has to do for a Source over it to work: seen
    from outside it is a queue, empty at the start, of items written by the source at the back and consumed from the front.
    It can hold [m] items at once if [fits m]. *)
Definition lawful {I B} (ops : buffer_ops I B) (fits : nat -> Prop) (b0 : B) : Prop :=
  exists inv view room, queue_like ops inv view room fits /\ inv b0 /\ view b0 = [].

(** Moreover it never holds more than what it is said to be able to hold. *)
Definition lawful_tight {I B} (ops : buffer_ops I B) (fits : nat -> Prop) (b0 : B) : Prop :=
  exists inv view room, queue_like ops inv view room fits /\ inv b0 /\ view b0 = [] /\ forall b, inv b -> fits (length (view b)).

(** Moreover it always says to have some capacity. *)
Definition lawful_open {I B} (ops : buffer_ops I B) (fits : nat -> Prop) (b0 : B) : Prop :=
  exists inv view room, queue_like ops inv view room fits /\ inv b0 /\ view b0 = [] /\ forall b, inv b -> 0 < op_capacity ops b.

(** * A buffer that is not one of the crate's *)

(** A list of items, and the number of items that may be added before space is requested again. *)
Record paged (I : Type) : Type := mkPaged { pg_items : list I; pg_spare : nat }.

(** It holds at most [size] items, and is filled by at most [page] items at a time. *)
Definition paged_fill {I} (page : nat) {St} (ds : data_source St I) (b : paged I) (s : St) : run (paged I * St * io nat) :=
  let m := Nat.min page (pg_spare b) in
  let '(s, w, r) := ds_read ds s m in
  match r with
  | IoErr e => Done (b, s, IoErr e)
  | IoOk k => let! _ := assert (k <=? m) in Done (mkPaged (pg_items b ++ delivered w k) (pg_spare b - k), s, IoOk k)
  end.
Definition paged_request {I} (size : nat) (b : paged I) (k : nat) : run (paged I) :=
  Done (mkPaged (pg_items b) (Nat.max (pg_spare b) (Nat.min k (size - length (pg_items b))))).
Definition paged_consume {I} (b : paged I) (k : nat) : run (paged I) :=
  let! _ := assert (k <=? length (pg_items b)) in Done (mkPaged (skipn k (pg_items b)) (pg_spare b)).
Definition paged_len {I} (b : paged I) : run nat := Done (length (pg_items b)).

Definition paged_ops (I : Type) (page size : nat) : buffer_ops I (paged I) :=
  mkBufferOps (fun b => Done (pg_items b)) (@paged_fill I page) (@paged_request I size) (@paged_consume I) (@paged_len I) (fun _ => size).

Definition paged_new {I} : paged I := mkPaged [] 0.

(** * The same with a mistake in one of the functions *)

(** [request_space] makes space by throwing away what is there, *)
Definition forgetful_ops (I : Type) : buffer_ops I (paged I) :=
  mkBufferOps (fun b => Done (pg_items b)) (@paged_fill I 4) (fun b k => Done (mkPaged [] k)) (@paged_consume I) (@paged_len I) (fun _ => 9).
(** or makes no space, *)
Definition cramped_ops (I : Type) : buffer_ops I (paged I) :=
  mkBufferOps (fun b => Done (pg_items b)) (@paged_fill I 4) (fun b k => Done b) (@paged_consume I) (@paged_len I) (fun _ => 9).
(** [consume] does nothing, *)
Definition hoarding_ops (I : Type) : buffer_ops I (paged I) :=
  mkBufferOps (fun b => Done (pg_items b)) (@paged_fill I 4) (@paged_request I 9) (fun b k => Done b) (@paged_len I) (fun _ => 9).
(** [fill] puts the new items in front, *)
Definition stack_fill {I} {St} (ds : data_source St I) (b : paged I) (s : St) : run (paged I * St * io nat) :=
  let '(s, w, r) := ds_read ds s (pg_spare b) in
  match r with
  | IoErr e => Done (b, s, IoErr e)
  | IoOk k => Done (mkPaged (delivered w k ++ pg_items b) (pg_spare b - k), s, IoOk k)
  end.
Definition stack_ops (I : Type) : buffer_ops I (paged I) :=
  mkBufferOps (fun b => Done (pg_items b)) (@stack_fill I) (@paged_request I 9) (@paged_consume I) (@paged_len I) (fun _ => 9).
(** [len] counts the spare space, too, *)
Definition boastful_ops (I : Type) : buffer_ops I (paged I) :=
  mkBufferOps (fun b => Done (pg_items b)) (@paged_fill I 4) (@paged_request I 9) (@paged_consume I) (fun b => Done (length (pg_items b) + pg_spare b)) (fun _ => 9).
(** or [deref] shows no more than four items. *)
Definition shy_ops (I : Type) : buffer_ops I (paged I) :=
  mkBufferOps (fun b => Done (firstn 4 (pg_items b))) (@paged_fill I 4) (@paged_request I 9) (@paged_consume I) (@paged_len I) (fun _ => 9).
