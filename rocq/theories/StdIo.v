(** The methods which std's [io::Read] and [io::BufRead] provide on top of the ones a Source implements.  The loops are those
    of std, written out here over the calls of the Source; they stand for [impl io::Read] and [impl io::BufRead]
    (src/buffer/stateful.rs:170-199), whose bodies define [read], [fill_buf] and [consume] only.  Simplifications: every I/O error is taken
    to be one which is retried ([ErrorKind::Interrupted] by std itself, [WouldBlock] and the like by a caller who calls again);
    the buffer handed in is returned as a list. *)
From Coq Require Import List Bool Arith.
From Verif Require Import Base Buffer Stream.
Import ListNotations.

Set Implicit Arguments.

Section StdIo.
  Context {St I B : Type}.
  Variable ds : data_source St I.
  Variable ops : buffer_ops I B.

  (** src/buffer/stateful.rs:172-182 [read], called again until it gives no error. *)
  Fixpoint again_read (fuel n : nat) (st : src St B) : run (src St B * list I) :=
    match fuel with
    | 0 => Stuck
    | S fuel =>
        let! (st, r) := src_read ds ops n st in
        match r with
        | IoErr _ => again_read fuel n st
        | IoOk l => Done (st, l)
        end
    end.

  (** src/buffer/stateful.rs:172-182 under std's [Read::read_exact]: [read] into what is left of the slice until it is full; [None] is
      [UnexpectedEof].  [got]: what the front of the slice holds. *)
  Fixpoint read_exact (fuel : nat) (got : list I) (n : nat) (st : src St B) : run (src St B * option (list I)) :=
    match fuel with
    | 0 => Stuck
    | S fuel =>
        if n =? 0 then Done (st, Some got)
        else
          let! (st, r) := src_read ds ops n st in
          match r with
          | IoErr _ => read_exact fuel got n st
          | IoOk [] => Done (st, None)
          | IoOk l => read_exact fuel (got ++ l) (n - length l) st
          end
    end.

  (** src/buffer/stateful.rs:172-182 under std's [Read::read_to_end]: [read] into slices of the given sizes (std grows the vector by
      a rule of its own, here any sequence of non-empty slices) until nothing comes. *)
  Fixpoint read_to_end (fuel : nat) (sizes : nat -> nat) (got : list I) (st : src St B) : run (src St B * list I) :=
    match fuel with
    | 0 => Stuck
    | S fuel =>
        let! (st, r) := src_read ds ops (S (sizes (length got))) st in
        match r with
        | IoErr _ => read_to_end fuel sizes got st
        | IoOk [] => Done (st, got)
        | IoOk l => read_to_end fuel sizes (got ++ l) st
        end
    end.

  (** [memchr] in std's [read_until]: the number of items up to and including the first which [stop] holds for. *)
  Fixpoint through (stop : I -> bool) (l : list I) : option nat :=
    match l with
    | [] => None
    | x :: l => if stop x then Some 1 else option_map S (through stop l)
    end.

  (** src/buffer/stateful.rs:187-198 under std's [BufRead::read_until] ([read_line], [lines] and [split] are made from it): [fill_buf], search,
      copy, [consume].  Simplification: any condition in place of a delimiting byte. *)
  Fixpoint read_until (fuel : nat) (stop : I -> bool) (got : list I) (st : src St B) : run (src St B * list I) :=
    match fuel with
    | 0 => Stuck
    | S fuel =>
        let! (st, r) := src_fill_buf ds ops st in
        match r with
        | IoErr _ => read_until fuel stop got st
        | IoOk available =>
            match through stop available with
            | Some used =>
                let! st := src_consume ops used st in
                Done (st, got ++ firstn used available)
            | None =>
                let! st := src_consume ops (length available) st in
                match available with
                | [] => Done (st, got)
                | _ => read_until fuel stop (got ++ available) st
                end
            end
        end
    end.
End StdIo.
