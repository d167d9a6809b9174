(** Loops as recursive functions (C78). *)
From Coq Require Import List.
From Verif Require Import Base Combinators.
Import ListNotations.

Set Implicit Arguments.

(** What a hand-written many_till (cf. src/combinators/mod.rs:261-268 and macros.rs:263-272) does at [i], the rest being [rest]: where [end_] succeeds it is over, otherwise (also if [end_] needs more) [p] has to match. *)
Definition till_step {I U V E N} (p : parser I U E) (end_ : parser I V N) (rest : parser I (list U) E) (i : input I) : pres I (list U) E :=
  match end_ i with
  | Data k _ => ret [] k
  | Panic => Panic
  | NoFuel => NoFuel
  | _ => bind (fun e => e) (p i) (fun j u => map (cons u) (rest j))
  end.
