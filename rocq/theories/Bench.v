(** Model of the benchmarks: benches/combinators.rs and benches/http_bench.rs.  No proofs here.  What is timed is the call of [Stream::parse]; its
    result is modelled.  The parsers of benches/http_bench.rs:23-118 are those of examples/http_parser.rs ([Http.v]), character for character.
    [fuel] bounds the loops of the combinators. *)
From Coq Require Import List Bool Arith.
From Coq.Init Require Import Byte.
From Verif Require Import Base Parsers Combinators Buffer Stream Http.
Import ListNotations.

Set Implicit Arguments.

(** [data.into_stream().parse(p)] in every benchmark, e.g. benches/combinators.rs:21. *)
Definition bench {I T E} (p : parser I T E) (data : list I) : run (slice_stream I * sres I T E) := slice_parse p (slice_new data).

(** benches/combinators.rs:16-18 and 29-31 [count_vec], for any number instead of 1024 and 10024. *)
Definition count_vec {I} (fuel n : nat) : parser I (list I) (error I) := count fuel (vec_collector I) n tt (pure any).
(** benches/combinators.rs:42-44 and 55-57 [many_vec]. *)
Definition many_vec {I} (fuel : nat) : parser I (list I) (error I) := many fuel (vec_collector I) tt (pure any).
(** benches/combinators.rs:68-70 and 81-83 [many1_vec]. *)
Definition many1_vec {I} (fuel : nat) : parser I (list I) (error I) := many1 fuel (vec_collector I) tt (pure any).

(** benches/http_bench.rs:173 [parser!{many(request)}]. *)
Definition many_requests (verbose : bool) (fuel : nat) : parser byte (list (request_t * list header_t)) (error byte) :=
  many fuel (vec_collector _) tt (pure (request verbose)).
