(** The unit tests of /repo, stated about the model and checked by computation.  They are evidence that the model is the code
    (the expected values are those the authors assert), not proofs of properties.  Sections marked with a file name and line are
    translated mechanically by tools/conformance.py, the rest is transcribed by hand. *)
From Coq Require Import List Bool Arith ZArith String.
From Coq Require Import Init.Byte.
From Verif Require Import Base Parsers Combinators Ascii Buffer Stream.
Import ListNotations.

(** Rust's byte string literals. *)
Definition bytes (s : String.string) : list byte := list_byte_of_string s.
Definition new (last : bool) (b : list byte) : input byte := mkInput last b.
Definition DEFAULT := false.
Definition END_OF_INPUT := true.

(** The parsers of src/parsers.rs at [u8], built with the feature verbose_error (the default), arguments in Rust's order. *)
Definition any (i : input byte) := Parsers.any i.
Definition token (i : input byte) (t : byte) := Parsers.token true byte_eqb t i.
Definition take (i : input byte) (n : nat) := Parsers.take n i.
Definition take_while (i : input byte) (f : byte -> bool) := Parsers.take_while f i.
Definition take_while1 (i : input byte) (f : byte -> bool) := Parsers.take_while1 true f i.
Definition take_remainder (i : input byte) := Parsers.take_remainder i.
Definition peek_next (i : input byte) := Parsers.peek_next i.
Definition string (i : input byte) (s : list byte) := Parsers.string true byte_eqb s i.

Module bounded_api.
  Coercion RExact : nat >-> range.
  Definition many {U E} (i : input byte) (r : range) (p : parser byte U E) : pres byte (list U) E := bmany 20 (vec_collector U) r tt (pure p) i.
  Definition skip_many {U E} (i : input byte) (r : range) (p : parser byte U E) : pres byte unit E := bskip_many 20 r tt (pure p) i.
  Definition many_till {U V E N} (i : input byte) (r : range) (p : parser byte U E) (e : parser byte V N) : pres byte (list U) E :=
    bmany_till 20 (vec_collector U) r tt tt (pure p) (pure e) i.
End bounded_api.
Module combinators_api.
  Definition many {U E} (i : input byte) (p : parser byte U E) : pres byte (list U) E := Combinators.many 20 (vec_collector U) tt (pure p) i.
  Definition many1 {U E} (i : input byte) (p : parser byte U E) : pres byte (list U) E := Combinators.many1 20 (vec_collector U) tt (pure p) i.
  Definition count {U E} (i : input byte) (n : nat) (p : parser byte U E) : pres byte (list U) E := Combinators.count 20 (vec_collector U) n tt (pure p) i.
  Definition skip_many1 {U E} (i : input byte) (p : parser byte U E) : pres byte unit E := Combinators.skip_many1 20 tt (pure p) i.
  Definition sep_by {U V E} (i : input byte) (p : parser byte U E) (s : parser byte V E) : pres byte (list U) E :=
    Combinators.sep_by 20 (vec_collector U) (fun e => e) tt tt (pure p) (pure s) i.
  Definition sep_by1 {U V E} (i : input byte) (p : parser byte U E) (s : parser byte V E) : pres byte (list U) E :=
    Combinators.sep_by1 20 (vec_collector U) (fun e => e) tt tt (pure p) (pure s) i.
  Definition many_till {U V E N} (i : input byte) (p : parser byte U E) (e : parser byte V N) : pres byte (list U) E :=
    Combinators.many_till 20 (vec_collector U) tt tt (pure p) (pure e) i.
  Definition option_ {U E} (i : input byte) (p : parser byte U E) (d : U) : pres byte U E := Combinators.option_ p d i.
  Definition or_ {U E} (i : input byte) (p q : parser byte U E) : pres byte U E := Combinators.or_ p q i.
  Definition matched_by {U E} (i : input byte) (p : parser byte U E) := Combinators.matched_by p i.
  Definition look_ahead {U E} (i : input byte) (p : parser byte U E) := Combinators.look_ahead p i.
End combinators_api.

(** * src/parsers.rs *)
Module parsers_tests.
(** src/parsers.rs:592 [parse_remainder_empty]. *)
Example parse_remainder_empty :
  (take_remainder (new END_OF_INPUT (bytes ""))) = (Data (new END_OF_INPUT (bytes "")) (bytes "")).
Proof. repeat split; reflexivity. Qed.
(** src/parsers.rs:601 [take_while1_empty]. *)
Example take_while1_empty :
  (take_while1 (new END_OF_INPUT (bytes "")) (fun _ => true)) = (Incomplete 1).
Proof. repeat split; reflexivity. Qed.
(** src/parsers.rs:610 [token_test]. *)
Example token_test :
  (token (new DEFAULT (bytes "")) x61) = (Incomplete 1) /\
  (token (new DEFAULT (bytes "ab")) x61) = (Data (new DEFAULT (bytes "b")) x61) /\
  (token (new DEFAULT (bytes "bb")) x61) = (Error (bytes "bb") (err_expected true x61)).
Proof. repeat split; reflexivity. Qed.
(** src/parsers.rs:617 [take_test]. *)
Example take_test :
  (take (new DEFAULT (bytes "a")) 1) = (Data (new DEFAULT (bytes "")) (bytes "a")) /\
  (take (new DEFAULT (bytes "a")) 2) = (Incomplete 1) /\
  (take (new DEFAULT (bytes "a")) 3) = (Incomplete 2) /\
  (take (new DEFAULT (bytes "ab")) 1) = (Data (new DEFAULT (bytes "b")) (bytes "a")) /\
  (take (new DEFAULT (bytes "ab")) 2) = (Data (new DEFAULT (bytes "")) (bytes "ab")).
Proof. repeat split; reflexivity. Qed.
(** src/parsers.rs:626 [take_while_test]. *)
Example take_while_test :
  (take_while (new DEFAULT (bytes "abc")) (fun c => (negb (byte_eqb c x62)))) = (Data (new DEFAULT (bytes "bc")) (bytes "a")) /\
  (take_while (new DEFAULT (bytes "bbc")) (fun c => (negb (byte_eqb c x62)))) = (Data (new DEFAULT (bytes "bbc")) (bytes "")) /\
  (take_while (new END_OF_INPUT (bytes "bbc")) (fun c => (negb (byte_eqb c x62)))) = (Data (new END_OF_INPUT (bytes "bbc")) (bytes "")) /\
  (take_while (new END_OF_INPUT (bytes "abc")) (fun c => (negb (byte_eqb c x62)))) = (Data (new END_OF_INPUT (bytes "bc")) (bytes "a")) /\
  (take_while (new DEFAULT (bytes "acc")) (fun c => (negb (byte_eqb c x62)))) = (Incomplete 1) /\
  (take_while (new END_OF_INPUT (bytes "acc")) (fun c => (negb (byte_eqb c x62)))) = (Data (new END_OF_INPUT (bytes "")) (bytes "acc")).
Proof. repeat split; reflexivity. Qed.
(** src/parsers.rs:637 [take_while1_test]. *)
Example take_while1_test :
  (take_while1 (new DEFAULT (bytes "abc")) (fun c => (negb (byte_eqb c x62)))) = (Data (new DEFAULT (bytes "bc")) (bytes "a")) /\
  (take_while1 (new DEFAULT (bytes "bbc")) (fun c => (negb (byte_eqb c x62)))) = (Error (bytes "bbc") (err_unexpected true)) /\
  (take_while1 (new END_OF_INPUT (bytes "bbc")) (fun c => (negb (byte_eqb c x62)))) = (Error (bytes "bbc") (err_unexpected true)) /\
  (take_while1 (new END_OF_INPUT (bytes "abc")) (fun c => (negb (byte_eqb c x62)))) = (Data (new END_OF_INPUT (bytes "bc")) (bytes "a")) /\
  (take_while1 (new DEFAULT (bytes "acc")) (fun c => (negb (byte_eqb c x62)))) = (Incomplete 1) /\
  (take_while1 (new END_OF_INPUT (bytes "acc")) (fun c => (negb (byte_eqb c x62)))) = (Data (new END_OF_INPUT (bytes "")) (bytes "acc")).
Proof. repeat split; reflexivity. Qed.
(** src/parsers.rs:648 [peek_next_test]. *)
Example peek_next_test :
  (peek_next (new DEFAULT (bytes "abc"))) = (Data (new DEFAULT (bytes "abc")) x61) /\
  (peek_next (new END_OF_INPUT (bytes "abc"))) = (Data (new END_OF_INPUT (bytes "abc")) x61) /\
  (peek_next (new DEFAULT (bytes ""))) = (Incomplete 1) /\
  (peek_next (new END_OF_INPUT (bytes ""))) = (Incomplete 1).
Proof. repeat split; reflexivity. Qed.
End parsers_tests.

(** * src/combinators/bounded.rs *)
Module bounded_tests.
Import bounded_api.
(** src/combinators/bounded.rs:789 [many_range_full]. *)
Example many_range_full :
  (many (new DEFAULT (bytes "")) RFull (fun i => (token i x61))) = (Incomplete 1) /\
  (many (new DEFAULT (bytes "a")) RFull (fun i => (token i x61))) = (Incomplete 1) /\
  (many (new DEFAULT (bytes "aa")) RFull (fun i => (token i x61))) = (Incomplete 1) /\
  (many (new DEFAULT (bytes "b")) RFull (fun i => (token i x61))) = (Data (new DEFAULT (bytes "b")) []) /\
  (many (new DEFAULT (bytes "ab")) RFull (fun i => (token i x61))) = (Data (new DEFAULT (bytes "b")) [x61]) /\
  (many (new DEFAULT (bytes "aab")) RFull (fun i => (token i x61))) = (Data (new DEFAULT (bytes "b")) [x61; x61]) /\
  (many (new END_OF_INPUT (bytes "")) RFull any) = (Data (new END_OF_INPUT (bytes "")) []) /\
  (many (new END_OF_INPUT (bytes "a")) RFull any) = (Data (new END_OF_INPUT (bytes "")) [x61]) /\
  (many (new END_OF_INPUT (bytes "aa")) RFull any) = (Data (new END_OF_INPUT (bytes "")) [x61; x61]) /\
  (many (new END_OF_INPUT (bytes "b")) RFull (fun i => (token i x61))) = (Data (new END_OF_INPUT (bytes "b")) []) /\
  (many (new END_OF_INPUT (bytes "ab")) RFull (fun i => (token i x61))) = (Data (new END_OF_INPUT (bytes "b")) [x61]) /\
  (many (new END_OF_INPUT (bytes "aab")) RFull (fun i => (token i x61))) = (Data (new END_OF_INPUT (bytes "b")) [x61; x61]).
Proof. repeat split; reflexivity. Qed.
(** src/combinators/bounded.rs:820 [many_range_to]. *)
Example many_range_to :
  (many (new DEFAULT (bytes "")) (RTo 0) (fun i => (token i x61))) = (Data (new DEFAULT (bytes "")) []) /\
  (many (new DEFAULT (bytes "a")) (RTo 0) (fun i => (token i x61))) = (Data (new DEFAULT (bytes "a")) []) /\
  (many (new END_OF_INPUT (bytes "")) (RTo 0) (fun i => (token i x61))) = (Data (new END_OF_INPUT (bytes "")) []) /\
  (many (new END_OF_INPUT (bytes "a")) (RTo 0) (fun i => (token i x61))) = (Data (new END_OF_INPUT (bytes "a")) []) /\
  (many (new DEFAULT (bytes "")) (RTo 1) (fun i => (token i x61))) = (Data (new DEFAULT (bytes "")) []) /\
  (many (new DEFAULT (bytes "a")) (RTo 1) (fun i => (token i x61))) = (Data (new DEFAULT (bytes "a")) []) /\
  (many (new END_OF_INPUT (bytes "")) (RTo 1) (fun i => (token i x61))) = (Data (new END_OF_INPUT (bytes "")) []) /\
  (many (new END_OF_INPUT (bytes "a")) (RTo 1) (fun i => (token i x61))) = (Data (new END_OF_INPUT (bytes "a")) []) /\
  (many (new DEFAULT (bytes "")) (RTo 3) (fun i => (token i x61))) = (Incomplete 1) /\
  (many (new DEFAULT (bytes "a")) (RTo 3) (fun i => (token i x61))) = (Incomplete 1) /\
  (many (new DEFAULT (bytes "aa")) (RTo 3) (fun i => (token i x61))) = (Data (new DEFAULT (bytes "")) [x61; x61]) /\
  (many (new DEFAULT (bytes "aaa")) (RTo 3) (fun i => (token i x61))) = (Data (new DEFAULT (bytes "a")) [x61; x61]) /\
  (many (new DEFAULT (bytes "b")) (RTo 3) (fun i => (token i x61))) = (Data (new DEFAULT (bytes "b")) []) /\
  (many (new DEFAULT (bytes "ab")) (RTo 3) (fun i => (token i x61))) = (Data (new DEFAULT (bytes "b")) [x61]) /\
  (many (new DEFAULT (bytes "aab")) (RTo 3) (fun i => (token i x61))) = (Data (new DEFAULT (bytes "b")) [x61; x61]) /\
  (many (new END_OF_INPUT (bytes "")) (RTo 3) (fun i => (token i x61))) = (Data (new END_OF_INPUT (bytes "")) []) /\
  (many (new END_OF_INPUT (bytes "a")) (RTo 3) (fun i => (token i x61))) = (Data (new END_OF_INPUT (bytes "")) [x61]) /\
  (many (new END_OF_INPUT (bytes "aa")) (RTo 3) (fun i => (token i x61))) = (Data (new END_OF_INPUT (bytes "")) [x61; x61]) /\
  (many (new END_OF_INPUT (bytes "b")) (RTo 3) (fun i => (token i x61))) = (Data (new END_OF_INPUT (bytes "b")) []) /\
  (many (new END_OF_INPUT (bytes "ab")) (RTo 3) (fun i => (token i x61))) = (Data (new END_OF_INPUT (bytes "b")) [x61]) /\
  (many (new END_OF_INPUT (bytes "aab")) (RTo 3) (fun i => (token i x61))) = (Data (new END_OF_INPUT (bytes "b")) [x61; x61]) /\
  (many (new END_OF_INPUT (bytes "aaab")) (RTo 3) (fun i => (token i x61))) = (Data (new END_OF_INPUT (bytes "ab")) [x61; x61]).
Proof. repeat split; reflexivity. Qed.
(** src/combinators/bounded.rs:873 [many_range_from]. *)
Example many_range_from :
  (many (new DEFAULT (bytes "")) (RFrom 2) (fun i => (token i x61))) = (Incomplete 1) /\
  (many (new DEFAULT (bytes "a")) (RFrom 2) (fun i => (token i x61))) = (Incomplete 1) /\
  (many (new DEFAULT (bytes "aa")) (RFrom 2) (fun i => (token i x61))) = (Incomplete 1) /\
  (many (new DEFAULT (bytes "aaa")) (RFrom 2) (fun i => (token i x61))) = (Incomplete 1) /\
  (many (new DEFAULT (bytes "b")) (RFrom 2) (fun i => (Base.map_err (fun _ => "token_err"%string) (token i x61)))) = (Error (bytes "b") "token_err"%string) /\
  (many (new DEFAULT (bytes "ab")) (RFrom 2) (fun i => (Base.map_err (fun _ => "token_err"%string) (token i x61)))) = (Error (bytes "b") "token_err"%string) /\
  (many (new DEFAULT (bytes "aab")) (RFrom 2) (fun i => (token i x61))) = (Data (new DEFAULT (bytes "b")) [x61; x61]) /\
  (many (new END_OF_INPUT (bytes "")) (RFrom 2) any) = (Incomplete 1) /\
  (many (new END_OF_INPUT (bytes "a")) (RFrom 2) any) = (Incomplete 1) /\
  (many (new END_OF_INPUT (bytes "aa")) (RFrom 2) any) = (Data (new END_OF_INPUT (bytes "")) [x61; x61]) /\
  (many (new END_OF_INPUT (bytes "aaa")) (RFrom 2) any) = (Data (new END_OF_INPUT (bytes "")) [x61; x61; x61]) /\
  (many (new END_OF_INPUT (bytes "b")) (RFrom 2) (fun i => (Base.map_err (fun _ => "token_err"%string) (token i x61)))) = (Error (bytes "b") "token_err"%string) /\
  (many (new END_OF_INPUT (bytes "ab")) (RFrom 2) (fun i => (Base.map_err (fun _ => "token_err"%string) (token i x61)))) = (Error (bytes "b") "token_err"%string) /\
  (many (new END_OF_INPUT (bytes "aab")) (RFrom 2) (fun i => (token i x61))) = (Data (new END_OF_INPUT (bytes "b")) [x61; x61]) /\
  (many (new END_OF_INPUT (bytes "aaab")) (RFrom 2) (fun i => (token i x61))) = (Data (new END_OF_INPUT (bytes "b")) [x61; x61; x61]).
Proof. repeat split; reflexivity. Qed.
(** src/combinators/bounded.rs:910 [many_range]. *)
Example many_range :
  (many (new DEFAULT (bytes "")) (RRange 0 0) (fun i => (token i x61))) = (Data (new DEFAULT (bytes "")) []) /\
  (many (new DEFAULT (bytes "a")) (RRange 0 0) (fun i => (token i x61))) = (Data (new DEFAULT (bytes "a")) []) /\
  (many (new END_OF_INPUT (bytes "")) (RRange 0 0) (fun i => (token i x61))) = (Data (new END_OF_INPUT (bytes "")) []) /\
  (many (new END_OF_INPUT (bytes "a")) (RRange 0 0) (fun i => (token i x61))) = (Data (new END_OF_INPUT (bytes "a")) []) /\
  (many (new DEFAULT (bytes "")) (RRange 0 1) (fun i => (token i x61))) = (Data (new DEFAULT (bytes "")) []) /\
  (many (new DEFAULT (bytes "a")) (RRange 0 1) (fun i => (token i x61))) = (Data (new DEFAULT (bytes "a")) []) /\
  (many (new END_OF_INPUT (bytes "")) (RRange 0 1) (fun i => (token i x61))) = (Data (new END_OF_INPUT (bytes "")) []) /\
  (many (new END_OF_INPUT (bytes "a")) (RRange 0 1) (fun i => (token i x61))) = (Data (new END_OF_INPUT (bytes "a")) []) /\
  (many (new DEFAULT (bytes "")) (RRange 2 4) (fun i => (token i x61))) = (Incomplete 1) /\
  (many (new DEFAULT (bytes "a")) (RRange 2 4) (fun i => (token i x61))) = (Incomplete 1) /\
  (many (new DEFAULT (bytes "aa")) (RRange 2 4) (fun i => (token i x61))) = (Incomplete 1) /\
  (many (new DEFAULT (bytes "aaa")) (RRange 2 4) (fun i => (token i x61))) = (Data (new DEFAULT (bytes "")) [x61; x61; x61]) /\
  (many (new DEFAULT (bytes "aaaa")) (RRange 2 4) (fun i => (token i x61))) = (Data (new DEFAULT (bytes "a")) [x61; x61; x61]) /\
  (many (new DEFAULT (bytes "b")) (RRange 2 4) (fun i => (Base.map_err (fun _ => "token_err"%string) (token i x61)))) = (Error (bytes "b") "token_err"%string) /\
  (many (new DEFAULT (bytes "ab")) (RRange 2 4) (fun i => (Base.map_err (fun _ => "token_err"%string) (token i x61)))) = (Error (bytes "b") "token_err"%string) /\
  (many (new DEFAULT (bytes "aab")) (RRange 2 4) (fun i => (token i x61))) = (Data (new DEFAULT (bytes "b")) [x61; x61]) /\
  (many (new DEFAULT (bytes "aaab")) (RRange 2 4) (fun i => (token i x61))) = (Data (new DEFAULT (bytes "b")) [x61; x61; x61]) /\
  (many (new DEFAULT (bytes "aaaab")) (RRange 2 4) (fun i => (token i x61))) = (Data (new DEFAULT (bytes "ab")) [x61; x61; x61]) /\
  (many (new END_OF_INPUT (bytes "")) (RRange 2 4) any) = (Incomplete 1) /\
  (many (new END_OF_INPUT (bytes "a")) (RRange 2 4) any) = (Incomplete 1) /\
  (many (new END_OF_INPUT (bytes "aa")) (RRange 2 4) any) = (Data (new END_OF_INPUT (bytes "")) [x61; x61]) /\
  (many (new END_OF_INPUT (bytes "aaa")) (RRange 2 4) any) = (Data (new END_OF_INPUT (bytes "")) [x61; x61; x61]) /\
  (many (new END_OF_INPUT (bytes "aaaa")) (RRange 2 4) any) = (Data (new END_OF_INPUT (bytes "a")) [x61; x61; x61]) /\
  (many (new END_OF_INPUT (bytes "b")) (RRange 2 4) (fun i => (Base.map_err (fun _ => "token_err"%string) (token i x61)))) = (Error (bytes "b") "token_err"%string) /\
  (many (new END_OF_INPUT (bytes "ab")) (RRange 2 4) (fun i => (Base.map_err (fun _ => "token_err"%string) (token i x61)))) = (Error (bytes "b") "token_err"%string) /\
  (many (new END_OF_INPUT (bytes "aab")) (RRange 2 4) (fun i => (token i x61))) = (Data (new END_OF_INPUT (bytes "b")) [x61; x61]) /\
  (many (new END_OF_INPUT (bytes "aaab")) (RRange 2 4) (fun i => (token i x61))) = (Data (new END_OF_INPUT (bytes "b")) [x61; x61; x61]) /\
  (many (new END_OF_INPUT (bytes "aaaab")) (RRange 2 4) (fun i => (token i x61))) = (Data (new END_OF_INPUT (bytes "ab")) [x61; x61; x61]).
Proof. repeat split; reflexivity. Qed.
(** src/combinators/bounded.rs:975 [many_exact]. *)
Example many_exact :
  (many (new DEFAULT (bytes "")) 2 (fun i => (token i x61))) = (Incomplete 1) /\
  (many (new DEFAULT (bytes "a")) 2 (fun i => (token i x61))) = (Incomplete 1) /\
  (many (new DEFAULT (bytes "aa")) 2 (fun i => (token i x61))) = (Data (new DEFAULT (bytes "")) [x61; x61]) /\
  (many (new DEFAULT (bytes "aaa")) 2 (fun i => (token i x61))) = (Data (new DEFAULT (bytes "a")) [x61; x61]) /\
  (many (new DEFAULT (bytes "b")) 2 (fun i => (Base.map_err (fun _ => "token_err"%string) (token i x61)))) = (Error (bytes "b") "token_err"%string) /\
  (many (new DEFAULT (bytes "ab")) 2 (fun i => (Base.map_err (fun _ => "token_err"%string) (token i x61)))) = (Error (bytes "b") "token_err"%string) /\
  (many (new DEFAULT (bytes "aab")) 2 (fun i => (token i x61))) = (Data (new DEFAULT (bytes "b")) [x61; x61]) /\
  (many (new DEFAULT (bytes "aaab")) 2 (fun i => (token i x61))) = (Data (new DEFAULT (bytes "ab")) [x61; x61]) /\
  (many (new END_OF_INPUT (bytes "")) 2 (fun i => (Base.map_err (fun _ => "token_err"%string) (token i x61)))) = (Incomplete 1) /\
  (many (new END_OF_INPUT (bytes "a")) 2 (fun i => (Base.map_err (fun _ => "token_err"%string) (token i x61)))) = (Incomplete 1) /\
  (many (new END_OF_INPUT (bytes "aa")) 2 (fun i => (token i x61))) = (Data (new END_OF_INPUT (bytes "")) [x61; x61]) /\
  (many (new END_OF_INPUT (bytes "aaa")) 2 (fun i => (token i x61))) = (Data (new END_OF_INPUT (bytes "a")) [x61; x61]) /\
  (many (new END_OF_INPUT (bytes "b")) 2 (fun i => (Base.map_err (fun _ => "token_err"%string) (token i x61)))) = (Error (bytes "b") "token_err"%string) /\
  (many (new END_OF_INPUT (bytes "ab")) 2 (fun i => (Base.map_err (fun _ => "token_err"%string) (token i x61)))) = (Error (bytes "b") "token_err"%string) /\
  (many (new END_OF_INPUT (bytes "aab")) 2 (fun i => (token i x61))) = (Data (new END_OF_INPUT (bytes "b")) [x61; x61]) /\
  (many (new END_OF_INPUT (bytes "aaab")) 2 (fun i => (token i x61))) = (Data (new END_OF_INPUT (bytes "ab")) [x61; x61]).
Proof. repeat split; reflexivity. Qed.
(** src/combinators/bounded.rs:1014 [skip_range_full]. *)
Example skip_range_full :
  (skip_many (new DEFAULT (bytes "")) RFull (fun i => (token i x61))) = (Incomplete 1) /\
  (skip_many (new DEFAULT (bytes "a")) RFull (fun i => (token i x61))) = (Incomplete 1) /\
  (skip_many (new DEFAULT (bytes "aa")) RFull (fun i => (token i x61))) = (Incomplete 1) /\
  (skip_many (new DEFAULT (bytes "b")) RFull (fun i => (token i x61))) = (Data (new DEFAULT (bytes "b")) tt) /\
  (skip_many (new DEFAULT (bytes "ab")) RFull (fun i => (token i x61))) = (Data (new DEFAULT (bytes "b")) tt) /\
  (skip_many (new DEFAULT (bytes "aab")) RFull (fun i => (token i x61))) = (Data (new DEFAULT (bytes "b")) tt) /\
  (skip_many (new END_OF_INPUT (bytes "")) RFull any) = (Data (new END_OF_INPUT (bytes "")) tt) /\
  (skip_many (new END_OF_INPUT (bytes "a")) RFull any) = (Data (new END_OF_INPUT (bytes "")) tt) /\
  (skip_many (new END_OF_INPUT (bytes "aa")) RFull any) = (Data (new END_OF_INPUT (bytes "")) tt) /\
  (skip_many (new END_OF_INPUT (bytes "b")) RFull (fun i => (token i x61))) = (Data (new END_OF_INPUT (bytes "b")) tt) /\
  (skip_many (new END_OF_INPUT (bytes "ab")) RFull (fun i => (token i x61))) = (Data (new END_OF_INPUT (bytes "b")) tt) /\
  (skip_many (new END_OF_INPUT (bytes "aab")) RFull (fun i => (token i x61))) = (Data (new END_OF_INPUT (bytes "b")) tt).
Proof. repeat split; reflexivity. Qed.
(** src/combinators/bounded.rs:1045 [skip_range_to]. *)
Example skip_range_to :
  (skip_many (new DEFAULT (bytes "")) (RTo 0) (fun i => (token i x61))) = (Data (new DEFAULT (bytes "")) tt) /\
  (skip_many (new DEFAULT (bytes "a")) (RTo 0) (fun i => (token i x61))) = (Data (new DEFAULT (bytes "a")) tt) /\
  (skip_many (new END_OF_INPUT (bytes "")) (RTo 0) (fun i => (token i x61))) = (Data (new END_OF_INPUT (bytes "")) tt) /\
  (skip_many (new END_OF_INPUT (bytes "a")) (RTo 0) (fun i => (token i x61))) = (Data (new END_OF_INPUT (bytes "a")) tt) /\
  (skip_many (new DEFAULT (bytes "")) (RTo 1) (fun i => (token i x61))) = (Data (new DEFAULT (bytes "")) tt) /\
  (skip_many (new DEFAULT (bytes "a")) (RTo 1) (fun i => (token i x61))) = (Data (new DEFAULT (bytes "a")) tt) /\
  (skip_many (new END_OF_INPUT (bytes "")) (RTo 1) (fun i => (token i x61))) = (Data (new END_OF_INPUT (bytes "")) tt) /\
  (skip_many (new END_OF_INPUT (bytes "a")) (RTo 1) (fun i => (token i x61))) = (Data (new END_OF_INPUT (bytes "a")) tt) /\
  (skip_many (new DEFAULT (bytes "")) (RTo 3) (fun i => (token i x61))) = (Incomplete 1) /\
  (skip_many (new DEFAULT (bytes "a")) (RTo 3) (fun i => (token i x61))) = (Incomplete 1) /\
  (skip_many (new DEFAULT (bytes "aa")) (RTo 3) (fun i => (token i x61))) = (Data (new DEFAULT (bytes "")) tt) /\
  (skip_many (new DEFAULT (bytes "aaa")) (RTo 3) (fun i => (token i x61))) = (Data (new DEFAULT (bytes "a")) tt) /\
  (skip_many (new DEFAULT (bytes "b")) (RTo 3) (fun i => (token i x61))) = (Data (new DEFAULT (bytes "b")) tt) /\
  (skip_many (new DEFAULT (bytes "ab")) (RTo 3) (fun i => (token i x61))) = (Data (new DEFAULT (bytes "b")) tt) /\
  (skip_many (new DEFAULT (bytes "aab")) (RTo 3) (fun i => (token i x61))) = (Data (new DEFAULT (bytes "b")) tt) /\
  (skip_many (new END_OF_INPUT (bytes "")) (RTo 3) (fun i => (token i x61))) = (Data (new END_OF_INPUT (bytes "")) tt) /\
  (skip_many (new END_OF_INPUT (bytes "a")) (RTo 3) (fun i => (token i x61))) = (Data (new END_OF_INPUT (bytes "")) tt) /\
  (skip_many (new END_OF_INPUT (bytes "aa")) (RTo 3) (fun i => (token i x61))) = (Data (new END_OF_INPUT (bytes "")) tt) /\
  (skip_many (new END_OF_INPUT (bytes "b")) (RTo 3) (fun i => (token i x61))) = (Data (new END_OF_INPUT (bytes "b")) tt) /\
  (skip_many (new END_OF_INPUT (bytes "ab")) (RTo 3) (fun i => (token i x61))) = (Data (new END_OF_INPUT (bytes "b")) tt) /\
  (skip_many (new END_OF_INPUT (bytes "aab")) (RTo 3) (fun i => (token i x61))) = (Data (new END_OF_INPUT (bytes "b")) tt) /\
  (skip_many (new END_OF_INPUT (bytes "aaab")) (RTo 3) (fun i => (token i x61))) = (Data (new END_OF_INPUT (bytes "ab")) tt).
Proof. repeat split; reflexivity. Qed.
(** src/combinators/bounded.rs:1098 [skip_range_from]. *)
Example skip_range_from :
  (skip_many (new DEFAULT (bytes "")) (RFrom 2) (fun i => (token i x61))) = (Incomplete 1) /\
  (skip_many (new DEFAULT (bytes "a")) (RFrom 2) (fun i => (token i x61))) = (Incomplete 1) /\
  (skip_many (new DEFAULT (bytes "aa")) (RFrom 2) (fun i => (token i x61))) = (Incomplete 1) /\
  (skip_many (new DEFAULT (bytes "aaa")) (RFrom 2) (fun i => (token i x61))) = (Incomplete 1) /\
  (skip_many (new DEFAULT (bytes "b")) (RFrom 2) (fun i => (Base.map_err (fun _ => "token_err"%string) (token i x61)))) = (Error (bytes "b") "token_err"%string) /\
  (skip_many (new DEFAULT (bytes "ab")) (RFrom 2) (fun i => (Base.map_err (fun _ => "token_err"%string) (token i x61)))) = (Error (bytes "b") "token_err"%string) /\
  (skip_many (new DEFAULT (bytes "aab")) (RFrom 2) (fun i => (token i x61))) = (Data (new DEFAULT (bytes "b")) tt) /\
  (skip_many (new END_OF_INPUT (bytes "")) (RFrom 2) any) = (Incomplete 1) /\
  (skip_many (new END_OF_INPUT (bytes "a")) (RFrom 2) any) = (Incomplete 1) /\
  (skip_many (new END_OF_INPUT (bytes "aa")) (RFrom 2) any) = (Data (new END_OF_INPUT (bytes "")) tt) /\
  (skip_many (new END_OF_INPUT (bytes "aaa")) (RFrom 2) any) = (Data (new END_OF_INPUT (bytes "")) tt) /\
  (skip_many (new END_OF_INPUT (bytes "b")) (RFrom 2) (fun i => (Base.map_err (fun _ => "token_err"%string) (token i x61)))) = (Error (bytes "b") "token_err"%string) /\
  (skip_many (new END_OF_INPUT (bytes "ab")) (RFrom 2) (fun i => (Base.map_err (fun _ => "token_err"%string) (token i x61)))) = (Error (bytes "b") "token_err"%string) /\
  (skip_many (new END_OF_INPUT (bytes "aab")) (RFrom 2) (fun i => (token i x61))) = (Data (new END_OF_INPUT (bytes "b")) tt) /\
  (skip_many (new END_OF_INPUT (bytes "aaab")) (RFrom 2) (fun i => (token i x61))) = (Data (new END_OF_INPUT (bytes "b")) tt).
Proof. repeat split; reflexivity. Qed.
(** src/combinators/bounded.rs:1135 [skip_range]. *)
Example skip_range :
  (skip_many (new DEFAULT (bytes "")) (RRange 0 0) (fun i => (token i x61))) = (Data (new DEFAULT (bytes "")) tt) /\
  (skip_many (new DEFAULT (bytes "a")) (RRange 0 0) (fun i => (token i x61))) = (Data (new DEFAULT (bytes "a")) tt) /\
  (skip_many (new END_OF_INPUT (bytes "")) (RRange 0 0) (fun i => (token i x61))) = (Data (new END_OF_INPUT (bytes "")) tt) /\
  (skip_many (new END_OF_INPUT (bytes "a")) (RRange 0 0) (fun i => (token i x61))) = (Data (new END_OF_INPUT (bytes "a")) tt) /\
  (skip_many (new DEFAULT (bytes "")) (RRange 0 1) (fun i => (token i x61))) = (Data (new DEFAULT (bytes "")) tt) /\
  (skip_many (new DEFAULT (bytes "a")) (RRange 0 1) (fun i => (token i x61))) = (Data (new DEFAULT (bytes "a")) tt) /\
  (skip_many (new END_OF_INPUT (bytes "")) (RRange 0 1) (fun i => (token i x61))) = (Data (new END_OF_INPUT (bytes "")) tt) /\
  (skip_many (new END_OF_INPUT (bytes "a")) (RRange 0 1) (fun i => (token i x61))) = (Data (new END_OF_INPUT (bytes "a")) tt) /\
  (skip_many (new DEFAULT (bytes "")) (RRange 2 4) (fun i => (token i x61))) = (Incomplete 1) /\
  (skip_many (new DEFAULT (bytes "a")) (RRange 2 4) (fun i => (token i x61))) = (Incomplete 1) /\
  (skip_many (new DEFAULT (bytes "aa")) (RRange 2 4) (fun i => (token i x61))) = (Incomplete 1) /\
  (skip_many (new DEFAULT (bytes "aaa")) (RRange 2 4) (fun i => (token i x61))) = (Data (new DEFAULT (bytes "")) tt) /\
  (skip_many (new DEFAULT (bytes "aaaa")) (RRange 2 4) (fun i => (token i x61))) = (Data (new DEFAULT (bytes "a")) tt) /\
  (skip_many (new DEFAULT (bytes "b")) (RRange 2 4) (fun i => (Base.map_err (fun _ => "token_err"%string) (token i x61)))) = (Error (bytes "b") "token_err"%string) /\
  (skip_many (new DEFAULT (bytes "ab")) (RRange 2 4) (fun i => (Base.map_err (fun _ => "token_err"%string) (token i x61)))) = (Error (bytes "b") "token_err"%string) /\
  (skip_many (new DEFAULT (bytes "aab")) (RRange 2 4) (fun i => (token i x61))) = (Data (new DEFAULT (bytes "b")) tt) /\
  (skip_many (new DEFAULT (bytes "aaab")) (RRange 2 4) (fun i => (token i x61))) = (Data (new DEFAULT (bytes "b")) tt) /\
  (skip_many (new DEFAULT (bytes "aaaab")) (RRange 2 4) (fun i => (token i x61))) = (Data (new DEFAULT (bytes "ab")) tt) /\
  (skip_many (new END_OF_INPUT (bytes "")) (RRange 2 4) any) = (Incomplete 1) /\
  (skip_many (new END_OF_INPUT (bytes "a")) (RRange 2 4) any) = (Incomplete 1) /\
  (skip_many (new END_OF_INPUT (bytes "aa")) (RRange 2 4) any) = (Data (new END_OF_INPUT (bytes "")) tt) /\
  (skip_many (new END_OF_INPUT (bytes "aaa")) (RRange 2 4) any) = (Data (new END_OF_INPUT (bytes "")) tt) /\
  (skip_many (new END_OF_INPUT (bytes "aaaa")) (RRange 2 4) any) = (Data (new END_OF_INPUT (bytes "a")) tt) /\
  (skip_many (new END_OF_INPUT (bytes "b")) (RRange 2 4) (fun i => (Base.map_err (fun _ => "token_err"%string) (token i x61)))) = (Error (bytes "b") "token_err"%string) /\
  (skip_many (new END_OF_INPUT (bytes "ab")) (RRange 2 4) (fun i => (Base.map_err (fun _ => "token_err"%string) (token i x61)))) = (Error (bytes "b") "token_err"%string) /\
  (skip_many (new END_OF_INPUT (bytes "aab")) (RRange 2 4) (fun i => (token i x61))) = (Data (new END_OF_INPUT (bytes "b")) tt) /\
  (skip_many (new END_OF_INPUT (bytes "aaab")) (RRange 2 4) (fun i => (token i x61))) = (Data (new END_OF_INPUT (bytes "b")) tt) /\
  (skip_many (new END_OF_INPUT (bytes "aaaab")) (RRange 2 4) (fun i => (token i x61))) = (Data (new END_OF_INPUT (bytes "ab")) tt).
Proof. repeat split; reflexivity. Qed.
(** src/combinators/bounded.rs:1200 [skip_exact]. *)
Example skip_exact :
  (skip_many (new DEFAULT (bytes "")) 2 (fun i => (token i x61))) = (Incomplete 1) /\
  (skip_many (new DEFAULT (bytes "a")) 2 (fun i => (token i x61))) = (Incomplete 1) /\
  (skip_many (new DEFAULT (bytes "aa")) 2 (fun i => (token i x61))) = (Data (new DEFAULT (bytes "")) tt) /\
  (skip_many (new DEFAULT (bytes "aaa")) 2 (fun i => (token i x61))) = (Data (new DEFAULT (bytes "a")) tt) /\
  (skip_many (new DEFAULT (bytes "b")) 2 (fun i => (Base.map_err (fun _ => "token_err"%string) (token i x61)))) = (Error (bytes "b") "token_err"%string) /\
  (skip_many (new DEFAULT (bytes "ab")) 2 (fun i => (Base.map_err (fun _ => "token_err"%string) (token i x61)))) = (Error (bytes "b") "token_err"%string) /\
  (skip_many (new DEFAULT (bytes "aab")) 2 (fun i => (token i x61))) = (Data (new DEFAULT (bytes "b")) tt) /\
  (skip_many (new DEFAULT (bytes "aaab")) 2 (fun i => (token i x61))) = (Data (new DEFAULT (bytes "ab")) tt) /\
  (skip_many (new END_OF_INPUT (bytes "")) 2 (fun i => (Base.map_err (fun _ => "token_err"%string) (token i x61)))) = (Incomplete 1) /\
  (skip_many (new END_OF_INPUT (bytes "a")) 2 (fun i => (Base.map_err (fun _ => "token_err"%string) (token i x61)))) = (Incomplete 1) /\
  (skip_many (new END_OF_INPUT (bytes "aa")) 2 (fun i => (token i x61))) = (Data (new END_OF_INPUT (bytes "")) tt) /\
  (skip_many (new END_OF_INPUT (bytes "aaa")) 2 (fun i => (token i x61))) = (Data (new END_OF_INPUT (bytes "a")) tt) /\
  (skip_many (new END_OF_INPUT (bytes "b")) 2 (fun i => (Base.map_err (fun _ => "token_err"%string) (token i x61)))) = (Error (bytes "b") "token_err"%string) /\
  (skip_many (new END_OF_INPUT (bytes "ab")) 2 (fun i => (Base.map_err (fun _ => "token_err"%string) (token i x61)))) = (Error (bytes "b") "token_err"%string) /\
  (skip_many (new END_OF_INPUT (bytes "aab")) 2 (fun i => (token i x61))) = (Data (new END_OF_INPUT (bytes "b")) tt) /\
  (skip_many (new END_OF_INPUT (bytes "aaab")) 2 (fun i => (token i x61))) = (Data (new END_OF_INPUT (bytes "ab")) tt).
Proof. repeat split; reflexivity. Qed.
(** src/combinators/bounded.rs:1240 [panic_many_range_lt]. *)
Example panic_many_range_lt :
  (many (new DEFAULT (bytes "aaaab")) (RRange 2 1) (fun i => (token i x61))) = Panic.
Proof. repeat split; reflexivity. Qed.
(** src/combinators/bounded.rs:1247 [panic_skip_many_range_lt]. *)
Example panic_skip_many_range_lt :
  (skip_many (new DEFAULT (bytes "aaaab")) (RRange 2 1) (fun i => (token i x61))) = Panic.
Proof. repeat split; reflexivity. Qed.
(** src/combinators/bounded.rs:1253 [panic_many_till_range_lt]. *)
Example panic_many_till_range_lt :
  (many_till (new DEFAULT (bytes "aaaab")) (RRange 2 1) (fun i => (token i x61)) (fun i => (token i x62))) = Panic.
Proof. repeat split; reflexivity. Qed.
End bounded_tests.

(** * src/combinators/mod.rs *)
Module combinators_tests.
Import combinators_api.
(** src/combinators/mod.rs:377 [option_test]. *)
Example option_test :
  (option_ (new DEFAULT (bytes "")) any x2d) = (Incomplete 1) /\
  (option_ (new DEFAULT (bytes "a")) any x2d) = (Data (new DEFAULT (bytes "")) x61) /\
  (option_ (new DEFAULT (bytes "")) (fun i => (take i 2)) []) = (Incomplete 2) /\
  (option_ (new DEFAULT (bytes "a")) (fun i => (take i 2)) []) = (Incomplete 1) /\
  (option_ (new DEFAULT (bytes "ab")) (fun i => (take i 2)) []) = (Data (new DEFAULT (bytes "")) [x61; x62]) /\
  (option_ (new DEFAULT (bytes "a")) (fun i => (Base.map_err (fun _ => "token_err"%string) (token i x20))) x2d) = (Data (new DEFAULT (bytes "a")) x2d) /\
  (option_ (new END_OF_INPUT (bytes "")) any x2d) = (Data (new END_OF_INPUT (bytes "")) x2d) /\
  (option_ (new END_OF_INPUT (bytes "a")) any x2d) = (Data (new END_OF_INPUT (bytes "")) x61) /\
  (option_ (new END_OF_INPUT (bytes "")) (fun i => (take i 2)) []) = (Data (new END_OF_INPUT (bytes "")) []) /\
  (option_ (new END_OF_INPUT (bytes "a")) (fun i => (take i 2)) []) = (Data (new END_OF_INPUT (bytes "a")) []) /\
  (option_ (new END_OF_INPUT (bytes "ab")) (fun i => (take i 2)) []) = (Data (new END_OF_INPUT (bytes "")) [x61; x62]) /\
  (option_ (new END_OF_INPUT (bytes "a")) (fun i => (Base.map_err (fun _ => "token_err"%string) (token i x20))) x2d) = (Data (new END_OF_INPUT (bytes "a")) x2d).
Proof. repeat split; reflexivity. Qed.
(** src/combinators/mod.rs:396 [or_test]. *)
Example or_test :
  (or_ (new DEFAULT (bytes "")) any any) = (Incomplete 1) /\
  (or_ (new DEFAULT (bytes "a")) any any) = (Data (new DEFAULT (bytes "")) x61) /\
  (or_ (new DEFAULT (bytes "a")) (fun i => (take i 2)) (fun i => (take i 1))) = (Incomplete 1) /\
  (or_ (new DEFAULT (bytes "ab")) (fun i => (take i 2)) (fun i => (take i 1))) = (Data (new DEFAULT (bytes "")) (bytes "ab")) /\
  (or_ (new DEFAULT (bytes "a")) (fun i => (token i x61)) (fun i => (token i x62))) = (Data (new DEFAULT (bytes "")) x61) /\
  (or_ (new DEFAULT (bytes "b")) (fun i => (token i x61)) (fun i => (token i x62))) = (Data (new DEFAULT (bytes "")) x62) /\
  (or_ (new DEFAULT (bytes "c")) (fun i => (Base.map_err (fun _ => "a err"%string) (token i x61))) (fun i => (Base.map_err (fun _ => "b err"%string) (token i x62)))) = (Error (bytes "c") "b err"%string) /\
  (or_ (new END_OF_INPUT (bytes "")) any any) = (Incomplete 1) /\
  (or_ (new END_OF_INPUT (bytes "a")) any any) = (Data (new END_OF_INPUT (bytes "")) x61) /\
  (or_ (new END_OF_INPUT (bytes "a")) (fun i => (take i 2)) (fun i => (take i 1))) = (Data (new END_OF_INPUT (bytes "")) (bytes "a")) /\
  (or_ (new END_OF_INPUT (bytes "ab")) (fun i => (take i 2)) (fun i => (take i 1))) = (Data (new END_OF_INPUT (bytes "")) (bytes "ab")) /\
  (or_ (new END_OF_INPUT (bytes "a")) (fun i => (token i x61)) (fun i => (token i x62))) = (Data (new END_OF_INPUT (bytes "")) x61) /\
  (or_ (new END_OF_INPUT (bytes "b")) (fun i => (token i x61)) (fun i => (token i x62))) = (Data (new END_OF_INPUT (bytes "")) x62) /\
  (or_ (new END_OF_INPUT (bytes "c")) (fun i => (Base.map_err (fun _ => "a err"%string) (token i x61))) (fun i => (Base.map_err (fun _ => "b err"%string) (token i x62)))) = (Error (bytes "c") "b err"%string).
Proof. repeat split; reflexivity. Qed.
(** src/combinators/mod.rs:415 [many_test]. *)
Example many_test :
  (many (new DEFAULT (bytes "")) (fun i => (token i x61))) = (Incomplete 1) /\
  (many (new DEFAULT (bytes "a")) (fun i => (token i x61))) = (Incomplete 1) /\
  (many (new DEFAULT (bytes "aa")) (fun i => (token i x61))) = (Incomplete 1) /\
  (many (new DEFAULT (bytes "bbb")) (fun i => (token i x61))) = (Data (new DEFAULT (bytes "bbb")) []) /\
  (many (new DEFAULT (bytes "abb")) (fun i => (token i x61))) = (Data (new DEFAULT (bytes "bb")) [x61]) /\
  (many (new DEFAULT (bytes "aab")) (fun i => (token i x61))) = (Data (new DEFAULT (bytes "b")) [x61; x61]) /\
  (many (new END_OF_INPUT (bytes "")) (fun i => (token i x61))) = (Data (new END_OF_INPUT (bytes "")) []) /\
  (many (new END_OF_INPUT (bytes "a")) (fun i => (token i x61))) = (Data (new END_OF_INPUT (bytes "")) [x61]) /\
  (many (new END_OF_INPUT (bytes "aa")) (fun i => (token i x61))) = (Data (new END_OF_INPUT (bytes "")) [x61; x61]) /\
  (many (new END_OF_INPUT (bytes "aab")) (fun i => (token i x61))) = (Data (new END_OF_INPUT (bytes "b")) [x61; x61]).
Proof. repeat split; reflexivity. Qed.
(** src/combinators/mod.rs:442 [many1_test]. *)
Example many1_test :
  (many1 (new DEFAULT (bytes "")) (fun i => (token i x61))) = (Incomplete 1) /\
  (many1 (new DEFAULT (bytes "a")) (fun i => (token i x61))) = (Incomplete 1) /\
  (many1 (new DEFAULT (bytes "aa")) (fun i => (token i x61))) = (Incomplete 1) /\
  (many1 (new DEFAULT (bytes "bbb")) (fun i => (Base.map_err (fun _ => "token_error"%string) (token i x61)))) = (Error (bytes "bbb") "token_error"%string) /\
  (many1 (new DEFAULT (bytes "abb")) (fun i => (token i x61))) = (Data (new DEFAULT (bytes "bb")) [x61]) /\
  (many1 (new DEFAULT (bytes "aab")) (fun i => (token i x61))) = (Data (new DEFAULT (bytes "b")) [x61; x61]) /\
  (many1 (new END_OF_INPUT (bytes "")) (fun i => (token i x61))) = (Incomplete 1) /\
  (many1 (new END_OF_INPUT (bytes "a")) (fun i => (token i x61))) = (Data (new END_OF_INPUT (bytes "")) [x61]) /\
  (many1 (new END_OF_INPUT (bytes "aa")) (fun i => (token i x61))) = (Data (new END_OF_INPUT (bytes "")) [x61; x61]) /\
  (many1 (new END_OF_INPUT (bytes "aab")) (fun i => (token i x61))) = (Data (new END_OF_INPUT (bytes "b")) [x61; x61]).
Proof. repeat split; reflexivity. Qed.
(** src/combinators/mod.rs:469 [count_test]. *)
Example count_test :
  (count (new DEFAULT (bytes "")) 3 (fun i => (token i x61))) = (Incomplete 1) /\
  (count (new DEFAULT (bytes "a")) 3 (fun i => (token i x61))) = (Incomplete 1) /\
  (count (new DEFAULT (bytes "aa")) 3 (fun i => (token i x61))) = (Incomplete 1) /\
  (count (new DEFAULT (bytes "aaa")) 3 (fun i => (token i x61))) = (Data (new DEFAULT (bytes "")) [x61; x61; x61]) /\
  (count (new DEFAULT (bytes "aaaa")) 3 (fun i => (token i x61))) = (Data (new DEFAULT (bytes "a")) [x61; x61; x61]) /\
  (count (new END_OF_INPUT (bytes "")) 3 (fun i => (token i x61))) = (Incomplete 1) /\
  (count (new END_OF_INPUT (bytes "a")) 3 (fun i => (token i x61))) = (Incomplete 1) /\
  (count (new END_OF_INPUT (bytes "aa")) 3 (fun i => (token i x61))) = (Incomplete 1) /\
  (count (new END_OF_INPUT (bytes "aaa")) 3 (fun i => (token i x61))) = (Data (new END_OF_INPUT (bytes "")) [x61; x61; x61]) /\
  (count (new END_OF_INPUT (bytes "aaaa")) 3 (fun i => (token i x61))) = (Data (new END_OF_INPUT (bytes "a")) [x61; x61; x61]).
Proof. repeat split; reflexivity. Qed.
(** src/combinators/mod.rs:494 [skip_many1_test]. *)
Example skip_many1_test :
  (skip_many1 (new DEFAULT (bytes "aabc")) (fun i => (token i x61))) = (Data (new DEFAULT (bytes "bc")) tt) /\
  (skip_many1 (new DEFAULT (bytes "abc")) (fun i => (token i x61))) = (Data (new DEFAULT (bytes "bc")) tt) /\
  (skip_many1 (new DEFAULT (bytes "bc")) (fun i => (Base.err "error"%string i : pres byte unit _))) = (Error (bytes "bc") "error"%string) /\
  (skip_many1 (new DEFAULT (bytes "aaa")) (fun i => (token i x61))) = (Incomplete 1) /\
  (skip_many1 (new END_OF_INPUT (bytes "aabc")) (fun i => (token i x61))) = (Data (new END_OF_INPUT (bytes "bc")) tt) /\
  (skip_many1 (new END_OF_INPUT (bytes "abc")) (fun i => (token i x61))) = (Data (new END_OF_INPUT (bytes "bc")) tt) /\
  (skip_many1 (new END_OF_INPUT (bytes "bc")) (fun i => (Base.err "error"%string i : pres byte unit _))) = (Error (bytes "bc") "error"%string) /\
  (skip_many1 (new END_OF_INPUT (bytes "aaa")) (fun i => (token i x61))) = (Data (new END_OF_INPUT (bytes "")) tt).
Proof. repeat split; reflexivity. Qed.
(** src/combinators/mod.rs:521 [matched_by_test]. *)
Example matched_by_test :
  (matched_by (new DEFAULT (bytes "abc")) any) = (Data (new DEFAULT (bytes "bc")) ((bytes "a"), x61)) /\
  (matched_by (new DEFAULT (bytes "abc")) (fun i => (Base.err "my error"%string i : pres byte unit _))) = (Error (bytes "abc") "my error"%string) /\
  (matched_by (new DEFAULT (bytes "abc")) (fun i => (Base.then_ (fun e => e) (Base.map_err (fun _ => "any error"%string) (any i)) (fun i => (Base.err "my error"%string i : pres byte unit _))))) = (Error (bytes "bc") "my error"%string) /\
  (matched_by (new DEFAULT (bytes "")) any) = (Incomplete 1).
Proof. repeat split; reflexivity. Qed.
(** src/combinators/mod.rs:529 [sep_by_test]. *)
Example sep_by_test :
  (sep_by (new END_OF_INPUT (bytes "")) any (fun i => (token i x3b))) = (Data (new END_OF_INPUT (bytes "")) []) /\
  (sep_by (new END_OF_INPUT (bytes "b")) (fun i => (token i x61)) (fun i => (token i x3b))) = (Data (new END_OF_INPUT (bytes "b")) []) /\
  (sep_by (new END_OF_INPUT (bytes "a")) any (fun i => (token i x3b))) = (Data (new END_OF_INPUT (bytes "")) [x61]) /\
  (sep_by (new END_OF_INPUT (bytes "a;c")) any (fun i => (token i x3b))) = (Data (new END_OF_INPUT (bytes "")) [x61; x63]) /\
  (sep_by (new END_OF_INPUT (bytes "a;c;")) any (fun i => (token i x3b))) = (Data (new END_OF_INPUT (bytes ";")) [x61; x63]) /\
  (sep_by (new END_OF_INPUT (bytes "a--c-")) any (fun i => (string i (bytes "--")))) = (Data (new END_OF_INPUT (bytes "-")) [x61; x63]) /\
  (sep_by (new END_OF_INPUT (bytes "abc")) any (fun i => (token i x3b))) = (Data (new END_OF_INPUT (bytes "bc")) [x61]) /\
  (sep_by (new END_OF_INPUT (bytes "a;bc")) any (fun i => (token i x3b))) = (Data (new END_OF_INPUT (bytes "c")) [x61; x62]) /\
  (sep_by (new DEFAULT (bytes "abc")) any (fun i => (token i x3b))) = (Data (new DEFAULT (bytes "bc")) [x61]) /\
  (sep_by (new DEFAULT (bytes "a;bc")) any (fun i => (token i x3b))) = (Data (new DEFAULT (bytes "c")) [x61; x62]) /\
  (sep_by (new DEFAULT (bytes "")) any (fun i => (token i x3b))) = (Incomplete 1) /\
  (sep_by (new DEFAULT (bytes "a")) any (fun i => (token i x3b))) = (Incomplete 1) /\
  (sep_by (new DEFAULT (bytes "a;")) any (fun i => (token i x3b))) = (Incomplete 1) /\
  (sep_by (new DEFAULT (bytes "a;c")) any (fun i => (token i x3b))) = (Incomplete 1) /\
  (sep_by (new DEFAULT (bytes "a;c;")) any (fun i => (token i x3b))) = (Incomplete 1) /\
  (sep_by (new DEFAULT (bytes "a--c-")) any (fun i => (string i (bytes "--")))) = (Incomplete 1) /\
  (sep_by (new DEFAULT (bytes "aaa--a")) (fun i => (string i (bytes "aaa"))) (fun i => (string i (bytes "--")))) = (Incomplete 2).
Proof. repeat split; reflexivity. Qed.
(** src/combinators/mod.rs:567 [sep_by1_test]. *)
Example sep_by1_test :
  (sep_by1 (new END_OF_INPUT (bytes "")) any (fun i => (token i x3b))) = (Incomplete 1) /\
  (sep_by1 (new END_OF_INPUT (bytes "b")) (fun i => (Base.err "my err"%string i : pres byte unit _)) (fun i => (Base.map_err (fun _ => "token_err"%string) (token i x3b)))) = (Error (bytes "b") "my err"%string) /\
  (sep_by1 (new END_OF_INPUT (bytes "a")) any (fun i => (token i x3b))) = (Data (new END_OF_INPUT (bytes "")) [x61]) /\
  (sep_by1 (new END_OF_INPUT (bytes "a;c")) any (fun i => (token i x3b))) = (Data (new END_OF_INPUT (bytes "")) [x61; x63]) /\
  (sep_by1 (new END_OF_INPUT (bytes "a;c;")) any (fun i => (token i x3b))) = (Data (new END_OF_INPUT (bytes ";")) [x61; x63]) /\
  (sep_by1 (new END_OF_INPUT (bytes "a--c-")) any (fun i => (string i (bytes "--")))) = (Data (new END_OF_INPUT (bytes "-")) [x61; x63]) /\
  (sep_by1 (new END_OF_INPUT (bytes "abc")) any (fun i => (token i x3b))) = (Data (new END_OF_INPUT (bytes "bc")) [x61]) /\
  (sep_by1 (new END_OF_INPUT (bytes "a;bc")) any (fun i => (token i x3b))) = (Data (new END_OF_INPUT (bytes "c")) [x61; x62]) /\
  (sep_by1 (new DEFAULT (bytes "abc")) any (fun i => (token i x3b))) = (Data (new DEFAULT (bytes "bc")) [x61]) /\
  (sep_by1 (new DEFAULT (bytes "a;bc")) any (fun i => (token i x3b))) = (Data (new DEFAULT (bytes "c")) [x61; x62]) /\
  (sep_by1 (new DEFAULT (bytes "")) any (fun i => (token i x3b))) = (Incomplete 1) /\
  (sep_by1 (new DEFAULT (bytes "a")) any (fun i => (token i x3b))) = (Incomplete 1) /\
  (sep_by1 (new DEFAULT (bytes "a;")) any (fun i => (token i x3b))) = (Incomplete 1) /\
  (sep_by1 (new DEFAULT (bytes "a;c")) any (fun i => (token i x3b))) = (Incomplete 1) /\
  (sep_by1 (new DEFAULT (bytes "a;c;")) any (fun i => (token i x3b))) = (Incomplete 1) /\
  (sep_by1 (new DEFAULT (bytes "a--c-")) any (fun i => (string i (bytes "--")))) = (Incomplete 1) /\
  (sep_by1 (new DEFAULT (bytes "aaa--a")) (fun i => (string i (bytes "aaa"))) (fun i => (string i (bytes "--")))) = (Incomplete 2).
Proof. repeat split; reflexivity. Qed.
(** src/combinators/mod.rs:608 [look_ahead_test]. *)
Example look_ahead_test :
  (look_ahead (new DEFAULT (bytes "abc")) any) = (Data (new DEFAULT (bytes "abc")) x61) /\
  (look_ahead (new DEFAULT (bytes "a")) (fun i => (string i (bytes "abc")))) = (Incomplete 2) /\
  (look_ahead (new DEFAULT (bytes "aa")) (fun i => (Base.map_err (fun _ => "err"%string) (Base.then_ (fun e => e) (token i x61) (fun i => (token i x62)))))) = (Error (bytes "a") "err"%string).
Proof. repeat split; reflexivity. Qed.
End combinators_tests.

(** * Tests transcribed by hand *)

(** src/parsers.rs:577 [parse_decimal]; the integers are unbounded here. *)
Example parse_decimal :
  let decimal i := Base.bind (fun e => e) (take_while1 i is_digit)
    (fun i bs => Base.ret (fold_left (fun a b => a * 10 + (N.to_nat (code b) - N.to_nat (code x30))) bs 0) i) in
  let p := Base.bind (fun e => e) (decimal (new END_OF_INPUT (bytes "12.45 "))) (fun i real =>
    Base.bind (fun e => e) (token i x2e) (fun i _ => Base.bind (fun e => e) (decimal i) (fun i frac => Base.ret (real, frac) i))) in
  Base.bind (fun e => e) p (fun i num => Base.bind (fun e => e) (take_remainder i) (fun i r => Base.ret (r, num) i)) =
  Data (new END_OF_INPUT (bytes "")) (bytes " ", (12, 45)).
Proof. reflexivity. Qed.

(** src/parsers.rs:654 [satisfy_with_test], without the call counts. *)
Example satisfy_with_test :
  Parsers.satisfy_with true (fun m => N.modulo (code m) 8) (fun n => N.eqb n 1) (new DEFAULT (bytes "abc")) = Data (new DEFAULT (bytes "bc")) 1%N /\
  Parsers.satisfy_with true (fun m => N.modulo (code m) 8) (fun n => N.eqb n 1) (new DEFAULT (bytes "")) = Incomplete 1.
Proof. split; reflexivity. Qed.

(** src/combinators/mod.rs:512 [many_till_test]; the last case has a parser with captured state. *)
Example many_till_test :
  combinators_api.many_till (new DEFAULT (bytes "abcd")) any (fun i => token i x63) = Data (new DEFAULT (bytes "d")) (bytes "ab") /\
  combinators_api.many_till (new DEFAULT (bytes "abd")) any (fun i => token i x63) = Incomplete 1 /\
  combinators_api.many_till (new DEFAULT (bytes "abcd")) (fun i => Base.err tt i : pres byte byte unit) (fun i => token i x63) = Error (bytes "abcd") tt /\
  Combinators.many_till 20 (vec_collector byte) 0 tt
    (fun n i => if n =? 0 then (Base.map_err (fun _ => "any err"%string) (any i), S n) else (Base.err "the error"%string i, n))
    (pure (fun i => token i x63)) (new DEFAULT (bytes "abcd")) = Error (bytes "bcd") "the error"%string.
Proof. repeat split; reflexivity. Qed.

(** src/input.rs:273-313. *)
Example input_make :
  (Base.ret 23 (new END_OF_INPUT (bytes "in1")) : pres byte nat unit) = Data (new END_OF_INPUT (bytes "in1")) 23 /\
  (Base.ret 23 (new DEFAULT (bytes "in2")) : pres byte nat unit) = Data (new DEFAULT (bytes "in2")) 23 /\
  (Base.err 23 (new END_OF_INPUT (bytes "in1")) : pres byte unit nat) = Error (bytes "in1") 23 /\
  (Base.err 23 (new DEFAULT (bytes "in2")) : pres byte unit nat) = Error (bytes "in2") 23 /\
  (Base.incomplete 23 (new END_OF_INPUT (bytes "in1")) : pres byte unit nat) = Incomplete 23 /\
  (Base.incomplete 23 (new DEFAULT (bytes "in2")) : pres byte unit nat) = Incomplete 23 /\
  last (new END_OF_INPUT (bytes "foo")) = true.
Proof. repeat split; reflexivity. Qed.

(** src/parse_result.rs:440-568. *)
Definition id_err (e : unit) : unit := e.
Example monad_left_identity :
  let f (i : input byte) (n : nat) : pres byte nat unit := Base.ret (n + 1) i in
  Base.bind id_err (Base.ret 23 (new END_OF_INPUT (bytes "test"))) f = Data (new END_OF_INPUT (bytes "test")) 24 /\
  f (new END_OF_INPUT (bytes "test")) 23 = Data (new END_OF_INPUT (bytes "test")) 24.
Proof. split; reflexivity. Qed.
Example monad_right_identity :
  Base.bind id_err (Base.ret 1 (new END_OF_INPUT (bytes "test"))) (fun i t => Base.ret t i) = Data (new END_OF_INPUT (bytes "test")) 1.
Proof. reflexivity. Qed.
Example monad_associativity :
  let f (i : input byte) (n : nat) : pres byte nat unit := Base.ret (n + 1) i in
  let g (i : input byte) (n : nat) : pres byte nat unit := Base.ret (n * 2) i in
  let m : pres byte nat unit := Base.ret 2 (new END_OF_INPUT (bytes "test")) in
  Base.bind id_err (Base.bind id_err m f) g = Data (new END_OF_INPUT (bytes "test")) 6 /\
  Base.bind id_err m (fun i x => Base.bind id_err (f i x) g) = Data (new END_OF_INPUT (bytes "test")) 6.
Proof. split; reflexivity. Qed.
Example parse_result_inspect :
  (inspect (fun _ n => n + 1) (Base.ret 23 (new DEFAULT (bytes "test ")) : pres byte nat unit) 0) = (Data (new DEFAULT (bytes "test ")) 23, 1) /\
  (inspect (fun _ n => n + 1) (Base.ret 23 (new END_OF_INPUT (bytes "test ")) : pres byte nat unit) 0) = (Data (new END_OF_INPUT (bytes "test ")) 23, 1).
Proof. split; reflexivity. Qed.
Example propagation :
  let r {T} (x : pres byte T nat) := Base.bind (fun e => e) x (fun i t => Base.ret t i) in
  r (Base.ret 23 (new DEFAULT (bytes "test1"))) = Data (new DEFAULT (bytes "test1")) 23 /\
  r (Base.ret 24 (new END_OF_INPUT (bytes "test2"))) = Data (new END_OF_INPUT (bytes "test2")) 24 /\
  r (Base.err 23 (new DEFAULT (bytes "test1")) : pres byte unit nat) = Error (bytes "test1") 23 /\
  r (Base.err 24 (new END_OF_INPUT (bytes "test2")) : pres byte unit nat) = Error (bytes "test2") 24 /\
  r (Base.incomplete 23 (new DEFAULT (bytes "test1")) : pres byte unit nat) = Incomplete 23 /\
  r (Base.incomplete 24 (new END_OF_INPUT (bytes "test2")) : pres byte unit nat) = Incomplete 24.
Proof. repeat split; reflexivity. Qed.

(** src/parse.rs:69-100; the first parser returns what it observes. *)
Example parse_only_tests :
  parse_only (fun i : input byte => Base.ret (last i, buf i) i : pres byte _ unit) (bytes "the input") = OOk (true, bytes "the input") /\
  parse_only (fun i : input byte => Base.err "my error"%string (replace i (skipn 4 (buf i))) : pres byte unit _) (bytes "the input") =
    OErr (PErr (bytes "input") "my error"%string) /\
  parse_only (fun i : input byte => Base.incomplete 23 i : pres byte unit unit) (bytes "the input") = OErr (PIncomplete 23).
Proof. repeat split; reflexivity. Qed.

(** src/ascii.rs:166-185: every type of the list, in both build modes. *)
Example test_to_decimal :
  Forall (fun t => Forall (fun checked : bool => Forall (fun c => to_decimal checked t (bytes (fst c)) = Some (snd c))
    [(""%string, 0); ("0"%string, 0); ("1"%string, 1); ("2"%string, 2); ("10"%string, 10); ("20"%string, 20); ("25"%string, 25)]%Z) [true; false])
    [mkInt 8 false; mkInt 16 false; mkInt 32 false; mkInt 64 false; mkInt 16 true; mkInt 32 true; mkInt 64 true].
Proof. repeat constructor. Qed.

(** ** src/buffer/stateful.rs:250-479 *)

(** [io::Cursor] as the reader. *)
Definition cursor : data_source (list byte) byte :=
  mkDataSource (fun s n => (skipn n s, List.map Some (firstn n s), IoOk (Nat.min n (List.length s)))).
(** What the tests do with a [Source]: [parse] with [any] or [take], [fill], [set_autofill]. *)
Inductive act := Any | Take (n : nat) | Fill | Auto (v : bool).
(** What they see: the counters [n] and [m] (number of times the parser was entered, and succeeded) are left out. *)
Inductive seen := Item (r : sres byte byte (error byte)) | Items (r : sres byte (list byte) (error byte)) | Filled (r : io nat) | Silent.
Definition step_act (a : act) (st : src (list byte) (fixed byte)) : run (src (list byte) (fixed byte) * seen) :=
  match a with
  | Any => run_bind (src_parse cursor (fixed_ops byte) Parsers.any st) (fun x => Done (fst x, Item (snd x)))
  | Take n => run_bind (src_parse cursor (fixed_ops byte) (Parsers.take n) st) (fun x => Done (fst x, Items (snd x)))
  | Fill => run_bind (src_fill cursor (fixed_ops byte) st) (fun x => Done (fst x, Filled (snd x)))
  | Auto v => Done (src_set_autofill v st, Silent)
  end.
Fixpoint steps (l : list act) (st : src (list byte) (fixed byte)) : run (list seen) :=
  match l with
  | [] => Done []
  | a :: l => run_bind (step_act a st) (fun x => run_bind (steps l (fst x)) (fun r => Done (snd x :: r)))
  end.
Definition session (source : list byte) (buffer_length : nat) (l : list act) : run (list seen) :=
  run_bind (fixed_with_size buffer_length) (fun b => steps l (src_with_buffer source b)).
Definition ok (b : byte) : seen := Item (inl b).
Definition oks (b : String.string) : seen := Items (inl (bytes b)).
Definition fail (e : stream_error byte (error byte)) : seen := Item (inr e).
Definition fails (e : stream_error byte (error byte)) : seen := Items (inr e).

Example bufsize_zero : session (bytes "this is a test") 0 [] = Panicked.
Proof. reflexivity. Qed.
Example empty_buf : session (bytes "") 5 [Take 1] = Done [fails SEndOfInput].
Proof. reflexivity. Qed.
Example fill : session (bytes "test") 1 [Any; Any; Any; Any; Any; Any; Any; Any; Any; Any] =
  Done [ok x74; fail SRetry; ok x65; fail SRetry; ok x73; fail SRetry; ok x74; fail SRetry; fail SEndOfInput; fail SEndOfInput].
Proof. reflexivity. Qed.
Example fill2 : session (bytes "test") 2 [Any; Any; Any; Any; Any; Any; Any; Any] =
  Done [ok x74; ok x65; fail SRetry; ok x73; ok x74; fail SRetry; fail SEndOfInput; fail SEndOfInput].
Proof. reflexivity. Qed.
Example fill3 : session (bytes "test") 3 [Take 2; Take 2; Take 2; Take 2; Take 2; Take 2] =
  Done [oks "te"; fails SRetry; oks "st"; fails SRetry; fails SEndOfInput; fails SEndOfInput].
Proof. reflexivity. Qed.
Example incomplete : session (bytes "tes") 2 [Take 2; Take 2; Take 2; Take 2] =
  Done [oks "te"; fails SRetry; fails (SIncomplete 2); fails (SIncomplete 2)].
Proof. reflexivity. Qed.
Example no_autofill : session (bytes "test") 2 [Auto false; Take 2; Fill; Take 2; Take 2; Fill; Take 2; Take 2; Fill; Take 2] =
  Done [Silent; fails SRetry; Filled (IoOk 2); oks "te"; fails SRetry; Filled (IoOk 2); oks "st"; fails SRetry; Filled (IoOk 0); fails SEndOfInput].
Proof. reflexivity. Qed.
Example no_autofill_first : session (bytes "ab") 1 [Auto false; Fill; Any; Any; Fill; Any; Any; Fill; Any] =
  Done [Silent; Filled (IoOk 1); ok x61; fail SRetry; Filled (IoOk 1); ok x62; fail SRetry; Filled (IoOk 0); fail SEndOfInput].
Proof. reflexivity. Qed.
