(** The unit tests of /repo, stated about the model and checked by computation.  They are evidence that the model is the code
    (the expected values are those the authors assert), not proofs of properties.  Sections marked with a file name and line are
    translated mechanically by tools/conformance.py, the rest is transcribed by hand. *)
From Coq Require Import List Bool Arith ZArith String.
From Coq Require Import Init.Byte.
From Verif Require Import Base Parsers Combinators Ascii Buffer Stream.
Import ListNotations.

(** Rust's byte string literals. *)
Definition bytes (s : String.string) : list byte := list_byte_of_string s.
Definition new (last : bool) (b : list byte) : input byte := mkInput last b.
Definition DEFAULT := false.
Definition END_OF_INPUT := true.

(** The parsers of src/parsers.rs at [u8], built with the feature verbose_error (the default), arguments in Rust's order. *)
Definition any (i : input byte) := Parsers.any i.
Definition token (i : input byte) (t : byte) := Parsers.token true byte_eqb t i.
Definition take (i : input byte) (n : nat) := Parsers.take n i.
Definition take_while (i : input byte) (f : byte -> bool) := Parsers.take_while f i.
Definition take_while1 (i : input byte) (f : byte -> bool) := Parsers.take_while1 true f i.
Definition take_remainder (i : input byte) := Parsers.take_remainder i.
Definition peek_next (i : input byte) := Parsers.peek_next i.
Definition string (i : input byte) (s : list byte) := Parsers.string true byte_eqb s i.

Module bounded_api.
  Coercion RExact : nat >-> range.
  Definition many {U E} (i : input byte) (r : range) (p : parser byte U E) : pres byte (list U) E := bmany 20 (vec_collector U) r tt (pure p) i.
  Definition skip_many {U E} (i : input byte) (r : range) (p : parser byte U E) : pres byte unit E := bskip_many 20 r tt (pure p) i.
  Definition many_till {U V E N} (i : input byte) (r : range) (p : parser byte U E) (e : parser byte V N) : pres byte (list U) E :=
    bmany_till 20 (vec_collector U) r tt tt (pure p) (pure e) i.
End bounded_api.
Module combinators_api.
  Definition many {U E} (i : input byte) (p : parser byte U E) : pres byte (list U) E := Combinators.many 20 (vec_collector U) tt (pure p) i.
  Definition many1 {U E} (i : input byte) (p : parser byte U E) : pres byte (list U) E := Combinators.many1 20 (vec_collector U) tt (pure p) i.
  Definition count {U E} (i : input byte) (n : nat) (p : parser byte U E) : pres byte (list U) E := Combinators.count 20 (vec_collector U) n tt (pure p) i.
  Definition skip_many1 {U E} (i : input byte) (p : parser byte U E) : pres byte unit E := Combinators.skip_many1 20 tt (pure p) i.
  Definition sep_by {U V E} (i : input byte) (p : parser byte U E) (s : parser byte V E) : pres byte (list U) E :=
    Combinators.sep_by 20 (vec_collector U) (fun e => e) tt tt (pure p) (pure s) i.
  Definition sep_by1 {U V E} (i : input byte) (p : parser byte U E) (s : parser byte V E) : pres byte (list U) E :=
    Combinators.sep_by1 20 (vec_collector U) (fun e => e) tt tt (pure p) (pure s) i.
  Definition many_till {U V E N} (i : input byte) (p : parser byte U E) (e : parser byte V N) : pres byte (list U) E :=
    Combinators.many_till 20 (vec_collector U) tt tt (pure p) (pure e) i.
  Definition option_ {U E} (i : input byte) (p : parser byte U E) (d : U) : pres byte U E := Combinators.option_ p d i.
  Definition or_ {U E} (i : input byte) (p q : parser byte U E) : pres byte U E := Combinators.or_ p q i.
  Definition matched_by {U E} (i : input byte) (p : parser byte U E) := Combinators.matched_by p i.
  Definition look_ahead {U E} (i : input byte) (p : parser byte U E) := Combinators.look_ahead p i.
End combinators_api.

(* GENERATED *)
(** * Tests transcribed by hand *)

(** src/parsers.rs:577 [parse_decimal]; the integers are unbounded here. *)
Example parse_decimal :
  let decimal i := Base.bind (fun e => e) (take_while1 i is_digit)
    (fun i bs => Base.ret (fold_left (fun a b => a * 10 + (N.to_nat (code b) - N.to_nat (code x30))) bs 0) i) in
  let p := Base.bind (fun e => e) (decimal (new END_OF_INPUT (bytes "12.45 "))) (fun i real =>
    Base.bind (fun e => e) (token i x2e) (fun i _ => Base.bind (fun e => e) (decimal i) (fun i frac => Base.ret (real, frac) i))) in
  Base.bind (fun e => e) p (fun i num => Base.bind (fun e => e) (take_remainder i) (fun i r => Base.ret (r, num) i)) =
  Data (new END_OF_INPUT (bytes "")) (bytes " ", (12, 45)).
Proof. reflexivity. Qed.

(** src/parsers.rs:654 [satisfy_with_test], without the call counts. *)
Example satisfy_with_test :
  Parsers.satisfy_with true (fun m => N.modulo (code m) 8) (fun n => N.eqb n 1) (new DEFAULT (bytes "abc")) = Data (new DEFAULT (bytes "bc")) 1%N /\
  Parsers.satisfy_with true (fun m => N.modulo (code m) 8) (fun n => N.eqb n 1) (new DEFAULT (bytes "")) = Incomplete 1.
Proof. split; reflexivity. Qed.

(** src/combinators/mod.rs:512 [many_till_test]; the last case has a parser with captured state. *)
Example many_till_test :
  combinators_api.many_till (new DEFAULT (bytes "abcd")) any (fun i => token i x63) = Data (new DEFAULT (bytes "d")) (bytes "ab") /\
  combinators_api.many_till (new DEFAULT (bytes "abd")) any (fun i => token i x63) = Incomplete 1 /\
  combinators_api.many_till (new DEFAULT (bytes "abcd")) (fun i => Base.err tt i : pres byte byte unit) (fun i => token i x63) = Error (bytes "abcd") tt /\
  Combinators.many_till 20 (vec_collector byte) 0 tt
    (fun n i => if n =? 0 then (Base.map_err (fun _ => "any err"%string) (any i), S n) else (Base.err "the error"%string i, n))
    (pure (fun i => token i x63)) (new DEFAULT (bytes "abcd")) = Error (bytes "bcd") "the error"%string.
Proof. repeat split; reflexivity. Qed.

(** src/input.rs:273-313. *)
Example input_make :
  (Base.ret 23 (new END_OF_INPUT (bytes "in1")) : pres byte nat unit) = Data (new END_OF_INPUT (bytes "in1")) 23 /\
  (Base.ret 23 (new DEFAULT (bytes "in2")) : pres byte nat unit) = Data (new DEFAULT (bytes "in2")) 23 /\
  (Base.err 23 (new END_OF_INPUT (bytes "in1")) : pres byte unit nat) = Error (bytes "in1") 23 /\
  (Base.err 23 (new DEFAULT (bytes "in2")) : pres byte unit nat) = Error (bytes "in2") 23 /\
  (Base.incomplete 23 (new END_OF_INPUT (bytes "in1")) : pres byte unit nat) = Incomplete 23 /\
  (Base.incomplete 23 (new DEFAULT (bytes "in2")) : pres byte unit nat) = Incomplete 23 /\
  last (new END_OF_INPUT (bytes "foo")) = true.
Proof. repeat split; reflexivity. Qed.

(** src/parse_result.rs:440-568. *)
Definition id_err (e : unit) : unit := e.
Example monad_left_identity :
  let f (i : input byte) (n : nat) : pres byte nat unit := Base.ret (n + 1) i in
  Base.bind id_err (Base.ret 23 (new END_OF_INPUT (bytes "test"))) f = Data (new END_OF_INPUT (bytes "test")) 24 /\
  f (new END_OF_INPUT (bytes "test")) 23 = Data (new END_OF_INPUT (bytes "test")) 24.
Proof. split; reflexivity. Qed.
Example monad_right_identity :
  Base.bind id_err (Base.ret 1 (new END_OF_INPUT (bytes "test"))) (fun i t => Base.ret t i) = Data (new END_OF_INPUT (bytes "test")) 1.
Proof. reflexivity. Qed.
Example monad_associativity :
  let f (i : input byte) (n : nat) : pres byte nat unit := Base.ret (n + 1) i in
  let g (i : input byte) (n : nat) : pres byte nat unit := Base.ret (n * 2) i in
  let m : pres byte nat unit := Base.ret 2 (new END_OF_INPUT (bytes "test")) in
  Base.bind id_err (Base.bind id_err m f) g = Data (new END_OF_INPUT (bytes "test")) 6 /\
  Base.bind id_err m (fun i x => Base.bind id_err (f i x) g) = Data (new END_OF_INPUT (bytes "test")) 6.
Proof. split; reflexivity. Qed.
Example parse_result_inspect :
  (inspect (fun _ n => n + 1) (Base.ret 23 (new DEFAULT (bytes "test ")) : pres byte nat unit) 0) = (Data (new DEFAULT (bytes "test ")) 23, 1) /\
  (inspect (fun _ n => n + 1) (Base.ret 23 (new END_OF_INPUT (bytes "test ")) : pres byte nat unit) 0) = (Data (new END_OF_INPUT (bytes "test ")) 23, 1).
Proof. split; reflexivity. Qed.
Example propagation :
  let r {T} (x : pres byte T nat) := Base.bind (fun e => e) x (fun i t => Base.ret t i) in
  r (Base.ret 23 (new DEFAULT (bytes "test1"))) = Data (new DEFAULT (bytes "test1")) 23 /\
  r (Base.ret 24 (new END_OF_INPUT (bytes "test2"))) = Data (new END_OF_INPUT (bytes "test2")) 24 /\
  r (Base.err 23 (new DEFAULT (bytes "test1")) : pres byte unit nat) = Error (bytes "test1") 23 /\
  r (Base.err 24 (new END_OF_INPUT (bytes "test2")) : pres byte unit nat) = Error (bytes "test2") 24 /\
  r (Base.incomplete 23 (new DEFAULT (bytes "test1")) : pres byte unit nat) = Incomplete 23 /\
  r (Base.incomplete 24 (new END_OF_INPUT (bytes "test2")) : pres byte unit nat) = Incomplete 24.
Proof. repeat split; reflexivity. Qed.

(** src/parse.rs:69-100; the first parser returns what it observes. *)
Example parse_only_tests :
  parse_only (fun i : input byte => Base.ret (last i, buf i) i : pres byte _ unit) (bytes "the input") = OOk (true, bytes "the input") /\
  parse_only (fun i : input byte => Base.err "my error"%string (replace i (skipn 4 (buf i))) : pres byte unit _) (bytes "the input") =
    OErr (PErr (bytes "input") "my error"%string) /\
  parse_only (fun i : input byte => Base.incomplete 23 i : pres byte unit unit) (bytes "the input") = OErr (PIncomplete 23).
Proof. repeat split; reflexivity. Qed.

(** src/ascii.rs:166-185: every type of the list, in both build modes. *)
Example test_to_decimal :
  Forall (fun t => Forall (fun checked : bool => Forall (fun c => to_decimal checked t (bytes (fst c)) = Some (snd c))
    [(""%string, 0); ("0"%string, 0); ("1"%string, 1); ("2"%string, 2); ("10"%string, 10); ("20"%string, 20); ("25"%string, 25)]%Z) [true; false])
    [mkInt 8 false; mkInt 16 false; mkInt 32 false; mkInt 64 false; mkInt 16 true; mkInt 32 true; mkInt 64 true].
Proof. repeat constructor. Qed.

(** ** src/buffer/stateful.rs:250-479 *)

(** [io::Cursor] as the reader. *)
Definition cursor : data_source (list byte) byte :=
  mkDataSource (fun s n => (skipn n s, List.map Some (firstn n s), IoOk (Nat.min n (List.length s)))).
(** What the tests do with a [Source]: [parse] with [any] or [take], [fill], [set_autofill]. *)
Inductive act := Any | Take (n : nat) | Fill | Auto (v : bool).
(** What they see: the counters [n] and [m] (number of times the parser was entered, and succeeded) are left out. *)
Inductive seen := Item (r : sres byte byte (error byte)) | Items (r : sres byte (list byte) (error byte)) | Filled (r : io nat) | Silent.
Definition step_act (a : act) (st : src (list byte) (fixed byte)) : run (src (list byte) (fixed byte) * seen) :=
  match a with
  | Any => run_bind (src_parse cursor (fixed_ops byte) Parsers.any st) (fun x => Done (fst x, Item (snd x)))
  | Take n => run_bind (src_parse cursor (fixed_ops byte) (Parsers.take n) st) (fun x => Done (fst x, Items (snd x)))
  | Fill => run_bind (src_fill cursor (fixed_ops byte) st) (fun x => Done (fst x, Filled (snd x)))
  | Auto v => Done (src_set_autofill v st, Silent)
  end.
Fixpoint steps (l : list act) (st : src (list byte) (fixed byte)) : run (list seen) :=
  match l with
  | [] => Done []
  | a :: l => run_bind (step_act a st) (fun x => run_bind (steps l (fst x)) (fun r => Done (snd x :: r)))
  end.
Definition session (source : list byte) (buffer_length : nat) (l : list act) : run (list seen) :=
  run_bind (fixed_with_size buffer_length) (fun b => steps l (src_with_buffer source b)).
Definition ok (b : byte) : seen := Item (inl b).
Definition oks (b : String.string) : seen := Items (inl (bytes b)).
Definition fail (e : stream_error byte (error byte)) : seen := Item (inr e).
Definition fails (e : stream_error byte (error byte)) : seen := Items (inr e).

Example bufsize_zero : session (bytes "this is a test") 0 [] = Panicked.
Proof. reflexivity. Qed.
Example empty_buf : session (bytes "") 5 [Take 1] = Done [fails SEndOfInput].
Proof. reflexivity. Qed.
Example fill : session (bytes "test") 1 [Any; Any; Any; Any; Any; Any; Any; Any; Any; Any] =
  Done [ok x74; fail SRetry; ok x65; fail SRetry; ok x73; fail SRetry; ok x74; fail SRetry; fail SEndOfInput; fail SEndOfInput].
Proof. reflexivity. Qed.
Example fill2 : session (bytes "test") 2 [Any; Any; Any; Any; Any; Any; Any; Any] =
  Done [ok x74; ok x65; fail SRetry; ok x73; ok x74; fail SRetry; fail SEndOfInput; fail SEndOfInput].
Proof. reflexivity. Qed.
Example fill3 : session (bytes "test") 3 [Take 2; Take 2; Take 2; Take 2; Take 2; Take 2] =
  Done [oks "te"; fails SRetry; oks "st"; fails SRetry; fails SEndOfInput; fails SEndOfInput].
Proof. reflexivity. Qed.
Example incomplete : session (bytes "tes") 2 [Take 2; Take 2; Take 2; Take 2] =
  Done [oks "te"; fails SRetry; fails (SIncomplete 2); fails (SIncomplete 2)].
Proof. reflexivity. Qed.
Example no_autofill : session (bytes "test") 2 [Auto false; Take 2; Fill; Take 2; Take 2; Fill; Take 2; Take 2; Fill; Take 2] =
  Done [Silent; fails SRetry; Filled (IoOk 2); oks "te"; fails SRetry; Filled (IoOk 2); oks "st"; fails SRetry; Filled (IoOk 0); fails SEndOfInput].
Proof. reflexivity. Qed.
Example no_autofill_first : session (bytes "ab") 1 [Auto false; Fill; Any; Any; Fill; Any; Any; Fill; Any] =
  Done [Silent; Filled (IoOk 1); ok x61; fail SRetry; Filled (IoOk 1); ok x62; fail SRetry; Filled (IoOk 0); fail SEndOfInput].
Proof. reflexivity. Qed.
