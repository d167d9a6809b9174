(** The examples in the documentation of /repo (doc tests), stated about the model and checked by computation.  Transcribed by hand; [parse!] and
    [parser!] written out (see C40 and ConformanceMacro.v).  They are evidence that the model is the code, not proofs of properties. *)
From Coq Require Import List Bool Arith ZArith String.
From Coq Require Import Init.Byte.
From Verif Require Import Base Parsers Combinators Ascii Buffer Stream.
Import ListNotations.

Definition bytes (s : String.string) : list byte := list_byte_of_string s.
(** The parsers at [u8] with the default feature verbose_error. *)
Definition p_any : parser byte byte (error byte) := any.
Definition p_token (t : byte) : parser byte byte (error byte) := token true byte_eqb t.
Definition p_string (s : String.string) : parser byte (list byte) (error byte) := string true byte_eqb (bytes s).
Definition p_satisfy (f : byte -> bool) : parser byte byte (error byte) := satisfy true f.
Definition p_take_while1 (f : byte -> bool) : parser byte (list byte) (error byte) := take_while1 true f.
Definition i16 : int_ty := mkInt 16 true.
Definition u32 : int_ty := mkInt 32 false.
Definition p_decimal (t : int_ty) : parser byte Z (error byte) := decimal true true t.
(** [p.bind(|i, x| k)] and [p.then(|i| k)] with the same error type. *)
Definition andthen {T U E} (p : parser byte T E) (k : T -> parser byte U E) : parser byte U E := fun i => bind (fun e => e) (p i) (fun i t => k t i).
Definition then' {T U E} (p : parser byte T E) (q : parser byte U E) : parser byte U E := fun i => then_ (fun e => e) (p i) q.
Definition skip {T U E} (p : parser byte T E) (q : parser byte U E) : parser byte T E := andthen p (fun l i => map (fun _ => l) (q i)).
Definition is (c d : byte) : bool := byte_eqb d c.
Definition isnt (c d : byte) : bool := negb (byte_eqb d c).

(** src/ascii.rs:75, 94, 114, 141. *)
Example doc_skip_whitespace : parse_only skip_whitespace (x20 :: x09 :: x20 :: []) = OOk tt. Proof. reflexivity. Qed.
Example doc_digit : parse_only (digit true) (bytes "1") = OOk "1"%byte. Proof. reflexivity. Qed.
Example doc_signed : parse_only (signed true true i16 (p_decimal i16)) (bytes "-123") = OOk (-123)%Z. Proof. vm_compute. reflexivity. Qed.
Example doc_decimal : parse_only (p_decimal u8) (bytes "123") = OOk 123%Z. Proof. vm_compute. reflexivity. Qed.

(** src/buffer/mod.rs:5: the start of README.md. *)
Definition readme : data_source (list byte) byte := mkDataSource (fun s n => (skipn n s, List.map Some (firstn n s), IoOk (Nat.min n (List.length s)))).
Example doc_source :
  let p := then' (take_while (isnt "#")) (then' (p_token "#") (then' (p_take_while1 is_whitespace) (p_take_while1 (fun c => isnt x0d c && isnt x0a c)))) in
  exists st, src_parse readme (fixed_ops byte) p (src_with_buffer (bytes "# Chomp" ++ x0a :: x0a :: bytes "text") (mkFixed (repeat None 100) 0 0)) = Done (st, inl (bytes "Chomp")).
Proof. eexists. vm_compute. reflexivity. Qed.
(** src/buffer/slice.rs:9, 26. *)
Example doc_slice : exists st, slice_parse (then' (p_token "f") (take 2)) (slice_new (bytes "foo")) = Done (st, inl (bytes "oo")).
Proof. eexists. vm_compute. reflexivity. Qed.
Example doc_slice2 : exists st,
  slice_parse (many 20 (vec_collector (list byte)) tt (pure (then' (p_token "f") (take 2)))) (slice_new (bytes "foofoo")) = Done (st, inl [bytes "oo"; bytes "oo"]).
Proof. eexists. vm_compute. reflexivity. Qed.

(** src/combinators/bounded.rs:8. *)
Example doc_bounded_many : parse_only (bmany 20 (vec_collector byte) (RRange 2 4) tt (pure p_any)) (bytes "abcd") = OOk (bytes "abc"). Proof. reflexivity. Qed.
(** src/combinators/mod.rs:47, 116, 173, 214, 253, 279, 321, 348. *)
Example doc_option : parse_only (option_ (p_token "a") "d"%byte) (bytes "abc") = OOk "a"%byte /\ parse_only (option_ (p_token "a") "d"%byte) (bytes "bbc") = OOk "d"%byte.
Proof. split; reflexivity. Qed.
Example doc_many : parse_only (many 20 (vec_collector (list byte)) tt (pure (skip (p_take_while1 (fun c => isnt "," c && isnt " " c)) (p_token ",")))) (bytes "a,bc,cd ") =
  OOk [bytes "a"; bytes "bc"].
Proof. vm_compute. reflexivity. Qed.
Example doc_sep_by : parse_only (sep_by 20 (vec_collector Z) (fun e => e) tt tt (pure (p_decimal u8)) (pure (p_token ";"))) (bytes "91;03;20") = OOk [91; 3; 20]%Z.
Proof. vm_compute. reflexivity. Qed.
Example doc_sep_by1 : parse_only (sep_by1 20 (vec_collector Z) (fun e => e) tt tt (pure (p_decimal u8)) (pure (p_token ";"))) (bytes "91;03;20") = OOk [91; 3; 20]%Z.
Proof. vm_compute. reflexivity. Qed.
Example doc_many_till : parse_only (many_till 20 (vec_collector byte) tt tt (pure p_any) (pure (p_token ";"))) (bytes "abc;def") = OOk (bytes "abc").
Proof. reflexivity. Qed.
Example doc_skip_many : parse_only (then' (skip_many 20 tt (pure (p_token "a"))) (p_token "b")) (bytes "aaaabc") = OOk "b"%byte. Proof. reflexivity. Qed.
Example doc_matched_by : parse_only (matched_by (p_decimal u32)) (bytes "123") = OOk (bytes "123", 123%Z). Proof. vm_compute. reflexivity. Qed.
Example doc_look_ahead : parse_only (andthen (look_ahead (take 4)) (fun t i => map (fun u => (t, u)) (take 7 i))) (bytes "testing") = OOk (bytes "test", bytes "testing").
Proof. reflexivity. Qed.

(** src/input.rs:113, 134, 169, 230. *)
Example doc_ret : parse_only (ret "Wohoo, success!"%string : parser byte String.string unit) (bytes "some input") = OOk "Wohoo, success!"%string. Proof. reflexivity. Qed.
Example doc_err : parse_only (err "Something went wrong"%string : parser byte unit String.string) (bytes "some input") = OErr (PErr (bytes "some input") "Something went wrong"%string).
Proof. reflexivity. Qed.
Example doc_from_result : parse_only (from_result (inl "foo"%string) : parser byte String.string unit) (bytes "test") = OOk "foo"%string /\
  parse_only (from_result (inr "error message"%string) : parser byte unit String.string) (bytes "test") = OErr (PErr (bytes "test") "error message"%string).
Proof. split; reflexivity. Qed.
Example doc_replace : let i := input_new (bytes "Testing") in buf i = bytes "Testing" /\ last i = true /\
  take 4 (replace i (firstn 4 (buf i))) = Data (mkInput true []) (bytes "Test").
Proof. repeat split; reflexivity. Qed.

(** src/lib.rs:15 and src/macros.rs:20; the a with a ring is two bytes. *)
Example doc_name :
  let name := andthen (p_take_while1 (isnt " ")) (fun first => andthen (p_token " ") (fun _ => andthen (p_take_while1 (isnt x0a)) (fun last => ret (first, last)))) in
  let last := bytes "Wernst" ++ xc3 :: xa5 :: bytes "l" in
  parse_only name (bytes "Martin " ++ last ++ [x0a]) = OOk (bytes "Martin", last).
Proof. reflexivity. Qed.
(** src/macros.rs:53. *)
Example doc_ip :
  let octet := skip (p_decimal u8) (p_token ".") in
  let ip := andthen (p_string "ip:") (fun _ => andthen octet (fun a => andthen octet (fun b => andthen octet (fun c =>
              andthen (p_decimal u8) (fun d => andthen (p_token ";") (fun _ => ret (a, b, c, d))))))) in
  parse_only ip (bytes "ip:192.168.0.1;") = OOk (192, 168, 0, 1)%Z.
Proof. vm_compute. reflexivity. Qed.
(** src/macros.rs:77. *)
Example doc_log :
  let level (s : String.string) (n : nat) i := map (fun _ => n) (p_string s i) in
  parse_only (or_ (level "ERROR"%string 0) (or_ (level "WARN"%string 1) (or_ (level "INFO"%string 2) (level "DEBUG"%string 3)))) (bytes "INFO") = OOk 2.
Proof. reflexivity. Qed.
(** src/macros.rs:279, 294, 309, 326, 590. *)
Example doc_operators :
  parse_only (skip (p_decimal u32) (p_token ";")) (bytes "123;") = OOk 123%Z /\
  parse_only (or_ (p_token "a") (p_token "b")) (bytes "b") = OOk "b"%byte /\
  parse_only (then' (p_token "a") (p_token ";")) (bytes "a;") = OOk ";"%byte /\
  parse_only (or_ (err "foo"%string) (ret "bar"%string)) (bytes "a;") = OOk "bar"%string /\
  parse_only (or_ (p_string "ab") (p_string "ac")) (bytes "ac") = OOk (bytes "ac").
Proof. repeat split; vm_compute; reflexivity. Qed.

(** src/parse.rs:17, 32; [Error::new()] is [Unexpected]. *)
Example doc_parse_only : parse_only (p_decimal u32) (bytes "123foobar") = OOk 123%Z /\ parse_only (p_decimal u32) (bytes "foobar") = OErr (PErr (bytes "foobar") Unexpected).
Proof. split; vm_compute; reflexivity. Qed.
Example doc_parse_only_eof : let p := andthen (p_string "pattern") (fun r => andthen (eof true) (fun _ => ret r)) in
  parse_only p (bytes "pattern") = OOk (bytes "pattern") /\ parse_only p (bytes "pattern and more") = OErr (PErr (bytes " and more") Unexpected).
Proof. split; reflexivity. Qed.

(** src/parse_result.rs:114, 130, 165, 189, 210, 234, 269, 277, 286, 404. *)
Example doc_bind : parse_only (andthen (ret "data"%string) (fun x => ret (x ++ " here!")%string) : parser byte String.string unit) (bytes "test") = OOk "data here!"%string /\
  parse_only (andthen (ret 23) (fun n => ret (n + 10)) : parser byte nat unit) (bytes "test") = OOk 33.
Proof. split; reflexivity. Qed.
Example doc_then : let g := ret "testing!"%string : parser byte String.string (error byte) in
  parse_only (andthen (ret "initial state"%string) (fun _ => g)) (bytes "data") = OOk "testing!"%string /\ parse_only (then' (ret "initial state"%string) g) (bytes "data") = OOk "testing!"%string.
Proof. split; reflexivity. Qed.
Example doc_map : parse_only (fun i => map (fun c => (code c + 12)%N) (p_any i)) (bytes "abc") = OOk (code "m"). Proof. reflexivity. Qed.
Example doc_map_err : parse_only (fun i => map_err (fun e => (e ++ " an error")%string) (err "this is"%string i : pres byte unit String.string)) (bytes "foo") =
  OErr (PErr (bytes "foo") "this is an error"%string).
Proof. reflexivity. Qed.
Example doc_inspect : parse_only (fun i => fst (inspect (fun b w => b :: w) (take_while (isnt " ") i) [])) (bytes "test and more") = OOk (bytes "test") /\
  snd (inspect (fun b w => b :: w) (take_while (isnt " ") (input_new (bytes "test and more"))) []) = [bytes "test"].
Proof. split; reflexivity. Qed.
Example doc_unwrap : unwrap (p_token "a" (input_new (bytes "a"))) = Some "a"%byte /\ unwrap (p_token "b" (input_new (bytes "a"))) = None /\
  p_token "b" (input_new (bytes "a")) = Error (bytes "a") (Expected "b"%byte) /\ unwrap (take 2 (input_new (bytes "a"))) = None /\ take 2 (input_new (bytes "a")) = Incomplete 1.
Proof. repeat split; reflexivity. Qed.
Example doc_my_combinator :
  let my {T E} (f : parser byte T E) (default : T) i : pres byte T E := match f i with Data b d => ret d b | _ => ret default i end in
  parse_only (my (take 10) (bytes "test")) (bytes "foo") = OOk (bytes "test").
Proof. reflexivity. Qed.

(** src/parsers.rs:19, 39, 59, 94, 114, 135, 153, 170, 191, 201, 234, 268. *)
Definition to_ascii_uppercase (c : byte) : byte := if is_lowercase c then match Byte.of_N (code c - 32) with Some d => d | None => c end else c.
Example doc_parsers :
  parse_only p_any (bytes "abc") = OOk "a"%byte /\
  parse_only (p_satisfy (is "a")) (bytes "abc") = OOk "a"%byte /\
  parse_only (satisfy_with true to_ascii_uppercase (is "T")) (bytes "testing") = OOk "T"%byte /\
  parse_only (p_token "a") (bytes "abc") = OOk "a"%byte /\
  parse_only (not_token true byte_eqb "b"%byte) (bytes "abc") = OOk "a"%byte /\
  parse_only peek (bytes "abc") = OOk (Some "a"%byte) /\ parse_only peek (bytes "") = OOk None /\
  parse_only peek_next (bytes "abc") = OOk "a"%byte /\
  parse_only (take 3) (bytes "abcd") = OOk (bytes "abc") /\
  parse_only (take_while (fun c => is "a" c || is "b" c)) (bytes "abcdcba") = OOk (bytes "ab") /\
  parse_only (take_while (is "z")) (bytes "abcdcba") = OOk (bytes "") /\
  parse_only (p_take_while1 (fun c => is "a" c || is "b" c)) (bytes "abcdcba") = OOk (bytes "ab") /\
  parse_only (take_till (is "d")) (bytes "abcdef") = OOk (bytes "abc").
Proof. repeat split; reflexivity. Qed.
(** src/parsers.rs:291, 318, 345, 365, 392. *)
Example doc_scan : parse_only (scan false (fun (s : bool) c => if s && is "/" c then None else if is "*" c then Some true else Some false)) (bytes "/*test*of*scan*/ foo") =
  OOk (bytes "/*test*of*scan*").
Proof. reflexivity. Qed.
Example doc_run_scanner : parse_only (run_scanner x00 (fun s c => if is "*" s && is "/" c then None else Some c)) (bytes "/*test*of*scan*/ foo") =
  OOk (bytes "/*test*of*scan*", "*"%byte).
Proof. reflexivity. Qed.
Example doc_take_remainder : parse_only take_remainder (bytes "abcd") = OOk (bytes "abcd"). Proof. reflexivity. Qed.
Example doc_string : parse_only (p_string "abc") (bytes "abcdef") = OOk (bytes "abc"). Proof. reflexivity. Qed.
Example doc_eof : parse_only (then' (p_token "a") (eof true)) (bytes "a") = OOk tt. Proof. reflexivity. Qed.
