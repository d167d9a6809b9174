(** The text of functions of src/*.rs as terms of Rust.v.  Written by tools/rust_text.py from /repo: do not edit. *)
From Coq Require Import List Bool Arith String.
From Verif Require Import Rust.
Import ListNotations.
Local Open Scope string_scope.

(** src/input.rs:7 [DEFAULT]. *)
Definition flag_input_DEFAULT : fndef := mkFn false [] (EFlags 0).

(** src/input.rs:9 [END_OF_INPUT]. *)
Definition flag_input_END_OF_INPUT : fndef := mkFn false [] (EFlags 1).

(** src/input.rs:85-87 [new]. *)
Definition text_input_new : fndef := mkFn false [PVar false "state"; PVar false "buffer"]
  (ECon "Input" "" [EVar "state"; EVar "buffer"]).

(** src/input.rs:103-105 [new]. *)
Definition text_Input_new : fndef := mkFn false [PVar false "b"]
  (ECon "Input" "" [EFn "const" "input::END_OF_INPUT"; EVar "b"]).

(** src/input.rs:124-126 [ret]. *)
Definition text_Input_ret : fndef := mkFn false [PVar false "self"; PVar false "t"]
  (ECall (EFn "parse_result" "new") [ECon "State" "Data" [EVar "self"; EVar "t"]]).

(** src/input.rs:145-147 [err]. *)
Definition text_Input_err : fndef := mkFn false [PVar false "self"; PVar false "e"]
  (ECall (EFn "parse_result" "new") [ECon "State" "Error" [EField (EVar "self") (Fpos 1); EVar "e"]]).

(** src/input.rs:156-158 [incomplete]. *)
Definition text_Input_incomplete : fndef := mkFn false [PVar false "self"; PVar false "n"]
  (ECall (EFn "parse_result" "new") [ECon "State" "Incomplete" [EVar "n"]]).

(** src/input.rs:181-186 [from_result]. *)
Definition text_Input_from_result : fndef := mkFn false [PVar false "self"; PVar false "r"]
  (EMatch (EVar "r") [(PCon "Result" "Ok" [PVar false "t"], None, ECall (EFn "parse_result" "new") [ECon "State" "Data" [EVar "self"; EVar "t"]]); (PCon "Result" "Err" [PVar false "e"], None, ECall (EFn "parse_result" "new") [ECon "State" "Error" [EField (EVar "self") (Fpos 1); EVar "e"]])]).

(** src/input.rs:206-208 [clone]. *)
Definition text_Input_clone : fndef := mkFn true [PVar false "self"]
  (ECon "Input" "" [EField (EVar "self") (Fpos 0); EField (EVar "self") (Fpos 1)]).

(** src/input.rs:251-253 [buffer]. *)
Definition text_Input_buffer : fndef := mkFn true [PVar false "self"]
  (EField (EVar "self") (Fpos 1)).

(** src/input.rs:256-258 [replace]. *)
Definition text_Input_replace : fndef := mkFn false [PVar false "self"; PVar false "b"]
  (ECon "Input" "" [EField (EVar "self") (Fpos 0); EVar "b"]).

(** src/input.rs:261-263 [is_last_slice]. *)
Definition text_Input_is_last_slice : fndef := mkFn true [PVar false "self"]
  (EMethod (EField (EVar "self") (Fpos 0)) "contains" [EFn "const" "input::END_OF_INPUT"]).

(** src/parse_result.rs:94-96 [new]. *)
Definition text_parse_result_new : fndef := mkFn false [PVar false "s"]
  (ECon "ParseResult" "" [EVar "s"]).

(** src/parse_result.rs:142-150 [bind]. *)
Definition text_ParseResult_bind : fndef := mkFn false [PVar false "self"; PVar false "f"]
  (EMatch (EField (EVar "self") (Fpos 0)) [(PCon "State" "Data" [PVar false "i"; PVar false "t"], None, EMethod (ECall (EVar "f") [EVar "i"; EVar "t"]) "map_err" [EFn "From" "same"]); (PCon "State" "Error" [PVar false "i"; PVar false "e"], None, ECon "ParseResult" "" [ECon "State" "Error" [EVar "i"; ECall (EFn "From" "from") [EVar "e"]]]); (PCon "State" "Incomplete" [PVar false "n"], None, ECon "ParseResult" "" [ECon "State" "Incomplete" [EVar "n"]])]).

(** src/parse_result.rs:179-183 [then]. *)
Definition text_ParseResult_then : fndef := mkFn false [PVar false "self"; PVar false "f"]
  (EMethod (EVar "self") "bind" [EClos [PVar false "i"; PWild] (ECall (EVar "f") [EVar "i"])]).

(** src/parse_result.rs:197-204 [map]. *)
Definition text_ParseResult_map : fndef := mkFn false [PVar false "self"; PVar false "f"]
  (EMatch (EField (EVar "self") (Fpos 0)) [(PCon "State" "Data" [PVar false "i"; PVar false "t"], None, ECon "ParseResult" "" [ECon "State" "Data" [EVar "i"; ECall (EVar "f") [EVar "t"]]]); (PCon "State" "Error" [PVar false "i"; PVar false "e"], None, ECon "ParseResult" "" [ECon "State" "Error" [EVar "i"; EVar "e"]]); (PCon "State" "Incomplete" [PVar false "n"], None, ECon "ParseResult" "" [ECon "State" "Incomplete" [EVar "n"]])]).

(** src/parse_result.rs:220-227 [map_err]. *)
Definition text_ParseResult_map_err : fndef := mkFn false [PVar false "self"; PVar false "f"]
  (EMatch (EField (EVar "self") (Fpos 0)) [(PCon "State" "Data" [PVar false "i"; PVar false "t"], None, ECon "ParseResult" "" [ECon "State" "Data" [EVar "i"; EVar "t"]]); (PCon "State" "Error" [PVar false "i"; PVar false "e"], None, ECon "ParseResult" "" [ECon "State" "Error" [EVar "i"; ECall (EVar "f") [EVar "e"]]]); (PCon "State" "Incomplete" [PVar false "n"], None, ECon "ParseResult" "" [ECon "State" "Incomplete" [EVar "n"]])]).

(** src/parse_result.rs:244-251 [inspect]. *)
Definition text_ParseResult_inspect : fndef := mkFn false [PVar false "self"; PVar false "f"]
  (ESeq (EMatch (EField (EVar "self") (Fpos 0)) [(PCon "State" "Data" [PWild; PVar false "t"], None, ECall (EVar "f") [EVar "t"]); (PWild, None, EUnit)]) (EVar "self")).

(** src/parse_result.rs:295-303 [unwrap]. *)
Definition text_ParseResult_unwrap : fndef := mkFn false [PVar false "self"]
  (EMatch (EField (EVar "self") (Fpos 0)) [(PCon "State" "Data" [PWild; PVar false "t"], None, EVar "t"); (PCon "State" "Error" [PWild; PVar false "e"], None, EPanic); (PCon "State" "Incomplete" [PVar false "n"], None, EPanic)]).

(** src/parse_result.rs:328-334 [expect]. *)
Definition text_ParseResult_expect : fndef := mkFn false [PVar false "self"; PVar false "msg"]
  (EMatch (EField (EVar "self") (Fpos 0)) [(PCon "State" "Data" [PWild; PVar false "t"], None, EVar "t"); (PCon "State" "Error" [PWild; PVar false "e"], None, EPanic); (PCon "State" "Incomplete" [PWild], None, EPanic)]).

(** src/parse_result.rs:372-382 [unwrap_err]. *)
Definition text_ParseResult_unwrap_err : fndef := mkFn false [PVar false "self"]
  (EMatch (EField (EVar "self") (Fpos 0)) [(PCon "State" "Data" [PWild; PVar false "t"], None, EPanic); (PCon "State" "Error" [PWild; PVar false "e"], None, EVar "e"); (PCon "State" "Incomplete" [PVar false "n"], None, EPanic)]).

(** src/parse_result.rs:427-429 [into_inner]. *)
Definition text_ParseResult_into_inner : fndef := mkFn false [PVar false "self"]
  (EField (EVar "self") (Fpos 0)).

(** src/parse.rs:52-61 [parse_only]. *)
Definition text_parse_only : fndef := mkFn false [PVar false "parser"; PVar false "input"]
  (EMatch (EMethod (ECall (EVar "parser") [ECall (EFn "input" "new") [EFn "const" "input::END_OF_INPUT"; EVar "input"]]) "into_inner" []) [(PCon "State" "Data" [PWild; PVar false "t"], None, ECon "Result" "Ok" [EVar "t"]); (PCon "State" "Error" [PVar false "b"; PVar false "e"], None, ECon "Result" "Err" [ECon "ParseError" "Error" [EVar "b"; EVar "e"]]); (PCon "State" "Incomplete" [PVar false "n"], None, ECon "Result" "Err" [ECon "ParseError" "Incomplete" [EVar "n"]])]).

(** src/parsers.rs:25-32 [any]. *)
Definition text_any : fndef := mkFn false [PVar false "i"]
  (ELet (PVar false "b") (EMethod (EVar "i") "buffer" []) (EMatch (EMethod (EVar "b") "first" []) [(PCon "Option" "None" [], None, EMethod (EVar "i") "incomplete" [ENat 1]); (PCon "Option" "Some" [PVar false "c"], None, EMethod (EMethod (EVar "i") "replace" [EAddr false (ESlice (EVar "b") (Some (ENat 1)) None)]) "ret" [EVar "c"])])).

(** src/parsers.rs:45-54 [satisfy]. *)
Definition text_satisfy : fndef := mkFn false [PVar false "i"; PVar false "f"]
  (ELet (PVar false "b") (EMethod (EVar "i") "buffer" []) (EMatch (EMethod (EVar "b") "first" []) [(PCon "Option" "None" [], None, EMethod (EVar "i") "incomplete" [ENat 1]); (PCon "Option" "Some" [PVar false "c"], Some (ECall (EVar "f") [EVar "c"]), EMethod (EMethod (EVar "i") "replace" [EAddr false (ESlice (EVar "b") (Some (ENat 1)) None)]) "ret" [EVar "c"]); (PCon "Option" "Some" [PWild], None, EMethod (EVar "i") "err" [ECall (EFn "err" "unexpected") []])])).

(** src/parsers.rs:71-88 [satisfy_with]. *)
Definition text_satisfy_with : fndef := mkFn false [PVar false "i"; PVar false "f"; PVar false "p"]
  (ELet (PVar false "b") (EMethod (EVar "i") "buffer" []) (EMatch (EMethod (EMethod (EVar "b") "first" []) "cloned" []) [(PCon "Option" "Some" [PVar false "n"], None, ELet (PVar false "t") (ECall (EVar "f") [EVar "n"]) (EIf (ECall (EVar "p") [EMethod (EVar "t") "clone" []]) (EMethod (EMethod (EVar "i") "replace" [EAddr false (ESlice (EVar "b") (Some (ENat 1)) None)]) "ret" [EVar "t"]) (EMethod (EVar "i") "err" [ECall (EFn "err" "unexpected") []]))); (PCon "Option" "None" [], None, EMethod (EVar "i") "incomplete" [ENat 1])])).

(** src/parsers.rs:100-108 [token]. *)
Definition text_token : fndef := mkFn false [PVar false "i"; PVar false "t"]
  (ELet (PVar false "b") (EMethod (EVar "i") "buffer" []) (EMatch (EMethod (EVar "b") "first" []) [(PCon "Option" "None" [], None, EMethod (EVar "i") "incomplete" [ENat 1]); (PCon "Option" "Some" [PVar false "c"], Some (EBin OEq (EVar "t") (EVar "c")), EMethod (EMethod (EVar "i") "replace" [EAddr false (ESlice (EVar "b") (Some (ENat 1)) None)]) "ret" [EVar "c"]); (PCon "Option" "Some" [PWild], None, EMethod (EVar "i") "err" [ECall (EFn "err" "expected") [EVar "t"]])])).

(** src/parsers.rs:120-128 [not_token]. *)
Definition text_not_token : fndef := mkFn false [PVar false "i"; PVar false "t"]
  (ELet (PVar false "b") (EMethod (EVar "i") "buffer" []) (EMatch (EMethod (EVar "b") "first" []) [(PCon "Option" "None" [], None, EMethod (EVar "i") "incomplete" [ENat 1]); (PCon "Option" "Some" [PVar false "c"], Some (EBin ONe (EVar "t") (EVar "c")), EMethod (EMethod (EVar "i") "replace" [EAddr false (ESlice (EVar "b") (Some (ENat 1)) None)]) "ret" [EVar "c"]); (PCon "Option" "Some" [PWild], None, EMethod (EVar "i") "err" [ECall (EFn "err" "unexpected") []])])).

(** src/parsers.rs:143-147 [peek]. *)
Definition text_peek : fndef := mkFn false [PVar false "i"]
  (ELet (PVar false "d") (EMethod (EMethod (EMethod (EVar "i") "buffer" []) "first" []) "cloned" []) (EMethod (EVar "i") "ret" [EVar "d"])).

(** src/parsers.rs:159-164 [peek_next]. *)
Definition text_peek_next : fndef := mkFn false [PVar false "i"]
  (EMatch (EMethod (EMethod (EMethod (EVar "i") "buffer" []) "first" []) "cloned" []) [(PCon "Option" "None" [], None, EMethod (EVar "i") "incomplete" [ENat 1]); (PCon "Option" "Some" [PVar false "c"], None, EMethod (EVar "i") "ret" [EVar "c"])]).

(** src/parsers.rs:176-184 [take]. *)
Definition text_take : fndef := mkFn false [PVar false "i"; PVar false "num"]
  (ELet (PVar false "b") (EMethod (EVar "i") "buffer" []) (EIf (EBin OLe (EVar "num") (EMethod (EVar "b") "len" [])) (EMethod (EMethod (EVar "i") "replace" [EAddr false (ESlice (EVar "b") (Some (EVar "num")) None)]) "ret" [EAddr false (ESlice (EVar "b") None (Some (EVar "num")))]) (EMethod (EVar "i") "incomplete" [EBin OSub (EVar "num") (EMethod (EVar "b") "len" [])]))).

(** src/parsers.rs:209-226 [take_while]. *)
Definition text_take_while : fndef := mkFn false [PVar false "i"; PVar false "f"]
  (ELet (PVar false "b") (EMethod (EVar "i") "buffer" []) (EMatch (EMethod (EMethod (EVar "b") "iter" []) "position" [EClos [PVar false "c"] (EBin OEq (ECall (EVar "f") [EVar "c"]) (EBool false))]) [(PCon "Option" "Some" [PVar false "n"], None, EMethod (EMethod (EVar "i") "replace" [EAddr false (ESlice (EVar "b") (Some (EVar "n")) None)]) "ret" [EAddr false (ESlice (EVar "b") None (Some (EVar "n")))]); (PCon "Option" "None" [], None, EIf (EMethod (EVar "i") "is_last_slice" []) (EMethod (EMethod (EVar "i") "replace" [EAddr false (ESlice (EVar "b") None (Some (ENat 0)))]) "ret" [EVar "b"]) (EMethod (EVar "i") "incomplete" [ENat 1]))])).

(** src/parsers.rs:242-260 [take_while1]. *)
Definition text_take_while1 : fndef := mkFn false [PVar false "i"; PVar false "f"]
  (ELet (PVar false "b") (EMethod (EVar "i") "buffer" []) (EMatch (EMethod (EMethod (EVar "b") "iter" []) "position" [EClos [PVar false "c"] (EBin OEq (ECall (EVar "f") [EVar "c"]) (EBool false))]) [(PCon "Option" "Some" [PNat 0], None, EMethod (EVar "i") "err" [ECall (EFn "err" "unexpected") []]); (PCon "Option" "Some" [PVar false "n"], None, EMethod (EMethod (EVar "i") "replace" [EAddr false (ESlice (EVar "b") (Some (EVar "n")) None)]) "ret" [EAddr false (ESlice (EVar "b") None (Some (EVar "n")))]); (PCon "Option" "None" [], None, EIf (EAnd (EBin OGt (EMethod (EVar "b") "len" []) (ENat 0)) (EMethod (EVar "i") "is_last_slice" [])) (EMethod (EMethod (EVar "i") "replace" [EAddr false (ESlice (EVar "b") None (Some (ENat 0)))]) "ret" [EVar "b"]) (EMethod (EVar "i") "incomplete" [ENat 1]))])).

(** src/parsers.rs:276-286 [take_till]. *)
Definition text_take_till : fndef := mkFn false [PVar false "i"; PVar false "f"]
  (ELet (PVar false "b") (EMethod (EVar "i") "buffer" []) (EMatch (EMethod (EMethod (EMethod (EVar "b") "iter" []) "cloned" []) "position" [EVar "f"]) [(PCon "Option" "Some" [PVar false "n"], None, EMethod (EMethod (EVar "i") "replace" [EAddr false (ESlice (EVar "b") (Some (EVar "n")) None)]) "ret" [EAddr false (ESlice (EVar "b") (Some (ENat 0)) (Some (EVar "n")))]); (PCon "Option" "None" [], None, EMethod (EVar "i") "incomplete" [ENat 1])])).

(** src/parsers.rs:303-314 [scan]. *)
Definition text_scan : fndef := mkFn false [PVar false "i"; PVar false "s"; PVar true "f"]
  (ELet (PVar false "b") (EMethod (EVar "i") "buffer" []) (ELet (PVar true "state") (ECon "Option" "Some" [EVar "s"]) (EMatch (EMethod (EMethod (EVar "b") "iter" []) "position" [EClos [PVar false "c"] (ESeq (ESet (EVar "state") (ECall (EVar "f") [EMethod (ECall (EFn "mem" "replace") [EAddr true (EVar "state"); ECon "Option" "None" []]) "unwrap" []; EVar "c"])) (EMethod (EVar "state") "is_none" []))]) [(PCon "Option" "Some" [PVar false "n"], None, EMethod (EMethod (EVar "i") "replace" [EAddr false (ESlice (EVar "b") (Some (EVar "n")) None)]) "ret" [EAddr false (ESlice (EVar "b") (Some (ENat 0)) (Some (EVar "n")))]); (PCon "Option" "None" [], None, EMethod (EVar "i") "incomplete" [ENat 1])]))).

(** src/parsers.rs:330-341 [run_scanner]. *)
Definition text_run_scanner : fndef := mkFn false [PVar false "i"; PVar false "s"; PVar true "f"]
  (ELet (PVar false "b") (EMethod (EVar "i") "buffer" []) (ELet (PVar true "state") (EVar "s") (EMatch (EMethod (EMethod (EVar "b") "iter" []) "position" [EClos [PVar false "c"] (ELet (PVar false "t") (ECall (EVar "f") [EVar "state"; EVar "c"]) (EMatch (EVar "t") [(PCon "Option" "None" [], None, EBool true); (PCon "Option" "Some" [PVar false "v"], None, ESeq (ESet (EVar "state") (EVar "v")) (EBool false))]))]) [(PCon "Option" "Some" [PVar false "n"], None, EMethod (EMethod (EVar "i") "replace" [EAddr false (ESlice (EVar "b") (Some (EVar "n")) None)]) "ret" [ECon "" "" [EAddr false (ESlice (EVar "b") (Some (ENat 0)) (Some (EVar "n"))); EVar "state"]]); (PCon "Option" "None" [], None, EMethod (EVar "i") "incomplete" [ENat 1])]))).

(** src/parsers.rs:351-358 [take_remainder]. *)
Definition text_take_remainder : fndef := mkFn false [PVar false "i"]
  (ELet (PVar false "b") (EMethod (EVar "i") "buffer" []) (EMethod (EMethod (EVar "i") "replace" [EAddr false (ESlice (EVar "b") None (Some (ENat 0)))]) "ret" [EVar "b"])).

(** src/parsers.rs:371-388 [string]. *)
Definition text_string : fndef := mkFn false [PVar false "i"; PVar false "s"]
  (ELet (PVar false "b") (EMethod (EVar "i") "buffer" []) (ESeq (EIf (EBin OGt (EMethod (EVar "s") "len" []) (EMethod (EVar "b") "len" [])) (ESeq (EReturn (EMethod (EVar "i") "incomplete" [EBin OSub (EMethod (EVar "s") "len" []) (EMethod (EVar "b") "len" [])])) (EUnit)) (EUnit)) (ELet (PVar false "d") (EAddr false (ESlice (EVar "b") None (Some (EMethod (EVar "s") "len" [])))) (ESeq (EFor "j" (ENat 0) (EMethod (EVar "s") "len" []) (EIf (EBin ONe (EAt (EVar "s") (EVar "j")) (EAt (EVar "d") (EVar "j"))) (ESeq (EReturn (ECall (EFn "err" "string") [EVar "i"; EVar "j"; EVar "s"])) (EUnit)) (EUnit))) (EMethod (EMethod (EVar "i") "replace" [EAddr false (ESlice (EVar "b") (Some (EMethod (EVar "s") "len" [])) None)]) "ret" [EVar "d"]))))).

(** src/parsers.rs:400-406 [eof]. *)
Definition text_eof : fndef := mkFn false [PVar false "i"]
  (EIf (EAnd (EBin OEq (EMethod (EMethod (EVar "i") "buffer" []) "len" []) (ENat 0)) (EMethod (EVar "i") "is_last_slice" [])) (EMethod (EVar "i") "ret" [EUnit]) (EMethod (EVar "i") "err" [ECall (EFn "err" "unexpected") []])).

(** src/parsers.rs:471-473 [unexpected]. *)
Definition text_verbose_err_unexpected : fndef := mkFn false []
  (ECon "Error" "Unexpected" []).

(** src/parsers.rs:476-478 [expected]. *)
Definition text_verbose_err_expected : fndef := mkFn false [PVar false "i"]
  (ECon "Error" "Expected" [EVar "i"]).

(** src/parsers.rs:482-486 [string]. *)
Definition text_verbose_err_string : fndef := mkFn false [PVar false "i"; PVar false "_offset"; PVar false "expected"]
  (EMethod (EVar "i") "err" [ECon "Error" "String" [EMethod (EVar "expected") "to_vec" []]]).

(** src/parsers.rs:537-539 [unexpected]. *)
Definition text_plain_err_unexpected : fndef := mkFn false []
  (ECon "Error" "" [ECon "PhantomData" "" []]).

(** src/parsers.rs:542-544 [expected]. *)
Definition text_plain_err_expected : fndef := mkFn false [PWild]
  (ECon "Error" "" [ECon "PhantomData" "" []]).

(** src/parsers.rs:547-555 [string]. *)
Definition text_plain_err_string : fndef := mkFn false [PVar false "i"; PVar false "offset"; PVar false "_expected"]
  (ELet (PVar false "b") (EMethod (EVar "i") "buffer" []) (EMethod (EMethod (EVar "i") "replace" [EAddr false (ESlice (EVar "b") (Some (EVar "offset")) None)]) "err" [ECon "Error" "" [ECon "PhantomData" "" []]])).

(** src/combinators/mod.rs:34-40 [count]. *)
Definition text_count : fndef := mkFn false [PVar false "i"; PVar false "num"; PVar false "p"]
  (ECall (EFn "bounded" "many") [EVar "i"; EVar "num"; EVar "p"]).

(** src/combinators/mod.rs:58-70 [option]. *)
Definition text_option : fndef := mkFn false [PVar false "i"; PVar false "f"; PVar false "default"]
  (EMatch (EMethod (ECall (EVar "f") [EMethod (EVar "i") "clone" []]) "into_inner" []) [(PCon "State" "Data" [PVar false "b"; PVar false "d"], None, EMethod (EVar "b") "ret" [EVar "d"]); (PCon "State" "Error" [PWild; PWild], None, EMethod (EVar "i") "ret" [EVar "default"]); (PCon "State" "Incomplete" [PVar false "n"], None, EIf (EMethod (EVar "i") "is_last_slice" []) (EMethod (EVar "i") "ret" [EVar "default"]) (EMethod (EVar "i") "incomplete" [EVar "n"]))]).

(** src/combinators/mod.rs:94-106 [or]. *)
Definition text_or : fndef := mkFn false [PVar false "i"; PVar false "f"; PVar false "g"]
  (EMatch (EMethod (ECall (EVar "f") [EMethod (EVar "i") "clone" []]) "into_inner" []) [(PCon "State" "Data" [PVar false "b"; PVar false "d"], None, EMethod (EVar "b") "ret" [EVar "d"]); (PCon "State" "Error" [PWild; PWild], None, ECall (EVar "g") [EVar "i"]); (PCon "State" "Incomplete" [PVar false "n"], None, EIf (EMethod (EVar "i") "is_last_slice" []) (ECall (EVar "g") [EVar "i"]) (EMethod (EVar "i") "incomplete" [EVar "n"]))]).

(** src/combinators/mod.rs:128-134 [many]. *)
Definition text_many : fndef := mkFn false [PVar false "i"; PVar false "f"]
  (ECall (EFn "bounded" "many") [EVar "i"; ERec "RangeFull" []; EVar "f"]).

(** src/combinators/mod.rs:157-163 [many1]. *)
Definition text_many1 : fndef := mkFn false [PVar false "i"; PVar false "f"]
  (ECall (EFn "bounded" "many") [EVar "i"; ERec "RangeFrom" [("start", ENat 1)]; EVar "f"]).

(** src/combinators/mod.rs:182-203 [sep_by]. *)
Definition text_sep_by : fndef := mkFn false [PVar false "i"; PVar true "p"; PVar true "sep"]
  (ELet (PVar true "item") (EBool false) (ELet (PVar false "parser") (EClos [PVar false "i"] (EMethod (EMethod (EIf (EVar "item") (EMethod (ECall (EVar "sep") [EVar "i"]) "map" [EClos [PWild] (EUnit)]) (EMethod (EVar "i") "ret" [EUnit])) "then" [EAddr true (EVar "p")]) "inspect" [EClos [PWild] (ESet (EVar "item") (EBool true))])) (ECall (EFn "bounded" "many") [EVar "i"; ERec "RangeFull" []; EVar "parser"]))).

(** src/combinators/mod.rs:223-244 [sep_by1]. *)
Definition text_sep_by1 : fndef := mkFn false [PVar false "i"; PVar true "p"; PVar true "sep"]
  (ELet (PVar true "item") (EBool false) (ELet (PVar false "parser") (EClos [PVar false "i"] (EMethod (EMethod (EIf (EVar "item") (EMethod (ECall (EVar "sep") [EVar "i"]) "map" [EClos [PWild] (EUnit)]) (EMethod (EVar "i") "ret" [EUnit])) "then" [EAddr true (EVar "p")]) "inspect" [EClos [PWild] (ESet (EVar "item") (EBool true))])) (ECall (EFn "bounded" "many") [EVar "i"; ERec "RangeFrom" [("start", ENat 1)]; EVar "parser"]))).

(** src/combinators/mod.rs:261-270 [many_till]. *)
Definition text_many_till : fndef := mkFn false [PVar false "i"; PVar false "p"; PVar false "end"]
  (ECall (EFn "bounded" "many_till") [EVar "i"; ERec "RangeFull" []; EVar "p"; EVar "end"]).

(** src/combinators/mod.rs:287-291 [skip_many]. *)
Definition text_skip_many : fndef := mkFn false [PVar false "i"; PVar false "f"]
  (ECall (EFn "bounded" "skip_many") [EVar "i"; ERec "RangeFull" []; EVar "f"]).

(** src/combinators/mod.rs:314-317 [skip_many1]. *)
Definition text_skip_many1 : fndef := mkFn false [PVar false "i"; PVar false "f"]
  (ECall (EFn "bounded" "skip_many") [EVar "i"; ERec "RangeFrom" [("start", ENat 1)]; EVar "f"]).

(** src/combinators/mod.rs:328-344 [matched_by]. *)
Definition text_matched_by : fndef := mkFn false [PVar false "i"; PVar false "f"]
  (ELet (PVar false "buf") (EMethod (EVar "i") "buffer" []) (EMatch (EMethod (ECall (EVar "f") [EMethod (EVar "i") "clone" []]) "into_inner" []) [(PCon "State" "Data" [PVar false "b"; PVar false "t"], None, ELet (PVar false "diff") (EBin OSub (EMethod (EVar "buf") "len" []) (EMethod (EMethod (EVar "b") "buffer" []) "len" [])) (ELet (PVar false "n") (EAddr false (ESlice (EVar "buf") None (Some (EVar "diff")))) (EMethod (EVar "b") "ret" [ECon "" "" [EVar "n"; EVar "t"]]))); (PCon "State" "Error" [PVar false "b"; PVar false "e"], None, EMethod (EMethod (EVar "i") "replace" [EVar "b"]) "err" [EVar "e"]); (PCon "State" "Incomplete" [PVar false "n"], None, EMethod (EVar "i") "incomplete" [EVar "n"])])).

(** src/combinators/mod.rs:357-364 [look_ahead]. *)
Definition text_look_ahead : fndef := mkFn false [PVar false "i"; PVar false "f"]
  (EMatch (EMethod (ECall (EVar "f") [EMethod (EVar "i") "clone" []]) "into_inner" []) [(PCon "State" "Data" [PWild; PVar false "t"], None, EMethod (EVar "i") "ret" [EVar "t"]); (PCon "State" "Error" [PVar false "b"; PVar false "t"], None, EMethod (EMethod (EVar "i") "replace" [EVar "b"]) "err" [EVar "t"]); (PCon "State" "Incomplete" [PVar false "n"], None, EMethod (EVar "i") "incomplete" [EVar "n"])]).

(** src/combinators/bounded.rs:104-151 [parse_many]. *)
Definition text_Range_parse_many : fndef := mkFn false [PVar false "self"; PVar false "i"; PVar false "f"]
  (ESeq (EIf (EBin OLe (EField (EVar "self") (Fname "start")) (EField (EVar "self") (Fname "end"))) (EUnit) (EPanic)) (ELet (PVar true "iter") (ERec "Range.parse_many.Iter" [("state", ECon "Range.parse_many.EndState" "Incomplete" [ENat 1]); ("parser", EVar "f"); ("buf", EVar "i"); ("data", ECon "" "" [EField (EVar "self") (Fname "start"); EBin OSub (ECall (EFn "std" "max") [EField (EVar "self") (Fname "end"); ENat 1]) (ENat 1)]); ("_t", ECon "PhantomData" "" [])]) (ELet (PCon "" "" [PVar false "result"; PVar false "state"]) (ELet (PVar true "item") (EBool false) (ELet (PVar false "result") (ECall (EFn "FromIterator" "from_iter") [EMethod (EMethod (EVar "iter") "by_ref" []) "inspect" [EClos [PWild] (ESet (EVar "item") (EBool true))]]) (ECon "" "" [EVar "result"; EMethod (EVar "iter") "end_state" []]))) (EMatch (EVar "state") [(PCon "" "" [PVar false "s"; PCon "" "" [PNat 0; PNat 0]; PWild], None, EMethod (EVar "s") "ret" [EVar "result"]); (PCon "" "" [PVar false "s"; PCon "" "" [PNat 0; PWild]; PCon "Range.parse_many.EndState" "Error" [PWild; PWild]], None, EMethod (EVar "s") "ret" [EVar "result"]); (PCon "" "" [PVar false "s"; PCon "" "" [PNat 0; PWild]; PCon "Range.parse_many.EndState" "Incomplete" [PVar false "n"]], None, EIf (EMethod (EVar "s") "is_last_slice" []) (EMethod (EVar "s") "ret" [EVar "result"]) (EMethod (EVar "s") "incomplete" [EVar "n"])); (PCon "" "" [PVar false "s"; PCon "" "" [PWild; PWild]; PCon "Range.parse_many.EndState" "Error" [PVar false "b"; PVar false "e"]], None, EMethod (EMethod (EVar "s") "replace" [EVar "b"]) "err" [EVar "e"]); (PCon "" "" [PVar false "s"; PCon "" "" [PWild; PWild]; PCon "Range.parse_many.EndState" "Incomplete" [PVar false "n"]], None, EMethod (EVar "s") "incomplete" [EVar "n"])])))).

(** src/combinators/bounded.rs:154-191 [skip_many]. *)
Definition text_Range_skip_many : fndef := mkFn false [PVar false "self"; PVar true "i"; PVar true "f"]
  (ESeq (EIf (EBin OLe (EField (EVar "self") (Fname "start")) (EField (EVar "self") (Fname "end"))) (EUnit) (EPanic)) (ELet (PCon "" "" [PVar true "min"; PVar true "max"]) (ECon "" "" [EField (EVar "self") (Fname "start"); EBin OSub (ECall (EFn "std" "max") [EField (EVar "self") (Fname "end"); ENat 1]) (ENat 1)]) (ESeq (ELoop (ESeq (EIf (EBin OEq (EVar "max") (ENat 0)) (ESeq (EBreak) (EUnit)) (EUnit)) (EMatch (EMethod (ECall (EVar "f") [EMethod (EVar "i") "clone" []]) "into_inner" []) [(PCon "State" "Data" [PVar false "b"; PWild], None, ESeq (ESet (EVar "min") (EIf (EBin OEq (EVar "min") (ENat 0)) (ENat 0) (EBin OSub (EVar "min") (ENat 1)))) (ESeq (ESet (EVar "max") (EBin OSub (EVar "max") (ENat 1))) (ESet (EVar "i") (EVar "b")))); (PCon "State" "Error" [PVar false "b"; PVar false "e"], None, EIf (EBin OEq (EVar "min") (ENat 0)) (ESeq (EBreak) (EUnit)) (ESeq (EReturn (EMethod (EMethod (EVar "i") "replace" [EVar "b"]) "err" [EVar "e"])) (EUnit))); (PCon "State" "Incomplete" [PVar false "n"], None, EIf (EAnd (EBin OEq (EVar "min") (ENat 0)) (EMethod (EVar "i") "is_last_slice" [])) (ESeq (EBreak) (EUnit)) (ESeq (EReturn (EMethod (EVar "i") "incomplete" [EVar "n"])) (EUnit)))]))) (EMethod (EVar "i") "ret" [EUnit])))).

(** src/combinators/bounded.rs:194-248 [many_till]. *)
Definition text_Range_many_till : fndef := mkFn false [PVar false "self"; PVar false "i"; PVar false "p"; PVar false "end"]
  (ESeq (EIf (EBin OLe (EField (EVar "self") (Fname "start")) (EField (EVar "self") (Fname "end"))) (EUnit) (EPanic)) (ELet (PVar true "iter") (ERec "Range.many_till.IterTill" [("state", ECon "Range.many_till.EndStateTill" "Incomplete" [ENat 1]); ("parser", EVar "p"); ("end", EVar "end"); ("buf", EVar "i"); ("data", ECon "" "" [EField (EVar "self") (Fname "start"); EBin OSub (ECall (EFn "std" "max") [EField (EVar "self") (Fname "end"); ENat 1]) (ENat 1)]); ("_t", ECon "PhantomData" "" [])]) (ELet (PCon "" "" [PVar false "result"; PVar false "state"]) (ELet (PVar true "item") (EBool false) (ELet (PVar false "result") (ECall (EFn "FromIterator" "from_iter") [EMethod (EMethod (EVar "iter") "by_ref" []) "inspect" [EClos [PWild] (ESet (EVar "item") (EBool true))]]) (ECon "" "" [EVar "result"; EMethod (EVar "iter") "end_state" []]))) (EMatch (EVar "state") [(PCon "" "" [PVar false "s"; PCon "" "" [PNat 0; PWild]; PCon "Range.many_till.EndStateTill" "EndSuccess" []], None, EMethod (EVar "s") "ret" [EVar "result"]); (PCon "" "" [PVar false "s"; PCon "" "" [PWild; PWild]; PCon "Range.many_till.EndStateTill" "Error" [PVar false "b"; PVar false "e"]], None, EMethod (EMethod (EVar "s") "replace" [EVar "b"]) "err" [EVar "e"]); (PCon "" "" [PVar false "s"; PCon "" "" [PWild; PWild]; PCon "Range.many_till.EndStateTill" "Incomplete" [PVar false "n"]], None, EMethod (EVar "s") "incomplete" [EVar "n"]); (PCon "" "" [PWild; PCon "" "" [PWild; PWild]; PCon "Range.many_till.EndStateTill" "EndSuccess" []], None, EPanic)])))).

(** src/combinators/bounded.rs:253-289 [parse_many]. *)
Definition text_RangeFrom_parse_many : fndef := mkFn false [PVar false "self"; PVar false "i"; PVar false "f"]
  (ELet (PVar true "iter") (ERec "RangeFrom.parse_many.Iter" [("state", ECon "RangeFrom.parse_many.EndState" "Incomplete" [ENat 1]); ("parser", EVar "f"); ("buf", EVar "i"); ("data", EField (EVar "self") (Fname "start")); ("_t", ECon "PhantomData" "" [])]) (ELet (PCon "" "" [PVar false "result"; PVar false "state"]) (ELet (PVar true "item") (EBool false) (ELet (PVar false "result") (ECall (EFn "FromIterator" "from_iter") [EMethod (EMethod (EVar "iter") "by_ref" []) "inspect" [EClos [PWild] (ESet (EVar "item") (EBool true))]]) (ECon "" "" [EVar "result"; EMethod (EVar "iter") "end_state" []]))) (EMatch (EVar "state") [(PCon "" "" [PVar false "s"; PNat 0; PCon "RangeFrom.parse_many.EndState" "Error" [PWild; PWild]], None, EMethod (EVar "s") "ret" [EVar "result"]); (PCon "" "" [PVar false "s"; PNat 0; PCon "RangeFrom.parse_many.EndState" "Incomplete" [PVar false "n"]], None, EIf (EMethod (EVar "s") "is_last_slice" []) (EMethod (EVar "s") "ret" [EVar "result"]) (EMethod (EVar "s") "incomplete" [EVar "n"])); (PCon "" "" [PVar false "s"; PWild; PCon "RangeFrom.parse_many.EndState" "Error" [PVar false "b"; PVar false "e"]], None, EMethod (EMethod (EVar "s") "replace" [EVar "b"]) "err" [EVar "e"]); (PCon "" "" [PVar false "s"; PWild; PCon "RangeFrom.parse_many.EndState" "Incomplete" [PVar false "n"]], None, EMethod (EVar "s") "incomplete" [EVar "n"])]))).

(** src/combinators/bounded.rs:292-321 [skip_many]. *)
Definition text_RangeFrom_skip_many : fndef := mkFn false [PVar false "self"; PVar true "i"; PVar true "f"]
  (ELet (PVar true "min") (EField (EVar "self") (Fname "start")) (ESeq (ELoop (EMatch (EMethod (ECall (EVar "f") [EMethod (EVar "i") "clone" []]) "into_inner" []) [(PCon "State" "Data" [PVar false "b"; PWild], None, ESeq (ESet (EVar "min") (EIf (EBin OEq (EVar "min") (ENat 0)) (ENat 0) (EBin OSub (EVar "min") (ENat 1)))) (ESet (EVar "i") (EVar "b"))); (PCon "State" "Error" [PVar false "b"; PVar false "e"], None, EIf (EBin OEq (EVar "min") (ENat 0)) (ESeq (EBreak) (EUnit)) (ESeq (EReturn (EMethod (EMethod (EVar "i") "replace" [EVar "b"]) "err" [EVar "e"])) (EUnit))); (PCon "State" "Incomplete" [PVar false "n"], None, EIf (EAnd (EBin OEq (EVar "min") (ENat 0)) (EMethod (EVar "i") "is_last_slice" [])) (ESeq (EBreak) (EUnit)) (ESeq (EReturn (EMethod (EVar "i") "incomplete" [EVar "n"])) (EUnit)))])) (EMethod (EVar "i") "ret" [EUnit]))).

(** src/combinators/bounded.rs:324-366 [many_till]. *)
Definition text_RangeFrom_many_till : fndef := mkFn false [PVar false "self"; PVar false "i"; PVar false "p"; PVar false "end"]
  (ELet (PVar true "iter") (ERec "RangeFrom.many_till.IterTill" [("state", ECon "RangeFrom.many_till.EndStateTill" "Incomplete" [ENat 1]); ("parser", EVar "p"); ("end", EVar "end"); ("buf", EVar "i"); ("data", EField (EVar "self") (Fname "start")); ("_t", ECon "PhantomData" "" [])]) (ELet (PCon "" "" [PVar false "result"; PVar false "state"]) (ELet (PVar true "item") (EBool false) (ELet (PVar false "result") (ECall (EFn "FromIterator" "from_iter") [EMethod (EMethod (EVar "iter") "by_ref" []) "inspect" [EClos [PWild] (ESet (EVar "item") (EBool true))]]) (ECon "" "" [EVar "result"; EMethod (EVar "iter") "end_state" []]))) (EMatch (EVar "state") [(PCon "" "" [PVar false "s"; PNat 0; PCon "RangeFrom.many_till.EndStateTill" "EndSuccess" []], None, EMethod (EVar "s") "ret" [EVar "result"]); (PCon "" "" [PVar false "s"; PWild; PCon "RangeFrom.many_till.EndStateTill" "Error" [PVar false "b"; PVar false "e"]], None, EMethod (EMethod (EVar "s") "replace" [EVar "b"]) "err" [EVar "e"]); (PCon "" "" [PVar false "s"; PWild; PCon "RangeFrom.many_till.EndStateTill" "Incomplete" [PVar false "n"]], None, EMethod (EVar "s") "incomplete" [EVar "n"]); (PCon "" "" [PWild; PWild; PCon "RangeFrom.many_till.EndStateTill" "EndSuccess" []], None, EPanic)]))).

(** src/combinators/bounded.rs:371-400 [parse_many]. *)
Definition text_RangeFull_parse_many : fndef := mkFn false [PVar false "self"; PVar false "i"; PVar false "f"]
  (ELet (PVar true "iter") (ERec "RangeFull.parse_many.Iter" [("state", ECon "RangeFull.parse_many.EndState" "Incomplete" [ENat 1]); ("parser", EVar "f"); ("buf", EVar "i"); ("data", EUnit); ("_t", ECon "PhantomData" "" [])]) (ELet (PCon "" "" [PVar false "result"; PVar false "state"]) (ELet (PVar true "item") (EBool false) (ELet (PVar false "result") (ECall (EFn "FromIterator" "from_iter") [EMethod (EMethod (EVar "iter") "by_ref" []) "inspect" [EClos [PWild] (ESet (EVar "item") (EBool true))]]) (ECon "" "" [EVar "result"; EMethod (EVar "iter") "end_state" []]))) (EMatch (EVar "state") [(PCon "" "" [PVar false "s"; PWild; PCon "RangeFull.parse_many.EndState" "Error" [PWild; PWild]], None, EMethod (EVar "s") "ret" [EVar "result"]); (PCon "" "" [PVar false "s"; PWild; PCon "RangeFull.parse_many.EndState" "Incomplete" [PVar false "n"]], None, EIf (EMethod (EVar "s") "is_last_slice" []) (EMethod (EVar "s") "ret" [EVar "result"]) (EMethod (EVar "s") "incomplete" [EVar "n"]))]))).

(** src/combinators/bounded.rs:403-419 [skip_many]. *)
Definition text_RangeFull_skip_many : fndef := mkFn false [PVar false "self"; PVar true "i"; PVar true "f"]
  (ESeq (ELoop (EMatch (EMethod (ECall (EVar "f") [EMethod (EVar "i") "clone" []]) "into_inner" []) [(PCon "State" "Data" [PVar false "b"; PWild], None, ESet (EVar "i") (EVar "b")); (PCon "State" "Error" [PWild; PWild], None, EBreak); (PCon "State" "Incomplete" [PVar false "n"], None, EIf (EMethod (EVar "i") "is_last_slice" []) (ESeq (EBreak) (EUnit)) (ESeq (EReturn (EMethod (EVar "i") "incomplete" [EVar "n"])) (EUnit)))])) (EMethod (EVar "i") "ret" [EUnit])).

(** src/combinators/bounded.rs:422-455 [many_till]. *)
Definition text_RangeFull_many_till : fndef := mkFn false [PVar false "self"; PVar false "i"; PVar false "p"; PVar false "end"]
  (ELet (PVar true "iter") (ERec "RangeFull.many_till.IterTill" [("state", ECon "RangeFull.many_till.EndStateTill" "Incomplete" [ENat 1]); ("parser", EVar "p"); ("end", EVar "end"); ("buf", EVar "i"); ("data", EUnit); ("_t", ECon "PhantomData" "" [])]) (ELet (PCon "" "" [PVar false "result"; PVar false "state"]) (ELet (PVar true "item") (EBool false) (ELet (PVar false "result") (ECall (EFn "FromIterator" "from_iter") [EMethod (EMethod (EVar "iter") "by_ref" []) "inspect" [EClos [PWild] (ESet (EVar "item") (EBool true))]]) (ECon "" "" [EVar "result"; EMethod (EVar "iter") "end_state" []]))) (EMatch (EVar "state") [(PCon "" "" [PVar false "s"; PWild; PCon "RangeFull.many_till.EndStateTill" "EndSuccess" []], None, EMethod (EVar "s") "ret" [EVar "result"]); (PCon "" "" [PVar false "s"; PWild; PCon "RangeFull.many_till.EndStateTill" "Error" [PVar false "b"; PVar false "e"]], None, EMethod (EMethod (EVar "s") "replace" [EVar "b"]) "err" [EVar "e"]); (PCon "" "" [PVar false "s"; PWild; PCon "RangeFull.many_till.EndStateTill" "Incomplete" [PVar false "n"]], None, EMethod (EVar "s") "incomplete" [EVar "n"])]))).

(** src/combinators/bounded.rs:460-499 [parse_many]. *)
Definition text_RangeTo_parse_many : fndef := mkFn false [PVar false "self"; PVar false "i"; PVar false "f"]
  (ELet (PVar true "iter") (ERec "RangeTo.parse_many.Iter" [("state", ECon "RangeTo.parse_many.EndState" "Incomplete" [ENat 1]); ("parser", EVar "f"); ("buf", EVar "i"); ("data", EBin OSub (ECall (EFn "std" "max") [EField (EVar "self") (Fname "end"); ENat 1]) (ENat 1)); ("_t", ECon "PhantomData" "" [])]) (ELet (PCon "" "" [PVar false "result"; PVar false "state"]) (ELet (PVar true "item") (EBool false) (ELet (PVar false "result") (ECall (EFn "FromIterator" "from_iter") [EMethod (EMethod (EVar "iter") "by_ref" []) "inspect" [EClos [PWild] (ESet (EVar "item") (EBool true))]]) (ECon "" "" [EVar "result"; EMethod (EVar "iter") "end_state" []]))) (EMatch (EVar "state") [(PCon "" "" [PVar false "s"; PNat 0; PWild], None, EMethod (EVar "s") "ret" [EVar "result"]); (PCon "" "" [PVar false "s"; PWild; PCon "RangeTo.parse_many.EndState" "Error" [PWild; PWild]], None, EMethod (EVar "s") "ret" [EVar "result"]); (PCon "" "" [PVar false "s"; PWild; PCon "RangeTo.parse_many.EndState" "Incomplete" [PVar false "n"]], None, EIf (EMethod (EVar "s") "is_last_slice" []) (EMethod (EVar "s") "ret" [EVar "result"]) (EMethod (EVar "s") "incomplete" [EVar "n"]))]))).

(** src/combinators/bounded.rs:502-530 [skip_many]. *)
Definition text_RangeTo_skip_many : fndef := mkFn false [PVar false "self"; PVar true "i"; PVar true "f"]
  (ELet (PVar true "max") (EBin OSub (ECall (EFn "std" "max") [EField (EVar "self") (Fname "end"); ENat 1]) (ENat 1)) (ESeq (ELoop (ESeq (EIf (EBin OEq (EVar "max") (ENat 0)) (ESeq (EBreak) (EUnit)) (EUnit)) (EMatch (EMethod (ECall (EVar "f") [EMethod (EVar "i") "clone" []]) "into_inner" []) [(PCon "State" "Data" [PVar false "b"; PWild], None, ESeq (ESet (EVar "max") (EBin OSub (EVar "max") (ENat 1))) (ESet (EVar "i") (EVar "b"))); (PCon "State" "Error" [PWild; PWild], None, EBreak); (PCon "State" "Incomplete" [PVar false "n"], None, EIf (EMethod (EVar "i") "is_last_slice" []) (ESeq (EBreak) (EUnit)) (ESeq (EReturn (EMethod (EVar "i") "incomplete" [EVar "n"])) (EUnit)))]))) (EMethod (EVar "i") "ret" [EUnit]))).

(** src/combinators/bounded.rs:533-578 [many_till]. *)
Definition text_RangeTo_many_till : fndef := mkFn false [PVar false "self"; PVar false "i"; PVar false "p"; PVar false "end"]
  (ELet (PVar true "iter") (ERec "RangeTo.many_till.IterTill" [("state", ECon "RangeTo.many_till.EndStateTill" "Incomplete" [ENat 1]); ("parser", EVar "p"); ("end", EVar "end"); ("buf", EVar "i"); ("data", EBin OSub (ECall (EFn "std" "max") [EField (EVar "self") (Fname "end"); ENat 1]) (ENat 1)); ("_t", ECon "PhantomData" "" [])]) (ELet (PCon "" "" [PVar false "result"; PVar false "state"]) (ELet (PVar true "item") (EBool false) (ELet (PVar false "result") (ECall (EFn "FromIterator" "from_iter") [EMethod (EMethod (EVar "iter") "by_ref" []) "inspect" [EClos [PWild] (ESet (EVar "item") (EBool true))]]) (ECon "" "" [EVar "result"; EMethod (EVar "iter") "end_state" []]))) (EMatch (EVar "state") [(PCon "" "" [PVar false "s"; PNat 0; PCon "RangeTo.many_till.EndStateTill" "EndSuccess" []], None, EMethod (EVar "s") "ret" [EVar "result"]); (PCon "" "" [PVar false "s"; PWild; PCon "RangeTo.many_till.EndStateTill" "Error" [PVar false "b"; PVar false "e"]], None, EMethod (EMethod (EVar "s") "replace" [EVar "b"]) "err" [EVar "e"]); (PCon "" "" [PVar false "s"; PWild; PCon "RangeTo.many_till.EndStateTill" "Incomplete" [PVar false "n"]], None, EMethod (EVar "s") "incomplete" [EVar "n"]); (PCon "" "" [PWild; PWild; PCon "RangeTo.many_till.EndStateTill" "EndSuccess" []], None, EPanic)]))).

(** src/combinators/bounded.rs:583-618 [parse_many]. *)
Definition text_usize_parse_many : fndef := mkFn false [PVar false "self"; PVar false "i"; PVar false "f"]
  (ELet (PVar true "iter") (ERec "usize.parse_many.Iter" [("state", ECon "usize.parse_many.EndState" "Incomplete" [ENat 1]); ("parser", EVar "f"); ("buf", EVar "i"); ("data", EVar "self"); ("_t", ECon "PhantomData" "" [])]) (ELet (PCon "" "" [PVar false "result"; PVar false "state"]) (ELet (PVar true "item") (EBool false) (ELet (PVar false "result") (ECall (EFn "FromIterator" "from_iter") [EMethod (EMethod (EVar "iter") "by_ref" []) "inspect" [EClos [PWild] (ESet (EVar "item") (EBool true))]]) (ECon "" "" [EVar "result"; EMethod (EVar "iter") "end_state" []]))) (EMatch (EVar "state") [(PCon "" "" [PVar false "s"; PNat 0; PWild], None, EMethod (EVar "s") "ret" [EVar "result"]); (PCon "" "" [PVar false "s"; PWild; PCon "usize.parse_many.EndState" "Error" [PVar false "b"; PVar false "e"]], None, EMethod (EMethod (EVar "s") "replace" [EVar "b"]) "err" [EVar "e"]); (PCon "" "" [PVar false "s"; PWild; PCon "usize.parse_many.EndState" "Incomplete" [PVar false "n"]], None, EMethod (EVar "s") "incomplete" [EVar "n"])]))).

(** src/combinators/bounded.rs:621-652 [skip_many]. *)
Definition text_usize_skip_many : fndef := mkFn false [PVar false "self"; PVar true "i"; PVar true "f"]
  (ELet (PVar true "n") (EVar "self") (ESeq (ELoop (ESeq (EIf (EBin OEq (EVar "n") (ENat 0)) (ESeq (EBreak) (EUnit)) (EUnit)) (EMatch (EMethod (ECall (EVar "f") [EMethod (EVar "i") "clone" []]) "into_inner" []) [(PCon "State" "Data" [PVar false "b"; PWild], None, ESeq (ESet (EVar "n") (EBin OSub (EVar "n") (ENat 1))) (ESet (EVar "i") (EVar "b"))); (PCon "State" "Error" [PVar false "b"; PVar false "e"], None, EIf (EBin OEq (EVar "n") (ENat 0)) (ESeq (EBreak) (EUnit)) (ESeq (EReturn (EMethod (EMethod (EVar "i") "replace" [EVar "b"]) "err" [EVar "e"])) (EUnit))); (PCon "State" "Incomplete" [PVar false "n"], None, EIf (EBin OEq (EVar "n") (ENat 0)) (ESeq (EBreak) (EUnit)) (ESeq (EReturn (EMethod (EVar "i") "incomplete" [EVar "n"])) (EUnit)))]))) (EMethod (EVar "i") "ret" [EUnit]))).

(** src/combinators/bounded.rs:655-698 [many_till]. *)
Definition text_usize_many_till : fndef := mkFn false [PVar false "self"; PVar false "i"; PVar false "p"; PVar false "end"]
  (ELet (PVar true "iter") (ERec "usize.many_till.IterTill" [("state", ECon "usize.many_till.EndStateTill" "Incomplete" [ENat 1]); ("parser", EVar "p"); ("end", EVar "end"); ("buf", EVar "i"); ("data", EVar "self"); ("_t", ECon "PhantomData" "" [])]) (ELet (PCon "" "" [PVar false "result"; PVar false "state"]) (ELet (PVar true "item") (EBool false) (ELet (PVar false "result") (ECall (EFn "FromIterator" "from_iter") [EMethod (EMethod (EVar "iter") "by_ref" []) "inspect" [EClos [PWild] (ESet (EVar "item") (EBool true))]]) (ECon "" "" [EVar "result"; EMethod (EVar "iter") "end_state" []]))) (EMatch (EVar "state") [(PCon "" "" [PVar false "s"; PNat 0; PCon "usize.many_till.EndStateTill" "EndSuccess" []], None, EMethod (EVar "s") "ret" [EVar "result"]); (PCon "" "" [PVar false "s"; PWild; PCon "usize.many_till.EndStateTill" "Error" [PVar false "b"; PVar false "e"]], None, EMethod (EMethod (EVar "s") "replace" [EVar "b"]) "err" [EVar "e"]); (PCon "" "" [PVar false "s"; PWild; PCon "usize.many_till.EndStateTill" "Incomplete" [PVar false "n"]], None, EMethod (EVar "s") "incomplete" [EVar "n"]); (PCon "" "" [PWild; PWild; PCon "usize.many_till.EndStateTill" "EndSuccess" []], None, EPanic)]))).

(** src/combinators/bounded.rs:717-724 [many]. *)
Definition text_bounded_many : fndef := mkFn false [PVar false "i"; PVar false "r"; PVar false "f"]
  (EMethod (EVar "r") "parse_many" [EVar "i"; EVar "f"]).

(** src/combinators/bounded.rs:741-746 [skip_many]. *)
Definition text_bounded_skip_many : fndef := mkFn false [PVar false "i"; PVar false "r"; PVar false "f"]
  (EMethod (EVar "r") "skip_many" [EVar "i"; EVar "f"]).

(** src/combinators/bounded.rs:763-773 [many_till]. *)
Definition text_bounded_many_till : fndef := mkFn false [PVar false "i"; PVar false "r"; PVar false "p"; PVar false "end"]
  (EMethod (EVar "r") "many_till" [EVar "i"; EVar "p"; EVar "end"]).

(** src/combinators/bounded.rs:84-86 [end_state]. *)
Definition text_Range_parse_many_Iter_end_state : fndef := mkFn false [PVar false "self"]
  (ECon "" "" [EField (EVar "self") (Fname "buf"); EField (EVar "self") (Fname "data"); EField (EVar "self") (Fname "state")]).

(** src/combinators/bounded.rs:97-99 [size_hint]. *)
Definition text_Range_parse_many_Iter_size_hint : fndef := mkFn true [PVar false "self"]
  (ECon "" "" [EField (EField (EVar "self") (Fname "data")) (Fpos 0); ECon "Option" "Some" [EField (EField (EVar "self") (Fname "data")) (Fpos 1)]]).

(** src/combinators/bounded.rs:102-124 [next]. *)
Definition text_Range_parse_many_Iter_next : fndef := mkFn true [PVar false "self"]
  (ESeq (EIf (EBin OEq (EField (EField (EVar "self") (Fname "data")) (Fpos 1)) (ENat 0)) (ESeq (EReturn (ECon "Option" "None" [])) (EUnit)) (EUnit)) (EMatch (EMethod (ECall (EField (EVar "self") (Fname "parser")) [EMethod (EField (EVar "self") (Fname "buf")) "clone" []]) "into_inner" []) [(PCon "State" "Data" [PVar false "b"; PVar false "v"], None, ESeq (ESet (EField (EVar "self") (Fname "buf")) (EVar "b")) (ESeq (ESeq (ESet (EField (EField (EVar "self") (Fname "data")) (Fpos 0)) (EIf (EBin OEq (EField (EField (EVar "self") (Fname "data")) (Fpos 0)) (ENat 0)) (ENat 0) (EBin OSub (EField (EField (EVar "self") (Fname "data")) (Fpos 0)) (ENat 1)))) (ESeq (ESet (EField (EField (EVar "self") (Fname "data")) (Fpos 1)) (EBin OSub (EField (EField (EVar "self") (Fname "data")) (Fpos 1)) (ENat 1))) (EUnit))) (ECon "Option" "Some" [EVar "v"]))); (PCon "State" "Error" [PVar false "b"; PVar false "e"], None, ESeq (ESet (EField (EVar "self") (Fname "state")) (ECon "Range.parse_many.EndState" "Error" [EVar "b"; EVar "e"])) (ECon "Option" "None" [])); (PCon "State" "Incomplete" [PVar false "n"], None, ESeq (ESet (EField (EVar "self") (Fname "state")) (ECon "Range.parse_many.EndState" "Incomplete" [EVar "n"])) (ECon "Option" "None" []))])).

(** src/combinators/bounded.rs:197-199 [end_state]. *)
Definition text_Range_many_till_IterTill_end_state : fndef := mkFn false [PVar false "self"]
  (ECon "" "" [EField (EVar "self") (Fname "buf"); EField (EVar "self") (Fname "data"); EField (EVar "self") (Fname "state")]).

(** src/combinators/bounded.rs:213-215 [size_hint]. *)
Definition text_Range_many_till_IterTill_size_hint : fndef := mkFn true [PVar false "self"]
  (ECon "" "" [EField (EField (EVar "self") (Fname "data")) (Fpos 0); ECon "Option" "Some" [EField (EField (EVar "self") (Fname "data")) (Fpos 1)]]).

(** src/combinators/bounded.rs:218-240 [next]. *)
Definition text_Range_many_till_IterTill_next : fndef := mkFn true [PVar false "self"]
  (ESeq (ESeq (EIf (EBin OEq (EField (EField (EVar "self") (Fname "data")) (Fpos 0)) (ENat 0)) (ESeq (EMatch (EMethod (ECall (EField (EVar "self") (Fname "end")) [EMethod (EField (EVar "self") (Fname "buf")) "clone" []]) "into_inner" []) [(PCon "State" "Data" [PVar false "b"; PWild], None, ESeq (ESet (EField (EVar "self") (Fname "buf")) (EVar "b")) (ESeq (ESet (EField (EVar "self") (Fname "state")) (ECon "Range.many_till.EndStateTill" "EndSuccess" [])) (EReturn (ECon "Option" "None" [])))); (PWild, None, EUnit)]) (EUnit)) (EUnit)) (EIf (EBin OEq (EField (EField (EVar "self") (Fname "data")) (Fpos 1)) (ENat 0)) (ESeq (EMatch (EMethod (ECall (EField (EVar "self") (Fname "end")) [EMethod (EField (EVar "self") (Fname "buf")) "clone" []]) "into_inner" []) [(PCon "State" "Data" [PVar false "b"; PWild], None, ESeq (ESet (EField (EVar "self") (Fname "buf")) (EVar "b")) (ESeq (ESet (EField (EVar "self") (Fname "state")) (ECon "Range.many_till.EndStateTill" "EndSuccess" [])) (EReturn (ECon "Option" "None" [])))); (PWild, None, EUnit)]) (ESeq (EReturn (ECon "Option" "None" [])) (EUnit))) (EUnit))) (EMatch (EMethod (ECall (EField (EVar "self") (Fname "parser")) [EMethod (EField (EVar "self") (Fname "buf")) "clone" []]) "into_inner" []) [(PCon "State" "Data" [PVar false "b"; PVar false "v"], None, ESeq (ESet (EField (EVar "self") (Fname "buf")) (EVar "b")) (ESeq (ESeq (ESet (EField (EField (EVar "self") (Fname "data")) (Fpos 0)) (EIf (EBin OEq (EField (EField (EVar "self") (Fname "data")) (Fpos 0)) (ENat 0)) (ENat 0) (EBin OSub (EField (EField (EVar "self") (Fname "data")) (Fpos 0)) (ENat 1)))) (ESeq (ESet (EField (EField (EVar "self") (Fname "data")) (Fpos 1)) (EBin OSub (EField (EField (EVar "self") (Fname "data")) (Fpos 1)) (ENat 1))) (EUnit))) (ECon "Option" "Some" [EVar "v"]))); (PCon "State" "Error" [PVar false "b"; PVar false "e"], None, ESeq (ESet (EField (EVar "self") (Fname "state")) (ECon "Range.many_till.EndStateTill" "Error" [EVar "b"; EVar "e"])) (ECon "Option" "None" [])); (PCon "State" "Incomplete" [PVar false "n"], None, ESeq (ESet (EField (EVar "self") (Fname "state")) (ECon "Range.many_till.EndStateTill" "Incomplete" [EVar "n"])) (ECon "Option" "None" []))])).

(** src/combinators/bounded.rs:84-86 [end_state]. *)
Definition text_RangeFrom_parse_many_Iter_end_state : fndef := mkFn false [PVar false "self"]
  (ECon "" "" [EField (EVar "self") (Fname "buf"); EField (EVar "self") (Fname "data"); EField (EVar "self") (Fname "state")]).

(** src/combinators/bounded.rs:97-99 [size_hint]. *)
Definition text_RangeFrom_parse_many_Iter_size_hint : fndef := mkFn true [PVar false "self"]
  (ECon "" "" [EField (EVar "self") (Fname "data"); ECon "Option" "None" []]).

(** src/combinators/bounded.rs:102-124 [next]. *)
Definition text_RangeFrom_parse_many_Iter_next : fndef := mkFn true [PVar false "self"]
  (ESeq (EUnit) (EMatch (EMethod (ECall (EField (EVar "self") (Fname "parser")) [EMethod (EField (EVar "self") (Fname "buf")) "clone" []]) "into_inner" []) [(PCon "State" "Data" [PVar false "b"; PVar false "v"], None, ESeq (ESet (EField (EVar "self") (Fname "buf")) (EVar "b")) (ESeq (ESeq (ESet (EField (EVar "self") (Fname "data")) (EIf (EBin OEq (EField (EVar "self") (Fname "data")) (ENat 0)) (ENat 0) (EBin OSub (EField (EVar "self") (Fname "data")) (ENat 1)))) (EUnit)) (ECon "Option" "Some" [EVar "v"]))); (PCon "State" "Error" [PVar false "b"; PVar false "e"], None, ESeq (ESet (EField (EVar "self") (Fname "state")) (ECon "RangeFrom.parse_many.EndState" "Error" [EVar "b"; EVar "e"])) (ECon "Option" "None" [])); (PCon "State" "Incomplete" [PVar false "n"], None, ESeq (ESet (EField (EVar "self") (Fname "state")) (ECon "RangeFrom.parse_many.EndState" "Incomplete" [EVar "n"])) (ECon "Option" "None" []))])).

(** src/combinators/bounded.rs:197-199 [end_state]. *)
Definition text_RangeFrom_many_till_IterTill_end_state : fndef := mkFn false [PVar false "self"]
  (ECon "" "" [EField (EVar "self") (Fname "buf"); EField (EVar "self") (Fname "data"); EField (EVar "self") (Fname "state")]).

(** src/combinators/bounded.rs:213-215 [size_hint]. *)
Definition text_RangeFrom_many_till_IterTill_size_hint : fndef := mkFn true [PVar false "self"]
  (ECon "" "" [EField (EVar "self") (Fname "data"); ECon "Option" "None" []]).

(** src/combinators/bounded.rs:218-240 [next]. *)
Definition text_RangeFrom_many_till_IterTill_next : fndef := mkFn true [PVar false "self"]
  (ESeq (EIf (EBin OEq (EField (EVar "self") (Fname "data")) (ENat 0)) (ESeq (EMatch (EMethod (ECall (EField (EVar "self") (Fname "end")) [EMethod (EField (EVar "self") (Fname "buf")) "clone" []]) "into_inner" []) [(PCon "State" "Data" [PVar false "b"; PWild], None, ESeq (ESet (EField (EVar "self") (Fname "buf")) (EVar "b")) (ESeq (ESet (EField (EVar "self") (Fname "state")) (ECon "RangeFrom.many_till.EndStateTill" "EndSuccess" [])) (EReturn (ECon "Option" "None" [])))); (PWild, None, EUnit)]) (EUnit)) (EUnit)) (EMatch (EMethod (ECall (EField (EVar "self") (Fname "parser")) [EMethod (EField (EVar "self") (Fname "buf")) "clone" []]) "into_inner" []) [(PCon "State" "Data" [PVar false "b"; PVar false "v"], None, ESeq (ESet (EField (EVar "self") (Fname "buf")) (EVar "b")) (ESeq (ESeq (ESet (EField (EVar "self") (Fname "data")) (EIf (EBin OEq (EField (EVar "self") (Fname "data")) (ENat 0)) (ENat 0) (EBin OSub (EField (EVar "self") (Fname "data")) (ENat 1)))) (EUnit)) (ECon "Option" "Some" [EVar "v"]))); (PCon "State" "Error" [PVar false "b"; PVar false "e"], None, ESeq (ESet (EField (EVar "self") (Fname "state")) (ECon "RangeFrom.many_till.EndStateTill" "Error" [EVar "b"; EVar "e"])) (ECon "Option" "None" [])); (PCon "State" "Incomplete" [PVar false "n"], None, ESeq (ESet (EField (EVar "self") (Fname "state")) (ECon "RangeFrom.many_till.EndStateTill" "Incomplete" [EVar "n"])) (ECon "Option" "None" []))])).

(** src/combinators/bounded.rs:84-86 [end_state]. *)
Definition text_RangeFull_parse_many_Iter_end_state : fndef := mkFn false [PVar false "self"]
  (ECon "" "" [EField (EVar "self") (Fname "buf"); EField (EVar "self") (Fname "data"); EField (EVar "self") (Fname "state")]).

(** src/combinators/bounded.rs:97-99 [size_hint]. *)
Definition text_RangeFull_parse_many_Iter_size_hint : fndef := mkFn true [PVar false "self"]
  (ECon "" "" [ENat 0; ECon "Option" "None" []]).

(** src/combinators/bounded.rs:102-124 [next]. *)
Definition text_RangeFull_parse_many_Iter_next : fndef := mkFn true [PVar false "self"]
  (ESeq (EUnit) (EMatch (EMethod (ECall (EField (EVar "self") (Fname "parser")) [EMethod (EField (EVar "self") (Fname "buf")) "clone" []]) "into_inner" []) [(PCon "State" "Data" [PVar false "b"; PVar false "v"], None, ESeq (ESet (EField (EVar "self") (Fname "buf")) (EVar "b")) (ESeq (EUnit) (ECon "Option" "Some" [EVar "v"]))); (PCon "State" "Error" [PVar false "b"; PVar false "e"], None, ESeq (ESet (EField (EVar "self") (Fname "state")) (ECon "RangeFull.parse_many.EndState" "Error" [EVar "b"; EVar "e"])) (ECon "Option" "None" [])); (PCon "State" "Incomplete" [PVar false "n"], None, ESeq (ESet (EField (EVar "self") (Fname "state")) (ECon "RangeFull.parse_many.EndState" "Incomplete" [EVar "n"])) (ECon "Option" "None" []))])).

(** src/combinators/bounded.rs:197-199 [end_state]. *)
Definition text_RangeFull_many_till_IterTill_end_state : fndef := mkFn false [PVar false "self"]
  (ECon "" "" [EField (EVar "self") (Fname "buf"); EField (EVar "self") (Fname "data"); EField (EVar "self") (Fname "state")]).

(** src/combinators/bounded.rs:213-215 [size_hint]. *)
Definition text_RangeFull_many_till_IterTill_size_hint : fndef := mkFn true [PVar false "self"]
  (ECon "" "" [ENat 0; ECon "Option" "None" []]).

(** src/combinators/bounded.rs:218-240 [next]. *)
Definition text_RangeFull_many_till_IterTill_next : fndef := mkFn true [PVar false "self"]
  (ESeq (ESeq (EMatch (EMethod (ECall (EField (EVar "self") (Fname "end")) [EMethod (EField (EVar "self") (Fname "buf")) "clone" []]) "into_inner" []) [(PCon "State" "Data" [PVar false "b"; PWild], None, ESeq (ESet (EField (EVar "self") (Fname "buf")) (EVar "b")) (ESeq (ESet (EField (EVar "self") (Fname "state")) (ECon "RangeFull.many_till.EndStateTill" "EndSuccess" [])) (EReturn (ECon "Option" "None" [])))); (PWild, None, EUnit)]) (EUnit)) (EMatch (EMethod (ECall (EField (EVar "self") (Fname "parser")) [EMethod (EField (EVar "self") (Fname "buf")) "clone" []]) "into_inner" []) [(PCon "State" "Data" [PVar false "b"; PVar false "v"], None, ESeq (ESet (EField (EVar "self") (Fname "buf")) (EVar "b")) (ESeq (EUnit) (ECon "Option" "Some" [EVar "v"]))); (PCon "State" "Error" [PVar false "b"; PVar false "e"], None, ESeq (ESet (EField (EVar "self") (Fname "state")) (ECon "RangeFull.many_till.EndStateTill" "Error" [EVar "b"; EVar "e"])) (ECon "Option" "None" [])); (PCon "State" "Incomplete" [PVar false "n"], None, ESeq (ESet (EField (EVar "self") (Fname "state")) (ECon "RangeFull.many_till.EndStateTill" "Incomplete" [EVar "n"])) (ECon "Option" "None" []))])).

(** src/combinators/bounded.rs:84-86 [end_state]. *)
Definition text_RangeTo_parse_many_Iter_end_state : fndef := mkFn false [PVar false "self"]
  (ECon "" "" [EField (EVar "self") (Fname "buf"); EField (EVar "self") (Fname "data"); EField (EVar "self") (Fname "state")]).

(** src/combinators/bounded.rs:97-99 [size_hint]. *)
Definition text_RangeTo_parse_many_Iter_size_hint : fndef := mkFn true [PVar false "self"]
  (ECon "" "" [ENat 0; ECon "Option" "Some" [EField (EVar "self") (Fname "data")]]).

(** src/combinators/bounded.rs:102-124 [next]. *)
Definition text_RangeTo_parse_many_Iter_next : fndef := mkFn true [PVar false "self"]
  (ESeq (EIf (EBin OEq (EField (EVar "self") (Fname "data")) (ENat 0)) (ESeq (EReturn (ECon "Option" "None" [])) (EUnit)) (EUnit)) (EMatch (EMethod (ECall (EField (EVar "self") (Fname "parser")) [EMethod (EField (EVar "self") (Fname "buf")) "clone" []]) "into_inner" []) [(PCon "State" "Data" [PVar false "b"; PVar false "v"], None, ESeq (ESet (EField (EVar "self") (Fname "buf")) (EVar "b")) (ESeq (ESeq (ESet (EField (EVar "self") (Fname "data")) (EBin OSub (EField (EVar "self") (Fname "data")) (ENat 1))) (EUnit)) (ECon "Option" "Some" [EVar "v"]))); (PCon "State" "Error" [PVar false "b"; PVar false "e"], None, ESeq (ESet (EField (EVar "self") (Fname "state")) (ECon "RangeTo.parse_many.EndState" "Error" [EVar "b"; EVar "e"])) (ECon "Option" "None" [])); (PCon "State" "Incomplete" [PVar false "n"], None, ESeq (ESet (EField (EVar "self") (Fname "state")) (ECon "RangeTo.parse_many.EndState" "Incomplete" [EVar "n"])) (ECon "Option" "None" []))])).

(** src/combinators/bounded.rs:197-199 [end_state]. *)
Definition text_RangeTo_many_till_IterTill_end_state : fndef := mkFn false [PVar false "self"]
  (ECon "" "" [EField (EVar "self") (Fname "buf"); EField (EVar "self") (Fname "data"); EField (EVar "self") (Fname "state")]).

(** src/combinators/bounded.rs:213-215 [size_hint]. *)
Definition text_RangeTo_many_till_IterTill_size_hint : fndef := mkFn true [PVar false "self"]
  (ECon "" "" [ENat 0; ECon "Option" "Some" [EField (EVar "self") (Fname "data")]]).

(** src/combinators/bounded.rs:218-240 [next]. *)
Definition text_RangeTo_many_till_IterTill_next : fndef := mkFn true [PVar false "self"]
  (ESeq (ESeq (EMatch (EMethod (ECall (EField (EVar "self") (Fname "end")) [EMethod (EField (EVar "self") (Fname "buf")) "clone" []]) "into_inner" []) [(PCon "State" "Data" [PVar false "b"; PWild], None, ESeq (ESet (EField (EVar "self") (Fname "buf")) (EVar "b")) (ESeq (ESet (EField (EVar "self") (Fname "state")) (ECon "RangeTo.many_till.EndStateTill" "EndSuccess" [])) (EReturn (ECon "Option" "None" [])))); (PWild, None, EUnit)]) (EIf (EBin OEq (EField (EVar "self") (Fname "data")) (ENat 0)) (ESeq (EReturn (ECon "Option" "None" [])) (EUnit)) (EUnit))) (EMatch (EMethod (ECall (EField (EVar "self") (Fname "parser")) [EMethod (EField (EVar "self") (Fname "buf")) "clone" []]) "into_inner" []) [(PCon "State" "Data" [PVar false "b"; PVar false "v"], None, ESeq (ESet (EField (EVar "self") (Fname "buf")) (EVar "b")) (ESeq (ESeq (ESet (EField (EVar "self") (Fname "data")) (EBin OSub (EField (EVar "self") (Fname "data")) (ENat 1))) (EUnit)) (ECon "Option" "Some" [EVar "v"]))); (PCon "State" "Error" [PVar false "b"; PVar false "e"], None, ESeq (ESet (EField (EVar "self") (Fname "state")) (ECon "RangeTo.many_till.EndStateTill" "Error" [EVar "b"; EVar "e"])) (ECon "Option" "None" [])); (PCon "State" "Incomplete" [PVar false "n"], None, ESeq (ESet (EField (EVar "self") (Fname "state")) (ECon "RangeTo.many_till.EndStateTill" "Incomplete" [EVar "n"])) (ECon "Option" "None" []))])).

(** src/combinators/bounded.rs:84-86 [end_state]. *)
Definition text_usize_parse_many_Iter_end_state : fndef := mkFn false [PVar false "self"]
  (ECon "" "" [EField (EVar "self") (Fname "buf"); EField (EVar "self") (Fname "data"); EField (EVar "self") (Fname "state")]).

(** src/combinators/bounded.rs:97-99 [size_hint]. *)
Definition text_usize_parse_many_Iter_size_hint : fndef := mkFn true [PVar false "self"]
  (ECon "" "" [EField (EVar "self") (Fname "data"); ECon "Option" "Some" [EField (EVar "self") (Fname "data")]]).

(** src/combinators/bounded.rs:102-124 [next]. *)
Definition text_usize_parse_many_Iter_next : fndef := mkFn true [PVar false "self"]
  (ESeq (EIf (EBin OEq (EField (EVar "self") (Fname "data")) (ENat 0)) (ESeq (EReturn (ECon "Option" "None" [])) (EUnit)) (EUnit)) (EMatch (EMethod (ECall (EField (EVar "self") (Fname "parser")) [EMethod (EField (EVar "self") (Fname "buf")) "clone" []]) "into_inner" []) [(PCon "State" "Data" [PVar false "b"; PVar false "v"], None, ESeq (ESet (EField (EVar "self") (Fname "buf")) (EVar "b")) (ESeq (ESeq (ESet (EField (EVar "self") (Fname "data")) (EBin OSub (EField (EVar "self") (Fname "data")) (ENat 1))) (EUnit)) (ECon "Option" "Some" [EVar "v"]))); (PCon "State" "Error" [PVar false "b"; PVar false "e"], None, ESeq (ESet (EField (EVar "self") (Fname "state")) (ECon "usize.parse_many.EndState" "Error" [EVar "b"; EVar "e"])) (ECon "Option" "None" [])); (PCon "State" "Incomplete" [PVar false "n"], None, ESeq (ESet (EField (EVar "self") (Fname "state")) (ECon "usize.parse_many.EndState" "Incomplete" [EVar "n"])) (ECon "Option" "None" []))])).

(** src/combinators/bounded.rs:197-199 [end_state]. *)
Definition text_usize_many_till_IterTill_end_state : fndef := mkFn false [PVar false "self"]
  (ECon "" "" [EField (EVar "self") (Fname "buf"); EField (EVar "self") (Fname "data"); EField (EVar "self") (Fname "state")]).

(** src/combinators/bounded.rs:213-215 [size_hint]. *)
Definition text_usize_many_till_IterTill_size_hint : fndef := mkFn true [PVar false "self"]
  (ECon "" "" [EField (EVar "self") (Fname "data"); ECon "Option" "Some" [EField (EVar "self") (Fname "data")]]).

(** src/combinators/bounded.rs:218-240 [next]. *)
Definition text_usize_many_till_IterTill_next : fndef := mkFn true [PVar false "self"]
  (ESeq (EIf (EBin OEq (EField (EVar "self") (Fname "data")) (ENat 0)) (ESeq (EMatch (EMethod (ECall (EField (EVar "self") (Fname "end")) [EMethod (EField (EVar "self") (Fname "buf")) "clone" []]) "into_inner" []) [(PCon "State" "Data" [PVar false "b"; PWild], None, ESeq (ESet (EField (EVar "self") (Fname "buf")) (EVar "b")) (ESeq (ESet (EField (EVar "self") (Fname "state")) (ECon "usize.many_till.EndStateTill" "EndSuccess" [])) (EReturn (ECon "Option" "None" [])))); (PWild, None, EUnit)]) (ESeq (EReturn (ECon "Option" "None" [])) (EUnit))) (EUnit)) (EMatch (EMethod (ECall (EField (EVar "self") (Fname "parser")) [EMethod (EField (EVar "self") (Fname "buf")) "clone" []]) "into_inner" []) [(PCon "State" "Data" [PVar false "b"; PVar false "v"], None, ESeq (ESet (EField (EVar "self") (Fname "buf")) (EVar "b")) (ESeq (ESeq (ESet (EField (EVar "self") (Fname "data")) (EBin OSub (EField (EVar "self") (Fname "data")) (ENat 1))) (EUnit)) (ECon "Option" "Some" [EVar "v"]))); (PCon "State" "Error" [PVar false "b"; PVar false "e"], None, ESeq (ESet (EField (EVar "self") (Fname "state")) (ECon "usize.many_till.EndStateTill" "Error" [EVar "b"; EVar "e"])) (ECon "Option" "None" [])); (PCon "State" "Incomplete" [PVar false "n"], None, ESeq (ESet (EField (EVar "self") (Fname "state")) (ECon "usize.many_till.EndStateTill" "Incomplete" [EVar "n"])) (ECon "Option" "None" []))])).

(** All Rust functions of the text, as compiled with or without the feature verbose_error (Cargo.toml:33). *)
Definition text (verbose : bool) : list (string * string * fndef) :=
  [("const", "input::DEFAULT", flag_input_DEFAULT);
   ("const", "input::END_OF_INPUT", flag_input_END_OF_INPUT);
   ("input", "new", text_input_new);
   ("Input", "new", text_Input_new);
   ("Input", "ret", text_Input_ret);
   ("Input", "err", text_Input_err);
   ("Input", "incomplete", text_Input_incomplete);
   ("Input", "from_result", text_Input_from_result);
   ("Input", "clone", text_Input_clone);
   ("Input", "buffer", text_Input_buffer);
   ("Input", "replace", text_Input_replace);
   ("Input", "is_last_slice", text_Input_is_last_slice);
   ("parse_result", "new", text_parse_result_new);
   ("ParseResult", "bind", text_ParseResult_bind);
   ("ParseResult", "then", text_ParseResult_then);
   ("ParseResult", "map", text_ParseResult_map);
   ("ParseResult", "map_err", text_ParseResult_map_err);
   ("ParseResult", "inspect", text_ParseResult_inspect);
   ("ParseResult", "unwrap", text_ParseResult_unwrap);
   ("ParseResult", "expect", text_ParseResult_expect);
   ("ParseResult", "unwrap_err", text_ParseResult_unwrap_err);
   ("ParseResult", "into_inner", text_ParseResult_into_inner);
   ("", "parse_only", text_parse_only);
   ("", "any", text_any);
   ("", "satisfy", text_satisfy);
   ("", "satisfy_with", text_satisfy_with);
   ("", "token", text_token);
   ("", "not_token", text_not_token);
   ("", "peek", text_peek);
   ("", "peek_next", text_peek_next);
   ("", "take", text_take);
   ("", "take_while", text_take_while);
   ("", "take_while1", text_take_while1);
   ("", "take_till", text_take_till);
   ("", "scan", text_scan);
   ("", "run_scanner", text_run_scanner);
   ("", "take_remainder", text_take_remainder);
   ("", "string", text_string);
   ("", "eof", text_eof);
   ("", "count", text_count);
   ("", "option", text_option);
   ("", "or", text_or);
   ("", "many", text_many);
   ("", "many1", text_many1);
   ("", "sep_by", text_sep_by);
   ("", "sep_by1", text_sep_by1);
   ("", "many_till", text_many_till);
   ("", "skip_many", text_skip_many);
   ("", "skip_many1", text_skip_many1);
   ("", "matched_by", text_matched_by);
   ("", "look_ahead", text_look_ahead);
   ("Range", "parse_many", text_Range_parse_many);
   ("Range", "skip_many", text_Range_skip_many);
   ("Range", "many_till", text_Range_many_till);
   ("RangeFrom", "parse_many", text_RangeFrom_parse_many);
   ("RangeFrom", "skip_many", text_RangeFrom_skip_many);
   ("RangeFrom", "many_till", text_RangeFrom_many_till);
   ("RangeFull", "parse_many", text_RangeFull_parse_many);
   ("RangeFull", "skip_many", text_RangeFull_skip_many);
   ("RangeFull", "many_till", text_RangeFull_many_till);
   ("RangeTo", "parse_many", text_RangeTo_parse_many);
   ("RangeTo", "skip_many", text_RangeTo_skip_many);
   ("RangeTo", "many_till", text_RangeTo_many_till);
   ("usize", "parse_many", text_usize_parse_many);
   ("usize", "skip_many", text_usize_skip_many);
   ("usize", "many_till", text_usize_many_till);
   ("bounded", "many", text_bounded_many);
   ("bounded", "skip_many", text_bounded_skip_many);
   ("bounded", "many_till", text_bounded_many_till);
   ("Range.parse_many.Iter", "end_state", text_Range_parse_many_Iter_end_state);
   ("Range.parse_many.Iter", "size_hint", text_Range_parse_many_Iter_size_hint);
   ("Range.parse_many.Iter", "next", text_Range_parse_many_Iter_next);
   ("Range.many_till.IterTill", "end_state", text_Range_many_till_IterTill_end_state);
   ("Range.many_till.IterTill", "size_hint", text_Range_many_till_IterTill_size_hint);
   ("Range.many_till.IterTill", "next", text_Range_many_till_IterTill_next);
   ("RangeFrom.parse_many.Iter", "end_state", text_RangeFrom_parse_many_Iter_end_state);
   ("RangeFrom.parse_many.Iter", "size_hint", text_RangeFrom_parse_many_Iter_size_hint);
   ("RangeFrom.parse_many.Iter", "next", text_RangeFrom_parse_many_Iter_next);
   ("RangeFrom.many_till.IterTill", "end_state", text_RangeFrom_many_till_IterTill_end_state);
   ("RangeFrom.many_till.IterTill", "size_hint", text_RangeFrom_many_till_IterTill_size_hint);
   ("RangeFrom.many_till.IterTill", "next", text_RangeFrom_many_till_IterTill_next);
   ("RangeFull.parse_many.Iter", "end_state", text_RangeFull_parse_many_Iter_end_state);
   ("RangeFull.parse_many.Iter", "size_hint", text_RangeFull_parse_many_Iter_size_hint);
   ("RangeFull.parse_many.Iter", "next", text_RangeFull_parse_many_Iter_next);
   ("RangeFull.many_till.IterTill", "end_state", text_RangeFull_many_till_IterTill_end_state);
   ("RangeFull.many_till.IterTill", "size_hint", text_RangeFull_many_till_IterTill_size_hint);
   ("RangeFull.many_till.IterTill", "next", text_RangeFull_many_till_IterTill_next);
   ("RangeTo.parse_many.Iter", "end_state", text_RangeTo_parse_many_Iter_end_state);
   ("RangeTo.parse_many.Iter", "size_hint", text_RangeTo_parse_many_Iter_size_hint);
   ("RangeTo.parse_many.Iter", "next", text_RangeTo_parse_many_Iter_next);
   ("RangeTo.many_till.IterTill", "end_state", text_RangeTo_many_till_IterTill_end_state);
   ("RangeTo.many_till.IterTill", "size_hint", text_RangeTo_many_till_IterTill_size_hint);
   ("RangeTo.many_till.IterTill", "next", text_RangeTo_many_till_IterTill_next);
   ("usize.parse_many.Iter", "end_state", text_usize_parse_many_Iter_end_state);
   ("usize.parse_many.Iter", "size_hint", text_usize_parse_many_Iter_size_hint);
   ("usize.parse_many.Iter", "next", text_usize_parse_many_Iter_next);
   ("usize.many_till.IterTill", "end_state", text_usize_many_till_IterTill_end_state);
   ("usize.many_till.IterTill", "size_hint", text_usize_many_till_IterTill_size_hint);
   ("usize.many_till.IterTill", "next", text_usize_many_till_IterTill_next)] ++
  (if verbose then [("err", "unexpected", text_verbose_err_unexpected);
   ("err", "expected", text_verbose_err_expected);
   ("err", "string", text_verbose_err_string)]
   else [("err", "unexpected", text_plain_err_unexpected);
   ("err", "expected", text_plain_err_expected);
   ("err", "string", text_plain_err_string)]).
