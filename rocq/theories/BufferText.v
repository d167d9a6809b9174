(** The text of functions of src/*.rs as terms of Rust.v.  Written by tools/rust_text.py from /repo: do not edit. *)
From Coq Require Import List Bool Arith String.
From Verif Require Import Rust RustText.
Import ListNotations.
Local Open Scope string_scope.

(** src/buffer/buffer.rs:9 [DEFAULT_BUFFER_SIZE]. *)
Definition const_buffers_DEFAULT_BUFFER_SIZE : fndef := mkFn false [] (EBin OMul (ENat 6) (ENat 1024)).

(** src/buffer/stateful.rs:26 [AUTOMATIC_FILL]. *)
Definition flag_stateful_AUTOMATIC_FILL : fndef := mkFn false [] (EFlags 4).

(** src/buffer/stateful.rs:24 [END_OF_INPUT]. *)
Definition flag_stateful_END_OF_INPUT : fndef := mkFn false [] (EFlags 2).

(** src/buffer/stateful.rs:21 [INCOMPLETE]. *)
Definition flag_stateful_INCOMPLETE : fndef := mkFn false [] (EFlags 1).

(** src/buffer/data_source.rs:32-34 [new]. *)
Definition text_ReadDataSource_new : fndef := mkFn false [PVar false "inner"]
  (ECon "ReadDataSource" "" [EVar "inner"]).

(** src/buffer/data_source.rs:38-40 [into_inner]. *)
Definition text_ReadDataSource_into_inner : fndef := mkFn false [PVar false "self"]
  (EField (EVar "self") (Fpos 0)).

(** src/buffer/data_source.rs:47-49 [read]. *)
Definition text_ReadDataSource_read : fndef := mkFn true [PVar false "self"; PVar false "buffer"]
  (EMethod (EField (EVar "self") (Fpos 0)) "read" [EVar "buffer"]).

(** src/buffer/data_source.rs:60-62 [new]. *)
Definition text_IteratorDataSource_new : fndef := mkFn false [PVar false "inner"]
  (ECon "IteratorDataSource" "" [EVar "inner"]).

(** src/buffer/data_source.rs:66-68 [into_inner]. *)
Definition text_IteratorDataSource_into_inner : fndef := mkFn false [PVar false "self"]
  (EField (EVar "self") (Fpos 0)).

(** src/buffer/data_source.rs:75-89 [read]. *)
Definition text_IteratorDataSource_read : fndef := mkFn true [PVar false "self"; PVar false "buffer"]
  (ELet (PVar true "n") (ENat 0) (ESeq (ELoop (EIf (EBin OGt (EMethod (EVar "buffer") "len" []) (EVar "n")) (ESeq (EMatch (EMethod (EField (EVar "self") (Fpos 0)) "next" []) [(PCon "Option" "Some" [PVar false "i"], None, ESeq (ESetAt (EVar "buffer") (EVar "n") (EVar "i")) (EUnit)); (PWild, None, ESeq (EBreak) (EUnit))]) (ESeq (ESet (EVar "n") (EBin OAdd (EVar "n") (ENat 1))) (EUnit))) (EBreak))) (ECon "Result" "Ok" [EVar "n"]))).

(** src/buffer/buffer.rs:76-78 [new]. *)
Definition text_FixedSizeBuffer_new : fndef := mkFn false []
  (ECall (EFn "FixedSizeBuffer" "with_size") [EFn "const" "buffers::DEFAULT_BUFFER_SIZE"]).

(** src/buffer/buffer.rs:82-101 [with_size]. *)
Definition text_FixedSizeBuffer_with_size : fndef := mkFn false [PVar false "size"]
  (ESeq (EIf (EBin OGt (EVar "size") (ENat 0)) (EUnit) (EPanic)) (ELet (PVar true "buf") (ECall (EFn "Vec" "with_capacity") [EVar "size"]) (ESeq (ESeq (EMethod (EVar "buf") "set_len" [EVar "size"]) (EUnit)) (ERec "FixedSizeBuffer" [("buffer", EVar "buf"); ("populated", ENat 0); ("used", ECall (EFn "Cell" "new") [ENat 0])])))).

(** src/buffer/buffer.rs:108-110 [deref]. *)
Definition text_FixedSizeBuffer_deref : fndef := mkFn true [PVar false "self"]
  (EAddr false (ESlice (EField (EVar "self") (Fname "buffer")) (Some (EMethod (EField (EVar "self") (Fname "used")) "get" [])) (Some (EField (EVar "self") (Fname "populated"))))).

(** src/buffer/buffer.rs:115-117 [deref_mut]. *)
Definition text_FixedSizeBuffer_deref_mut : fndef := mkFn true [PVar false "self"]
  (ESliceMut (EField (EVar "self") (Fname "buffer")) (Some (EMethod (EField (EVar "self") (Fname "used")) "get" [])) (Some (EField (EVar "self") (Fname "populated")))).

(** src/buffer/buffer.rs:122-130 [fill]. *)
Definition text_FixedSizeBuffer_fill : fndef := mkFn true [PVar false "self"; PVar false "s"]
  (EMethod (EMethod (EVar "s") "read" [ESliceMut (EField (EVar "self") (Fname "buffer")) (Some (EField (EVar "self") (Fname "populated"))) None]) "map" [EClos [PVar false "n"] (ESeq (EIf (EBin OLe (EBin OAdd (EField (EVar "self") (Fname "populated")) (EVar "n")) (EMethod (EField (EVar "self") (Fname "buffer")) "len" [])) (EUnit) (EPanic)) (ESeq (ESet (EField (EVar "self") (Fname "populated")) (EBin OAdd (EField (EVar "self") (Fname "populated")) (EVar "n"))) (EVar "n")))]).

(** src/buffer/buffer.rs:133-147 [request_space]. *)
Definition text_FixedSizeBuffer_request_space : fndef := mkFn true [PVar false "self"; PVar false "items"]
  (ESeq (EIf (EBin OGe (EField (EVar "self") (Fname "populated")) (EMethod (EField (EVar "self") (Fname "used")) "get" [])) (EUnit) (EPanic)) (EIf (EBin OLt (EBin OSub (EMethod (EField (EVar "self") (Fname "buffer")) "len" []) (EField (EVar "self") (Fname "populated"))) (EVar "items")) (ESeq (ESeq (ECall (EFn "ptr" "copy") [EMethod (EMethod (EField (EVar "self") (Fname "buffer")) "as_ptr" []) "offset" [EMethod (EField (EVar "self") (Fname "used")) "get" []]; EMethod (EField (EVar "self") (Fname "buffer")) "as_mut_ptr" []; EBin OSub (EField (EVar "self") (Fname "populated")) (EMethod (EField (EVar "self") (Fname "used")) "get" [])]) (EUnit)) (ESeq (ESet (EField (EVar "self") (Fname "populated")) (EBin OSub (EField (EVar "self") (Fname "populated")) (EMethod (EField (EVar "self") (Fname "used")) "get" []))) (ESeq (EMethod (EField (EVar "self") (Fname "used")) "set" [ENat 0]) (EUnit)))) (EUnit))).

(** src/buffer/buffer.rs:150-154 [consume]. *)
Definition text_FixedSizeBuffer_consume : fndef := mkFn true [PVar false "self"; PVar false "items"]
  (ESeq (EIf (EBin OLe (EBin OAdd (EMethod (EField (EVar "self") (Fname "used")) "get" []) (EVar "items")) (EField (EVar "self") (Fname "populated"))) (EUnit) (EPanic)) (EMethod (EField (EVar "self") (Fname "used")) "set" [EBin OAdd (EMethod (EField (EVar "self") (Fname "used")) "get" []) (EVar "items")])).

(** src/buffer/buffer.rs:157-159 [len]. *)
Definition text_FixedSizeBuffer_len : fndef := mkFn true [PVar false "self"]
  (EBin OSub (EField (EVar "self") (Fname "populated")) (EMethod (EField (EVar "self") (Fname "used")) "get" [])).

(** src/buffer/buffer.rs:162-164 [capacity]. *)
Definition text_FixedSizeBuffer_capacity : fndef := mkFn true [PVar false "self"]
  (EMethod (EField (EVar "self") (Fname "buffer")) "len" []).

(** src/buffer/buffer.rs:190-192 [new]. *)
Definition text_GrowingBuffer_new : fndef := mkFn false []
  (ECall (EFn "GrowingBuffer" "with_limit") [ENat 0]).

(** src/buffer/buffer.rs:201-208 [with_limit]. *)
Definition text_GrowingBuffer_with_limit : fndef := mkFn false [PVar false "limit"]
  (ERec "GrowingBuffer" [("buffer", ECall (EFn "Vec" "new") []); ("populated", ENat 0); ("limit", EVar "limit"); ("used", ECall (EFn "Cell" "new") [ENat 0])]).

(** src/buffer/buffer.rs:215-217 [deref]. *)
Definition text_GrowingBuffer_deref : fndef := mkFn true [PVar false "self"]
  (EAddr false (ESlice (EField (EVar "self") (Fname "buffer")) (Some (EMethod (EField (EVar "self") (Fname "used")) "get" [])) (Some (EField (EVar "self") (Fname "populated"))))).

(** src/buffer/buffer.rs:222-224 [deref_mut]. *)
Definition text_GrowingBuffer_deref_mut : fndef := mkFn true [PVar false "self"]
  (ESliceMut (EField (EVar "self") (Fname "buffer")) (Some (EMethod (EField (EVar "self") (Fname "used")) "get" [])) (Some (EField (EVar "self") (Fname "populated")))).

(** src/buffer/buffer.rs:229-237 [fill]. *)
Definition text_GrowingBuffer_fill : fndef := mkFn true [PVar false "self"; PVar false "s"]
  (EMethod (EMethod (EVar "s") "read" [ESliceMut (EField (EVar "self") (Fname "buffer")) (Some (EField (EVar "self") (Fname "populated"))) None]) "map" [EClos [PVar false "n"] (ESeq (EIf (EBin OLe (EBin OAdd (EField (EVar "self") (Fname "populated")) (EVar "n")) (EMethod (EField (EVar "self") (Fname "buffer")) "len" [])) (EUnit) (EPanic)) (ESeq (ESet (EField (EVar "self") (Fname "populated")) (EBin OAdd (EField (EVar "self") (Fname "populated")) (EVar "n"))) (EVar "n")))]).

(** src/buffer/buffer.rs:240-271 [request_space]. *)
Definition text_GrowingBuffer_request_space : fndef := mkFn true [PVar false "self"; PVar false "items"]
  (ESeq (EIf (EAnd (EBin ONe (EField (EVar "self") (Fname "limit")) (ENat 0)) (EBin OGt (EMethod (EField (EVar "self") (Fname "buffer")) "capacity" []) (EField (EVar "self") (Fname "limit")))) (ESeq (EReturn (EUnit)) (EUnit)) (EUnit)) (ESeq (EIf (EBin OGt (EBin OAdd (EVar "items") (EMethod (EVar "self") "len" [])) (EMethod (EField (EVar "self") (Fname "buffer")) "capacity" [])) (ESeq (EMethod (EField (EVar "self") (Fname "buffer")) "reserve" [EVar "items"]) (ELet (PVar false "cap") (EMethod (EField (EVar "self") (Fname "buffer")) "capacity" []) (ESeq (EMethod (EField (EVar "self") (Fname "buffer")) "set_len" [EVar "cap"]) (EUnit)))) (EUnit)) (EIf (EBin OLt (EBin OSub (EMethod (EField (EVar "self") (Fname "buffer")) "len" []) (EField (EVar "self") (Fname "populated"))) (EVar "items")) (ESeq (ESeq (ECall (EFn "ptr" "copy") [EMethod (EMethod (EField (EVar "self") (Fname "buffer")) "as_ptr" []) "offset" [EMethod (EField (EVar "self") (Fname "used")) "get" []]; EMethod (EField (EVar "self") (Fname "buffer")) "as_mut_ptr" []; EBin OSub (EField (EVar "self") (Fname "populated")) (EMethod (EField (EVar "self") (Fname "used")) "get" [])]) (EUnit)) (ESeq (ESet (EField (EVar "self") (Fname "populated")) (EBin OSub (EField (EVar "self") (Fname "populated")) (EMethod (EField (EVar "self") (Fname "used")) "get" []))) (ESeq (EMethod (EField (EVar "self") (Fname "used")) "set" [ENat 0]) (EUnit)))) (EUnit)))).

(** src/buffer/buffer.rs:274-278 [consume]. *)
Definition text_GrowingBuffer_consume : fndef := mkFn true [PVar false "self"; PVar false "items"]
  (ESeq (EIf (EBin OLe (EBin OAdd (EMethod (EField (EVar "self") (Fname "used")) "get" []) (EVar "items")) (EField (EVar "self") (Fname "populated"))) (EUnit) (EPanic)) (EMethod (EField (EVar "self") (Fname "used")) "set" [EBin OAdd (EMethod (EField (EVar "self") (Fname "used")) "get" []) (EVar "items")])).

(** src/buffer/buffer.rs:281-283 [len]. *)
Definition text_GrowingBuffer_len : fndef := mkFn true [PVar false "self"]
  (EBin OSub (EField (EVar "self") (Fname "populated")) (EMethod (EField (EVar "self") (Fname "used")) "get" [])).

(** src/buffer/buffer.rs:286-288 [capacity]. *)
Definition text_GrowingBuffer_capacity : fndef := mkFn true [PVar false "self"]
  (EMethod (EField (EVar "self") (Fname "buffer")) "len" []).

(** src/buffer/slice.rs:51-56 [new]. *)
Definition text_SliceStream_new : fndef := mkFn false [PVar false "slice"]
  (ERec "SliceStream" [("pos", ENat 0); ("slice", EVar "slice")]).

(** src/buffer/slice.rs:60-62 [len]. *)
Definition text_SliceStream_len : fndef := mkFn true [PVar false "self"]
  (EBin OSub (EMethod (EField (EVar "self") (Fname "slice")) "len" []) (EField (EVar "self") (Fname "pos"))).

(** src/buffer/slice.rs:66-68 [is_empty]. *)
Definition text_SliceStream_is_empty : fndef := mkFn true [PVar false "self"]
  (EBin OEq (EMethod (EVar "self") "len" []) (ENat 0)).

(** src/buffer/slice.rs:76-78 [into_stream]. *)
Definition text_slice_into_stream : fndef := mkFn false [PVar false "self"]
  (ECall (EFn "SliceStream" "new") [EVar "self"]).

(** src/buffer/slice.rs:85-109 [parse]. *)
Definition text_SliceStream_parse : fndef := mkFn true [PVar false "self"; PVar false "f"]
  (ESeq (EIf (EMethod (EVar "self") "is_empty" []) (ESeq (EReturn (ECon "Result" "Err" [ECon "StreamError" "EndOfInput" []])) (EUnit)) (EUnit)) (EMatch (EMethod (ECall (EVar "f") [ECall (EFn "input" "new") [EFn "const" "input::END_OF_INPUT"; EAddr false (ESlice (EField (EVar "self") (Fname "slice")) (Some (EField (EVar "self") (Fname "pos"))) None)]]) "into_inner" []) [(PCon "State" "Data" [PVar false "remainder"; PVar false "data"], None, ESeq (ESet (EField (EVar "self") (Fname "pos")) (EBin OAdd (EField (EVar "self") (Fname "pos")) (EBin OSub (EMethod (EVar "self") "len" []) (EMethod (EMethod (EVar "remainder") "buffer" []) "len" [])))) (ECon "Result" "Ok" [EVar "data"])); (PCon "State" "Error" [PVar false "remainder"; PVar false "err"], None, ESeq (ESet (EField (EVar "self") (Fname "pos")) (EBin OAdd (EField (EVar "self") (Fname "pos")) (EBin OSub (EMethod (EVar "self") "len" []) (EMethod (EVar "remainder") "len" [])))) (ECon "Result" "Err" [ECon "StreamError" "ParseError" [EVar "remainder"; EVar "err"]])); (PCon "State" "Incomplete" [PVar false "n"], None, ECon "Result" "Err" [ECon "StreamError" "Incomplete" [EBin OAdd (EVar "n") (EMethod (EVar "self") "len" [])]])])).

(** src/buffer/stateful.rs:46-48 [new]. *)
Definition text_Source_new : fndef := mkFn false [PVar false "source"]
  (ECall (EFn "Source" "with_buffer") [ECall (EFn "ReadDataSource" "new") [EVar "source"]; ECall (EFn "FixedSizeBuffer" "new") []]).

(** src/buffer/stateful.rs:54-56 [from_read]. *)
Definition text_Source_from_read : fndef := mkFn false [PVar false "source"; PVar false "buffer"]
  (ECall (EFn "Source" "with_buffer") [ECall (EFn "ReadDataSource" "new") [EVar "source"]; EVar "buffer"]).

(** src/buffer/stateful.rs:62-64 [from_iter]. *)
Definition text_Source_from_iter : fndef := mkFn false [PVar false "source"; PVar false "buffer"]
  (ECall (EFn "Source" "with_buffer") [ECall (EFn "IteratorDataSource" "new") [EVar "source"]; EVar "buffer"]).

(** src/buffer/stateful.rs:70-77 [with_buffer]. *)
Definition text_Source_with_buffer : fndef := mkFn false [PVar false "source"; PVar false "buffer"]
  (ERec "Source" [("source", EVar "source"); ("buffer", EVar "buffer"); ("request", ENat 0); ("state", EBin OBitOr (EFn "const" "stateful::INCOMPLETE") (EFn "const" "stateful::AUTOMATIC_FILL"))]).

(** src/buffer/stateful.rs:81-101 [fill_requested]. *)
Definition text_Source_fill_requested : fndef := mkFn true [PVar false "self"; PVar false "request"]
  (ELet (PVar true "read") (ENat 0) (ELet (PVar true "buffer") (EAddr true (EField (EVar "self") (Fname "buffer"))) (ELet (PVar false "source") (EAddr true (EField (EVar "self") (Fname "source"))) (ESeq (EIf (EBin OLt (EMethod (EVar "buffer") "len" []) (EVar "request")) (ELet (PVar false "diff") (EBin OSub (EVar "request") (EMethod (EVar "buffer") "len" [])) (ESeq (EMethod (EVar "buffer") "request_space" [EVar "diff"]) (ELoop (EIf (EBin OLt (EMethod (EVar "buffer") "len" []) (EVar "request")) (EMatch (EMatch (EMethod (EVar "buffer") "fill" [EVar "source"]) [(PCon "Result" "Ok" [PVar false "v"], None, EVar "v"); (PCon "Result" "Err" [PVar false "e"], None, EReturn (ECon "Result" "Err" [ECall (EFn "From" "same") [EVar "e"]]))]) [(PNat 0, None, EBreak); (PVar false "n", None, ESet (EVar "read") (EBin OAdd (EVar "read") (EVar "n")))]) (EBreak))))) (EUnit)) (ECon "Result" "Ok" [EVar "read"]))))).

(** src/buffer/stateful.rs:105-120 [fill]. *)
Definition text_Source_fill : fndef := mkFn true [PVar false "self"]
  (ELet (PVar false "req") (ECall (EFn "cmp" "max") [ENat 1; EField (EVar "self") (Fname "request")]) (EMethod (EMethod (EVar "self") "fill_requested" [EVar "req"]) "map" [EClos [PVar false "n"] (ESeq (EMethod (EField (EVar "self") (Fname "state")) "remove" [EFn "const" "stateful::INCOMPLETE"]) (ESeq (EIf (EBin OGe (EMethod (EField (EVar "self") (Fname "buffer")) "len" []) (EVar "req")) (ESeq (EMethod (EField (EVar "self") (Fname "state")) "remove" [EFn "const" "stateful::END_OF_INPUT"]) (EUnit)) (ESeq (EMethod (EField (EVar "self") (Fname "state")) "insert" [EFn "const" "stateful::END_OF_INPUT"]) (EUnit))) (EVar "n")))])).

(** src/buffer/stateful.rs:124-126 [len]. *)
Definition text_Source_len : fndef := mkFn true [PVar false "self"]
  (EMethod (EField (EVar "self") (Fname "buffer")) "len" []).

(** src/buffer/stateful.rs:130-132 [is_empty]. *)
Definition text_Source_is_empty : fndef := mkFn true [PVar false "self"]
  (EAnd (EMethod (EField (EVar "self") (Fname "state")) "contains" [EFn "const" "stateful::END_OF_INPUT"]) (EBin OEq (EMethod (EVar "self") "len" []) (ENat 0))).

(** src/buffer/stateful.rs:138-140 [capacity]. *)
Definition text_Source_capacity : fndef := mkFn true [PVar false "self"]
  (EMethod (EField (EVar "self") (Fname "buffer")) "capacity" []).

(** src/buffer/stateful.rs:144-146 [buffer]. *)
Definition text_Source_buffer : fndef := mkFn true [PVar false "self"]
  (EMethod (EField (EVar "self") (Fname "buffer")) "deref" []).

(** src/buffer/stateful.rs:153-155 [reset]. *)
Definition text_Source_reset : fndef := mkFn true [PVar false "self"]
  (ESeq (ESet (EField (EVar "self") (Fname "state")) (ECall (EFn "ParserState" "empty") [])) (EUnit)).

(** src/buffer/stateful.rs:161-167 [set_autofill]. *)
Definition text_Source_set_autofill : fndef := mkFn true [PVar false "self"; PVar false "value"]
  (EIf (EVar "value") (EMethod (EField (EVar "self") (Fname "state")) "insert" [EFn "const" "stateful::AUTOMATIC_FILL"]) (EMethod (EField (EVar "self") (Fname "state")) "remove" [EFn "const" "stateful::AUTOMATIC_FILL"])).

(** src/buffer/stateful.rs:172-182 [read]. *)
Definition text_Source_read : fndef := mkFn true [PVar false "self"; PVar false "buf"]
  (ESeq (EIf (EBin OGt (EMethod (EVar "buf") "len" []) (EMethod (EVar "self") "len" [])) (ESeq (EMatch (EMethod (EVar "self") "fill_requested" [EMethod (EVar "buf") "len" []]) [(PCon "Result" "Ok" [PVar false "v"], None, EVar "v"); (PCon "Result" "Err" [PVar false "e"], None, EReturn (ECon "Result" "Err" [ECall (EFn "From" "same") [EVar "e"]]))]) (EUnit)) (EUnit)) (EMethod (EMethod (EAddr false (ESlice (EField (EVar "self") (Fname "buffer")) None None)) "read" [EVar "buf"]) "map" [EClos [PVar false "n"] (ESeq (EMethod (EField (EVar "self") (Fname "buffer")) "consume" [EVar "n"]) (EVar "n"))])).

(** src/buffer/stateful.rs:187-193 [fill_buf]. *)
Definition text_Source_fill_buf : fndef := mkFn true [PVar false "self"]
  (ELet (PVar false "cap") (EMethod (EField (EVar "self") (Fname "buffer")) "capacity" []) (ESeq (EMatch (EMethod (EVar "self") "fill_requested" [EVar "cap"]) [(PCon "Result" "Ok" [PVar false "v"], None, EVar "v"); (PCon "Result" "Err" [PVar false "e"], None, EReturn (ECon "Result" "Err" [ECall (EFn "From" "same") [EVar "e"]]))]) (ECon "Result" "Ok" [EMethod (EVar "self") "buffer" []]))).

(** src/buffer/stateful.rs:196-198 [consume]. *)
Definition text_Source_consume : fndef := mkFn true [PVar false "self"; PVar false "num"]
  (EMethod (EField (EVar "self") (Fname "buffer")) "consume" [EVar "num"]).

(** src/buffer/stateful.rs:206-246 [parse]. *)
Definition text_Source_parse : fndef := mkFn true [PVar false "self"; PVar false "f"]
  (ESeq (EIf (EMethod (EField (EVar "self") (Fname "state")) "contains" [EBin OBitOr (EFn "const" "stateful::INCOMPLETE") (EFn "const" "stateful::AUTOMATIC_FILL")]) (ESeq (EMatch (EMethod (EMethod (EVar "self") "fill" []) "map_err" [ECtor "StreamError" "IoError"]) [(PCon "Result" "Ok" [PVar false "v"], None, EVar "v"); (PCon "Result" "Err" [PVar false "e"], None, EReturn (ECon "Result" "Err" [ECall (EFn "From" "same") [EVar "e"]]))]) (EUnit)) (EUnit)) (ESeq (EIf (EMethod (EVar "self") "is_empty" []) (ESeq (EReturn (ECon "Result" "Err" [ECon "StreamError" "EndOfInput" []])) (EUnit)) (EUnit)) (ELet (PVar false "input_state") (EIf (EMethod (EField (EVar "self") (Fname "state")) "contains" [EFn "const" "stateful::END_OF_INPUT"]) (EFn "const" "input::END_OF_INPUT") (EFn "const" "input::DEFAULT")) (EMatch (EMethod (ECall (EVar "f") [ECall (EFn "input" "new") [EVar "input_state"; EMethod (EField (EVar "self") (Fname "buffer")) "deref" []]]) "into_inner" []) [(PCon "State" "Data" [PVar false "remainder"; PVar false "data"], None, ESeq (EMethod (EField (EVar "self") (Fname "buffer")) "consume" [EBin OSub (EMethod (EField (EVar "self") (Fname "buffer")) "len" []) (EMethod (EMethod (EVar "remainder") "buffer" []) "len" [])]) (ECon "Result" "Ok" [EVar "data"])); (PCon "State" "Error" [PVar false "remainder"; PVar false "err"], None, ESeq (EMethod (EField (EVar "self") (Fname "buffer")) "consume" [EBin OSub (EMethod (EField (EVar "self") (Fname "buffer")) "len" []) (EMethod (EVar "remainder") "len" [])]) (ECon "Result" "Err" [ECon "StreamError" "ParseError" [EVar "remainder"; EVar "err"]])); (PCon "State" "Incomplete" [PVar false "n"], None, ESeq (ESet (EField (EVar "self") (Fname "request")) (EBin OAdd (EMethod (EField (EVar "self") (Fname "buffer")) "len" []) (EVar "n"))) (EIf (EMethod (EField (EVar "self") (Fname "state")) "contains" [EFn "const" "stateful::END_OF_INPUT"]) (ECon "Result" "Err" [ECon "StreamError" "Incomplete" [EField (EVar "self") (Fname "request")]]) (ESeq (EMethod (EField (EVar "self") (Fname "state")) "insert" [EFn "const" "stateful::INCOMPLETE"]) (ECon "Result" "Err" [ECon "StreamError" "Retry" []]))))])))).

(** All Rust functions of src/buffer and those of RustText.v. *)
Definition buffer_text (verbose : bool) : list (string * string * fndef) :=
  [("const", "buffers::DEFAULT_BUFFER_SIZE", const_buffers_DEFAULT_BUFFER_SIZE);
   ("const", "stateful::AUTOMATIC_FILL", flag_stateful_AUTOMATIC_FILL);
   ("const", "stateful::END_OF_INPUT", flag_stateful_END_OF_INPUT);
   ("const", "stateful::INCOMPLETE", flag_stateful_INCOMPLETE);
   ("ReadDataSource", "new", text_ReadDataSource_new);
   ("ReadDataSource", "into_inner", text_ReadDataSource_into_inner);
   ("ReadDataSource", "read", text_ReadDataSource_read);
   ("IteratorDataSource", "new", text_IteratorDataSource_new);
   ("IteratorDataSource", "into_inner", text_IteratorDataSource_into_inner);
   ("IteratorDataSource", "read", text_IteratorDataSource_read);
   ("FixedSizeBuffer", "new", text_FixedSizeBuffer_new);
   ("FixedSizeBuffer", "with_size", text_FixedSizeBuffer_with_size);
   ("FixedSizeBuffer", "deref", text_FixedSizeBuffer_deref);
   ("FixedSizeBuffer", "deref_mut", text_FixedSizeBuffer_deref_mut);
   ("FixedSizeBuffer", "fill", text_FixedSizeBuffer_fill);
   ("FixedSizeBuffer", "request_space", text_FixedSizeBuffer_request_space);
   ("FixedSizeBuffer", "consume", text_FixedSizeBuffer_consume);
   ("FixedSizeBuffer", "len", text_FixedSizeBuffer_len);
   ("FixedSizeBuffer", "capacity", text_FixedSizeBuffer_capacity);
   ("GrowingBuffer", "new", text_GrowingBuffer_new);
   ("GrowingBuffer", "with_limit", text_GrowingBuffer_with_limit);
   ("GrowingBuffer", "deref", text_GrowingBuffer_deref);
   ("GrowingBuffer", "deref_mut", text_GrowingBuffer_deref_mut);
   ("GrowingBuffer", "fill", text_GrowingBuffer_fill);
   ("GrowingBuffer", "request_space", text_GrowingBuffer_request_space);
   ("GrowingBuffer", "consume", text_GrowingBuffer_consume);
   ("GrowingBuffer", "len", text_GrowingBuffer_len);
   ("GrowingBuffer", "capacity", text_GrowingBuffer_capacity);
   ("SliceStream", "new", text_SliceStream_new);
   ("SliceStream", "len", text_SliceStream_len);
   ("SliceStream", "is_empty", text_SliceStream_is_empty);
   ("slice", "into_stream", text_slice_into_stream);
   ("SliceStream", "parse", text_SliceStream_parse);
   ("Source", "new", text_Source_new);
   ("Source", "from_read", text_Source_from_read);
   ("Source", "from_iter", text_Source_from_iter);
   ("Source", "with_buffer", text_Source_with_buffer);
   ("Source", "fill_requested", text_Source_fill_requested);
   ("Source", "fill", text_Source_fill);
   ("Source", "len", text_Source_len);
   ("Source", "is_empty", text_Source_is_empty);
   ("Source", "capacity", text_Source_capacity);
   ("Source", "buffer", text_Source_buffer);
   ("Source", "reset", text_Source_reset);
   ("Source", "set_autofill", text_Source_set_autofill);
   ("Source", "read", text_Source_read);
   ("Source", "fill_buf", text_Source_fill_buf);
   ("Source", "consume", text_Source_consume);
   ("Source", "parse", text_Source_parse)] ++ text verbose.
