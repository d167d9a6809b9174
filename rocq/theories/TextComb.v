(** The text of src/input.rs, src/parse_result.rs, src/parse.rs and of the combinators without loops means what the model says. *)
From Coq Require Import List Bool Arith String Lia.
From Verif Require Import Base.
From Verif Require Parsers.
From Verif Require Import Combinators Rust RustText TextModel TextProofs.
Import ListNotations.

Set Implicit Arguments.
Local Open Scope string_scope.
Local Open Scope nat_scope.

Section Methods.
  Context {I T U E V : Type}.
  Variable eqb : I -> I -> bool.
  Variable verbose : bool.
  Notation says O foreign conv starts acts ty f vs r :=
    (settles (fun n => @call I O (text verbose) foreign eqb conv starts acts n ty f vs) r).
  Notation method := (method_thing T U E V).

  Ltac start := apply settles_deep; intro k; destruct verbose; evaluate.
  Ltac done := start; reflexivity.

  Lemma text_input_new_says O foreign conv starts acts (i : input I) :
    says O foreign conv starts acts "input" "new" [VFlags (if last i then 1 else 0); VSlice (buf i)] (Val (w_input i)).
  Proof. destruct i as [[] b]; done. Qed.
  Lemma text_Input_new_says O foreign conv starts acts (b : list I) :
    says O foreign conv starts acts "Input" "new" [VSlice b] (Val (w_input (input_new b))).
  Proof. done. Qed.
  Lemma text_ret_says foreign conv starts acts (i : input I) t :
    says method foreign conv starts acts "Input" "ret" [w_input i; w_old t] (w_pres w_old w_olderr (ret t i)).
  Proof. destruct i as [[] b]; done. Qed.
  Lemma text_err_says foreign conv starts acts (i : input I) e :
    says method foreign conv starts acts "Input" "err" [w_input i; w_olderr e] (w_pres w_old w_olderr (err e i)).
  Proof. destruct i as [[] b]; done. Qed.
  Lemma text_incomplete_says foreign conv starts acts (i : input I) n :
    says method foreign conv starts acts "Input" "incomplete" [w_input i; VNat n] (w_pres w_old w_olderr (incomplete n i)).
  Proof. destruct i as [[] b]; done. Qed.
  Lemma text_from_result_says foreign conv starts acts (i : input I) (r : T + E) :
    says method foreign conv starts acts "Input" "from_result"
      [w_input i; match r with inl t => VCon "Result" "Ok" [w_old t] | inr e => VCon "Result" "Err" [w_olderr e] end]
      (w_pres w_old w_olderr (from_result r i)).
  Proof. destruct i as [[] b], r; done. Qed.
  Lemma text_clone_says O foreign conv starts acts (i : input I) :
    says O foreign conv starts acts "Input" "clone" [w_input i] (Val (w_input i)).
  Proof. destruct i as [[] b]; done. Qed.
  Lemma text_buffer_says O foreign conv starts acts (i : input I) :
    says O foreign conv starts acts "Input" "buffer" [w_input i] (Val (VSlice (buf i))).
  Proof. destruct i as [[] b]; done. Qed.
  Lemma text_replace_says O foreign conv starts acts (i : input I) b :
    says O foreign conv starts acts "Input" "replace" [w_input i; VSlice b] (Val (w_input (replace i b))).
  Proof. destruct i as [[] b0]; done. Qed.
  Lemma text_is_last_slice_says O foreign conv starts acts (i : input I) :
    says O foreign conv starts acts "Input" "is_last_slice" [w_input i] (Val (VBool (last i))).
  Proof. destruct i as [[] b0]; done. Qed.

  Lemma text_bind_says (f : input I -> T -> pres I U V) (conv : E -> V) starts acts (r : pres I T E) v :
    w_pres w_old w_olderr r = Val v ->
    says method (outside_bind f) (w_from conv) starts acts "ParseResult" "bind" [v; VObj MClosure]
      (w_pres w_new w_newerr (bind conv r f)).
  Proof.
    destruct r as [[l b] t|b e|n| |]; try discriminate; intros [= <-]; [|done|done].
    destruct l; start;
      match goal with |- context [f ?i t] => destruct (f i t) as [[[] b'] u|b' e'|n| |] end; reflexivity.
  Qed.
  Lemma text_then_says (f : input I -> pres I U V) (conv : E -> V) starts acts (r : pres I T E) v :
    w_pres w_old w_olderr r = Val v ->
    says method (outside_then f) (w_from conv) starts acts "ParseResult" "then" [v; VObj MClosure]
      (w_pres w_new w_newerr (then_ conv r f)).
  Proof.
    destruct r as [[l b] t|b e|n| |]; try discriminate; intros [= <-]; [|done|done].
    destruct l; start;
      match goal with |- context [f ?i] => destruct (f i) as [[[] b'] u|b' e'|n| |] end; reflexivity.
  Qed.
  Lemma text_map_says (f : T -> U) conv starts acts (r : pres I T E) v :
    w_pres w_old w_olderr r = Val v ->
    says method (outside_map f) conv starts acts "ParseResult" "map" [v; VObj MClosure] (w_pres w_new w_olderr (map f r)).
  Proof. destruct r as [[[] b] t|b e|n| |]; try discriminate; intros [= <-]; done. Qed.
  Lemma text_map_err_says (f : E -> V) conv starts acts (r : pres I T E) v :
    w_pres w_old w_olderr r = Val v ->
    says method (outside_map_err f) conv starts acts "ParseResult" "map_err" [v; VObj MClosure] (w_pres w_old w_newerr (map_err f r)).
  Proof. destruct r as [[[] b] t|b e|n| |]; try discriminate; intros [= <-]; done. Qed.
  Lemma text_inspect_says (f : T -> U) conv starts acts (r : pres I T E) v {W} (g : T -> W -> W) w :
    w_pres w_old w_olderr r = Val v ->
    says method (outside_map f) conv starts acts "ParseResult" "inspect" [v; VObj MClosure] (w_pres w_old w_olderr (fst (inspect g r w))).
  Proof. destruct r as [[[] b] t|b e|n| |]; try discriminate; intros [= <-]; done. Qed.
  Lemma text_unwrap_says foreign conv starts acts (r : pres I T E) v :
    w_pres w_old w_olderr r = Val v ->
    says method foreign conv starts acts "ParseResult" "unwrap" [v] (w_unwrapped w_old (unwrap r)).
  Proof. destruct r as [[[] b] t|b e|n| |]; try discriminate; intros [= <-]; done. Qed.
  Lemma text_expect_says foreign conv starts acts (r : pres I T E) v msg :
    w_pres w_old w_olderr r = Val v ->
    says method foreign conv starts acts "ParseResult" "expect" [v; msg] (w_unwrapped w_old (unwrap r)).
  Proof. destruct r as [[[] b] t|b e|n| |]; try discriminate; intros [= <-]; done. Qed.
  Lemma text_unwrap_err_says foreign conv starts acts (r : pres I T E) v :
    w_pres w_old w_olderr r = Val v ->
    says method foreign conv starts acts "ParseResult" "unwrap_err" [v] (w_unwrapped w_olderr (unwrap_err r)).
  Proof. destruct r as [[[] b] t|b e|n| |]; try discriminate; intros [= <-]; done. Qed.
End Methods.

Section Once.
  Context {I T E : Type}.
  Variable eqb : I -> I -> bool.
  Variable verbose : bool.
  Variables f g : parser I T E.
  Notation once := (once_thing T E).
  Notation says conv starts acts fn vs r :=
    (settles (fun n => @call I once (text verbose) (outside_once f g) eqb conv starts acts n "" fn vs) r).
  Ltac start := apply settles_deep; intro k; destruct verbose; evaluate.
  Ltac called h := match goal with |- context [h ?i] => destruct (h i) as [[[] ?] ?|? ?|?| |] end.

  Lemma text_parse_only_says conv starts acts s :
    says conv starts acts "parse_only" [VObj OnceF; VSlice s] (w_outcome w_once w_oncerr (parse_only f s)).
  Proof. start; called f; reflexivity. Qed.
  Lemma text_option_says conv starts acts (i : input I) d :
    says conv starts acts "option" [w_input i; VObj OnceF; w_once d] (w_pres w_once w_oncerr (option_ f d i)).
  Proof. destruct i as [[] b]; start; called f; reflexivity. Qed.
  Lemma text_or_says conv starts acts (i : input I) :
    says conv starts acts "or" [w_input i; VObj OnceF; VObj OnceG] (w_pres w_once w_oncerr (or_ f g i)).
  Proof. destruct i as [[] b]; start; called f; try reflexivity; called g; reflexivity. Qed.
  Lemma text_look_ahead_says conv starts acts (i : input I) :
    says conv starts acts "look_ahead" [w_input i; VObj OnceF] (w_pres w_once w_oncerr (look_ahead f i)).
  Proof. destruct i as [[] b]; start; called f; reflexivity. Qed.
  Lemma text_matched_by_says conv starts acts (i : input I) :
    says conv starts acts "matched_by" [w_input i; VObj OnceF]
      (w_pres (fun p => VCon "" "" [VSlice (fst p); w_once (snd p)]) w_oncerr (matched_by f i)).
  Proof.
    destruct i as [[] b]; start; called f; try reflexivity.
    all: match goal with |- context [?m <? ?n] => destruct (m <? n) eqn:Hlt end; [reflexivity|].
    all: rewrite (proj2 (Nat.ltb_ge _ _)) by lia; reflexivity.
  Qed.
End Once.
