(** How the values of the model are written as values of the text (Rust.v, RustText.v).  No proofs here. *)
From Coq Require Import List Bool Arith String.
From Verif Require Import Base.
From Verif Require Parsers.
From Verif Require Import Combinators Rust RustText.
Import ListNotations.

Set Implicit Arguments.
Local Open Scope string_scope.
Local Open Scope nat_scope.

(** With enough fuel the meaning of a call in the text (Rust) is [r], and more fuel does not change it. *)
Definition settles {A : Type} (g : nat -> A) (r : A) : Prop := exists n, forall m, n <= m -> g m = r.

Section Written.
  Context {I O : Type}.
  Notation value := (value I O).

  (** src/input.rs:78 [Input(mode, slice)]; the modes are those of src/input.rs:4-11. *)
  Definition w_input (i : input I) : value := VCon "Input" "" [VFlags (if last i then 1 else 0); VSlice (buf i)].

  (** src/parse_result.rs:83 [ParseResult(state)]. *)
  Definition w_result (c : string) (vs : list value) : value := VCon "ParseResult" "" [VCon "State" c vs].

  (** src/parse_result.rs:18-31 [State]; a panic is a panic, [NoFuel] is out of fuel. *)
  Definition w_pres {T E} (wt : T -> value) (we : E -> value) (r : pres I T E) : out I O value :=
    match r with
    | Data i t => Val (w_result "Data" [w_input i; wt t])
    | Error b e => Val (w_result "Error" [VSlice b; we e])
    | Incomplete n => Val (w_result "Incomplete" [VNat n])
    | Panic => Panicking
    | NoFuel => Tired
    end.

  (** [()] (std), the value of src/combinators/bounded.rs:191. *)
  Definition w_unit (u : unit) : value := VUnit.

  (** [Option] (std). *)
  Definition w_option {T} (w : T -> value) (o : option T) : value := match o with Some t => some (w t) | None => none end.

  (** src/parsers.rs:417-424, 495 [Error<I>]. *)
  Definition w_error (e : Parsers.error I) : value :=
    match e with
    | Parsers.Expected x => VCon "Error" "Expected" [VItem x]
    | Parsers.Unexpected => VCon "Error" "Unexpected" []
    | Parsers.EString s => VCon "Error" "String" [VSlice s]
    | Parsers.EPlain => VCon "Error" "" [VCon "PhantomData" "" []]
    end.

  (** src/parse.rs:7-13 [ParseError] and the [Result] of src/parse.rs:52. *)
  Definition w_outcome {T E} (wt : T -> value) (we : E -> value) (r : outcome T (parse_error I E)) : out I O value :=
    match r with
    | OOk t => Val (VCon "Result" "Ok" [wt t])
    | OErr (PErr b e) => Val (VCon "Result" "Err" [VCon "ParseError" "Error" [VSlice b; we e]])
    | OErr (PIncomplete n) => Val (VCon "Result" "Err" [VCon "ParseError" "Incomplete" [VNat n]])
    | OPanic => Panicking
    | ONoFuel => Tired
    end.

  (** The ranges of src/combinators/bounded.rs:102, 251, 369, 458, 581 (std [ops]). *)
  Definition w_range (r : range) : value :=
    match r with
    | RRange a b => VRec "Range" [("start", VNat a); ("end", VNat b)]
    | RFrom a => VRec "RangeFrom" [("start", VNat a)]
    | RFull => VRec "RangeFull" []
    | RTo b => VRec "RangeTo" [("end", VNat b)]
    | RExact n => VNat n
    end.
End Written.

(** * What the caller passes in *)

(** No [FromIterator] is asked for in src/parsers.rs. *)
Definition no_acts {V O : Type} (o : O) : caction V V O := CPanic.

(** A predicate [Fn(I) -> bool] (src/parsers.rs:46, 210, 243, 277). *)
Definition outside_pred {I : Type} (f : I -> bool) (o : unit) (m : string) (vs : list (value I unit)) : answered I unit :=
  match vs with
  | [VItem x] => Gives (VBool (f x)) tt
  | _ => GivesUp
  end.

(** The closures of [satisfy_with] (src/parsers.rs:72-73) and the values of its type [T: Clone]. *)
Inductive with_thing (T : Type) : Type := WithMap | WithPred | WithValue (t : T).
Arguments WithMap {T}.
Arguments WithPred {T}.
Arguments WithValue {T} t.
(** The same closures called (src/parsers.rs:79, 81). *)
Definition outside_with {I T : Type} (f : I -> T) (p : T -> bool) (o : with_thing T) (m : string) (vs : list (value I (with_thing T)))
  : answered I (with_thing T) :=
  match o, vs with
  | WithMap, [VItem x] => Gives (VObj (WithValue (f x))) WithMap
  | WithPred, [VObj (WithValue t)] => Gives (VBool (p t)) WithPred
  | WithValue t, [] => Gives (VObj (WithValue t)) (WithValue t)
  | _, _ => GivesUp
  end.

(** The callback of [scan] and [run_scanner] (src/parsers.rs:304, 331) and the states it is called with. *)
Inductive scan_thing (S : Type) : Type := ScanStep | ScanState (s : S).
Arguments ScanStep {S}.
Arguments ScanState {S} s.
(** The same callback called (src/parsers.rs:309, 336). *)
Definition outside_scan {I S : Type} (f : S -> I -> option S) (o : scan_thing S) (m : string) (vs : list (value I (scan_thing S)))
  : answered I (scan_thing S) :=
  match o, vs with
  | ScanStep, [VObj (ScanState s); VItem x] => GivesOption (f s x) (fun s => VObj (ScanState s)) ScanStep
  | _, _ => GivesUp
  end.

(** The closure of a method of [ParseResult] (src/parse_result.rs:142, 179, 197, 220) and the values and errors before and after it. *)
Inductive method_thing (T U E V : Type) : Type := MClosure | MOld (t : T) | MNew (u : U) | MErr (e : E) | MNerr (v : V).
Arguments MClosure {T U E V}.
Arguments MOld {T U E V} t.
Arguments MNew {T U E V} u.
Arguments MErr {T U E V} e.
Arguments MNerr {T U E V} v.
Section Methods.
  Context {T U E V I : Type}.
  Notation thing := (method_thing T U E V).
  Notation value := (value I thing).
  Definition w_old (t : T) : value := VObj (MOld t).
  Definition w_new (u : U) : value := VObj (MNew u).
  Definition w_olderr (e : E) : value := VObj (MErr e).
  Definition w_newerr (v : V) : value := VObj (MNerr v).
  (** src/parse_result.rs:142 [F: FnOnce(Input<'a, I>, T) -> ParseResult<'a, I, U, V>] *)
  Definition outside_bind (f : input I -> T -> pres I U V) (o : thing) (m : string) (vs : list value) : answered I thing :=
    match o, vs with
    | MClosure, [VCon _ _ [VFlags b; VSlice l]; VObj (MOld t)] => GivesResult (f (mkInput (same_nat b 1) l) t) w_new w_newerr MClosure
    | _, _ => GivesUp
    end.
  (** src/parse_result.rs:179 [F: FnOnce(Input<'a, I>) -> ParseResult<'a, I, U, V>] *)
  Definition outside_then (f : input I -> pres I U V) (o : thing) (m : string) (vs : list value) : answered I thing :=
    match o, vs with
    | MClosure, [VCon _ _ [VFlags b; VSlice l]] => GivesResult (f (mkInput (same_nat b 1) l)) w_new w_newerr MClosure
    | _, _ => GivesUp
    end.
  (** src/parse_result.rs:198 [F: FnOnce(T) -> U] *)
  Definition outside_map (f : T -> U) (o : thing) (m : string) (vs : list value) : answered I thing :=
    match o, vs with
    | MClosure, [VObj (MOld t)] => Gives (w_new (f t)) MClosure
    | _, _ => GivesUp
    end.
  (** src/parse_result.rs:221 [F: FnOnce(E) -> V] *)
  Definition outside_map_err (f : E -> V) (o : thing) (m : string) (vs : list value) : answered I thing :=
    match o, vs with
    | MClosure, [VObj (MErr e)] => Gives (w_newerr (f e)) MClosure
    | _, _ => GivesUp
    end.
  (** src/parse_result.rs:142 [V: From<E>] *)
  Definition w_from (conv : E -> V) (v : value) : value := match v with VObj (MErr e) => w_newerr (conv e) | _ => v end.
End Methods.

(** [Option] whose [None] is a panic (src/parse_result.rs:295-303). *)
Definition w_unwrapped {I O T : Type} (w : T -> value I O) (o : option T) : out I O (value I O) :=
  match o with Some t => Val (w t) | None => Panicking end.

(** The parsers of src/combinators/mod.rs:58, 94, 328, 357 and src/parse.rs:52 that are called once, and their values and errors. *)
Inductive once_thing (T E : Type) : Type := OnceF | OnceG | OnceValue (t : T) | OnceErr (e : E).
Arguments OnceF {T E}.
Arguments OnceG {T E}.
Arguments OnceValue {T E} t.
Arguments OnceErr {T E} e.
Section Once.
  Context {T E I : Type}.
  Notation value := (value I (once_thing T E)).
  Definition w_once (t : T) : value := VObj (OnceValue t).
  Definition w_oncerr (e : E) : value := VObj (OnceErr e).
  (** Such parsers called (src/combinators/mod.rs:60, 96, 98, 333, 359, src/parse.rs:56). *)
  Definition outside_once (f g : parser I T E) (o : once_thing T E) (m : string) (vs : list value) : answered I (once_thing T E) :=
    match o, vs with
    | OnceF, [VCon _ _ [VFlags b; VSlice l]] => GivesResult (f (mkInput (same_nat b 1) l)) w_once w_oncerr OnceF
    | OnceG, [VCon _ _ [VFlags b; VSlice l]] => GivesResult (g (mkInput (same_nat b 1) l)) w_once w_oncerr OnceG
    | _, _ => GivesUp
    end.
End Once.

(** What the functions of src/combinators/*.rs are given: the two parsers in their states, the [FromIterator] in its states, and the values of the
    types that only the caller knows: items, the values and errors of the second parser, collections, errors. *)
Inductive thing (P Q C U V T E N : Type) : Type :=
| TParser (s : P)
| TOther (s : Q)
| TCollect (c : C)
| TItem (u : U)
| TValue (v : V)
| TOut (t : T)
| TErr (e : E)
| TNerr (n : N).
Arguments TParser {P Q C U V T E N} s.
Arguments TOther {P Q C U V T E N} s.
Arguments TCollect {P Q C U V T E N} c.
Arguments TItem {P Q C U V T E N} u.
Arguments TValue {P Q C U V T E N} v.
Arguments TOut {P Q C U V T E N} t.
Arguments TErr {P Q C U V T E N} e.
Arguments TNerr {P Q C U V T E N} n.

Section Things.
  Context {P Q C U V T E N I : Type}.
  Notation thing := (thing P Q C U V T E N).
  Notation value := (value I thing).
  (** The parsers, as passed to src/combinators/mod.rs:182-186. *)
  Variable p : sparser P I U E.
  Variable q : sparser Q I V N.

  Definition w_item (u : U) : value := VObj (TItem u).
  Definition w_value (v : V) : value := VObj (TValue v).
  Definition w_out (t : T) : value := VObj (TOut t).
  Definition w_err (e : E) : value := VObj (TErr e).
  Definition w_nerr (n : N) : value := VObj (TNerr n).

  (** A call of one of the two parsers, as in src/combinators/macros.rs:105 and 265. *)
  Definition outside_parsers (o : thing) (m : string) (vs : list value) : answered I thing :=
    match o, vs with
    | TParser s, [VCon _ _ [VFlags b; VSlice l]] =>
        let r := p s (mkInput (same_nat b 1) l) in GivesResult (fst r) w_item w_err (TParser (snd r))
    | TOther s, [VCon _ _ [VFlags b; VSlice l]] =>
        let r := q s (mkInput (same_nat b 1) l) in GivesResult (fst r) w_value w_nerr (TOther (snd r))
    | _, _ => GivesUp
    end.

  (** The conversion [E: From<N>] of src/combinators/mod.rs:185. *)
  Definition w_conv (conv : N -> E) (v : value) : value := match v with VObj (TNerr n) => VObj (TErr (conv n)) | _ => v end.

  (** The [FromIterator] of src/combinators/macros.rs:17. *)
  Definition w_acts (col : collector U T C) (o : thing) : caction value value thing :=
    match o with
    | TCollect c =>
        match cact col c with
        | CFinish t => CFinish (w_out t)
        | CPanic => CPanic
        | CHint k => CHint (fun h => TCollect (k h))
        | CNext k => CNext (fun v => match v with
                                     | Some (VObj (TItem u)) => TCollect (k (Some u))
                                     | Some _ => o
                                     | None => TCollect (k None)
                                     end)
        end
    | _ => CPanic
    end.
End Things.
