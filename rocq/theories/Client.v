(** Programs written against the public interface: code which holds [Input]s and [ParseResult]s in local and captured variables and moves
    them about.  Both types are moved, never copied: neither is [Clone] or [Copy] (src/input.rs:62-78, src/parse_result.rs:81-83 and the
    remarks of src/input.rs:196-206, 224-232), their fields are private.  Not modelled: unwinding caught by the client, threads, the traits of
    the module [primitives] (src/lib.rs, "for creating fundamental parsers and combinators"; but see [DoFresh]), the callbacks of the basic
    parsers ([satisfy] and so on, which get no [Input]); there is one type of values and one of errors. *)
From Coq Require Import List Bool Arith.
From Verif Require Import Base Parsers Combinators Buffer Stream Effects.
Import ListNotations.

Set Implicit Arguments.

(** A variable of type [Input] (src/input.rs:78) or of type [ParseResult] (src/parse_result.rs:83). *)
Inductive handle (I T E : Type) : Type := HIn (i : input I) | HRes (r : pres I T E).
Arguments HIn {I T E}.
Arguments HRes {I T E}.

(** What the client holds: its live variables of these two types, the latest first, and the other memory it shares among its closures.
    [peak] is a ghost: the greatest number of live variables so far. (The types: src/input.rs:78, src/parse_result.rs:83.) *)
Record hold (I T E M : Type) : Type := mkHold { hand : list (handle I T E); peak : nat; mem : M }.
Arguments mkHold {I T E M}.

Section Hold.
  Context {I T E M : Type}.
  (** A new variable comes to life (binding of a parameter or of the value of an expression). As the [i] of [|i, x|] in src/parse_result.rs:142-150. *)
  Definition hold_put (h : handle I T E) (w : hold I T E M) : hold I T E M :=
    mkHold (h :: hand w) (Nat.max (peak w) (S (length (hand w)))) (mem w).
  (** Variable number [n] is moved out ([self] and by-value parameters of src/input.rs:124-186, src/parse_result.rs:142-251, src/combinators). *)
  Definition hold_take (n : nat) (w : hold I T E M) : option (handle I T E * hold I T E M) :=
    match nth_error (hand w) n with
    | Some h => Some (h, mkHold (firstn n (hand w) ++ skipn (S n) (hand w)) (peak w) (mem w))
    | None => None
    end.

  (** The two kinds of moves by type.  Simplification: a variable which is missing or has the other type is an error of the compiler, or, when
      it was captured as an [Option], a panic of [unwrap()]; here always the panic. For [self] of src/input.rs:124-158 and src/parse_result.rs:142-227. *)
  Definition on_input (n : nat) (w : hold I T E M) (f : input I -> hold I T E M -> pres I T E * hold I T E M) : pres I T E * hold I T E M :=
    match hold_take n w with Some (HIn i, w) => f i w | _ => (Panic, w) end.
  Definition on_result (n : nat) (w : hold I T E M) (f : pres I T E -> hold I T E M -> pres I T E * hold I T E M) : pres I T E * hold I T E M :=
    match hold_take n w with Some (HRes r, w) => f r w | _ => (Panic, w) end.
  (** [let r = call; ...]: a call which panics unwinds the client. As in src/combinators/mod.rs:328-344. *)
  Definition and_then (x : pres I T E * hold I T E M) (k : hold I T E M -> pres I T E * hold I T E M) : pres I T E * hold I T E M :=
    match x with
    | (Panic, w) => (Panic, w)
    | (NoFuel, w) => (NoFuel, w)
    | (r, w) => k (hold_put (HRes r) w)
    end.
  (** A callback which acts on the memory only (the [F] of src/parse_result.rs:197, 220). *)
  Definition on_memory {A B} (f : callback M A B) : callback (hold I T E M) A B := fun a w =>
    let (o, m) := f a (mem w) in (o, mkHold (hand w) (peak w) m).
End Hold.

(** The body of a function or closure which is to return a [ParseResult].  Every constructor but the first two has the rest of the body as its
    last argument; [h] is the number of the variable it moves. Code like that of src/combinators/mod.rs:58-364 and of the documentation, src/lib.rs:16-120. *)
Inductive client (I T E M : Type) : Type :=
| DoGive (h : nat)                                                  (* the value of the body: a [ParseResult] *)
| DoPanic                                                           (* [panic!()] *)
| DoRet (h : nat) (t : T) (k : client I T E M)                      (* src/input.rs:124-126 [ret] *)
| DoErr (h : nat) (e : E) (k : client I T E M)                      (* src/input.rs:145-147 [err] *)
| DoIncomplete (h n : nat) (k : client I T E M)                     (* src/input.rs:156-158 [incomplete] *)
| DoUse (h : nat) (p : parser I T E) (k : client I T E M)           (* a parser without captured variables of the two types: src/parsers.rs *)
| DoBind (h : nat) (body : T -> client I T E M) (k : client I T E M) (* src/parse_result.rs:142-150 [bind] *)
| DoMap (h : nat) (f : callback M T T) (k : client I T E M)         (* src/parse_result.rs:197-204 [map] *)
| DoMapErr (h : nat) (f : callback M E E) (k : client I T E M)      (* src/parse_result.rs:220-227 [map_err] *)
| DoOption (h : nat) (body : client I T E M) (d : T) (k : client I T E M)       (* src/combinators/mod.rs:58-70 [option] *)
| DoOr (h : nat) (body1 body2 : client I T E M) (k : client I T E M)            (* src/combinators/mod.rs:94-106 [or] *)
| DoMatched (h : nat) (body : client I T E M) (g : list I * T -> T) (k : client I T E M) (* src/combinators/mod.rs:328-344 [matched_by], [map] *)
| DoAhead (h : nat) (body : client I T E M) (k : client I T E M)                (* src/combinators/mod.rs:357-364 [look_ahead] *)
| DoMany (h : nat) (C : Type) (col : collector T T C) (fuel : nat) (r : range) (body : client I T E M) (k : client I T E M)
                                                                    (* src/combinators/bounded.rs:717-724 [many], src/combinators/mod.rs:34-163 *)
| DoTill (h : nat) (C : Type) (col : collector T T C) (fuel : nat) (r : range) (body end_ : client I T E M) (k : client I T E M)
                                                                    (* src/combinators/bounded.rs:763-773 [many_till] *)
| DoSkip (h : nat) (fuel : nat) (r : range) (body : client I T E M) (t : T) (k : client I T E M)
                                                                    (* src/combinators/bounded.rs:741-746 [skip_many], then [map] *)
| DoSepBy (h : nat) (C : Type) (col : collector T T C) (fuel : nat) (r : range) (body sep : client I T E M) (k : client I T E M)
                                                                    (* src/combinators/mod.rs:182-203 [sep_by], 223-244 [sep_by1] *)
| DoLook (k : M -> client I T E M)                                  (* reads the memory *)
| DoStore (m : M) (k : client I T E M)                              (* writes it *)
| DoDrop (h : nat) (k : client I T E M)                             (* lets the variable go; [#[must_use]] only warns (src/input.rs:76) *)
| DoOnly (s : list I) (captures : bool) (body : client I T E M) (k : T + parse_error I E -> client I T E M)
                                                                    (* src/parse.rs:52-61 [parse_only]; also stands for [Stream::parse] *)
| DoFresh (i : input I) (k : client I T E M).                       (* src/input.rs:85-87 [input::new], 103-105 [Input::new] *)
Arguments DoGive {I T E M}.
Arguments DoPanic {I T E M}.

Section Act.
  Context {I T E M : Type}.

  (** The identity [From<E> for E] (std) at src/parse_result.rs:143, src/combinators/mod.rs:189. *)
  Definition same : callback (hold I T E M) E E := fun e w => (Some e, w).

  (** What a body does.  A closure called by the library gets its [Input] as its latest variable and, when it captures, sees all that the client
      still holds; what it leaves there stays there.  A body which does not capture ([captures] of [DoOnly]) starts with nothing else, and what
      is left of its variables at its end is dropped. For the lines of /repo cited at each constructor of [client]: src/input.rs:85-158, src/parse_result.rs:142-227, src/combinators/mod.rs:34-364. *)
  Fixpoint act (c : client I T E M) (w : hold I T E M) {struct c} : pres I T E * hold I T E M :=
    match c with
    | DoGive h => on_result h w (fun r w => (r, w))
    | DoPanic => (Panic, w)
    | DoRet h t k => on_input h w (fun i w => act k (hold_put (HRes (ret t i)) w))
    | DoErr h e k => on_input h w (fun i w => act k (hold_put (HRes (err e i)) w))
    | DoIncomplete h n k => on_input h w (fun i w => act k (hold_put (HRes (incomplete n i)) w))
    | DoUse h p k => on_input h w (fun i w => and_then (p i, w) (act k))
    | DoBind h body k =>
        on_result h w (fun r w => and_then (bind_w same r (fun t w i => act (body t) (hold_put (HIn i) w)) w) (act k))
    | DoMap h f k => on_result h w (fun r w => and_then (map_w (on_memory f) r w) (act k))
    | DoMapErr h f k => on_result h w (fun r w => and_then (map_err_w (on_memory f) r w) (act k))
    | DoOption h body d k =>
        on_input h w (fun i w => and_then (option_w (fun w i => act body (hold_put (HIn i) w)) d w i) (act k))
    | DoOr h b1 b2 k =>
        on_input h w (fun i w =>
          and_then (or_w (fun w i => act b1 (hold_put (HIn i) w)) (fun w i => act b2 (hold_put (HIn i) w)) w i) (act k))
    | DoMatched h body g k =>
        on_input h w (fun i w =>
          let (r, w) := matched_by_w (fun w i => act body (hold_put (HIn i) w)) w i in
          and_then (map_w (fun x w => (Some (g x), w)) r w) (act k))
    | DoAhead h body k => on_input h w (fun i w => and_then (look_ahead_w (fun w i => act body (hold_put (HIn i) w)) w i) (act k))
    | DoMany h col fuel r body k =>
        on_input h w (fun i w => and_then (bmany_w fuel col (fun w i => act body (hold_put (HIn i) w)) r w i) (act k))
    | DoTill h col fuel r body end_ k =>
        on_input h w (fun i w =>
          and_then (bmany_till_w fuel col (fun w i => act body (hold_put (HIn i) w)) (fun w i => act end_ (hold_put (HIn i) w)) r w i) (act k))
    | DoSkip h fuel r body t k =>
        on_input h w (fun i w =>
          let (x, w) := bskip_many_w (fun w i => act body (hold_put (HIn i) w)) fuel r w i in
          and_then (map_w (fun _ w => (Some t, w)) x w) (act k))
    | DoSepBy h col fuel r body sep k =>
        on_input h w (fun i w =>
          let '(x, (_, w)) := bmany_w fuel col (sep_item_w same (fun w i => act body (hold_put (HIn i) w))
                                                 (fun w i => act sep (hold_put (HIn i) w))) r (false, w) i in
          and_then (x, w) (act k))
    | DoLook k => act (k (mem w)) w
    | DoStore m k => act k (mkHold (hand w) (peak w) m)
    | DoDrop h k => match hold_take h w with Some (_, w) => act k w | None => (Panic, w) end
    | DoOnly s captures body k =>
        let (o, w) :=
          if captures then parse_only_w (fun w i => act body (hold_put (HIn i) w)) s w
          else let (o, w') := parse_only_w (fun w i => act body (hold_put (HIn i) w)) s (mkHold [] (peak w) (mem w)) in
               (o, mkHold (hand w) (peak w') (mem w')) in
        match o with
        | OOk t => act (k (inl t)) w
        | OErr e => act (k (inr e)) w
        | OPanic => (Panic, w)
        | ONoFuel => (NoFuel, w)
        end
    | DoFresh i k => act k (hold_put (HIn i) w)
    end.

  (** A function [fn(Input<I>) -> ParseResult<I, T, E>] with that body, called by a client which holds nothing (the parsers of
      src/parse.rs:48-61, src/buffer/mod.rs:88-91). *)
  Definition as_parser (c : client I T E M) (m : M) : parser I T E := fun i => fst (act c (hold_put (HIn i) (mkHold [] 0 m))).
  (** All that such a call leaves. (The closure passed to src/parse.rs:52.) *)
  Definition as_parser_left (c : client I T E M) (m : M) (i : input I) : hold I T E M := snd (act c (hold_put (HIn i) (mkHold [] 0 m))).
End Act.
