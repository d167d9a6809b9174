(** The functions of the library again, for callbacks that act on an outside world: closures which share mutable state with each other
    and with the caller ([Cell], [Rc], statics, I/O), implementations of [PartialEq], [Clone], [From] which do, and callbacks which panic.
    No proofs here.  The world [W] is arbitrary; a callback is a function of its argument and the world which answers or panics
    ([None]) and leaves the world changed.  Collections ([FromIterator]) are those of Combinators.v, which do not act on the world. *)
From Coq Require Import List Bool Arith.
From Verif Require Import Base Parsers Combinators Buffer Stream.
Import ListNotations.

Set Implicit Arguments.

(** User code called by the library (closures and trait methods, for instance [F] of src/parsers.rs:46). *)
Definition callback (W A B : Type) : Type := A -> W -> option B * W.

(** A parser as a callback is a [sparser] whose state is the world (for instance [F] of src/combinators/mod.rs:60); its panics are
    results.  Parsers without callbacks ([any], [peek], [peek_next], [take], [take_remainder], [eof]: src/parsers.rs) become such by: *)
Definition lifted {W I T E} (p : parser I T E) : sparser W I T E := fun w i => (p i, w).

(** [iter().position(f)] (std) as used in src/parsers.rs:213, 246, 280, 308, 335; [None] if [f] panics. *)
Fixpoint position_w {W A} (f : callback W A bool) (b : list A) (w : W) : option (option nat) * W :=
  match b with
  | [] => (Some None, w)
  | c :: r =>
      match f c w with
      | (None, w) => (None, w)
      | (Some true, w) => (Some (Some 0), w)
      | (Some false, w) =>
          match position_w f r w with
          | (Some n, w) => (Some (option_map S n), w)
          | (None, w) => (None, w)
          end
      end
  end.

(** * src/parsers.rs *)
Section Parsers.
  Context {W I : Type}.
  (** Feature flag verbose_error (Cargo.toml:33). *)
  Variable verbose : bool.

  (** src/parsers.rs:45-54 [satisfy]. *)
  Definition satisfy_w (f : callback W I bool) : sparser W I I (error I) := fun w i =>
    let b := buf i in
    match first b with
    | None => (incomplete 1 i, w)
    | Some c =>
        match f c w with
        | (Some true, w) => (ret c (replace i (skipn 1 b)), w)
        | (Some false, w) => (err (err_unexpected verbose) i, w)
        | (None, w) => (Panic, w)
        end
    end.

  (** src/parsers.rs:71-88 [satisfy_with]; [icl], [tcl] are [I::clone] (of [cloned()]) and [T::clone]. *)
  Definition satisfy_with_w {T} (icl : callback W I I) (tcl : callback W T T) (f : callback W I T) (p : callback W T bool)
    : sparser W I T (error I) := fun w i =>
    let b := buf i in
    match first b with
    | Some n0 =>
        match icl n0 w with
        | (None, w) => (Panic, w)
        | (Some n, w) =>
            match f n w with
            | (None, w) => (Panic, w)
            | (Some t, w) =>
                match tcl t w with
                | (None, w) => (Panic, w)
                | (Some t', w) =>
                    match p t' w with
                    | (None, w) => (Panic, w)
                    | (Some true, w) => (ret t (replace i (skipn 1 b)), w)
                    | (Some false, w) => (err (err_unexpected verbose) i, w)
                    end
                end
            end
        end
    | None => (incomplete 1 i, w)
    end.

  (** src/parsers.rs:100-108 [token]; [eq] is [PartialEq::eq]. *)
  Definition token_w (eq : callback W (I * I) bool) (t : I) : sparser W I I (error I) := fun w i =>
    let b := buf i in
    match first b with
    | None => (incomplete 1 i, w)
    | Some c =>
        match eq (t, c) w with
        | (Some true, w) => (ret c (replace i (skipn 1 b)), w)
        | (Some false, w) => (err (err_expected verbose t) i, w)
        | (None, w) => (Panic, w)
        end
    end.

  (** src/parsers.rs:120-128 [not_token]; [ne] is [PartialEq::ne]. *)
  Definition not_token_w (ne : callback W (I * I) bool) (t : I) : sparser W I I (error I) := fun w i =>
    let b := buf i in
    match first b with
    | None => (incomplete 1 i, w)
    | Some c =>
        match ne (t, c) w with
        | (Some true, w) => (ret c (replace i (skipn 1 b)), w)
        | (Some false, w) => (err (err_unexpected verbose) i, w)
        | (None, w) => (Panic, w)
        end
    end.

  (** The closure [|c| f( *c) == false] of src/parsers.rs:213, 246. *)
  Definition is_false (f : callback W I bool) : callback W I bool := fun c w =>
    match f c w with
    | (Some v, w) => (Some (Bool.eqb v false), w)
    | (None, w) => (None, w)
    end.

  (** src/parsers.rs:209-226 [take_while]. *)
  Definition take_while_w (f : callback W I bool) : sparser W I (list I) (error I) := fun w i =>
    let b := buf i in
    match position_w (is_false f) b w with
    | (None, w) => (Panic, w)
    | (Some (Some n), w) => (ret (firstn n b) (replace i (skipn n b)), w)
    | (Some None, w) => (if last i then ret b (replace i (firstn 0 b)) else incomplete 1 i, w)
    end.

  (** src/parsers.rs:242-260 [take_while1]. *)
  Definition take_while1_w (f : callback W I bool) : sparser W I (list I) (error I) := fun w i =>
    let b := buf i in
    match position_w (is_false f) b w with
    | (None, w) => (Panic, w)
    | (Some (Some 0), w) => (err (err_unexpected verbose) i, w)
    | (Some (Some n), w) => (ret (firstn n b) (replace i (skipn n b)), w)
    | (Some None, w) => (if (0 <? length b) && last i then ret b (replace i (firstn 0 b)) else incomplete 1 i, w)
    end.

  (** The iterator [b.iter().cloned()] of src/parsers.rs:280 clones each item before [f] gets it. *)
  Definition cloned_then (icl : callback W I I) (f : callback W I bool) : callback W I bool := fun c w =>
    match icl c w with
    | (Some c', w) => f c' w
    | (None, w) => (None, w)
    end.

  (** src/parsers.rs:276-286 [take_till]. *)
  Definition take_till_w (icl : callback W I I) (f : callback W I bool) : sparser W I (list I) (error I) := fun w i =>
    let b := buf i in
    match position_w (cloned_then icl f) b w with
    | (None, w) => (Panic, w)
    | (Some (Some n), w) => (ret (firstn n b) (replace i (skipn n b)), w)
    | (Some None, w) => (incomplete 1 i, w)
    end.

  (** src/parsers.rs:303-314 [scan].  The captured variable [state] is part of the world in which [position] runs the closure; the
      [unwrap()] of a [None] panics. *)
  Definition scan_w {S : Type} (s : S) (f : callback W (S * I) (option S)) : sparser W I (list I) (error I) := fun w i =>
    let b := buf i in
    let step (c : I) (sw : option S * W) :=
      match fst sw with
      | None => (None, sw)
      | Some s0 =>
          match f (s0, c) (snd sw) with
          | (None, w) => (None, (None, w))
          | (Some st, w) => (Some (match st with None => true | Some _ => false end), (st, w))
          end
      end in
    match position_w step b (Some s, w) with
    | (None, (_, w)) => (Panic, w)
    | (Some (Some n), (_, w)) => (ret (firstn n b) (replace i (skipn n b)), w)
    | (Some None, (_, w)) => (incomplete 1 i, w)
    end.

  (** src/parsers.rs:330-341 [run_scanner] ([S: Copy]). *)
  Definition run_scanner_w {S : Type} (s : S) (f : callback W (S * I) (option S)) : sparser W I (list I * S) (error I) := fun w i =>
    let b := buf i in
    let step (c : I) (sw : S * W) :=
      match f (fst sw, c) (snd sw) with
      | (None, w) => (None, (fst sw, w))
      | (Some None, w) => (Some true, (fst sw, w))
      | (Some (Some v), w) => (Some false, (v, w))
      end in
    match position_w step b (s, w) with
    | (None, (_, w)) => (Panic, w)
    | (Some (Some n), (state, w)) => (ret (firstn n b, state) (replace i (skipn n b)), w)
    | (Some None, (_, w)) => (incomplete 1 i, w)
    end.

  (** The loop of src/parsers.rs:381-385; [ne] is [PartialEq::ne]. *)
  Fixpoint string_mismatch_w (ne : callback W (I * I) bool) (j : nat) (s d : list I) (w : W) : option (option nat) * W :=
    match s, d with
    | x :: s', y :: d' =>
        match ne (x, y) w with
        | (None, w) => (None, w)
        | (Some true, w) => (Some (Some j), w)
        | (Some false, w) => string_mismatch_w ne (S j) s' d' w
        end
    | _, _ => (Some None, w)
    end.

  (** src/parsers.rs:371-388 [string].  Simplification: [to_vec()] of the verbose error (line 485) just copies, [I] being [Copy]. *)
  Definition string_w (ne : callback W (I * I) bool) (s : list I) : sparser W I (list I) (error I) := fun w i =>
    let b := buf i in
    if length b <? length s then (incomplete (length s - length b) i, w)
    else
      let d := firstn (length s) b in
      match string_mismatch_w ne 0 s d w with
      | (None, w) => (Panic, w)
      | (Some (Some j), w) => (err_string verbose i j s, w)
      | (Some None, w) => (ret d (replace i (skipn (length s) b)), w)
      end.
End Parsers.

(** * src/parse_result.rs *)
Section Results.
  Context {W I : Type}.

  (** src/parse_result.rs:220-227 [map_err]. *)
  Definition map_err_w {T E V} (f : callback W E V) (r : pres I T E) (w : W) : pres I T V * W :=
    match r with
    | Data i t => (Data i t, w)
    | Error b e => match f e w with (Some v, w) => (Error b v, w) | (None, w) => (Panic, w) end
    | Incomplete n => (Incomplete n, w)
    | Panic => (Panic, w)
    | NoFuel => (NoFuel, w)
    end.

  (** src/parse_result.rs:142-150 [bind]; [conv] is the [From<E> for V] of the second arm, that of the first is the identity. *)
  Definition bind_w {T U E V} (conv : callback W E V) (r : pres I T E) (f : T -> sparser W I U V) (w : W) : pres I U V * W :=
    match r with
    | Data i t => let (r', w) := f t w i in map_err_w (fun v w => (Some v, w)) r' w
    | Error b e => match conv e w with (Some v, w) => (Error b v, w) | (None, w) => (Panic, w) end
    | Incomplete n => (Incomplete n, w)
    | Panic => (Panic, w)
    | NoFuel => (NoFuel, w)
    end.

  (** src/parse_result.rs:179-183 [then]. *)
  Definition then_w {T U E V} (conv : callback W E V) (r : pres I T E) (f : sparser W I U V) (w : W) : pres I U V * W :=
    bind_w conv r (fun _ => f) w.

  (** src/parse_result.rs:197-204 [map]. *)
  Definition map_w {T U E} (f : callback W T U) (r : pres I T E) (w : W) : pres I U E * W :=
    match r with
    | Data i t => match f t w with (Some u, w) => (Data i u, w) | (None, w) => (Panic, w) end
    | Error b e => (Error b e, w)
    | Incomplete n => (Incomplete n, w)
    | Panic => (Panic, w)
    | NoFuel => (NoFuel, w)
    end.

  (** src/parse_result.rs:244-251 [inspect]. *)
  Definition inspect_w {T E} (f : callback W T unit) (r : pres I T E) (w : W) : pres I T E * W :=
    match r with
    | Data _ t => match f t w with (Some _, w) => (r, w) | (None, w) => (Panic, w) end
    | _ => (r, w)
    end.

  (** src/parse.rs:52-61 [parse_only]. *)
  Definition parse_only_w {T E} (p : sparser W I T E) (s : list I) (w : W) : outcome T (parse_error I E) * W :=
    match p w (mkInput true s) with
    | (Data _ t, w) => (OOk t, w)
    | (Error b e, w) => (OErr (PErr b e), w)
    | (Incomplete n, w) => (OErr (PIncomplete n), w)
    | (Panic, w) => (OPanic, w)
    | (NoFuel, w) => (ONoFuel, w)
    end.
End Results.

(** * src/combinators/mod.rs, first part *)
Section Choice.
  Context {W I : Type}.

  (** src/combinators/mod.rs:58-70 [option]. *)
  Definition option_w {T E} (f : sparser W I T E) (default : T) : sparser W I T E := fun w i =>
    match f w i with
    | (Data b d, w) => (ret d b, w)
    | (Error _ _, w) => (ret default i, w)
    | (Incomplete n, w) => (if last i then ret default i else incomplete n i, w)
    | (Panic, w) => (Panic, w)
    | (NoFuel, w) => (NoFuel, w)
    end.

  (** src/combinators/mod.rs:94-106 [or]. *)
  Definition or_w {T E} (f g : sparser W I T E) : sparser W I T E := fun w i =>
    match f w i with
    | (Data b d, w) => (ret d b, w)
    | (Error _ _, w) => g w i
    | (Incomplete n, w) => if last i then g w i else (incomplete n i, w)
    | (Panic, w) => (Panic, w)
    | (NoFuel, w) => (NoFuel, w)
    end.

  (** src/combinators/mod.rs:328-344 [matched_by]; see Combinators.v for the subtraction. *)
  Definition matched_by_w {T E} (f : sparser W I T E) : sparser W I (list I * T) E := fun w i =>
    let b0 := buf i in
    match f w i with
    | (Data b t, w) =>
        (if length b0 <? length (buf b) then Panic else ret (firstn (length b0 - length (buf b)) b0, t) b, w)
    | (Error b e, w) => (err e (replace i b), w)
    | (Incomplete n, w) => (incomplete n i, w)
    | (Panic, w) => (Panic, w)
    | (NoFuel, w) => (NoFuel, w)
    end.

  (** src/combinators/mod.rs:357-364 [look_ahead]. *)
  Definition look_ahead_w {T E} (f : sparser W I T E) : sparser W I T E := fun w i =>
    match f w i with
    | (Data _ t, w) => (ret t i, w)
    | (Error b e, w) => (err e (replace i b), w)
    | (Incomplete n, w) => (incomplete n i, w)
    | (Panic, w) => (Panic, w)
    | (NoFuel, w) => (NoFuel, w)
    end.
End Choice.

(** * src/combinators/macros.rs *)

(** src/combinators/macros.rs:5-36 [run_from_iter!], as in Combinators.v. *)
Fixpoint from_iter_w {W U T C It : Type} (fuel : nat) (next : It -> W -> step It U * W) (hint : It -> nat * option nat)
    (act : C -> caction U T C) (c : C) (it : It) (w : W) : fres T It * W :=
  match fuel with
  | O => (FNoFuel, w)
  | S fuel' =>
      match act c with
      | CFinish t => (FDone t it, w)
      | CPanic => (FPanic, w)
      | CHint k => from_iter_w fuel' next hint act (k (hint it)) it w
      | CNext k =>
          match next it w with
          | (Yield u it', w) => from_iter_w fuel' next hint act (k (Some u)) it' w
          | (Stop it', w) => from_iter_w fuel' next hint act (k None) it' w
          | (StepPanic, w) => (FPanic, w)
          | (StepNoFuel, w) => (FNoFuel, w)
          end
      end
  end.

(** src/combinators/macros.rs:97-119 [Iter::next]; the field [parser] has no state besides the world. *)
Definition iter_next_w {W I T E D} (p : sparser W I T E) (pre : D -> bool) (on : D -> D) (it : iter unit I E D) (w : W)
  : step (iter unit I E D) T * W :=
  if pre (it_data it) then (Stop it, w)
  else
    match p w (it_buf it) with
    | (Data b v, w) => (Yield v (mkIter (it_state it) tt b (on (it_data it))), w)
    | (Error b e, w) => (Stop (mkIter (ESError b e) tt (it_buf it) (it_data it)), w)
    | (Incomplete n, w) => (Stop (mkIter (ESIncomplete n) tt (it_buf it) (it_data it)), w)
    | (Panic, w) => (StepPanic, w)
    | (NoFuel, w) => (StepNoFuel, w)
    end.

(** src/combinators/macros.rs:122-140. *)
Definition run_iter_w {W I U T E D C} (fuel : nat) (col : collector U T C) (i : input I) (p : sparser W I U E)
    (data : D) (hint : D -> nat * option nat) (pre : D -> bool) (on : D -> D)
    (fin : T -> input I -> D -> end_state I E -> pres I T E) (w : W) : pres I T E * W :=
  match from_iter_w fuel (iter_next_w p pre on) (fun it => hint (it_data it)) (cact col) (cinit col)
          (mkIter (ESIncomplete 1) tt i data) w with
  | (FDone t it, w) => (fin t (it_buf it) (it_data it) (it_state it), w)
  | (FPanic, w) => (Panic, w)
  | (FNoFuel, w) => (NoFuel, w)
  end.

(** src/combinators/macros.rs:263-272 [iter_till_end_test!]. *)
Definition end_test_w {W I V N E D} (end_ : sparser W I V N) (it : iter_till unit unit I E D) (w : W)
  : pre_res (iter_till unit unit I E D) * W :=
  match end_ w (tt_buf it) with
  | (Data b _, w) => (PreNone (mkIterTill TEndSuccess tt tt b (tt_data it)), w)
  | (Error _ _, w) | (Incomplete _, w) => (PreGo it, w)
  | (Panic, w) => (PrePanic, w)
  | (NoFuel, w) => (PreNoFuel, w)
  end.

(** Sequencing of statements inside a pre-hook block. As in src/combinators/bounded.rs:344-349, 553-561. *)
Definition pre_seq_w {W It} (a : pre_res It * W) (k : It -> W -> pre_res It * W) : pre_res It * W :=
  match a with
  | (PreGo it, w) => k it w
  | x => x
  end.

(** src/combinators/macros.rs:212-234 [IterTill::next]. *)
Definition iter_till_next_w {W I T E D} (p : sparser W I T E)
    (pre : iter_till unit unit I E D -> W -> pre_res (iter_till unit unit I E D) * W) (on : D -> D) (it0 : iter_till unit unit I E D)
    (w : W) : step (iter_till unit unit I E D) T * W :=
  match pre it0 w with
  | (PrePanic, w) => (StepPanic, w)
  | (PreNoFuel, w) => (StepNoFuel, w)
  | (PreNone it, w) => (Stop it, w)
  | (PreGo it, w) =>
      match p w (tt_buf it) with
      | (Data b v, w) => (Yield v (mkIterTill (tt_state it) tt tt b (on (tt_data it))), w)
      | (Error b e, w) => (Stop (mkIterTill (TError b e) tt tt (tt_buf it) (tt_data it)), w)
      | (Incomplete n, w) => (Stop (mkIterTill (TIncomplete n) tt tt (tt_buf it) (tt_data it)), w)
      | (Panic, w) => (StepPanic, w)
      | (NoFuel, w) => (StepNoFuel, w)
      end
  end.

(** src/combinators/macros.rs:238-257. *)
Definition run_iter_till_w {W I U T E D C} (fuel : nat) (col : collector U T C) (i : input I)
    (p : sparser W I U E) (data : D) (hint : D -> nat * option nat)
    (pre : iter_till unit unit I E D -> W -> pre_res (iter_till unit unit I E D) * W) (on : D -> D)
    (fin : T -> input I -> D -> end_state_till I E -> pres I T E) (w : W) : pres I T E * W :=
  match from_iter_w fuel (iter_till_next_w p pre on) (fun it => hint (tt_data it)) (cact col) (cinit col)
          (mkIterTill (TIncomplete 1) tt tt i data) w with
  | (FDone t it, w) => (fin t (tt_buf it) (tt_data it) (tt_state it), w)
  | (FPanic, w) => (Panic, w)
  | (FNoFuel, w) => (NoFuel, w)
  end.

(** * src/combinators/bounded.rs *)

Section ParseMany.
  Context {W I U T E C : Type}.
  Variable fuel : nat.
  Variable col : collector U T C.
  Variable f : sparser W I U E.

  (** src/combinators/bounded.rs:104-151, 253-289, 371-400, 460-499, 583-618 [parse_many] for the five kinds of ranges, with the dispatch
      of lines 717-724 [many]. *)
  Definition bmany_w (r : range) : sparser W I T E := fun w i =>
    match r with
    | RRange a b =>
        if negb (a <=? b) then (Panic, w)
        else
          run_iter_w fuel col i f (a, Nat.max b 1 - 1)
            (fun d => (fst d, Some (snd d)))
            (fun d => snd d =? 0)
            (fun d => (dec0 (fst d), snd d - 1))
            (fun result s d st =>
               match d, st with
               | (0, 0), _ => ret result s
               | (0, _), ESError _ _ => ret result s
               | (0, _), ESIncomplete n => if last s then ret result s else incomplete n s
               | (_, _), ESError b e => err e (replace s b)
               | (_, _), ESIncomplete n => incomplete n s
               end) w
    | RFrom a =>
        run_iter_w fuel col i f a (fun d => (d, None)) (fun _ => false) dec0
          (fun result s d st =>
             match d, st with
             | 0, ESError _ _ => ret result s
             | 0, ESIncomplete n => if last s then ret result s else incomplete n s
             | _, ESError b e => err e (replace s b)
             | _, ESIncomplete n => incomplete n s
             end) w
    | RFull =>
        run_iter_w fuel col i f tt (fun _ => (0, None)) (fun _ => false) (fun d => d)
          (fun result s d st =>
             match st with
             | ESError _ _ => ret result s
             | ESIncomplete n => if last s then ret result s else incomplete n s
             end) w
    | RTo b =>
        run_iter_w fuel col i f (Nat.max b 1 - 1) (fun d => (0, Some d)) (fun d => d =? 0) (fun d => d - 1)
          (fun result s d st =>
             match d, st with
             | 0, _ => ret result s
             | _, ESError _ _ => ret result s
             | _, ESIncomplete n => if last s then ret result s else incomplete n s
             end) w
    | RExact n =>
        run_iter_w fuel col i f n (fun d => (d, Some d)) (fun d => d =? 0) (fun d => d - 1)
          (fun result s d st =>
             match d, st with
             | 0, _ => ret result s
             | _, ESError b e => err e (replace s b)
             | _, ESIncomplete n => incomplete n s
             end) w
    end.
End ParseMany.

Section ManyTill.
  Context {W I U V T E N C : Type}.
  Variable fuel : nat.
  Variable col : collector U T C.
  Variable p : sparser W I U E.
  Variable end_ : sparser W I V N.

  (** src/combinators/bounded.rs:194-248, 324-366, 422-455, 533-578, 655-698 [many_till] for the five kinds of ranges, with the dispatch of
      lines 763-773; [unreachable!()] is [Panic]. *)
  Definition bmany_till_w (r : range) : sparser W I T E := fun w i =>
    match r with
    | RRange a b =>
        if negb (a <=? b) then (Panic, w)
        else
          run_iter_till_w fuel col i p (a, Nat.max b 1 - 1)
            (fun d => (fst d, Some (snd d)))
            (fun it w =>
               pre_seq_w (if fst (tt_data it) =? 0 then end_test_w end_ it w else (PreGo it, w))
                 (fun it w => if snd (tt_data it) =? 0
                              then pre_seq_w (end_test_w end_ it w) (fun it w => (PreNone it, w))
                              else (PreGo it, w)))
            (fun d => (dec0 (fst d), snd d - 1))
            (fun result s d st =>
               match d, st with
               | (0, _), TEndSuccess => ret result s
               | (_, _), TError b e => err e (replace s b)
               | (_, _), TIncomplete n => incomplete n s
               | (_, _), TEndSuccess => Panic
               end) w
    | RFrom a =>
        run_iter_till_w fuel col i p a (fun d => (d, None))
          (fun it w => if tt_data it =? 0 then end_test_w end_ it w else (PreGo it, w))
          dec0
          (fun result s d st =>
             match d, st with
             | 0, TEndSuccess => ret result s
             | _, TError b e => err e (replace s b)
             | _, TIncomplete n => incomplete n s
             | _, TEndSuccess => Panic
             end) w
    | RFull =>
        run_iter_till_w fuel col i p tt (fun _ => (0, None)) (fun it w => end_test_w end_ it w) (fun d => d)
          (fun result s d st =>
             match st with
             | TEndSuccess => ret result s
             | TError b e => err e (replace s b)
             | TIncomplete n => incomplete n s
             end) w
    | RTo b =>
        run_iter_till_w fuel col i p (Nat.max b 1 - 1) (fun d => (0, Some d))
          (fun it w => pre_seq_w (end_test_w end_ it w) (fun it w => (if tt_data it =? 0 then PreNone it else PreGo it, w)))
          (fun d => d - 1)
          (fun result s d st =>
             match d, st with
             | 0, TEndSuccess => ret result s
             | _, TError b e => err e (replace s b)
             | _, TIncomplete n => incomplete n s
             | _, TEndSuccess => Panic
             end) w
    | RExact n =>
        run_iter_till_w fuel col i p n (fun d => (d, Some d))
          (fun it w => if tt_data it =? 0 then pre_seq_w (end_test_w end_ it w) (fun it w => (PreNone it, w)) else (PreGo it, w))
          (fun d => d - 1)
          (fun result s d st =>
             match d, st with
             | 0, TEndSuccess => ret result s
             | _, TError b e => err e (replace s b)
             | _, TIncomplete n => incomplete n s
             | _, TEndSuccess => Panic
             end) w
    end.
End ManyTill.

Section SkipMany.
  Context {W I T E : Type}.
  Variable f : sparser W I T E.

  (** src/combinators/bounded.rs:163-190: the loop of [skip_many for Range<usize>]. *)
  Fixpoint skip_loop_range_w (fuel min max : nat) (w : W) (i : input I) : pres I unit E * W :=
    match fuel with
    | O => (NoFuel, w)
    | S fuel' =>
        if max =? 0 then (ret tt i, w)
        else
          match f w i with
          | (Data b _, w) => skip_loop_range_w fuel' (dec0 min) (max - 1) w b
          | (Error b e, w) => (if min =? 0 then ret tt i else err e (replace i b), w)
          | (Incomplete n, w) => (if (min =? 0) && last i then ret tt i else incomplete n i, w)
          | (Panic, w) => (Panic, w)
          | (NoFuel, w) => (NoFuel, w)
          end
    end.

  (** src/combinators/bounded.rs:292-321 [skip_many for RangeFrom<usize>]. *)
  Fixpoint skip_many_from_w (fuel : nat) (min : nat) (w : W) (i : input I) : pres I unit E * W :=
    match fuel with
    | O => (NoFuel, w)
    | S fuel' =>
        match f w i with
        | (Data b _, w) => skip_many_from_w fuel' (dec0 min) w b
        | (Error b e, w) => (if min =? 0 then ret tt i else err e (replace i b), w)
        | (Incomplete n, w) => (if (min =? 0) && last i then ret tt i else incomplete n i, w)
        | (Panic, w) => (Panic, w)
        | (NoFuel, w) => (NoFuel, w)
        end
    end.

  (** src/combinators/bounded.rs:403-419 [skip_many for RangeFull]. *)
  Fixpoint skip_many_full_w (fuel : nat) (w : W) (i : input I) : pres I unit E * W :=
    match fuel with
    | O => (NoFuel, w)
    | S fuel' =>
        match f w i with
        | (Data b _, w) => skip_many_full_w fuel' w b
        | (Error _ _, w) => (ret tt i, w)
        | (Incomplete n, w) => (if last i then ret tt i else incomplete n i, w)
        | (Panic, w) => (Panic, w)
        | (NoFuel, w) => (NoFuel, w)
        end
    end.

  (** src/combinators/bounded.rs:508-529: the loop of [skip_many for RangeTo<usize>]. *)
  Fixpoint skip_loop_to_w (fuel max : nat) (w : W) (i : input I) : pres I unit E * W :=
    match fuel with
    | O => (NoFuel, w)
    | S fuel' =>
        if max =? 0 then (ret tt i, w)
        else
          match f w i with
          | (Data b _, w) => skip_loop_to_w fuel' (max - 1) w b
          | (Error _ _, w) => (ret tt i, w)
          | (Incomplete n, w) => (if last i then ret tt i else incomplete n i, w)
          | (Panic, w) => (Panic, w)
          | (NoFuel, w) => (NoFuel, w)
          end
    end.

  (** src/combinators/bounded.rs:621-652 [skip_many for usize]; the shadowed [n] as in Combinators.v. *)
  Fixpoint skip_many_exact_w (fuel : nat) (n : nat) (w : W) (i : input I) : pres I unit E * W :=
    match fuel with
    | O => (NoFuel, w)
    | S fuel' =>
        if n =? 0 then (ret tt i, w)
        else
          match f w i with
          | (Data b _, w) => skip_many_exact_w fuel' (n - 1) w b
          | (Error b e, w) => (if n =? 0 then ret tt i else err e (replace i b), w)
          | (Incomplete n, w) => (if n =? 0 then ret tt i else incomplete n i, w)
          | (Panic, w) => (Panic, w)
          | (NoFuel, w) => (NoFuel, w)
          end
    end.

  (** src/combinators/bounded.rs:154-162, 502-507 (the beginnings of two [skip_many]) and 741-746 [skip_many]: dispatch. *)
  Definition bskip_many_w (fuel : nat) (r : range) : sparser W I unit E := fun w i =>
    match r with
    | RRange a b => if negb (a <=? b) then (Panic, w) else skip_loop_range_w fuel a (Nat.max b 1 - 1) w i
    | RFrom a => skip_many_from_w fuel a w i
    | RFull => skip_many_full_w fuel w i
    | RTo b => skip_loop_to_w fuel (Nat.max b 1 - 1) w i
    | RExact n => skip_many_exact_w fuel n w i
    end.
End SkipMany.

(** * src/combinators/mod.rs, second part *)
Section Iteration.
  Context {W I U V T E N C : Type}.
  Variable fuel : nat.
  Variable col : collector U T C.

  (** src/combinators/mod.rs:34-40 [count], 128-134 [many], 157-163 [many1], 261-270 [many_till]. *)
  Definition count_w (num : nat) (p : sparser W I U E) : sparser W I T E := bmany_w fuel col p (RExact num).
  Definition many_w (p : sparser W I U E) : sparser W I T E := bmany_w fuel col p RFull.
  Definition many1_w (p : sparser W I U E) : sparser W I T E := bmany_w fuel col p (RFrom 1).
  Definition many_till_w (p : sparser W I U E) (end_ : sparser W I V N) : sparser W I T E := bmany_till_w fuel col p end_ RFull.

  (** src/combinators/mod.rs:194-200 and 235-241: the closure of [sep_by] and [sep_by1].  Its world is that of [p] and [sep] together with
      the captured flag [item]. *)
  Definition sep_item_w (conv : callback W N E) (p : sparser W I U E) (sep : sparser W I V N) : sparser (bool * W) I U E := fun st i =>
    let (item, w) := st in
    let (r0, w) := if item then let (r, w) := sep w i in map_w (fun _ w => (Some tt, w)) r w else (ret tt i, w) in
    let (r1, w) := then_w conv r0 p w in
    let (r2, item) := inspect_w (fun _ _ => (Some tt, true)) r1 item in
    (r2, (item, w)).

  (** src/combinators/mod.rs:182-203 [sep_by], 223-244 [sep_by1]. *)
  Definition sep_by_w (conv : callback W N E) (p : sparser W I U E) (sep : sparser W I V N) : sparser W I T E := fun w i =>
    let '(r, (_, w)) := bmany_w fuel col (sep_item_w conv p sep) RFull (false, w) i in (r, w).
  Definition sep_by1_w (conv : callback W N E) (p : sparser W I U E) (sep : sparser W I V N) : sparser W I T E := fun w i =>
    let '(r, (_, w)) := bmany_w fuel col (sep_item_w conv p sep) (RFrom 1) (false, w) i in (r, w).
End Iteration.

(** * Streams *)

(** src/buffer/slice.rs:81-110 [parse]; nothing but the parser acts on the world. *)
Definition slice_parse_w {W I T E} (p : sparser W I T E) (s : slice_stream I) (w : W) : run (slice_stream I * sres I T E) * W :=
  match slice_is_empty s with
  | Done true => (Done (s, inr SEndOfInput), w)
  | Done false =>
      let (r, w) := p w (mkInput true (skipn (ss_pos s) (ss_slice s))) in
      (match r with
       | Data remainder data =>
           let! l := slice_len s in
           let! n := usize_sub l (length (buf remainder)) in
           Done (mkSliceStream (ss_pos s + n) (ss_slice s), inl data)
       | Error remainder err =>
           let! l := slice_len s in
           let! n := usize_sub l (length remainder) in
           Done (mkSliceStream (ss_pos s + n) (ss_slice s), inr (SParseError remainder err))
       | Incomplete n =>
           let! l := slice_len s in
           Done (s, inr (SIncomplete (n + l)))
       | Panic => Panicked
       | NoFuel => Stuck
       end, w)
  | Panicked => (Panicked, w)
  | Undefined => (Undefined, w)
  | Stuck => (Stuck, w)
  end.

(** src/buffer/stateful.rs:206-246 [parse]; nothing but the parser acts on the world. *)
Definition src_parse_w {W St I B T E} (ds : data_source St I) (ops : buffer_ops I B) (p : sparser W I T E) (st : src St B) (w : W)
  : run (src St B * sres I T E) * W :=
  match (if src_incomplete st && src_auto st then src_fill ds ops st else Done (st, IoOk 0)) with
  | Done (st, IoErr e) => (Done (st, inr (SIoError e)), w)
  | Done (st, IoOk _) =>
      match src_is_empty ops st with
      | Done true => (Done (st, inr SEndOfInput), w)
      | Done false =>
          match op_deref ops (src_buffer st) with
          | Done data =>
              let (r, w) := p w (mkInput (src_eoi st) data) in
              (match r with
               | Data remainder v =>
                   let! l := op_len ops (src_buffer st) in
                   let! n := usize_sub l (length (buf remainder)) in
                   let! b := op_consume ops (src_buffer st) n in
                   Done (src_with st b (src_source st), inl v)
               | Error remainder e =>
                   let! l := op_len ops (src_buffer st) in
                   let! n := usize_sub l (length remainder) in
                   let! b := op_consume ops (src_buffer st) n in
                   Done (src_with st b (src_source st), inr (SParseError remainder e))
               | Incomplete n =>
                   let! l := op_len ops (src_buffer st) in
                   let request := l + n in
                   if src_eoi st then
                     Done (mkSrc (src_source st) (src_buffer st) request (src_incomplete st) (src_eoi st) (src_auto st), inr (SIncomplete request))
                   else
                     Done (mkSrc (src_source st) (src_buffer st) request true (src_eoi st) (src_auto st), inr SRetry)
               | Panic => Panicked
               | NoFuel => Stuck
               end, w)
          | Panicked => (Panicked, w)
          | Undefined => (Undefined, w)
          | Stuck => (Stuck, w)
          end
      | Panicked => (Panicked, w)
      | Undefined => (Undefined, w)
      | Stuck => (Stuck, w)
      end
  | Panicked => (Panicked, w)
  | Undefined => (Undefined, w)
  | Stuck => (Stuck, w)
  end.

(** src/buffer/stateful.rs:206-220 [parse], left by a panic of the parser which the caller catches: the Source and the world as they are
    then.  [self.buffer.consume], [self.request] and the flag come after the parser (lines 221-244), so there is only [fill] before it. *)
Definition src_parse_crash {W St I B T E} (ds : data_source St I) (ops : buffer_ops I B) (p : sparser W I T E) (st : src St B) (w : W) : option (src St B * W) :=
  match (if src_incomplete st && src_auto st then src_fill ds ops st else Done (st, IoOk 0)) with
  | Done (st, IoOk _) =>
      match src_is_empty ops st with
      | Done false =>
          match op_deref ops (src_buffer st) with
          | Done data => match p w (mkInput (src_eoi st) data) with (Panic, w) => Some (st, w) | _ => None end
          | _ => None
          end
      | _ => None
      end
  | _ => None
  end.
