(** The code emitted by [parse!] (src/macros.rs) when the user's code in it has effects: as [eval] of Macro.v, with a world as in
    Effects.v.  An expression may act on the world and may panic, a parser which is called or written inline may do so as well. *)
From Coq Require Import List.
From Verif Require Import Base Parsers Combinators Effects Macro.
Import ListNotations.

Set Implicit Arguments.

Section Eval.
  Context {W I V E : Type}.

  (** The user's Rust code, src/macros.rs:464-476; as [meaning] of Macro.v. *)
  Record meaning_w : Type := mkMeaningW {
    w_value : @env V -> list tok -> W -> option V * W;
    w_error : @env V -> list tok -> W -> option E * W;
    w_inline : @env V -> nat -> list tok -> sparser W I V E;
    w_call : @env V -> nat -> list (list tok) -> sparser W I V E }.
  Variable m : meaning_w.

  (** [$input] in src/macros.rs:453-528, as [with_input] of Macro.v. *)
  Definition with_input_w (ins : list (input I)) (i : nat) (f : sparser W I V E) (w : W) : pres I V E * W :=
    match nth_error ins i with Some x => f w x | None => (NoFuel, w) end.

  (** [$input.ret($e)], src/macros.rs:464-466: [$e] is evaluated before [ret] runs. *)
  Definition ret_w (e : W -> option V * W) : sparser W I V E := fun w i =>
    match e w with (Some v, w) => (ret v i, w) | (None, w) => (Panic, w) end.
  (** [$input.err($e)], src/macros.rs:468-470. *)
  Definition err_w (e : W -> option E * W) : sparser W I V E := fun w i =>
    match e w with (Some x, w) => (err x i, w) | (None, w) => (Panic, w) end.

  (** src/macros.rs:453-528, as [eval] of Macro.v.  [From] is the identity, hence acts on nothing. *)
  Fixpoint eval_w (c : code) (rho : env) (ins : list (input I)) (w : W) : pres I V E * W :=
    match c with
    | CInput _ => (NoFuel, w)
    | CRet i e | CRetTyped i _ _ e => with_input_w ins i (ret_w (w_value m rho e)) w
    | CErr i e | CErrTyped i _ _ e => with_input_w ins i (err_w (w_error m rho e)) w
    | CInline s i e => with_input_w ins i (w_inline m rho s e) w
    | CCall f i ps => with_input_w ins i (w_call m rho f ps) w
    | CBind c b k =>
        let (r, w) := eval_w c rho ins w in
        bind_w (fun e w => (Some e, w)) r (fun v w i => eval_w k (bound b v rho) (i :: ins) w) w
    | COr i a b => with_input_w ins i (or_w (fun w i => eval_w a rho (i :: ins) w) (fun w i => eval_w b rho (i :: ins) w)) w
    | CSkip a b =>
        let (r, w) := eval_w a rho ins w in
        bind_w (fun e w => (Some e, w)) r
          (fun l w i => let (r, w) := eval_w b rho (i :: ins) w in map_w (fun _ w => (Some l, w)) r w) w
    end.
End Eval.
Arguments meaning_w : clear implicits.
