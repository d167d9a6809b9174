(** User code with effects in a [parse!] block (C80): what a phrase does, and the order of the pieces of user code in the text.
    Independent of the macro rules. *)
From Coq Require Import List Bool.
From Verif Require Import Base Parsers Combinators Stream Effects Macro MacroEffects SpecMacro SpecKeep.
Import ListNotations.

Set Implicit Arguments.

(** * What a phrase does *)
Section Meaning.
  Context {W I V E : Type}.
  Variable m : meaning_w W I V E.

  (** [runs] of SpecMacro.v with the world before and after: of a sequence the first part acts first; an alternative finds the world as the
      rejected one left it; nothing else acts. *)
  Inductive runs_w : expr -> @env V -> W -> input I -> pres I V E -> W -> Prop :=
  | rw_ret rho w i e v w' : w_value m rho e w = (Some v, w') -> runs_w (ERet e) rho w i (Data i v) w'
  | rw_ret_panic rho w i e w' : w_value m rho e w = (None, w') -> runs_w (ERet e) rho w i Panic w'
  | rw_ret_typed rho w i t u e r w' : runs_w (ERet e) rho w i r w' -> runs_w (ERetTyped t u e) rho w i r w'
  | rw_err rho w i e x w' : w_error m rho e w = (Some x, w') -> runs_w (EErr e) rho w i (Error (buf i) x) w'
  | rw_err_panic rho w i e w' : w_error m rho e w = (None, w') -> runs_w (EErr e) rho w i Panic w'
  | rw_err_typed rho w i t u e r w' : runs_w (EErr e) rho w i r w' -> runs_w (EErrTyped t u e) rho w i r w'
  | rw_inline rho w i s e r w' : w_inline m rho s e w i = (r, w') -> runs_w (EInline s e) rho w i r w'
  | rw_named rho w i f ps r w' : w_call m rho f ps w i = (r, w') -> runs_w (ENamed f ps) rho w i r w'
  | rw_then a b rho w i j v w1 r w2 : runs_w a rho w i (Data j v) w1 -> runs_w b rho w1 j r w2 -> runs_w (EThen a b) rho w i r w2
  | rw_then_fail a b rho w i r w1 : runs_w a rho w i r w1 -> failure r -> runs_w (EThen a b) rho w i r w1
  | rw_alt_stays a b rho w i r w1 : runs_w a rho w i r w1 -> (forall s e, r <> Error s e) -> (forall n, r = Incomplete n -> last i = false) ->
      runs_w (EAlt a b) rho w i r w1
  | rw_alt_error a b rho w i s e w1 r w2 : runs_w a rho w i (Error s e) w1 -> runs_w b rho w1 i r w2 -> runs_w (EAlt a b) rho w i r w2
  | rw_alt_end a b rho w i n w1 r w2 : runs_w a rho w i (Incomplete n) w1 -> last i = true -> runs_w b rho w1 i r w2 -> runs_w (EAlt a b) rho w i r w2
  | rw_skip a b rho w i j v w1 k u w2 : runs_w a rho w i (Data j v) w1 -> runs_w b rho w1 j (Data k u) w2 -> runs_w (ESkip a b) rho w i (Data k v) w2
  | rw_skip_fail_l a b rho w i r w1 : runs_w a rho w i r w1 -> failure r -> runs_w (ESkip a b) rho w i r w1
  | rw_skip_fail_r a b rho w i j v w1 r w2 : runs_w a rho w i (Data j v) w1 -> runs_w b rho w1 j r w2 -> failure r -> runs_w (ESkip a b) rho w i r w2.

  Inductive runs_block_w : block -> @env V -> W -> input I -> pres I V E -> W -> Prop :=
  | rbw_last e rho w i r w' : runs_w e rho w i r w' -> runs_block_w (BLast e) rho w i r w'
  | rbw_do e k rho w i j v w1 r w2 : runs_w e rho w i (Data j v) w1 -> runs_block_w k rho w1 j r w2 -> runs_block_w (BDo e k) rho w i r w2
  | rbw_do_fail e k rho w i r w1 : runs_w e rho w i r w1 -> failure r -> runs_block_w (BDo e k) rho w i r w1
  | rbw_let x e k rho w i j v w1 r w2 : runs_w e rho w i (Data j v) w1 -> runs_block_w k ((x, v) :: rho) w1 j r w2 ->
      runs_block_w (BLet x e k) rho w i r w2
  | rbw_let_fail x e k rho w i r w1 : runs_w e rho w i r w1 -> failure r -> runs_block_w (BLet x e k) rho w i r w1.
End Meaning.

(** * The pieces of user code *)

Inductive piece : Type :=
| PValue (e : list tok)                                     (* the expression behind [ret] *)
| PError (e : list tok)                                     (* the one behind [err] *)
| PInline (s : nat) (e : list tok)                          (* [s -> e] *)
| PCall (f : nat) (ps : list (list tok)).                   (* [f(ps)] *)

(** In the order of the text. *)
Fixpoint pieces (e : expr) : list piece :=
  match e with
  | EThen a b | EAlt a b | ESkip a b => pieces a ++ pieces b
  | ERet e | ERetTyped _ _ e => [PValue e]
  | EErr e | EErrTyped _ _ e => [PError e]
  | EInline s e => [PInline s e]
  | ENamed f ps => [PCall f ps]
  end.
Fixpoint block_pieces (b : block) : list piece :=
  match b with
  | BLast e => pieces e
  | BDo e k | BLet _ e k => pieces e ++ block_pieces k
  end.

(** Tokens, those of groups included. *)
Fixpoint tokens (t : tok) : list tok :=
  match t with
  | Group l => flat_map tokens l
  | t => [t]
  end.
(** The tokens by which a piece is recognised: its expression, its variable, the name of the function which is called. *)
Definition spelling (p : piece) : list tok :=
  match p with
  | PValue e | PError e => flat_map tokens e
  | PInline s e => Ident s :: flat_map tokens e
  | PCall f _ => [Ident f]
  end.

(** [among l m]: [l] is [m] with some elements left out. *)
Inductive among {A : Type} : list A -> list A -> Prop :=
| am_nil : among [] []
| am_take a l m : among l m -> among (a :: l) (a :: m)
| am_skip a l m : among l m -> among l (a :: m).

(** No [<|>]. *)
Fixpoint straight (e : expr) : Prop :=
  match e with
  | EThen a b | ESkip a b => straight a /\ straight b
  | EAlt _ _ => False
  | _ => True
  end.
Fixpoint straight_block (b : block) : Prop :=
  match b with
  | BLast e => straight e
  | BDo e k | BLet _ e k => straight e /\ straight_block k
  end.

(** * Keeping a record of what is run *)

(** How a piece of user code ended. *)
Inductive ended : Type := Well | Badly | Asking | InPanic | Never.
Definition end_of {I T E} (r : pres I T E) : ended :=
  match r with Data _ _ => Well | Error _ _ => Badly | Incomplete _ => Asking | Panic => InPanic | NoFuel => Never end.

(** The same user code, each piece noting at its end that it was run and how it ended. *)
Definition noting {W I V E} (p : piece) (f : sparser W I V E) : sparser (W * list (piece * ended)) I V E := fun wl i =>
  let (r, w) := f (fst wl) i in (r, (w, snd wl ++ [(p, end_of r)])).
Definition noting_expr {W A} (p : piece) (well : ended) (f : W -> option A * W) (wl : W * list (piece * ended)) : option A * (W * list (piece * ended)) :=
  let (r, w) := f (fst wl) in (r, (w, snd wl ++ [(p, match r with Some _ => well | None => InPanic end)])).
Definition noted {W I V E} (m : meaning_w W I V E) : meaning_w (W * list (piece * ended)) I V E := {|
  w_value := fun rho e => noting_expr (PValue e) Well (w_value m rho e);
  w_error := fun rho e => noting_expr (PError e) Badly (w_error m rho e);
  w_inline := fun rho s e => noting (PInline s e) (w_inline m rho s e);
  w_call := fun rho f ps => noting (PCall f ps) (w_call m rho f ps) |}.

(** The parsers among the user code, whatever the variables are bound to. *)
Definition terms_w {W I V E} (m : meaning_w W I V E) (P : sparser W I V E -> Prop) : Prop :=
  (forall rho s e, P (w_inline m rho s e)) /\ (forall rho f ps, P (w_call m rho f ps)).

(** User code whose answers do not depend on the world: they are those of [m0]. *)
Definition steady {W I V E} (m : meaning_w W I V E) (m0 : @meaning I V E) : Prop :=
  (forall rho e w, fst (w_value m rho e w) = Some (m_value m0 rho e)) /\
  (forall rho e w, fst (w_error m rho e w) = Some (m_error m0 rho e)) /\
  (forall rho s e w i, fst (w_inline m rho s e w i) = m_inline m0 rho s e i) /\
  (forall rho f ps w i, fst (w_call m rho f ps w i) = m_call m0 rho f ps i).

(** Programs over a stream which parse blocks on a copy of the world (SpecKeep.v): their user code is firm and returns, the blocks need some
    input. *)
Inductive block_work {W I V E} (rc : rustc) : work W I V E -> Prop :=
| bw_finish : block_work rc Finish
| bw_change f c : block_work rc c -> block_work rc (Change f c)
| bw_parse ts (m : meaning_w W I V E) c rho k : ts <> [] -> expand_parse rc (Some ts) = Some c ->
    terms_w m (fun p => keeping p /\ forall w i, fst (p w i) <> NoFuel) ->
    (forall w, exists n, fst (eval_w m c rho [mkInput false []] w) = Incomplete n) ->
    (forall r w, block_work rc (k r w)) -> block_work rc (Parse (on_a_copy (fun w i => eval_w m c rho [i] w)) k).
