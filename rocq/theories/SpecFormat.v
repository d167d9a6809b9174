(** Formats: which text a value is written as, without reference to the library (C84). *)
From Coq Require Import List Bool Arith.
From Verif Require Import Base Parsers Combinators SpecBase SpecSafe SpecIter SpecLoop.
Import ListNotations.

Set Implicit Arguments.

(** * What it means to read what is written *)

(** [W v t]: the value [v] may be written as the text [t]. *)
Definition notation_ (I T : Type) : Type := T -> list I -> Prop.

(** Texts begin with items in [F]; they are empty only if [N]. *)
Definition starts {I T} (W : notation_ I T) (N : bool) (F : I -> Prop) : Prop :=
  forall v t, W v t -> match t with [] => N = true | x :: _ => F x end.

(** Nothing follows, or something that does not prolong the text. *)
Definition clear_of {I} (X : I -> Prop) (rest : list I) : Prop := match rest with [] => True | x :: _ => ~ X x end.

(** What is written is read back, and no more. *)
Definition reads_back {I T E} (W : notation_ I T) (X : I -> Prop) (p : parser I T E) : Prop :=
  forall v t rest, W v t -> clear_of X rest -> p (mkInput true (t ++ rest)) = Data (mkInput true rest) v.

(** What is read was written. *)
Definition reads_only {I T E} (W : notation_ I T) (p : parser I T E) : Prop :=
  forall l s j v, p (mkInput l s) = Data j v -> last j = l /\ exists t, W v t /\ s = t ++ buf j.

(** Where no text begins, the parser fails, or gives a value for the empty text. *)
Definition refuses {I T E} (N : bool) (F : I -> Prop) (p : parser I T E) : Prop :=
  forall s, clear_of F s -> if N then exists v, p (mkInput true s) = Data (mkInput true s) v else fails_on p (mkInput true s).

(** The parser always returns an answer. *)
Definition answers_all {I T E} (p : parser I T E) : Prop := forall i, p i <> Panic /\ p i <> NoFuel.

(** On no input which may be followed by more, it asks for more, unless it can do with the empty text. *)
Definition hungry {I T E} (N : bool) (p : parser I T E) : Prop :=
  (exists n, p (mkInput false []) = Incomplete n) \/ (N = true /\ exists v, p (mkInput false []) = Data (mkInput false []) v).

(** The parser, then [eof] (src/parsers.rs:400-406). *)
Definition to_the_end {I T} (v : bool) (p : parser I T (error I)) : parser I T (error I) := fun i =>
  bind (fun e => e) (p i) (fun j x => map (fun _ => x) (eof v j)).

(** No item is in both. *)
Definition apart {I} (A B : I -> Prop) : Prop := forall x, A x -> B x -> False.

(** * Formats *)

(** [Own]: a format of one's own, given by its notation, whether the empty text is in it, the items its texts begin with, the items that must not follow, and
    the parser. *)
Inductive fmt (I : Type) : Type -> Type :=
| FLit (w : list I) : fmt I unit                                          (* these items *)
| FItem (c : I -> bool) : fmt I I                                         (* one item of a class *)
| FSpan (c : I -> bool) : fmt I (list I)                                  (* items of a class *)
| FSpan1 (c : I -> bool) : fmt I (list I)                                 (* the same, at least one *)
| FTake (n : nat) : fmt I (list I)                                        (* that many items *)
| FOwn (T : Type) (W : notation_ I T) (N : bool) (F X : I -> Prop) (p : parser I T (error I)) : fmt I T
| FMap (A B : Type) (g : A -> B) (f : fmt I A) : fmt I B                  (* another view of the values *)
| FSeq (A B : Type) (a : fmt I A) (b : fmt I B) : fmt I (A * B)           (* one after the other *)
| FBind (A B : Type) (a : fmt I A) (b : A -> fmt I B) : fmt I (A * B)     (* the first value says what comes next *)
| FAlt (A B : Type) (a : fmt I A) (b : fmt I B) : fmt I (A + B)           (* either *)
| FOption (A : Type) (a : fmt I A) : fmt I (option A)                     (* or nothing *)
| FMany (r : range) (A : Type) (a : fmt I A) : fmt I (list A)             (* a number of them *)
| FSkip (r : range) (A : Type) (a : fmt I A) : fmt I unit                 (* the same, values not of interest *)
| FSepBy (A B : Type) (a : fmt I A) (s : fmt I B) : fmt I (list A)        (* with something in between *)
| FSepBy1 (A B : Type) (a : fmt I A) (s : fmt I B) : fmt I (list A)       (* the same, at least one *)
| FTill (A B : Type) (a : fmt I A) (e : fmt I B) : fmt I (list A)         (* up to an end *)
| FSlice (A : Type) (a : fmt I A) : fmt I (list I * A).                   (* with the text *)
Arguments FLit {I} w.
Arguments FTake {I} n.

(** A list of values, each written, one after the other. *)
Inductive each_written {I T} (W : notation_ I T) : list T -> list I -> Prop :=
| ew_nil : each_written W [] []
| ew_cons : forall v t vs ts, W v t -> each_written W vs ts -> each_written W (v :: vs) (t ++ ts).

(** The same with something written in front of each. *)
Definition after {I A B} (S : notation_ I B) (W : notation_ I A) : notation_ I A := fun v t => exists x s u, S x s /\ W v u /\ t = s ++ u.

Definition sep_written {I A B} (W : notation_ I A) (S : notation_ I B) : notation_ I (list A) := fun vs t =>
  exists v u us w, vs = v :: us /\ W v u /\ each_written (after S W) us w /\ t = u ++ w.

(** Whether a number of repetitions can be gone on with. *)
Definition elastic (r : range) : Prop := match r with RExact _ => False | _ => True end.
Definition allows_none (r : range) : bool :=
  match r with RRange a _ | RFrom a => a =? 0 | RFull => true | RTo _ => true | RExact n => n =? 0 end.

Section Formats.
  Context {I : Type}.
  (** Equality of items. *)
  Variable eqb : I -> I -> bool.

  (** Which text a value is written as. *)
  Fixpoint written {T} (f : fmt I T) : notation_ I T :=
    match f in fmt _ T return notation_ I T with
    | FLit w => fun _ t => same_items eqb w t
    | FItem c => fun x t => t = [x] /\ c x = true
    | FSpan c => fun v t => t = v /\ Forall (fun x => c x = true) v
    | FSpan1 c => fun v t => t = v /\ Forall (fun x => c x = true) v /\ v <> []
    | FTake n => fun v t => t = v /\ length v = n
    | FOwn W _ _ _ _ => W
    | FMap g f => fun v t => exists u, g u = v /\ written f u t
    | FSeq a b => fun v t => exists ta tb, t = ta ++ tb /\ written a (fst v) ta /\ written b (snd v) tb
    | FBind a b => fun v t => exists ta tb, t = ta ++ tb /\ written a (fst v) ta /\ written (b (fst v)) (snd v) tb
    | FAlt a b => fun v t => match v with inl x => written a x t | inr y => written b y t end
    | FOption a => fun v t => match v with Some x => written a x t | None => t = [] end
    | FMany r a => fun vs t => in_range r (length vs) /\ each_written (written a) vs t
    | FSkip r a => fun _ t => exists vs, in_range r (length vs) /\ each_written (written a) vs t
    | FSepBy a s => fun vs t => (vs = [] /\ t = []) \/ sep_written (written a) (written s) vs t
    | FSepBy1 a s => sep_written (written a) (written s)
    | FTill a e => fun vs t => exists u v w, t = u ++ w /\ each_written (written a) vs u /\ written e v w
    | FSlice a => fun v t => fst v = t /\ written a (snd v) t
    end.

  (** Whether a text may be empty. *)
  Fixpoint nul {T} (f : fmt I T) : bool :=
    match f with
    | FLit w => match w with [] => true | _ => false end
    | FItem _ => false
    | FSpan _ => true
    | FSpan1 _ => false
    | FTake n => n =? 0
    | FOwn _ N _ _ _ => N
    | FMap _ f => nul f
    | FSeq a b => nul a && nul b
    | FBind a _ => nul a
    | FAlt a b => nul a || nul b
    | FOption _ => true
    | FMany r _ => allows_none r
    | FSkip r _ => allows_none r
    | FSepBy _ _ => true
    | FSepBy1 a _ => nul a
    | FTill a e => nul e
    | FSlice a => nul a
    end.

  (** The items texts may begin with. *)
  Fixpoint begins {T} (f : fmt I T) : I -> Prop :=
    match f with
    | FLit w => fun x => match w with [] => False | y :: _ => eqb y x = true end
    | FItem c | FSpan c | FSpan1 c => fun x => c x = true
    | FTake n => fun _ => n <> 0
    | FOwn _ _ F _ _ => F
    | FMap _ f => begins f
    | FSeq a b => fun x => begins a x \/ (nul a = true /\ begins b x)
    | FBind a _ => begins a
    | FAlt a b => fun x => begins a x \/ begins b x
    | FOption a | FMany _ a | FSkip _ a | FSepBy a _ | FSepBy1 a _ | FSlice a => begins a
    | FTill a e => fun x => begins a x \/ begins e x
    end.

  (** The items which, following a text, might be taken for a part of it. *)
  Fixpoint prolongs {T} (f : fmt I T) : I -> Prop :=
    match f with
    | FLit _ | FItem _ | FTake _ => fun _ => False
    | FSpan c | FSpan1 c => fun x => c x = true
    | FOwn _ _ _ X _ => X
    | FMap _ f => prolongs f
    | FSeq a b => fun x => prolongs b x \/ (nul b = true /\ prolongs a x)
    | FBind a b => fun x => exists v, prolongs (b v) x \/ (nul (b v) = true /\ prolongs a x)
    | FAlt a b => fun x => prolongs a x \/ prolongs b x \/ (nul b = true /\ begins a x)
    | FOption a => fun x => prolongs a x \/ begins a x
    | FMany r a | FSkip r a => fun x => prolongs a x \/ (elastic r /\ begins a x)
    | FSepBy a s => fun x => prolongs a x \/ begins a x \/ begins s x
    | FSepBy1 a s => fun x => prolongs a x \/ begins s x \/ (nul s = true /\ begins a x)
    | FTill _ e => prolongs e
    | FSlice a => prolongs a
    end.

  (** What comes next can be told from the next item. *)
  Fixpoint unambiguous {T} (f : fmt I T) : Prop :=
    match f with
    | FLit _ | FItem _ | FSpan _ | FSpan1 _ | FTake _ => True
    | FOwn W N F X p => starts W N F /\ reads_back W X p /\ reads_only W p /\ refuses N F p /\ answers_all p /\ well_behaved p
    | FMap _ f => unambiguous f
    | FSeq a b => unambiguous a /\ unambiguous b /\ apart (prolongs a) (begins b)
    | FBind a b => unambiguous a /\ nul a = false /\ forall v, unambiguous (b v) /\ apart (prolongs a) (begins (b v))
    | FAlt a b => unambiguous a /\ unambiguous b /\ nul a = false /\ apart (begins a) (begins b)
    | FOption a => unambiguous a /\ nul a = false
    | FMany r a | FSkip r a => unambiguous a /\ nul a = false /\ nonempty r /\ apart (prolongs a) (begins a)
    | FSepBy a s | FSepBy1 a s => unambiguous a /\ unambiguous s /\ nul a = false /\ apart (prolongs a) (begins s) /\ apart (prolongs s) (begins a) /\
        (nul s = true -> apart (prolongs a) (begins a))
    | FTill a e => unambiguous a /\ unambiguous e /\ nul a = false /\ nul e = false /\ apart (prolongs a) (begins a) /\ apart (prolongs a) (begins e) /\
        apart (begins a) (begins e)
    | FSlice a => unambiguous a
    end.

  (** The parsers of one's own only read what is written, and the numbers of repetitions are possible ones. *)
  Fixpoint grounded {T} (f : fmt I T) : Prop :=
    match f with
    | FLit _ | FItem _ | FSpan _ | FSpan1 _ | FTake _ => True
    | FOwn W _ _ _ p => reads_only W p /\ well_behaved p
    | FMap _ f => grounded f
    | FSeq a b => grounded a /\ grounded b
    | FBind a b => grounded a /\ forall v, grounded (b v)
    | FAlt a b => grounded a /\ grounded b
    | FOption a => grounded a
    | FMany r a | FSkip r a => nonempty r /\ grounded a
    | FSepBy a s | FSepBy1 a s => grounded a /\ grounded s
    | FTill a e => grounded a /\ grounded e
    | FSlice a => grounded a
    end.
End Formats.
