(** Syntax and meaning of the part of Rust in which src/*.rs is written, so that its text itself can be given a meaning
    (RustText.v, written by tools/rust_text.py).  No proofs here.

    Not from /repo: this is the language, not the program.  Types are not represented; what depends on them (which implementation a
    method call means) is decided by the value at hand.  References to values that cannot change are the values themselves; moves and
    copies are not told apart.  Integers do not overflow upwards, a negative difference panics (debug build). *)
From Coq Require Import List Bool Arith String.
From Verif Require Import Base Combinators Buffer.
Import ListNotations.

Set Implicit Arguments.
Local Open Scope string_scope.
Local Open Scope nat_scope.

(** * Syntax *)

(** Rust operators used in src/*.rs. *)
Inductive binop : Type := OAdd | OSub | OMul | OEq | ONe | OLt | OLe | OGt | OGe | OBitOr.

(** Rust fields: of tuples and tuple structs by position, of structs by name. *)
Inductive fld : Type := Fpos (n : nat) | Fname (s : string).

(** Rust patterns.  [PCon ty c ps] is the variant [c] of the type [ty]; tuples are of the type "".  [&p] and [ref x] are [p] and [x]. *)
Inductive pat : Type :=
| PWild
| PVar (mutable : bool) (x : string)
| PNat (n : nat)
| PCon (ty c : string) (ps : list pat).

(** Rust expressions.  [EFn ty f] is the function [f] of the type or module [ty]; [ECtor ty c] a constructor used as a function;
    [EMethod e m es] is [e.m(es)]; [ESlice e lo hi] is [e[lo..hi]]; [EAt e j] is [e[j]]; [EAddr mut e] is [&e] or [&mut e];
    [ESet place e] is [place = e]; [ESliceMut e lo hi] is [&mut e[lo..hi]], [ESetAt e j v] is [e[j] = v].  [let] and [;] hold the rest of their block. *)
Inductive expr : Type :=
| EUnit
| ENat (n : nat)
| EBool (b : bool)
| EFlags (n : nat)
| EVar (x : string)
| EFn (ty f : string)
| ECtor (ty c : string)
| ECon (ty c : string) (es : list expr)
| ERec (ty : string) (fs : list (string * expr))
| ECall (f : expr) (es : list expr)
| EMethod (e : expr) (m : string) (es : list expr)
| EField (e : expr) (f : fld)
| ESlice (e : expr) (lo hi : option expr)
| ESliceMut (e : expr) (lo hi : option expr)
| EAt (e j : expr)
| EBin (o : binop) (a b : expr)
| EAnd (a b : expr)
| EOr (a b : expr)
| ENot (e : expr)
| EAddr (mutable : bool) (e : expr)
| EIf (c a b : expr)
| EMatch (e : expr) (arms : list (pat * option expr * expr))
| EClos (ps : list pat) (e : expr)
| ELet (p : pat) (e rest : expr)
| ESeq (e rest : expr)
| ESet (place e : expr)
| ESetAt (e j v : expr)
| EReturn (e : expr)
| EBreak
| ELoop (e : expr)
| EFor (x : string) (lo hi e : expr)
| EPanic.

(** A Rust function: whether [self] is taken by reference, the parameters ([self] first), the body. *)
Record fndef : Type := mkFn { fn_by_ref : bool; fn_params : list pat; fn_body : expr }.

(** * Values *)

Section Values.
  (** The items of slices; what comes from outside of the text: closures, sources, collections. *)
  Variables I O : Type.

  (** Rust values.  [VCon ty c vs] is the variant [c] of the type [ty] (an enum, a tuple struct, a tuple); [VRec] a struct; [VFlags] a value of a type made
      by [bitflags!]; [VRef l p] the place reached from location [l] by the fields [p]; a closure holds the variables it sees, each a value or
      a location.  [VMem m cap more count] is a [Vec]: its items up to its length (those never written are [None]), its capacity, by how much the
      allocator exceeds what it is asked for in each allocation, and the number of allocations so far; [VPart l p a n] is a slice to write to: [n] items
      from number [a] of the [Vec] at a place; [VPtr l p a] a pointer into it. *)
  Inductive value : Type :=
  | VUnit
  | VBool (b : bool)
  | VNat (n : nat)
  | VFlags (n : nat)
  | VItem (x : I)
  | VSlice (l : list I)
  | VCon (ty c : string) (vs : list value)
  | VRec (ty : string) (fs : list (string * value))
  | VRef (l : nat) (p : list fld)
  | VClos (en : list (string * (value + nat))) (ps : list pat) (e : expr)
  | VFn (ty f : string)
  | VCtor (ty c : string)
  | VMem (m : list (option I)) (cap : nat) (more : nat -> nat) (count : nat)
  | VPart (l : nat) (p : list fld) (a n : nat)
  | VPtr (l : nat) (p : list fld) (a : nat)
  | VObj (o : O).

  (** How the evaluation of a Rust expression ends: with a value, by [return] or [break], with a panic, outside the rules of the language (ill-typed, undefined behaviour),
      without fuel. *)
  Inductive out (A : Type) : Type :=
  | Val (a : A)
  | Return (v : value)
  | Break
  | Panicking
  | Wrong
  | Tired.

  (** What code outside the Rust text answers to a call: a value and its new state; an [Option] or the result of a parser, of types that are written as values by
      the given functions; the end of a computation of Buffer.v; such an end that changes the argument, too; what is written to the slice given, and an
      [io::Result]; no fuel. *)
  Inductive answered : Type :=
  | Gives (v : value) (o : O)
  | GivesOption (T : Type) (r : option T) (wt : T -> value) (o : O)
  | GivesResult (T E : Type) (r : pres I T E) (wt : T -> value) (we : E -> value) (o : O)
  | GivesRun (A : Type) (r : run A) (wv : A -> value) (wo : A -> O)
  | GivesBoth (A : Type) (r : run A) (wr : A -> io nat) (wo wo' : A -> O)
  | GivesWrite (w : list (option I)) (r : io nat) (o : O)
  | GivesUp.
End Values.

Arguments VUnit {I O}.
Arguments VBool {I O} b.
Arguments VNat {I O} n.
Arguments VFlags {I O} n.
Arguments VItem {I O} x.
Arguments VSlice {I O} l.
Arguments VCon {I O} ty c vs.
Arguments VRec {I O} ty fs.
Arguments VRef {I O} l p.
Arguments VClos {I O} en ps e.
Arguments VFn {I O} ty f.
Arguments VCtor {I O} ty c.
Arguments VMem {I O} m cap more count.
Arguments VPart {I O} l p a n.
Arguments VPtr {I O} l p a.
Arguments VObj {I O} o.
Arguments Val {I O A} a.
Arguments Return {I O A} v.
Arguments Break {I O A}.
Arguments Panicking {I O A}.
Arguments Wrong {I O A}.
Arguments Tired {I O A}.
Arguments Gives {I O} v o.
Arguments GivesOption {I O T} r wt o.
Arguments GivesResult {I O T E} r wt we o.
Arguments GivesRun {I O A} r wv wo.
Arguments GivesBoth {I O A} r wr wo wo'.
Arguments GivesWrite {I O} w r o.
Arguments GivesUp {I O}.

(** * Meaning *)

Section Meaning.
  Context {I O : Type}.
  Notation value := (value I O).

  (** The end of the whole program. *)
  Context {R : Type}.

  (** The functions of the text; what the outside does when a method of it is called (["call"] for closures); the equality of items; the
      conversion of errors ([From]), and the new vectors of std. *)
  Variable fns : list (string * string * fndef).
  Variable foreign : O -> string -> list value -> answered I O.
  Variable eqb : I -> I -> bool.
  Variable conv : value -> value.
  (** The [FromIterator] asked for (Combinators.v): its states are objects from outside, [starts] is the first one. *)
  Variable starts : O.
  Variable acts : O -> caction value value O.

  (** Rust variables that can change, in the order of their creation. *)
  Definition store : Type := list value.
  (** Names of Rust variables: a value, or the location of one that can change. *)
  Definition env : Type := list (string * (value + nat)).

  (** Equality of numbers, for literals in Rust patterns and for flags. *)
  Fixpoint same_nat (m n : nat) : bool :=
    match m, n with
    | 0, 0 => true
    | S m, S n => same_nat m n
    | _, _ => false
    end.
  (** The number of Rust variables in the store. *)
  Fixpoint st_len (s : store) : nat := match s with [] => 0 | _ :: s => S (st_len s) end.
  (** The value of the Rust variable at [l]. *)
  Fixpoint st_get (s : store) (l : nat) : option value :=
    match s, l with
    | [], _ => None
    | v :: _, 0 => Some v
    | _ :: s, S l => st_get s l
    end.
  (** Assignment to the Rust variable at [l]. *)
  Fixpoint st_set (s : store) (l : nat) (v : value) : store :=
    match s, l with
    | [], _ => []
    | _ :: s, 0 => v :: s
    | w :: s, S l => w :: st_set s l v
    end.
  (** The end of a Rust block: what was created after the first [n] ones is gone. *)
  Fixpoint st_cut (s : store) (n : nat) : store :=
    match n, s with
    | 0, _ => []
    | _, [] => []
    | S n, v :: s => v :: st_cut s n
    end.
  (** A new Rust variable, at location [st_len s]. *)
  Fixpoint st_new (s : store) (v : value) : store := match s with [] => [v] | w :: s => w :: st_new s v end.

  (** Rust name lookup: the innermost one counts. *)
  Fixpoint find_var (en : env) (x : string) : option (value + nat) :=
    match en with
    | [] => None
    | (y, b) :: en => if String.eqb x y then Some b else find_var en x
    end.
  (** The function [f] of the Rust type or module [ty]. *)
  Fixpoint find_fn (l : list (string * string * fndef)) (ty f : string) : option fndef :=
    match l with
    | [] => None
    | (ty', f', d) :: l => if String.eqb f f' then if String.eqb ty ty' then Some d else find_fn l ty f else find_fn l ty f
    end.

  (** The field [n] of a Rust tuple. *)
  Fixpoint nth_value (l : list value) (n : nat) : option value :=
    match l, n with
    | [], _ => None
    | v :: _, 0 => Some v
    | _ :: l, S n => nth_value l n
    end.
  (** The field [x] of a Rust struct. *)
  Fixpoint field_value (fs : list (string * value)) (x : string) : option value :=
    match fs with
    | [] => None
    | (y, v) :: fs => if String.eqb x y then Some v else field_value fs x
    end.
  (** Rust's [v.f]. *)
  Definition get_field (v : value) (f : fld) : option value :=
    match v, f with
    | VCon _ _ vs, Fpos n => nth_value vs n
    | VRec _ fs, Fname x => field_value fs x
    | _, _ => None
    end.
  (** Rust's [v.f1.f2...]. *)
  Fixpoint get_path (v : value) (p : list fld) : option value :=
    match p with
    | [] => Some v
    | f :: p => match get_field v f with Some w => get_path w p | None => None end
    end.
  (** Rust's assignment to a field of a tuple. *)
  Fixpoint set_nth (l : list value) (n : nat) (w : value) : list value :=
    match l, n with
    | [], _ => []
    | _ :: l, 0 => w :: l
    | v :: l, S n => v :: set_nth l n w
    end.
  (** Rust's assignment to a field of a struct. *)
  Fixpoint set_name (fs : list (string * value)) (x : string) (w : value) : list (string * value) :=
    match fs with
    | [] => []
    | (y, v) :: fs => if String.eqb x y then (y, w) :: fs else (y, v) :: set_name fs x w
    end.
  (** Rust's [v.f = w]. *)
  Definition set_field (v : value) (f : fld) (w : value) : value :=
    match v, f with
    | VCon ty c vs, Fpos n => VCon ty c (set_nth vs n w)
    | VRec ty fs, Fname x => VRec ty (set_name fs x w)
    | _, _ => v
    end.
  (** Rust's [v.f1.f2... = w]. *)
  Fixpoint set_path (v : value) (p : list fld) (w : value) : value :=
    match p with
    | [] => w
    | f :: p => match get_field v f with Some u => set_field v f (set_path u p w) | None => v end
    end.
  (** Paths to Rust fields, one after the other. *)
  Fixpoint path_app (p q : list fld) : list fld := match p with [] => q | f :: p => f :: path_app p q end.

  (** Reading through a Rust reference. *)
  Definition read_place (s : store) (l : nat) (p : list fld) : option value :=
    match st_get s l with Some v => get_path v p | None => None end.
  (** Writing through a Rust reference. *)
  Definition write_place (s : store) (l : nat) (p : list fld) (w : value) : store :=
    match st_get s l with Some v => st_set s l (set_path v p w) | None => s end.

  (** A computation of the Rust machine: what is to be done with its end is passed to it; [R] is the type of the end of the whole program. *)
  Definition comp (A : Type) : Type := store -> (out I O A -> store -> R) -> R.
  (** The Rust expression ends with the value [a]. *)
  Definition give {A} (a : A) : comp A := fun s k => k (Val a) s.
  (** The Rust expression ends as [o]. *)
  Definition stop {A} (o : out I O A) : comp A := fun s k => k o s.
  (** First [m], then [f], as Rust evaluates from left to right; [return], [break] and panics skip [f]. *)
  Definition and_then {A B} (m : comp A) (f : A -> comp B) : comp B :=
    fun s k => m s (fun o s => match o with
                               | Val a => f a s k
                               | Return v => k (Return v) s
                               | Break => k Break s
                               | Panicking => k Panicking s
                               | Wrong => k Wrong s
                               | Tired => k Tired s
                               end).
  Notation "'do' x '<-' m ';' k" := (and_then m (fun x => k)) (at level 200, x pattern, m at level 100, k at level 200).
  (** A Rust program that passed the type checker has this value. *)
  Definition given {A} (o : option A) : comp A := fun s k => match o with Some a => k (Val a) s | None => k Wrong s end.
  (** A Rust block: [m] in the state [s'], after which the variables created since [s] are gone. *)
  Definition within {A} (m : comp A) (s s' : store) (k : out I O A -> store -> R) : R := m s' (fun o s'' => k o (st_cut s'' (st_len s))).
  (** Rust's [return] ends a function. *)
  Definition catch (m : comp value) : comp value :=
    fun s k => m s (fun o s => match o with Return v => k (Val v) s | Break => k Wrong s | o => k o s end).
  (** Rust's [if]; on computations, so that [c] may stay a variable. *)
  Definition branch {A} (c : bool) (a b : comp A) : comp A := fun s k => if c then a s k else b s k.

  (** A Rust value, or the place where it is. *)
  Definition spot : Type := (value + nat * list fld)%type.
  (** The Rust value at [r]. *)
  Definition look (r : spot) : comp value := match r with inl v => give v | inr (l, p) => fun s => given (read_place s l p) s end.
  (** Rust's assignment at [r]; nobody sees an assignment to a temporary value. *)
  Definition put (r : spot) (v : value) : comp unit := match r with inl _ => give tt | inr (l, p) => fun s k => k (Val tt) (write_place s l p v) end.
  (** Rust references are followed. *)
  Definition spot_of (r : spot) : comp spot :=
    do v <- look r; match v with VRef l p => give (inr (l, p)) | _ => give r end.
  (** Rust's automatic dereference. *)
  Definition plain (v : value) : comp value := match v with VRef l p => fun s => given (read_place s l p) s | _ => give v end.

  (** Rust's matching of a value: the variables that are bound, the changeable ones at new locations. *)
  Fixpoint bind_pat (p : pat) (v : value) (en : env) (s : store) {struct p} : option (env * store) :=
    match p with
    | PWild => Some (en, s)
    | PVar false x => Some ((x, inl v) :: en, s)
    | PVar true x => Some ((x, inr (st_len s)) :: en, st_new s v)
    | PNat n => match v with VNat m => if same_nat n m then Some (en, s) else None | _ => None end
    | PCon ty c ps =>
        match v with
        | VCon ty' c' vs =>
            if String.eqb c c' then
              (fix go (ps : list pat) (vs : list value) (en : env) (s : store) : option (env * store) :=
                 match ps, vs with
                 | [], [] => Some (en, s)
                 | p :: ps, v :: vs => match bind_pat p v en s with Some (en, s) => go ps vs en s | None => None end
                 | _, _ => None
                 end) ps vs en s
            else None
        | _ => None
        end
    end.
  (** The parameters of a Rust function are bound from left to right. *)
  Fixpoint bind_all (ps : list pat) (vs : list value) (en : env) (s : store) : option (env * store) :=
    match ps, vs with
    | [], [] => Some (en, s)
    | p :: ps, v :: vs => match bind_pat p v en s with Some (en, s) => bind_all ps vs en s | None => None end
    | _, _ => None
    end.

  (** Rust's [Some(v)]. *)
  Definition some (v : value) : value := VCon "Option" "Some" [v].
  (** Rust's [None]. *)
  Definition none : value := VCon "Option" "None" [].

  (** The type by which Rust finds a method. *)
  Definition type_name (v : value) : string :=
    match v with
    | VCon ty _ _ => ty
    | VRec ty _ => ty
    | VNat _ => "usize"
    | VSlice _ => "slice"
    | VItem _ => "item"
    | VFlags _ => "flags"
    | _ => "other"
    end.

  (** Rust's [==] *)
  Definition equal (a b : value) : option bool :=
    match a, b with
    | VNat m, VNat n => Some (Nat.eqb m n)
    | VBool x, VBool y => Some (Bool.eqb x y)
    | VItem x, VItem y => Some (eqb x y)
    | _, _ => None
    end.
  (** The operators of Rust on [usize] (debug build) and on flags. *)
  Definition binary (o : binop) (a b : value) : comp value :=
    match o with
    | OEq => do x <- given (equal a b); give (VBool x)
    | ONe => do x <- given (equal a b); give (VBool (negb x))
    | OAdd => match a, b with VNat m, VNat n => give (VNat (m + n)) | _, _ => stop Wrong end
    | OMul => match a, b with VNat m, VNat n => give (VNat (m * n)) | _, _ => stop Wrong end
    | OSub => match a, b with VNat m, VNat n => branch (m <? n) (stop Panicking) (give (VNat (m - n))) | _, _ => stop Wrong end
    | OLt => match a, b with VNat m, VNat n => give (VBool (m <? n)) | _, _ => stop Wrong end
    | OLe => match a, b with VNat m, VNat n => give (VBool (m <=? n)) | _, _ => stop Wrong end
    | OGt => match a, b with VNat m, VNat n => give (VBool (n <? m)) | _, _ => stop Wrong end
    | OGe => match a, b with VNat m, VNat n => give (VBool (n <=? m)) | _, _ => stop Wrong end
    | OBitOr => match a, b with VFlags m, VFlags n => give (VFlags (Nat.lor m n)) | _, _ => stop Wrong end
    end.

  (** Rust's [l[lo..hi]] *)
  Definition part (l : list I) (lo hi : option nat) : comp value :=
    match lo, hi with
    | None, None => give (VSlice l)
    | Some a, None => branch (List.length l <? a) (stop Panicking) (give (VSlice (skipn a l)))
    | None, Some b => branch (List.length l <? b) (stop Panicking) (give (VSlice (firstn b l)))
    | Some a, Some b => branch (b <? a) (stop Panicking) (branch (List.length l <? b) (stop Panicking) (give (VSlice (firstn (b - a) (skipn a l)))))
    end.

  (** A slice of a std [Vec] to read from: all of it must have been written. *)
  Definition part_of (m : list (option I)) (lo hi : option nat) : comp value :=
    let b := match hi with Some b => b | None => List.length m end in
    let a := match lo with Some a => a | None => 0 end in
    branch (b <? a) (stop Panicking)
      (branch (List.length m <? b) (stop Panicking)
         (fun s k => match expose (firstn (b - a) (skipn a m)) with Done l => k (Val (VSlice l)) s | _ => k Wrong s end)).
  (** A slice of a std [Vec] to write to. *)
  Definition part_mut (r : spot) (lo hi : option nat) : comp value :=
    do v <- look r;
    match r, v with
    | inr (l, p), VMem m _ _ _ =>
        let b := match hi with Some b => b | None => List.length m end in
        let a := match lo with Some a => a | None => 0 end in
        branch (b <? a) (stop Panicking) (branch (List.length m <? b) (stop Panicking) (give (VPart l p a (b - a))))
    | _, _ => stop Wrong
    end.
  (** Writing [w] to a slice of a std [Vec] that starts at item [a] ([overwrite] of Buffer.v). *)
  Definition write_part (l : nat) (p : list fld) (a : nat) (w : list (option I)) : comp unit :=
    do v <- look (inr (l, p));
    match v with
    | VMem m cap more count => put (inr (l, p)) (VMem (firstn a m ++ overwrite w (skipn a m)) cap more count)
    | _ => stop Wrong
    end.

  (** Functions of std for cells, vectors and memory; [empty()] of the crate bitflags. *)
  Definition vec_fn (ty f : string) (vs : list value) : comp value :=
    match vs with
    | [] => if String.eqb ty "Vec" then give (conv (VCon "Vec" f [])) else if String.eqb f "empty" then give (VFlags 0) else stop Wrong
    | [v] => if String.eqb ty "Vec" then give (conv (VCon "Vec" f [v])) else if String.eqb ty "Cell" then give (VCon "Cell" "" [v]) else stop Wrong
    | [VPtr l p a; VPtr _ _ b; VNat n] =>
        (* both pointers are into the same vector *)
        if String.eqb f "copy" then
          do v <- look (inr (l, p));
          match v with
          | VMem m cap more count =>
              branch (a + n <=? List.length m)
                (branch (b + n <=? List.length m)
                   (do _ <- put (inr (l, p)) (VMem (firstn b m ++ firstn n (skipn a m) ++ skipn (b + n) m) cap more count); give VUnit)
                   (stop Wrong))
                (stop Wrong)
          | _ => stop Wrong
          end
        else stop Wrong
    | _ => stop Wrong
    end.

  (** Functions of std. *)
  Definition std_fn (ty f : string) (vs : list value) : comp value :=
    match vs with
    | [VNat a; VNat b] => if String.eqb f "max" then give (VNat (Nat.max a b)) else stop Wrong
    | [VRef l p; v] => if String.eqb f "replace" then do old <- look (inr (l, p)); do _ <- put (inr (l, p)) v; give old else stop Wrong
    | [v] => if String.eqb ty "From" then if String.eqb f "same" then give v else if String.eqb f "from" then give (conv v) else stop Wrong else vec_fn ty f vs
    | _ => vec_fn ty f vs
    end.

  (** std's [iter().position(f)]; [f] is called by [app]; [n] is the number of items before these. *)
  Fixpoint std_position (app : I -> comp value) (l : list I) (n : nat) : comp value :=
    match l with
    | [] => give none
    | x :: l => do b <- app x; match b with VBool b => branch b (give (some (VNat n))) (std_position app l (S n)) | _ => stop Wrong end
    end.

  (** Methods of std for cells, [Result], vectors and memory, and of the crate bitflags, on the value [v] at [r]. *)
  Definition vec_method (app : value -> list value -> comp value) (r : spot) (v : value) (m : string) (vs : list value) : comp value :=
    match v, vs with
    | VMem mem cap more count, [] =>
        if String.eqb m "len" then give (VNat (List.length mem))
        else if String.eqb m "capacity" then give (VNat cap)
        else if String.eqb m "as_ptr" then match r with inr (l, p) => give (VPtr l p 0) | inl _ => stop Wrong end
        else if String.eqb m "as_mut_ptr" then match r with inr (l, p) => give (VPtr l p 0) | inl _ => stop Wrong end
        else stop Wrong
    | VMem mem cap more count, [VNat k] =>
        if String.eqb m "reserve" then
          branch (k <=? cap - List.length mem) (give VUnit)
            (do _ <- put r (VMem mem (List.length mem + k + more count) more (S count)); give VUnit)
        else if String.eqb m "set_len" then
          branch (k <=? cap) (do _ <- put r (VMem (firstn k mem ++ repeat None (k - List.length mem)) cap more count); give VUnit) (stop Wrong)
        else stop Wrong
    | VPtr l p a, [VNat k] => if String.eqb m "offset" then give (VPtr l p (a + k)) else stop Wrong
    | VPart _ _ _ n, [] => if String.eqb m "len" then give (VNat n) else stop Wrong
    | VFlags n, [VFlags k] =>
        if String.eqb m "insert" then do _ <- put r (VFlags (Nat.lor n k)); give VUnit
        else if String.eqb m "remove" then do _ <- put r (VFlags (Nat.ldiff n k)); give VUnit
        else stop Wrong
    | VCon ty c [w], [] => if String.eqb ty "Cell" then if String.eqb m "get" then give w else stop Wrong else stop Wrong
    | VCon ty c [w], [x] =>
        if String.eqb ty "Cell" then if String.eqb m "set" then do _ <- put r (VCon "Cell" "" [x]); give VUnit else stop Wrong
        else if String.eqb ty "Result" then
          if String.eqb m "map" then if String.eqb c "Ok" then do y <- app x [w]; give (VCon ty c [y]) else give v
          else if String.eqb m "map_err" then if String.eqb c "Err" then do y <- app x [w]; give (VCon ty c [y]) else give v
          else stop Wrong
        else stop Wrong
    | VSlice l, [VPart l' p a n] =>
        (* [Read for &[u8]]: as many as fit *)
        if String.eqb m "read" then
          do _ <- write_part l' p a (List.map Some (firstn n l)); give (VCon "Result" "Ok" [VNat (List.length (firstn n l))])
        else stop Wrong
    | _, _ => stop Wrong
    end.

  (** Methods of std on the value [v] at [r]. *)
  Definition std_method (app : value -> list value -> comp value) (r : spot) (v : value) (m : string) (vs : list value) : comp value :=
    match v, vs with
    | VSlice l, [] =>
        if String.eqb m "len" then give (VNat (List.length l))
        else if String.eqb m "first" then fun s k => match l with [] => k (Val none) s | x :: _ => k (Val (some (VItem x))) s end
        else if String.eqb m "iter" then give v
        else if String.eqb m "cloned" then give v
        else if String.eqb m "to_vec" then give v
        else stop Wrong
    | VSlice l, [f] => if String.eqb m "position" then std_position (fun x => app f [VItem x]) l 0 else vec_method app r v m vs
    | VFlags n, [VFlags k] => if String.eqb m "contains" then give (VBool (same_nat (Nat.land n k) k)) else vec_method app r v m vs
    | VCon _ "Some" [w], [] =>
        if String.eqb m "cloned" then give v
        else if String.eqb m "unwrap" then give w
        else if String.eqb m "is_none" then give (VBool false)
        else stop Wrong
    | VCon _ "None" [], [] =>
        if String.eqb m "cloned" then give v
        else if String.eqb m "unwrap" then stop Panicking
        else if String.eqb m "is_none" then give (VBool true)
        else stop Wrong
    | VRec _ _, [] => match r with inr (l, p) => if String.eqb m "by_ref" then give (VRef l p) else stop Wrong | inl _ => stop Wrong end
    | VRec _ _, [f] => match r with inr (l, p) => if String.eqb m "inspect" then give (VCon "Inspect" "" [VRef l p; f]) else stop Wrong | inl _ => stop Wrong end
    | _, [] => if String.eqb m "clone" then give v else vec_method app r v m vs
    | _, _ => vec_method app r v m vs
    end.

  (** A std [io::Result] from outside the Rust text. *)
  Definition gives_io (x : io nat) : comp value :=
    fun s k =>
      match x with
      | IoOk n => k (Val (VCon "Result" "Ok" [VNat n])) s
      | IoErr e => k (Val (VCon "Result" "Err" [VCon "io::Error" "" [VNat e]])) s
      end.

  (** Code outside the Rust text answers; its new state is put back to where it was. *)
  Definition outside (r : spot) (o : O) (m : string) (vs : list value) : comp value :=
    match foreign o m vs with
    | Gives v o' => do _ <- put r (VObj o'); give v
    | GivesOption x wt o' =>
        do _ <- put r (VObj o'); fun s k => match x with Some t => k (Val (some (wt t))) s | None => k (Val none) s end
    | GivesResult x wt we o' =>
        do _ <- put r (VObj o');
        fun s k =>
          match x with
          | Data (mkInput true b) t => k (Val (VCon "ParseResult" "" [VCon "State" "Data" [VCon "Input" "" [VFlags 1; VSlice b]; wt t]])) s
          | Data (mkInput false b) t => k (Val (VCon "ParseResult" "" [VCon "State" "Data" [VCon "Input" "" [VFlags 0; VSlice b]; wt t]])) s
          | Error b e => k (Val (VCon "ParseResult" "" [VCon "State" "Error" [VSlice b; we e]])) s
          | Incomplete n => k (Val (VCon "ParseResult" "" [VCon "State" "Incomplete" [VNat n]])) s
          | Panic => k Panicking s
          | NoFuel => k Tired s
          end
    | GivesRun x wv wo =>
        fun s k =>
          match x with
          | Done a => (do _ <- put r (VObj (wo a)); give (wv a)) s k
          | Panicked => k Panicking s
          | Undefined => k Wrong s
          | Stuck => k Tired s
          end
    | GivesWrite w x o' =>
        match vs with
        | [VPart l p a _] =>
            do _ <- put r (VObj o'); do _ <- write_part l p a w; gives_io x
        | _ => stop Wrong
        end
    | GivesBoth _ _ _ _ => stop Wrong
    | GivesUp => stop Tired
    end.
  (** The same with an argument [&mut] that comes from outside the Rust text, too. *)
  Definition outside_both (r : spot) (o : O) (m : string) (l : nat) (p : list fld) : comp value :=
    do a <- look (inr (l, p));
    match foreign o m [a] with
    | GivesBoth x wr wo wo' =>
        fun s k =>
          match x with
          | Done a => (do _ <- put r (VObj (wo a)); do _ <- put (inr (l, p)) (VObj (wo' a)); gives_io (wr a)) s k
          | Panicked => k Panicking s
          | Undefined => k Wrong s
          | Stuck => k Tired s
          end
    | _ => stop Wrong
    end.

  (** A Rust [usize]. *)
  Definition as_nat (v : value) : comp nat := match v with VNat n => give n | _ => stop Wrong end.

  (** The arms of a Rust [match] on [v]; expressions are evaluated by [ev]. *)
  Fixpoint arms_of (ev : env -> expr -> comp value) (en : env) (v : value) (arms : list (pat * option expr * expr)) : comp value :=
    match arms with
    | [] => stop Wrong
    | (p, guard, e) :: arms =>
        fun s k =>
          match bind_pat p v en s with
          | None => arms_of ev en v arms s k
          | Some (en', s') =>
              match guard with
              | None => within (ev en' e) s s' k
              | Some g =>
                  ev en' g s'
                    (fun o s'' => match o with
                                  | Val (VBool c) => if c then within (ev en' e) s s'' k else arms_of ev en v arms (st_cut s'' (st_len s)) k
                                  | Panicking => k Panicking s''
                                  | Tired => k Tired s''
                                  | _ => k Wrong s''
                                  end)
              end
          end
    end.
  (** Rust's [for x in j..j + k]; the body is evaluated by [ev]. *)
  Fixpoint each (ev : nat -> comp value) (k j : nat) : comp value :=
    match k with
    | 0 => give VUnit
    | S k => do _ <- ev j; each ev k (S j)
    end.

  (** The meaning of Rust expressions.  [fuel] bounds the depth of evaluation. *)
  Fixpoint eval (fuel : nat) (en : env) (e : expr) {struct fuel} : comp value :=
    match fuel with
    | 0 => stop Tired
    | S fuel =>
        let evals := fix evals (es : list expr) : comp (list value) :=
          match es with
          | [] => give []
          | e :: es => do v <- eval fuel en e; do vs <- evals es; give (v :: vs)
          end in
        match e with
        | EUnit => give VUnit
        | ENat n => give (VNat n)
        | EBool b => give (VBool b)
        | EFlags n => give (VFlags n)
        | EVar x => match find_var en x with Some (inl v) => give v | Some (inr l) => look (inr (l, [])) | None => stop Wrong end
        | EFn ty f =>
            (* a constant is evaluated where it is used *)
            match find_fn fns ty f with
            | Some (mkFn _ [] b) => if String.eqb ty "const" then eval fuel [] b else give (VFn ty f)
            | _ => give (VFn ty f)
            end
        | ECtor ty c => give (VCtor ty c)
        | ECon ty c es => do vs <- evals es; give (VCon ty c vs)
        | ERec ty fs =>
            do vs <- (fix go (fs : list (string * expr)) : comp (list (string * value)) :=
                        match fs with
                        | [] => give []
                        | (x, e) :: fs => do v <- eval fuel en e; do vs <- go fs; give ((x, v) :: vs)
                        end) fs;
            give (VRec ty vs)
        | ECall f es => do r <- place fuel en f; do vs <- evals es; apply fuel r vs
        | EMethod e m es => do r <- place fuel en e; do vs <- evals es; invoke fuel r m vs
        | EField e f => do r <- place fuel en (EField e f); look r
        | ESlice e lo hi =>
            do r <- place fuel en e; do v <- look r;
            do a <- match lo with Some e => do v <- eval fuel en e; do n <- as_nat v; give (Some n) | None => give None end;
            do b <- match hi with Some e => do v <- eval fuel en e; do n <- as_nat v; give (Some n) | None => give None end;
            match v with
            | VSlice l => part l a b
            | VMem m _ _ _ => part_of m a b
            | VObj _ => do w <- invoke fuel r "deref" []; match w with VSlice l => part l a b | _ => stop Wrong end
            | VRec _ _ => do w <- invoke fuel r "deref" []; match w with VSlice l => part l a b | _ => stop Wrong end
            | _ => stop Wrong
            end
        | ESliceMut e lo hi =>
            do r <- place fuel en e;
            do a <- match lo with Some e => do v <- eval fuel en e; do n <- as_nat v; give (Some n) | None => give None end;
            do b <- match hi with Some e => do v <- eval fuel en e; do n <- as_nat v; give (Some n) | None => give None end;
            part_mut r a b
        | EAt e j =>
            do r <- place fuel en e; do v <- look r; do w <- eval fuel en j; do n <- as_nat w;
            match v with VSlice l => fun s k => match nth_error l n with Some x => k (Val (VItem x)) s | None => k Panicking s end | _ => stop Wrong end
        | EBin o a b => do v <- eval fuel en a; do v <- plain v; do w <- eval fuel en b; do w <- plain w; binary o v w
        | EAnd a b => do v <- eval fuel en a; match v with VBool c => branch c (eval fuel en b) (give (VBool false)) | _ => stop Wrong end
        | EOr a b => do v <- eval fuel en a; match v with VBool c => branch c (give (VBool true)) (eval fuel en b) | _ => stop Wrong end
        | ENot e => do v <- eval fuel en e; match v with VBool b => give (VBool (negb b)) | _ => stop Wrong end
        | EAddr false e => eval fuel en e
        | EAddr true e => do r <- place fuel en e; match r with inl v => give v | inr (l, p) => give (VRef l p) end
        | EIf c a b => do v <- eval fuel en c; match v with VBool c => branch c (eval fuel en a) (eval fuel en b) | _ => stop Wrong end
        | EMatch e arms =>
            do v <- eval fuel en e; do v <- plain v;
            arms_of (eval fuel) en v arms
        | EClos ps e => give (VClos en ps e)
        | ELet p e rest =>
            do v <- eval fuel en e;
            fun s k => match bind_pat p v en s with
                       | Some (en', s') => within (eval fuel en' rest) s s' k
                       | None => k Wrong s
                       end
        | ESeq e rest => do _ <- eval fuel en e; eval fuel en rest
        | ESet e v => do w <- eval fuel en v; do r <- place fuel en e; do _ <- put r w; give VUnit
        | ESetAt e j v =>
            do w <- eval fuel en v; do r <- eval fuel en e; do j <- eval fuel en j; do j <- as_nat j;
            match r, w with
            | VPart l p a n, VItem x => branch (j <? n) (do _ <- write_part l p (a + j) [Some x]; give VUnit) (stop Panicking)
            | _, _ => stop Wrong
            end
        | EReturn e => do v <- eval fuel en e; stop (Return v)
        | EBreak => stop Break
        | ELoop e => loop fuel en e
        | EFor x lo hi e =>
            do a <- eval fuel en lo; do a <- as_nat a; do b <- eval fuel en hi; do b <- as_nat b;
            each (fun j => eval fuel ((x, inl (VNat j)) :: en) e) (b - a) a
        | EPanic => stop Panicking
        end
    end
  (** Where an expression denotes. *)
  with place (fuel : nat) (en : env) (e : expr) {struct fuel} : comp spot :=
    match fuel with
    | 0 => stop Tired
    | S fuel =>
        match e with
        | EVar x => match find_var en x with Some (inl v) => spot_of (inl v) | Some (inr l) => spot_of (inr (l, [])) | None => stop Wrong end
        | EField e f =>
            do r <- place fuel en e;
            match r with
            | inl v => do w <- given (get_field v f); spot_of (inl w)
            | inr (l, p) => spot_of (inr (l, path_app p [f]))
            end
        | EAddr _ e => place fuel en e
        | _ => do v <- eval fuel en e; spot_of (inl v)
        end
    end
  (** Calls. *)
  with apply (fuel : nat) (r : spot) (vs : list value) {struct fuel} : comp value :=
    match fuel with
    | 0 => stop Tired
    | S fuel =>
        do f <- look r;
        match f with
        | VObj o => outside r o "call" vs
        | VCtor ty c => give (VCon ty c vs)
        | VClos en ps e =>
            fun s k => match bind_all ps vs en s with
                     | Some (en', s') => within (catch (eval fuel en' e)) s s' k
                     | None => k Wrong s
                     end
        | VFn ty m =>
            match find_fn fns ty m with
            | Some (mkFn _ ps e) =>
                fun s k => match bind_all ps vs [] s with
                         | Some (en', s') => within (catch (eval fuel en' e)) s s' k
                         | None => k Wrong s
                         end
            | None =>
                match vs with
                | [VCon "Inspect" _ [VRef l p; f]] => if String.eqb m "from_iter" then gather fuel (inr (l, p)) f starts else stop Wrong
                | _ => std_fn ty m vs
                end
            end
        | _ => stop Wrong
        end
    end
  with invoke (fuel : nat) (r : spot) (m : string) (vs : list value) {struct fuel} : comp value :=
    match fuel with
    | 0 => stop Tired
    | S fuel =>
        do v <- look r;
        match v with
        | VObj o => match vs with [VRef l p] => outside_both r o m l p | _ => outside r o m vs end
        | _ =>
            match find_fn fns (type_name v) m with
            | Some (mkFn by_ref ps e) =>
                let self := if by_ref then match r with inl v => v | inr (l, p) => VRef l p end else v in
                fun s k => match bind_all ps (self :: vs) [] s with
                         | Some (en', s') => within (catch (eval fuel en' e)) s s' k
                         | None => k Wrong s
                         end
            | None => std_method (fun f xs => do q <- spot_of (inl f); apply fuel q xs) r v m vs
            end
        end
    end
  (** [FromIterator::from_iter(r.by_ref().inspect(f))] *)
  with gather (fuel : nat) (r : spot) (f : value) (c : O) {struct fuel} : comp value :=
    match fuel with
    | 0 => stop Tired
    | S fuel =>
        match acts c with
        | CFinish t => give t
        | CPanic => stop Panicking
        | CHint k =>
            do h <- invoke fuel r "size_hint" [];
            match h with
            | VCon _ _ [VNat a; VCon _ "Some" [VNat b]] => gather fuel r f (k (a, Some b))
            | VCon _ _ [VNat a; VCon _ "None" []] => gather fuel r f (k (a, None))
            | _ => stop Wrong
            end
        | CNext k =>
            do o <- invoke fuel r "next" [];
            match o with
            | VCon _ "Some" [v] => do _ <- apply fuel (inl f) [v]; gather fuel r f (k (Some v))
            | VCon _ "None" [] => gather fuel r f (k None)
            | _ => stop Wrong
            end
        end
    end
  (** [loop] *)
  with loop (fuel : nat) (en : env) (e : expr) {struct fuel} : comp value :=
    match fuel with
    | 0 => stop Tired
    | S fuel =>
        fun s k => eval fuel en e s (fun o s => match o with Val _ => loop fuel en e s k | Break => k (Val VUnit) s | o => k o s end)
    end.

End Meaning.

(** A call of the Rust function [f] of the text, from outside. *)
Definition call {I O : Type} fns foreign eqb conv starts acts (fuel : nat) (ty f : string) (vs : list (value I O)) : out I O (value I O) :=
  apply fns foreign eqb conv starts acts fuel (inl (VFn ty f)) vs [] (fun o _ => o).

(** The same when the arguments are references to the Rust variables [s]; what they hold afterwards is part of the end. *)
Definition call_in {I O : Type} fns foreign eqb conv starts acts (fuel : nat) (ty f : string) (vs s : list (value I O))
  : out I O (value I O) * list (value I O) :=
  apply fns foreign eqb conv starts acts fuel (inl (VFn ty f)) vs s (fun o s => (o, s)).
