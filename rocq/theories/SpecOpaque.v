(** Items are opaque to the library: programs over two item types in lock step (C61). *)
From Coq Require Import List Bool Arith.
From Verif Require Import Base Parsers Combinators Buffer Stream SpecBase SpecStream.
Import ListNotations.

Set Implicit Arguments.

(** * Relations on what contains items *)

Definition opt_rel {A B} (R : A -> B -> Prop) (x : option A) (y : option B) : Prop :=
  match x, y with
  | Some a, Some b => R a b
  | None, None => True
  | _, _ => False
  end.

Definition prod_rel {A B A' B'} (R : A -> A' -> Prop) (Q : B -> B' -> Prop) (x : A * B) (y : A' * B') : Prop :=
  R (fst x) (fst y) /\ Q (snd x) (snd y).

Definition sum_rel {A B A' B'} (R : A -> A' -> Prop) (Q : B -> B' -> Prop) (x : A + B) (y : A' + B') : Prop :=
  match x, y with
  | inl a, inl a' => R a a'
  | inr b, inr b' => Q b b'
  | _, _ => False
  end.

Definition input_rel {I J} (RI : I -> J -> Prop) (i : input I) (j : input J) : Prop :=
  last i = last j /\ Forall2 RI (buf i) (buf j).

Definition pres_rel {I J T U E F} (RI : I -> J -> Prop) (RT : T -> U -> Prop) (RE : E -> F -> Prop) (x : pres I T E) (y : pres J U F) : Prop :=
  match x, y with
  | Data i t, Data j u => input_rel RI i j /\ RT t u
  | Error b e, Error c f => Forall2 RI b c /\ RE e f
  | Incomplete n, Incomplete m => n = m
  | Panic, Panic => True
  | NoFuel, NoFuel => True
  | _, _ => False
  end.

(** The errors of src/parsers.rs. *)
Definition error_rel {I J} (RI : I -> J -> Prop) (e : error I) (f : error J) : Prop :=
  match e, f with
  | Expected a, Expected b => RI a b
  | Unexpected, Unexpected => True
  | EString s, EString t => Forall2 RI s t
  | EPlain, EPlain => True
  | _, _ => False
  end.

Definition parse_error_rel {I J E F} (RI : I -> J -> Prop) (RE : E -> F -> Prop) (e : parse_error I E) (f : parse_error J F) : Prop :=
  match e, f with
  | PErr b e, PErr c f => Forall2 RI b c /\ RE e f
  | PIncomplete n, PIncomplete m => n = m
  | _, _ => False
  end.

Definition outcome_rel {T U E F} (RT : T -> U -> Prop) (RE : E -> F -> Prop) (x : outcome T E) (y : outcome U F) : Prop :=
  match x, y with
  | OOk t, OOk u => RT t u
  | OErr e, OErr f => RE e f
  | OPanic, OPanic => True
  | ONoFuel, ONoFuel => True
  | _, _ => False
  end.

(** * Programs over two item types *)

(** The two equalities on items agree. *)
Definition eq_rel {I J} (RI : I -> J -> Prop) (e1 : I -> I -> bool) (e2 : J -> J -> bool) : Prop :=
  forall a b, RI a b -> forall c d, RI c d -> e1 a c = e2 b d.

(** The two predicates agree. *)
Definition pred_rel {A B} (R : A -> B -> Prop) (f : A -> bool) (g : B -> bool) : Prop := forall a b, R a b -> f a = g b.

(** Two collections which are built up in the same way. *)
Definition act_rel {U U' T T' C C'} (RU : U -> U' -> Prop) (RT : T -> T' -> Prop) (RC : C -> C' -> Prop) (x : caction U T C) (y : caction U' T' C') : Prop :=
  match x, y with
  | CFinish t, CFinish u => RT t u
  | CNext k, CNext l => forall o o', opt_rel RU o o' -> RC (k o) (l o')
  | CHint k, CHint l => forall h, RC (k h) (l h)
  | CPanic, CPanic => True
  | _, _ => False
  end.

Definition col_rel {U U' T T' C C'} (RU : U -> U' -> Prop) (RT : T -> T' -> Prop) (RC : C -> C' -> Prop)
    (x : collector U T C) (y : collector U' T' C') : Prop :=
  RC (cinit x) (cinit y) /\ (forall c d, RC c d -> act_rel RU RT RC (cact x c) (cact y d)).

(** The same program text over items of type [I] and over items of type [J], every constant and callback in it supplied twice: for items
    that belong together ([RI]) the callbacks answer what belongs together.  Relations for values, errors and captured states are
    chosen freely at each place; a closure gives, from captured states that belong together, results and captured states that do.
    Both are compiled with the same setting [v] of verbose_error. *)
Inductive linked {I J : Type} (RI : I -> J -> Prop) (v : bool)
  : forall T U E F, (T -> U -> Prop) -> (E -> F -> Prop) -> parser I T E -> parser J U F -> Prop :=
| k_ext : forall T U E F (RT RT' : T -> U -> Prop) (RE RE' : E -> F -> Prop) p q p' q', linked RI v RT RE p q ->
    (forall i, p i = p' i) -> (forall i, q i = q' i) -> (forall t u, RT t u -> RT' t u) -> (forall e f, RE e f -> RE' e f) ->
    linked RI v RT' RE' p' q'
| k_panic : forall T U E F (RT : T -> U -> Prop) (RE : E -> F -> Prop), linked RI v RT RE (fun _ => Panic) (fun _ => Panic)
| k_ret : forall T U E F (RT : T -> U -> Prop) (RE : E -> F -> Prop) t u, RT t u -> linked RI v RT RE (ret t) (ret u)
| k_err : forall T U E F (RT : T -> U -> Prop) (RE : E -> F -> Prop) e f, RE e f -> linked RI v RT RE (err e) (err f)
| k_incomplete : forall T U E F (RT : T -> U -> Prop) (RE : E -> F -> Prop) n, linked RI v RT RE (incomplete n) (incomplete n)
| k_from_result : forall T U E F (RT : T -> U -> Prop) (RE : E -> F -> Prop) r s, sum_rel RT RE r s ->
    linked RI v RT RE (from_result r) (from_result s)
| k_map : forall T U E F T' U' (RT : T -> U -> Prop) (RE : E -> F -> Prop) (RT' : T' -> U' -> Prop) f g p q, linked RI v RT RE p q ->
    (forall t u, RT t u -> RT' (f t) (g u)) -> linked RI v RT' RE (fun i => map f (p i)) (fun i => map g (q i))
| k_map_err : forall T U E F E' F' (RT : T -> U -> Prop) (RE : E -> F -> Prop) (RE' : E' -> F' -> Prop) f g p q, linked RI v RT RE p q ->
    (forall e e', RE e e' -> RE' (f e) (g e')) -> linked RI v RT RE' (fun i => map_err f (p i)) (fun i => map_err g (q i))
| k_inspect : forall T U E F W X (RT : T -> U -> Prop) (RE : E -> F -> Prop) (f : T -> W -> W) (g : U -> X -> X) w x p q, linked RI v RT RE p q ->
    linked RI v RT RE (fun i => fst (inspect f (p i) w)) (fun i => fst (inspect g (q i) x))
| k_bind : forall T U E F T' U' E' F' (RT : T -> U -> Prop) (RE : E -> F -> Prop) (RT' : T' -> U' -> Prop) (RE' : E' -> F' -> Prop) c d p q f g,
    linked RI v RT RE p q -> (forall e e', RE e e' -> RE' (c e) (d e')) ->
    (forall t u, RT t u -> linked RI v RT' RE' (fun i => f i t) (fun i => g i u)) ->
    linked RI v RT' RE' (fun i => bind c (p i) f) (fun i => bind d (q i) g)
| k_then : forall T U E F T' U' E' F' (RT : T -> U -> Prop) (RE : E -> F -> Prop) (RT' : T' -> U' -> Prop) (RE' : E' -> F' -> Prop) c d p q f g,
    linked RI v RT RE p q -> (forall e e', RE e e' -> RE' (c e) (d e')) -> linked RI v RT' RE' f g ->
    linked RI v RT' RE' (fun i => then_ c (p i) f) (fun i => then_ d (q i) g)
| k_any : linked RI v RI (error_rel RI) any any
| k_satisfy : forall f g, pred_rel RI f g -> linked RI v RI (error_rel RI) (satisfy v f) (satisfy v g)
| k_satisfy_with : forall T U (RT : T -> U -> Prop) f g m n, (forall a b, RI a b -> RT (f a) (g b)) -> pred_rel RT m n ->
    linked RI v RT (error_rel RI) (satisfy_with v f m) (satisfy_with v g n)
| k_token : forall e1 e2 t u, eq_rel RI e1 e2 -> RI t u -> linked RI v RI (error_rel RI) (token v e1 t) (token v e2 u)
| k_not_token : forall e1 e2 t u, eq_rel RI e1 e2 -> RI t u -> linked RI v RI (error_rel RI) (not_token v e1 t) (not_token v e2 u)
| k_peek : linked RI v (opt_rel RI) (error_rel RI) peek peek
| k_peek_next : linked RI v RI (error_rel RI) peek_next peek_next
| k_take : forall n, linked RI v (Forall2 RI) (error_rel RI) (take n) (take n)
| k_take_while : forall f g, pred_rel RI f g -> linked RI v (Forall2 RI) (error_rel RI) (take_while f) (take_while g)
| k_take_while1 : forall f g, pred_rel RI f g -> linked RI v (Forall2 RI) (error_rel RI) (take_while1 v f) (take_while1 v g)
| k_take_till : forall f g, pred_rel RI f g -> linked RI v (Forall2 RI) (error_rel RI) (take_till f) (take_till g)
| k_scan : forall S S' (RS : S -> S' -> Prop) s s' f g, RS s s' ->
    (forall x y, RS x y -> forall a b, RI a b -> opt_rel RS (f x a) (g y b)) -> linked RI v (Forall2 RI) (error_rel RI) (scan s f) (scan s' g)
| k_run_scanner : forall S S' (RS : S -> S' -> Prop) s s' f g, RS s s' ->
    (forall x y, RS x y -> forall a b, RI a b -> opt_rel RS (f x a) (g y b)) ->
    linked RI v (prod_rel (Forall2 RI) RS) (error_rel RI) (run_scanner s f) (run_scanner s' g)
| k_take_remainder : linked RI v (Forall2 RI) (error_rel RI) take_remainder take_remainder
| k_string : forall e1 e2 s t, eq_rel RI e1 e2 -> Forall2 RI s t -> linked RI v (Forall2 RI) (error_rel RI) (string v e1 s) (string v e2 t)
| k_eof : linked RI v (fun _ _ => True) (error_rel RI) (eof v) (eof v)
| k_bmany : forall S S' T T' U U' C C' E F (RS : S -> S' -> Prop) (RU : U -> U' -> Prop) (RT : T -> T' -> Prop) (RC : C -> C' -> Prop)
    (RE : E -> F -> Prop) fuel col col' r s0 s0' (p : sparser S I U E) (q : sparser S' J U' F),
    col_rel RU RT RC col col' -> RS s0 s0' -> (forall s s', RS s s' -> linked RI v RU RE (fun i => fst (p s i)) (fun j => fst (q s' j))) ->
    (forall s s', RS s s' -> forall i j, input_rel RI i j -> RS (snd (p s i)) (snd (q s' j))) ->
    linked RI v RT RE (bmany fuel col r s0 p) (bmany fuel col' r s0' q)
| k_bskip_many : forall S S' U U' E F (RS : S -> S' -> Prop) (RU : U -> U' -> Prop) (RE : E -> F -> Prop) fuel r s0 s0'
    (p : sparser S I U E) (q : sparser S' J U' F),
    RS s0 s0' -> (forall s s', RS s s' -> linked RI v RU RE (fun i => fst (p s i)) (fun j => fst (q s' j))) ->
    (forall s s', RS s s' -> forall i j, input_rel RI i j -> RS (snd (p s i)) (snd (q s' j))) ->
    linked RI v (fun _ _ => True) RE (bskip_many fuel r s0 p) (bskip_many fuel r s0' q)
| k_bmany_till : forall S S' X X' T T' U U' V V' C C' E F N N' (RS : S -> S' -> Prop) (RX : X -> X' -> Prop) (RU : U -> U' -> Prop)
    (RV : V -> V' -> Prop) (RT : T -> T' -> Prop) (RC : C -> C' -> Prop) (RE : E -> F -> Prop) (RN : N -> N' -> Prop) fuel col col' r s0 s0' x0 x0'
    (p : sparser S I U E) (q : sparser S' J U' F) (end1 : sparser X I V N) (end2 : sparser X' J V' N'),
    col_rel RU RT RC col col' -> RS s0 s0' -> RX x0 x0' -> (forall s s', RS s s' -> linked RI v RU RE (fun i => fst (p s i)) (fun j => fst (q s' j))) ->
    (forall s s', RS s s' -> forall i j, input_rel RI i j -> RS (snd (p s i)) (snd (q s' j))) -> (forall s s', RX s s' -> linked RI v RV RN (fun i => fst (end1 s i)) (fun j => fst (end2 s' j))) ->
    (forall s s', RX s s' -> forall i j, input_rel RI i j -> RX (snd (end1 s i)) (snd (end2 s' j))) ->
    linked RI v RT RE (bmany_till fuel col r s0 x0 p end1) (bmany_till fuel col' r s0' x0' q end2)
| k_sep_by : forall S S' X X' T T' U U' V V' C C' E F N N' (RS : S -> S' -> Prop) (RX : X -> X' -> Prop) (RU : U -> U' -> Prop)
    (RV : V -> V' -> Prop) (RT : T -> T' -> Prop) (RC : C -> C' -> Prop) (RE : E -> F -> Prop) (RN : N -> N' -> Prop) fuel col col' c d s0 s0' x0 x0'
    (p : sparser S I U E) (q : sparser S' J U' F) (sep1 : sparser X I V N) (sep2 : sparser X' J V' N'),
    col_rel RU RT RC col col' -> (forall e f, RN e f -> RE (c e) (d f)) -> RS s0 s0' -> RX x0 x0' ->
    (forall s s', RS s s' -> linked RI v RU RE (fun i => fst (p s i)) (fun j => fst (q s' j))) ->
    (forall s s', RS s s' -> forall i j, input_rel RI i j -> RS (snd (p s i)) (snd (q s' j))) -> (forall s s', RX s s' -> linked RI v RV RN (fun i => fst (sep1 s i)) (fun j => fst (sep2 s' j))) ->
    (forall s s', RX s s' -> forall i j, input_rel RI i j -> RX (snd (sep1 s i)) (snd (sep2 s' j))) ->
    linked RI v RT RE (sep_by fuel col c s0 x0 p sep1) (sep_by fuel col' d s0' x0' q sep2)
| k_sep_by1 : forall S S' X X' T T' U U' V V' C C' E F N N' (RS : S -> S' -> Prop) (RX : X -> X' -> Prop) (RU : U -> U' -> Prop)
    (RV : V -> V' -> Prop) (RT : T -> T' -> Prop) (RC : C -> C' -> Prop) (RE : E -> F -> Prop) (RN : N -> N' -> Prop) fuel col col' c d s0 s0' x0 x0'
    (p : sparser S I U E) (q : sparser S' J U' F) (sep1 : sparser X I V N) (sep2 : sparser X' J V' N'),
    col_rel RU RT RC col col' -> (forall e f, RN e f -> RE (c e) (d f)) -> RS s0 s0' -> RX x0 x0' ->
    (forall s s', RS s s' -> linked RI v RU RE (fun i => fst (p s i)) (fun j => fst (q s' j))) ->
    (forall s s', RS s s' -> forall i j, input_rel RI i j -> RS (snd (p s i)) (snd (q s' j))) -> (forall s s', RX s s' -> linked RI v RV RN (fun i => fst (sep1 s i)) (fun j => fst (sep2 s' j))) ->
    (forall s s', RX s s' -> forall i j, input_rel RI i j -> RX (snd (sep1 s i)) (snd (sep2 s' j))) ->
    linked RI v RT RE (sep_by1 fuel col c s0 x0 p sep1) (sep_by1 fuel col' d s0' x0' q sep2)
| k_option : forall T U E F (RT : T -> U -> Prop) (RE : E -> F -> Prop) p q t u, linked RI v RT RE p q -> RT t u ->
    linked RI v RT RE (option_ p t) (option_ q u)
| k_or : forall T U E F (RT : T -> U -> Prop) (RE : E -> F -> Prop) p q p' q', linked RI v RT RE p q -> linked RI v RT RE p' q' ->
    linked RI v RT RE (or_ p p') (or_ q q')
| k_matched_by : forall T U E F (RT : T -> U -> Prop) (RE : E -> F -> Prop) p q, linked RI v RT RE p q ->
    linked RI v (prod_rel (Forall2 RI) RT) RE (matched_by p) (matched_by q)
| k_look_ahead : forall T U E F (RT : T -> U -> Prop) (RE : E -> F -> Prop) p q, linked RI v RT RE p q ->
    linked RI v RT RE (look_ahead p) (look_ahead q).
Arguments linked {I J} RI v {T U E F} RT RE p q.

(** * Streams over two item types *)

Definition memory_rel {I J} (RI : I -> J -> Prop) (m : memory I) (n : memory J) : Prop := Forall2 (opt_rel RI) m n.

(** Two sources which deliver, fail and end alike. *)
Definition source_rel {St St' I J} (RI : I -> J -> Prop) (RS : St -> St' -> Prop) (d1 : data_source St I) (d2 : data_source St' J) : Prop :=
  forall s s', RS s s' -> forall n,
    let '(t, w, r) := ds_read d1 s n in let '(t', w', r') := ds_read d2 s' n in RS t t' /\ memory_rel RI w w' /\ r = r'.

Definition io_rel {A B} (R : A -> B -> Prop) (x : io A) (y : io B) : Prop :=
  match x, y with
  | IoOk a, IoOk b => R a b
  | IoErr e, IoErr f => e = f
  | _, _ => False
  end.

(** Two implementations of the trait Buffer which do the same to what belongs together. *)
Definition buffer_rel {I J B B'} (RI : I -> J -> Prop) (RB : B -> B' -> Prop) (o1 : buffer_ops I B) (o2 : buffer_ops J B') : Prop :=
  (forall b c, RB b c -> same_run (Forall2 RI) (op_deref o1 b) (op_deref o2 c)) /\
  (forall b c, RB b c -> forall St St' (RS : St -> St' -> Prop) d1 d2, source_rel RI RS d1 d2 -> forall s s', RS s s' ->
     same_run (prod_rel (prod_rel RB RS) eq) (op_fill o1 d1 b s) (op_fill o2 d2 c s')) /\
  (forall b c, RB b c -> forall n, same_run RB (op_request_space o1 b n) (op_request_space o2 c n)) /\
  (forall b c, RB b c -> forall n, same_run RB (op_consume o1 b n) (op_consume o2 c n)) /\
  (forall b c, RB b c -> same_run eq (op_len o1 b) (op_len o2 c)) /\
  (forall b c, RB b c -> op_capacity o1 b = op_capacity o2 c).

Definition fixed_rel {I J} (RI : I -> J -> Prop) (b : fixed I) (c : fixed J) : Prop :=
  memory_rel RI (f_mem b) (f_mem c) /\ f_populated b = f_populated c /\ f_used b = f_used c.

(** The allocator gives the same amounts for both. *)
Definition growing_rel {I J} (RI : I -> J -> Prop) (b : growing I) (c : growing J) : Prop :=
  memory_rel RI (g_mem b) (g_mem c) /\ g_cap b = g_cap c /\ g_populated b = g_populated c /\ g_limit b = g_limit c /\ g_used b = g_used c /\
  (forall k, g_alloc b k = g_alloc c k) /\ g_count b = g_count c.

Definition src_rel {St St' B B'} (RS : St -> St' -> Prop) (RB : B -> B' -> Prop) (x : src St B) (y : src St' B') : Prop :=
  RS (src_source x) (src_source y) /\ RB (src_buffer x) (src_buffer y) /\ src_request x = src_request y /\
  src_incomplete x = src_incomplete y /\ src_eoi x = src_eoi y /\ src_auto x = src_auto y.

Definition stream_error_rel {I J E F} (RI : I -> J -> Prop) (RE : E -> F -> Prop) (x : stream_error I E) (y : stream_error J F) : Prop :=
  match x, y with
  | SParseError b e, SParseError c f => Forall2 RI b c /\ RE e f
  | SIncomplete n, SIncomplete m => n = m
  | SIoError n, SIoError m => n = m
  | SEndOfInput, SEndOfInput => True
  | SRetry, SRetry => True
  | _, _ => False
  end.

Definition slice_rel {I J} (RI : I -> J -> Prop) (s : slice_stream I) (t : slice_stream J) : Prop :=
  ss_pos s = ss_pos t /\ Forall2 RI (ss_slice s) (ss_slice t).

(** Every call of the interface of Source, with its answer. *)
Inductive order (I T E : Type) : Type :=
| OParse (p : parser I T E)
| OFill
| ORead (n : nat)
| OFillBuf
| OConsume (n : nat)
| OReset
| OAutofill (b : bool)
| OLen
| OIsEmpty
| OCapacity
| OBuffer.
Arguments OParse {I T E} p.
Arguments OFill {I T E}.
Arguments ORead {I T E} n.
Arguments OFillBuf {I T E}.
Arguments OConsume {I T E} n.
Arguments OReset {I T E}.
Arguments OAutofill {I T E} b.
Arguments OLen {I T E}.
Arguments OIsEmpty {I T E}.
Arguments OCapacity {I T E}.
Arguments OBuffer {I T E}.

Inductive notice (I T E : Type) : Type :=
| NParse (r : sres I T E)
| NCount (r : io nat)
| NItems (r : io (list I))
| NUnit
| NLen (n : nat)
| NBool (b : bool).
Arguments NParse {I T E} r.
Arguments NCount {I T E} r.
Arguments NItems {I T E} r.
Arguments NUnit {I T E}.
Arguments NLen {I T E} n.
Arguments NBool {I T E} b.

Definition obey {St I B T E} (ds : data_source St I) (ops : buffer_ops I B) (q : order I T E) (st : src St B) : run (src St B * notice I T E) :=
  match q with
  | OParse p => let! (st, r) := src_parse ds ops p st in Done (st, NParse r)
  | OFill => let! (st, r) := src_fill ds ops st in Done (st, NCount r)
  | ORead n => let! (st, r) := src_read ds ops n st in Done (st, NItems r)
  | OFillBuf => let! (st, r) := src_fill_buf ds ops st in Done (st, NItems r)
  | OConsume n => let! st := src_consume ops n st in Done (st, NUnit)
  | OReset => Done (src_reset st, NUnit)
  | OAutofill b => Done (src_set_autofill b st, NUnit)
  | OLen => let! n := src_len ops st in Done (st, NLen n)
  | OIsEmpty => let! b := src_is_empty ops st in Done (st, NBool b)
  | OCapacity => Done (st, NLen (src_capacity ops st))
  | OBuffer => let! l := src_view ops st in Done (st, NItems (IoOk l))
  end.

(** A program over a Source: each call depends on all answers so far.  It runs for as long as it likes; of its run, the answers of
    the first [n] calls. *)
Fixpoint obeyed {St I B T E} (ds : data_source St I) (ops : buffer_ops I B) (n : nat) (c : list (notice I T E) -> order I T E)
    (past : list (notice I T E)) (st : src St B) : run (src St B * list (notice I T E)) :=
  match n with
  | 0 => Done (st, past)
  | S n =>
      let! (st, a) := obey ds ops (c past) st in
      obeyed ds ops n c (past ++ [a]) st
  end.

Definition order_rel {I J T U E F} (RI : I -> J -> Prop) (v : bool) (RT : T -> U -> Prop) (RE : E -> F -> Prop) (x : order I T E) (y : order J U F) : Prop :=
  match x, y with
  | OParse p, OParse q => linked RI v RT RE p q
  | OFill, OFill => True
  | ORead n, ORead m => n = m
  | OFillBuf, OFillBuf => True
  | OConsume n, OConsume m => n = m
  | OReset, OReset => True
  | OAutofill b, OAutofill c => b = c
  | OLen, OLen => True
  | OIsEmpty, OIsEmpty => True
  | OCapacity, OCapacity => True
  | OBuffer, OBuffer => True
  | _, _ => False
  end.

Definition notice_rel {I J T U E F} (RI : I -> J -> Prop) (RT : T -> U -> Prop) (RE : E -> F -> Prop) (x : notice I T E) (y : notice J U F) : Prop :=
  match x, y with
  | NParse r, NParse s => sum_rel RT (stream_error_rel RI RE) r s
  | NCount r, NCount s => r = s
  | NItems r, NItems s => io_rel (Forall2 RI) r s
  | NUnit, NUnit => True
  | NLen n, NLen m => n = m
  | NBool b, NBool c => b = c
  | _, _ => False
  end.
