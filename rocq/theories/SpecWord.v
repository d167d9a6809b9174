(** What machine words and build modes are supposed to change: nothing. *)
From Coq Require Import List Bool Arith.
From Verif Require Import Base Parsers Combinators Buffer Stream Word SpecBuffer SpecStream.
Import ListNotations.

Set Implicit Arguments.

(** The two builds for a platform where [usize] has the values below [W] and a vector at most [A] items. *)
Definition debug_build (W A : nat) : machine := mkMachine W true A.
Definition release_build (W A : nat) : machine := mkMachine W false A.

(** A platform: there are fewer items in a vector than values of [usize] (of which there are more than one). *)
Definition platform (m : machine) : Prop := w_alloc m < w_size m /\ 1 < w_size m.

(** * Comparing builds *)

(** A debug build does the same as something else, unless it panics. *)
Definition panics_or {A} (x y : run A) : Prop := x = Panicked \/ x = y.
Definition panics_or_stuck {A} (x y : run A) : Prop := x = Panicked \/ x = y \/ y = Stuck.

(** Every call of a Source in the state [st] does. *)
Record builds_agree {St I B} (md mr : machine) (ds : data_source St I) (od or : buffer_ops I B) (st : src St B) : Prop := mkBuildsAgree {
  ba_parse : forall T E (p : parser I T E), panics_or (w_src_parse md ds od p st) (w_src_parse mr ds or p st);
  ba_fill : panics_or (w_src_fill md ds od st) (w_src_fill mr ds or st);
  ba_read : forall n, panics_or (w_src_read md ds od n st) (w_src_read mr ds or n st);
  ba_fill_buf : panics_or (w_src_fill_buf md ds od st) (w_src_fill_buf mr ds or st);
  ba_consume : forall n, panics_or (src_consume od n st) (src_consume or n st);
  ba_len : panics_or (src_len od st) (src_len or st);
  ba_is_empty : panics_or (src_is_empty od st) (src_is_empty or st);
  ba_view : panics_or (src_view od st) (src_view or st) }.

(** The same against the model with unbounded numbers. *)
Record numbers_agree {St I B} (md : machine) (ds : data_source St I) (od ou : buffer_ops I B) (st : src St B) : Prop := mkNumbersAgree {
  na_parse : forall T E (p : parser I T E), panics_or_stuck (w_src_parse md ds od p st) (src_parse ds ou p st);
  na_fill : panics_or_stuck (w_src_fill md ds od st) (src_fill ds ou st);
  na_read : forall n, panics_or_stuck (w_src_read md ds od n st) (src_read ds ou n st);
  na_fill_buf : panics_or_stuck (w_src_fill_buf md ds od st) (src_fill_buf ds ou st);
  na_consume : forall n, panics_or (src_consume od n st) (src_consume ou n st);
  na_len : panics_or (src_len od st) (src_len ou st);
  na_is_empty : panics_or (src_is_empty od st) (src_is_empty ou st);
  na_view : panics_or (src_view od st) (src_view ou st) }.

(** Every call that has a result with unbounded numbers has the same result on the machine, if that result is [small]. *)
Record machine_agrees {St I B} (m : machine) (ds : data_source St I) (om ou : buffer_ops I B) (small : src St B -> Prop) (st : src St B) : Prop := mkMachineAgrees {
  ma_parse : forall T E (p : parser I T E) st' r, src_parse ds ou p st = Done (st', r) -> small st' -> src_request st' < w_size m -> w_src_parse m ds om p st = Done (st', r);
  ma_fill : forall st' r, src_fill ds ou st = Done (st', r) -> small st' -> w_src_fill m ds om st = Done (st', r);
  ma_read : forall n st' r, src_read ds ou n st = Done (st', r) -> small st' -> w_src_read m ds om n st = Done (st', r);
  ma_fill_buf : forall st' r, src_fill_buf ds ou st = Done (st', r) -> small st' -> w_src_fill_buf m ds om st = Done (st', r);
  ma_consume : forall n st', src_consume ou n st = Done st' -> small st' -> src_consume om n st = Done st' }.

(** All states a Source gets into on the machine, by any calls of its interface whatsoever (parsers may return anything, [consume] may be
    told any number), as long as none of them panics. *)
Inductive w_history {St I B} (m : machine) (ds : data_source St I) (ops : buffer_ops I B) (s0 : St) (b0 : B) : src St B -> Prop :=
| wh_new : w_history m ds ops s0 b0 (src_with_buffer s0 b0)
| wh_parse : forall st T E (p : parser I T E) st' r, w_history m ds ops s0 b0 st -> w_src_parse m ds ops p st = Done (st', r) ->
    w_history m ds ops s0 b0 st'
| wh_fill : forall st st' r, w_history m ds ops s0 b0 st -> w_src_fill m ds ops st = Done (st', r) -> w_history m ds ops s0 b0 st'
| wh_read : forall st n st' r, w_history m ds ops s0 b0 st -> n < w_size m -> w_src_read m ds ops n st = Done (st', r) ->
    w_history m ds ops s0 b0 st'
| wh_fill_buf : forall st st' r, w_history m ds ops s0 b0 st -> w_src_fill_buf m ds ops st = Done (st', r) -> w_history m ds ops s0 b0 st'
| wh_consume : forall st n st', w_history m ds ops s0 b0 st -> n < w_size m -> src_consume ops n st = Done st' -> w_history m ds ops s0 b0 st'
| wh_reset : forall st, w_history m ds ops s0 b0 st -> w_history m ds ops s0 b0 (src_reset st)
| wh_autofill : forall st v, w_history m ds ops s0 b0 st -> w_history m ds ops s0 b0 (src_set_autofill v st).

(** Neither undefined behaviour nor an endless loop. *)
Definition defined {A} (r : run A) : Prop := r <> Undefined /\ r <> Stuck.

(** Every call in this state is. *)
Record all_defined {St I B} (m : machine) (ds : data_source St I) (ops : buffer_ops I B) (st : src St B) : Prop := mkAllDefined {
  ad_parse : forall T E (p : parser I T E), w_src_parse m ds ops p st <> Undefined;
  ad_parse_ends : forall T E (p : parser I T E), (forall i, p i <> NoFuel) -> w_src_parse m ds ops p st <> Stuck;
  ad_fill : defined (w_src_fill m ds ops st);
  ad_read : forall n, n < w_size m -> defined (w_src_read m ds ops n st);
  ad_fill_buf : defined (w_src_fill_buf m ds ops st);
  ad_consume : forall n, n < w_size m -> defined (src_consume ops n st);
  ad_len : defined (src_len ops st);
  ad_is_empty : defined (src_is_empty ops st);
  ad_view : defined (src_view ops st) }.

(** A parser whose requests on slices of at most [size] items can be added to the length. *)
Definition modest {I T E} (W size : nat) (p : parser I T E) : Prop :=
  forall l b n, length b <= size -> p (mkInput l b) = Incomplete n -> length b + n < W.

Inductive modest_script {I T E} (W size : nat) : script I T E -> Prop :=
| ms_stop : modest_script W size Stop
| ms_next : forall p k, modest W size p -> (forall r, modest_script W size (k r)) -> modest_script W size (Next p k).

(** [insist] and [on_source] (SpecStream.v) on a machine. *)
Fixpoint w_insist {St I B T E} (m : machine) (ds : data_source St I) (ops : buffer_ops I B) (fuel : nat) (p : parser I T E) (st : src St B)
  : run (src St B * sres I T E) :=
  match fuel with
  | 0 => Stuck
  | S fuel =>
      let! (st, r) := w_src_parse m ds ops p st in
      match r with
      | inr SRetry => w_insist m ds ops fuel p st
      | inr (SIoError _) => w_insist m ds ops fuel p st
      | _ => Done (st, r)
      end
  end.

Fixpoint w_on_source {St I B T E} (m : machine) (ds : data_source St I) (ops : buffer_ops I B) (fuel : nat) (c : script I T E) (st : src St B)
  : run (list (sres I T E)) :=
  match c with
  | Stop => Done []
  | Next p k =>
      let! (st, r) := w_insist m ds ops fuel p st in
      let! rs := w_on_source m ds ops fuel (k (forget r)) st in
      Done (forget r :: rs)
  end.

(** A length-prefixed record: one item says how many follow. *)
Definition prefixed {I} (value : I -> nat) : parser I (list I) (error I) :=
  fun i => Base.bind (fun e => e) (Parsers.any i) (fun i x => Parsers.take (value x) i).

(** * Buffers used directly *)

(** All states a buffer gets into by the operations of the trait on the machine, with sources that obey their contract; [may] says which
    amounts may be consumed. *)
Inductive w_reached {I B} (m : machine) (ops : buffer_ops I B) (may : B -> nat -> Prop) (b0 : B) : B -> Prop :=
| wr_new : w_reached m ops may b0 b0
| wr_request : forall b n b', w_reached m ops may b0 b -> n < w_size m -> op_request_space ops b n = Done b' -> w_reached m ops may b0 b'
| wr_consume : forall b n b', w_reached m ops may b0 b -> n < w_size m -> may b n -> op_consume ops b n = Done b' -> w_reached m ops may b0 b'
| wr_fill : forall St (ds : data_source St I) s b b' s' r, w_reached m ops may b0 b -> obeys ds -> op_fill ops ds b s = Done (b', s', r) ->
    w_reached m ops may b0 b'.

Record buffer_defined {I B} (m : machine) (ops : buffer_ops I B) (b : B) : Prop := mkBufferDefined {
  bd_deref : defined (op_deref ops b);
  bd_len : defined (op_len ops b);
  bd_request : forall n, n < w_size m -> defined (op_request_space ops b n);
  bd_consume : forall n, defined (op_consume ops b n);
  bd_fill : forall St (ds : data_source St I) s, obeys ds -> defined (op_fill ops ds b s) }.

(** Any amount, and at most what the buffer holds. *)
Definition any_amount {B} (b : B) (n : nat) : Prop := True.
Definition held {I B} (ops : buffer_ops I B) (b : B) (n : nat) : Prop := exists l, op_deref ops b = Done l /\ n <= length l.

(** * Requests *)

(** A parser that never asks for more than [N] further items. *)
Definition asks_at_most {I T E} (N : nat) (p : parser I T E) : Prop := forall i n, p i = Incomplete n -> n <= N.

(** Expressions over the library (as [built] in SpecSafe.v) in which no [take], [string] or [incomplete] asks for more than [N] items. *)
Inductive frugal {I : Type} (N : nat) : forall T E, parser I T E -> Prop :=
| f_ext : forall T E (p q : parser I T E), frugal N p -> (forall i, p i = q i) -> frugal N q
| f_panic : forall T E, @frugal I N T E (fun _ => Panic)
| f_ret : forall T E (t : T), @frugal I N T E (ret t)
| f_err : forall T E (e : E), @frugal I N T E (err e)
| f_incomplete : forall T E n, n <= N -> @frugal I N T E (incomplete n)
| f_from_result : forall T E (r : T + E), frugal N (from_result r)
| f_map : forall T U E (f : T -> U) (p : parser I T E), frugal N p -> frugal N (fun i => map f (p i))
| f_map_err : forall T E V (f : E -> V) (p : parser I T E), frugal N p -> frugal N (fun i => map_err f (p i))
| f_inspect : forall T E W (f : T -> W -> W) (w : W) (p : parser I T E), frugal N p -> frugal N (fun i => fst (inspect f (p i) w))
| f_bind : forall T U E V (conv : E -> V) (p : parser I T E) (f : input I -> T -> pres I U V),
    frugal N p -> (forall t, frugal N (fun i => f i t)) -> frugal N (fun i => bind conv (p i) f)
| f_then : forall T U E V (conv : E -> V) (p : parser I T E) (f : parser I U V),
    frugal N p -> frugal N f -> frugal N (fun i => then_ conv (p i) f)
| f_any : frugal N any
| f_satisfy : forall v f, frugal N (satisfy v f)
| f_satisfy_with : forall T v (f : I -> T) g, frugal N (satisfy_with v f g)
| f_token : forall v eqb t, frugal N (token v eqb t)
| f_not_token : forall v eqb t, frugal N (not_token v eqb t)
| f_peek : frugal N peek
| f_peek_next : frugal N peek_next
| f_take : forall n, n <= N -> frugal N (take n)
| f_take_while : forall f, frugal N (take_while f)
| f_take_while1 : forall v f, frugal N (take_while1 v f)
| f_take_till : forall f, frugal N (take_till f)
| f_scan : forall S (s : S) f, frugal N (scan s f)
| f_run_scanner : forall S (s : S) f, frugal N (run_scanner s f)
| f_take_remainder : frugal N take_remainder
| f_string : forall v eqb s, length s <= N -> frugal N (string v eqb s)
| f_eof : forall v, frugal N (eof v)
| f_bmany : forall S U T E C fuel (col : collector U T C) r s0 (p : sparser S I U E),
    (forall s, frugal N (fun i => fst (p s i))) -> frugal N (bmany fuel col r s0 p)
| f_bskip_many : forall S U E fuel r s0 (p : sparser S I U E),
    (forall s, frugal N (fun i => fst (p s i))) -> frugal N (bskip_many fuel r s0 p)
| f_bmany_till : forall S SE U V T E X C fuel (col : collector U T C) r s0 e0 (p : sparser S I U E) (end_ : sparser SE I V X),
    (forall s, frugal N (fun i => fst (p s i))) -> (forall s, frugal N (fun i => fst (end_ s i))) ->
    frugal N (bmany_till fuel col r s0 e0 p end_)
| f_sep_by : forall SP SS U V T E X C fuel (col : collector U T C) (conv : X -> E) sp0 ss0 (p : sparser SP I U E) (sep : sparser SS I V X),
    (forall s, frugal N (fun i => fst (p s i))) -> (forall s, frugal N (fun i => fst (sep s i))) ->
    frugal N (sep_by fuel col conv sp0 ss0 p sep)
| f_sep_by1 : forall SP SS U V T E X C fuel (col : collector U T C) (conv : X -> E) sp0 ss0 (p : sparser SP I U E) (sep : sparser SS I V X),
    (forall s, frugal N (fun i => fst (p s i))) -> (forall s, frugal N (fun i => fst (sep s i))) ->
    frugal N (sep_by1 fuel col conv sp0 ss0 p sep)
| f_option : forall T E (p : parser I T E) d, frugal N p -> frugal N (option_ p d)
| f_or : forall T E (p q : parser I T E), frugal N p -> frugal N q -> frugal N (or_ p q)
| f_matched_by : forall T E (p : parser I T E), frugal N p -> frugal N (matched_by p)
| f_look_ahead : forall T E (p : parser I T E), frugal N p -> frugal N (look_ahead p).
Arguments frugal {I} N {T E} p.
