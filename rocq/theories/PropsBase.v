(** Property theorems C01 - C08, C10 - C12. *)
From Coq Require Import List Bool Arith Lia.
From Verif Require Import Base Parsers Combinators SpecBase BaseProofs.
Import ListNotations.

(** * C01: bind/ret form a monad *)
Theorem C01_left_identity : forall I T U E V (conv : E -> V) (t : T) (i : input I) (f : input I -> T -> pres I U V),
  bind conv (ret t i) f = f i t.
Proof. exact ret_bind. Qed.
Print Assumptions C01_left_identity.

Theorem C01_right_identity : forall I T E (m : pres I T E), bind (fun e => e) m (fun i t => ret t i) = m.
Proof. exact bind_ret. Qed.
Print Assumptions C01_right_identity.

(** The conversions: [c1] from m's error type to f's, [c2] from f's to g's, [c3] from m's to g's. *)
Theorem C01_associativity : forall I T U W E V X (c1 : E -> V) (c2 : V -> X) (c3 : E -> X)
  (m : pres I T E) (f : input I -> T -> pres I U V) (g : input I -> U -> pres I W X),
  bind c2 (bind c1 m f) g = bind c3 m (fun i t => bind c2 (f i t) g) <->
  (forall b e, m = Error b e -> c2 (c1 e) = c3 e).
Proof. exact bind_assoc. Qed.
Print Assumptions C01_associativity.

(** One error type: associativity without conditions. *)
Theorem C01_associativity_same_error : forall I T U W E
  (m : pres I T E) (f : input I -> T -> pres I U E) (g : input I -> U -> pres I W E),
  bind (fun e => e) (bind (fun e => e) m f) g = bind (fun e => e) m (fun i t => bind (fun e => e) (f i t) g).
Proof. exact (fun I T U W E m f g => proj2 (bind_assoc (fun e => e) (fun e => e) (fun e => e) m f g) (fun b e H => eq_refl)). Qed.
Print Assumptions C01_associativity_same_error.

(** The condition can fail: conversions 0 -> 1 -> 2 against 0 -> 3. *)
Example C01_associativity_needs_condition :
  exists (m : pres nat nat nat),
    bind (fun e => e + 1) (bind (fun e => e + 1) m (fun i t => ret t i)) (fun i t => ret t i) <>
    bind (fun e => e + 3) m (fun i t => bind (fun e => e + 1) (ret t i) (fun i t => ret t i)).
Proof. exists (Error [] 0). simpl. discriminate. Qed.

(** What [bind] and [then] do, case by case: nothing of [f] is run unless [m] succeeded. *)
Theorem C01_then_cases : forall I T U E V (conv : E -> V) (m : pres I T E) (f : input I -> pres I U V),
  then_ conv m f =
  match m with
  | Data i _ => f i
  | Error b e => Error b (conv e)
  | Incomplete n => Incomplete n
  | Panic => Panic
  | NoFuel => NoFuel
  end.
Proof. exact then_is_bind. Qed.
Print Assumptions C01_then_cases.

(** Lifting a result ([from_result]) and binding: an [Ok] is handed on at the same input, an [Err] is an error
    standing at the whole of the current slice, as with [err], and nothing of [f] is run. *)
Theorem C01_from_result : forall I T U E V (conv : E -> V) (r : T + E) (i : input I) (f : input I -> T -> pres I U V),
  from_result r i = match r with inl t => ret t i | inr e => err e i end /\
  bind conv (from_result r i) f = match r with inl t => f i t | inr e => Error (buf i) (conv e) end.
Proof. intros I T U E V conv r i f. destruct r; split; try reflexivity. apply ret_bind. Qed.
Print Assumptions C01_from_result.
Example C01_from_result_hit :
  bind (fun e : nat => e) (from_result (inr 7) (mkInput true [1; 2])) (fun i (t : nat) => ret t i) = Error [1; 2] 7.
Proof. reflexivity. Qed.

(** * C02: map, map_err, inspect *)
Theorem C02_map_identity : forall I T E (m : pres I T E), map (fun t => t) m = m.
Proof. destruct m; reflexivity. Qed.
Theorem C02_map_compose : forall I T U W E (f : T -> U) (g : U -> W) (m : pres I T E),
  map g (map f m) = map (fun t => g (f t)) m.
Proof. destruct m; reflexivity. Qed.
Theorem C02_map_err_identity : forall I T E (m : pres I T E), map_err (fun e => e) m = m.
Proof. exact map_err_same. Qed.
Theorem C02_map_err_compose : forall I T E V X (f : E -> V) (g : V -> X) (m : pres I T E),
  map_err g (map_err f m) = map_err (fun e => g (f e)) m.
Proof. destruct m; reflexivity. Qed.
Theorem C02_map_map_err_commute : forall I T U E V (f : T -> U) (g : E -> V) (m : pres I T E),
  map f (map_err g m) = map_err g (map f m).
Proof. destruct m; reflexivity. Qed.
Theorem C02_map_touches_only_value : forall I T U E (f : T -> U) (m : pres I T E),
  match m with
  | Data i t => map f m = Data i (f t)
  | Error b e => map f m = Error b e
  | Incomplete n => map f m = Incomplete n
  | Panic => map f m = Panic
  | NoFuel => map f m = NoFuel
  end.
Proof. destruct m; reflexivity. Qed.
Theorem C02_map_err_touches_only_error : forall I T E V (f : E -> V) (m : pres I T E),
  match m with
  | Data i t => map_err f m = Data i t
  | Error b e => map_err f m = Error b (f e)
  | Incomplete n => map_err f m = Incomplete n
  | Panic => map_err f m = Panic
  | NoFuel => map_err f m = NoFuel
  end.
Proof. destruct m; reflexivity. Qed.
Theorem C02_map_is_bind_ret : forall I T U E (f : T -> U) (m : pres I T E),
  map f m = bind (fun e => e) m (fun i t => ret (f t) i).
Proof. destruct m; reflexivity. Qed.
(** The observer appends the value to a log: the result is unchanged, the log grows by the value on success only. *)
Theorem C02_inspect : forall I T E (m : pres I T E) (log : list T),
  inspect (fun t w => w ++ [t]) m log = (m, match m with Data _ t => log ++ [t] | _ => log end).
Proof. destruct m; reflexivity. Qed.
Print Assumptions C02_map_identity.
Print Assumptions C02_map_compose.
Print Assumptions C02_map_err_identity.
Print Assumptions C02_map_err_compose.
Print Assumptions C02_map_map_err_commute.
Print Assumptions C02_map_touches_only_value.
Print Assumptions C02_map_err_touches_only_error.
Print Assumptions C02_map_is_bind_ret.
Print Assumptions C02_inspect.
Example C02_case : map (fun l => S (length l)) (map (fun l => 5 :: l) (@take nat 2 (mkInput false [7; 8; 9]))) = Data (mkInput false [9]) 4
  /\ map_err (fun e : error nat => match e with Expected t => t | _ => 0 end) (map S (token true Nat.eqb 3 (mkInput false [5; 4]))) = Error [5; 4] 3
  /\ map S (map_err (fun e : error nat => match e with Expected t => t | _ => 0 end) (token true Nat.eqb 3 (mkInput false []))) = Incomplete 1.
Proof. repeat split. Qed.

(** * C03: the token parsers decide on the first item *)
Theorem C03_any : forall I l (c : I) r,
  any (mkInput l []) = Incomplete 1 :> pres I I (error I) /\ any (mkInput l (c :: r)) = Data (mkInput l r) c :> pres I I (error I).
Proof. split; reflexivity. Qed.
Theorem C03_satisfy : forall I verbose (f : I -> bool) l c r,
  satisfy verbose f (mkInput l []) = Incomplete 1 /\
  (f c = true -> satisfy verbose f (mkInput l (c :: r)) = Data (mkInput l r) c) /\
  (f c = false -> satisfy verbose f (mkInput l (c :: r)) = Error (c :: r) (if verbose then Unexpected else EPlain)).
Proof. intros; repeat split; intros H; unfold satisfy; simpl; rewrite H; reflexivity. Qed.
Theorem C03_satisfy_with : forall I T verbose (g : I -> T) (f : T -> bool) l c r,
  satisfy_with verbose g f (mkInput l []) = Incomplete 1 /\
  (f (g c) = true -> satisfy_with verbose g f (mkInput l (c :: r)) = Data (mkInput l r) (g c)) /\
  (f (g c) = false -> satisfy_with verbose g f (mkInput l (c :: r)) = Error (c :: r) (if verbose then Unexpected else EPlain)).
Proof. intros; repeat split; intros H; unfold satisfy_with; simpl; rewrite H; reflexivity. Qed.
Theorem C03_token : forall I verbose (eqb : I -> I -> bool) t l c r,
  token verbose eqb t (mkInput l []) = Incomplete 1 /\
  (eqb t c = true -> token verbose eqb t (mkInput l (c :: r)) = Data (mkInput l r) c) /\
  (eqb t c = false -> token verbose eqb t (mkInput l (c :: r)) = Error (c :: r) (if verbose then Expected t else EPlain)).
Proof. intros; repeat split; intros H; unfold token; simpl; rewrite H; reflexivity. Qed.
Theorem C03_not_token : forall I verbose (eqb : I -> I -> bool) t l c r,
  not_token verbose eqb t (mkInput l []) = Incomplete 1 /\
  (eqb t c = false -> not_token verbose eqb t (mkInput l (c :: r)) = Data (mkInput l r) c) /\
  (eqb t c = true -> not_token verbose eqb t (mkInput l (c :: r)) = Error (c :: r) (if verbose then Unexpected else EPlain)).
Proof. intros; repeat split; intros H; unfold not_token; simpl; rewrite H; reflexivity. Qed.
Theorem C03_peek : forall I l (c : I) r,
  peek (mkInput l []) = Data (mkInput l []) None :> pres I (option I) (error I) /\
  peek (mkInput l (c :: r)) = Data (mkInput l (c :: r)) (Some c) :> pres I (option I) (error I).
Proof. split; reflexivity. Qed.
Theorem C03_peek_next : forall I l (c : I) r,
  peek_next (mkInput l []) = Incomplete 1 :> pres I I (error I) /\
  peek_next (mkInput l (c :: r)) = Data (mkInput l (c :: r)) c :> pres I I (error I).
Proof. split; reflexivity. Qed.
Print Assumptions C03_any.
Print Assumptions C03_satisfy.
Print Assumptions C03_satisfy_with.
Print Assumptions C03_token.
Print Assumptions C03_not_token.
Print Assumptions C03_peek.
Print Assumptions C03_peek_next.
Example C03_case : token true Nat.eqb 3 (mkInput false [3; 4]) = Data (mkInput false [4]) 3
  /\ token true Nat.eqb 3 (mkInput false [5; 4]) = Error [5; 4] (Expected 3)
  /\ not_token false Nat.eqb 3 (mkInput false [5; 4]) = Data (mkInput false [4]) 5.
Proof. repeat split. Qed.

(** * C04: take *)
Theorem C04_take_enough : forall I n l (x y : list I),
  length x = n -> take n (mkInput l (x ++ y)) = Data (mkInput l y) x.
Proof. exact take_enough. Qed.
Theorem C04_take_short : forall I n k l (b : list I),
  length b + k = n -> 1 <= k -> take n (mkInput l b) = Incomplete k.
Proof. exact take_short. Qed.
Print Assumptions C04_take_enough.
Print Assumptions C04_take_short.
(** The two theorems cover every slice. *)
Theorem C04_take_total : forall I n (b : list I),
  (exists x y, b = x ++ y /\ length x = n) \/ (exists k, length b + k = n /\ 1 <= k).
Proof.
  intros I n b. destruct (Nat.le_gt_cases n (length b)) as [H|H].
  - left. exists (firstn n b), (skipn n b). rewrite firstn_skipn, firstn_length. split; [reflexivity|lia].
  - right. exists (n - length b). lia.
Qed.
Example C04_case : take 2 (mkInput false [7; 8; 9]) = Data (mkInput false [9]) [7; 8]
  /\ take 5 (mkInput true [7; 8; 9]) = Incomplete 2.
Proof. split; reflexivity. Qed.

(** * C05: maximal munch *)
Theorem C05_take_while : forall I (f : I -> bool) l b res,
  take_while f (mkInput l b) = res <->
  (exists x c y, b = x ++ c :: y /\ Forall (fun a => f a = true) x /\ f c = false /\ res = Data (mkInput l (c :: y)) x) \/
  (Forall (fun a => f a = true) b /\ l = true /\ res = Data (mkInput l []) b) \/
  (Forall (fun a => f a = true) b /\ l = false /\ res = Incomplete 1).
Proof. exact take_while_spec. Qed.
Theorem C05_take_while1 : forall I verbose (f : I -> bool) l b res,
  take_while1 verbose f (mkInput l b) = res <->
  (exists x c y, b = x ++ c :: y /\ x <> [] /\ Forall (fun a => f a = true) x /\ f c = false /\ res = Data (mkInput l (c :: y)) x) \/
  (exists c y, b = c :: y /\ f c = false /\ res = Error b (if verbose then Unexpected else EPlain)) \/
  (b <> [] /\ Forall (fun a => f a = true) b /\ l = true /\ res = Data (mkInput l []) b) \/
  (Forall (fun a => f a = true) b /\ (b = [] \/ l = false) /\ res = Incomplete 1).
Proof. exact take_while1_spec. Qed.
Theorem C05_take_till : forall I (f : I -> bool) l b res,
  take_till f (mkInput l b) = res <->
  (exists x c y, b = x ++ c :: y /\ Forall (fun a => f a = false) x /\ f c = true /\ res = Data (mkInput l (c :: y)) x) \/
  (Forall (fun a => f a = false) b /\ res = Incomplete 1).
Proof. exact take_till_spec. Qed.
Print Assumptions C05_take_while.
Print Assumptions C05_take_while1.
Print Assumptions C05_take_till.
Example C05_case : take_while (fun n => n <? 5) (mkInput false [1; 2; 7; 3]) = Data (mkInput false [7; 3]) [1; 2]
  /\ take_while1 true (fun n => n <? 5) (mkInput true [1; 2]) = Data (mkInput true []) [1; 2]
  /\ take_till (fun n => n =? 5) (mkInput true [1; 2]) = Incomplete 1.
Proof. repeat split. Qed.

(** * C06: scan, run_scanner *)
Theorem C06_scan : forall I S (f : S -> I -> option S) s l b res,
  scan s f (mkInput l b) = res <->
  (exists x c y s1, b = x ++ c :: y /\ accepts f s x s1 /\ f s1 c = None /\ res = Data (mkInput l (c :: y)) x) \/
  (exists s1, accepts f s b s1 /\ res = Incomplete 1).
Proof. exact scan_spec. Qed.
Theorem C06_run_scanner : forall I S (f : S -> I -> option S) s l b res,
  run_scanner s f (mkInput l b) = res <->
  (exists x c y s1, b = x ++ c :: y /\ accepts f s x s1 /\ f s1 c = None /\ res = Data (mkInput l (c :: y)) (x, s1)) \/
  (exists s1, accepts f s b s1 /\ res = Incomplete 1).
Proof. exact run_scanner_spec. Qed.
Print Assumptions C06_scan.
Print Assumptions C06_run_scanner.
Example C06_case : run_scanner 0 (fun s c => if s + c <? 10 then Some (s + c) else None) (mkInput true [4; 5; 6; 7])
  = Data (mkInput true [6; 7]) ([4; 5], 9).
Proof. reflexivity. Qed.

(** * C07: string *)
Theorem C07_string_match : forall I verbose (eqb : I -> I -> bool) s l x y,
  same_items eqb s x -> string verbose eqb s (mkInput l (x ++ y)) = Data (mkInput l y) x.
Proof. exact string_match. Qed.
Theorem C07_string_short : forall I verbose (eqb : I -> I -> bool) s l b k,
  length b + k = length s -> 1 <= k -> string verbose eqb s (mkInput l b) = Incomplete k.
Proof. exact string_short. Qed.
Theorem C07_string_mismatch : forall I verbose (eqb : I -> I -> bool) s l x y n,
  length x = length s -> first_difference eqb s x n ->
  string verbose eqb s (mkInput l (x ++ y)) =
  if verbose then Error (x ++ y) (EString s) else Error (skipn n (x ++ y)) EPlain.
Proof. exact string_mismatch_spec. Qed.
(** The three theorems cover every slice. *)
Theorem C07_string_total : forall I (eqb : I -> I -> bool) s b,
  (length b < length s) \/
  (exists x y, b = x ++ y /\ same_items eqb s x) \/
  (exists x y n, b = x ++ y /\ length x = length s /\ first_difference eqb s x n).
Proof. exact string_total. Qed.
Print Assumptions C07_string_match.
Print Assumptions C07_string_short.
Print Assumptions C07_string_mismatch.
Print Assumptions C07_string_total.
Example C07_case : string false Nat.eqb [1; 2; 3] (mkInput false [1; 9; 9; 9]) = Error [9; 9; 9] EPlain
  /\ string true Nat.eqb [1; 2; 3] (mkInput false [1; 9; 9; 9]) = Error [1; 9; 9; 9] (EString [1; 2; 3])
  /\ string true Nat.eqb [1; 2; 3] (mkInput false [9]) = Incomplete 2.
Proof. repeat split. Qed.
Example C07_case_difference : first_difference Nat.eqb [1; 2; 3] [1; 9; 9] 1.
Proof. exists 2, 9. repeat split. intros k Hk. assert (k = 0) by lia. subst. exists 1, 1. repeat split. Qed.

(** * C08: eof, take_remainder *)
Theorem C08_eof : forall I verbose l (b : list I),
  (eof verbose (mkInput l b) = Data (mkInput l b) tt <-> b = [] /\ l = true) /\
  (~ (b = [] /\ l = true) -> eof verbose (mkInput l b) = Error b (if verbose then Unexpected else EPlain)).
Proof.
  intros I verbose l b. unfold eof; simpl. destruct b as [|c b]; simpl; destruct l; simpl; repeat split; intros; try tauto; try discriminate.
  - destruct H; discriminate.
  - destruct H; discriminate.
  - destruct H; discriminate.
Qed.
Theorem C08_take_remainder : forall I l (b : list I), take_remainder (mkInput l b) = Data (mkInput l []) b.
Proof. reflexivity. Qed.
Print Assumptions C08_eof.
Print Assumptions C08_take_remainder.
Example C08_case : @eof nat true (mkInput true []) = Data (mkInput true []) tt
  /\ @eof nat true (mkInput false []) = Error [] Unexpected /\ eof false (mkInput true [4]) = Error [4] EPlain
  /\ ~ (@nil nat = [] /\ false = true) /\ ~ ([4] = [] /\ true = true).
Proof. repeat split; intros [H1 H2]; discriminate. Qed.

(** * C10: or *)
Theorem C10_or_cases : forall I T E (f g : parser I T E) l b,
  (forall j t, f (mkInput l b) = Data j t -> or_ f g (mkInput l b) = Data j t) /\
  (forall b' e, f (mkInput l b) = Error b' e -> or_ f g (mkInput l b) = g (mkInput l b)) /\
  (forall n, f (mkInput l b) = Incomplete n -> l = true -> or_ f g (mkInput l b) = g (mkInput l b)) /\
  (forall n, f (mkInput l b) = Incomplete n -> l = false -> or_ f g (mkInput l b) = Incomplete n).
Proof. intros I T E f g l b; repeat split; intros; unfold or_; rewrite H; subst; reflexivity. Qed.
Theorem C10_or_associative : forall I T E (f g h : parser I T E) i, or_ (or_ f g) h i = or_ f (or_ g h) i.
Proof. exact or_assoc. Qed.
Theorem C10_or_idempotent : forall I T E (f : parser I T E) i, or_ f f i = f i.
Proof. exact or_idem. Qed.
Theorem C10_or_err_left_unit : forall I T E (e : E) (g : parser I T E) i, or_ (err e) g i = g i.
Proof. reflexivity. Qed.
Theorem C10_or_ret_left_zero : forall I T E (t : T) (g : parser I T E) i, or_ (ret t) g i = ret t i.
Proof. reflexivity. Qed.
Print Assumptions C10_or_cases.
Print Assumptions C10_or_associative.
Print Assumptions C10_or_idempotent.
Print Assumptions C10_or_err_left_unit.
Print Assumptions C10_or_ret_left_zero.
Example C10_case : let p := or_ (fun i => bind (fun e => e) (token true Nat.eqb 1 i) (fun i _ => token true Nat.eqb 2 i)) (token true Nat.eqb 1) in
  p (mkInput true [1; 3]) = Data (mkInput true [3]) 1 /\ p (mkInput false [1]) = Incomplete 1 /\ p (mkInput true [1]) = Data (mkInput true []) 1.
Proof. repeat split. Qed.

(** * C11: option *)
Theorem C11_option_cases : forall I T E (f : parser I T E) d l b,
  (forall j t, f (mkInput l b) = Data j t -> option_ f d (mkInput l b) = Data j t) /\
  (forall b' e, f (mkInput l b) = Error b' e -> option_ f d (mkInput l b) = Data (mkInput l b) d) /\
  (forall n, f (mkInput l b) = Incomplete n -> l = true -> option_ f d (mkInput l b) = Data (mkInput l b) d) /\
  (forall n, f (mkInput l b) = Incomplete n -> l = false -> option_ f d (mkInput l b) = Incomplete n).
Proof. intros I T E f d l b; repeat split; intros; unfold option_; rewrite H; subst; reflexivity. Qed.
Theorem C11_option_never_fails : forall I T E (f : parser I T E) d i,
  (forall b e, option_ f d i <> Error b e) /\ (last i = true -> forall n, option_ f d i <> Incomplete n).
Proof.
  intros I T E f d i. unfold option_, ret, incomplete. split.
  - intros b e. destruct (f i); try destruct (last i); discriminate.
  - intros Hl n. rewrite Hl. destruct (f i); discriminate.
Qed.
Theorem C11_option_is_or_ret : forall I T E (f : parser I T E) d i, option_ f d i = or_ f (ret d) i.
Proof. intros. unfold option_, or_. destruct (f i); reflexivity. Qed.
Print Assumptions C11_option_cases.
Print Assumptions C11_option_never_fails.
Print Assumptions C11_option_is_or_ret.
Example C11_case : let p := option_ (fun i => bind (fun e => e) (token true Nat.eqb 1 i) (fun i _ => token true Nat.eqb 2 i)) 9 in
  p (mkInput false [1; 2; 3]) = Data (mkInput false [3]) 2 /\ p (mkInput false [1; 3]) = Data (mkInput false [1; 3]) 9 /\
  p (mkInput true [1]) = Data (mkInput true [1]) 9 /\ p (mkInput false [1]) = Incomplete 1.
Proof. repeat split. Qed.

(** * C12: look_ahead, matched_by *)
Theorem C12_look_ahead : forall I T E (f : parser I T E) i,
  (forall j t, f i = Data j t -> look_ahead f i = Data i t) /\
  (forall b e, f i = Error b e -> look_ahead f i = Error b e) /\
  (forall n, f i = Incomplete n -> look_ahead f i = Incomplete n).
Proof. intros I T E f i. repeat split; intros; unfold look_ahead; rewrite H; reflexivity. Qed.
Theorem C12_matched_by : forall I T E (f : parser I T E) i,
  (forall j t pre, f i = Data j t -> buf i = pre ++ buf j -> matched_by f i = Data j (pre, t)) /\
  (forall b e, f i = Error b e -> matched_by f i = Error b e) /\
  (forall n, f i = Incomplete n -> matched_by f i = Incomplete n).
Proof.
  intros I T E f i. repeat split; intros; unfold matched_by; rewrite H; try reflexivity.
  rewrite H0, app_length. destruct (Nat.ltb_spec (length pre + length (buf j)) (length (buf j))); [lia|].
  replace (length pre + length (buf j) - length (buf j)) with (length pre) by lia.
  rewrite firstn_length_app. reflexivity.
Qed.
Print Assumptions C12_look_ahead.
Print Assumptions C12_matched_by.
Example C12_case : matched_by (fun i => bind (fun e => e) (take 2 i) (fun i x => map (fun y => (x, y)) (any i))) (mkInput false [1; 2; 3; 4])
  = Data (mkInput false [4]) ([1; 2; 3], ([1; 2], 3)).
Proof. reflexivity. Qed.
