(** Property theorems C53: user code that acts on an outside world is called in the order of the input, once for each item it decides
    on, and never once the answer is settled; retries over a Source repeat the work at most quadratically. *)
From Coq Require Import List Bool Arith Lia.
From Verif Require Import Base Parsers Combinators Buffer Stream SpecBase SpecBuffer SpecSafe SpecStream SpecIter SpecTill Effects SpecEffects
  BufferProofs StreamProofs SimProofs HistoryProofs SafeProofs TillProofs PropsBuffer PropsStream
  EffectsProofs EffectsIterProofs EffectsStreamProofs EffectsExprProofs.
Import ListNotations.

(** For examples: a world that logs the items, and a predicate which writes to it; it panics at [9]. *)
Definition below (n : nat) : callback (list nat) nat bool := fun c w => (if c =? 9 then None else Some (c <? n), w ++ [c]).

(** * Primitives *)

(** [take_while] calls the predicate on the items from the first to the one it refuses (or at which it panics), and on no other. *)
Theorem C53_take_while : forall W I (f : callback W I bool) w i res w', take_while_w f w i = (res, w') <->
  (all_called f true w (buf i) w' /\ res = (if last i then Data (mkInput (last i) []) (buf i) else Incomplete 1)) \/
  (exists cs c rest w1, buf i = cs ++ c :: rest /\ all_called f true w cs w1 /\
     ((f c w1 = (Some false, w') /\ res = Data (mkInput (last i) (c :: rest)) cs) \/ (f c w1 = (None, w') /\ res = Panic))).
Proof.
  intros W I f w i res w'. rewrite take_while_w_char. split.
  - intros (v & Hs & ->). destruct Hs as [w' H|cs c rest w1 w' Hb H H1|cs c rest w1 w' Hb H H1]; [left|right; exists cs, c, rest, w1..]; auto 6.
  - intros [[H ->]|(cs & c & rest & w1 & Hb & H & [[H1 ->]|[H1 ->]])].
    + exists Through. split; [constructor; assumption|reflexivity].
    + exists (UpTo cs c rest). split; [eapply search_up_to; eauto|reflexivity].
    + exists Dead. split; [eapply search_dead; eauto|reflexivity].
Qed.
Print Assumptions C53_take_while.
Example C53_take_while_case :
  take_while_w (below 4) [] (mkInput false [1; 3; 5; 2]) = (Data (mkInput false [5; 2]) [1; 3], [1; 3; 5]) /\
  take_while_w (below 4) [] (mkInput false [1; 9; 5; 2]) = (Panic, [1; 9]) /\
  take_while_w (below 4) [] (mkInput false [1; 3]) = (Incomplete 1, [1; 3]).
Proof. repeat split. Qed.

(** [take_while1] the same; the first item is not asked about twice. *)
Theorem C53_take_while1 : forall W I verbose (f : callback W I bool) w i res w', take_while1_w verbose f w i = (res, w') <->
  (all_called f true w (buf i) w' /\
     res = (if negb (length (buf i) =? 0) && last i then Data (mkInput (last i) []) (buf i) else Incomplete 1)) \/
  (exists cs c rest w1, buf i = cs ++ c :: rest /\ all_called f true w cs w1 /\
     ((f c w1 = (Some false, w') /\
         res = match cs with [] => Error (buf i) (if verbose then Unexpected else EPlain) | _ => Data (mkInput (last i) (c :: rest)) cs end) \/
      (f c w1 = (None, w') /\ res = Panic))).
Proof.
  intros W I verbose f w i res w'. rewrite take_while1_w_char. split.
  - intros (v & Hs & ->). destruct Hs as [w' H|cs c rest w1 w' Hb H H1|cs c rest w1 w' Hb H H1]; [left|right; exists cs, c, rest, w1..]; auto 6.
    split; [assumption|]. destruct (buf i) as [|c b]; [reflexivity|]. cbn. destruct (last i) eqn:Hl; unfold took; rewrite ?Hl; reflexivity.
  - intros [[H ->]|(cs & c & rest & w1 & Hb & H & [[H1 ->]|[H1 ->]])].
    + exists Through. split; [constructor; assumption|]. destruct (buf i) as [|c b]; [reflexivity|]. cbn. destruct (last i) eqn:Hl; unfold took; rewrite ?Hl; reflexivity.
    + exists (UpTo cs c rest). split; [eapply search_up_to; eauto|]. destruct cs; reflexivity.
    + exists Dead. split; [eapply search_dead; eauto|reflexivity].
Qed.
Print Assumptions C53_take_while1.
Example C53_take_while1_case :
  take_while1_w true (below 4) [] (mkInput false [5; 2]) = (Error [5; 2] Unexpected, [5]) /\
  take_while1_w true (below 4) [] (mkInput true [1; 2]) = (Data (mkInput true []) [1; 2], [1; 2]).
Proof. repeat split. Qed.

(** [take_till] clones each item, then asks about the clone; it stops at the first item that is accepted. *)
Theorem C53_take_till : forall W I (icl : callback W I I) (f : callback W I bool) w i res w',
  let g := fun c w => match icl c w with (Some c', w) => f c' w | (None, w) => (None, w) end in
  take_till_w icl f w i = (res, w') <->
  (all_called g false w (buf i) w' /\ res = Incomplete 1) \/
  (exists cs c rest w1, buf i = cs ++ c :: rest /\ all_called g false w cs w1 /\
     ((g c w1 = (Some true, w') /\ res = Data (mkInput (last i) (c :: rest)) cs) \/ (g c w1 = (None, w') /\ res = Panic))).
Proof.
  intros W I icl f w i res w' g. rewrite take_till_w_char. change (cloned_then icl f) with g. split.
  - intros (v & Hs & ->). destruct Hs as [w' H|cs c rest w1 w' Hb H H1|cs c rest w1 w' Hb H H1]; [left|right; exists cs, c, rest, w1..]; auto 6.
  - intros [[H ->]|(cs & c & rest & w1 & Hb & H & [[H1 ->]|[H1 ->]])].
    + exists Through. split; [constructor; assumption|reflexivity].
    + exists (UpTo cs c rest). split; [eapply search_up_to; eauto|reflexivity].
    + exists Dead. split; [eapply search_dead; eauto|reflexivity].
Qed.
Print Assumptions C53_take_till.
Example C53_take_till_case :
  take_till_w (fun c w => (Some c, w ++ [100 + c])) (below 4) [] (mkInput true [5; 6; 2; 7]) = (Data (mkInput true [2; 7]) [5; 6], [105; 5; 106; 6; 102; 2]) /\
  take_till_w (fun c w => (Some c, w)) (below 4) [] (mkInput true [5; 6]) = (Incomplete 1, [5; 6]).
Proof. split; reflexivity. Qed.

(** [scan] and [run_scanner] call the function on the items in order, each time with the state it returned last, until it returns [None];
    the value of [run_scanner] holds the last state. *)
Theorem C53_scan : forall W I S (s : S) (f : callback W (S * I) (option S)) w i w' (res : pres I (list I) (error I)) (res2 : pres I (list I * S) (error I)),
  (scan_w s f w i = (res, w') <->
    (exists s', scanned f s w (buf i) s' w' /\ res = Incomplete 1) \/
    (exists cs c rest s' w1, buf i = cs ++ c :: rest /\ scanned f s w cs s' w1 /\
       ((f (s', c) w1 = (Some None, w') /\ res = Data (mkInput (last i) (c :: rest)) cs) \/ (f (s', c) w1 = (None, w') /\ res = Panic)))) /\
  (run_scanner_w s f w i = (res2, w') <->
    (exists s', scanned f s w (buf i) s' w' /\ res2 = Incomplete 1) \/
    (exists cs c rest s' w1, buf i = cs ++ c :: rest /\ scanned f s w cs s' w1 /\
       ((f (s', c) w1 = (Some None, w') /\ res2 = Data (mkInput (last i) (c :: rest)) (cs, s')) \/ (f (s', c) w1 = (None, w') /\ res2 = Panic)))).
Proof.
  intros W I S s f w i w' res res2. rewrite scan_w_char, run_scanner_w_char. split; split.
  - intros (v & s' & Hs & ->). destruct Hs as [s' w' H|cs c rest s' w1 w' Hb H H1|cs c rest s' w1 w' Hb H H1]; [left; exists s'|right; exists cs, c, rest, s', w1..]; auto 6.
  - intros [(s' & H & ->)|(cs & c & rest & s' & w1 & Hb & H & [[H1 ->]|[H1 ->]])].
    + exists Through, s'. split; [constructor; assumption|reflexivity].
    + exists (UpTo cs c rest), s'. split; [eapply scan_up_to; eauto|reflexivity].
    + exists Dead, s'. split; [eapply scan_dead; eauto|reflexivity].
  - intros (v & s' & Hs & ->). destruct Hs as [s' w' H|cs c rest s' w1 w' Hb H H1|cs c rest s' w1 w' Hb H H1]; [left; exists s'|right; exists cs, c, rest, s', w1..]; auto 6.
  - intros [(s' & H & ->)|(cs & c & rest & s' & w1 & Hb & H & [[H1 ->]|[H1 ->]])].
    + exists Through, s'. split; [constructor; assumption|reflexivity].
    + exists (UpTo cs c rest), s'. split; [eapply scan_up_to; eauto|reflexivity].
    + exists Dead, s'. split; [eapply scan_dead; eauto|reflexivity].
Qed.
Print Assumptions C53_scan.
Example C53_scan_case : (* sums up while below 6 *)
  run_scanner_w 0 (fun sc w => (Some (if fst sc + snd sc <? 6 then Some (fst sc + snd sc) else None), w ++ [sc])) [] (mkInput false [2; 3; 4; 1]) =
    (Data (mkInput false [4; 1]) ([2; 3], 5), [(0, 2); (2, 3); (5, 4)]).
Proof. reflexivity. Qed.

(** [string] compares items pairwise from the front up to the first that differs, if there are enough items; else it compares none. *)
Theorem C53_string : forall W I verbose (ne : callback W (I * I) bool) s w i res w', string_w verbose ne s w i = (res, w') <->
  (length (buf i) < length s /\ res = Incomplete (length s - length (buf i)) /\ w' = w) \/
  (length s <= length (buf i) /\
    ((all_called ne false w (combine s (buf i)) w' /\ res = Data (mkInput (last i) (skipn (length s) (buf i))) (firstn (length s) (buf i))) \/
     (exists cs c rest w1, combine s (buf i) = cs ++ c :: rest /\ all_called ne false w cs w1 /\
        ((ne c w1 = (Some true, w') /\
            res = if verbose then Error (buf i) (EString s) else Error (skipn (length cs) (buf i)) EPlain) \/
         (ne c w1 = (None, w') /\ res = Panic))))).
Proof.
  intros W I verbose ne s w i res w'. rewrite string_w_char. apply or_iff_compat_l. apply and_iff_compat_l. split.
  - intros (v & Hs & ->). destruct Hs as [w' H|cs c rest w1 w' Hb H H1|cs c rest w1 w' Hb H H1]; [left|right; exists cs, c, rest, w1..]; auto 6.
  - intros [[H ->]|(cs & c & rest & w1 & Hb & H & [[H1 ->]|[H1 ->]])].
    + exists Through. split; [constructor; assumption|reflexivity].
    + exists (UpTo cs c rest). split; [eapply search_up_to; eauto|]. unfold err_string. destruct verbose; reflexivity.
    + exists Dead. split; [eapply search_dead; eauto|reflexivity].
Qed.
Print Assumptions C53_string.
Example C53_string_case : forall verbose,
  string_w verbose (fun ab w => (Some (negb (fst ab =? snd ab)), w ++ [ab])) [1; 2; 3] [] (mkInput true [1; 5; 3; 4]) =
    (if verbose then Error [1; 5; 3; 4] (EString [1; 2; 3]) else Error [5; 3; 4] EPlain, [(1, 1); (2, 5)]) /\
  string_w verbose (fun ab w => (Some (negb (fst ab =? snd ab)), w ++ [ab])) [1; 2; 3] [] (mkInput true [1; 5]) = (Incomplete 1, []).
Proof. intros []; split; reflexivity. Qed.

(** The parsers of one item call their user code once, or not at all if there is none; [satisfy_with] clones the item, maps it, clones the
    value, asks about the clone, and returns the value itself. *)
Theorem C53_one_item : forall W I verbose l (w : W) (c : I) b,
  (forall f : callback W I bool, satisfy_w verbose f w (mkInput l []) = (Incomplete 1, w)) /\
  (forall f : callback W I bool, satisfy_w verbose f w (mkInput l (c :: b)) =
     (match fst (f c w) with
      | Some true => Data (mkInput l b) c
      | Some false => Error (c :: b) (if verbose then Unexpected else EPlain)
      | None => Panic
      end, snd (f c w))) /\
  (forall (eq : callback W (I * I) bool) t, token_w verbose eq t w (mkInput l []) = (Incomplete 1, w)) /\
  (forall (eq : callback W (I * I) bool) t, token_w verbose eq t w (mkInput l (c :: b)) =
     (match fst (eq (t, c) w) with
      | Some true => Data (mkInput l b) c
      | Some false => Error (c :: b) (if verbose then Expected t else EPlain)
      | None => Panic
      end, snd (eq (t, c) w))) /\
  (forall (ne : callback W (I * I) bool) t, not_token_w verbose ne t w (mkInput l []) = (Incomplete 1, w)) /\
  (forall (ne : callback W (I * I) bool) t, not_token_w verbose ne t w (mkInput l (c :: b)) =
     (match fst (ne (t, c) w) with
      | Some true => Data (mkInput l b) c
      | Some false => Error (c :: b) (if verbose then Unexpected else EPlain)
      | None => Panic
      end, snd (ne (t, c) w))) /\
  (forall T icl tcl (f : callback W I T) p, satisfy_with_w verbose icl tcl f p w (mkInput l []) = (Incomplete 1, w)) /\
  (forall T icl tcl (f : callback W I T) p c' t t' ok w1 w2 w3 w4, icl c w = (Some c', w1) -> f c' w1 = (Some t, w2) -> tcl t w2 = (Some t', w3) ->
     p t' w3 = (ok, w4) -> satisfy_with_w verbose icl tcl f p w (mkInput l (c :: b)) =
     (match ok with
      | Some true => Data (mkInput l b) t
      | Some false => Error (c :: b) (if verbose then Unexpected else EPlain)
      | None => Panic
      end, w4)) /\
  (forall T icl tcl (f : callback W I T) p w1, icl c w = (None, w1) -> satisfy_with_w verbose icl tcl f p w (mkInput l (c :: b)) = (Panic, w1)) /\
  (forall T icl tcl (f : callback W I T) p c' w1 w2, icl c w = (Some c', w1) -> f c' w1 = (None, w2) ->
     satisfy_with_w verbose icl tcl f p w (mkInput l (c :: b)) = (Panic, w2)) /\
  (forall T icl tcl (f : callback W I T) p c' t w1 w2 w3, icl c w = (Some c', w1) -> f c' w1 = (Some t, w2) -> tcl t w2 = (None, w3) ->
     satisfy_with_w verbose icl tcl f p w (mkInput l (c :: b)) = (Panic, w3)).
Proof.
  intros W I verbose l w c b. repeat split.
  - intros f. unfold satisfy_w, err_unexpected. cbn. destruct (f c w) as [[[]|] w1]; destruct verbose; reflexivity.
  - intros eq t. unfold token_w, err_expected. cbn. destruct (eq (t, c) w) as [[[]|] w1]; destruct verbose; reflexivity.
  - intros ne t. unfold not_token_w, err_unexpected. cbn. destruct (ne (t, c) w) as [[[]|] w1]; destruct verbose; reflexivity.
  - intros T icl tcl f p c' t t' ok w1 w2 w3 w4 H1 H2 H3 H4. unfold satisfy_with_w, err_unexpected. cbn. rewrite H1, H2, H3, H4.
    destruct ok as [[]|]; destruct verbose; reflexivity.
  - intros T icl tcl f p w1 H1. unfold satisfy_with_w. cbn. rewrite H1. reflexivity.
  - intros T icl tcl f p c' w1 w2 H1 H2. unfold satisfy_with_w. cbn. rewrite H1, H2. reflexivity.
  - intros T icl tcl f p c' t w1 w2 w3 H1 H2 H3. unfold satisfy_with_w. cbn. rewrite H1, H2, H3. reflexivity.
Qed.
Print Assumptions C53_one_item.
Example C53_one_item_case : forall verbose,
  satisfy_w verbose (below 4) [] (mkInput true [3; 5]) = (Data (mkInput true [5]) 3, [3]) /\
  satisfy_with_w verbose (fun c w => (Some c, w ++ [c])) (fun c w => (Some (S c), w ++ [10 + c])) (fun c w => (Some (c + c), w ++ [20 + c])) (below 30) []
    (mkInput true [3; 5]) = (Data (mkInput true [5]) 6, [3; 23; 16; 7]).
Proof. intros []; split; reflexivity. Qed.

(** * Choice and sequence *)

(** The second alternative of [or] is run at most once, on the whole input, in the world which the first has left; it is not run if the first
    succeeded or waits for input.  [option], [look_ahead] and [matched_by] run their parser once and nothing else. *)
Theorem C53_choice : forall W I T E (f g : sparser W I T E) (d : T) w i r1 w1, f w i = (r1, w1) ->
  or_w f g w i = match r1 with Error _ _ => g w1 i | Incomplete n => if last i then g w1 i else (r1, w1) | _ => (r1, w1) end /\
  option_w f d w i = (match r1 with Error _ _ => Data i d | Incomplete n => if last i then Data i d else r1 | _ => r1 end, w1) /\
  look_ahead_w f w i = (match r1 with Data _ t => Data i t | _ => r1 end, w1) /\
  (forall cs j t, r1 = Data j t -> buf i = cs ++ buf j -> matched_by_w f w i = (Data j (cs, t), w1)) /\
  matched_by_w f w i = (match r1 with
                        | Data _ _ => fst (matched_by_w f w i)
                        | Error b e => Error b e | Incomplete n => Incomplete n | Panic => Panic | NoFuel => NoFuel
                        end, w1).
Proof.
  intros W I T E f g d w i r1 w1 H. unfold or_w, option_w, look_ahead_w, matched_by_w. rewrite H.
  repeat split; try (destruct r1; try reflexivity; destruct (last i); reflexivity).
  intros cs j t -> Hb. rewrite Hb, app_length. destruct (Nat.ltb_spec (length cs + length (buf j)) (length (buf j))) as [Hl|Hl]; [lia|].
  replace (length cs + length (buf j) - length (buf j)) with (length cs) by lia. rewrite firstn_app, Nat.sub_diag, firstn_all, firstn_O, app_nil_r. reflexivity.
Qed.
Print Assumptions C53_choice.
Example C53_choice_case :
  or_w (satisfy_w false (below 2)) (satisfy_w false (below 4)) [] (mkInput false [3; 1]) = (Data (mkInput false [1]) 3, [3; 3]) /\
  or_w (satisfy_w false (below 2)) (satisfy_w false (below 4)) [] (mkInput false []) = (Incomplete 1, []).
Proof. split; reflexivity. Qed.

(** There is no rollback: what a failed alternative did to the world stays, though the input is reset. *)
Theorem C53_rollback_refuted : ~ (forall W I T E (f g : sparser W I T E) w i b e w1, f w i = (Error b e, w1) -> or_w f g w i = g w i).
Proof.
  intros H. specialize (H _ _ _ _ (satisfy_w false (below 2)) (satisfy_w false (below 4)) [] (mkInput true [3]) _ _ _ eq_refl). discriminate.
Qed.
Print Assumptions C53_rollback_refuted.

(** The continuation of [bind] is run once, on the value and the rest, in the world left by the parser, if there is a value; else not.  The
    conversion of the error is called once if there is an error; else not. *)
Theorem C53_bind : forall W I T U E V (conv : callback W E V) (p : sparser W I T E) (f : T -> sparser W I U V) w i r1 w1, p w i = (r1, w1) ->
  let (r, w2) := p w i in
  match r1 with
  | Data j t => bind_w conv r f w2 = f t w1 j
  | Error b e => bind_w conv r f w2 = (match fst (conv e w1) with Some v => Error b v | None => Panic end, snd (conv e w1))
  | Incomplete n => bind_w conv r f w2 = (Incomplete n, w1)
  | Panic => bind_w conv r f w2 = (Panic, w1)
  | NoFuel => bind_w conv r f w2 = (NoFuel, w1)
  end.
Proof.
  intros W I T U E V conv p f w i r1 w1 H. rewrite H. destruct r1 as [j t|b e|n| |]; simpl; auto.
  - destruct (f t w1 j) as [[]]; reflexivity.
  - destruct (conv e w1) as [[v|] w2]; reflexivity.
Qed.
Print Assumptions C53_bind.
Example C53_bind_case :
  (let (r, w) := satisfy_w false (below 4) [] (mkInput true [3; 1; 2]) in
   bind_w (fun e w => (Some e, w)) r (fun t => satisfy_w false (below t)) w) = (Data (mkInput true [2]) 1, [3; 1]).
Proof. reflexivity. Qed.

(** [map] and [inspect] call their function once, on the value, if there is one; [map_err] its function once, on the error, if there is one; a
    panic of the function is a panic; [inspect] changes nothing else.  [then] is [bind] that ignores the value; [parse_only] runs its parser
    once, on the whole slice and nothing to follow. *)
Theorem C53_results : forall W I T E (p : sparser W I T E) w i r1 w1, p w i = (r1, w1) ->
  (forall U (f : callback W T U), (let (r, w2) := p w i in map_w f r w2) =
     match r1 with
     | Data j t => (match fst (f t w1) with Some u => Data j u | None => Panic end, snd (f t w1))
     | Error b e => (Error b e, w1) | Incomplete n => (Incomplete n, w1) | Panic => (Panic, w1) | NoFuel => (NoFuel, w1)
     end) /\
  (forall V (f : callback W E V), (let (r, w2) := p w i in map_err_w f r w2) =
     match r1 with
     | Error b e => (match fst (f e w1) with Some v => Error b v | None => Panic end, snd (f e w1))
     | Data j t => (Data j t, w1) | Incomplete n => (Incomplete n, w1) | Panic => (Panic, w1) | NoFuel => (NoFuel, w1)
     end) /\
  (forall f : callback W T unit, (let (r, w2) := p w i in inspect_w f r w2) =
     match r1 with
     | Data j t => (match fst (f t w1) with Some _ => Data j t | None => Panic end, snd (f t w1))
     | _ => (r1, w1)
     end) /\
  (forall U V (conv : callback W E V) (g : sparser W I U V), (let (r, w2) := p w i in then_w conv r g w2) =
     match r1 with
     | Data j _ => g w1 j
     | Error b e => (match fst (conv e w1) with Some v => Error b v | None => Panic end, snd (conv e w1))
     | Incomplete n => (Incomplete n, w1) | Panic => (Panic, w1) | NoFuel => (NoFuel, w1)
     end) /\
  (last i = true -> parse_only_w p (buf i) w =
     (match r1 with
      | Data _ t => OOk t | Error b e => OErr (PErr b e) | Incomplete n => OErr (PIncomplete n) | Panic => OPanic | NoFuel => ONoFuel
      end, w1)).
Proof.
  intros W I T E p w i r1 w1 H. rewrite H. repeat split; intros.
  - destruct r1 as [j t|b e|n| |]; simpl; auto. destruct (f t w1) as [[v|] w2]; reflexivity.
  - destruct r1 as [j t|b e|n| |]; simpl; auto. destruct (f e w1) as [[v|] w2]; reflexivity.
  - destruct r1 as [j t|b e|n| |]; simpl; auto. destruct (f t w1) as [[v|] w2]; reflexivity.
  - destruct r1 as [j t|b e|n| |]; simpl; auto; [destruct (g w1 j) as [[]]; reflexivity|]. destruct (conv e w1) as [[v|] w2]; reflexivity.
  - destruct i as [l b]. simpl in *. subst l. unfold parse_only_w. rewrite H. destruct r1; reflexivity.
Qed.
Print Assumptions C53_results.
Example C53_results_case :
  (let (r, w) := satisfy_w false (below 4) [] (mkInput true [3; 1; 2]) in
   inspect_w (fun t w => if t =? 3 then (None, 33 :: w) else (Some tt, w)) r w) = (Panic, [33; 3]).
Proof. reflexivity. Qed.


(** * Repetition *)

Lemma map_nofuel : forall I T U E (f : T -> U) (r : pres I T E), r <> NoFuel -> map f r <> NoFuel.
Proof. intros I T U E f r H. destruct r; simpl; congruence. Qed.
Lemma many_goes_answer : forall W I U E r (p : nat -> sparser W I U E) k w i res w', many_goes r p k w i res w' -> res <> NoFuel.
Proof. intros W I U E r p k w i res w' H. induction H; try discriminate. apply map_nofuel. assumption. Qed.
Lemma till_goes_answer : forall W I U V E N r att (p : sparser W I U E) (end_ : sparser W I V N) k w i res w', till_goes r att p end_ k w i res w' -> res <> NoFuel.
Proof. intros W I U V E N r att p end_ k w i res w' H. induction H; try discriminate. apply map_nofuel. assumption. Qed.

(** [many] runs the parser again and again, each time on what the last run left and in the world it left, until the maximum is reached or it
    does not succeed, and not once more; the world at the end is that of the last run. *)
Theorem C53_many : forall W I U E (p : sparser W I U E) r w i res w', nonempty r ->
  (gives_w (fun fuel => bmany_w fuel (vec_collector U) p r w i) res w' <-> many_goes r (fun _ => p) 0 w i res w').
Proof.
  intros W I U E p r w i res w' Hr. split.
  - intros (Hn & fuel & H). eapply bmany_w_sound; eauto.
  - intros H. split; [eapply many_goes_answer; eauto|]. destruct (bmany_w_complete Hr H) as (f0 & Hf). exists f0. auto.
Qed.
Print Assumptions C53_many.
Example C53_many_case : let one := satisfy_w false (below 4) in
  bmany_w 10 (vec_collector nat) one (RRange 1 3) [] (mkInput true [1; 2; 3]) = (Data (mkInput true [3]) [1; 2], [1; 2]) /\
  bmany_w 10 (vec_collector nat) one RFull [] (mkInput false [1; 2; 5; 3]) = (Data (mkInput false [5; 3]) [1; 2], [1; 2; 5]) /\
  gives_w (fun fuel => bmany_w fuel (vec_collector nat) one (RFrom 3) [] (mkInput false [1; 2; 5; 3])) (Error [5; 3] EPlain) [1; 2; 5].
Proof. repeat split; try discriminate. exists 10. reflexivity. Qed.

(** [skip_many] runs it in the same places. *)
Theorem C53_skip_many : forall W I U E (p : sparser W I U E) r w i res w', nonempty r ->
  (forall n, r = RExact n -> forall w i w', p w i <> (Incomplete 0, w')) ->
  (gives_w (fun fuel => bskip_many_w p fuel r w i) res w' <->
   exists res', many_goes r (fun _ => p) 0 w i res' w' /\ res = map (fun _ => tt) res').
Proof.
  intros W I U E p r w i res w' Hr Hs. assert (Hk : skippable p r) by (destruct r; simpl; eauto). split.
  - intros (Hn & fuel & H). eapply bskip_many_w_sound; eauto.
  - intros (res' & H & ->). split; [apply map_nofuel; eapply many_goes_answer; eauto|]. destruct (bskip_many_w_complete Hr Hk H) as (f0 & Hf). exists f0. auto.
Qed.
Print Assumptions C53_skip_many.
Example C53_skip_many_case :
  bskip_many_w (satisfy_w false (below 4)) 10 (RTo 3) [] (mkInput true [1; 2; 3]) = (Data (mkInput true [3]) tt, [1; 2]) /\
  bskip_many_w (satisfy_w false (below 4)) 10 (RExact 2) [] (mkInput true [1; 9; 3]) = (Panic, [1; 9]).
Proof. split; reflexivity. Qed.

(** [sep_by], [sep_by1]: before every item but the first comes one run of the separator; the item parser is not run where that fails. *)
Theorem C53_sep_by : forall W I U V E N (conv : callback W N E) (p : sparser W I U E) (sep : sparser W I V N) w i res w',
  (gives_w (fun fuel => sep_by_w fuel (vec_collector U) conv p sep w i) res w' <-> many_goes RFull (separated conv p sep) 0 w i res w') /\
  (gives_w (fun fuel => sep_by1_w fuel (vec_collector U) conv p sep w i) res w' <-> many_goes (RFrom 1) (separated conv p sep) 0 w i res w').
Proof.
  intros W I U V E N conv p sep w i res w'. split; split.
  - intros (Hn & fuel & H). eapply sep_by_w_sound; eauto.
  - intros H. split; [eapply many_goes_answer; eauto|]. destruct (sep_by_w_complete H) as (f0 & Hf). exists f0. auto.
  - intros (Hn & fuel & H). eapply sep_by1_w_sound; eauto.
  - intros H. split; [eapply many_goes_answer; eauto|]. destruct (sep_by1_w_complete H) as (f0 & Hf). exists f0. auto.
Qed.
Print Assumptions C53_sep_by.
Example C53_sep_by_case : (* the item 0 separates *)
  sep_by_w 10 (vec_collector nat) (fun e w => (Some e, w)) (satisfy_w false (below 4)) (satisfy_w false (below 1)) []
    (mkInput true [1; 0; 2; 3; 4]) = (Data (mkInput true [3; 4]) [1; 2], [1; 0; 2; 3]).
Proof. reflexivity. Qed.

(** [many_till]: after the minimal number of items [end] is tried once before each item, at the maximum of a range [a..b] twice; what [end] did
    to the world stays when it fails.  For [..b] a success of [end] with fewer than [b]-1 items panics (finding of C18), but only then. *)
Theorem C53_many_till : forall W I U V E N (p : sparser W I U E) (end_ : sparser W I V N) r w i res w', nonempty r ->
  (gives_w (fun fuel => bmany_till_w fuel (vec_collector U) p end_ r w i) res w' <->
   exists res', till_goes r (twice_at_max r) p end_ 0 w i res' w' /\
     res = match r, res' with RTo b, Data _ us => if S (length us) <? b then Panic else res' | _, _ => res' end).
Proof.
  intros W I U V E N p end_ r w i res w' Hr. split.
  - intros (Hn & fuel & H). exact (proj1 (bmany_till_w_char p end_ fuel w i res w' Hr) H Hn).
  - intros (res' & H & ->). pose proof (till_goes_answer _ _ _ _ _ _ _ _ _ _ _ _ _ _ _ H) as Hn. split.
    + destruct r; auto. destruct res'; auto. destruct (_ <? _); discriminate.
    + destruct (proj2 (bmany_till_w_char p end_ (r := r) 0 w i res' w' Hr) H) as (f0 & Hf). exists f0. apply Hf. apply le_n.
Qed.
Print Assumptions C53_many_till.
Example C53_many_till_case :
  bmany_till_w 10 (vec_collector nat) (satisfy_w false (below 8)) (satisfy_w false (below 1)) RFull [] (mkInput true [3; 4; 0; 5]) =
    (Data (mkInput true [5]) [3; 4], [3; 3; 4; 4; 0]) /\
  bmany_till_w 10 (vec_collector nat) (satisfy_w false (below 8)) (satisfy_w false (below 1)) (RRange 1 3) [] (mkInput true [3; 4; 5; 0]) =
    (Incomplete 1, [3; 4; 4; 5; 5]).
Proof. split; reflexivity. Qed.

(** The named forms: [count n] is exactly [n], [many] any number, [many1] at least one, [many_till] any number. *)
Theorem C53_named : forall W I U V E N (p : sparser W I U E) (end_ : sparser W I V N) n w i res w',
  (gives_w (fun fuel => count_w fuel (vec_collector U) n p w i) res w' <-> many_goes (RExact n) (fun _ => p) 0 w i res w') /\
  (gives_w (fun fuel => many_w fuel (vec_collector U) p w i) res w' <-> many_goes RFull (fun _ => p) 0 w i res w') /\
  (gives_w (fun fuel => many1_w fuel (vec_collector U) p w i) res w' <-> many_goes (RFrom 1) (fun _ => p) 0 w i res w') /\
  (gives_w (fun fuel => many_till_w fuel (vec_collector U) p end_ w i) res w' <-> till_goes RFull (fun _ => 1) p end_ 0 w i res w').
Proof.
  intros W I U V E N p end_ n w i res w'. split; [|split; [|split]].
  - exact (@C53_many _ _ _ _ p (RExact n) w i res w' (ex_intro _ n eq_refl)).
  - exact (@C53_many _ _ _ _ p RFull w i res w' (ex_intro _ 1 Logic.I)).
  - exact (@C53_many _ _ _ _ p (RFrom 1) w i res w' (ex_intro _ 1 (le_n 1))).
  - pose proof (@C53_many_till _ _ _ _ _ _ p end_ RFull w i res w' (ex_intro _ 1 Logic.I)) as [H1 H2]. split.
    + intros H. destruct (H1 H) as (res' & G & ->). exact G.
    + intros H. apply H2. exists res. split; [exact H|reflexivity].
Qed.
Print Assumptions C53_named.
Example C53_named_case : let one := satisfy_w false (below 4) in
  count_w 10 (vec_collector nat) 2 one [] (mkInput true [1; 2; 3]) = (Data (mkInput true [3]) [1; 2], [1; 2]) /\
  many_w 10 (vec_collector nat) one [] (mkInput true [5; 3]) = (Data (mkInput true [5; 3]) [], [5]) /\
  many1_w 10 (vec_collector nat) one [] (mkInput true [5; 3]) = (Error [5; 3] EPlain, [5]) /\
  many1_w 10 (vec_collector nat) one [] (mkInput true [1; 5; 3]) = (Data (mkInput true [5; 3]) [1], [1; 5]) /\
  many_till_w 10 (vec_collector nat) one (satisfy_w false (below 1)) [] (mkInput true [3; 0; 5]) = (Data (mkInput true [5]) [3], [3; 3; 0]).
Proof. repeat split. Qed.

(** * Whole expressions *)

(** Whatever is built from the library: if all user code changes the world only as [R] says, so does the whole; and it does not tamper with
    the input, whatever the user code does. *)
Theorem C53_only_callbacks : forall W I (R : W -> W -> Prop) T E (p : sparser W I T E), preorder R -> over R p ->
  forall w, (forall i, R w (snd (p w i))) /\ well_behaved (fun i => fst (p w i)).
Proof. intros W I R T E p HR H w. destruct (over_moves HR H) as [H1 H2]. split; intros i; auto. Qed.
Print Assumptions C53_only_callbacks.
Definition number_w : sparser (list nat) nat (list (list nat)) (error nat) :=
  sep_by1_w 10 (vec_collector (list nat)) (fun e w => (Some e, w)) (take_while1_w false (below 4)) (token_w false (fun ab w => (Some (fst ab =? snd ab), w)) 7).
Example C53_only_callbacks_case : (* the log only grows at its end *)
  over (fun u v => exists x, v = u ++ x) number_w /\ preorder (fun u v : list nat => exists x, v = u ++ x) /\
  number_w [] (mkInput true [1; 2; 7; 3; 5]) = (Data (mkInput true [5]) [[1; 2]; [3]], [1; 2; 7; 3; 5]).
Proof.
  split; [|split; [|reflexivity]].
  - apply o_sep_by1; [intros e w; exists []; symmetry; apply app_nil_r|apply o_take_while1|apply o_token].
    + intros c w. exists [c]. reflexivity.
    + intros ab w. exists []. symmetry. apply app_nil_r.
  - split; [intros w; exists []; symmetry; apply app_nil_r|]. intros u v w [x ->] [y ->]. exists (x ++ y). symmetry. apply app_assoc.
Qed.

(** If the answers of the user code do not depend on the world, the results are those of the model without a world; hence all other properties
    apply to code with side effects. *)
Theorem C53_pure : forall W I T E (p : sparser W I T E) (q : parser I T E), renders p q -> forall w i, fst (p w i) = q i.
Proof. intros W I T E p q H. exact (renders_parses H). Qed.
Print Assumptions C53_pure.
Example C53_pure_case : forall verbose,
  renders (sep_by1_w 10 (vec_collector (list nat)) (fun e w => (Some e, S w)) (take_while1_w verbose (fun c w => (Some (c <? 4), S w)))
             (token_w verbose (fun ab w => (Some (fst ab =? snd ab), S w)) 7))
          (sep_by1 10 (vec_collector (list nat)) (fun e => e) tt tt (pure (take_while1 verbose (fun c => c <? 4))) (pure (token verbose Nat.eqb 7))).
Proof. intros verbose. apply r_sep_by1; [intros e w; reflexivity|apply r_take_while1; intros c w; reflexivity|apply r_token; intros ab w; reflexivity]. Qed.

(** * Streams *)

(** A call of [parse] runs the parser once or not at all; whether it does, and on what, does not depend on the parser.  The answer is as in the
    model without a world.  Over a slice, and over any Source. *)
Theorem C53_call : forall W St I B T E (ds : data_source St I) (ops : buffer_ops I B) (st : src St B) (s : slice_stream I),
  (forall (p : sparser W I T E) w,
     fst (slice_parse_w p s w) = slice_parse (fun i => fst (p w i)) s /\ fst (src_parse_w ds ops p st w) = src_parse ds ops (fun i => fst (p w i)) st) /\
  ((exists r, forall (p : sparser W I T E) w, src_parse_w ds ops p st w = (r, w)) \/
   (exists i, forall (p : sparser W I T E) w, snd (src_parse_w ds ops p st w) = snd (p w i))) /\
  (slice_is_empty s = Done false -> forall (p : sparser W I T E) w, snd (slice_parse_w p s w) = snd (p w (mkInput true (skipn (ss_pos s) (ss_slice s))))) /\
  (slice_is_empty s <> Done false -> forall (p : sparser W I T E) w, snd (slice_parse_w p s w) = w).
Proof.
  intros W St I B T E ds ops st s. split; [|split; [|split]].
  - intros p w. split; [apply slice_parse_w_bridge|apply src_parse_w_bridge].
  - unfold src_parse_w.
    destruct (if src_incomplete st && src_auto st then src_fill ds ops st else Done (st, IoOk 0)) as [[st1 [n|e]]| | |]; eauto.
    destruct (src_is_empty ops st1) as [[]| | |]; eauto.
    destruct (op_deref ops (src_buffer st1)) as [data| | |]; eauto.
    right. exists (mkInput (src_eoi st1) data). intros q w'. destruct (q w' (mkInput (src_eoi st1) data)) as [r w1]. reflexivity.
  - intros H p w. rewrite slice_parse_w_world, H. reflexivity.
  - intros H p w. rewrite slice_parse_w_world. destruct (slice_is_empty s) as [[]| | |]; auto. congruence.
Qed.
Print Assumptions C53_call.

(** Retrying over a Source: let a run of the parser on [n] items cost at most [g n].  Then a call, with all its retries, costs at most the sum of
    [g] up to the number of items not yet consumed, plus [g] of that number; for any sizes of the reads, in any state reached. *)
Theorem C53_fixed_cost : forall W St I (ds : data_source St I) R size b0 (cost : W -> nat) g T E (p : sparser W I T E) adm s0 data e0 st out fuel w st' r w',
  fixed_with_size size = Done b0 -> obeys ds -> delivers ds R -> R s0 data e0 ->
  history ds (fixed_ops I) adm s0 b0 st out -> src_auto st = true ->
  (forall m n, m <= n -> g m <= g n) -> (forall w, well_behaved (fun i => fst (p w i))) ->
  (forall w i, cost (snd (p w i)) <= cost w + g (length (buf i))) ->
  insist_w ds (fixed_ops I) fuel p st w = (Done (st', r), w') ->
  let n := length data - length out in cost w' <= cost w + sum_to g n + g n.
Proof.
  intros W St I ds R size b0 cost g T E p adm s0 data e0 st out fuel w st' r w' Hn Ho HR Hs Hh Ha Hg Hp Hc H n.
  destruct (fixed_fresh I size b0 Hn) as (_ & Hi & Hv).
  destruct (history_delivers (fixed_queue size) Ho HR _ _ Hi Hv Hh Hs) as (d & e & G1 & G2 & G3 & G4).
  pose proof (@insist_w_cost W St I (fixed I) ds (fixed_ops I) _ _ _ _ (fixed_queue size) R HR cost g Hg Ho T E p Hp
    (fun w i H0 => ltac:(pose proof (Hp w i) as Hx; cbv beta in Hx; rewrite H0 in Hx; cbn in Hx; lia)) Hc fuel st w d e st' r w' G4 Ha G1 H) as Hb.
  replace (length (fixed_view (src_buffer st)) + length d) with n in Hb; [exact Hb|]. unfold n. rewrite G3, !app_length. lia.
Qed.
Print Assumptions C53_fixed_cost.

Theorem C53_growing_cost : forall W St I (ds : data_source St I) R cap0 alloc limit (cost : W -> nat) g T E (p : sparser W I T E) adm s0 data e0 st out fuel w st' r w',
  obeys ds -> delivers ds R -> R s0 data e0 ->
  history ds (growing_ops I) adm s0 (growing_with_limit cap0 alloc limit) st out -> src_auto st = true ->
  (forall m n, m <= n -> g m <= g n) -> (forall w, well_behaved (fun i => fst (p w i))) ->
  (forall w i, cost (snd (p w i)) <= cost w + g (length (buf i))) ->
  insist_w ds (growing_ops I) fuel p st w = (Done (st', r), w') ->
  let n := length data - length out in cost w' <= cost w + sum_to g n + g n.
Proof.
  intros W St I ds R cap0 alloc limit cost g T E p adm s0 data e0 st out fuel w st' r w' Ho HR Hs Hh Ha Hg Hp Hc H n.
  destruct (@growing_new I cap0 alloc limit) as (Hi & Hv & _).
  destruct (history_delivers growing_queue Ho HR _ _ Hi Hv Hh Hs) as (d & e & G1 & G2 & G3 & G4).
  pose proof (@insist_w_cost W St I (growing I) ds (growing_ops I) _ _ _ _ growing_queue R HR cost g Hg Ho T E p Hp
    (fun w i H0 => ltac:(pose proof (Hp w i) as Hx; cbv beta in Hx; rewrite H0 in Hx; cbn in Hx; lia)) Hc fuel st w d e st' r w' G4 Ha G1 H) as Hb.
  replace (length (growing_view (src_buffer st)) + length d) with n in Hb; [exact Hb|]. unfold n. rewrite G3, !app_length. lia.
Qed.
Print Assumptions C53_growing_cost.

Lemma sum_to_id : forall n, 2 * sum_to (fun k => k) n = n * (n + 1).
Proof. induction n as [|n IH]; [reflexivity|]. cbn [sum_to]. lia. Qed.

(** For example a predicate of [take_while], [take_while1] or [take_till] that may cost one: at most [n(n+3)/2] for [n] items. *)
Theorem C53_search_cost : forall W St I (ds : data_source St I) R cap0 alloc limit (cost : W -> nat) verbose (f : callback W I bool) adm s0 data e0 st out fuel w st' r w' p,
  obeys ds -> delivers ds R -> R s0 data e0 ->
  history ds (growing_ops I) adm s0 (growing_with_limit cap0 alloc limit) st out -> src_auto st = true ->
  (forall c w, cost (snd (f c w)) <= S (cost w)) ->
  In p [take_while_w f; take_while1_w verbose f; take_till_w (fun c w => (Some c, w)) f] ->
  insist_w ds (growing_ops I) fuel p st w = (Done (st', r), w') ->
  let n := length data - length out in 2 * cost w' <= 2 * cost w + n * (n + 3).
Proof.
  intros W St I ds R cap0 alloc limit cost verbose f adm s0 data e0 st out fuel w st' r w' p Ho HR Hs Hh Ha Hf Hin H n.
  assert (Hp : (forall w, well_behaved (fun i => fst (p w i))) /\ (forall w i, cost (snd (p w i)) <= cost w + length (buf i))).
  { destruct Hin as [<-|[<-|[<-|[]]]]; (split; [intros v i|intros v i]).
    - apply take_while_w_honest.
    - destruct (take_while_w f v i) as [res v'] eqn:Hr. apply take_while_w_char in Hr. destruct Hr as (x & Hx & _). eapply search_cost; eauto.
    - apply take_while1_w_honest.
    - destruct (take_while1_w verbose f v i) as [res v'] eqn:Hr. apply take_while1_w_char in Hr. destruct Hr as (x & Hx & _). eapply search_cost; eauto.
    - apply take_till_w_honest.
    - destruct (take_till_w (fun c w => (Some c, w)) f v i) as [res v'] eqn:Hr. apply take_till_w_char in Hr. destruct Hr as (x & Hx & _).
      eapply (search_cost cost (f := cloned_then (fun c w => (Some c, w)) f)); [|exact Hx]. intros c u. apply Hf. }
  destruct Hp as [Hp Hc].
  pose proof (C53_growing_cost W St I ds R cap0 alloc limit cost (fun k => k) _ _ p adm s0 data e0 st out fuel w st' r w' Ho HR Hs Hh Ha
    (fun m n H => H) Hp Hc H) as Hb. cbv zeta in Hb. fold n in Hb. pose proof (sum_to_id n) as Hn. rewrite Nat.mul_add_distr_l in *. lia.
Qed.
Print Assumptions C53_search_cost.

(** The bound is met by data of any length: if its [n] items come one by one, [take_while] calls its predicate [n(n+3)/2] times. *)
Lemma sum_from_id : forall n k, 2 * sum_from (fun k => k) (S k) n = n * (n + 1) + 2 * n * k.
Proof. induction n as [|n IH]; intros k; [reflexivity|]. cbn [sum_from]. specialize (IH (S k)). nia. Qed.
Theorem C53_quadratic : forall W I alloc (cost : W -> nat) (f : callback W I bool) data w,
  (forall c w, fst (f c w) = Some true /\ cost (snd (f c w)) = S (cost w)) -> data <> [] ->
  exists fuel st' w', insist_w (read_data_source chunk_read) (growing_ops I) fuel (take_while_w f)
    (src_with_buffer (List.map (fun c => Some [c]) data) (growing_with_limit 0 alloc 0)) w = (Done (st', inl data), w') /\
    let n := length data in 2 * cost w' = 2 * cost w + n * (n + 3).
Proof.
  intros W I alloc cost f data w Hf Hd. destruct (@growing_new I 0 alloc 0) as (Hi & Hv & _).
  assert (Hi0 : growing_inv0 (growing_with_limit (I := I) 0 alloc 0)) by (repeat split; auto; try apply Hi).
  destruct (@retries_tight W I _ _ _ _ _ growing_queue0 cost f Hf data (S (length data)) (growing_with_limit 0 alloc 0) 0 false w (le_n _) Hi0) as (st' & w' & H1 & H2).
  { rewrite Hv. reflexivity. }
  rewrite Hv in H1, H2. cbn [app length] in H1, H2. exists (S (length data)), st', w'. split; [|cbn zeta].
  - unfold src_with_buffer. unfold one_by_one in H1. rewrite H1. destruct data; [congruence|reflexivity].
  - pose proof (sum_from_id (length data) 0). nia.
Qed.
Print Assumptions C53_quadratic.

(** The bound is met: three items read one by one, three retries; and "once per item" is false of a call with its retries. *)
Definition count_calls : callback nat nat bool := fun c w => (Some true, S w).
Example C53_cost_case : exists st,
  insist_w demo_source (growing_ops nat) 9 (take_while_w count_calls)
    (src_with_buffer [Some [1]; Some [2]; Some [3]] (growing_with_limit 0 (fun _ => 0) 0)) 0 = (Done (st, inl [1; 2; 3]), 9) /\ 2 * 9 = 3 * (3 + 3).
Proof. eexists. split; [vm_compute; reflexivity|reflexivity]. Qed.
Theorem C53_once_refuted : ~ (forall W St I B (ds : data_source St I) (ops : buffer_ops I B) (cost : W -> nat) (f : callback W I bool) fuel st w st' (v : list I) w',
  obeys ds -> (forall c w, cost (snd (f c w)) = S (cost w)) ->
  insist_w ds ops fuel (take_while_w f) st w = (Done (st', inl v), w') -> cost w' <= cost w + S (length v)).
Proof.
  intros H. destruct C53_cost_case as (st & Hst & _).
  pose proof (H nat _ nat _ demo_source (growing_ops nat) (fun n => n) count_calls 9 _ 0 st _ _ demo_obeys (fun _ _ => eq_refl) Hst) as Hc.
  cbn in Hc. lia.
Qed.
Print Assumptions C53_once_refuted.
(** The hypotheses of the bounds hold for any schedule of reads and errors over a fresh Source. *)
Example C53_search_cost_case : forall (cs : list (option (list nat))) fuel st' r w',
  insist_w (read_data_source chunk_read) (growing_ops nat) fuel (take_while_w count_calls) (src_with_buffer cs (growing_with_limit 0 (fun _ => 0) 0)) 0 =
    (Done (st', r), w') -> (forall c, In (Some c) cs -> c <> []) ->
  2 * w' <= length (chunks_data cs) * (length (chunks_data cs) + 3).
Proof.
  intros cs fuel st' r w' H Hne.
  pose proof (C53_search_cost nat _ nat (read_data_source chunk_read) schedule 0 (fun _ => 0) 0 (fun n => n) false count_calls (fun _ _ _ => True) cs (chunks_data cs)
    (chunks_errors cs) (src_with_buffer cs (growing_with_limit 0 (fun _ => 0) 0)) [] fuel 0 st' r w' (take_while_w count_calls) (@chunk_obeys nat) (@chunk_delivers nat)) as Hc.
  rewrite Nat.sub_0_r in Hc. apply Hc; auto.
  - repeat split; auto. intros Hin. exact (Hne [] Hin eq_refl).
  - apply h_new.
  - left. reflexivity.
Qed.
