(** Property theorems C13 - C21. *)
From Coq Require Import List Bool Arith Lia.
From Verif Require Import Base Parsers Combinators SpecBase SpecIter SpecCollect SpecSep SpecTill
  IterProofs ManyProofs TillProofs TillStateProofs CollectProofs SkipProofs SepProofs TermProofs CountProofs.
Import ListNotations.

(** The running examples: digits are even numbers, separators are ones. *)
Definition even_item : sparser unit nat nat (error nat) := pure (satisfy true Nat.even).
Definition one_item : sparser unit nat nat (error nat) := pure (token true Nat.eqb 1).

(** * C13: bounded::many *)

(** Whatever [many(r, p)] returns is what the specification demands. *)
Theorem C13_many_sound : forall St I U E (p : sparser St I U E) fuel r s0 i res,
  nonempty r -> bmany fuel (vec_collector U) r s0 p i = res -> res <> NoFuel -> many_outcome r p s0 i res.
Proof. exact @bmany_sound. Qed.
Print Assumptions C13_many_sound.

(** And whatever the specification demands is returned, given enough fuel. *)
Theorem C13_many_complete : forall St I U E (p : sparser St I U E) r s0 i res,
  nonempty r -> many_outcome r p s0 i res ->
  exists f0, forall fuel, f0 <= fuel -> bmany fuel (vec_collector U) r s0 p i = res.
Proof. exact @bmany_complete. Qed.
Print Assumptions C13_many_complete.

(** The specification admits one outcome. *)
Theorem C13_outcome_unique : forall St I U E (p : sparser St I U E) r s0 i res1,
  many_outcome r p s0 i res1 -> forall res2, many_outcome r p s0 i res2 -> res1 = res2.
Proof. exact @many_outcome_det. Qed.
Print Assumptions C13_outcome_unique.

(** The two ranges that admit no count but start at 0 behave as those admitting just 0. *)
Theorem C13_empty_ranges : forall St I U T E C fuel (col : collector U T C) s0 (p : sparser St I U E) i,
  bmany fuel col (RRange 0 0) s0 p i = bmany fuel col (RRange 0 1) s0 p i /\
  bmany fuel col (RTo 0) s0 p i = bmany fuel col (RTo 1) s0 p i.
Proof. intros. split; reflexivity. Qed.
Print Assumptions C13_empty_ranges.

(** A reversed range panics (the [assert!]). *)
Theorem C13_reversed_range : forall St I U T E C fuel (col : collector U T C) a b s0 (p : sparser St I U E) i,
  b < a -> bmany fuel col (RRange a b) s0 p i = Panic.
Proof. intros. cbn [bmany]. unfold parse_many_range. destruct (Nat.leb_spec a b); [lia|reflexivity]. Qed.
Print Assumptions C13_reversed_range.

(** [many1] is one application followed by [many]. *)
Theorem C13_many1_unrolls : forall St I U E fuel (p : sparser St I U E) s i,
  many1 (S (S fuel)) (vec_collector U) s p i =
  first_then p (fun s j => many (S fuel) (vec_collector U) s p j) s i.
Proof. exact @many1_unroll. Qed.
Print Assumptions C13_many1_unrolls.

(** The English claim is false for [a..a], [a > 0], which passes the [assert!]: at most [a - 1] applications are made although
    [a] are needed, so it can only fail or ask for more, even at the end of input. *)
Theorem C13_equal_bounds_never_succeed : forall St I U E (p : sparser St I U E) fuel a s0 i j us,
  0 < a -> bmany fuel (vec_collector U) (RRange a a) s0 p i <> Data j us.
Proof.
  intros St I U E p fuel a s0 i j us Ha H. destruct (bmany_tracing fuel (vec_collector U) (RRange a a) s0 p i).
  destruct (bmany fuel (tracing (vec_collector U)) (RRange a a) s0 p i) as [j' [t log]| | | |] eqn:Ht; try discriminate.
  apply bmany_log in Ht. destruct Ht as [H1 [H2 _]]. specialize (H2 _ eq_refl). cbn [min_count] in H1. lia.
Qed.
Print Assumptions C13_equal_bounds_never_succeed.

Example C13_case_nonempty : nonempty (RRange 2 4) /\ nonempty (RFrom 3) /\ nonempty RFull /\ nonempty (RTo 2) /\ nonempty (RExact 0).
Proof. repeat split; [exists 3|exists 5|exists 7|exists 1|exists 0]; simpl; lia. Qed.
Example C13_case_max : many_outcome (RRange 2 4) even_item tt (mkInput false [2; 4; 6; 8]) (Data (mkInput false [8]) [2; 4; 6]).
Proof.
  apply C13_many_sound with (fuel := 9); [exists 3; simpl; lia|reflexivity|discriminate].
Qed.
Example C13_case_few : many_outcome (RRange 2 4) even_item tt (mkInput false [2; 5]) (Error [5] Unexpected).
Proof. apply C13_many_sound with (fuel := 9); [exists 3; simpl; lia|reflexivity|discriminate]. Qed.
Example C13_case_stop : many_outcome (RFrom 2) even_item tt (mkInput true [2; 4]) (Data (mkInput true []) [2; 4]).
Proof. apply C13_many_sound with (fuel := 9); [exists 3; simpl; lia|reflexivity|discriminate]. Qed.
Example C13_case_incomplete : many_outcome (RFrom 2) even_item tt (mkInput false [2; 4]) (Incomplete 1).
Proof. apply C13_many_sound with (fuel := 9); [exists 3; simpl; lia|reflexivity|discriminate]. Qed.
Example C13_case_equal_bounds : bmany 9 (vec_collector nat) (RRange 2 2) tt even_item (mkInput true [2; 4; 6]) = Incomplete 1.
Proof. reflexivity. Qed.
(** A stateful closure: accepts strictly increasing items. *)
Example C13_case_stateful :
  bmany 9 (vec_collector nat) RFull 0
    (fun s i => match any i with Data j x => if s <? x then (Data j x, x) else (Error (buf i) tt, s) | Incomplete n => (Incomplete n, s)
                | _ => (Panic, s) end) (mkInput false [3; 5; 4]) = Data (mkInput false [4]) [3; 5].
Proof. reflexivity. Qed.

(** * C14: count *)
Theorem C14_count_sound : forall St I U E (p : sparser St I U E) fuel n s0 i j us,
  count fuel (vec_collector U) n s0 p i = Data j us ->
  length us = n /\ exists s, iterates p s0 i us s j.
Proof.
  intros St I U E p fuel n s0 i j us H. unfold count in H. apply bmany_sound in H; [|exists n; reflexivity|discriminate].
  inversion H; subst. split; [assumption|]. eexists; eassumption.
Qed.
Print Assumptions C14_count_sound.
(** Exactly [n] applications: what the parser would do on application [n] + 1 does not matter. *)
Theorem C14_count_complete : forall St I U E (p : sparser St I U E) n s0 i j us s,
  iterates p s0 i us s j -> length us = n ->
  exists f0, forall fuel, f0 <= fuel -> forall alt,
    count fuel (vec_collector U) n (0, s0) (limited n p alt) i = Data j us /\ count fuel (vec_collector U) n s0 p i = Data j us.
Proof.
  intros St I U E p n s0 i j us s Hit Hn.
  assert (Ho : many_outcome (RExact n) p s0 i (Data j us)).
  { eapply mo_data; [exact Hit|exact Hn|]. left. intros Hg. apply may_grow_exact in Hg. lia. }
  apply bmany_complete in Ho; [|exists n; reflexivity]. destruct Ho as [f0 H]. exists f0. intros fuel Hf alt. unfold count.
  rewrite bmany_limited; [split; apply H; assumption|]. right. exists n. split; [reflexivity|lia].
Qed.
Print Assumptions C14_count_complete.
Theorem C14_count_fails : forall St I U E (p : sparser St I U E) fuel n s0 i,
  (forall b e, count fuel (vec_collector U) n s0 p i = Error b e ->
     exists us s j, iterates p s0 i us s j /\ length us < n /\ fst (p s j) = Error b e) /\
  (forall k, count fuel (vec_collector U) n s0 p i = Incomplete k ->
     exists us s j, iterates p s0 i us s j /\ length us < n /\ fst (p s j) = Incomplete k).
Proof.
  intros St I U E p fuel n s0 i. split; intros; unfold count in H; apply bmany_sound in H; try (exists n; reflexivity); try discriminate;
  inversion H; subst; match goal with H : may_grow _ _ |- _ => apply may_grow_exact in H end; eauto 8.
Qed.
Print Assumptions C14_count_fails.
Example C14_case : iterates even_item tt (mkInput false [2; 4; 6]) [2; 4] tt (mkInput false [6]) /\
  count 9 (vec_collector nat) 2 tt even_item (mkInput false [2; 4; 6]) = Data (mkInput false [6]) [2; 4].
Proof. split; [|reflexivity]. eapply iterates_cons; [reflexivity|]. eapply iterates_cons; [reflexivity|]. apply iterates_nil. Qed.

(** * C15: no collection receives more than the maximum *)

(** [beyond m col alt] is [col] until it has received more than [m] items, and then anything.  Replacing [col] by it never shows. *)
Theorem C15_many_max : forall St I U T E C fuel (col : collector U T C) alt r m s0 (p : sparser St I U E) i,
  max_count r = Some m -> bmany fuel (beyond m col alt) r s0 p i = bmany fuel col r s0 p i.
Proof. exact @bmany_beyond. Qed.
Theorem C15_many_till_max : forall St SE I U V T E N C fuel (col : collector U T C) alt r m s0 e0
  (p : sparser St I U E) (end_ : sparser SE I V N) i,
  max_count r = Some m -> bmany_till fuel (beyond m col alt) r s0 e0 p end_ i = bmany_till fuel col r s0 e0 p end_ i.
Proof. exact @bmany_till_beyond. Qed.
(** On success any collection has received a number of items within the range
    (see [log_ok]); stated on the log of what it observed. *)
Theorem C15_many_log : forall St I U T E C fuel (col : collector U T C) r s0 (p : sparser St I U E) i j t log,
  bmany fuel (tracing col) r s0 p i = Data j (t, log) ->
  min_count r <= items log /\ (forall m, max_count r = Some m -> items log <= m).
Proof. intros. apply bmany_log in H. destruct H as [H1 [H2 _]]. split; assumption. Qed.
Theorem C15_many_till_log : forall St SE I U V T E N C fuel (col : collector U T C) r s0 e0
  (p : sparser St I U E) (end_ : sparser SE I V N) i j t log,
  bmany_till fuel (tracing col) r s0 e0 p end_ i = Data j (t, log) ->
  min_count r <= items log /\ (forall m, max_count r = Some m -> items log <= m).
Proof. intros. apply bmany_till_log in H. destruct H as [H1 [H2 _]]. split; assumption. Qed.
Print Assumptions C15_many_max.
Print Assumptions C15_many_till_max.
Print Assumptions C15_many_log.
Print Assumptions C15_many_till_log.
(** A collection that goes on calling [next()] after [None], five times in all. *)
Definition stubborn : collector nat (list nat) (nat * list nat) :=
  mkCollector (0, []) (fun c => if fst c =? 5 then CFinish (snd c)
    else CNext (fun o => (S (fst c), match o with Some u => snd c ++ [u] | None => snd c end))).
Example C15_case : max_count (RTo 3) = Some 2 /\
  bmany 9 (beyond 2 stubborn (fun _ => CPanic)) (RTo 3) tt even_item (mkInput false [2; 4; 6; 8]) = Data (mkInput false [6; 8]) [2; 4] /\
  bmany 9 (beyond 1 stubborn (fun _ => CPanic)) (RTo 3) tt even_item (mkInput false [2; 4; 6; 8]) = Panic.
Proof. repeat split. Qed.
Example C15_case_till : max_count (RRange 1 3) = Some 2 /\
  bmany_till 9 (beyond 2 (vec_collector nat) (fun _ => CPanic)) (RRange 1 3) tt tt even_item one_item (mkInput false [2; 4; 1; 8]) = Data (mkInput false [8]) [2; 4] /\
  bmany_till 9 (tracing (vec_collector nat)) (RRange 1 3) tt tt even_item one_item (mkInput false [2; 4; 1; 8]) = Data (mkInput false [8]) ([2; 4], [EvItem 2; EvItem 4; EvEnd]) /\
  bmany 9 (tracing (vec_collector nat)) (RRange 1 3) tt even_item (mkInput false [2; 4; 6; 8]) = Data (mkInput false [6; 8]) ([2; 4], [EvItem 2; EvItem 4; EvEnd]).
Proof. repeat split. Qed.

(** * C16: skip_many *)

(** In lock step with [many] into a [Vec] (which spends one unit of fuel more on finishing), except for the ranges [a..a], [a > 0],
    and for [n: usize] with a parser that can report [Incomplete(0)]: see [skip_agrees] and the two refutations. *)
(** Missing, because the code differs there: ranges [a..a], and [n: usize] with [Incomplete(0)] ([C16_equal_bounds_refuted], [C16_exact_incomplete0_refuted]). *)
Theorem C16_skip_is_many_partial : forall St I U E (p : sparser St I U E) r, skip_agrees r p -> forall fuel s0 i,
  (bskip_many fuel r s0 p i <> NoFuel ->
     map (fun _ => tt) (bmany (S fuel) (vec_collector U) r s0 p i) = bskip_many fuel r s0 p i) /\
  (bmany fuel (vec_collector U) r s0 p i <> NoFuel ->
     bskip_many fuel r s0 p i = map (fun _ => tt) (bmany fuel (vec_collector U) r s0 p i)).
Proof. exact @skip_many_lockstep. Qed.
Print Assumptions C16_skip_is_many_partial.
(** [skip_agrees] spelled out for the ranges users write most. *)
Theorem C16_skip_many_unbounded : forall St I U E (p : sparser St I U E) fuel s0 i,
  (many fuel (vec_collector U) s0 p i <> NoFuel -> skip_many fuel s0 p i = map (fun _ => tt) (many fuel (vec_collector U) s0 p i)) /\
  (many1 fuel (vec_collector U) s0 p i <> NoFuel -> skip_many1 fuel s0 p i = map (fun _ => tt) (many1 fuel (vec_collector U) s0 p i)).
Proof.
  intros. split; [apply (@skip_many_lockstep _ _ _ _ p RFull Logic.I)|apply (@skip_many_lockstep _ _ _ _ p (RFrom 1) Logic.I)].
Qed.
Print Assumptions C16_skip_many_unbounded.
(** src/combinators/bounded.rs:643: the shadowed [n]. *)
Theorem C16_exact_incomplete0_refuted : exists (p : sparser unit nat nat unit) i, forall fuel,
  bskip_many (S fuel) (RExact 3) tt p i = Data i tt /\
  bmany (S (S fuel)) (vec_collector nat) (RExact 3) tt p i = Incomplete 0.
Proof. exists (pure (incomplete 0)), (mkInput true [1; 2]). intros. split; reflexivity. Qed.
Print Assumptions C16_exact_incomplete0_refuted.
Theorem C16_equal_bounds_refuted : exists (p : sparser unit nat nat (error nat)) i, forall fuel,
  bskip_many (S fuel) (RRange 1 1) tt p i = Data i tt /\
  bmany (S (S fuel)) (vec_collector nat) (RRange 1 1) tt p i = Incomplete 1.
Proof. exists even_item, (mkInput true [2; 4]). intros. split; reflexivity. Qed.
Print Assumptions C16_equal_bounds_refuted.
Example C16_case : skip_agrees (RRange 1 3) even_item /\ skip_agrees (RExact 2) even_item /\
  bskip_many 9 (RRange 1 3) tt even_item (mkInput false [2; 4; 6]) = Data (mkInput false [6]) tt /\
  bskip_many 9 (RExact 2) tt even_item (mkInput false [2; 5; 6]) = Error [5; 6] Unexpected.
Proof.
  repeat split; try (simpl; lia). intros s i s'. unfold even_item, pure, satisfy.
  destruct (first (buf i)) as [c|]; [destruct (Nat.even c)|]; discriminate.
Qed.

(** * C17: sep_by, sep_by1 *)
Theorem C17_sep_by1 : forall SP SS I U V E N (conv : N -> E) (p : sparser SP I U E) (sep : sparser SS I V N) fuel sp ss i,
  sep_by1 (S (S fuel)) (vec_collector U) conv sp ss p sep i =
  first_then p (fun sp' j => many (S fuel) (vec_collector U) (sp', ss) (sep_then conv p sep) j) sp i.
Proof. exact @sep_by1_char. Qed.
Theorem C17_sep_by_is_option : forall SP SS I U V E N (conv : N -> E) (p : sparser SP I U E) (sep : sparser SS I V N) fuel sp ss i,
  keeps_mode p -> keeps_mode sep ->
  sep_by (S (S fuel)) (vec_collector U) conv sp ss p sep i =
  option_ (sep_by1 (S (S fuel)) (vec_collector U) conv sp ss p sep) [] i.
Proof. exact @sep_by_option. Qed.
(** Without the conditions on modes. *)
Theorem C17_sep_by : forall SP SS I U V E N (conv : N -> E) (p : sparser SP I U E) (sep : sparser SS I V N) fuel sp ss i,
  sep_by (S (S fuel)) (vec_collector U) conv sp ss p sep i =
  match fst (p sp i) with
  | Error _ _ => Data i []
  | Incomplete n => if last i then Data i [] else Incomplete n
  | _ => first_then p (fun sp' j => many (S fuel) (vec_collector U) (sp', ss) (sep_then conv p sep) j) sp i
  end.
Proof. intros. rewrite sep_by_char. match goal with |- context [first_then ?a ?b ?c ?d] => generalize (first_then a b c d) end. intros x.
  destruct (fst (p sp i)); destruct x; reflexivity. Qed.
(** A successful [sep_by1] stops where "[sep] then [p]" gives up: in front of a trailing separator. *)
Theorem C17_sep_by1_stops : forall SP SS I U V E N (conv : N -> E) (p : sparser SP I U E) (sep : sparser SS I V N) fuel sp ss i k us,
  sep_by1 fuel (vec_collector U) conv sp ss p sep i = Data k us ->
  exists u vs j sp' st, us = u :: vs /\ p sp i = (Data j u, sp') /\
    iterates (sep_then conv p sep) (sp', ss) j vs st k /\ gives_up (sep_then conv p sep) st k.
Proof.
  intros SP SS I U V E N conv p sep fuel sp ss i k us H.
  destruct fuel as [|[|fuel]]; [discriminate| |].
  - unfold sep_by1, bmany, parse_many_from, run_iter in H. cbn [from_iter cact vec_collector cinit] in H.
    destruct (iter_next _ _ _ _); discriminate.
  - rewrite sep_by1_char in H. unfold first_then in H. destruct (p sp i) as [[j u|b e|n| |] sp'] eqn:Hp; try discriminate.
    destruct (many _ _ _ _ _) as [k' vs| | | |] eqn:Hm; inversion H; subst. unfold many in Hm. apply bmany_sound in Hm; [|exists 0; exact Logic.I|discriminate].
    inversion Hm; subst. match goal with H : _ \/ _ |- _ => destruct H as [Hg|Hg]; [exfalso; apply Hg; apply may_grow_full|] end.
    exists u, vs, j, sp', s. auto.
Qed.
Print Assumptions C17_sep_by1.
Print Assumptions C17_sep_by_is_option.
Print Assumptions C17_sep_by.
Print Assumptions C17_sep_by1_stops.
Example C17_case : keeps_mode even_item /\ keeps_mode one_item /\
  sep_by1 9 (vec_collector nat) (fun e => e) tt tt even_item one_item (mkInput false [2; 1; 4; 1; 3]) = Data (mkInput false [1; 3]) [2; 4] /\
  sep_by 9 (vec_collector nat) (fun e => e) tt tt even_item one_item (mkInput false [1; 2]) = Data (mkInput false [1; 2]) [].
Proof.
  repeat split; intros s i j u s'; unfold even_item, one_item, pure, satisfy, token; destruct (first (buf i)) as [c|]; try discriminate;
    match goal with |- context [if ?x then _ else _] => destruct x end; intros H; inversion H; reflexivity.
Qed.

(** * C18: many_till *)

(** All ranges but [..b]. *)
(** Missing here: [..b], where the code panics if [end] succeeds before the maximum; its exact behaviour is [C18_many_till_to]. *)
Theorem C18_many_till_sound_partial : forall St I U V E N (p : sparser St I U E) (end_ : parser I V N) r fuel s0 i res,
  nonempty r -> (forall b, r <> RTo b) ->
  bmany_till fuel (vec_collector U) r s0 tt p (pure end_) i = res -> res <> NoFuel -> till_outcome r p end_ s0 i res.
Proof.
  intros St I U V E N p end_ r fuel s0 i res Hn Hr H Hf.
  destruct (proj1 (@bmany_till_char _ _ _ _ _ _ p end_ r Hn) _ _ _ _ H Hf) as (res' & Ho & ->).
  destruct r; try exact Ho. exfalso. eapply Hr. reflexivity.
Qed.
Theorem C18_many_till_complete_partial : forall St I U V E N (p : sparser St I U E) (end_ : parser I V N) r s0 i res,
  nonempty r -> (forall b, r <> RTo b) -> till_outcome r p end_ s0 i res ->
  exists f0, forall fuel, f0 <= fuel -> bmany_till fuel (vec_collector U) r s0 tt p (pure end_) i = res.
Proof.
  intros St I U V E N p end_ r s0 i res Hn Hr Ho.
  destruct (proj2 (@bmany_till_char _ _ _ _ _ _ p end_ r Hn) _ _ _ Ho) as [f0 H]. exists f0. intros fuel Hf. rewrite (H fuel Hf).
  destruct r; auto. exfalso. eapply Hr. reflexivity.
Qed.
(** [..b]: as specified, except that a success before the maximum was reached is a panic. *)
Theorem C18_many_till_to : forall St I U V E N (p : sparser St I U E) (end_ : parser I V N) b s0 i res,
  0 < b -> till_outcome (RTo b) p end_ s0 i res ->
  exists f0, forall fuel, f0 <= fuel -> bmany_till fuel (vec_collector U) (RTo b) s0 tt p (pure end_) i =
    match res with
    | Data k us => if S (length us) <? b then Panic else Data k us
    | _ => res
    end.
Proof.
  intros St I U V E N p end_ b s0 i res Hb Ho.
  destruct (proj2 (@bmany_till_char _ _ _ _ _ _ p end_ (RTo b) ltac:(exists 0; exact Hb)) _ _ _ Ho) as [f0 H].
  exists f0. intros fuel Hf. rewrite (H fuel Hf). destruct res; reflexivity.
Qed.
Theorem C18_many_till_to_sound : forall St I U V E N (p : sparser St I U E) (end_ : parser I V N) b fuel s0 i res,
  0 < b -> bmany_till fuel (vec_collector U) (RTo b) s0 tt p (pure end_) i = res -> res <> NoFuel ->
  till_outcome (RTo b) p end_ s0 i res \/
  (res = Panic /\ exists k us, till_outcome (RTo b) p end_ s0 i (Data k us) /\ S (length us) < b).
Proof.
  intros St I U V E N p end_ b fuel s0 i res Hb H Hf.
  destruct (proj1 (@bmany_till_char _ _ _ _ _ _ p end_ (RTo b) ltac:(exists 0; exact Hb)) _ _ _ _ H Hf) as (res' & Ho & ->).
  destruct res' as [k us|x e|n| |]; simpl in *; auto. destruct (Nat.ltb_spec (S (length us)) b); eauto 6.
Qed.
Theorem C18_outcome_unique : forall St I U V E N (p : sparser St I U E) (end_ : parser I V N) r s0 i res1 res2,
  till_outcome r p end_ s0 i res1 -> till_outcome r p end_ s0 i res2 -> res1 = res2.
Proof. exact @till_outcome_det. Qed.
Theorem C18_empty_ranges : forall St SE I U V T E N C fuel (col : collector U T C) s0 e0 (p : sparser St I U E) (end_ : sparser SE I V N) i,
  bmany_till fuel col (RRange 0 0) s0 e0 p end_ i = bmany_till fuel col (RRange 0 1) s0 e0 p end_ i /\
  bmany_till fuel col (RTo 0) s0 e0 p end_ i = bmany_till fuel col (RTo 1) s0 e0 p end_ i.
Proof. intros. split; reflexivity. Qed.
Print Assumptions C18_many_till_sound_partial.
Print Assumptions C18_many_till_complete_partial.
Print Assumptions C18_many_till_to.
Print Assumptions C18_many_till_to_sound.
Print Assumptions C18_outcome_unique.
Print Assumptions C18_empty_ranges.
Example C18_case_data : till_outcome (RRange 1 4) even_item (token true Nat.eqb 1) tt (mkInput false [2; 4; 1; 6]) (Data (mkInput false [6]) [2; 4]).
Proof. apply C18_many_till_sound_partial with (fuel := 9); [exists 2; simpl; lia|discriminate|reflexivity|discriminate]. Qed.
Example C18_case_error : till_outcome RFull even_item (token true Nat.eqb 1) tt (mkInput false [2; 3; 1]) (Error [3; 1] Unexpected).
Proof. apply C18_many_till_sound_partial with (fuel := 9); [exists 2; simpl; lia|discriminate|reflexivity|discriminate]. Qed.
(** The maximum reached and [end] failing there: [Incomplete(1)], even though no more input can come. *)
Example C18_case_exhausted : till_outcome (RExact 2) even_item (token true Nat.eqb 1) tt (mkInput true [2; 4; 6]) (Incomplete 1).
Proof. apply C18_many_till_sound_partial with (fuel := 9); [exists 2; simpl; lia|discriminate|reflexivity|discriminate]. Qed.
Example C18_case_to : till_outcome (RTo 3) even_item (token true Nat.eqb 1) tt (mkInput false [2; 4; 1; 6]) (Data (mkInput false [6]) [2; 4]).
Proof.
  destruct (C18_many_till_to_sound _ _ _ _ _ _ even_item (token true Nat.eqb 1) 3 9 tt (mkInput false [2; 4; 1; 6])
    (Data (mkInput false [6]) [2; 4])) as [H|[H _]]; try lia; auto; try discriminate.
Qed.

(** The same for an [end] with captured state. For [a..b] the code runs [end] twice at the maximum (src/combinators/bounded.rs:217-230), for all
    other ranges once at every point where stopping is permitted. *)
(** Missing here: [..b], see [C18_stateful_to]; and that [end] runs once, which is false at the maximum of [a..b] ([C18_once_refuted]). *)
Theorem C18_stateful_sound_partial : forall St SE I U V E N (p : sparser St I U E) (end_ : sparser SE I V N) r fuel s0 e0 i res,
  nonempty r -> (forall b, r <> RTo b) ->
  bmany_till fuel (vec_collector U) r s0 e0 p end_ i = res -> res <> NoFuel -> till_outcome_st r (twice_at_max r) p end_ s0 e0 i res.
Proof.
  intros St SE I U V E N p end_ r fuel s0 e0 i res Hn Hr H Hf.
  destruct (proj1 (@bmany_till_char_st _ _ _ _ _ _ _ p end_ r Hn) _ _ _ _ _ H Hf) as (res' & Ho & ->).
  destruct r; try exact Ho. exfalso. eapply Hr. reflexivity.
Qed.
Theorem C18_stateful_complete_partial : forall St SE I U V E N (p : sparser St I U E) (end_ : sparser SE I V N) r s0 e0 i res,
  nonempty r -> (forall b, r <> RTo b) -> till_outcome_st r (twice_at_max r) p end_ s0 e0 i res ->
  exists f0, forall fuel, f0 <= fuel -> bmany_till fuel (vec_collector U) r s0 e0 p end_ i = res.
Proof.
  intros St SE I U V E N p end_ r s0 e0 i res Hn Hr Ho.
  destruct (proj2 (@bmany_till_char_st _ _ _ _ _ _ _ p end_ r Hn) _ _ _ _ Ho) as [f0 H]. exists f0. intros fuel Hf. rewrite (H fuel Hf).
  destruct r; auto. exfalso. eapply Hr. reflexivity.
Qed.
Theorem C18_stateful_to : forall St SE I U V E N (p : sparser St I U E) (end_ : sparser SE I V N) b s0 e0 i res,
  0 < b -> till_outcome_st (RTo b) (once (RTo b)) p end_ s0 e0 i res ->
  exists f0, forall fuel, f0 <= fuel -> bmany_till fuel (vec_collector U) (RTo b) s0 e0 p end_ i =
    match res with
    | Data k us => if S (length us) <? b then Panic else Data k us
    | _ => res
    end.
Proof.
  intros St SE I U V E N p end_ b s0 e0 i res Hb Ho.
  destruct (proj2 (@bmany_till_char_st _ _ _ _ _ _ _ p end_ (RTo b) ltac:(exists 0; exact Hb)) _ _ _ _ Ho) as [f0 H].
  exists f0. intros fuel Hf. rewrite (H fuel Hf). destruct res; reflexivity.
Qed.
Theorem C18_stateful_to_sound : forall St SE I U V E N (p : sparser St I U E) (end_ : sparser SE I V N) b fuel s0 e0 i res,
  0 < b -> bmany_till fuel (vec_collector U) (RTo b) s0 e0 p end_ i = res -> res <> NoFuel ->
  till_outcome_st (RTo b) (once (RTo b)) p end_ s0 e0 i res \/
  (res = Panic /\ exists k us, till_outcome_st (RTo b) (once (RTo b)) p end_ s0 e0 i (Data k us) /\ S (length us) < b).
Proof.
  intros St SE I U V E N p end_ b fuel s0 e0 i res Hb H Hf.
  destruct (proj1 (@bmany_till_char_st _ _ _ _ _ _ _ p end_ (RTo b) ltac:(exists 0; exact Hb)) _ _ _ _ _ H Hf) as (res' & Ho & ->).
  destruct res' as [k us|x e|n| |]; simpl in *; auto. destruct (Nat.ltb_spec (S (length us)) b); eauto 6.
Qed.
(** The second run at the maximum of [a..b] changes nothing if an [end] that has failed goes on failing when run again at the same place;
    and the other ranges have no second run. *)
Theorem C18_stateful_once : forall St SE I U V E N (p : sparser St I U E) (end_ : sparser SE I V N) r s0 e0 i res,
  (forall a b, r = RRange a b -> steady end_) ->
  (till_outcome_st r (twice_at_max r) p end_ s0 e0 i res <-> till_outcome_st r (once r) p end_ s0 e0 i res).
Proof.
  intros St SE I U V E N p end_ r s0 e0 i res Hr.
  destruct r as [a b|a| |b|n]; try reflexivity.
  split; [apply outcome_twice_once|apply outcome_once_twice]; eapply Hr; reflexivity.
Qed.
Theorem C18_stateful_unique : forall St SE I U V E N (p : sparser St I U E) (end_ : sparser SE I V N) r s0 e0 i res1 res2,
  till_outcome_st r (twice_at_max r) p end_ s0 e0 i res1 -> till_outcome_st r (twice_at_max r) p end_ s0 e0 i res2 -> res1 = res2.
Proof. exact @till_outcome_st_det. Qed.
Print Assumptions C18_stateful_sound_partial.
Print Assumptions C18_stateful_complete_partial.
Print Assumptions C18_stateful_to.
Print Assumptions C18_stateful_to_sound.
Print Assumptions C18_stateful_once.
Print Assumptions C18_stateful_unique.
(** [end] counts its runs and succeeds at the third. *)
Definition third_run : sparser nat nat unit (error nat) :=
  fun n i => if n =? 2 then (Data i tt, S n) else (Error (buf i) Unexpected, S n).
Example C18_case_stateful : till_outcome_st RFull (once RFull) even_item third_run tt 0 (mkInput false [2; 4; 6; 8]) (Data (mkInput false [6; 8]) [2; 4]).
Proof. apply (C18_stateful_sound_partial _ _ _ _ _ _ _ even_item third_run RFull 9); [exists 2; simpl; lia|discriminate|reflexivity|discriminate]. Qed.
(** Hence "[end] is tried once before every item" is false for [a..b]: with [0..2] [third_run] is run once after no item, and twice after one,
    so that the result has one item; had it been tried once, the result would be [Incomplete(1)]. *)
Theorem C18_once_refuted : exists (end_ : sparser nat nat unit (error nat)) i, forall fuel,
  ~ till_outcome_st (RRange 0 2) (once (RRange 0 2)) even_item end_ tt 0 i
      (bmany_till (S (S (S fuel))) (vec_collector nat) (RRange 0 2) tt 0 even_item end_ i).
Proof.
  exists third_run, (mkInput true [2; 4; 6]). intros fuel.
  change (bmany_till (S (S (S fuel))) (vec_collector nat) (RRange 0 2) tt 0 even_item third_run (mkInput true [2; 4; 6])) with
    (Data (mkInput true [4; 6]) [2] : pres nat (list nat) (error nat)).
  intros H. inversion H as [us s e j m e1 e2 k v Hi Hr Hm Hf Hd Hk| | | | |]; subst.
  cbn in Hm. assert (m = 0) by lia. subst m. inversion Hf; subst. clear Hf.
  inversion Hi as [|? ? ? ? ? s1 e3 i1 ? ? ? ? Hf1 Hp1 Hi1]; subst. inversion Hi1; subst.
  cbn in Hf1. inversion Hf1 as [|? ? ? ? Hx Hy]; subst. inversion Hy; subst. cbn in Hx.
  destruct Hx as [(b & x & Hx)|(n & Hx)]; inversion Hx; subst. cbn in Hd. discriminate.
Qed.
Print Assumptions C18_once_refuted.
Example C18_case_steady : steady (fun (n : nat) i => (Error (buf i) n, S n) : pres nat unit nat * nat).
Proof. intros i e e1 H. eexists. econstructor; [left; eauto|constructor]. Qed.

(** * C19: panics *)
(** Missing, because the code does panic there: [..b] and [a..a] ([C19_to_refuted], [C19_equal_bounds_refuted]). *)
Theorem C19_no_panic_partial : forall St SE I U V E N (p : sparser St I U E) (end_ : sparser SE I V N) r fuel s0 e0 i,
  (forall s i s', p s i <> (Panic, s')) -> (forall e i e', end_ e i <> (Panic, e')) ->
  match r with RRange a b => a < b \/ b = 0 /\ a = 0 | RTo _ => False | _ => True end ->
  bmany_till fuel (vec_collector U) r s0 e0 p end_ i <> Panic.
Proof.
  intros St SE I U V E N p end_ r fuel s0 e0 i Hp He Hr.
  assert (Hgen : forall r, nonempty r -> (forall b, r <> RTo b) -> bmany_till fuel (vec_collector U) r s0 e0 p end_ i <> Panic).
  { clear r Hr. intros r Hn Ht H. apply C18_stateful_sound_partial in H; auto; [|discriminate]. inversion H; subst.
    - destruct (p s j) as [x y] eqn:Hpj. simpl in *. subst. eapply Hp; eauto.
    - destruct (end_ e1 j) as [x y] eqn:Hpj. simpl in *. subst. eapply He; eauto. }
  destruct r as [a b|a| |b|n].
  - destruct Hr as [Hr|[-> ->]].
    + apply Hgen; [exists a; simpl; lia|discriminate].
    + rewrite (proj1 (C18_empty_ranges _ _ _ _ _ _ _ _ _ fuel (vec_collector U) s0 e0 p end_ i)).
      apply Hgen; [exists 0; simpl; lia|discriminate].
  - apply Hgen; [exists a; simpl; lia|discriminate].
  - apply Hgen; [exists 0; exact Logic.I|discriminate].
  - contradiction.
  - apply Hgen; [exists n; reflexivity|discriminate].
Qed.
Print Assumptions C19_no_panic_partial.
(** [..b] panics exactly when [end] succeeds before the maximum is reached. *)
Theorem C19_to_panics_iff : forall St SE I U V E N (p : sparser St I U E) (end_ : sparser SE I V N) b s0 e0 i,
  0 < b -> (forall s i s', p s i <> (Panic, s')) -> (forall e i e', end_ e i <> (Panic, e')) ->
  ((exists fuel, bmany_till fuel (vec_collector U) (RTo b) s0 e0 p end_ i = Panic) <->
   (exists k us, till_outcome_st (RTo b) (once (RTo b)) p end_ s0 e0 i (Data k us) /\ S (length us) < b)).
Proof.
  intros St SE I U V E N p end_ b s0 e0 i Hb Hp He. split.
  - intros [fuel H]. apply C18_stateful_to_sound in H; auto; [|discriminate]. destruct H as [H|[_ H]]; auto.
    exfalso. inversion H; subst.
    + destruct (p s j) as [x y] eqn:Hpj. simpl in *. subst. eapply Hp; eauto.
    + destruct (end_ e1 j) as [x y] eqn:Hpj. simpl in *. subst. eapply He; eauto.
  - intros (k & us & Ho & Hl). apply C18_stateful_to in Ho; auto. destruct Ho as [f0 H]. exists f0. rewrite (H f0 (le_n _)).
    destruct (Nat.ltb_spec (S (length us)) b); [reflexivity|lia].
Qed.
Print Assumptions C19_to_panics_iff.
(** src/combinators/bounded.rs:533-578: [many_till(..3, any, token(1))] on "1" panics although no parser does. *)
Theorem C19_to_refuted : exists i, forall fuel,
  bmany_till (S (S fuel)) (vec_collector nat) (RTo 3) tt tt even_item (pure (token true Nat.eqb 1)) i = Panic.
Proof. exists (mkInput true [1]). intros. reflexivity. Qed.
(** src/combinators/bounded.rs:194-248: [many_till(1..1, ...)] passes the assertion and panics. *)
Theorem C19_equal_bounds_refuted : exists i, forall fuel,
  bmany_till (S (S fuel)) (vec_collector nat) (RRange 1 1) tt tt even_item (pure (token true Nat.eqb 1)) i = Panic.
Proof. exists (mkInput true [1]). intros. reflexivity. Qed.
Print Assumptions C19_to_refuted.
Print Assumptions C19_equal_bounds_refuted.
Example C19_case : (forall s i s', even_item s i <> (Panic, s')) /\ (forall e i e', one_item e i <> (Panic, e')).
Proof.
  split; [intros s i s'|intros s i s']; unfold even_item, one_item, pure, satisfy, token; destruct (first (buf i)) as [c|]; try discriminate;
    match goal with |- context [if ?x then _ else _] => destruct x end; discriminate.
Qed.

(** * C20: termination *)
Theorem C20_consuming_terminates : forall St I U E (p : sparser St I U E), returns p -> consuming p -> forall r fuel s0 i,
  length (buf i) + 2 <= fuel -> bmany fuel (vec_collector U) r s0 p i <> NoFuel.
Proof. exact @bmany_terminates. Qed.
Theorem C20_bounded_terminates : forall St I U E (p : sparser St I U E), returns p -> forall r m fuel s0 i,
  max_count r = Some m -> m + 2 <= fuel -> bmany fuel (vec_collector U) r s0 p i <> NoFuel.
Proof. exact @bmany_bounded_terminates. Qed.
Theorem C20_skip_terminates : forall St I U E (p : sparser St I U E), returns p -> consuming p -> forall r fuel s0 i,
  length (buf i) + 2 <= fuel -> bskip_many fuel r s0 p i <> NoFuel.
Proof. exact @bskip_consuming_terminates. Qed.
Theorem C20_skip_bounded_terminates : forall St I U E (p : sparser St I U E), returns p -> forall r m fuel s0 i,
  max_count r = Some m -> m + 2 <= fuel -> bskip_many fuel r s0 p i <> NoFuel.
Proof. exact @bskip_bounded_terminates. Qed.
Theorem C20_sep_terminates : forall SP SS I U V E N (conv : N -> E) (p : sparser SP I U E) (sep : sparser SS I V N),
  consuming p -> shrinking sep -> returns p -> returns sep -> forall fuel sp ss i, length (buf i) + 2 <= fuel ->
  sep_by fuel (vec_collector U) conv sp ss p sep i <> NoFuel /\ sep_by1 fuel (vec_collector U) conv sp ss p sep i <> NoFuel.
Proof. exact @sep_terminates. Qed.
Theorem C20_till_terminates : forall St I U E (p : sparser St I U E), returns p -> forall SE V N (end_ : sparser SE I V N), returns end_ ->
  consuming p -> forall r fuel s0 e0 i, length (buf i) + 2 <= fuel -> bmany_till fuel (vec_collector U) r s0 e0 p end_ i <> NoFuel.
Proof. exact @bmany_till_terminates. Qed.
Theorem C20_till_bounded_terminates : forall St I U E (p : sparser St I U E), returns p -> forall SE V N (end_ : sparser SE I V N), returns end_ ->
  forall r m fuel s0 e0 i, max_count r = Some m -> m + 2 <= fuel -> bmany_till fuel (vec_collector U) r s0 e0 p end_ i <> NoFuel.
Proof. exact @bmany_till_bounded_terminates. Qed.
(** The parser is applied at most length + 1 times if it consumes, and at most max times for a bounded range: what it would do on a
    further application does not matter. *)
Theorem C20_applications : forall St I U E (p : sparser St I U E) k alt r fuel s0 i,
  (consuming p /\ length (buf i) + 1 <= k) \/ (exists m, max_count r = Some m /\ m <= k) ->
  bmany fuel (vec_collector U) r (0, s0) (limited k p alt) i = bmany fuel (vec_collector U) r s0 p i.
Proof. exact @bmany_limited. Qed.
Theorem C20_applications_skip : forall St I U E (p : sparser St I U E) k alt r fuel s0 i,
  (consuming p /\ length (buf i) + 1 <= k) \/ (exists m, max_count r = Some m /\ m <= k) ->
  bskip_many fuel r (0, s0) (limited k p alt) i = bskip_many fuel r s0 p i.
Proof. exact @bskip_limited. Qed.
(** In [many_till] the end parser is applied once more than that, and once again at the maximum of [a..b]. *)
Theorem C20_applications_till : forall St SE I U V E N (p : sparser St I U E) (end_ : sparser SE I V N) k ke alt alte r fuel s0 e0 i,
  (consuming p /\ length (buf i) + 1 <= k /\ length (buf i) + 2 <= ke) \/
  (exists m, max_count r = Some m /\ m <= k /\ m + 2 <= ke) ->
  bmany_till fuel (vec_collector U) r (0, s0) (0, e0) (limited k p alt) (limited ke end_ alte) i =
  bmany_till fuel (vec_collector U) r s0 e0 p end_ i.
Proof. exact @bmany_till_limited. Qed.
(** [sep_by]: the separator runs once less than the parser may. *)
Theorem C20_applications_sep : forall SP SS I U V E N (conv : N -> E) (p : sparser SP I U E) (sep : sparser SS I V N) k ks alt alts fuel sp ss i,
  consuming p -> shrinking sep -> length (buf i) + 1 <= k -> length (buf i) <= ks ->
  sep_by fuel (vec_collector U) conv (0, sp) (0, ss) (limited k p alt) (limited ks sep alts) i =
    sep_by fuel (vec_collector U) conv sp ss p sep i /\
  sep_by1 fuel (vec_collector U) conv (0, sp) (0, ss) (limited k p alt) (limited ks sep alts) i =
    sep_by1 fuel (vec_collector U) conv sp ss p sep i.
Proof. intros. split; apply sep_many_limited; assumption. Qed.
(** More fuel never changes an answer, for any collection. *)
Theorem C20_fuel : forall St I U T E C fuel fuel' (col : collector U T C) r s0 (p : sparser St I U E) i,
  bmany fuel col r s0 p i <> NoFuel -> fuel <= fuel' -> bmany fuel' col r s0 p i = bmany fuel col r s0 p i.
Proof. exact @bmany_mono. Qed.
Theorem C20_fuel_till : forall St SE I U V T E N C fuel fuel' (col : collector U T C) r s0 e0 (p : sparser St I U E) (end_ : sparser SE I V N) i,
  bmany_till fuel col r s0 e0 p end_ i <> NoFuel -> fuel <= fuel' ->
  bmany_till fuel' col r s0 e0 p end_ i = bmany_till fuel col r s0 e0 p end_ i.
Proof. exact @bmany_till_mono. Qed.
Theorem C20_fuel_skip : forall St I T E fuel fuel' r s0 (p : sparser St I T E) i,
  bskip_many fuel r s0 p i <> NoFuel -> fuel <= fuel' -> bskip_many fuel' r s0 p i = bskip_many fuel r s0 p i.
Proof. exact @bskip_mono. Qed.
(** Unbounded iteration of a parser that can go on for ever never returns. *)
Theorem C20_endless : forall St I U E (p : sparser St I U E) s0 i r fuel, max_count r = None -> endless p s0 i ->
  bmany fuel (vec_collector U) r s0 p i = NoFuel /\ bskip_many fuel r s0 p i = NoFuel.
Proof. intros. split; [apply bmany_endless|apply bskip_endless]; assumption. Qed.
Theorem C20_endless_till : forall St I U V E N (p : sparser St I U E) (end_ : parser I V N) s0 i r fuel,
  max_count r = None -> endless_till p end_ s0 i ->
  bmany_till fuel (vec_collector U) r s0 tt p (pure end_) i = NoFuel.
Proof. exact @bmany_till_endless. Qed.
(** In particular a pure parser that succeeds without consuming. *)
Theorem C20_not_consuming : forall I U E (p : parser I U E) i u fuel r, max_count r = None -> p i = Data i u ->
  bmany fuel (vec_collector U) r tt (pure p) i = NoFuel.
Proof.
  intros. apply bmany_endless; auto. exists (fun _ j => j = i). split; auto. intros s j ->. exists i, u, tt.
  unfold pure. rewrite H0. auto.
Qed.
(** The lists with separators: the first item parses, and from there separator and item succeed for ever. *)
Theorem C20_endless_sep : forall SP SS I U V E N (conv : N -> E) (p : sparser SP I U E) (sep : sparser SS I V N) sp ss i j u sp' fuel,
  p sp i = (Data j u, sp') -> endless (sep_then conv p sep) (sp', ss) j ->
  sep_by fuel (vec_collector U) conv sp ss p sep i = NoFuel /\ sep_by1 fuel (vec_collector U) conv sp ss p sep i = NoFuel.
Proof.
  intros SP SS I U V E N conv p sep sp ss i j u sp' fuel Hp (P & HP & Hs).
  assert (He : endless (sep_item conv p sep) (false, sp, ss) i).
  { exists (fun st k => (st = (false, sp, ss) /\ k = i) \/ exists a b, st = (true, a, b) /\ P (a, b) k). split; [left; auto|].
    intros st k [[-> ->]|(a & b & -> & Hk)].
    - exists j, u, (true, sp', ss). split; [|right; exists sp', ss; auto].
      unfold sep_item, ret. simpl. rewrite Hp. reflexivity.
    - destruct (Hs _ _ Hk) as (k' & u' & st' & Hq & Hk'). unfold sep_then in Hq. simpl in Hq.
      destruct (sep b k) as [[m v|b0 x|n0| |] ss'] eqn:Hb; try discriminate.
      destruct (p a m) as [r sp1] eqn:Ha. simpl in Hq. injection Hq as -> <-.
      exists k', u', (true, sp1, ss'). split; [|right; exists sp1, ss'; auto].
      unfold sep_item. rewrite Hb. simpl. rewrite Ha. reflexivity. }
  unfold sep_by, sep_by1. split; apply bmany_endless; auto.
Qed.
Print Assumptions C20_consuming_terminates.
Print Assumptions C20_bounded_terminates.
Print Assumptions C20_skip_terminates.
Print Assumptions C20_sep_terminates.
Print Assumptions C20_till_terminates.
Print Assumptions C20_till_bounded_terminates.
Print Assumptions C20_skip_bounded_terminates.
Print Assumptions C20_applications.
Print Assumptions C20_applications_skip.
Print Assumptions C20_applications_till.
Print Assumptions C20_applications_sep.
Print Assumptions C20_fuel.
Print Assumptions C20_fuel_till.
Print Assumptions C20_fuel_skip.
Print Assumptions C20_endless.
Print Assumptions C20_endless_till.
Print Assumptions C20_endless_sep.
Print Assumptions C20_not_consuming.
Example C20_case_consuming : returns even_item /\ consuming even_item /\ shrinking one_item.
Proof.
  repeat split; intros s [l b]; intros; unfold even_item, one_item, pure, satisfy, token in *; destruct b as [|c b]; simpl in *; try discriminate;
    repeat match goal with H : context [if ?x then _ else _] |- _ => destruct x | |- context [if ?x then _ else _] => destruct x end;
    try discriminate; try (inversion H; subst; simpl; lia).
Qed.
Example C20_case_not_consuming : option_ (token true Nat.eqb 1) 7 (mkInput true [2]) = Data (mkInput true [2]) 7.
Proof. reflexivity. Qed.
Example C20_case_endless_till : endless (pure (option_ (token true Nat.eqb 1) 7)) tt (mkInput true [2]) /\
  endless_till (pure (option_ (token true Nat.eqb 1) 7)) (token true Nat.eqb 3) tt (mkInput true [2]).
Proof.
  split; exists (fun _ k => k = mkInput true [2]); (split; [reflexivity|]); intros [] k ->.
  - exists (mkInput true [2]), 7, tt. split; reflexivity.
  - split; [exists (mkInput true [2]), 7, tt; split; reflexivity|]. left. eexists. eexists. reflexivity.
Qed.
Example C20_case_endless_sep : pure (option_ (token true Nat.eqb 1) 7) tt (mkInput true [2]) = (Data (mkInput true [2]) 7, tt) /\
  endless (sep_then (fun e : error nat => e) (pure (option_ (token true Nat.eqb 1) 7)) (pure (option_ (token true Nat.eqb 3) 0))) (tt, tt) (mkInput true [2]).
Proof.
  split; [reflexivity|]. exists (fun _ k => k = mkInput true [2]). split; auto. intros [[] []] k ->.
  exists (mkInput true [2]), 7, (tt, tt). split; reflexivity.
Qed.
(** The bounds on applications are tight: one less shows. *)
Example C20_case_tight : bmany 9 (vec_collector nat) RFull (0, tt) (limited 2 even_item (fun _ _ => Panic)) (mkInput true [2; 4]) = Panic /\
  bmany 9 (vec_collector nat) RFull (0, tt) (limited 3 even_item (fun _ _ => Panic)) (mkInput true [2; 4]) = Data (mkInput true []) [2; 4].
Proof. split; reflexivity. Qed.
Example C20_case_tight_skip : bskip_many 9 RFull (0, tt) (limited 2 even_item (fun _ _ => Panic)) (mkInput true [2; 4]) = Panic /\
  bskip_many 9 RFull (0, tt) (limited 3 even_item (fun _ _ => Panic)) (mkInput true [2; 4]) = Data (mkInput true []) tt.
Proof. split; reflexivity. Qed.
Example C20_case_tight_till :
  bmany_till 9 (vec_collector nat) RFull (0, tt) (0, tt) (limited 2 even_item (fun _ _ => Panic)) (limited 4 one_item (fun _ _ => Panic))
    (mkInput true [2; 4]) = Panic /\
  bmany_till 9 (vec_collector nat) RFull (0, tt) (0, tt) (limited 3 even_item (fun _ _ => Panic)) (limited 4 one_item (fun _ _ => Panic))
    (mkInput true [2; 4]) = Incomplete 1 /\
  bmany_till 9 (vec_collector nat) (RRange 0 3) (0, tt) (0, tt) (limited 2 even_item (fun _ _ => Panic)) (limited 3 one_item (fun _ _ => Panic))
    (mkInput true [2; 4]) = Panic /\
  bmany_till 9 (vec_collector nat) (RRange 0 3) (0, tt) (0, tt) (limited 2 even_item (fun _ _ => Panic)) (limited 4 one_item (fun _ _ => Panic))
    (mkInput true [2; 4]) = Incomplete 1.
Proof. repeat split; reflexivity. Qed.
Example C20_case_tight_sep :
  sep_by 9 (vec_collector nat) (fun e => e) (0, tt) (0, tt) (limited 1 even_item (fun _ _ => Panic)) (limited 3 one_item (fun _ _ => Panic))
    (mkInput true [2; 1; 4]) = Panic /\
  sep_by 9 (vec_collector nat) (fun e => e) (0, tt) (0, tt) (limited 4 even_item (fun _ _ => Panic)) (limited 1 one_item (fun _ _ => Panic))
    (mkInput true [2; 1; 4]) = Panic /\
  sep_by 9 (vec_collector nat) (fun e => e) (0, tt) (0, tt) (limited 4 even_item (fun _ _ => Panic)) (limited 3 one_item (fun _ _ => Panic))
    (mkInput true [2; 1; 4]) = Data (mkInput true []) [2; 4].
Proof. repeat split; reflexivity. Qed.

(** * C21: size_hint *)

(** [overrun col alt] is [col] until it receives more items than the upper bound of some earlier hint promised, and then anything. *)
Theorem C21_upper_many : forall St I U T E C fuel (col : collector U T C) alt r s0 (p : sparser St I U E) i,
  bmany fuel (overrun col alt) r s0 p i = bmany fuel col r s0 p i.
Proof. exact @bmany_overrun. Qed.
Theorem C21_upper_many_till : forall St SE I U V T E N C fuel (col : collector U T C) alt r s0 e0
  (p : sparser St I U E) (end_ : sparser SE I V N) i,
  bmany_till fuel (overrun col alt) r s0 e0 p end_ i = bmany_till fuel col r s0 e0 p end_ i.
Proof. exact @bmany_till_overrun. Qed.
(** Both bounds, for every hint given in an iteration that ends in success. *)
(** Missing: the lower bound in iterations that do not succeed, where it is false ([C21_lower_refuted]). *)
Theorem C21_success_many_partial : forall St I U T E C fuel (col : collector U T C) r s0 (p : sparser St I U E) i j t log,
  bmany fuel (tracing col) r s0 p i = Data j (t, log) ->
  forall l1 lo hi l2, log = l1 ++ EvHint lo hi :: l2 -> lo <= items l2 /\ (forall h, hi = Some h -> items l2 <= h).
Proof. intros. apply bmany_log in H. destruct H as [_ [_ H]]. eapply H; eauto. Qed.
Theorem C21_success_many_till_partial : forall St SE I U V T E N C fuel (col : collector U T C) r s0 e0
  (p : sparser St I U E) (end_ : sparser SE I V N) i j t log,
  bmany_till fuel (tracing col) r s0 e0 p end_ i = Data j (t, log) ->
  forall l1 lo hi l2, log = l1 ++ EvHint lo hi :: l2 -> lo <= items l2 /\ (forall h, hi = Some h -> items l2 <= h).
Proof. intros. apply bmany_till_log in H. destruct H as [_ [_ H]]. eapply H; eauto. Qed.
(** Tracing is transparent. *)
Theorem C21_tracing : forall St I U T E C fuel (col : collector U T C) r s0 (p : sparser St I U E) i,
  map fst (bmany fuel (tracing col) r s0 p i) = bmany fuel col r s0 p i.
Proof. exact @bmany_tracing. Qed.
Theorem C21_tracing_till : forall St SE I U V T E N C fuel (col : collector U T C) r s0 e0 (p : sparser St I U E) (end_ : sparser SE I V N) i,
  map fst (bmany_till fuel (tracing col) r s0 e0 p end_ i) = bmany_till fuel col r s0 e0 p end_ i.
Proof. exact @bmany_till_tracing. Qed.
(** The lower bound is wrong when the iteration fails: the minimum asked for is promised before it has been parsed.  With std's [Vec], which
    allocates for the promise, [many(n.., any)] on a single item is an allocation of [n] slots: a panic once [n] exceeds what can be
    allocated, where the answer should be [Incomplete(1)]. *)
Theorem C21_lower_refuted : forall cap_max x fuel,
  bmany (4 + fuel) (vec_reserving nat cap_max) (RFrom (cap_max + 2)) tt (pure (@any nat)) (mkInput true [x]) = Panic /\
  bmany (4 + fuel) (vec_collector nat) (RFrom (cap_max + 2)) tt (pure (@any nat)) (mkInput true [x]) = Incomplete 1.
Proof.
  intros cap_max x fuel. cbn [bmany]. unfold parse_many_from, run_iter.
  cbn [Nat.add from_iter vec_reserving vec_collector cact cinit iter_next it_data it_ps it_buf it_state pure any buf first skipn replace ret fst snd].
  unfold dec0. destruct (Nat.eqb_spec (cap_max + 2) 0); [lia|].
  destruct (Nat.leb_spec (cap_max + 2 - 1 + 1) cap_max); [lia|]. split; [reflexivity|].
  cbn. destruct (cap_max + 2 - 1) eqn:Hc; [lia|]. reflexivity.
Qed.
Print Assumptions C21_upper_many.
Print Assumptions C21_upper_many_till.
Print Assumptions C21_success_many_partial.
Print Assumptions C21_success_many_till_partial.
Print Assumptions C21_tracing.
Print Assumptions C21_tracing_till.
Print Assumptions C21_lower_refuted.
Example C21_case : bmany 9 (tracing (vec_reserving nat 5)) (RRange 2 4) tt even_item (mkInput false [2; 4; 5]) =
  Data (mkInput false [5]) ([2; 4], [EvItem 2; EvHint 1 (Some 2); EvItem 4; EvEnd]).
Proof. reflexivity. Qed.
Example C21_case_till : bmany_till 9 (tracing (vec_reserving nat 5)) (RRange 2 4) tt tt even_item one_item (mkInput false [2; 4; 1; 5]) =
  Data (mkInput false [5]) ([2; 4], [EvItem 2; EvHint 1 (Some 2); EvItem 4; EvEnd]).
Proof. reflexivity. Qed.
