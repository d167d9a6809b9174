(** Property theorems C52: collections other than [Vec]. *)
From Coq Require Import List Bool Arith Lia.
From Verif Require Import Base Parsers Combinators SpecBase SpecIter SpecCollect SpecGather SpecSep
  IterProofs ManyProofs SkipProofs TermProofs GatherProofs.
Import ListNotations.

(** [many] into a collection that takes whatever there is gives what the specification of C13 says, [g] being applied to the items.  If
    the collection calls [next()] after the end, then for parsers that do not change their captured state when failing. *)
(** Missing in the four theorems: collections that stop early or go on after the end; there the claim is false ([C52_early_refuted], [C52_early_till_refuted], [C52_restless_till_refuted]). *)
Theorem C52_many_partial : forall St I U T E C (p : sparser St I U E) (col : collector U T C) again g r s0 i res,
  gathering again col g -> (again = true -> quiet p) -> nonempty r ->
  (gives (fun fuel => bmany fuel col r s0 p i) res <-> exists res0, many_outcome r p s0 i res0 /\ res = map g res0).
Proof.
  intros St I U T E C p col again g r s0 i res Hg Hq Hne. rewrite (bmany_gives (p := p) Hg r s0 i res Hq). split.
  - intros (res0 & (Hn & fuel & Hf) & ->). exists res0. split; auto. eapply bmany_sound; eauto.
  - intros (res0 & Ho & ->). exists res0. split; auto. destruct (bmany_complete Hne Ho) as (f0 & Hf). split.
    + destruct Ho; discriminate.
    + exists f0. apply Hf. auto.
Qed.
Print Assumptions C52_many_partial.

(** In any range, as into a [Vec]; hence all of C13, C14, C16, C17 applies. *)
Theorem C52_as_vec_partial : forall St I U T E C (p : sparser St I U E) (col : collector U T C) again g,
  gathering again col g -> (again = true -> quiet p) -> forall s0 i res,
  (forall r, gives (fun fuel => bmany fuel col r s0 p i) res <->
     exists res0, gives (fun fuel => bmany fuel (vec_collector U) r s0 p i) res0 /\ res = map g res0) /\
  (gives (fun fuel => many fuel col s0 p i) res <->
     exists res0, gives (fun fuel => many fuel (vec_collector U) s0 p i) res0 /\ res = map g res0) /\
  (gives (fun fuel => many1 fuel col s0 p i) res <->
     exists res0, gives (fun fuel => many1 fuel (vec_collector U) s0 p i) res0 /\ res = map g res0) /\
  (forall n, gives (fun fuel => count fuel col n s0 p i) res <->
     exists res0, gives (fun fuel => count fuel (vec_collector U) n s0 p i) res0 /\ res = map g res0).
Proof.
  intros St I U T E C p col again g Hg Hq s0 i res.
  split; [|split; [|split]]; intros; apply (bmany_gives (p := p) Hg); exact Hq.
Qed.
Print Assumptions C52_as_vec_partial.
Theorem C52_sep_partial : forall SP SS I U V T E N C (conv : N -> E) (p : sparser SP I U E) (sep : sparser SS I V N) (col : collector U T C) again g,
  gathering again col g -> (again = true -> quiet p /\ forall ss i, snd (sep ss i) = ss) -> forall sp ss i res,
  (gives (fun fuel => sep_by fuel col conv sp ss p sep i) res <->
     exists res0, gives (fun fuel => sep_by fuel (vec_collector U) conv sp ss p sep i) res0 /\ res = map g res0) /\
  (gives (fun fuel => sep_by1 fuel col conv sp ss p sep i) res <->
     exists res0, gives (fun fuel => sep_by1 fuel (vec_collector U) conv sp ss p sep i) res0 /\ res = map g res0).
Proof.
  intros SP SS I U V T E N C conv p sep col again g Hg Hq sp ss i res.
  split; apply (bmany_gives (p := sep_item conv p sep) Hg); intros Hag; destruct (Hq Hag); apply sep_item_quiet; auto.
Qed.
Print Assumptions C52_sep_partial.

(** [many_till], for collections that do not call [next()] after the end. *)
Theorem C52_till_partial : forall St SE I U V T E N C (p : sparser St I U E) (end_ : sparser SE I V N) (col : collector U T C) g,
  gathering false col g -> forall r s0 e0 i res,
  gives (fun fuel => bmany_till fuel col r s0 e0 p end_ i) res <->
  exists res0, gives (fun fuel => bmany_till fuel (vec_collector U) r s0 e0 p end_ i) res0 /\ res = map g res0.
Proof. intros St SE I U V T E N C p end_ col g Hg r s0 e0 i res. exact (bmany_till_gives p end_ Hg r s0 e0 i res). Qed.
Print Assumptions C52_till_partial.

(** The collections of std. *)
Theorem C52_fold : forall U T (t0 : T) (add : T -> U -> T), gathering false (fold_collector t0 add) (fun us => fold_left add us t0).
Proof. intros U T t0 add us. exact (fold_gathers add us t0). Qed.
Print Assumptions C52_fold.

(** In particular [skip_many] is [many] into [()]. *)
Theorem C52_skip_is_unit : forall St I U E (p : sparser St I U E) r, skip_agrees r p -> forall s0 i res,
  gives (fun fuel => bskip_many fuel r s0 p i) res <-> gives (fun fuel => bmany fuel (fold_collector tt (fun _ (_ : U) => tt)) r s0 p i) res.
Proof.
  intros St I U E p r Ha s0 i res.
  rewrite (bmany_gives (p := p) (fun us => fold_gathers (fun _ (_ : U) => tt) us tt) r s0 i res) by discriminate.
  assert (Hm : forall r : pres I (list U) E, map (fun us => fold_left (fun _ _ => tt) us tt) r = map (fun _ => tt) r).
  { intros [b v|b e|n| |]; simpl; auto. f_equal. destruct (fold_left _ v tt). reflexivity. }
  split.
  - intros (Hn & fuel & Hf). destruct (@skip_many_lockstep _ _ _ _ p r Ha fuel s0 i) as [H1 _]. rewrite Hf in H1. specialize (H1 Hn).
    exists (bmany (S fuel) (vec_collector U) r s0 p i). rewrite Hm. split; [|now symmetry]. split; [|eauto].
    intros Hx. rewrite Hx in H1. simpl in H1. congruence.
  - intros (res0 & (Hn & fuel & Hf) & ->). destruct (@skip_many_lockstep _ _ _ _ p r Ha fuel s0 i) as [_ H2]. rewrite Hf in H2. rewrite Hm. split.
    + destruct res0; simpl; congruence.
    + exists fuel. apply H2. exact Hn.
Qed.
Print Assumptions C52_skip_is_unit.

(** For collections that take only some runs: where [many] into a [Vec] succeeds with [us], a collection that takes [us] gets them. *)
Theorem C52_content : forall St I U T E C (col : collector U T C) again (p : sparser St I U E) r s0 i j us t,
  (again = true -> quiet p) -> gives (fun fuel => bmany fuel (vec_collector U) r s0 p i) (Data j us) ->
  gathers (cact col) again (cinit col) us t -> gives (fun fuel => bmany fuel col r s0 p i) (Data j t).
Proof. exact @bmany_content. Qed.
Print Assumptions C52_content.

(** A collection that has had enough after [us]: the outcome is a success if the maximum is reached or if there is no more input to
    come (and [us] are enough); otherwise [Incomplete(1)], whatever the input is. *)
Theorem C52_early : forall St I U T E C (p : sparser St I U E) (col : collector U T C) r s0 i us s j t,
  nonempty r -> iterates p s0 i us s j -> (forall k, k < length us -> may_grow r k) ->
  stops_after (cact col) (cinit col) us t ->
  (in_range r (length us) /\ (~ may_grow r (length us) \/ last j = true) -> gives (fun fuel => bmany fuel col r s0 p i) (Data j t)) /\
  (~ in_range r (length us) \/ may_grow r (length us) /\ last j = false -> gives (fun fuel => bmany fuel col r s0 p i) (Incomplete 1)).
Proof. exact @bmany_early. Qed.
Print Assumptions C52_early.

(** [many_till] never succeeds then. *)
Theorem C52_early_till : forall St SE I U V T E N C (p : sparser St I U E) (end_ : sparser SE I V N) (col : collector U T C) r s0 e0 i us vs t k fuel,
  bmany_till fuel (vec_collector U) r s0 e0 p end_ i = Data k (us ++ vs) ->
  stops_after (cact col) (cinit col) us t ->
  gives (fun fuel => bmany_till fuel col r s0 e0 p end_ i) (Incomplete 1).
Proof. exact @bmany_till_early. Qed.
Print Assumptions C52_early_till.

(** The example: numbers, the odd ones being mistakes. *)
Definition checked : sparser unit nat (option nat) (error nat) := pure (fun i => map (fun n => if Nat.even n then Some n else None) (any i)).

(** Collecting into [Option<Vec>]: the mistake is found, but more input is asked for, as long as there can be any. *)
Theorem C52_early_refuted : stops_after (cact (option_collector nat)) (cinit (option_collector nat)) [Some 2; None] None /\
  forall more, gives (fun fuel => many fuel (option_collector nat) tt checked (mkInput false (2 :: 3 :: more))) (Incomplete 1) /\
               gives (fun fuel => many fuel (option_collector nat) tt checked (mkInput true (2 :: 3 :: more))) (Data (mkInput true more) None).
Proof.
  assert (Hs : stops_after (cact (option_collector nat)) (cinit (option_collector nat)) [Some 2; None] None).
  { eapply stops_item; [reflexivity|]. eapply stops_item; [reflexivity|]. apply stops_finish. reflexivity. }
  split; [exact Hs|]. intros more.
  assert (Hi : forall l, iterates checked tt (mkInput l (2 :: 3 :: more)) [Some 2; None] tt (mkInput l more)).
  { intros l. eapply iterates_cons; [reflexivity|]. eapply iterates_cons; [reflexivity|]. constructor. }
  assert (HN : nonempty RFull) by (exists 0; exact Logic.I).
  assert (HG : forall k, may_grow RFull k) by (intros k; exists (S k); split; [lia|exact Logic.I]).
  split.
  - apply (bmany_early (option_collector nat) (r := RFull) HN (Hi false) (fun k _ => HG k) Hs). right. split; [apply HG|reflexivity].
  - apply (bmany_early (option_collector nat) (r := RFull) HN (Hi true) (fun k _ => HG k) Hs). split; [exact Logic.I|right; reflexivity].
Qed.
Print Assumptions C52_early_refuted.
(** And [many_till] is incomplete even at the end of the input. *)
Theorem C52_early_till_refuted : exists i, last i = true /\
  gives (fun fuel => many_till fuel (vec_collector _) tt tt checked (pure (token true Nat.eqb 0)) i) (Data (mkInput true [5]) [Some 2; None]) /\
  gives (fun fuel => many_till fuel (option_collector nat) tt tt checked (pure (token true Nat.eqb 0)) i) (Incomplete 1).
Proof.
  exists (mkInput true [2; 3; 0; 5]). split; [reflexivity|]. split.
  - split; [discriminate|]. exists 9. reflexivity.
  - exact (bmany_till_early checked (pure (token true Nat.eqb 0)) (option_collector nat) RFull tt tt (mkInput true [2; 3; 0; 5]) (us := [Some 2; None]) [] 9 eq_refl (proj1 C52_early_refuted)).
Qed.
Print Assumptions C52_early_till_refuted.

(** A collection that calls [next()] once more after the end. *)
Definition restless (U : Type) : collector U (list U) (nat * list U) :=
  mkCollector (2, [])
    (fun c => match c with
              | (0, l) => CFinish l
              | (S k, l) => CNext (fun o => match o with Some u => (S k, l ++ [u]) | None => (k, l) end)
              end).

(** [many_till] goes on behind the end: the collection gets items which a [Vec] does not get, and more is consumed. *)
Theorem C52_restless_till_refuted : gathering true (restless nat) (fun us => us) /\
  gives (fun fuel => many_till fuel (vec_collector nat) tt tt (pure (@any nat)) (pure (token true Nat.eqb 0)) (mkInput true [1; 0; 2; 0; 3])) (Data (mkInput true [2; 0; 3]) [1]) /\
  gives (fun fuel => many_till fuel (restless nat) tt tt (pure (@any nat)) (pure (token true Nat.eqb 0)) (mkInput true [1; 0; 2; 0; 3])) (Data (mkInput true [3]) [1; 2]).
Proof.
  split.
  - intros us. change us with ([] ++ us) at 2. unfold restless at 2. cbn [cinit]. generalize (@nil nat) as acc.
    induction us as [|u us IH]; intros acc.
    + rewrite app_nil_r. eapply gathers_end; [reflexivity|]. eapply closes_again; [reflexivity|reflexivity|]. apply closes_finish. reflexivity.
    + eapply gathers_item; [reflexivity|]. cbv beta iota.
      replace (acc ++ u :: us) with ((acc ++ [u]) ++ us) by (rewrite <- app_assoc; reflexivity). apply IH.
  - split; (split; [discriminate|]); exists 20; reflexivity.
Qed.
Print Assumptions C52_restless_till_refuted.

(** Non-vacuity: a sum; the restless collection with [many]; an [Option] without mistakes. *)
Example C52_case :
  gives (fun fuel => bmany fuel (fold_collector 0 Nat.add) (RRange 1 4) tt (pure (satisfy true Nat.even)) (mkInput false [2; 4; 5])) (Data (mkInput false [5]) 6) /\
  quiet (pure (satisfy true Nat.even)) /\
  gives (fun fuel => many fuel (restless nat) tt (pure (satisfy true Nat.even)) (mkInput false [2; 4; 5])) (Data (mkInput false [5]) [2; 4]) /\
  gathers (cact (option_collector nat)) false (cinit (option_collector nat)) [Some 2; Some 4] (Some [2; 4]).
Proof.
  split; [split; [discriminate|]; exists 9; reflexivity|]. split; [apply pure_quiet|].
  split; [split; [discriminate|]; exists 9; reflexivity|].
  eapply gathers_item; [reflexivity|]. eapply gathers_item; [reflexivity|]. eapply gathers_end; [reflexivity|]. apply closes_finish. reflexivity.
Qed.
Example C52_case_early : nonempty (RTo 3) /\ iterates checked tt (mkInput false [2; 3; 4]) [Some 2; None] tt (mkInput false [4]) /\
  ~ may_grow (RTo 3) 2 /\ gives (fun fuel => bmany fuel (option_collector nat) (RTo 3) tt checked (mkInput false [2; 3; 4])) (Data (mkInput false [4]) None).
Proof.
  split; [exists 0; simpl; lia|]. split.
  - eapply iterates_cons; [reflexivity|]. eapply iterates_cons; [reflexivity|]. constructor.
  - split; [rewrite may_grow_to; lia|]. split; [discriminate|]. exists 9. reflexivity.
Qed.
