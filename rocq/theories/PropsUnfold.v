(** C78: loops are the recursive functions one would write. *)
From Coq Require Import List Bool Arith Lia.
From Verif Require Import Base Parsers Combinators SpecBase SpecIter SpecSafe SpecSep SpecLaws SpecUnfold BaseProofs ManyProofs SafeProofs LawsProofs PropsLaws UnfoldProofs PropsIter.
Import ListNotations.

Set Implicit Arguments.

(** * Ranges: one application and the rest of the range *)

(** The closure may remember: the rest starts with what it remembers after the first application. *)
Theorem C78_required : forall St I U E (p : sparser St I U E) r r', (forall k, in_range r (S k) <-> in_range r' k) -> nonempty r' -> ~ in_range r 0 ->
  forall s i, alike (fun fuel => bmany fuel (vec_collector U) r s p i)
    (fun fuel => bind (fun e => e) (fst (p s i)) (fun j u => map (cons u) (bmany fuel (vec_collector U) r' (snd (p s i)) p j))).
Proof. intros St I U E p r r' Hs Hn H0 s i. exact (@unfold_required St I U E p r r' Hs Hn H0 s i). Qed.
Theorem C78_optional : forall St I U E (p : sparser St I U E) r r', (forall k, in_range r (S k) <-> in_range r' k) -> nonempty r' -> in_range r 0 -> keeps_mode p ->
  forall s i, alike (fun fuel => bmany fuel (vec_collector U) r s p i)
    (fun fuel => or_ (fun i => bind (fun e => e) (fst (p s i)) (fun j u => map (cons u) (bmany fuel (vec_collector U) r' (snd (p s i)) p j))) (ret []) i).
Proof. intros St I U E p r r' Hs Hn H0 Hk s i. exact (@unfold_optional St I U E p r r' Hs Hn H0 Hk s i). Qed.
Theorem C78_nothing : forall St I U E (p : sparser St I U E) r, in_range r 0 -> ~ may_grow r 0 ->
  forall s i, alike (fun fuel => bmany fuel (vec_collector U) r s p i) (fun _ => ret [] i).
Proof.
  intros St I U E p r H0 Hg s i res. assert (Hr : nonempty r) by (exists 0; exact H0). rewrite (settles_outcome p s i res Hr), settles_const.
  assert (Ho : many_outcome r p s i (Data i [])) by (eapply mo_data; [constructor|exact H0|left; exact Hg]). split.
  - intros H. split; [symmetry; apply (many_outcome_det H Ho)|]. inversion H; discriminate.
  - intros [<- _]. exact Ho.
Qed.
(** These are all ranges that admit anything. *)
Theorem C78_ranges : forall r, nonempty r ->
  (in_range r 0 /\ ~ may_grow r 0) \/ exists r', nonempty r' /\ (forall k, in_range r (S k) <-> in_range r' k) /\ (in_range r 0 \/ ~ in_range r 0).
Proof.
  intros r Hr. destruct r as [a b|a| |b|n].
  - destruct (Nat.le_gt_cases b 1) as [H|H].
    + left. destruct Hr as [k Hk]. simpl in Hk. split; [simpl; lia|]. intros (k' & ? & Hin). simpl in Hin. lia.
    + right. exists (RRange (a - 1) (b - 1)). destruct Hr as [k Hk]. simpl in Hk. split; [exists (b - 2); simpl; lia|]. split; [intros k0; simpl; lia|simpl; lia].
  - right. exists (RFrom (a - 1)). split; [exists a; simpl; lia|]. split; [intros k; simpl; lia|simpl; lia].
  - right. exists RFull. split; [exists 0; exact Logic.I|]. split; [intros k; simpl; tauto|left; exact Logic.I].
  - destruct (Nat.le_gt_cases b 1) as [H|H].
    + left. destruct Hr as [k Hk]. simpl in Hk. split; [simpl; lia|]. intros (k' & ? & Hin). simpl in Hin. lia.
    + right. exists (RTo (b - 1)). split; [exists 0; simpl; lia|]. split; [intros k; simpl; lia|simpl; lia].
  - destruct n as [|n].
    + left. split; [reflexivity|]. intros (k' & ? & Hin). simpl in Hin. lia.
    + right. exists (RExact n). split; [exists n; reflexivity|]. split; [intros k; simpl; lia|simpl; lia].
Qed.
Print Assumptions C78_required.
Print Assumptions C78_optional.
Print Assumptions C78_nothing.
Print Assumptions C78_ranges.

(** * The loops *)

(** many(p) = (p : many(p)) or nothing; many1(p) = p : many(p); count(n + 1, p) = p : count(n, p); at most b + 1. *)
Theorem C78_many : forall I U E (p : parser I U E), keeps_mode (pure p) -> forall i,
  alike (fun fuel => many fuel (vec_collector U) tt (pure p) i)
    (fun fuel => or_ (fun i => bind (fun e => e) (p i) (fun j u => map (cons u) (many fuel (vec_collector U) tt (pure p) j))) (ret []) i).
Proof. intros I U E p Hk i. apply (@C78_optional unit I U E (pure p) RFull RFull); auto; [simpl; tauto|exists 0; exact Logic.I|exact Logic.I]. Qed.
Theorem C78_many1 : forall I U E (p : parser I U E) i,
  alike (fun fuel => many1 fuel (vec_collector U) tt (pure p) i)
    (fun fuel => bind (fun e => e) (p i) (fun j u => map (cons u) (many fuel (vec_collector U) tt (pure p) j))).
Proof. intros I U E p i. apply (@C78_required unit I U E (pure p) (RFrom 1) RFull); auto; [simpl; lia|exists 0; exact Logic.I|simpl; lia]. Qed.
Theorem C78_count : forall I U E (p : parser I U E) n i,
  alike (fun fuel => count fuel (vec_collector U) 0 tt (pure p) i) (fun _ => ret [] i) /\
  alike (fun fuel => count fuel (vec_collector U) (S n) tt (pure p) i)
    (fun fuel => bind (fun e => e) (p i) (fun j u => map (cons u) (count fuel (vec_collector U) n tt (pure p) j))).
Proof.
  intros I U E p n i. split.
  - apply (@C78_nothing unit I U E (pure p) (RExact 0)); [reflexivity|]. intros (k & Hk & Hin). simpl in Hin. lia.
  - apply (@C78_required unit I U E (pure p) (RExact (S n)) (RExact n)); auto; [simpl; lia|exists n; reflexivity|simpl; lia].
Qed.
Theorem C78_at_most : forall I U E (p : parser I U E), keeps_mode (pure p) -> forall b i,
  alike (fun fuel => bmany fuel (vec_collector U) (RTo (S (S b))) tt (pure p) i)
    (fun fuel => or_ (fun i => bind (fun e => e) (p i) (fun j u => map (cons u) (bmany fuel (vec_collector U) (RTo (S b)) tt (pure p) j))) (ret []) i).
Proof. intros I U E p Hk b i. apply (@C78_optional unit I U E (pure p) (RTo (S (S b))) (RTo (S b))); auto; [simpl; lia|exists 0; simpl; lia|simpl; lia]. Qed.
(** sep_by1(p, s) = p : many(s then p); sep_by is that or nothing. *)
Theorem C78_sep_by1 : forall I U V E N (conv : N -> E) (p : parser I U E) (sep : parser I V N) i,
  alike (fun fuel => sep_by1 fuel (vec_collector U) conv tt tt (pure p) (pure sep) i)
    (fun fuel => bind (fun e => e) (p i) (fun j u => map (cons u) (many fuel (vec_collector U) tt (pure (fun k => then_ conv (sep k) p)) j))).
Proof. intros. apply sep_by1_unfold. Qed.
Theorem C78_sep_by : forall I U V E N (conv : N -> E) (p : parser I U E) (sep : parser I V N), keeps_mode (pure p) -> keeps_mode (pure sep) -> forall i,
  alike (fun fuel => sep_by fuel (vec_collector U) conv tt tt (pure p) (pure sep) i)
    (fun fuel => or_ (fun i => sep_by1 fuel (vec_collector U) conv tt tt (pure p) (pure sep) i) (ret []) i).
Proof. intros. apply sep_by_unfold; assumption. Qed.
(** skip_many(p) = (p then skip_many(p)) or nothing. *)
Theorem C78_skip_many : forall St I U E (p : sparser St I U E), keeps_mode p -> forall s i,
  alike (fun fuel => skip_many fuel s p i)
    (fun fuel => or_ (fun i => bind (fun e => e) (fst (p s i)) (fun j _ => skip_many fuel (snd (p s i)) p j)) (ret tt) i).
Proof. intros. apply skip_unfold. assumption. Qed.
Print Assumptions C78_many.
Print Assumptions C78_many1.
Print Assumptions C78_count.
Print Assumptions C78_at_most.
Print Assumptions C78_sep_by1.
Print Assumptions C78_sep_by.
Print Assumptions C78_skip_many.

(** * many_till *)

Lemma till_settled : forall I U V E N (p : parser I U E) (end_ : parser I V N) fuel i, many_till fuel (vec_collector U) tt tt (pure p) (pure end_) i <> NoFuel ->
  till_outcome RFull (pure p) end_ tt i (many_till fuel (vec_collector U) tt tt (pure p) (pure end_) i).
Proof.
  intros I U V E N p end_ fuel i H. assert (Hr : nonempty RFull) by (exists 0; exact Logic.I). destruct (TillProofs.bmany_till_char (pure p) end_ Hr) as [H1 _].
  destruct (H1 fuel tt i _ eq_refl H) as (x & Hx & E1). unfold many_till. rewrite E1. exact Hx.
Qed.

Theorem C78_till : forall I U V E N (p : parser I U E) (end_ : parser I V N) i,
  alike (fun fuel => many_till fuel (vec_collector U) tt tt (pure p) (pure end_) i)
    (fun fuel => till_step p end_ (fun j => many_till fuel (vec_collector U) tt tt (pure p) (pure end_) j) i).
Proof.
  intros I U V E N p end_ i res. rewrite settles_till, till_first. unfold till_step, pure.
  assert (Hp : match p i with Data j u => exists x, till_outcome RFull (fun _ i => (p i, tt)) end_ tt j x /\ res = map (cons u) x | Error b e => res = Error b e
    | Incomplete n => res = Incomplete n | Panic => res = Panic | NoFuel => False end <->
    settles (fun fuel => bind (fun e => e) (p i) (fun j u => map (cons u) (many_till fuel (vec_collector U) tt tt (fun _ i => (p i, tt)) (fun _ i => (end_ i, tt)) j))) res).
  { destruct (p i) as [j u|b e|n| |]; cbn [bind]; try rewrite settles_const.
    - split.
      + intros (x & Ho & ->). destruct (proj2 (settles_till (pure p) end_ tt j x) Ho) as [Hn [f0 Hf]]. split; [destruct x; try discriminate; congruence|].
        exists f0. intros fuel Hfu. unfold pure in Hf. rewrite (Hf fuel Hfu). apply map_err_same.
      + intros [Hn [f0 Hf]]. pose proof (Hf f0 (le_n f0)) as H. rewrite map_err_same in H. eexists. split; [|symmetry; exact H].
        apply (@till_settled I U V E N p end_ f0 j). intros Hx. unfold pure in Hx. rewrite Hx in H. cbn in H. congruence.
    - split; [intros ->; split; [reflexivity|discriminate]|intros [<- _]; reflexivity].
    - split; [intros ->; split; [reflexivity|discriminate]|intros [<- _]; reflexivity].
    - split; [intros ->; split; [reflexivity|discriminate]|intros [<- _]; reflexivity].
    - split; [contradiction|intros [<- H]; congruence]. }
  destruct (end_ i) as [k v|b e|n| |]; try exact Hp; rewrite settles_const.
  - split; [intros ->; split; [reflexivity|discriminate]|intros [<- _]; reflexivity].
  - split; [intros ->; split; [reflexivity|discriminate]|intros [<- _]; reflexivity].
  - split; [contradiction|intros [<- H]; congruence].
Qed.
(** On the last slice this is [or]. *)
Theorem C78_till_or : forall I U V E N (conv : N -> E) (p : parser I U E) (end_ : parser I V N) rest i, last i = true ->
  till_step p end_ rest i = or_ (fun j => map_err conv (map (fun _ => []) (end_ j))) (fun j => bind (fun e => e) (p j) (fun k u => map (cons u) (rest k))) i.
Proof. intros I U V E N conv p end_ rest i H. unfold till_step, or_. rewrite H. destruct (end_ i); reflexivity. Qed.
(** Before that it is not: [or] waits for what [end_] needs, [many_till] does not. *)
Theorem C78_till_or_refuted : exists (p : parser nat nat (error nat)) (end_ : parser nat (list nat) (error nat)) i,
  (forall fuel, 3 <= fuel -> many_till fuel (vec_collector nat) tt tt (pure p) (pure end_) i = Error [1] (Expected 7)) /\
  (forall rest, or_ (fun j => map (fun _ => []) (end_ j)) (fun j => bind (fun e => e) (p j) (fun k u => map (cons u) (rest k))) i = Incomplete 1).
Proof.
  exists (token true Nat.eqb 7), (string true Nat.eqb [1; 2]), (mkInput false [1]). split; [|reflexivity].
  intros [|[|[|fuel]]] H; try lia. reflexivity.
Qed.
Print Assumptions C78_till.
Print Assumptions C78_till_or.
Print Assumptions C78_till_or_refuted.

(** * The recursive functions *)

(** Whoever writes the recursion by hand gets the same: there is only one such function (as far as it returns) if [p] consumes something, and [many] is it. *)
Theorem C78_many_unique : forall I U E (p : parser I U E) (f : parser I (list U) E), keeps_mode (pure p) -> consuming (pure p) ->
  (forall i, f i = or_ (fun j => bind (fun e => e) (p j) (fun k u => map (cons u) (f k))) (ret []) i) ->
  forall i, f i <> NoFuel -> settles (fun fuel => many fuel (vec_collector U) tt (pure p) i) (f i).
Proof.
  intros I U E p f Hk Hc Hf i. assert (Hr : nonempty RFull) by (exists 0; exact Logic.I).
  remember (length (buf i)) as n eqn:En. revert i En. induction n as [n IH] using lt_wf_ind. intros i -> Hn.
  unfold many. apply (settles_outcome (pure p) tt i (f i) Hr). apply (@outcome_first unit I U E (pure p) RFull RFull ltac:(cbn; tauto) Hr tt i (f i) (or_introl Logic.I)).
  pose proof (Hf i) as Hi. unfold or_ in Hi. unfold pure. destruct (p i) as [j u|b e|m| |] eqn:Hp; cbn [bind] in Hi.
  - rewrite map_err_same in Hi. assert (Hj : f j <> NoFuel) by (intros Hj; rewrite Hj in Hi; cbn in Hi; congruence).
    pose proof (Hc tt i j u tt) as Hlt. unfold pure in Hlt. rewrite Hp in Hlt. specialize (Hlt eq_refl).
    pose proof (IH _ Hlt j eq_refl Hj) as Hs. unfold many in Hs. apply (settles_outcome (pure p) tt j (f j) Hr) in Hs. exists (f j). split; [exact Hs|].
    destruct (outcome_optional Hk (interval RFull Logic.I) Hs) as [He Hinc]. rewrite Hi. destruct (f j) as [k us|b e|m| |]; try reflexivity; [destruct (He b e eq_refl)|].
    cbn [map]. specialize (Hinc m eq_refl). rewrite (Hk tt i j u tt) in Hinc by (unfold pure; rewrite Hp; reflexivity). rewrite Hinc. reflexivity.
  - left. split; [exact Logic.I|exact Hi].
  - destruct (last i) eqn:Hl; [left|right]; auto. split; [exact Logic.I|]. auto.
  - exact Hi.
  - congruence.
Qed.
Theorem C78_many_solution : forall I U E (p : parser I U E), keeps_mode (pure p) -> consuming (pure p) -> (forall i, p i <> NoFuel) ->
  let f := fun i => many (length (buf i) + 2) (vec_collector U) tt (pure p) i in
  (forall i, f i <> NoFuel) /\ forall i, f i = or_ (fun j => bind (fun e => e) (p j) (fun k u => map (cons u) (f k))) (ret []) i.
Proof.
  intros I U E p Hk Hc Hr f.
  assert (Ht : forall i fuel, length (buf i) + 2 <= fuel -> many fuel (vec_collector U) tt (pure p) i <> NoFuel).
  { intros i fuel Hl. apply C20_consuming_terminates; auto. intros s j s'. unfold pure. intros H. injection H as H _. exact (Hr j H). }
  assert (Hn : forall i, f i <> NoFuel) by (intros i; apply Ht; lia). split; [exact Hn|]. intros i.
  assert (Hs : settles (fun fuel => many fuel (vec_collector U) tt (pure p) i) (f i)).
  { split; [apply Hn|]. exists (length (buf i) + 2). intros fuel Hl. unfold f, many. apply C20_fuel; [apply Hn|exact Hl]. }
  apply (C78_many Hk i) in Hs. destruct Hs as [_ [f0 Hf]]. rewrite <- (Hf (Nat.max f0 (length (buf i) + 2)) ltac:(lia)). unfold or_.
  destruct (p i) as [j u|b e|n| |] eqn:Hp; try reflexivity. cbn [bind].
  replace (many (Nat.max f0 (length (buf i) + 2)) (vec_collector U) tt (pure p) j) with (f j); [reflexivity|]. symmetry. unfold f, many. apply C20_fuel; [apply Hn|].
  pose proof (Hc tt i j u tt) as Hlt. unfold pure in Hlt. rewrite Hp in Hlt. specialize (Hlt eq_refl). lia.
Qed.
Theorem C78_till_unique : forall I U V E N (p : parser I U E) (end_ : parser I V N) (f : parser I (list U) E), consuming (pure p) ->
  (forall i, f i = till_step p end_ f i) ->
  forall i, f i <> NoFuel -> settles (fun fuel => many_till fuel (vec_collector U) tt tt (pure p) (pure end_) i) (f i).
Proof.
  intros I U V E N p end_ f Hc Hf i. remember (length (buf i)) as n eqn:En. revert i En. induction n as [n IH] using lt_wf_ind. intros i -> Hn.
  apply settles_till, till_first. pose proof (Hf i) as Hi. unfold till_step in Hi. unfold pure.
  assert (Hp : f i = bind (fun e => e) (p i) (fun j u => map (cons u) (f j)) ->
    match p i with Data j u => exists x, till_outcome RFull (fun _ i => (p i, tt)) end_ tt j x /\ f i = map (cons u) x | Error b e => f i = Error b e
    | Incomplete n => f i = Incomplete n | Panic => f i = Panic | NoFuel => False end).
  { clear Hi. intros Hi. destruct (p i) as [j u|b e|m| |] eqn:Hp; cbn [bind] in Hi; auto. rewrite map_err_same in Hi.
    assert (Hj : f j <> NoFuel) by (intros Hj; rewrite Hj in Hi; cbn in Hi; congruence).
    pose proof (Hc tt i j u tt) as Hlt. unfold pure in Hlt. rewrite Hp in Hlt. specialize (Hlt eq_refl).
    exists (f j). split; [|exact Hi]. exact (proj1 (settles_till (pure p) end_ tt j (f j)) (IH _ Hlt j eq_refl Hj)). }
  destruct (end_ i) as [k v|b e|m| |]; first [exact Hi|exact (Hp Hi)|congruence].
Qed.
Print Assumptions C78_many_unique.
Print Assumptions C78_many_solution.
Print Assumptions C78_till_unique.

(** Parsers made from the library keep the mode. *)
Theorem C78_built : forall I T E (p : parser I T E), built p -> keeps_mode (pure p).
Proof. intros I T E p H s i j u s1 Hp. unfold pure in Hp. injection Hp as Hp _. apply (C62_built H i Hp). Qed.
Print Assumptions C78_built.

(** * Cases *)

(** Digits; lists of them; a text up to a mark. *)
Example C78_case : let p := satisfy true (fun c => c <? 10) in
  keeps_mode (pure p) /\ consuming (pure p) /\ (forall i, p i <> NoFuel) /\
  (exists j, many 9 (vec_collector nat) tt (pure p) (mkInput false [1; 2; 77]) = Data j [1; 2]) /\
  or_ (fun i => bind (fun e => e) (p i) (fun j u => map (cons u) (many 9 (vec_collector nat) tt (pure p) j))) (ret []) (mkInput false [1; 2; 77]) = Data (mkInput false [77]) [1; 2] /\
  sep_by1 9 (vec_collector nat) (fun e => e) tt tt (pure p) (pure (token true Nat.eqb 44)) (mkInput true [1; 44; 2; 44]) = Data (mkInput true [44]) [1; 2] /\
  many_till 9 (vec_collector nat) tt tt (pure p) (pure (token true Nat.eqb 44)) (mkInput true [1; 2; 44; 5]) = Data (mkInput true [5]) [1; 2].
Proof.
  cbv zeta. split; [apply C78_built, b_satisfy|]. split.
  - intros s i j u s1 H. unfold pure, satisfy in H. injection H as H _. destruct i as [l [|c b]]; cbn -[Nat.ltb] in H; [discriminate|].
    destruct (c <? 10); [|discriminate]. injection H as <- _. cbn. lia.
  - split; [|repeat split; try reflexivity; eexists; reflexivity]. intros [l [|c b]]; unfold satisfy; cbn -[Nat.ltb]; [discriminate|]. destruct (c <? 10); discriminate.
Qed.
(** A step of the hand-written function. *)
Example C78_case_step : forall i : input nat, till_step (satisfy true (fun c => c <? 10)) (token true Nat.eqb 44)
    (fun j => many_till 9 (vec_collector nat) tt tt (pure (satisfy true (fun c => c <? 10))) (pure (token true Nat.eqb 44)) j) (mkInput (last i) [1; 44]) = Data (mkInput (last i) []) [1].
Proof. intros [[] b]; reflexivity. Qed.
