(** Lock-step simulation of iterations into a [Vec]; separators; unrolling; termination. *)
From Coq Require Import List Bool Arith Lia.
From Verif Require Import Base Parsers Combinators SpecIter SpecCollect SpecSep IterProofs ManyProofs CollectProofs SkipProofs.
Import ListNotations.

Set Implicit Arguments.

Section VecSim.
  Context {It1 It2 U : Type}.
  Variable next1 : It1 -> step It1 U.
  Variable next2 : It2 -> step It2 U.
  Variable hint1 : It1 -> nat * option nat.
  Variable hint2 : It2 -> nat * option nat.
  Variable R R' : It1 -> It2 -> Prop.
  Hypothesis Hsim : forall a b, R a b ->
    match next1 a, next2 b with
    | Yield u a', Yield v b' => u = v /\ R a' b'
    | Stop a', Stop b' => R' a' b'
    | StepPanic, StepPanic => True
    | StepNoFuel, StepNoFuel => True
    | _, _ => False
    end.

  Lemma vec_sim : forall fuel lead acc a b, R a b ->
    match from_iter fuel next1 hint1 (cact (vec_collector U)) (false, lead ++ acc) a,
          from_iter fuel next2 hint2 (cact (vec_collector U)) (false, acc) b with
    | FDone t a', FDone t' b' => t = lead ++ t' /\ R' a' b'
    | FPanic, FPanic => True
    | FNoFuel, FNoFuel => True
    | _, _ => False
    end.
  Proof.
    induction fuel as [|fuel IH]; intros lead acc a b Hab; [exact Logic.I|].
    cbn [from_iter cact vec_collector]. pose proof (Hsim Hab) as H.
    destruct (next1 a) as [u a'|a'| |]; destruct (next2 b) as [v b'|b'| |]; try contradiction; auto.
    - destruct H as [-> H]. rewrite <- app_assoc. apply IH. assumption.
    - destruct fuel; simpl; auto.
  Qed.
End VecSim.

(** ** Unrolling [many1] and [many]. *)
Lemma many_unroll : forall S I U E fuel (p : sparser S I U E) s i,
  bmany (Datatypes.S fuel) (vec_collector U) RFull s p i =
  match p s i with
  | (Data j u, s') => map (cons u) (bmany fuel (vec_collector U) RFull s' p j)
  | (Error _ _, _) => if fuel =? 0 then NoFuel else Data i []
  | (Incomplete n, _) => if fuel =? 0 then NoFuel else if last i then Data i [] else Incomplete n
  | (Panic, _) => Panic
  | (NoFuel, _) => NoFuel
  end.
Proof.
  intros S I U E fuel p s i. cbn [bmany]. unfold parse_many_full, run_iter. cbn [from_iter cact cinit vec_collector].
  unfold iter_next at 1. cbn [it_data it_ps it_buf it_state]. destruct (p s i) as [[j u|b e|n| |] s'].
  - pose proof (@vec_sim _ _ _ (iter_next p (fun _ => false) (fun d => d)) (iter_next p (fun _ => false) (fun d => d))
      (fun it : iter S I E unit => (0, None)) (fun it : iter S I E unit => (0, None)) eq eq) as H.
    specialize (H ltac:(intros a b ->; destruct (iter_next _ _ _ b); auto) fuel [u] []
      (mkIter (ESIncomplete 1) s' j tt) (mkIter (ESIncomplete 1) s' j tt) eq_refl).
    cbn [app] in *. destruct (from_iter fuel _ _ _ (false, [u]) _) as [t it| |]; destruct (from_iter fuel _ _ _ (false, []) _) as [t' it'| |];
      try contradiction; auto.
    destruct H as [-> ->]. destruct (it_state it'); auto. destruct (last (it_buf it')); auto.
  - destruct fuel; reflexivity.
  - destruct fuel; auto.
  - reflexivity.
  - reflexivity.
Qed.


Lemma many1_unroll : forall S I U E fuel (p : sparser S I U E) s i,
  bmany (Datatypes.S (Datatypes.S fuel)) (vec_collector U) (RFrom 1) s p i =
  first_then p (fun s j => bmany (Datatypes.S fuel) (vec_collector U) RFull s p j) s i.
Proof.
  intros S I U E fuel p s i. cbn [bmany]. unfold parse_many_from, parse_many_full, run_iter, first_then.
  remember (Datatypes.S fuel) as f1 eqn:Hf1. cbn [from_iter cact cinit vec_collector].
  unfold iter_next at 1. cbn [it_data it_ps it_buf it_state]. destruct (p s i) as [[j u|b e|n| |] s']; subst f1.
  - pose proof (@vec_sim _ _ _ (iter_next p (fun _ => false) dec0) (iter_next p (fun _ => false) (fun d => d))
      (fun it : iter S I E nat => (it_data it, None)) (fun it : iter S I E unit => (0, None))
      (fun a b => a = mkIter (it_state b) (it_ps b) (it_buf b) 0) (fun a b => a = mkIter (it_state b) (it_ps b) (it_buf b) 0)) as H.
    specialize (H ltac:(intros a b ->; unfold iter_next; cbn [it_data it_ps it_buf it_state]; destruct (p (it_ps b) (it_buf b)) as [[?|?|?| |] ?]; auto)
      (Datatypes.S fuel) [u] [] (mkIter (ESIncomplete 1) s' j 0) (mkIter (ESIncomplete 1) s' j tt) eq_refl).
    cbn [app] in *. change (dec0 1) with 0.
    destruct (from_iter (Datatypes.S fuel) _ _ _ (false, [u]) _) as [t it| |]; destruct (from_iter (Datatypes.S fuel) _ _ _ (false, []) _) as [t' it'| |];
      try contradiction; auto.
    destruct H as [-> ->]. cbn [it_data it_ps it_buf it_state]. destruct (it_state it'); auto. destruct (last (it_buf it')); auto.
  - simpl. unfold err, replace. reflexivity.
  - reflexivity.
  - reflexivity.
  - reflexivity.
Qed.

(** ** Separators *)

Section Sep.
  Context {SP SS I U V E N : Type}.
  Variable conv : N -> E.
  Variable p : sparser SP I U E.
  Variable sep : sparser SS I V N.

  Lemma sep_item_first : forall sp ss i,
    sep_item conv p sep (false, sp, ss) i =
    (fst (p sp i), (match fst (p sp i) with Data _ _ => true | _ => false end, snd (p sp i), ss)).
  Proof.
    intros sp ss i. unfold sep_item. cbn [ret]. destruct (p sp i) as [[j u|b e|n| |] sp']; reflexivity.
  Qed.

  Lemma sep_item_later : forall sp ss i,
    sep_item conv p sep (true, sp, ss) i =
    (fst (sep_then conv p sep (sp, ss) i), (true, fst (snd (sep_then conv p sep (sp, ss) i)), snd (snd (sep_then conv p sep (sp, ss) i)))).
  Proof.
    intros sp ss i. unfold sep_item, sep_then. cbn [fst snd]. destruct (sep ss i) as [[j u|b e|n| |] ss']; cbn [map]; try reflexivity.
    destruct (p sp j) as [[k v|b e|n| |] sp']; reflexivity.
  Qed.

  (** From the first item on, the closure of [sep_by] is "[sep] then [p]". *)
  Lemma sep_many : forall fuel sp ss i,
    bmany fuel (vec_collector U) RFull (true, sp, ss) (sep_item conv p sep) i =
    bmany fuel (vec_collector U) RFull (sp, ss) (sep_then conv p sep) i.
  Proof.
    intros fuel sp ss i. cbn [bmany]. unfold parse_many_full, run_iter. cbn [cinit vec_collector].
    pose proof (@vec_sim _ _ _ (iter_next (sep_item conv p sep) (fun _ => false) (fun d => d)) (iter_next (sep_then conv p sep) (fun _ => false) (fun d => d))
      (fun it : iter _ I E unit => (0, None)) (fun it : iter _ I E unit => (0, None))
      (fun a b => a = mkIter (it_state b) (true, fst (it_ps b), snd (it_ps b)) (it_buf b) tt)
      (fun a b => a = mkIter (it_state b) (true, fst (it_ps b), snd (it_ps b)) (it_buf b) tt)) as H.
    assert (Hs : forall a (b : iter (SP * SS) I E unit), a = mkIter (it_state b) (true, fst (it_ps b), snd (it_ps b)) (it_buf b) tt ->
      match iter_next (sep_item conv p sep) (fun _ : unit => false) (fun d => d) a, iter_next (sep_then conv p sep) (fun _ : unit => false) (fun d => d) b with
      | Yield u a', Yield v b' => u = v /\ a' = mkIter (it_state b') (true, fst (it_ps b'), snd (it_ps b')) (it_buf b') tt
      | Stop a', Stop b' => a' = mkIter (it_state b') (true, fst (it_ps b'), snd (it_ps b')) (it_buf b') tt
      | StepPanic, StepPanic => True
      | StepNoFuel, StepNoFuel => True
      | _, _ => False
      end).
    { intros a b ->. unfold iter_next. cbn [it_data it_ps it_buf it_state]. rewrite sep_item_later.
      rewrite <- surjective_pairing. destruct (sep_then conv p sep (it_ps b) (it_buf b)) as [[j u|b' e|n| |] st]; cbn [fst snd]; auto. }
    specialize (H Hs fuel [] [] (mkIter (ESIncomplete 1) (true, sp, ss) i tt) (mkIter (ESIncomplete 1) (sp, ss) i tt) eq_refl).
    cbn [app] in *.
    destruct (from_iter fuel (iter_next (sep_item conv p sep) _ _) _ _ _ _) as [t it| |];
    destruct (from_iter fuel (iter_next (sep_then conv p sep) _ _) _ _ _ _) as [t' it'| |]; try contradiction; auto.
    destruct H as [-> ->]. reflexivity.
  Qed.

  Lemma sep_by1_char : forall fuel sp ss i,
    sep_by1 (S (S fuel)) (vec_collector U) conv sp ss p sep i =
    first_then p (fun sp' j => many (S fuel) (vec_collector U) (sp', ss) (sep_then conv p sep) j) sp i.
  Proof.
    intros fuel sp ss i. unfold sep_by1, many. rewrite many1_unroll. unfold first_then.
    rewrite sep_item_first. destruct (p sp i) as [[j u|b e|n| |] sp']; cbn [fst snd]; try reflexivity. rewrite sep_many. reflexivity.
  Qed.

  Lemma sep_by_char : forall fuel sp ss i,
    sep_by (S (S fuel)) (vec_collector U) conv sp ss p sep i =
    match first_then p (fun sp' j => many (S fuel) (vec_collector U) (sp', ss) (sep_then conv p sep) j) sp i, fst (p sp i) with
    | _, Error _ _ => Data i []
    | _, Incomplete n => if last i then Data i [] else Incomplete n
    | res, _ => res
    end.
  Proof.
    intros fuel sp ss i. unfold sep_by, many. rewrite many_unroll. unfold first_then.
    rewrite sep_item_first. destruct (p sp i) as [[j u|b e|n| |] sp']; cbn [fst snd Nat.eqb]; try reflexivity.
    rewrite sep_many. destruct (bmany _ _ _ _ _ _); reflexivity.
  Qed.

  Lemma keeps_mode_sep_then : keeps_mode p -> keeps_mode sep -> keeps_mode (sep_then conv p sep).
  Proof.
    intros Hp Hs [sp ss] i j u s' H. unfold sep_then in H. cbn [fst snd] in H. destruct (sep ss i) as [[j' v|b e|n| |] ss'] eqn:Hsep; try discriminate.
    destruct (p sp j') as [r sp'] eqn:Hpp. simpl in H. inversion H; subst. apply Hs in Hsep. apply Hp in Hpp. congruence.
  Qed.
End Sep.

Lemma many_no_error : forall S I U E (q : sparser S I U E) fuel s i b e, bmany fuel (vec_collector U) RFull s q i <> Error b e.
Proof.
  intros S I U E q. induction fuel as [|fuel IH]; intros s i b e; [discriminate|].
  rewrite many_unroll. destruct (q s i) as [[j u|b' e'|n| |] s']; try discriminate.
  - intros H. apply (IH s' j b e). destruct (bmany fuel _ _ _ _ _); try discriminate. inversion H; subst. reflexivity.
  - destruct (fuel =? 0); discriminate.
  - destruct (fuel =? 0); [discriminate|]. destruct (last i); discriminate.
Qed.

Lemma many_incomplete_mode : forall S I U E (q : sparser S I U E), keeps_mode q -> forall fuel s i n,
  bmany fuel (vec_collector U) RFull s q i = Incomplete n -> last i = false.
Proof.
  intros S I U E q Hq. induction fuel as [|fuel IH]; intros s i n; [discriminate|].
  rewrite many_unroll. destruct (q s i) as [[j u|b' e'|m| |] s'] eqn:Hqi; try discriminate.
  - intros H. apply Hq in Hqi. rewrite <- Hqi. destruct (bmany fuel _ _ _ _ _) eqn:Hb; try discriminate. eapply IH. rewrite Hb. reflexivity.
  - destruct (fuel =? 0); discriminate.
  - destruct (fuel =? 0); [discriminate|]. destruct (last i); [discriminate|reflexivity].
Qed.

(** [sep_by] is [option(sep_by1, [])]. *)
Lemma sep_by_option : forall SP SS I U V E N (conv : N -> E) (p : sparser SP I U E) (sep : sparser SS I V N) fuel sp ss i,
  keeps_mode p -> keeps_mode sep ->
  sep_by (S (S fuel)) (vec_collector U) conv sp ss p sep i =
  option_ (sep_by1 (S (S fuel)) (vec_collector U) conv sp ss p sep) [] i.
Proof.
  intros SP SS I U V E N conv p sep fuel sp ss i Hp Hs. unfold option_. rewrite sep_by_char, sep_by1_char. unfold first_then.
  destruct (p sp i) as [[j u|b e|n| |] sp'] eqn:Hpi; cbn [fst]; try reflexivity.
  destruct (many _ _ _ _ _) as [k us|b e|n| |] eqn:Hm; try reflexivity.
  - exfalso. eapply many_no_error; eauto.
  - apply many_incomplete_mode in Hm; [|apply keeps_mode_sep_then; assumption]. apply Hp in Hpi. rewrite <- Hpi, Hm. reflexivity.
Qed.

(** ** Termination *)

Ltac fin_ne := intros ? ? d e; try destruct d as [d1 d2]; destruct e; simpl; unfold ret, err, incomplete;
    repeat match goal with |- context [match ?x with _ => _ end] => destruct x end; discriminate.

Section Measure.
  Context {It U : Type}.
  Variable next : It -> step It U.
  Variable hint : It -> nat * option nat.
  Variable mu : It -> nat.
  Hypothesis Hmu : forall a u a', next a = Yield u a' -> S (mu a') <= mu a.
  Hypothesis Hnf : forall a, next a <> StepNoFuel.

  Lemma vec_terminates : forall fuel acc a, mu a + 2 <= fuel ->
    from_iter fuel next hint (cact (vec_collector U)) (false, acc) a <> FNoFuel.
  Proof.
    induction fuel as [|fuel IH]; intros acc a H; [lia|]. cbn [from_iter cact vec_collector].
    destruct (next a) as [u a'|a'| |] eqn:Hn; try discriminate.
    - apply IH. apply Hmu in Hn. lia.
    - destruct fuel; [lia|]. discriminate.
    - exfalso. eapply Hnf; eauto.
  Qed.
End Measure.

Section Termination.
  Context {S I U E : Type}.
  Variable p : sparser S I U E.
  Hypothesis Hret : returns p.

  Lemma iter_next_fuel : forall D (pre : D -> bool) on it, iter_next p pre on it <> StepNoFuel.
  Proof.
    intros D pre on it. unfold iter_next. destruct (pre (it_data it)); [discriminate|].
    destruct (p (it_ps it) (it_buf it)) as [[j u|b e|n| |] s'] eqn:H; try discriminate. exfalso. eapply Hret; eauto.
  Qed.

  Lemma run_iter_terminates : forall D (hint : D -> nat * option nat) pre on fin (mu : iter S I E D -> nat) fuel i s0 d0,
    (forall t j d st, fin t j d st <> @NoFuel I (list U) E) ->
    (forall a u a', iter_next p pre on a = Yield u a' -> Datatypes.S (mu a') <= mu a) ->
    mu (mkIter (ESIncomplete 1) s0 i d0) + 2 <= fuel ->
    run_iter fuel (vec_collector U) i s0 p d0 hint pre on fin <> NoFuel.
  Proof.
    intros D hint pre on fin mu fuel i s0 d0 Hfin Hmu H. unfold run_iter. cbn [cinit vec_collector].
    pose proof (@vec_terminates _ _ (iter_next p pre on) (fun it => hint (it_data it)) mu Hmu (@iter_next_fuel D pre on) fuel [] _ H) as Ht.
    destruct (from_iter _ _ _ _ _ _); auto; discriminate.
  Qed.

  Lemma consuming_measure : consuming p -> forall D pre (on : D -> D) a u a', iter_next p pre on a = Yield u a' ->
    Datatypes.S (length (buf (it_buf a'))) <= length (buf (it_buf a)).
  Proof.
    intros Hc D pre on a u a' H. unfold iter_next in H. destruct (pre (it_data a)); [discriminate|].
    destruct (p (it_ps a) (it_buf a)) as [[j v|b e|n| |] s'] eqn:Hp; try discriminate. inversion H; subst. simpl. eapply Hc; eauto.
  Qed.

  Lemma bmany_terminates : consuming p -> forall r fuel s0 i, length (buf i) + 2 <= fuel ->
    bmany fuel (vec_collector U) r s0 p i <> NoFuel.
  Proof.
    intros Hc r fuel s0 i Hf. destruct r as [a b|a| |b|n]; cbn [bmany].
    - unfold parse_many_range. destruct (negb (a <=? b)); [discriminate|].
      eapply run_iter_terminates with (mu := fun it => length (buf (it_buf it))); [fin_ne|intros ? ? ? Hx; eapply consuming_measure; eauto|exact Hf].
    - eapply run_iter_terminates with (mu := fun it => length (buf (it_buf it))); [fin_ne|intros ? ? ? Hx; eapply consuming_measure; eauto|exact Hf].
    - eapply run_iter_terminates with (mu := fun it => length (buf (it_buf it))); [fin_ne|intros ? ? ? Hx; eapply consuming_measure; eauto|exact Hf].
    - eapply run_iter_terminates with (mu := fun it => length (buf (it_buf it))); [fin_ne|intros ? ? ? Hx; eapply consuming_measure; eauto|exact Hf].
    - eapply run_iter_terminates with (mu := fun it => length (buf (it_buf it))); [fin_ne|intros ? ? ? Hx; eapply consuming_measure; eauto|exact Hf].
  Qed.

  Lemma bmany_bounded_terminates : forall r m fuel s0 i, max_count r = Some m -> m + 2 <= fuel ->
    bmany fuel (vec_collector U) r s0 p i <> NoFuel.
  Proof.
    intros r m fuel s0 i Hm Hf. destruct r as [a b|a| |b|n]; cbn [bmany max_count] in *; inversion Hm; subst; clear Hm.
    - unfold parse_many_range. destruct (negb (a <=? b)); [discriminate|].
      eapply run_iter_terminates with (mu := fun it => snd (it_data it)); [fin_ne| |simpl; lia].
      intros [st s j [d1 d2]] u a' Hx. apply iter_next_yield in Hx. simpl in Hx. destruct Hx as [H1 ->]. apply Nat.eqb_neq in H1. simpl. lia.
    - eapply run_iter_terminates with (mu := fun it => it_data it); [fin_ne| |simpl; lia].
      intros [st s j d] u a' Hx. apply iter_next_yield in Hx. simpl in Hx. destruct Hx as [H1 ->]. apply Nat.eqb_neq in H1. simpl. lia.
    - eapply run_iter_terminates with (mu := fun it => it_data it); [fin_ne| |simpl; lia].
      intros [st s j d] u a' Hx. apply iter_next_yield in Hx. simpl in Hx. destruct Hx as [H1 ->]. apply Nat.eqb_neq in H1. simpl. lia.
  Qed.

  Lemma bskip_terminates : consuming p -> forall r fuel s0 i, skip_agrees r p -> length (buf i) + 2 <= fuel ->
    bskip_many fuel r s0 p i <> NoFuel.
  Proof.
    intros Hc r fuel s0 i Hr Hf. pose proof (bmany_terminates Hc r s0 i Hf) as H.
    destruct (@skip_many_lockstep _ _ _ _ p r Hr fuel s0 i) as [_ H2]. rewrite (H2 H). destruct (bmany _ _ _ _ _ _); try discriminate. congruence.
  Qed.

  Section Till.
    Context {SE V N : Type}.
    Variable end_ : sparser SE I V N.
    Hypothesis Hend : returns end_.

    Lemma end_test_fuel : forall D (it : iter_till S SE I E D), end_test end_ it <> PreNoFuel.
    Proof.
      intros D it. unfold end_test. destruct (end_ (tt_es it) (tt_buf it)) as [[j u|b e|n| |] s'] eqn:H; try discriminate.
      exfalso. eapply Hend; eauto.
    Qed.

    Lemma end_test_buf : forall D (it it' : iter_till S SE I E D), end_test end_ it = PreGo it' -> tt_buf it' = tt_buf it.
    Proof.
      intros D it it' H. unfold end_test in H. destruct (end_ (tt_es it) (tt_buf it)) as [[j u|b e|n| |] s']; inversion H; reflexivity.
    Qed.

    Lemma till_terminates : forall D (hint : D -> nat * option nat) pre on fin (mu : iter_till S SE I E D -> nat) fuel i s0 e0 d0,
      (forall t j d st, fin t j d st <> @NoFuel I (list U) E) ->
      (forall a, pre a <> PreNoFuel) ->
      (forall a u a', iter_till_next p pre on a = Yield u a' -> Datatypes.S (mu a') <= mu a) ->
      mu (mkIterTill (TIncomplete 1) s0 e0 i d0) + 2 <= fuel ->
      run_iter_till fuel (vec_collector U) i s0 e0 p d0 hint pre on fin <> NoFuel.
    Proof.
      intros D hint pre on fin mu fuel i s0 e0 d0 Hfin Hpre Hmu H. unfold run_iter_till. cbn [cinit vec_collector].
      assert (Hnf : forall a, iter_till_next p pre on a <> StepNoFuel).
      { intros a. unfold iter_till_next. destruct (pre a) as [it|it| |] eqn:Hp; try discriminate; [|exfalso; eapply Hpre; eauto].
        destruct (p (tt_ps it) (tt_buf it)) as [[j u|b e|n| |] s'] eqn:Hpp; try discriminate. exfalso. eapply Hret; eauto. }
      pose proof (@vec_terminates _ _ (iter_till_next p pre on) (fun it => hint (tt_data it)) mu Hmu Hnf fuel [] _ H) as Ht.
      destruct (from_iter _ _ _ _ _ _); auto; discriminate.
    Qed.

    Ltac pre_fuel := let a := fresh in let H := fresh in intros a H; unfold pre_seq in H;
      repeat match type of H with
      | context [if ?x then _ else _] => destruct x; cbv iota beta in H
      | context [match end_test ?e ?i with _ => _ end] => let Hx := fresh in destruct (end_test e i) eqn:Hx; cbv iota beta in H
      end; try discriminate; try (eapply end_test_fuel; eassumption).

    Lemma till_buf : forall D pre (on : D -> D) a u a', consuming p ->
      (forall it it' : iter_till S SE I E D, pre it = PreGo it' -> tt_buf it' = tt_buf it) ->
      iter_till_next p pre on a = Yield u a' -> Datatypes.S (length (buf (tt_buf a'))) <= length (buf (tt_buf a)).
    Proof.
      intros D pre on a u a' Hc Hpre H. unfold iter_till_next in H. destruct (pre a) as [it|it| |] eqn:Hp; try discriminate.
      apply Hpre in Hp. destruct (p (tt_ps it) (tt_buf it)) as [[j v|b e|n| |] s'] eqn:Hpp; try discriminate.
      inversion H; subst. simpl. rewrite <- Hp. eapply Hc; eauto.
    Qed.

    Ltac pre_buf := let it := fresh in let it' := fresh in let H := fresh in intros it it' H; unfold pre_seq in H;
      repeat match type of H with
      | context [if ?x then _ else _] => destruct x; cbv iota beta in H
      | context [match end_test ?e ?i with _ => _ end] =>
          let Hx := fresh in destruct (end_test e i) eqn:Hx; cbv iota beta in H; try discriminate; apply end_test_buf in Hx
      end; try discriminate; first [apply end_test_buf in H; congruence | inversion H; subst; congruence].

    Lemma bmany_till_terminates : consuming p -> forall r fuel s0 e0 i, length (buf i) + 2 <= fuel ->
      bmany_till fuel (vec_collector U) r s0 e0 p end_ i <> NoFuel.
    Proof.
      intros Hc r fuel s0 e0 i Hf. destruct r as [a b|a| |b|n]; cbn [bmany_till];
        [unfold many_till_range; destruct (negb (a <=? b)); [discriminate|]| | | |];
        (eapply till_terminates with (mu := fun it => length (buf (tt_buf it)));
         [fin_ne|pre_fuel|intros ? ? ? Hx; eapply till_buf; [exact Hc| |exact Hx]; pre_buf|exact Hf]).
    Qed.

    Lemma bmany_till_bounded_terminates : forall r m fuel s0 e0 i, max_count r = Some m -> m + 2 <= fuel ->
      bmany_till fuel (vec_collector U) r s0 e0 p end_ i <> NoFuel.
    Proof.
      intros r m fuel s0 e0 i Hm Hf. destruct r as [a b|a| |b|n]; cbn [bmany_till max_count] in *; inversion Hm; subst; clear Hm.
      - unfold many_till_range. destruct (negb (a <=? b)); [discriminate|].
        eapply till_terminates with (mu := fun it => snd (tt_data it)); [fin_ne|pre_fuel| |simpl; lia].
        intros a0 u a' Hx. eapply till_next_yield with (L := fun d => snd d) in Hx; auto.
        till_pre; simpl in *; (split; [congruence|]);
        repeat match goal with H : (_ =? _) = false |- _ => apply Nat.eqb_neq in H | H : tt_data ?a = tt_data ?b |- _ => rewrite H in * end; lia.
      - eapply till_terminates with (mu := fun it => tt_data it); [fin_ne|pre_fuel| |simpl; lia].
        intros a0 u a' Hx. eapply till_next_yield with (L := fun d => d) in Hx; auto.
        till_pre; simpl in *; (split; [congruence|]);
        repeat match goal with H : (_ =? _) = false |- _ => apply Nat.eqb_neq in H | H : tt_data ?a = tt_data ?b |- _ => rewrite H in * end; lia.
      - eapply till_terminates with (mu := fun it => tt_data it); [fin_ne|pre_fuel| |simpl; lia].
        intros a0 u a' Hx. eapply till_next_yield with (L := fun d => d) in Hx; auto.
        till_pre; simpl in *; (split; [congruence|]);
        repeat match goal with H : (_ =? _) = false |- _ => apply Nat.eqb_neq in H | H : tt_data ?a = tt_data ?b |- _ => rewrite H in * end; lia.
    Qed.
  End Till.
End Termination.
