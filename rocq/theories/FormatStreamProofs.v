(** Proofs for C84: the budget, and streams. *)
From Coq Require Import List Bool Arith Lia.
From Verif Require Import Base Parsers Combinators SpecBase SpecSafe SpecIter SpecSep SpecLoop SpecLaws SpecFormat Format SpecFormatStream
  BaseProofs IterProofs ManyProofs SkipProofs SepProofs TermProofs TillProofs SafeProofs StableProofs FormatProofs.
Import ListNotations.

Set Implicit Arguments.

(** * The budget *)
Lemma iterates_same : forall St I A E (p q : sparser St I A E), (forall x i, p x i = q x i) -> forall x i us y j, iterates p x i us y j -> iterates q x i us y j.
Proof. intros St I A E p q H x i us y j Hi. induction Hi; econstructor; eauto. rewrite <- H. assumption. Qed.

Lemma outcome_same : forall St I A E (p q : sparser St I A E), (forall x i, p x i = q x i) -> forall r x i res, many_outcome r p x i res -> many_outcome r q x i res.
Proof.
  intros St I A E p q H r x i res Hm. inversion Hm; subst.
  - eapply mo_data; [eapply iterates_same; eauto|assumption|]. match goal with Hx : _ \/ _ |- _ => destruct Hx as [Hx|Hx]; [left; exact Hx|right] end.
    unfold gives_up in *. rewrite <- H. assumption.
  - eapply mo_error; [eapply iterates_same; eauto|assumption|assumption|]. rewrite <- H. eassumption.
  - eapply mo_incomplete; [eapply iterates_same; eauto|assumption| |eassumption]. rewrite <- H. assumption.
  - eapply mo_panic; [eapply iterates_same; eauto|assumption|]. rewrite <- H. assumption.
Qed.

Lemma bmany_same : forall St I A E (p q : sparser St I A E), (forall x i, p x i = q x i) -> forall r, nonempty r -> forall m n x i,
  bmany m (vec_collector A) r x p i <> NoFuel -> bmany n (vec_collector A) r x q i <> NoFuel ->
  bmany m (vec_collector A) r x p i = bmany n (vec_collector A) r x q i.
Proof.
  intros St I A E p q H r Hr m n x i Hm Hn. eapply many_outcome_det; [|eapply bmany_sound; [exact Hr|reflexivity|exact Hn]].
  eapply outcome_same; [exact H|]. eapply bmany_sound; [exact Hr|reflexivity|exact Hm].
Qed.

Lemma iterates_till_same : forall St I A B E N (p q : sparser St I A E) (e d : parser I B N), (forall x i, p x i = q x i) -> (forall i, e i = d i) -> forall r k x i us y j,
  iterates_till r p e k x i us y j -> iterates_till r q d k x i us y j.
Proof. intros St I A B E N p q e d H He r k x i us y j Hi. induction Hi; econstructor; eauto; rewrite <- ?He, <- ?H; assumption. Qed.

Lemma till_same : forall St I A B E N (p q : sparser St I A E) (e d : parser I B N), (forall x i, p x i = q x i) -> (forall i, e i = d i) -> forall r x i res,
  till_outcome r p e x i res -> till_outcome r q d x i res.
Proof.
  intros St I A B E N p q e d H He r x i res Hm. inversion Hm; subst;
    [eapply to_data|eapply to_error|eapply to_incomplete|eapply to_exhausted|eapply to_panic|eapply to_panic_end];
    try (eapply iterates_till_same; eauto; fail); unfold end_fails in *; rewrite <- ?He, <- ?H; try eassumption.
Qed.

Lemma bmany_till_same : forall I A B E N (p q : parser I A E) (e d : parser I B N), (forall i, p i = q i) -> (forall i, e i = d i) -> forall m n i,
  many_till m (vec_collector A) tt tt (pure p) (pure e) i <> NoFuel -> many_till n (vec_collector A) tt tt (pure q) (pure d) i <> NoFuel ->
  many_till m (vec_collector A) tt tt (pure p) (pure e) i = many_till n (vec_collector A) tt tt (pure q) (pure d) i.
Proof.
  intros I A B E N p q e d H He m n i Hm Hn. assert (Hr : nonempty RFull) by (exists 0; exact Logic.I). unfold many_till in *.
  destruct (proj1 (@bmany_till_char unit I A B E N (pure p) e RFull Hr) m tt i _ eq_refl Hm) as (r1 & H1 & Q1).
  destruct (proj1 (@bmany_till_char unit I A B E N (pure q) d RFull Hr) n tt i _ eq_refl Hn) as (r2 & H2 & Q2). cbn [till_quirk] in Q1, Q2. rewrite Q1, Q2.
  eapply till_outcome_det; [|exact H2]. eapply till_same; [| |exact H1]; [|exact He]. intros x k. unfold pure. rewrite H. reflexivity.
Qed.

Section Budget.
  Context {I : Type}.
  Variable v : bool.
  Variable eqb : I -> I -> bool.

  Lemma reader_consuming : forall T (f : fmt I T) xt, unambiguous eqb f -> nul f = false -> consuming (pure (reader v eqb xt f)).
  Proof.
    intros T f xt Hu Hn. destruct (unambiguous_law v eqb xt f Hu) as (Hs & _). rewrite Hn in Hs.
    apply (@only_consuming I unit T (error I) _ _ (pure (reader v eqb xt f)) Hs). intros ?. apply grounded_only. eapply unambiguous_grounded; eauto.
  Qed.
  Lemma reader_returns : forall T (f : fmt I T) xt, unambiguous eqb f -> returns (pure (reader v eqb xt f)).
  Proof. intros T f xt Hu. apply (@answers_returns I unit T (error I) (pure (reader v eqb xt f))). intros ?. apply (unambiguous_law v eqb xt f Hu). Qed.
  Lemma reader_shrinking : forall T (f : fmt I T) xt, unambiguous eqb f -> shrinking (pure (reader v eqb xt f)).
  Proof.
    intros T f xt Hu x i j u y H. injection H as H _. pose proof (grounded_honest v eqb xt f (unambiguous_grounded eqb _ Hu) i) as Hh. rewrite H in Hh. cbn in Hh.
    destruct Hh as [_ Hh]. apply suffix_length in Hh. exact Hh.
  Qed.

  Lemma sep_item_same : forall A B E N (conv : N -> E) (p q : parser I A E) (s t : parser I B N), (forall i, p i = q i) -> (forall i, s i = t i) ->
    forall x i, sep_item conv (pure p) (pure s) x i = sep_item conv (pure q) (pure t) x i.
  Proof.
    intros A B E N conv p q s t Hp Hs [[item sp] ss] i. unfold sep_item, pure, then_, ret. destruct item; cbn; [rewrite Hs; destruct (t i); cbn|]; rewrite ?Hp; reflexivity.
  Qed.

  Lemma budget_free : forall T (f : fmt I T), unambiguous eqb f -> forall xt yt i, reader v eqb xt f i = reader v eqb yt f i.
  Proof.
    induction f as [w|c|c|c|n|T0 W N F X p|A B g f IH|A B a IHa b IHb|A B a IHa b IHb|A B a IHa b IHb|A a IHa|r A a IHa|r A a IHa|A B a IHa s IHs|A B a IHa s IHs|A B a IHa e IHe|A a IHa];
      intros Hu xt yt i; cbn [unambiguous] in Hu; cbn [reader]; try reflexivity.
    - rewrite (IH Hu xt yt). reflexivity.
    - rewrite (IHa (proj1 Hu) xt yt). destruct (reader v eqb yt a i) as [j x|? ?|?| |]; try reflexivity. rewrite !bind_id_data, (IHb (proj1 (proj2 Hu)) xt yt). reflexivity.
    - rewrite (IHa (proj1 Hu) xt yt). destruct (reader v eqb yt a i) as [j x|? ?|?| |]; try reflexivity. rewrite !bind_id_data, (IHb x (proj1 (proj2 (proj2 Hu) x)) xt yt). reflexivity.
    - unfold or_. rewrite (IHa (proj1 Hu) xt yt), (IHb (proj1 (proj2 Hu)) xt yt). reflexivity.
    - unfold option_. rewrite (IHa (proj1 Hu) xt yt). reflexivity.
    - destruct Hu as (Ha & Hn & Hr & _). apply bmany_same; auto.
      + intros x k. unfold pure. rewrite (IHa Ha xt yt). reflexivity.
      + apply bmany_terminates; [apply reader_returns, Ha|apply reader_consuming; assumption|unfold steps_for; lia].
      + apply bmany_terminates; [apply reader_returns, Ha|apply reader_consuming; assumption|unfold steps_for; lia].
    - destruct Hu as (Ha & Hn & Hr & _). pose proof (unambiguous_grounded eqb _ Ha) as Hg.
      rewrite (proj2 (@skip_many_lockstep unit I A (error I) (pure (reader v eqb xt a)) r (skip_fine Hr (grounded_honest v eqb xt a Hg)) (steps_for xt i) tt i))
        by (apply bmany_terminates; [apply reader_returns, Ha|apply reader_consuming; assumption|unfold steps_for; lia]).
      rewrite (proj2 (@skip_many_lockstep unit I A (error I) (pure (reader v eqb yt a)) r (skip_fine Hr (grounded_honest v eqb yt a Hg)) (steps_for yt i) tt i))
        by (apply bmany_terminates; [apply reader_returns, Ha|apply reader_consuming; assumption|unfold steps_for; lia]).
      f_equal. apply bmany_same; auto.
      + intros x k. unfold pure. rewrite (IHa Ha xt yt). reflexivity.
      + apply bmany_terminates; [apply reader_returns, Ha|apply reader_consuming; assumption|unfold steps_for; lia].
      + apply bmany_terminates; [apply reader_returns, Ha|apply reader_consuming; assumption|unfold steps_for; lia].
    - destruct Hu as (Ha & Hs & Hn & _). apply bmany_same.
      + apply sep_item_same; auto.
      + exists 0; exact Logic.I.
      + apply sep_terminates; auto using reader_consuming, reader_returns, reader_shrinking. unfold steps_for; lia.
      + apply sep_terminates; auto using reader_consuming, reader_returns, reader_shrinking. unfold steps_for; lia.
    - destruct Hu as (Ha & Hs & Hn & _). apply bmany_same.
      + apply sep_item_same; auto.
      + exists 1; apply le_n.
      + apply sep_terminates; auto using reader_consuming, reader_returns, reader_shrinking. unfold steps_for; lia.
      + apply sep_terminates; auto using reader_consuming, reader_returns, reader_shrinking. unfold steps_for; lia.
    - destruct Hu as (Ha & He & Hn & _). apply bmany_till_same; auto; apply bmany_till_terminates; auto using reader_consuming, reader_returns; unfold steps_for; lia.
    - unfold matched_by. rewrite (IHa Hu xt yt). reflexivity.
  Qed.
End Budget.

(** * Streams *)
Section Stable.
  Context {I : Type}.

  Lemma stable_map : forall A B E (g : A -> B) (p : parser I A E), stable p -> stable (fun i => map g (p i)).
  Proof.
    intros A B E g p H b l c. specialize (H b l c). destruct (p (mkInput false b)); cbn in *; auto; try (rewrite H; reflexivity).
    intros Hl Hn. destruct (H Hl Hn) as [m ->]. exists m. reflexivity.
  Qed.
  Lemma stable_bind : forall A B E (p : parser I A E) (q : A -> parser I B E), well_behaved p -> stable p -> (forall x, stable (q x)) ->
    stable (fun i => bind (fun e => e) (p i) (fun i x => q x i)).
  Proof.
    intros A B E p q Hw H Hq b l c. specialize (H b l c). pose proof (Hw (mkInput false b)) as Hh.
    destruct (p (mkInput false b)) as [j t|r e|n| |] eqn:Hpb; cbn [upholds bind] in *; auto; try (rewrite H; reflexivity).
    - rewrite H. cbn [bind]. rewrite !honest_map_err_id by exact j. destruct (@honest_mode _ _ _ _ _ _ _ Hh eq_refl) as [-> _]. cbn [buf]. apply Hq.
    - intros Hl Hn. destruct (H Hl Hn) as [m ->]. cbn. eauto.
  Qed.
  Lemma stable_or : forall A E (p q : parser I A E), stable p -> stable q -> stable (or_ p q).
  Proof.
    intros A E p q Hp Hq b l c. specialize (Hp b l c). specialize (Hq b l c). unfold or_.
    destruct (p (mkInput false b)) as [j t|r e|n| |] eqn:Hpb; cbn [upholds] in *; auto; try (rewrite Hp; try reflexivity; assumption).
    cbn. intros Hl Hn. destruct (Hp Hl Hn) as [m ->]. subst. exists m. reflexivity.
  Qed.
  Lemma stable_option : forall A E (p : parser I A E) d, stable p -> stable (option_ p d).
  Proof.
    intros A E p d Hp b l c. specialize (Hp b l c). unfold option_.
    destruct (p (mkInput false b)) as [j t|r e|n| |] eqn:Hpb; cbn [upholds] in *; auto; try (rewrite Hp; try reflexivity; assumption).
    cbn. intros Hl Hn. destruct (Hp Hl Hn) as [m ->]. subst. exists m. reflexivity.
  Qed.
  Lemma stable_slice : forall A E (p : parser I A E), well_behaved p -> stable p -> stable (matched_by p).
  Proof.
    intros A E p Hw Hp b l c. specialize (Hp b l c). unfold matched_by. pose proof (Hw (mkInput false b)) as Hh.
    destruct (p (mkInput false b)) as [j t|r e|n| |] eqn:Hpb; cbn [upholds buf] in *; auto; try (rewrite Hp; reflexivity).
    - rewrite Hp. cbn [buf]. destruct (@honest_mode _ _ _ _ _ _ _ Hh eq_refl) as [Hj Hsuf]. apply suffix_length in Hsuf. rewrite !app_length.
      destruct (Nat.ltb_spec (length b) (length (buf j))); [lia|]. destruct (Nat.ltb_spec (length b + length c) (length (buf j) + length c)); [lia|].
      replace (length b + length c - (length (buf j) + length c)) with (length b - length (buf j)) by lia.
      unfold ret. cbn [upholds]. rewrite firstn_app_le by lia. reflexivity.
    - cbn. intros Hl Hn. destruct (Hp Hl Hn) as [m ->]. exists m. reflexivity.
  Qed.
  (** A family of parsers which does not depend on its index where it answers. *)
  Lemma stable_steps : forall A E (P : nat -> parser I A E) (fuel : input I -> nat), (forall n, stable (P n)) ->
    (forall i n, fuel i <= n -> P n i = P (fuel i) i) -> stable (fun i => P (fuel i) i).
  Proof.
    intros A E P fuel Hs He b l c. set (n := Nat.max (fuel (mkInput false b)) (fuel (mkInput l (b ++ c)))).
    rewrite <- (He (mkInput false b) n) by apply Nat.le_max_l. rewrite <- (He (mkInput l (b ++ c)) n) by apply Nat.le_max_r. apply Hs.
  Qed.
End Stable.

Section Streaming.
  Context {I : Type}.
  Variable v : bool.
  Variable eqb : I -> I -> bool.
  Variable xt : nat.

  Lemma streams_stable : forall T (f : fmt I T), unambiguous eqb f -> streams v eqb xt f -> stable (reader v eqb xt f).
  Proof.
    induction f as [w|c|c|c|n|T0 W N F X p|A B g f IH|A B a IHa b IHb|A B a IHa b IHb|A B a IHa b IHb|A a IHa|r A a IHa|r A a IHa|A B a IHa s IHs|A B a IHa s IHs|A B a IHa e IHe|A a IHa];
      intros Hu Hs; pose proof (unambiguous_grounded eqb _ Hu) as Hg; cbn [unambiguous streams grounded] in *; cbn [reader].
    - apply stable_map. apply safe_stable. constructor.
    - apply safe_stable. constructor.
    - apply safe_stable. constructor.
    - apply safe_stable. constructor.
    - apply safe_stable. constructor.
    - apply Hs.
    - apply stable_map. auto.
    - apply (@stable_bind I A (A * B) (error I) (reader v eqb xt a) (fun x i => map (pair x) (reader v eqb xt b i))); [apply grounded_honest; tauto|tauto|]. intros x. apply stable_map. tauto.
    - apply (@stable_bind I A (A * B) (error I) (reader v eqb xt a) (fun x i => map (pair x) (reader v eqb xt (b x) i))); [apply grounded_honest; tauto|tauto|].
      intros x. apply stable_map. apply IHb; [apply Hu|apply Hs].
    - apply stable_or; apply stable_map; tauto.
    - apply stable_option. apply stable_map. tauto.
    - destruct Hu as (Ha & Hn & Hr & _).
      apply (@stable_steps I (list A) (error I) (fun n i => bmany n (vec_collector A) r tt (pure (reader v eqb xt a)) i) (steps_for xt)).
      + intros n. apply bmany_stable; [apply vec_exhausts|apply pure_carries|intros ?; apply grounded_honest, Hg|intros ?; exact (IHa Ha Hs)].
      + intros i n Hle. apply bmany_same; auto; apply bmany_terminates; auto using reader_consuming, reader_returns; unfold steps_for in *; lia.
    - destruct Hu as (Ha & Hn & Hr & _).
      apply (@stable_steps I unit (error I) (fun n i => bskip_many n r tt (pure (reader v eqb xt a)) i) (steps_for xt)).
      + intros n b l c. apply bskip_stable; [intros ?; apply grounded_honest, Hg|intros ?; exact (IHa Ha Hs)|apply pure_carries].
      + intros i n Hle. pose proof (skip_fine Hr (grounded_honest v eqb xt a (proj2 Hg))) as Hk.
        rewrite (proj2 (@skip_many_lockstep unit I A (error I) (pure (reader v eqb xt a)) r Hk n tt i))
          by (apply bmany_terminates; auto using reader_consuming, reader_returns; unfold steps_for in *; lia).
        rewrite (proj2 (@skip_many_lockstep unit I A (error I) (pure (reader v eqb xt a)) r Hk (steps_for xt i) tt i))
          by (apply bmany_terminates; auto using reader_consuming, reader_returns; unfold steps_for in *; lia).
        f_equal. apply bmany_same; auto; apply bmany_terminates; auto using reader_consuming, reader_returns; unfold steps_for in *; lia.
    - destruct Hu as (Ha & Hb & Hn & _).
      assert (Hst : (forall x, stable (fun i => fst (sep_item (fun e : error I => e) (pure (reader v eqb xt a)) (pure (reader v eqb xt s)) x i))) /\
                    carries (sep_item (fun e : error I => e) (pure (reader v eqb xt a)) (pure (reader v eqb xt s)))).
      { apply sep_item_stable; try apply pure_carries; intros ?; [apply grounded_honest, Hg|apply grounded_honest, Hg|apply IHa; tauto|apply IHs; tauto]. }
      apply (@stable_steps I (list A) (error I) (fun n i => sep_by n (vec_collector A) (fun e => e) tt tt (pure (reader v eqb xt a)) (pure (reader v eqb xt s)) i) (steps_for xt)).
      + intros n. apply bmany_stable; [apply vec_exhausts|apply Hst| |apply Hst]. apply sep_item_honest; intros ?; apply grounded_honest, Hg.
      + intros i n Hle. apply bmany_same; [reflexivity|exists 0; exact Logic.I| |]; apply sep_terminates; auto using reader_consuming, reader_returns, reader_shrinking; unfold steps_for in *; lia.
    - destruct Hu as (Ha & Hb & Hn & _).
      assert (Hst : (forall x, stable (fun i => fst (sep_item (fun e : error I => e) (pure (reader v eqb xt a)) (pure (reader v eqb xt s)) x i))) /\
                    carries (sep_item (fun e : error I => e) (pure (reader v eqb xt a)) (pure (reader v eqb xt s)))).
      { apply sep_item_stable; try apply pure_carries; intros ?; [apply grounded_honest, Hg|apply grounded_honest, Hg|apply IHa; tauto|apply IHs; tauto]. }
      apply (@stable_steps I (list A) (error I) (fun n i => sep_by1 n (vec_collector A) (fun e => e) tt tt (pure (reader v eqb xt a)) (pure (reader v eqb xt s)) i) (steps_for xt)).
      + intros n. apply bmany_stable; [apply vec_exhausts|apply Hst| |apply Hst]. apply sep_item_honest; intros ?; apply grounded_honest, Hg.
      + intros i n Hle. apply bmany_same; [reflexivity|exists 1; apply le_n| |]; apply sep_terminates; auto using reader_consuming, reader_returns, reader_shrinking; unfold steps_for in *; lia.
    - destruct Hu as (Ha & He & Hn & _). destruct Hs as (Hsa & Hse & Hd).
      apply (@stable_steps I (list A) (error I) (fun n i => many_till n (vec_collector A) tt tt (pure (reader v eqb xt a)) (pure (reader v eqb xt e)) i) (steps_for xt)).
      + intros n. apply bmany_till_stable; [apply vec_exhausts|apply pure_carries|exact Hd|intros ?; apply grounded_honest, Hg|intros ?; exact (IHa Ha Hsa)|apply grounded_honest, Hg|exact (IHe He Hse)].
      + intros i n Hle. apply bmany_till_same; auto; apply bmany_till_terminates; auto using reader_consuming, reader_returns; unfold steps_for in *; lia.
    - apply stable_slice; [apply grounded_honest, Hg|tauto].
  Qed.

  Lemma hungry_many : forall A (p : parser I A (error I)) r fuel, hungry false p -> nonempty r -> bmany fuel (vec_collector A) r tt (pure p) (mkInput false []) <> NoFuel ->
    hungry (allows_none r) (fun i => bmany fuel (vec_collector A) r tt (pure p) i).
  Proof.
    intros A p r fuel [[n Hn]|[H _]] Hr Hz; [|discriminate]. assert (Hi : forall x us y j, iterates (pure p) x (mkInput false []) us y j -> us = [] /\ j = mkInput false []).
    { intros x us y j H. inversion H as [|s i u s1 i1 us1 s2 i2 Hu _]; subst; [auto|]. unfold pure in Hu. rewrite Hn in Hu. discriminate. }
    unfold hungry. pose proof (@bmany_sound _ _ _ _ (pure p) fuel r tt (mkInput false []) _ Hr eq_refl Hz) as Hm.
    inversion Hm as [us y j Hit Hin Hg Heq|us y j b e Hit _ _ Hg Heq|us y j m Hit _ Hg _ Heq|us y j Hit _ Hg Heq]; destruct (Hi _ _ _ _ Hit) as [-> ->].
    - right. split; [|eauto]. destruct r; cbn in *; auto; apply Nat.eqb_eq; lia.
    - cbn in Hg. congruence.
    - left. eauto.
    - cbn in Hg. congruence.
  Qed.

  Lemma streams_hungry : forall T (f : fmt I T), unambiguous eqb f -> streams v eqb xt f -> hungry (nul f) (reader v eqb xt f).
  Proof.
    induction f as [w|c|c|c|n|T0 W N F X p|A B g f IH|A B a IHa b IHb|A B a IHa b IHb|A B a IHa b IHb|A a IHa|r A a IHa|r A a IHa|A B a IHa s IHs|A B a IHa s IHs|A B a IHa e IHe|A a IHa];
      intros Hu Hs; pose proof (unambiguous_grounded eqb _ Hu) as Hg; cbn [unambiguous streams grounded] in *; cbn [reader nul].
    - destruct w as [|x w]; [right; split; [reflexivity|]; exists tt; reflexivity|]. left. eexists. reflexivity.
    - left. eexists. reflexivity.
    - left. eexists. reflexivity.
    - left. eexists. reflexivity.
    - destruct n; [right; split; [reflexivity|]; eexists; reflexivity|]. left. eexists. reflexivity.
    - apply Hs.
    - destruct (IH Hu Hs) as [[n H]|[Hn [x H]]]; [left|right; split; [exact Hn|]]; rewrite H; eexists; reflexivity.
    - destruct (IHa (proj1 Hu) (proj1 Hs)) as [[n H]|[Hn [x H]]]; [left; rewrite H; eexists; reflexivity|]. unfold hungry. rewrite Hn, H, bind_id_data.
      destruct (IHb (proj1 (proj2 Hu)) (proj2 Hs)) as [[n H2]|[Hn2 [y H2]]]; [left|right; split; [exact Hn2|]]; rewrite H2; eexists; reflexivity.
    - destruct Hu as (Ha & Hn & _). destruct (IHa Ha (proj1 Hs)) as [[n H]|[Hn2 _]]; [|congruence]. left. rewrite H. eexists. reflexivity.
    - destruct Hu as (Ha & _ & Hn & _). destruct (IHa Ha (proj1 Hs)) as [[n H]|[Hn2 _]]; [|congruence]. left. unfold or_. rewrite H. eexists. reflexivity.
    - destruct Hu as (Ha & Hn). destruct (IHa Ha Hs) as [[n H]|[Hn2 _]]; [|congruence]. left. unfold option_. rewrite H. eexists. reflexivity.
    - destruct Hu as (Ha & Hn & Hr & _). specialize (IHa Ha Hs). rewrite Hn in IHa. apply (hungry_many (steps_for xt (mkInput false (@nil I))) IHa Hr).
      apply bmany_terminates; auto using reader_consuming, reader_returns; unfold steps_for in *; lia.
    - destruct Hu as (Ha & Hn & Hr & _). specialize (IHa Ha Hs). rewrite Hn in IHa. pose proof (skip_fine Hr (grounded_honest v eqb xt a (proj2 Hg))) as Hk.
      assert (Hz : bmany (steps_for xt (mkInput false (@nil I))) (vec_collector A) r tt (pure (reader v eqb xt a)) (mkInput false []) <> NoFuel)
        by (apply bmany_terminates; [apply reader_returns, Ha|apply reader_consuming; assumption|unfold steps_for; cbn [buf length]; lia]).
      unfold hungry. rewrite (proj2 (@skip_many_lockstep unit I A (error I) (pure (reader v eqb xt a)) r Hk (steps_for xt (mkInput false (@nil I))) tt (mkInput false [])) Hz).
      destruct (hungry_many (steps_for xt (mkInput false (@nil I))) IHa Hr Hz) as [[n H]|[H0 [x H]]]; cbv beta in H; rewrite H; [left|right; split; [exact H0|]]; eexists; reflexivity.
    - destruct Hu as (Ha & Hb & Hn & _). destruct (IHa Ha (proj1 Hs)) as [[n H]|[Hn2 _]]; [|congruence]. left. exists n.
      unfold steps_for. replace (length (buf (mkInput false (@nil I))) + 2 + xt) with (S (S xt)) by (cbn; lia). rewrite sep_by_option.
      + unfold option_. rewrite sep_by1_char. unfold first_then, pure at 1. rewrite H. reflexivity.
      + intros x i j u x1 Hx. injection Hx as Hx _. pose proof (grounded_honest v eqb xt a (proj1 Hg) i) as Hh. rewrite Hx in Hh. apply Hh.
      + intros x i j u x1 Hx. injection Hx as Hx _. pose proof (grounded_honest v eqb xt s (proj2 Hg) i) as Hh. rewrite Hx in Hh. apply Hh.
    - destruct Hu as (Ha & Hb & Hn & _). destruct (IHa Ha (proj1 Hs)) as [[n H]|[Hn2 _]]; [|congruence]. left. exists n.
      unfold steps_for. replace (length (buf (mkInput false (@nil I))) + 2 + xt) with (S (S xt)) by (cbn; lia). rewrite sep_by1_char. unfold first_then, pure at 1. rewrite H. reflexivity.
    - destruct Hu as (Ha & He & Hn & Hm & _). destruct (IHa Ha (proj1 Hs)) as [[n H]|[Hn2 _]]; [|congruence]. destruct (IHe He (proj1 (proj2 Hs))) as [[m H2]|[Hn2 _]]; [|congruence]. left.
      assert (Hr : nonempty RFull) by (exists 0; exact Logic.I).
      assert (Hz : many_till (steps_for xt (mkInput false (@nil I))) (vec_collector A) tt tt (pure (reader v eqb xt a)) (pure (reader v eqb xt e)) (mkInput false []) <> NoFuel)
        by (apply bmany_till_terminates; auto using reader_consuming, reader_returns; unfold steps_for in *; lia).
      destruct (proj1 (@bmany_till_char unit I A B (error I) (error I) (pure (reader v eqb xt a)) (reader v eqb xt e) RFull Hr) _ tt _ _ eq_refl Hz) as (res & Ho & Hq). cbn [till_quirk] in Hq.
      assert (Hi : forall us y j, iterates_till RFull (pure (reader v eqb xt a)) (reader v eqb xt e) 0 tt (mkInput false []) us y j -> j = mkInput false []).
      { intros us y j Hx. inversion Hx as [|k s i u s1 i1 us1 s2 i2 _ Hu _]; subst; [reflexivity|]. unfold pure in Hu. rewrite H in Hu. discriminate. }
      unfold many_till. rewrite Hq. inversion Ho as [us y j k x Hit _ Hx|us y j b x Hit _ _ Hx|us y j k Hit _ _ Hx|us y j Hit _ _ Hx|us y j Hit _ _ Hx|us y j Hit _ Hx]; subst;
        try (apply Hi in Hit; subst j; cbn in Hx; congruence); eauto.
    - destruct (IHa Hu Hs) as [[n H]|[Hn [x H]]]; [left|right; split; [exact Hn|]]; unfold matched_by; rewrite H; eexists; reflexivity.
  Qed.
End Streaming.
