(** Proofs about loops as recursive functions. *)
From Coq Require Import List Bool Arith Lia.
From Verif Require Import Base Parsers Combinators SpecBase SpecIter SpecSep SpecLaws SpecUnfold BaseProofs IterProofs ManyProofs TillProofs SkipProofs LawsProofs.
Import ListNotations.

Set Implicit Arguments.

Section Many.
  Context {St I U E : Type}.
  Variable p : sparser St I U E.

  Lemma settles_outcome : forall r s i res, nonempty r -> (settles (fun fuel => bmany fuel (vec_collector U) r s p i) res <-> many_outcome r p s i res).
  Proof.
    intros r s i res Hr. split.
    - intros [Hn [f Hf]]. apply (@bmany_sound St I U E p f r s i res Hr); auto.
    - intros Ho. split; [inversion Ho; discriminate|]. apply (@bmany_complete St I U E p r s i res Hr Ho).
  Qed.

  Variables r r' : range.
  Hypothesis Hsucc : forall k, in_range r (S k) <-> in_range r' k.
  Hypothesis Hne : nonempty r'.

  Lemma grow_succ : forall k, may_grow r (S k) <-> may_grow r' k.
  Proof.
    intros k. split; intros (k' & Hk & Hin).
    - destruct k' as [|k']; [lia|]. exists k'. split; [lia|]. apply Hsucc, Hin.
    - exists (S k'). split; [lia|]. apply Hsucc, Hin.
  Qed.
  Lemma grow_zero : may_grow r 0.
  Proof. destruct Hne as [k Hk]. exists (S k). split; [lia|]. apply Hsucc, Hk. Qed.

  Lemma outcome_first : forall s i res, in_range r 0 \/ ~ in_range r 0 ->
    (many_outcome r p s i res <->
     match p s i with
     | (Data j u, s1) => exists x, many_outcome r' p s1 j x /\ res = map (cons u) x
     | (Error b e, _) => in_range r 0 /\ res = Data i [] \/ ~ in_range r 0 /\ res = Error b e
     | (Incomplete n, _) => in_range r 0 /\ last i = true /\ res = Data i [] \/ (~ in_range r 0 \/ last i = false) /\ res = Incomplete n
     | (Panic, _) => res = Panic
     | (NoFuel, _) => False
     end).
  Proof.
    intros s i res Hdec. split.
    - intros Ho. inversion Ho as [us s' j Hit Hin Hstop|us s' j b e Hit Hin Hg He|us s' j n Hit Hg Hn Hor|us s' j Hit Hg Hp]; subst;
        (destruct Hit as [s0 i0|s0 i0 u s1 i1 us s2 i2 Hu Hit]; [|rewrite Hu]).
      + destruct Hstop as [Hstop|Hstop]; [destruct (Hstop grow_zero)|]. destruct Hstop as [(b & e & H)|(n & H & Hl)]; destruct (p s0 i0) as [x s1]; cbn in H; subst x; auto.
      + exists (Data i2 us). split; [|reflexivity]. eapply mo_data; [exact Hit|apply Hsucc, Hin|]. destruct Hstop as [H|H]; [left|right; exact H]. intros Hg. apply H. apply grow_succ, Hg.
      + destruct (p s0 i0) as [x s1]. cbn in He. subst x. auto.
      + exists (Error b e). split; [|reflexivity]. eapply mo_error; [exact Hit| |apply grow_succ, Hg|exact He]. intros H. apply Hin. apply Hsucc, H.
      + destruct (p s0 i0) as [x s1]. cbn in Hn. subst x. auto.
      + exists (Incomplete n). split; [|reflexivity]. eapply mo_incomplete; [exact Hit|apply grow_succ, Hg|exact Hn|]. destruct Hor as [H|H]; [left|right; exact H].
        intros Hi. apply H. apply Hsucc, Hi.
      + destruct (p s0 i0) as [x s1]. cbn in Hp. subst x. auto.
      + exists Panic. split; [|reflexivity]. eapply mo_panic; [exact Hit|apply grow_succ, Hg|exact Hp].
    - destruct (p s i) as [[j u|b e|n| |] s1] eqn:Hp; intros H.
      + destruct H as (x & Ho & ->). inversion Ho as [us s' j' Hit Hin Hstop|us s' j' b e Hit Hin Hg He|us s' j' n Hit Hg Hn Hor|us s' j' Hit Hg Hp']; subst; cbn [map].
        * eapply mo_data; [econstructor; eassumption|apply Hsucc, Hin|]. destruct Hstop as [H|H]; [left|right; exact H]. intros Hg. apply H. apply grow_succ, Hg.
        * eapply mo_error; [econstructor; eassumption| |apply grow_succ, Hg|exact He]. intros H. apply Hin. apply Hsucc, H.
        * eapply mo_incomplete; [econstructor; eassumption|apply grow_succ, Hg|exact Hn|]. destruct Hor as [H|H]; [left|right; exact H]. intros Hi. apply H. apply Hsucc, Hi.
        * eapply mo_panic; [econstructor; eassumption|apply grow_succ, Hg|exact Hp'].
      + destruct H as [[H ->]|[H ->]].
        * eapply mo_data; [constructor|exact H|]. right. left. exists b, e. rewrite Hp. reflexivity.
        * eapply mo_error; [constructor|exact H|apply grow_zero|]. rewrite Hp. reflexivity.
      + destruct H as [(H & Hl & ->)|[H ->]].
        * eapply mo_data; [constructor|exact H|]. right. right. exists n. rewrite Hp. auto.
        * eapply mo_incomplete; [constructor|apply grow_zero|rewrite Hp; reflexivity|exact H].
      + subst res. eapply mo_panic; [constructor|apply grow_zero|]. rewrite Hp. reflexivity.
      + contradiction.
  Qed.
End Many.

Lemma iterates_mode : forall St I U E (p : sparser St I U E), keeps_mode p -> forall s i us s' j, iterates p s i us s' j -> last j = last i.
Proof. induction 2 as [|s i u s1 i1 us s2 i2 Hu Hit IH]; [reflexivity|]. rewrite IH. apply (H _ _ _ _ _ Hu). Qed.

(** What does not have to be there does not fail. *)
Lemma outcome_optional : forall St I U E (p : sparser St I U E) r s i res, keeps_mode p -> (forall k, in_range r k \/ ~ may_grow r k) -> many_outcome r p s i res ->
  (forall b e, res <> Error b e) /\ (forall n, res = Incomplete n -> last i = false).
Proof.
  intros St I U E p r s i res Hk Hr Ho. inversion Ho as [us s' j Hit Hin Hstop|us s' j b e Hit Hin Hg He|us s' j n Hit Hg Hn Hor|us s' j Hit Hg Hp]; subst; split; try discriminate.
  - destruct (Hr (length us)); contradiction.
  - intros m _. rewrite <- (iterates_mode Hk Hit). destruct Hor as [H|H]; [|exact H]. destruct (Hr (length us)); contradiction.
Qed.

Lemma interval : forall r, in_range r 0 -> forall k, in_range r k \/ ~ may_grow r k.
Proof.
  intros r H0 k. assert (Hd : in_range r k \/ ~ in_range r k) by (destruct r; simpl; lia). destruct Hd as [H|H]; [auto|]. right. intros (k' & Hk & Hin). apply H.
  destruct r; simpl in *; lia.
Qed.
Lemma range_dec : forall r k, in_range r k \/ ~ in_range r k.
Proof. intros [a b|a| |b|n] k; simpl; lia. Qed.


(** * Repetitions *)

Section Unfold.
  Context {St I U E : Type}.
  Variable p : sparser St I U E.
  Variables r r' : range.
  Hypothesis Hsucc : forall k, in_range r (S k) <-> in_range r' k.
  Hypothesis Hne : nonempty r'.

  Lemma nonempty_succ : nonempty r.
  Proof. destruct Hne as [k Hk]. exists (S k). apply Hsucc, Hk. Qed.

  (** One application, then the rest. *)
  Definition once_more (fuel : nat) (s : St) (i : input I) : pres I (list U) E :=
    bind (fun e => e) (fst (p s i)) (fun j u => map (cons u) (bmany fuel (vec_collector U) r' (snd (p s i)) p j)).

  Lemma unfold_required : ~ in_range r 0 -> forall s i, alike (fun fuel => bmany fuel (vec_collector U) r s p i) (fun fuel => once_more fuel s i).
  Proof.
    intros H0 s i res. rewrite (settles_outcome p s i res nonempty_succ), (@outcome_first St I U E p r r' Hsucc Hne s i res (or_intror H0)). unfold once_more.
    destruct (p s i) as [[j u|b e|n| |] s1]; cbn [fst snd bind].
    - split.
      + intros (x & Ho & ->). destruct (proj2 (settles_outcome p s1 j x Hne) Ho) as [Hn [f0 Hf]]. split; [destruct x; try discriminate; congruence|].
        exists f0. intros fuel Hfu. rewrite (Hf fuel Hfu). apply map_err_same.
      + intros [Hn [f0 Hf]]. pose proof (Hf f0 (le_n f0)) as H. rewrite map_err_same in H. exists (bmany f0 (vec_collector U) r' s1 p j). split; [|auto].
        apply (@bmany_sound St I U E p f0 r' s1 j _ Hne eq_refl). intros Hx. rewrite Hx in H. cbn in H. congruence.
    - rewrite settles_const. split; [intros [[? _]|[_ ->]]; [contradiction|split; [reflexivity|discriminate]]|]. intros [<- _]. auto.
    - rewrite settles_const. split; [intros [[? _]|[_ ->]]; [contradiction|split; [reflexivity|discriminate]]|]. intros [<- _]. auto.
    - rewrite settles_const. split; [intros ->; split; [reflexivity|discriminate]|]. intros [<- _]. reflexivity.
    - rewrite settles_const. split; [contradiction|]. intros [<- H]. congruence.
  Qed.

  Lemma unfold_optional : in_range r 0 -> keeps_mode p -> forall s i,
    alike (fun fuel => bmany fuel (vec_collector U) r s p i) (fun fuel => or_ (once_more fuel s) (ret []) i).
  Proof.
    intros H0 Hk s i res. rewrite (settles_outcome p s i res nonempty_succ), (@outcome_first St I U E p r r' Hsucc Hne s i res (or_introl H0)). unfold or_, once_more.
    assert (H0' : in_range r' 0).
    { destruct Hne as [k Hk']. apply Hsucc in Hk'. apply Hsucc. clear Hsucc Hne. destruct r; simpl in *; lia. }
    destruct (p s i) as [[j u|b e|n| |] s1] eqn:Hp; cbn [fst snd bind].
    - assert (Hx : forall x, many_outcome r' p s1 j x -> forall T (g : T), match map_err (fun e => e) (map (cons u) x) with Data b d => ret d b | Error _ _ => ret [] i
        | Incomplete n => if last i then ret [] i else incomplete n i | Panic => Panic | NoFuel => NoFuel end = map (cons u) x).
      { intros x Ho _ _. destruct (outcome_optional Hk (interval _ H0') Ho) as [He Hi]. rewrite map_err_same. destruct x as [j' us|b e|n| |]; try reflexivity.
        - destruct (He b e eq_refl).
        - cbn [map]. specialize (Hi n eq_refl). rewrite (Hk _ _ _ _ _ Hp) in Hi. rewrite Hi. reflexivity. }
      split.
      + intros (x & Ho & ->). destruct (proj2 (settles_outcome p s1 j x Hne) Ho) as [Hn [f0 Hf]]. split; [destruct x; try discriminate; congruence|].
        exists f0. intros fuel Hfu. rewrite (Hf fuel Hfu). apply (Hx x Ho nat 0).
      + intros [Hn [f0 Hf]]. pose proof (Hf f0 (le_n f0)) as H.
        assert (Ho : many_outcome r' p s1 j (bmany f0 (vec_collector U) r' s1 p j)).
        { apply (@bmany_sound St I U E p f0 r' s1 j _ Hne eq_refl). intros Hb. rewrite Hb in H. cbn in H. congruence. }
        rewrite (Hx _ Ho nat 0) in H. eauto.
    - rewrite settles_const. split; [intros [[_ ->]|[? _]]; [split; [reflexivity|discriminate]|contradiction]|]. intros [<- _]. auto.
    - rewrite settles_const. destruct (last i) eqn:Hl.
      + split; [intros [(_ & _ & ->)|[[?|?] _]]; [split; [reflexivity|discriminate]|contradiction|discriminate]|]. intros [<- _]. auto.
      + split; [intros [(_ & ? & _)|[_ ->]]; [discriminate|split; [reflexivity|discriminate]]|]. intros [<- _]. auto.
    - rewrite settles_const. split; [intros ->; split; [reflexivity|discriminate]|]. intros [<- _]. reflexivity.
    - rewrite settles_const. split; [contradiction|]. intros [<- H]. congruence.
  Qed.
End Unfold.

(** What comes of one step and the rest. *)
Lemma settles_after : forall St I U E (q : sparser St I U E) r s (x : pres I U E) res, nonempty r ->
  (settles (fun fuel => bind (fun e => e) x (fun j u => map (cons u) (bmany fuel (vec_collector U) r s q j))) res <->
   match x with
   | Data j u => exists y, many_outcome r q s j y /\ res = map (cons u) y
   | Error b e => res = Error b e
   | Incomplete n => res = Incomplete n
   | Panic => res = Panic
   | NoFuel => False
   end).
Proof.
  intros St I U E q r s x res Hr. destruct x as [j u|b e|n| |]; cbn [bind]; try (rewrite settles_const).
  - split.
    + intros [Hn [f0 Hf]]. pose proof (Hf f0 (le_n f0)) as H. rewrite map_err_same in H. exists (bmany f0 (vec_collector U) r s q j). split; [|auto].
      apply (@bmany_sound St I U E q f0 r s j _ Hr eq_refl). intros Hx. rewrite Hx in H. cbn in H. congruence.
    + intros (y & Ho & ->). destruct (proj2 (settles_outcome q s j y Hr) Ho) as [Hn [f0 Hf]]. split; [destruct y; try discriminate; congruence|].
      exists f0. intros fuel Hfu. rewrite (Hf fuel Hfu). apply map_err_same.
  - split; [intros [<- _]; reflexivity|intros ->; split; [reflexivity|discriminate]].
  - split; [intros [<- _]; reflexivity|intros ->; split; [reflexivity|discriminate]].
  - split; [intros [<- _]; reflexivity|intros ->; split; [reflexivity|discriminate]].
  - split; [intros [<- H]; congruence|contradiction].
Qed.

(** * Separators *)

Section Sep.
  Context {I U V E N : Type}.
  Variable conv : N -> E.
  Variable p : parser I U E.
  Variable sep : parser I V N.
  Notation item := (sep_item conv (pure p) (pure sep)).
  Notation next := (fun j => then_ conv (sep j) p).

  Lemma item_next : forall i, item (true, tt, tt) i = (next i, (true, tt, tt)).
  Proof.
    intros i. unfold sep_item, pure, then_, inspect. cbn. destruct (sep i) as [j v|b e|n| |]; cbn; try reflexivity. destruct (p j); reflexivity.
  Qed.
  Lemma item_first : forall i, item (false, tt, tt) i = (p i, (match p i with Data _ _ => true | _ => false end, tt, tt)).
  Proof. intros i. unfold sep_item, pure, then_, inspect. cbn. destruct (p i); reflexivity. Qed.

  Lemma items_next : forall us s i s' j, iterates item s i us s' j -> s = (true, tt, tt) -> s' = (true, tt, tt) /\ iterates (pure next) tt i us tt j.
  Proof.
    induction 1 as [s i|s i u s1 i1 us s2 i2 Hu Hit IH]; intros ->; [split; [reflexivity|constructor]|]. rewrite item_next in Hu. injection Hu as Hu <-.
    destruct (IH eq_refl) as [-> H]. split; [reflexivity|]. econstructor; [|exact H]. unfold pure. rewrite Hu. reflexivity.
  Qed.
  Lemma next_items : forall us s i s' j, iterates (pure next) s i us s' j -> iterates item (true, tt, tt) i us (true, tt, tt) j.
  Proof.
    induction 1 as [s i|s i u s1 i1 us s2 i2 Hu Hit IH]; [constructor|]. econstructor; [|exact IH]. rewrite item_next. unfold pure in Hu. injection Hu as -> _. reflexivity.
  Qed.

  Lemma outcome_next : forall r i res, many_outcome r item (true, tt, tt) i res <-> many_outcome r (pure next) tt i res.
  Proof.
    assert (Hf : forall i, fst (item (true, tt, tt) i) = next i) by (intros i; rewrite item_next; reflexivity).
    intros r i res. split; intros H.
    - inversion H as [us s j Hit Hin Hstop|us s j b e Hit Hin Hg He|us s j n Hit Hg Hn Hor|us s j Hit Hg Hp]; subst; destruct (items_next Hit eq_refl) as [-> Hit']; rewrite ?Hf in *.
      + eapply mo_data; eauto. destruct Hstop as [Hs|Hs]; [left; exact Hs|right]. unfold gives_up in *. rewrite Hf in Hs. exact Hs.
      + eapply mo_error; eauto.
      + eapply mo_incomplete; eauto.
      + eapply mo_panic; eauto.
    - inversion H as [us s j Hit Hin Hstop|us s j b e Hit Hin Hg He|us s j n Hit Hg Hn Hor|us s j Hit Hg Hp]; subst; pose proof (next_items Hit) as Hit'.
      + eapply mo_data; eauto. destruct Hstop as [Hs|Hs]; [left; exact Hs|right]. unfold gives_up in *. rewrite Hf. exact Hs.
      + eapply mo_error; eauto. rewrite Hf. exact He.
      + eapply mo_incomplete; eauto. rewrite Hf. exact Hn.
      + eapply mo_panic; eauto. rewrite Hf. exact Hp.
  Qed.

  Lemma sep_by1_unfold : forall i,
    alike (fun fuel => sep_by1 fuel (vec_collector U) conv tt tt (pure p) (pure sep) i)
      (fun fuel => bind (fun e => e) (p i) (fun j u => map (cons u) (many fuel (vec_collector U) tt (pure next) j))).
  Proof.
    intros i res. assert (Hfull : nonempty RFull) by (exists 0; exact Logic.I). unfold sep_by1, many.
    rewrite (settles_outcome item (false, tt, tt) i res) by (exists 1; cbn; lia).
    rewrite (@outcome_first _ I U E item (RFrom 1) RFull) by (cbn; auto; intros; cbn; lia).
    rewrite settles_after by exact Hfull. rewrite item_first. destruct (p i) as [j u|b e|n| |]; try reflexivity.
    - split; intros (x & Ho & ->); exists x; (split; [|reflexivity]); apply outcome_next; exact Ho.
    - cbn. split; [intros [[H _]|[_ H]]; [lia|exact H]|intros H; right; split; [lia|exact H]].
    - cbn. split; [intros [[H _]|[_ H]]; [lia|exact H]|intros H; right; split; [left; lia|exact H]].
  Qed.

  Lemma sep_by_unfold : keeps_mode (pure p) -> keeps_mode (pure sep) -> forall i,
    alike (fun fuel => sep_by fuel (vec_collector U) conv tt tt (pure p) (pure sep) i)
      (fun fuel => or_ (fun i => sep_by1 fuel (vec_collector U) conv tt tt (pure p) (pure sep) i) (ret []) i).
  Proof.
    intros Hp Hs i res. assert (Hfull : nonempty RFull) by (exists 0; exact Logic.I). unfold sep_by.
    rewrite (settles_outcome item (false, tt, tt) i res Hfull). rewrite (@outcome_first _ I U E item RFull RFull) by (cbn; auto; tauto).
    assert (H1 : forall x, settles (fun fuel => sep_by1 fuel (vec_collector U) conv tt tt (pure p) (pure sep) i) x <-> 
      match p i with Data j u => exists y, many_outcome RFull (pure next) tt j y /\ x = map (cons u) y | Error b e => x = Error b e | Incomplete n => x = Incomplete n
      | Panic => x = Panic | NoFuel => False end).
    { intros x. rewrite (sep_by1_unfold i x). unfold many. apply settles_after. exact Hfull. }
    assert (Hn : keeps_mode (pure next)).
    { intros s j k u s1 H. unfold pure, then_ in H. injection H as H _. destruct (sep j) as [j' v|b e|n| |] eqn:Ej; cbn in H; try discriminate. rewrite map_err_same in H.
      transitivity (last j').
      - apply (Hp tt j' k u tt). unfold pure. rewrite H. reflexivity.
      - apply (Hs tt j j' v tt). unfold pure. rewrite Ej. reflexivity. }
    assert (Hor : forall x, settles (fun fuel => sep_by1 fuel (vec_collector U) conv tt tt (pure p) (pure sep) i) x ->
      forall y, (settles (fun fuel => or_ (fun i => sep_by1 fuel (vec_collector U) conv tt tt (pure p) (pure sep) i) (ret []) i) y <-> or_ (fun _ => x) (ret []) i = y)).
    { intros x Hx y. assert (Hy : settles (fun fuel => or_ (fun i => sep_by1 fuel (vec_collector U) conv tt tt (pure p) (pure sep) i) (ret []) i) (or_ (fun _ => x) (ret []) i)).
      { destruct Hx as [Hx [f0 Hf]]. split.
        - unfold or_. destruct x; try discriminate; try congruence. destruct (last i); discriminate.
        - exists f0. intros fuel Hfu. unfold or_. rewrite (Hf fuel Hfu). reflexivity. }
      split; [intros H; apply (settles_det Hy H)|intros <-; exact Hy]. }
    rewrite item_first. destruct (p i) as [j u|b e|n| |] eqn:Ep.
    - split.
      + intros (x & Ho & ->). apply outcome_next in Ho. rewrite (Hor (map (cons u) x)) by (apply H1; eauto). unfold or_.
        destruct (outcome_optional Hn (interval RFull Logic.I) Ho) as [He Hi]. destruct x as [k us|b e|n| |]; try reflexivity; [destruct (He b e eq_refl)|].
        cbn [map]. specialize (Hi n eq_refl). rewrite (Hp tt i j u tt) in Hi by (unfold pure; rewrite Ep; reflexivity). rewrite Hi. reflexivity.
      + intros [Hne [f0 Hf]]. 
        assert (Hs1 : exists x, settles (fun fuel => sep_by1 fuel (vec_collector U) conv tt tt (pure p) (pure sep) i) x).
        { pose proof (Hf f0 (le_n f0)) as H. unfold or_, sep_by1 in H. exists (bmany f0 (vec_collector U) (RFrom 1) (false, tt, tt) item i).
          apply (settles_outcome item (false, tt, tt) i). { exists 1. cbn. lia. } 
          apply (@bmany_sound _ I U E item f0 (RFrom 1) (false, tt, tt) i _); [exists 1; cbn; lia|reflexivity|]. intros Hx. rewrite Hx in H. congruence. }
        destruct Hs1 as [x Hx]. pose proof (proj1 (Hor x Hx res) (conj Hne (ex_intro _ f0 Hf))) as <-. apply H1 in Hx. destruct Hx as (y & Ho & ->). exists y. split; [apply outcome_next; exact Ho|].
        unfold or_. destruct (outcome_optional Hn (interval RFull Logic.I) Ho) as [He Hi]. destruct y as [k us|b e|n| |]; try reflexivity; [destruct (He b e eq_refl)|].
        cbn [map]. specialize (Hi n eq_refl). rewrite (Hp tt i j u tt) in Hi by (unfold pure; rewrite Ep; reflexivity). rewrite Hi. reflexivity.
    - rewrite (Hor (Error b e)) by (apply H1; reflexivity). cbn. split; [intros [[_ ->]|[[] _]]; auto|]. intros <-. auto.
    - rewrite (Hor (Incomplete n)) by (apply H1; reflexivity). unfold or_. cbn. destruct (last i).
      + split; [intros [(_ & _ & ->)|[[[]|H] _]]; [reflexivity|exact Logic.I|discriminate]|]. intros <-. auto.
      + split; [intros [(_ & H & _)|[_ ->]]; [discriminate|reflexivity]|]. intros <-. auto.
    - rewrite (Hor Panic) by (apply H1; reflexivity). cbn. split; auto.
    - split; [contradiction|]. intros [Hne [f0 Hf]]. pose proof (Hf f0 (le_n f0)) as H.
      assert (Hs1 : settles (fun fuel => sep_by1 fuel (vec_collector U) conv tt tt (pure p) (pure sep) i) (bmany f0 (vec_collector U) (RFrom 1) (false, tt, tt) item i)).
      { unfold or_, sep_by1 in H. apply (settles_outcome item (false, tt, tt) i). { exists 1. cbn. lia. }
        apply (@bmany_sound _ I U E item f0 (RFrom 1) (false, tt, tt) i _); [exists 1; cbn; lia|reflexivity|]. intros Hx. rewrite Hx in H. congruence. }
      apply H1 in Hs1. exact Hs1.
  Qed.
End Sep.

(** * Up to an end *)

Section Till.
  Context {St I U V E N : Type}.
  Variable p : sparser St I U E.
  Variable end_ : parser I V N.

  Lemma till_any_count : forall k s i us s' j, iterates_till RFull p end_ k s i us s' j -> forall k', iterates_till RFull p end_ k' s i us s' j.
  Proof. induction 1 as [|k s i u s1 i1 us s2 i2 He Hu Hit IH]; intros k'; econstructor; eauto. Qed.

  Lemma settles_till : forall s i res,
    settles (fun fuel => many_till fuel (vec_collector U) s tt p (pure end_) i) res <-> till_outcome RFull p end_ s i res.
  Proof.
    assert (Hr : nonempty RFull) by (exists 0; exact Logic.I). destruct (bmany_till_char p end_ Hr) as [H1 H2]. intros s i res. split.
    - intros [Hn [f Hf]]. destruct (H1 f s i res (Hf f (le_n f)) Hn) as (x & Hx & ->). exact Hx.
    - intros Ho. split; [inversion Ho; discriminate|]. exact (H2 s i res Ho).
  Qed.

  Lemma till_first : forall s i res, till_outcome RFull p end_ s i res <->
    match end_ i with
    | Data k _ => res = Data k []
    | Panic => res = Panic
    | NoFuel => False
    | _ => match p s i with
           | (Data j u, s1) => exists x, till_outcome RFull p end_ s1 j x /\ res = map (cons u) x
           | (Error b e, _) => res = Error b e
           | (Incomplete n, _) => res = Incomplete n
           | (Panic, _) => res = Panic
           | (NoFuel, _) => False
           end
    end.
  Proof.
    assert (Hg : forall k, may_grow RFull k) by (intros k; exists (S k); split; [lia|exact Logic.I]).
    intros s i res. split.
    - intros Ho. inversion Ho as [us s' j k v Hit Hin He|us s' j b e Hit Hef _ Hp|us s' j n Hit Hef _ Hp|us s' j Hit Hin Hef Hng|us s' j Hit Hef _ Hp|us s' j Hit Hin He]; subst;
        try (destruct (Hng (Hg _))); (destruct Hit as [k0 s0 i0|k0 s0 i0 u s1 i1 us s2 i2 He0 Hu Hit]).
      + rewrite He. reflexivity.
      + destruct (He0 Logic.I) as [(b & e & ->)|[n ->]]; rewrite Hu; exists (Data k us); (split; [|reflexivity]); eapply to_data; eauto using till_any_count.
      + destruct (Hef Logic.I) as [(b' & e' & ->)|[n ->]]; destruct (p s0 i0) as [x s1]; cbn in Hp; subst x; reflexivity.
      + destruct (He0 Logic.I) as [(b' & e' & ->)|[n ->]]; rewrite Hu; exists (Error b e); (split; [|reflexivity]); eapply to_error; eauto using till_any_count.
      + destruct (Hef Logic.I) as [(b' & e' & ->)|[m ->]]; destruct (p s0 i0) as [x s1]; cbn in Hp; subst x; reflexivity.
      + destruct (He0 Logic.I) as [(b' & e' & ->)|[m ->]]; rewrite Hu; exists (Incomplete n); (split; [|reflexivity]); eapply to_incomplete; eauto using till_any_count.
      + destruct (Hef Logic.I) as [(b' & e' & ->)|[m ->]]; destruct (p s0 i0) as [x s1]; cbn in Hp; subst x; reflexivity.
      + destruct (He0 Logic.I) as [(b' & e' & ->)|[m ->]]; rewrite Hu; exists Panic; (split; [|reflexivity]); eapply to_panic; eauto using till_any_count.
      + rewrite He. reflexivity.
      + destruct (He0 Logic.I) as [(b' & e' & ->)|[m ->]]; rewrite Hu; exists Panic; (split; [|reflexivity]); eapply to_panic_end; eauto using till_any_count.
    - assert (Hrest : (exists b e, end_ i = Error b e) \/ (exists n, end_ i = Incomplete n) ->
        match p s i with
        | (Data j u, s1) => exists x, till_outcome RFull p end_ s1 j x /\ res = map (cons u) x
        | (Error b e, _) => res = Error b e
        | (Incomplete n, _) => res = Incomplete n
        | (Panic, _) => res = Panic
        | (NoFuel, _) => False
        end -> till_outcome RFull p end_ s i res).
      { intros He H. assert (Hef : end_fails RFull end_ 0 i) by (intros _; exact He). destruct (p s i) as [[j u|b e|n| |] s1] eqn:Hp.
        - destruct H as (x & Ho & ->).
          inversion Ho as [us s' j' k v Hit Hin He'|us s' j' b e Hit Hef' _ Hp'|us s' j' n Hit Hef' _ Hp'|us s' j' Hit Hin Hef' Hng|us s' j' Hit Hef' _ Hp'|us s' j' Hit Hin He']; subst;
            try (destruct (Hng (Hg _))); cbn [map];
            (assert (Hit' : iterates_till RFull p end_ 0 s i (u :: us) s' j') by (econstructor; [intros _; exact He|exact Hp|eapply till_any_count; exact Hit])).
          + eapply to_data; eauto; exact Logic.I.
          + eapply to_error; eauto; intros _; exact (Hef' Logic.I).
          + eapply to_incomplete; eauto; intros _; exact (Hef' Logic.I).
          + eapply to_panic; eauto; intros _; exact (Hef' Logic.I).
          + eapply to_panic_end; eauto; exact Logic.I.
        - subst res. eapply to_error; [constructor|exact Hef|apply Hg|]. rewrite Hp. reflexivity.
        - subst res. eapply to_incomplete; [constructor|exact Hef|apply Hg|]. rewrite Hp. reflexivity.
        - subst res. eapply to_panic; [constructor|exact Hef|apply Hg|]. rewrite Hp. reflexivity.
        - contradiction. }
      destruct (end_ i) as [k v|b e|n| |] eqn:He.
      + intros ->. eapply to_data; [constructor|exact Logic.I|exact He].
      + apply Hrest. eauto.
      + apply Hrest. eauto.
      + intros ->. eapply to_panic_end; [constructor|exact Logic.I|exact He].
      + contradiction.
  Qed.
End Till.

(** * Without the values *)

Section Skip.
  Context {St I U E : Type}.
  Variable p : sparser St I U E.

  Lemma settles_skip : forall s i y,
    settles (fun fuel => skip_many fuel s p i) y <-> exists x, many_outcome RFull p s i x /\ y = map (fun _ => tt) x.
  Proof.
    assert (Hr : nonempty RFull) by (exists 0; exact Logic.I). intros s i y. unfold skip_many. split.
    - intros [Hn [f Hf]]. pose proof (Hf f (le_n f)) as H. destruct (@skip_many_lockstep St I U E p RFull Logic.I f s i) as [H1 _]. rewrite H in H1. specialize (H1 Hn).
      exists (bmany (S f) (vec_collector U) RFull s p i). split; [|symmetry; exact H1].
      apply (@bmany_sound St I U E p (S f) RFull s i _ Hr eq_refl). intros Hx. rewrite Hx in H1. cbn in H1. congruence.
    - intros (x & Ho & ->). destruct (proj2 (settles_outcome p s i x Hr) Ho) as [Hn [f0 Hf]]. split; [destruct x; try discriminate; congruence|].
      exists f0. intros fuel Hfu. destruct (@skip_many_lockstep St I U E p RFull Logic.I fuel s i) as [_ H2]. rewrite (Hf fuel Hfu) in H2. exact (H2 Hn).
  Qed.

  Lemma skip_unfold : keeps_mode p -> forall s i,
    alike (fun fuel => skip_many fuel s p i)
      (fun fuel => or_ (fun i => bind (fun e => e) (fst (p s i)) (fun j _ => skip_many fuel (snd (p s i)) p j)) (ret tt) i).
  Proof.
    intros Hk s i y. assert (Hr : nonempty RFull) by (exists 0; exact Logic.I). assert (H0 : in_range RFull 0) by exact Logic.I. rewrite settles_skip.
    assert (Hx : forall x, many_outcome RFull p s i x <-> _) by (intros x; apply (@outcome_first St I U E p RFull RFull ltac:(cbn; tauto) Hr s i x (or_introl Logic.I))).
    unfold or_. destruct (p s i) as [[j u|b e|n| |] s1] eqn:Hp; cbn [fst snd bind].
    - assert (Hs : forall z, many_outcome RFull p s1 j z -> match map_err (fun e => e) (map (fun _ => tt) z) with Data b d => ret d b | Error _ _ => ret tt i
        | Incomplete n => if last i then ret tt i else incomplete n i | Panic => Panic | NoFuel => NoFuel end = map (fun _ => tt) z).
      { intros z Ho. destruct (outcome_optional Hk (interval RFull Logic.I) Ho) as [He Hi]. rewrite map_err_same. destruct z as [j' us|b e|n| |]; try reflexivity.
        - destruct (He b e eq_refl).
        - cbn [map]. specialize (Hi n eq_refl). rewrite (Hk _ _ _ _ _ Hp) in Hi. rewrite Hi. reflexivity. }
      split.
      + intros (x & Ho & ->). apply Hx in Ho. destruct Ho as (z & Ho & ->). destruct (proj2 (settles_skip s1 j (map (fun _ => tt) z))) as [Hn [f0 Hf]]; [eauto|].
        split; [destruct z; try discriminate; cbn in *; congruence|]. exists f0. intros fuel Hfu. rewrite (Hf fuel Hfu), (Hs z Ho). destruct z; reflexivity.
      + intros [Hn [f0 Hf]].
        assert (Hz : exists z, many_outcome RFull p s1 j z).
        { pose proof (Hf f0 (le_n f0)) as H. destruct (@skip_many_lockstep St I U E p RFull Logic.I f0 s1 j) as [H1 _].
          exists (bmany (S f0) (vec_collector U) RFull s1 p j). apply (@bmany_sound St I U E p (S f0) RFull s1 j _ Hr eq_refl). intros Hb.
          unfold skip_many in H. rewrite Hb in H1. cbn [map] in H1. destruct (bskip_many f0 RFull s1 p j) eqn:Hsk; try (specialize (H1 ltac:(discriminate)); discriminate H1). cbn in H. congruence. }
        destruct Hz as (z & Ho). destruct (proj2 (settles_skip s1 j (map (fun _ => tt) z))) as [Hn1 [f1 Hf1]]; [eauto|].
        pose proof (Hf (Nat.max f0 f1) ltac:(lia)) as H. rewrite (Hf1 (Nat.max f0 f1) ltac:(lia)), (Hs z Ho) in H. subst y. exists (map (cons u) z). split; [apply Hx; eauto|]. destruct z; reflexivity.
    - rewrite settles_const. split.
      + intros (x & Ho & ->). apply Hx in Ho. destruct Ho as [[_ ->]|[H _]]; [split; [reflexivity|discriminate]|destruct (H Logic.I)].
      + intros [<- _]. exists (Data i []). split; [apply Hx; auto|reflexivity].
    - rewrite settles_const. split.
      + intros (x & Ho & ->). apply Hx in Ho. destruct Ho as [(_ & -> & ->)|[[H| ->] ->]]; try (split; [reflexivity|discriminate]). destruct (H Logic.I).
      + intros [<- _]. destruct (last i) eqn:Hl; [exists (Data i [])|exists (Incomplete n)]; (split; [apply Hx; auto|reflexivity]).
    - rewrite settles_const. split.
      + intros (x & Ho & ->). apply Hx in Ho. subst x. split; [reflexivity|discriminate].
      + intros [<- _]. exists Panic. split; [apply Hx; reflexivity|reflexivity].
    - rewrite settles_const. split.
      + intros (x & Ho & ->). apply Hx in Ho. contradiction.
      + intros [<- H]. congruence.
  Qed.
End Skip.
