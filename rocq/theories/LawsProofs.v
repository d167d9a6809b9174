(** Proofs about different ways to write a parser. *)
From Coq Require Import List Bool Arith Lia.
From Verif Require Import Base Parsers Combinators SpecBase SpecIter SpecLaws SpecOpaque BaseProofs IterProofs ManyProofs TillProofs SkipProofs OpaqueProofs.
Import ListNotations.

Set Implicit Arguments.

Lemma settles_det : forall I T E (g : nat -> pres I T E) x y, settles g x -> settles g y -> x = y.
Proof.
  intros I T E g x y [_ [f Hf]] [_ [f' Hf']]. rewrite <- (Hf (Nat.max f f')), <- (Hf' (Nat.max f f')); [reflexivity| |]; lia.
Qed.
Lemma settles_const : forall I T E (x y : pres I T E), settles (fun _ => x) y <-> x = y /\ y <> NoFuel.
Proof.
  intros I T E x y. split; [intros [H [f Hf]]; split; [apply (Hf f); lia|exact H]|]. intros [-> H]. split; [exact H|]. exists 0. auto.
Qed.
Lemma alike_same : forall I T E (g h : nat -> pres I T E), (forall fuel, g fuel = h fuel) -> alike g h.
Proof. intros I T E g h H res. unfold settles. split; intros [H1 [f Hf]]; split; auto; exists f; intros k Hk; [rewrite <- H|rewrite H]; auto. Qed.

Section Many.
  Context {I U E : Type}.
  Variable p : parser I U E.
  Notation P := (pure p).

  Lemma many_settles : forall r i res, nonempty r -> (settles (fun fuel => bmany fuel (vec_collector U) r tt P i) res <-> many_outcome r P tt i res).
  Proof.
    intros r i res Hr. split.
    - intros [Hn [f Hf]]. apply (@bmany_sound unit I U E P f r tt i res Hr); auto.
    - intros Ho. split; [inversion Ho; discriminate|]. apply (@bmany_complete unit I U E P r tt i res Hr Ho).
  Qed.

  Lemma iterates_unit : forall s i us s' j, iterates P s i us s' j -> s = tt /\ s' = tt.
  Proof. intros [] i us [] j _. auto. Qed.

  (** Splitting off the first applications. *)
  Lemma in_shifted : forall a r k, in_range (shifted a r) k <-> a <= k /\ in_range r (k - a).
  Proof. intros a [x y|x| |y|n] k; simpl; lia. Qed.
  Lemma grow_shifted : forall a r k, nonempty r -> (may_grow (shifted a r) k <-> k < a \/ (a <= k /\ may_grow r (k - a))).
  Proof.
    intros a r k [m Hm]. unfold may_grow. split.
    - intros (k' & Hk & Hin). apply in_shifted in Hin. destruct (Nat.lt_ge_cases k a) as [H|H]; [left; exact H|]. right. split; [exact H|].
      exists (k' - a). split; [lia|]. apply Hin.
    - intros [H|[H (k' & Hk & Hin)]].
      + exists (a + m). split; [lia|]. apply in_shifted. split; [lia|]. replace (a + m - a) with m by lia. exact Hm.
      + exists (a + k'). split; [lia|]. apply in_shifted. split; [lia|]. replace (a + k' - a) with k' by lia. exact Hin.
  Qed.
  Lemma nonempty_shifted : forall a r, nonempty r -> nonempty (shifted a r).
  Proof. intros a r [m Hm]. exists (a + m). apply in_shifted. split; [lia|]. replace (a + m - a) with m by lia. exact Hm. Qed.

  Lemma iterates_split : forall a us s i s' j, iterates P s i us s' j -> a <= length us ->
    exists vs ws k, us = vs ++ ws /\ length vs = a /\ iterates P s i vs tt k /\ iterates P tt k ws s' j.
  Proof.
    induction a as [|a IH]; intros us s i s' j H Ha.
    - exists [], us, i. destruct (iterates_unit H) as [-> ->]. repeat split; auto. constructor.
    - destruct H as [|s i u s1 i1 us s2 i2 Hu H]; simpl in Ha; [lia|]. destruct (IH us s1 i1 s2 i2 H) as (vs & ws & k & -> & Hl & H1 & H2); [lia|].
      exists (u :: vs), ws, k. repeat split; simpl; auto. econstructor; eauto.
  Qed.

  Definition after_ (r : range) (fuel : nat) (x : pres I (list U) E) : pres I (list U) E :=
    bind (fun e => e) x (fun j us => map (app us) (bmany fuel (vec_collector U) r tt P j)).

  Lemma many_shifted : forall a r i, nonempty r ->
    alike (fun fuel => bmany fuel (vec_collector U) (shifted a r) tt P i)
      (fun fuel => after_ r fuel (bmany fuel (vec_collector U) (RExact a) tt P i)).
  Proof.
    intros a r i Hr.
    assert (Hfwd : forall res, many_outcome (shifted a r) P tt i res ->
      settles (fun fuel => after_ r fuel (bmany fuel (vec_collector U) (RExact a) tt P i)) res).
    { intros res Ho.
      assert (Hshort : forall x us s j, iterates P tt i us s j -> length us < a -> fst (P s j) = x -> (forall k u, x <> Data k u) -> x <> NoFuel ->
        forall res, match x with Error b e => res = Error b e | Incomplete n => res = Incomplete n | _ => res = Panic end ->
        settles (fun fuel => after_ r fuel (bmany fuel (vec_collector U) (RExact a) tt P i)) res).
      { clear res Ho. intros x us s j Hit Hl Hx Hnd Hnf res Hres.
        assert (Ho : many_outcome (RExact a) P tt i res).
        { assert (Hg : may_grow (RExact a) (length us)) by (apply may_grow_exact; exact Hl).
          destruct x as [k u|b e|n| |]; subst res; try (exfalso; eapply Hnd; reflexivity); try congruence.
          - eapply mo_error; eauto. simpl. lia.
          - eapply mo_incomplete; eauto. left. simpl. lia.
          - eapply mo_panic; eauto. }
        apply bmany_complete in Ho; [|exists a; reflexivity]. destruct Ho as [f0 Hf]. split.
        - destruct x; subst res; discriminate || (exfalso; eapply Hnd; reflexivity).
        - exists f0. intros fuel Hfu. rewrite (Hf fuel Hfu). destruct x; subst res; try reflexivity. }
      assert (Hlong : forall us s j, iterates P tt i us s j -> a <= length us -> forall f : list U -> pres I (list U) E,
        (forall vs ws k, us = vs ++ ws -> length vs = a -> iterates P tt k ws s j -> exists x, many_outcome r P tt k x /\ map (app vs) x = res) ->
        settles (fun fuel => after_ r fuel (bmany fuel (vec_collector U) (RExact a) tt P i)) res).
      { intros us s j Hit Hl _ Hx. destruct (iterates_split Hit Hl) as (vs & ws & k & Hus & Hvs & H1 & H2).
        destruct (Hx vs ws k Hus Hvs H2) as (x & Hox & Hres).
        assert (Ho1 : many_outcome (RExact a) P tt i (Data k vs)).
        { eapply mo_data; [exact H1|exact Hvs|]. left. intros Hg. apply may_grow_exact in Hg. lia. }
        apply bmany_complete in Ho1; [|exists a; reflexivity]. destruct Ho1 as [f1 Hf1].
        apply bmany_complete in Hox; [|exact Hr]. destruct Hox as [f2 Hf2]. split.
        - inversion Ho; discriminate.
        - exists (Nat.max f1 f2). intros fuel Hfu. rewrite Hf1 by lia. unfold after_. simpl. rewrite Hf2 by lia. rewrite Hres. apply map_err_same. }
      inversion Ho as [us s j Hit Hin Hstop|us s j b e Hit Hin Hg He|us s j n Hit Hg Hn Hor|us s j Hit Hg Hp]; subst.
      - apply in_shifted in Hin. eapply (Hlong us s j Hit); [apply Hin|exact (fun _ => Panic)|]. intros vs ws k -> Hvs H2. exists (Data j ws). split; [|reflexivity].
        rewrite app_length in *. replace (length vs + length ws - a) with (length ws) in Hin by lia.
        eapply mo_data; [exact H2|apply Hin|]. destruct Hstop as [Hs|Hs]; [left|right; exact Hs]. intros Hg. apply Hs. apply grow_shifted; [exact Hr|].
        right. split; [lia|]. replace (length vs + length ws - a) with (length ws) by lia. exact Hg.
      - destruct (Nat.lt_ge_cases (length us) a) as [Hl|Hl]; [eapply (Hshort (Error b e)); eauto; discriminate|].
        apply grow_shifted in Hg; [|exact Hr]. destruct Hg as [Hg|[_ Hg]]; [lia|].
        eapply (Hlong us s j Hit Hl (fun _ => Panic)). intros vs ws k -> Hvs H2. exists (Error b e). split; [|reflexivity].
        rewrite app_length in *. replace (length vs + length ws - a) with (length ws) in Hg by lia.
        eapply mo_error; [exact H2| |exact Hg|exact He]. intros Hin'. apply Hin. apply in_shifted. split; [lia|].
        replace (length vs + length ws - a) with (length ws) by lia. exact Hin'.
      - destruct (Nat.lt_ge_cases (length us) a) as [Hl|Hl]; [eapply (Hshort (Incomplete n)); eauto; discriminate|].
        apply grow_shifted in Hg; [|exact Hr]. destruct Hg as [Hg|[_ Hg]]; [lia|].
        eapply (Hlong us s j Hit Hl (fun _ => Panic)). intros vs ws k -> Hvs H2. exists (Incomplete n). split; [|reflexivity].
        rewrite app_length in *. replace (length vs + length ws - a) with (length ws) in Hg by lia.
        eapply mo_incomplete; [exact H2|exact Hg|exact Hn|]. destruct Hor as [Hin|Hla]; [left|right; exact Hla]. intros Hin'. apply Hin. apply in_shifted. split; [lia|].
        replace (length vs + length ws - a) with (length ws) by lia. exact Hin'.
      - destruct (Nat.lt_ge_cases (length us) a) as [Hl|Hl]; [eapply (Hshort Panic); eauto; discriminate|].
        apply grow_shifted in Hg; [|exact Hr]. destruct Hg as [Hg|[_ Hg]]; [lia|].
        eapply (Hlong us s j Hit Hl (fun _ => Panic)). intros vs ws k -> Hvs H2. exists Panic. split; [|reflexivity].
        rewrite app_length in *. replace (length vs + length ws - a) with (length ws) in Hg by lia. eapply mo_panic; eauto. }
    intros res. split.
    - intros H. apply Hfwd. apply many_settles; [apply nonempty_shifted; exact Hr|exact H].
    - intros [Hn [f Hf]]. apply many_settles; [apply nonempty_shifted; exact Hr|].
      pose proof (Hf f (le_n f)) as H. unfold after_ in H.
      destruct (bmany f (vec_collector U) (RExact a) tt P i) as [k vs|b e|n| |] eqn:H1; simpl in H.
      + apply bmany_sound in H1; [|exists a; reflexivity|discriminate]. inversion H1 as [us s j Hit Hin _| | |]; subst.
        destruct (iterates_unit Hit) as [_ ->]. simpl in Hin.
        destruct (bmany f (vec_collector U) r tt P k) as [k2 ws|b e|n| |] eqn:H2; simpl in Hn; try congruence; simpl;
          (apply bmany_sound in H2; [|exact Hr|discriminate]); inversion H2 as [us s j Hit2 Hin2 Hst|us s j b' e' Hit2 Hin2 Hg He|us s j n' Hit2 Hg Hi Hor|us s j Hit2 Hg Hp]; subst.
        * eapply mo_data; [eapply iterates_app; eassumption| |].
          -- apply in_shifted. rewrite app_length. split; [lia|]. replace (length vs + length ws - length vs) with (length ws) by lia. exact Hin2.
          -- destruct Hst as [Hst|Hst]; [left|right; exact Hst]. intros Hg. apply Hst. apply grow_shifted in Hg; [|exact Hr]. rewrite app_length in Hg.
             destruct Hg as [Hg|[_ Hg]]; [lia|]. replace (length vs + length ws - length vs) with (length ws) in Hg by lia. exact Hg.
        * eapply mo_error; [eapply iterates_app; eassumption| | |exact He].
          -- intros Hi. apply Hin2. apply in_shifted in Hi. rewrite app_length in Hi. replace (length vs + length us - length vs) with (length us) in Hi by lia. apply Hi.
          -- apply grow_shifted; [exact Hr|]. right. rewrite app_length. split; [lia|]. replace (length vs + length us - length vs) with (length us) by lia. exact Hg.
        * eapply mo_incomplete; [eapply iterates_app; eassumption| |exact Hi|].
          -- apply grow_shifted; [exact Hr|]. right. rewrite app_length. split; [lia|]. replace (length vs + length us - length vs) with (length us) by lia. exact Hg.
          -- destruct Hor as [Hor|Hor]; [left|right; exact Hor]. intros Hx. apply Hor. apply in_shifted in Hx. rewrite app_length in Hx.
             replace (length vs + length us - length vs) with (length us) in Hx by lia. apply Hx.
        * eapply mo_panic; [eapply iterates_app; eassumption| |exact Hp].
          apply grow_shifted; [exact Hr|]. right. rewrite app_length. split; [lia|]. replace (length vs + length us - length vs) with (length us) by lia. exact Hg.
      + subst res. apply bmany_sound in H1; [|exists a; reflexivity|discriminate]. inversion H1 as [|us s j b' e' Hit Hin Hg He| |]; subst.
        apply may_grow_exact in Hg. eapply mo_error; eauto; [|apply grow_shifted; auto]. intros Hx. apply in_shifted in Hx. lia.
      + subst res. apply bmany_sound in H1; [|exists a; reflexivity|discriminate]. inversion H1 as [| |us s j n' Hit Hg Hi Hor|]; subst.
        apply may_grow_exact in Hg. eapply mo_incomplete; eauto; [apply grow_shifted; auto|]. left. intros Hx. apply in_shifted in Hx. lia.
      + subst res. apply bmany_sound in H1; [|exists a; reflexivity|discriminate]. inversion H1 as [| | |us s j Hit Hg Hp]; subst.
        apply may_grow_exact in Hg. eapply mo_panic; eauto. apply grow_shifted; auto.
      + symmetry in H. contradiction.
  Qed.
End Many.

(** * Ranges that admit the same counts *)

Lemma run_iter_change : forall S I U T E D D' C fuel (col : collector U T C) i (s0 : S) (p : sparser S I U E) (RD : D -> D' -> Prop)
  d0 d0' hint hint' pre pre' on on' fin fin', RD d0 d0' ->
  (forall d d', RD d d' -> hint d = hint' d' /\ pre d = pre' d' /\ (pre d = false -> RD (on d) (on' d')) /\
    forall t j st, fin t j d st = fin' t j d' st) ->
  run_iter fuel col i s0 p d0 hint pre on fin = run_iter fuel col i s0 p d0' hint' pre' on' fin'.
Proof.
  intros S I U T E D D' C fuel col i s0 p RD d0 d0' hint hint' pre pre' on on' fin fin' H0 H. unfold run_iter.
  pose (R := fun (x : iter S I E D) (y : iter S I E D') =>
    it_state x = it_state y /\ it_ps x = it_ps y /\ it_buf x = it_buf y /\ RD (it_data x) (it_data y)).
  pose proof (@from_iter_rel (iter S I E D) (iter S I E D') U U T T C C eq eq eq (iter_next p pre on) (iter_next p pre' on')
    (fun it => hint (it_data it)) (fun it => hint' (it_data it)) (cact col) (cact col) R) as F.
  assert (F1 : forall a b, R a b -> hint (it_data a) = hint' (it_data b)) by (intros a b (_ & _ & _ & Hd); apply (H _ _ Hd)).
  assert (F2 : forall a b, R a b -> step_rel eq R (iter_next p pre on a) (iter_next p pre' on' b)).
  { intros [st ps bu da] [st' ps' bu' da'] (E1 & E2 & E3 & Hd). simpl in *. subst st' ps' bu'. destruct (H _ _ Hd) as (_ & Hp & Ho & _).
    unfold iter_next. simpl. rewrite <- Hp. destruct (pre da) eqn:Hda; [simpl; repeat split; exact Hd|].
    specialize (Ho eq_refl). destruct (p ps bu) as [[k v|c e|n| |] s]; simpl; try split; auto; repeat split; auto. }
  assert (F3 : forall c d, c = d -> act_rel eq eq eq (cact col c) (cact col d)).
  { intros c d <-. destruct (cact col c) as [t|k|k|]; simpl; auto. intros o o' Ho. f_equal. destruct o, o'; simpl in Ho; try contradiction; congruence. }
  specialize (F F1 F2 F3 fuel (cinit col) (cinit col) (mkIter (ESIncomplete 1) s0 i d0) (mkIter (ESIncomplete 1) s0 i d0') eq_refl).
  assert (F4 : R (mkIter (ESIncomplete 1) s0 i d0) (mkIter (ESIncomplete 1) s0 i d0')) by (repeat split; exact H0). specialize (F F4).
  destruct (from_iter fuel (iter_next p pre on) _ _ _ _) as [t a| |], (from_iter fuel (iter_next p pre' on') _ _ _ _) as [u b| |];
    simpl in *; try contradiction; auto.
  destruct F as (<- & E1 & _ & E3 & Hd). rewrite E1, E3. apply (H _ _ Hd).
Qed.

Section Ranges.
  Context {S I U T E C : Type}.
  Variable fuel : nat.
  Variable col : collector U T C.
  Variable s0 : S.
  Variable p : sparser S I U E.

  Lemma many_from_zero : forall i, bmany fuel col (RFrom 0) s0 p i = bmany fuel col RFull s0 p i.
  Proof.
    intros i. cbn [bmany]. apply run_iter_change with (RD := fun d (_ : unit) => d = 0); auto. intros d [] ->. repeat split; auto.
  Qed.
  Lemma many_to_zero : forall b i, bmany fuel col (RRange 0 b) s0 p i = bmany fuel col (RTo b) s0 p i.
  Proof.
    intros b i. cbn [bmany]. unfold parse_many_range. simpl negb. apply run_iter_change with (RD := fun d d' => d = (0, d')); auto.
    intros d d' ->. repeat split; auto.
  Qed.
  Lemma many_exactly : forall n i, bmany fuel col (RRange n (Datatypes.S n)) s0 p i = bmany fuel col (RExact n) s0 p i.
  Proof.
    intros n i. cbn [bmany]. unfold parse_many_range. replace (n <=? Datatypes.S n) with true by (symmetry; apply Nat.leb_le; lia). simpl negb.
    replace (Nat.max (Datatypes.S n) 1 - 1) with n by lia.
    apply run_iter_change with (RD := fun d d' => d = (d', d')); auto. intros d d' ->. repeat split; auto.
    - simpl. intros H. apply Nat.eqb_neq in H. unfold dec0. destruct (Nat.eqb_spec d' 0); [lia|reflexivity].
    - intros t j st. destruct d' as [|d'], st as [x e|m]; auto.
  Qed.

  Lemma skip_from_zero : forall k s i, bskip_many k (RFrom 0) s p i = bskip_many k RFull s p i.
  Proof.
    induction k as [|k IH]; intros s i; [reflexivity|]. cbn [bskip_many skip_many_from skip_many_full] in *.
    destruct (p s i) as [[j v|b e|n| |] s']; auto.
  Qed.
  Lemma skip_loop_zero : forall k m s i, skip_loop_range p k 0 m s i = skip_loop_to p k m s i.
  Proof.
    induction k as [|k IH]; intros m s i; [reflexivity|]. cbn [skip_loop_range skip_loop_to]. destruct (m =? 0); auto.
    destruct (p s i) as [[j v|b e|n| |] s']; auto.
  Qed.
  Lemma skip_to_zero : forall k b s i, bskip_many k (RRange 0 b) s p i = bskip_many k (RTo b) s p i.
  Proof. intros. cbn [bskip_many]. apply skip_loop_zero. Qed.
  Lemma skip_exactly : (forall s i s', p s i <> (Incomplete 0, s')) ->
    forall k n s i, bskip_many k (RRange n (Datatypes.S n)) s p i = bskip_many k (RExact n) s p i.
  Proof.
    intros Hp k n s i. cbn [bskip_many]. unfold skip_many_range. replace (n <=? Datatypes.S n) with true by (symmetry; apply Nat.leb_le; lia). simpl negb.
    cbv iota. replace (Nat.max (Datatypes.S n) 1 - 1) with n by lia. revert n s i. induction k as [|k IH]; intros n s i; [reflexivity|].
    cbn [skip_loop_range skip_many_exact]. destruct (Nat.eqb_spec n 0) as [H|H]; auto.
    destruct (p s i) as [[j v|b e|m| |] s'] eqn:Hpi; auto.
    - replace (dec0 n) with (n - 1) by (unfold dec0; destruct (Nat.eqb_spec n 0); lia). apply IH.
    - destruct (Nat.eqb_spec m 0) as [->|Hm]; [exfalso; eapply Hp; exact Hpi|reflexivity].
  Qed.
End Ranges.

(** * Repeating twice; an empty separator *)

Lemma many_twice : forall I U E (p : parser I U E) i,
  alike (fun fuel => after_ p RFull fuel (many fuel (vec_collector U) tt (pure p) i)) (fun fuel => many fuel (vec_collector U) tt (pure p) i).
Proof.
  intros I U E p i. unfold many.
  assert (HN : nonempty RFull) by (exists 0; exact Logic.I).
  assert (Hfwd : forall res, many_outcome RFull (pure p) tt i res ->
    settles (fun fuel => after_ p RFull fuel (bmany fuel (vec_collector U) RFull tt (pure p) i)) res).
  { intros res Ho. pose proof Ho as Ho'. apply bmany_complete in Ho'; [|exact HN]. destruct Ho' as [f Hf].
    split; [inversion Ho; discriminate|].
    inversion Ho as [us s j Hit Hin Hst|us s j b e Hit Hin Hg He|us s j n Hit Hg Hn Hor|us s j Hit Hg Hp]; subst;
      try (exists f; intros fuel Hfu; rewrite (Hf fuel Hfu); reflexivity).
    destruct (iterates_unit Hit) as [_ ->]. destruct Hst as [Hst|Hst]; [exfalso; apply Hst; apply may_grow_full|].
    assert (H2 : many_outcome RFull (pure p) tt j (Data j [])) by (eapply mo_data; [constructor|exact Logic.I|right; exact Hst]).
    apply bmany_complete in H2; [|exact HN]. destruct H2 as [f2 Hf2]. exists (Nat.max f f2). intros fuel Hfu. rewrite Hf by lia.
    unfold after_. simpl in Hf2 |- *. rewrite Hf2 by lia. simpl. rewrite app_nil_r. reflexivity. }
  intros res. split.
  - intros Hs. assert (Hx : exists res', many_outcome RFull (pure p) tt i res').
    { destruct Hs as [Hn [f Hf]]. specialize (Hf f (le_n f)). destruct (bmany f (vec_collector U) RFull tt (pure p) i) as [j us|b e|n| |] eqn:Hb;
        try (eexists; eapply bmany_sound; [exact HN|exact Hb|discriminate]). simpl in Hf. symmetry in Hf. contradiction. }
    destruct Hx as [res' Ho]. rewrite (settles_det Hs (Hfwd res' Ho)). apply many_settles; [exact HN|exact Ho].
  - intros Hs. apply Hfwd. apply many_settles; [exact HN|exact Hs].
Qed.

Lemma f2_eq : forall A (l m : list A), Forall2 eq l m -> l = m.
Proof. induction 1; congruence. Qed.
Lemma f2_refl : forall A (l : list A), Forall2 eq l l.
Proof. induction l; constructor; auto. Qed.
Lemma input_rel_eq : forall I (i j : input I), input_rel eq i j -> i = j.
Proof. intros I [l b] [l' b'] [H1 H2]. simpl in *. apply f2_eq in H2. congruence. Qed.

Lemma sep_nothing : forall SP I U T E C r fuel (col : collector U T C) (s0 : SP) (p : sparser SP I U E) i,
  bmany fuel col r (false, s0, tt) (sep_item (fun e : E => e) p (pure (ret tt))) i = bmany fuel col r s0 p i.
Proof.
  intros SP I U T E C r fuel col s0 p i.
  assert (Hsame : forall a b : pres I T E, pres_rel eq eq eq a b -> a = b).
  { intros a b H. destruct a, b; simpl in H; try contradiction.
    - destruct H as [H1 ->]. apply input_rel_eq in H1. congruence.
    - destruct H as [H1 ->]. apply f2_eq in H1. congruence.
    - congruence.
    - reflexivity.
    - reflexivity. }
  apply Hsame. apply bmany_rel with (RU := eq) (RC := eq) (RS := fun (x : bool * SP * unit) y => snd (fst x) = y); auto.
  - intros [[item sp] []] s' H k j Hkj. simpl in H. subst s'. apply input_rel_eq in Hkj. subst j.
    unfold sep_item, pure. destruct item; simpl; destruct (p sp k) as [[j v|b e|n| |] s1]; simpl; repeat split; auto; apply f2_refl.
  - intros [[item sp] []] s' H k j Hkj. simpl in H. subst s'. apply input_rel_eq in Hkj. subst j.
    unfold sep_item, pure. destruct item; simpl; destruct (p sp k) as [[j v|b e|n| |] s1]; simpl; auto.
  - split; [reflexivity|]. intros c d <-. destruct (cact col c) as [t|k|k|]; simpl; auto.
    intros o o' Ho. f_equal. destruct o, o'; simpl in Ho; try contradiction; congruence.
  - split; [reflexivity|apply f2_refl].
Qed.

(** * Runs of items *)

Lemma iterates_satisfy : forall I v (f : I -> bool) l x y, Forall (fun a => f a = true) x ->
  iterates (pure (satisfy v f)) tt (mkInput l (x ++ y)) x tt (mkInput l y).
Proof.
  intros I v f l x y H. induction H as [|a x Ha H IH]; [constructor|]. econstructor; [|exact IH].
  unfold pure, satisfy. simpl. rewrite Ha. reflexivity.
Qed.
Lemma iterates_any : forall I l (x y : list I), iterates (pure (@any I)) tt (mkInput l (x ++ y)) x tt (mkInput l y).
Proof. intros I l x y. induction x as [|a x IH]; [constructor|]. econstructor; [|exact IH]. reflexivity. Qed.

Lemma iterates_satisfy_all : forall I v (f : I -> bool) l x, Forall (fun a => f a = true) x ->
  iterates (pure (satisfy v f)) tt (mkInput l x) x tt (mkInput l []).
Proof. intros I v f l x H. pose proof (iterates_satisfy v f l [] H) as Hi. rewrite app_nil_r in Hi. exact Hi. Qed.
Lemma iterates_any_all : forall I l (x : list I), iterates (pure (@any I)) tt (mkInput l x) x tt (mkInput l []).
Proof. intros I l x. pose proof (iterates_any l x []) as Hi. rewrite app_nil_r in Hi. exact Hi. Qed.

Lemma many_known : forall I U E (p : parser I U E) r i res, nonempty r -> many_outcome r (pure p) tt i res ->
  alike (fun fuel => bmany fuel (vec_collector U) r tt (pure p) i) (fun _ => res).
Proof.
  intros I U E p r i res Hr Ho res'. rewrite (many_settles p i res' Hr), settles_const. split.
  - intros H. split; [apply (many_outcome_det Ho H)|]. inversion H; discriminate.
  - intros [<- _]. exact Ho.
Qed.

Lemma run_outcome : forall I v (f : I -> bool) i, many_outcome RFull (pure (satisfy v f)) tt i (take_while f i).
Proof.
  intros I v f [l b]. destruct (proj1 (take_while_spec f l b (take_while f (mkInput l b))) eq_refl)
    as [(x & c & y & -> & Hx & Hc & ->)|[(Hb & -> & ->)|(Hb & -> & ->)]].
  - eapply mo_data; [apply iterates_satisfy; exact Hx|exact Logic.I|]. right. left. simpl. unfold satisfy. simpl. rewrite Hc.
    eexists _, _. reflexivity.
  - eapply mo_data; [|exact Logic.I|].
    + apply iterates_satisfy_all. exact Hb.
    + right. right. exists 1. split; reflexivity.
  - eapply mo_incomplete; [|apply may_grow_full| |].
    + apply iterates_satisfy_all. exact Hb.
    + reflexivity.
    + right. reflexivity.
Qed.
Lemma run1_outcome : forall I v (f : I -> bool) i, many_outcome (RFrom 1) (pure (satisfy v f)) tt i (take_while1 v f i).
Proof.
  intros I v f [l b]. destruct (proj1 (take_while1_spec v f l b (take_while1 v f (mkInput l b))) eq_refl)
    as [(x & c & y & -> & Hne & Hx & Hc & ->)|[(c & y & -> & Hc & ->)|[(Hne & Hb & -> & ->)|(Hb & Hl & ->)]]].
  - eapply mo_data; [apply iterates_satisfy; exact Hx| |].
    + simpl. destruct x; [congruence|simpl; lia].
    + right. left. simpl. unfold satisfy. simpl. rewrite Hc. eexists _, _. reflexivity.
  - eapply mo_error; [constructor| | |].
    + simpl. lia.
    + apply may_grow_from.
    + simpl. unfold satisfy. simpl. rewrite Hc. reflexivity.
  - eapply mo_data.
    + apply iterates_satisfy_all. exact Hb.
    + simpl. destruct b; [congruence|simpl; lia].
    + right. right. exists 1. split; reflexivity.
  - eapply mo_incomplete; [|apply may_grow_from| |].
    + apply iterates_satisfy_all. exact Hb.
    + reflexivity.
    + simpl. destruct Hl as [->| ->]; [left; simpl; lia|right; reflexivity].
Qed.

Lemma skip_known : forall I U E (p : parser I U E) r i res, nonempty r -> SkipProofs.skip_agrees r (pure p) -> many_outcome r (pure p) tt i res ->
  settles (fun fuel => bskip_many fuel r tt (pure p) i) (map (fun _ => tt) res).
Proof.
  intros I U E p r i res Hr Ha Ho. pose proof (bmany_complete Hr Ho) as [f Hf]. assert (Hn : res <> NoFuel) by (inversion Ho; discriminate).
  split; [destruct res; try discriminate; congruence|]. exists f. intros fuel Hfu.
  rewrite (proj2 (skip_many_lockstep (pure p) r Ha fuel tt i)); rewrite (Hf fuel Hfu); [reflexivity|exact Hn].
Qed.

(** A consumed run, read back as the matched slice. *)
Lemma matched_run : forall I T (i : input I) (g : nat -> parser I unit T) (res : pres I (list I) T),
  settles (fun fuel => g fuel i) (map (fun _ => tt) res) ->
  (forall j x, res = Data j x -> buf i = x ++ buf j) -> res <> NoFuel ->
  alike (fun fuel => map fst (matched_by (g fuel) i)) (fun _ => res).
Proof.
  intros I T i g res [Hn [f Hf]] Hd Hnf.
  assert (Hs : settles (fun fuel => map fst (matched_by (g fuel) i)) res).
  { split; [exact Hnf|]. exists f. intros fuel Hfu. unfold matched_by. rewrite (Hf fuel Hfu). destruct res as [j x|b e|n| |]; try reflexivity.
    simpl. specialize (Hd j x eq_refl). rewrite Hd, app_length. destruct (Nat.ltb_spec (length x + length (buf j)) (length (buf j))); [lia|].
    simpl. replace (length x + length (buf j) - length (buf j)) with (length x) by lia. rewrite firstn_length_app. reflexivity. }
  intros res'. rewrite settles_const. split.
  - intros H. split; [apply (settles_det Hs H)|apply H].
  - intros [<- _]. exact Hs.
Qed.
Lemma take_while_slice : forall I (f : I -> bool) i j x, take_while f i = Data j x -> buf i = x ++ buf j.
Proof.
  intros I f [l b] j x H. apply take_while_spec in H. destruct H as [(x' & c & y & -> & _ & _ & H)|[(_ & -> & H)|(_ & _ & H)]]; inversion H; subst; simpl; auto.
  symmetry; apply app_nil_r.
Qed.
Lemma take_while1_slice : forall I v (f : I -> bool) i j x, take_while1 v f i = Data j x -> buf i = x ++ buf j.
Proof.
  intros I v f [l b] j x H. apply take_while1_spec in H.
  destruct H as [(x' & c & y & -> & _ & _ & _ & H)|[(c & y & -> & _ & H)|[(_ & _ & -> & H)|(_ & _ & H)]]]; inversion H; subst; simpl; auto.
  symmetry; apply app_nil_r.
Qed.

Lemma till_run : forall I v (f : I -> bool) (i : input I),
  alike (fun fuel => many_till fuel (vec_collector I) tt tt (pure (@any I)) (pure (satisfy v f)) i)
    (fun _ => bind (fun e => e) (take_till f i) (fun j x => map (fun _ => x) (satisfy v f j))).
Proof.
  intros I v f [l b]. set (res := bind (fun e => e) (take_till f (mkInput l b)) (fun j x => map (fun _ => x) (satisfy v f j))).
  assert (HN : nonempty RFull) by (exists 0; exact Logic.I).
  assert (Hit : forall x y, Forall (fun a => f a = false) x ->
    iterates_till RFull (pure (@any I)) (satisfy v f) 0 tt (mkInput l (x ++ y)) x tt (mkInput l y)).
  { intros x y H. generalize 0. induction H as [|a x Ha H IH]; intros k; [constructor|].
    eapply till_cons; [|reflexivity|apply IH]. intros _. left. unfold satisfy. simpl. rewrite Ha. eexists _, _. reflexivity. }
  assert (Ho : till_outcome RFull (pure (@any I)) (satisfy v f) tt (mkInput l b) res /\ res <> NoFuel).
  { unfold res. destruct (proj1 (take_till_spec f l b (take_till f (mkInput l b))) eq_refl) as [(x & c & y & -> & Hx & Hc & ->)|(Hb & ->)].
    - simpl. unfold satisfy. simpl. rewrite Hc. simpl. split; [|discriminate]. eapply to_data; [apply Hit; exact Hx|exact Logic.I|].
      unfold satisfy. simpl. rewrite Hc. reflexivity.
    - simpl. split; [|discriminate]. specialize (Hit b [] Hb). rewrite app_nil_r in Hit.
      eapply to_incomplete; [exact Hit|intros _; right; exists 1; reflexivity|apply may_grow_full|reflexivity]. }
  destruct Ho as [Ho Hn]. pose proof (proj2 (@TillProofs.bmany_till_char _ _ _ _ _ _ (pure (@any I)) (satisfy v f) RFull HN) _ _ _ Ho) as [f0 Hf].
  assert (Hs : settles (fun fuel => many_till fuel (vec_collector I) tt tt (pure (@any I)) (pure (satisfy v f)) (mkInput l b)) res).
  { split; [exact Hn|]. exists f0. intros fuel Hfu. unfold many_till. rewrite (Hf fuel Hfu). destruct res; reflexivity. }
  intros res'. rewrite settles_const. split.
  - intros H. split; [apply (settles_det Hs H)|apply H].
  - intros [<- _]. exact Hs.
Qed.

Lemma count_any : forall I n (i : input I),
  alike (fun fuel => count fuel (vec_collector I) n tt (pure (@any I)) i)
    (fun _ => match take n i with Incomplete _ => Incomplete 1 | r => r end).
Proof.
  intros I n [l b]. unfold count. apply many_known; [exists n; reflexivity|]. unfold take. simpl. destruct (Nat.leb_spec n (length b)) as [H|H].
  - assert (Hl : length (firstn n b) = n) by (apply firstn_length_le; exact H).
    eapply mo_data; [|exact Hl|left; rewrite may_grow_exact; lia]. rewrite <- (firstn_skipn n b) at 1. apply iterates_any.
  - eapply mo_incomplete with (j := mkInput l []); [apply iterates_any_all|apply may_grow_exact; exact H|reflexivity|left; simpl; lia].
Qed.

Lemma rest_any : forall I (b : list I),
  alike (fun fuel => many fuel (vec_collector I) tt (pure (@any I)) (mkInput true b)) (fun _ => take_remainder (mkInput true b)).
Proof.
  intros I b. apply many_known; [exists 0; exact Logic.I|]. unfold take_remainder. simpl. eapply mo_data; [|exact Logic.I|].
  - apply iterates_any_all.
  - right. right. exists 1. split; reflexivity.
Qed.
