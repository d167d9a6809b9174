(** Numbers of applications in [skip_many], [many_till] and [sep_by]; termination of [skip_many] without conditions on the range. *)
From Coq Require Import List Bool Arith Lia.
From Verif Require Import Base Parsers Combinators SpecIter SpecCollect SpecSep IterProofs ManyProofs CollectProofs SkipProofs SepProofs TermProofs.
Import ListNotations.

Set Implicit Arguments.

(** ** [skip_many] *)

Section Skip.
  Context {S I U E : Type}.
  Variable p : sparser S I U E.

  Lemma bskip_consuming_terminates : returns p -> consuming p -> forall r fuel s0 i,
    length (buf i) + 2 <= fuel -> bskip_many fuel r s0 p i <> NoFuel.
  Proof.
    intros Hr Hc r fuel s0 i Hf. destruct r as [a b|a| |b|n]; cbn [bskip_many].
    - unfold skip_many_range. destruct (negb (a <=? b)); [discriminate|]. revert Hf. generalize a (Nat.max b 1 - 1) s0 i.
      induction fuel as [|fuel IH]; intros a0 b0 s j Hf; [lia|]. cbn [skip_loop_range].
      destruct (b0 =? 0); [discriminate|]. destruct (p s j) as [[j' u|b' e|n| |] s'] eqn:Hp; try discriminate.
      + apply IH. apply Hc in Hp. lia.
      + destruct (a0 =? 0); discriminate.
      + destruct ((a0 =? 0) && last j); discriminate.
      + exfalso. eapply Hr; eauto.
    - revert Hf. generalize a s0 i. induction fuel as [|fuel IH]; intros a0 s j Hf; [lia|]. cbn [skip_many_from].
      destruct (p s j) as [[j' u|b' e|n| |] s'] eqn:Hp; try discriminate.
      + apply IH. apply Hc in Hp. lia.
      + destruct (a0 =? 0); discriminate.
      + destruct ((a0 =? 0) && last j); discriminate.
      + exfalso. eapply Hr; eauto.
    - revert Hf. generalize s0 i. induction fuel as [|fuel IH]; intros s j Hf; [lia|]. cbn [skip_many_full].
      destruct (p s j) as [[j' u|b' e|n| |] s'] eqn:Hp; try discriminate.
      + apply IH. apply Hc in Hp. lia.
      + destruct (last j); discriminate.
      + exfalso. eapply Hr; eauto.
    - unfold skip_many_to. revert Hf. generalize (Nat.max b 1 - 1) s0 i.
      induction fuel as [|fuel IH]; intros b0 s j Hf; [lia|]. cbn [skip_loop_to].
      destruct (b0 =? 0); [discriminate|]. destruct (p s j) as [[j' u|b' e|n| |] s'] eqn:Hp; try discriminate.
      + apply IH. apply Hc in Hp. lia.
      + destruct (last j); discriminate.
      + exfalso. eapply Hr; eauto.
    - revert Hf. generalize n s0 i. induction fuel as [|fuel IH]; intros b0 s j Hf; [lia|]. cbn [skip_many_exact].
      destruct (b0 =? 0); [discriminate|]. destruct (p s j) as [[j' u|b' e|m| |] s'] eqn:Hp; try discriminate.
      + apply IH. apply Hc in Hp. lia.
      + destruct (m =? 0); discriminate.
      + exfalso. eapply Hr; eauto.
  Qed.

  Lemma bskip_bounded_terminates : returns p -> forall r m fuel s0 i,
    max_count r = Some m -> m + 2 <= fuel -> bskip_many fuel r s0 p i <> NoFuel.
  Proof.
    intros Hr r m fuel s0 i Hm Hf. destruct r as [a b|a| |b|n]; try discriminate Hm; cbn [bskip_many max_count] in *; inversion Hm; subst; clear Hm.
    - unfold skip_many_range. destruct (negb (a <=? b)); [discriminate|].
      assert (Hf' : Nat.max b 1 - 1 < fuel) by lia. clear Hf. revert Hf'. generalize a (Nat.max b 1 - 1) s0 i.
      induction fuel as [|fuel IH]; intros a0 b0 s j Hf; [lia|]. cbn [skip_loop_range].
      destruct (b0 =? 0) eqn:Hb; [discriminate|]. apply Nat.eqb_neq in Hb. destruct (p s j) as [[j' u|b' e|n| |] s'] eqn:Hp; try discriminate.
      + apply IH. lia.
      + destruct (a0 =? 0); discriminate.
      + destruct ((a0 =? 0) && last j); discriminate.
      + exfalso. eapply Hr; eauto.
    - unfold skip_many_to. assert (Hf' : Nat.max b 1 - 1 < fuel) by lia. clear Hf. revert Hf'. generalize (Nat.max b 1 - 1) s0 i.
      induction fuel as [|fuel IH]; intros b0 s j Hf; [lia|]. cbn [skip_loop_to].
      destruct (b0 =? 0) eqn:Hb; [discriminate|]. apply Nat.eqb_neq in Hb. destruct (p s j) as [[j' u|b' e|n| |] s'] eqn:Hp; try discriminate.
      + apply IH. lia.
      + destruct (last j); discriminate.
      + exfalso. eapply Hr; eauto.
    - assert (Hf' : m < fuel) by lia. clear Hf. revert Hf'. generalize m s0 i.
      induction fuel as [|fuel IH]; intros b0 s j Hf; [lia|]. cbn [skip_many_exact].
      destruct (b0 =? 0) eqn:Hb; [discriminate|]. apply Nat.eqb_neq in Hb. destruct (p s j) as [[j' u|b' e|k| |] s'] eqn:Hp; try discriminate.
      + apply IH. lia.
      + destruct (k =? 0); discriminate.
      + exfalso. eapply Hr; eauto.
  Qed.

  Variable k : nat.
  Variable alt : S -> input I -> pres I U E.

  Lemma limited_below : forall c s i, c < k -> limited k p alt (c, s) i = (fst (p s i), (Datatypes.S c, snd (p s i))).
  Proof. intros c s i H. unfold limited. cbn [fst snd]. destruct (Nat.ltb_spec c k); [reflexivity|lia]. Qed.

  (** The bound that matters: either the input shrinks or the counter does. *)
  Lemma bskip_limited : forall r fuel s0 i,
    (consuming p /\ length (buf i) + 1 <= k) \/ (exists m, max_count r = Some m /\ m <= k) ->
    bskip_many fuel r (0, s0) (limited k p alt) i = bskip_many fuel r s0 p i.
  Proof.
    intros r fuel s0 i H.
    assert (H' : forall m, max_count r = Some m -> (consuming p /\ 0 + length (buf i) + 1 <= k) \/ 0 + m <= k).
    { intros m Hm. destruct H as [[Hc Hk]|(m' & Hm' & Hk)]; [left; split; auto|]. right. rewrite Hm in Hm'. inversion Hm'; subst. exact Hk. }
    assert (H'' : max_count r = None -> consuming p /\ 0 + length (buf i) + 1 <= k).
    { intros Hm. destruct H as [[Hc Hk]|(m' & Hm' & Hk)]; [split; auto|congruence]. }
    clear H. destruct r as [a b|a| |b|n]; cbn [bskip_many max_count] in *.
    - specialize (H' _ eq_refl). clear H''. unfold skip_many_range. destruct (negb (a <=? b)); [reflexivity|].
      assert (G : forall fuel a0 b0 s j c, (consuming p /\ c + length (buf j) + 1 <= k) \/ c + b0 <= k ->
        skip_loop_range (limited k p alt) fuel a0 b0 (c, s) j = skip_loop_range p fuel a0 b0 s j).
      { clear. induction fuel as [|fuel IH]; intros a0 b0 s j c H; [reflexivity|]. cbn [skip_loop_range].
        destruct (Nat.eqb_spec b0 0); [reflexivity|]. rewrite limited_below by lia.
        destruct (p s j) as [[j' u|b' e|n0| |] s'] eqn:Hp; cbn [fst snd]; try reflexivity. apply IH.
        destruct H as [[Hc Hk]|Hk]; [left|right; lia]. split; [exact Hc|]. apply Hc in Hp. lia. }
      apply G. destruct H' as [H'|H']; [left; exact H'|right; lia].
    - destruct (H'' eq_refl) as [Hc H]. clear H' H''.
      assert (G : forall fuel a0 s j c, c + length (buf j) + 1 <= k ->
        skip_many_from (limited k p alt) fuel (c, s) a0 j = skip_many_from p fuel s a0 j).
      { clear H i. intros fuel'. induction fuel' as [|fuel' IH]; intros a0 s j c H; [reflexivity|]. cbn [skip_many_from]. rewrite limited_below by lia.
        destruct (p s j) as [[j' u|b' e|n0| |] s'] eqn:Hp; cbn [fst snd]; try reflexivity. apply IH. apply Hc in Hp. lia. }
      apply G. exact H.
    - destruct (H'' eq_refl) as [Hc H]. clear H' H''.
      assert (G : forall fuel s j c, c + length (buf j) + 1 <= k ->
        skip_many_full (limited k p alt) fuel (c, s) j = skip_many_full p fuel s j).
      { clear H i. intros fuel'. induction fuel' as [|fuel' IH]; intros s j c H; [reflexivity|]. cbn [skip_many_full]. rewrite limited_below by lia.
        destruct (p s j) as [[j' u|b' e|n0| |] s'] eqn:Hp; cbn [fst snd]; try reflexivity. apply IH. apply Hc in Hp. lia. }
      apply G. exact H.
    - specialize (H' _ eq_refl). clear H''. unfold skip_many_to.
      assert (G : forall fuel b0 s j c, (consuming p /\ c + length (buf j) + 1 <= k) \/ c + b0 <= k ->
        skip_loop_to (limited k p alt) fuel b0 (c, s) j = skip_loop_to p fuel b0 s j).
      { clear. induction fuel as [|fuel IH]; intros b0 s j c H; [reflexivity|]. cbn [skip_loop_to].
        destruct (Nat.eqb_spec b0 0); [reflexivity|]. rewrite limited_below by lia.
        destruct (p s j) as [[j' u|b' e|n0| |] s'] eqn:Hp; cbn [fst snd]; try reflexivity. apply IH.
        destruct H as [[Hc Hk]|Hk]; [left|right; lia]. split; [exact Hc|]. apply Hc in Hp. lia. }
      apply G. destruct H' as [H'|H']; [left; exact H'|right; lia].
    - specialize (H' _ eq_refl). clear H''.
      assert (G : forall fuel b0 s j c, (consuming p /\ c + length (buf j) + 1 <= k) \/ c + b0 <= k ->
        skip_many_exact (limited k p alt) fuel (c, s) b0 j = skip_many_exact p fuel s b0 j).
      { clear. induction fuel as [|fuel IH]; intros b0 s j c H; [reflexivity|]. cbn [skip_many_exact].
        destruct (Nat.eqb_spec b0 0); [reflexivity|]. rewrite limited_below by lia.
        destruct (p s j) as [[j' u|b' e|n0| |] s'] eqn:Hp; cbn [fst snd]; try reflexivity. apply IH.
        destruct H as [[Hc Hk]|Hk]; [left|right; lia]. split; [exact Hc|]. apply Hc in Hp. lia. }
      apply G. exact H'.
  Qed.
End Skip.

(** ** [many_till] *)

Section Till.
  Context {S SE I U V E N : Type}.
  Variable p : sparser S I U E.
  Variable end_ : sparser SE I V N.
  Variables k ke : nat.
  Variable alt : S -> input I -> pres I U E.
  Variable alte : SE -> input I -> pres I V N.

  (** The two iterators agree apart from the counters. *)
  Definition same_but_counts {D} (a : iter_till (nat * S) (nat * SE) I E D) (b : iter_till S SE I E D) : Prop :=
    tt_state a = tt_state b /\ snd (tt_ps a) = tt_ps b /\ snd (tt_es a) = tt_es b /\ tt_buf a = tt_buf b /\ tt_data a = tt_data b.

  (** A pre-hook with the counted [end] against the same with [end] itself; it goes on to the parser after at most one application. *)
  Definition pre_agrees {D} (prel : iter_till (nat * S) (nat * SE) I E D -> pre_res (iter_till (nat * S) (nat * SE) I E D))
    (pre : iter_till S SE I E D -> pre_res (iter_till S SE I E D)) : Prop :=
    forall a b, same_but_counts a b -> fst (tt_es a) + 2 <= ke ->
      match prel a, pre b with
      | PreGo a', PreGo b' => same_but_counts a' b' /\ fst (tt_ps a') = fst (tt_ps a) /\ fst (tt_es a') <= fst (tt_es a) + 1 /\
                              tt_buf b' = tt_buf b /\ tt_data b' = tt_data b
      | PreNone a', PreNone b' => same_but_counts a' b'
      | PrePanic, PrePanic => True
      | PreNoFuel, PreNoFuel => True
      | _, _ => False
      end.

  Lemma end_test_limited : forall D (a : iter_till (nat * S) (nat * SE) I E D) (b : iter_till S SE I E D),
    same_but_counts a b -> fst (tt_es a) < ke ->
    match end_test (limited ke end_ alte) a, end_test end_ b with
    | PreGo a', PreGo b' => same_but_counts a' b' /\ fst (tt_ps a') = fst (tt_ps a) /\ fst (tt_es a') = fst (tt_es a) + 1 /\
                            tt_buf b' = tt_buf b /\ tt_data b' = tt_data b
    | PreNone a', PreNone b' => same_but_counts a' b'
    | PrePanic, PrePanic => True
    | PreNoFuel, PreNoFuel => True
    | _, _ => False
    end.
  Proof.
    intros D [sa [n s] [ne es] ja da] [sb s' es' jb db] (H1 & H2 & H3 & H4 & H5) H. simpl in *. subst. unfold end_test. cbn [tt_es tt_buf].
    rewrite limited_below by assumption. destruct (end_ es' jb) as [[j v|b' e|m| |] e2]; cbn [fst snd]; auto;
      unfold same_but_counts; simpl; repeat split; lia.
  Qed.

  Lemma pre_once : forall D, @pre_agrees D (fun it => end_test (limited ke end_ alte) it) (fun it => end_test end_ it).
  Proof.
    intros D a b H Hk. pose proof (end_test_limited H ltac:(lia)) as Ht.
    destruct (end_test (limited ke end_ alte) a), (end_test end_ b); try contradiction; auto.
    destruct Ht as (A & B & C & X & Y). repeat split; auto; try apply A. lia.
  Qed.

  Lemma pre_if : forall D (c : D -> bool) pl1 p1 pl2 p2, @pre_agrees D pl1 p1 -> @pre_agrees D pl2 p2 ->
    @pre_agrees D (fun it => if c (tt_data it) then pl1 it else pl2 it) (fun it => if c (tt_data it) then p1 it else p2 it).
  Proof.
    intros D c pl1 p1 pl2 p2 H1 H2 a b H Hk. pose proof H as H0. destruct H0 as (_ & _ & _ & _ & Hd). rewrite Hd.
    destruct (c (tt_data b)); [apply H1|apply H2]; assumption.
  Qed.

  Lemma pre_go : forall D, @pre_agrees D (fun it => PreGo it) (fun it => PreGo it).
  Proof. intros D a b H Hk. simpl. repeat split; try apply H; lia. Qed.

  (** [end] once more, after which the hook stops in any case. *)
  Lemma pre_last : forall D, @pre_agrees D (fun it => pre_seq (end_test (limited ke end_ alte) it) (fun it => PreNone it))
    (fun it => pre_seq (end_test end_ it) (fun it => PreNone it)).
  Proof.
    intros D a b H Hk. pose proof (end_test_limited H ltac:(lia)) as Ht.
    destruct (end_test (limited ke end_ alte) a), (end_test end_ b); simpl; try contradiction; auto. apply Ht.
  Qed.

  Lemma pre_to : forall D (c : D -> bool),
    @pre_agrees D (fun it => pre_seq (end_test (limited ke end_ alte) it) (fun it => if c (tt_data it) then PreNone it else PreGo it))
      (fun it => pre_seq (end_test end_ it) (fun it => if c (tt_data it) then PreNone it else PreGo it)).
  Proof.
    intros D c a b H Hk. pose proof (end_test_limited H ltac:(lia)) as Ht.
    destruct (end_test (limited ke end_ alte) a) as [a'| | |], (end_test end_ b) as [b'| | |]; simpl; try contradiction; auto.
    destruct Ht as (A & B & C & X & Y). pose proof A as A'. destruct A' as (_ & _ & _ & _ & Hd). rewrite Hd.
    destruct (c (tt_data b')); [exact A|]. repeat split; try apply A; auto. lia.
  Qed.

  (** [end] before the parser, and twice at the maximum. *)
  Lemma pre_range : forall D (c1 c2 : D -> bool),
    @pre_agrees D (fun it => pre_seq (if c1 (tt_data it) then end_test (limited ke end_ alte) it else PreGo it)
                     (fun it => if c2 (tt_data it) then pre_seq (end_test (limited ke end_ alte) it) (fun it => PreNone it) else PreGo it))
      (fun it => pre_seq (if c1 (tt_data it) then end_test end_ it else PreGo it)
                     (fun it => if c2 (tt_data it) then pre_seq (end_test end_ it) (fun it => PreNone it) else PreGo it)).
  Proof.
    intros D c1 c2 a b H Hk. pose proof H as H0. destruct H0 as (_ & _ & _ & _ & Hd0). rewrite Hd0. destruct (c1 (tt_data b)).
    - pose proof (end_test_limited H ltac:(lia)) as Ht.
      destruct (end_test (limited ke end_ alte) a) as [a'| | |], (end_test end_ b) as [b'| | |]; cbn [pre_seq]; try contradiction; auto.
      destruct Ht as (A & B & C & X & Y). pose proof A as A'. destruct A' as (_ & _ & _ & _ & Hd). rewrite Hd.
      destruct (c2 (tt_data b')).
      + pose proof (end_test_limited A ltac:(lia)) as Ht.
        destruct (end_test (limited ke end_ alte) a'), (end_test end_ b'); cbn [pre_seq]; try contradiction; auto. apply Ht.
      + repeat split; try apply A; auto. lia.
    - cbn [pre_seq]. rewrite Hd0. destruct (c2 (tt_data b)).
      + apply (@pre_last D); assumption.
      + apply (@pre_go D); assumption.
  Qed.

  (** [rank] bounds the items still to come: the parser runs at most [rank] or [rank + 1] times ([slack]), [end] at most [rank + 2] times. *)
  Lemma run_till_limited : forall D (hint : D -> nat * option nat) prel pre on fin (rank : input I -> D -> nat) slack fuel i s0 e0 d0,
    pre_agrees prel pre ->
    (forall b b', pre b = PreGo b' -> 1 <= rank (tt_buf b) (tt_data b) + slack) ->
    (forall b b', pre b = PreGo b' -> forall s j u s', p s (tt_buf b) = (Data j u, s') ->
      Datatypes.S (rank j (on (tt_data b))) <= rank (tt_buf b) (tt_data b)) ->
    rank i d0 + slack <= k -> rank i d0 + 2 <= ke ->
    run_iter_till fuel (vec_collector U) i (0, s0) (0, e0) (limited k p alt) d0 hint prel on fin =
    run_iter_till fuel (vec_collector U) i s0 e0 p d0 hint pre on fin.
  Proof.
    intros D hint prel pre on fin rank slack fuel i s0 e0 d0 Hpre H1 H2 Hk Hke. unfold run_iter_till. cbn [cinit vec_collector].
    pose (R := fun (a : iter_till (nat * S) (nat * SE) I E D) (b : iter_till S SE I E D) => same_but_counts a b /\
      fst (tt_ps a) + rank (tt_buf b) (tt_data b) + slack <= k /\ fst (tt_es a) + rank (tt_buf b) (tt_data b) + 2 <= ke).
    pose proof (@vec_sim _ _ _ (iter_till_next (limited k p alt) prel on) (iter_till_next p pre on)
      (fun it => hint (tt_data it)) (fun it => hint (tt_data it)) R same_but_counts) as H.
    assert (Hs : forall a b, R a b ->
      match iter_till_next (limited k p alt) prel on a, iter_till_next p pre on b with
      | Yield u a', Yield v b' => u = v /\ R a' b'
      | Stop a', Stop b' => same_but_counts a' b'
      | StepPanic, StepPanic => True
      | StepNoFuel, StepNoFuel => True
      | _, _ => False
      end).
    { intros a b (Hab & Hp & He). pose proof (H2 b) as Hy. pose proof (H1 b) as Hg. pose proof (Hpre a b Hab ltac:(lia)) as Hx.
      unfold iter_till_next in *. destruct (prel a) as [a'|a'| |], (pre b) as [b'|b'| |]; try contradiction; auto.
      destruct Hx as ((X1 & X2 & X3 & X4 & X5) & Y1 & Y2 & Y3 & Y4). specialize (Hg _ eq_refl). specialize (Hy _ eq_refl).
      destruct a' as [sa [n s] [ne es] ja da], b' as [sb s' es' jb db]. cbn [tt_state tt_ps tt_es tt_buf tt_data fst snd] in *. subst.
      rewrite limited_below by lia. destruct (p s' (tt_buf b)) as [[j u|b' e|m| |] s2] eqn:Hpp; cbn [fst snd]; auto;
        try (unfold same_but_counts; simpl; auto; fail).
      apply Hy in Hpp. split; [reflexivity|]. unfold R, same_but_counts. simpl. repeat split; auto; lia. }
    specialize (H Hs fuel [] [] (mkIterTill (TIncomplete 1) (0, s0) (0, e0) i d0) (mkIterTill (TIncomplete 1) s0 e0 i d0)).
    cbn [app] in H. specialize (H ltac:(unfold R, same_but_counts; simpl; auto 10)).
    destruct (from_iter fuel (iter_till_next (limited k p alt) prel on) _ _ _ _) as [t it| |];
    destruct (from_iter fuel (iter_till_next p pre on) _ _ _ _) as [t' it'| |]; try contradiction; auto.
    destruct H as [-> (X1 & X2 & X3 & X4 & X5)]. rewrite X1, X4, X5. reflexivity.
  Qed.

  Lemma bmany_till_limited : forall r fuel s0 e0 i,
    (consuming p /\ length (buf i) + 1 <= k /\ length (buf i) + 2 <= ke) \/
    (exists m, max_count r = Some m /\ m <= k /\ m + 2 <= ke) ->
    bmany_till fuel (vec_collector U) r (0, s0) (0, e0) (limited k p alt) (limited ke end_ alte) i =
    bmany_till fuel (vec_collector U) r s0 e0 p end_ i.
  Proof.
    intros r fuel s0 e0 i H.
    assert (Hpre : match r with
      | RRange a b => @pre_agrees (nat * nat)
          (fun it => pre_seq (if fst (tt_data it) =? 0 then end_test (limited ke end_ alte) it else PreGo it)
             (fun it => if snd (tt_data it) =? 0 then pre_seq (end_test (limited ke end_ alte) it) (fun it => PreNone it) else PreGo it))
          (fun it => pre_seq (if fst (tt_data it) =? 0 then end_test end_ it else PreGo it)
             (fun it => if snd (tt_data it) =? 0 then pre_seq (end_test end_ it) (fun it => PreNone it) else PreGo it))
      | _ => True end).
    { destruct r; auto. apply (@pre_range (nat * nat) (fun d => fst d =? 0) (fun d => snd d =? 0)). }
    destruct H as [(Hc & Hk & Hke)|(m & Hm & Hk & Hke)].
    - destruct r as [a b|a| |b|n]; cbn [bmany_till];
        [unfold many_till_range; destruct (negb (a <=? b)); [reflexivity|]
        |unfold many_till_from|unfold many_till_full|unfold many_till_to|unfold many_till_exact];
      (eapply run_till_limited with (rank := fun j _ => length (buf j)) (slack := 1);
        [|intros; lia|intros ? ? _ ? ? ? ? Hp; apply Hc in Hp; exact Hp|lia|lia]).
      + exact Hpre.
      + apply (@pre_if nat (fun d => d =? 0)); [apply pre_once|apply pre_go].
      + apply pre_once.
      + apply (@pre_to nat (fun d => d =? 0)).
      + apply (@pre_if nat (fun d => d =? 0)); [apply pre_last|apply pre_go].
    - destruct r as [a b|a| |b|n]; cbn [bmany_till max_count] in *; inversion Hm; subst; clear Hm.
      + unfold many_till_range. destruct (negb (a <=? b)); [reflexivity|].
        assert (G : forall c c' : iter_till S SE I E (nat * nat),
          pre_seq (if fst (tt_data c) =? 0 then end_test end_ c else PreGo c)
            (fun it => if snd (tt_data it) =? 0 then pre_seq (end_test end_ it) (fun it => PreNone it) else PreGo it) = PreGo c' ->
          snd (tt_data c) <> 0).
        { intros c c'. unfold pre_seq. destruct (fst (tt_data c) =? 0).
          - destruct (end_test end_ c) as [d| | |] eqn:He; try discriminate. apply end_test_data in He. 
            destruct (Nat.eqb_spec (snd (tt_data d)) 0); [destruct (end_test end_ d); discriminate|]. congruence.
          - destruct (Nat.eqb_spec (snd (tt_data c)) 0); [destruct (end_test end_ c); discriminate|]. auto. }
        eapply run_till_limited with (rank := fun _ d => snd d) (slack := 0); [exact Hpre| | |simpl; lia|simpl; lia].
        * intros c c' Hc. apply G in Hc. lia.
        * intros c c' Hc s j u s' _. apply G in Hc. simpl. lia.
      + unfold many_till_to.
        assert (G : forall c c' : iter_till S SE I E nat,
          pre_seq (end_test end_ c) (fun it => if tt_data it =? 0 then PreNone it else PreGo it) = PreGo c' -> tt_data c <> 0).
        { intros c c'. unfold pre_seq. destruct (end_test end_ c) as [d| | |] eqn:He; try discriminate. apply end_test_data in He.
          destruct (Nat.eqb_spec (tt_data d) 0); [discriminate|]. congruence. }
        eapply run_till_limited with (rank := fun _ d => d) (slack := 0); [apply (@pre_to nat (fun d => d =? 0))| | |lia|lia].
        * intros c c' Hc. apply G in Hc. lia.
        * intros c c' Hc s j u s' _. apply G in Hc. lia.
      + unfold many_till_exact.
        assert (G : forall c c' : iter_till S SE I E nat,
          (if tt_data c =? 0 then pre_seq (end_test end_ c) (fun it => PreNone it) else PreGo c) = PreGo c' -> tt_data c <> 0).
        { intros c c'. destruct (Nat.eqb_spec (tt_data c) 0); [|auto]. unfold pre_seq. destruct (end_test end_ c); discriminate. }
        eapply run_till_limited with (rank := fun _ d => d) (slack := 0);
          [apply (@pre_if nat (fun d => d =? 0)); [apply pre_last|apply pre_go]| | |lia|lia].
        * intros c c' Hc. apply G in Hc. lia.
        * intros c c' Hc s j u s' _. apply G in Hc. lia.
  Qed.
End Till.

(** ** Two parsers with related states *)

Section Related.
  Context {S1 S2 I U E : Type}.
  Variable p1 : sparser S1 I U E.
  Variable p2 : sparser S2 I U E.
  Variable R : S1 -> S2 -> input I -> Prop.
  Hypothesis HR : forall s1 s2 i, R s1 s2 i -> fst (p1 s1 i) = fst (p2 s2 i) /\
    forall j u, fst (p2 s2 i) = Data j u -> R (snd (p1 s1 i)) (snd (p2 s2 i)) j.

  Lemma run_iter_related : forall D (hint : D -> nat * option nat) pre on fin fuel i s1 s2 d0, R s1 s2 i ->
    run_iter fuel (vec_collector U) i s1 p1 d0 hint pre on fin = run_iter fuel (vec_collector U) i s2 p2 d0 hint pre on fin.
  Proof.
    intros D hint pre on fin fuel i s1 s2 d0 H0. unfold run_iter. cbn [cinit vec_collector].
    pose (R1 := fun (a : iter S1 I E D) (b : iter S2 I E D) => it_state a = it_state b /\ it_buf a = it_buf b /\ it_data a = it_data b).
    pose (R2 := fun (a : iter S1 I E D) (b : iter S2 I E D) => R1 a b /\ R (it_ps a) (it_ps b) (it_buf b)).
    pose proof (@vec_sim _ _ _ (iter_next p1 pre on) (iter_next p2 pre on) (fun it => hint (it_data it)) (fun it => hint (it_data it)) R2 R1) as H.
    assert (Hs : forall a b, R2 a b ->
      match iter_next p1 pre on a, iter_next p2 pre on b with
      | Yield u a', Yield v b' => u = v /\ R2 a' b'
      | Stop a', Stop b' => R1 a' b'
      | StepPanic, StepPanic => True
      | StepNoFuel, StepNoFuel => True
      | _, _ => False
      end).
    { intros [sa s ja da] [sb s' jb db] [(Hx & Hy & Hz) Hr]. simpl in *. subst. unfold iter_next. cbn [it_data it_state it_ps it_buf].
      destruct (pre db); [unfold R1; simpl; auto|]. destruct (HR Hr) as [He Hn].
      destruct (p1 s jb) as [r1 t1], (p2 s' jb) as [r2 t2]. cbn [fst snd] in *. subst r1.
      destruct r2; auto; try (unfold R1; simpl; auto; fail). unfold R2, R1. simpl. repeat split; auto. eapply Hn; reflexivity. }
    specialize (H Hs fuel [] [] (mkIter (ESIncomplete 1) s1 i d0) (mkIter (ESIncomplete 1) s2 i d0)).
    cbn [app] in H. specialize (H ltac:(unfold R2, R1; simpl; auto)).
    destruct (from_iter fuel (iter_next p1 pre on) _ _ _ _) as [t it| |];
    destruct (from_iter fuel (iter_next p2 pre on) _ _ _ _) as [t' it'| |]; try contradiction; auto.
    destruct H as [-> [Hx [Hy Hz]]]. rewrite Hx, Hy, Hz. reflexivity.
  Qed.

  Lemma bmany_related : forall r fuel i s1 s2, R s1 s2 i ->
    bmany fuel (vec_collector U) r s1 p1 i = bmany fuel (vec_collector U) r s2 p2 i.
  Proof.
    intros r fuel i s1 s2 H. destruct r as [a b|a| |b|n]; cbn [bmany]; try (apply run_iter_related; exact H).
    unfold parse_many_range. destruct (negb (a <=? b)); auto. apply run_iter_related. exact H.
  Qed.
End Related.

(** ** [sep_by] *)

Section Sep.
  Context {SP SS I U V E N : Type}.
  Variable conv : N -> E.
  Variable p : sparser SP I U E.
  Variable sep : sparser SS I V N.
  Variables k ks : nat.
  Variable alt : SP -> input I -> pres I U E.
  Variable alts : SS -> input I -> pres I V N.
  Hypothesis Hp : consuming p.
  Hypothesis Hs : shrinking sep.

  Lemma sep_many_limited : forall r fuel sp ss i, length (buf i) + 1 <= k -> length (buf i) <= ks ->
    bmany fuel (vec_collector U) r (false, (0, sp), (0, ss)) (sep_item conv (limited k p alt) (limited ks sep alts)) i =
    bmany fuel (vec_collector U) r (false, sp, ss) (sep_item conv p sep) i.
  Proof.
    intros r fuel sp ss i Hk Hks.
    apply bmany_related with (R := fun (a : bool * (nat * SP) * (nat * SS)) (b : bool * SP * SS) j =>
      fst (fst a) = fst (fst b) /\ snd (snd (fst a)) = snd (fst b) /\ snd (snd a) = snd b /\
      fst (snd (fst a)) + length (buf j) + 1 <= k /\
      fst (snd a) + length (buf j) + (if fst (fst b) then 1 else 0) <= ks).
    2:{ simpl. repeat split; lia. }
    intros [[item [c s]] [ce es]] [[item' s'] es'] j (H1 & H2 & H3 & H4 & H5). cbn [fst snd] in *. subst item' s' es'. destruct item.
    - unfold sep_item. rewrite limited_below by lia. destruct (sep es j) as [[j1 v|b e|n| |] es1] eqn:Hsep; cbn [fst snd map].
      + apply Hs in Hsep. rewrite limited_below by lia. destruct (p s j1) as [[j2 u|b e|n| |] s1] eqn:Hpp; cbn [fst snd];
          (split; [reflexivity|]); intros j3 u3 H; inversion H; subst. apply Hp in Hpp. simpl. repeat split; lia.
      + split; [reflexivity|]. intros ? ? H. discriminate H.
      + split; [reflexivity|]. intros ? ? H. discriminate H.
      + split; [reflexivity|]. intros ? ? H. discriminate H.
      + split; [reflexivity|]. intros ? ? H. discriminate H.
    - unfold sep_item. cbn [ret]. rewrite limited_below by lia. destruct (p s j) as [[j2 u|b e|n| |] s1] eqn:Hpp; cbn [fst snd];
        (split; [reflexivity|]); intros j3 u3 H; inversion H; subst. apply Hp in Hpp. simpl. repeat split; lia.
  Qed.
End Sep.
