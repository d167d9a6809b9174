(** Following a source that pauses. *)
From Coq Require Import List Bool Arith Lia.
From Verif Require Import Base Parsers Combinators Buffer Stream SpecBase SpecBuffer SpecSafe SpecStream SpecIter SpecFollow BufferProofs StreamProofs SimProofs.
Import ListNotations.

Set Implicit Arguments.

Section Follow.
  Context {St I B : Type}.
  Variable ds : data_source St I.
  Variables (ops : buffer_ops I B) (inv : B -> Prop) (view : B -> list I) (room : B -> nat) (fits : nat -> Prop).
  Hypothesis Q : queue_like ops inv view room fits.
  Hypothesis Ho : obeys ds.
  Variable R : St -> list I -> nat -> nat -> Prop.
  Hypothesis HR : pausing ds R.

  Lemma reads_pausing : forall s s' new k en, reads ds s s' new k en -> forall d z e, R s d z e ->
    exists d' z', d = new ++ d' /\ k <= e /\ z' <= z /\ R s' d' z' (e - k) /\ (en = true -> d' = [] \/ z' < z).
  Proof.
    intros s s' new k en H. induction H as [s|s n s1 w k s2 l e b Hr H IH|s n s1 w x s2 l e b Hr H IH]; intros d z e0 Hd.
    - exists d, z. rewrite Nat.sub_0_r. repeat split; auto; try lia; discriminate.
    - pose proof (HR Hd _ Hr) as H1. cbn in H1. destruct H1 as (H1 & c & d1 & H2 & H3 & H4 & H5). subst k. rewrite (delivered_writes H4).
      destruct H5 as [[H6 H5]|(Hk0 & z1 & -> & H5)].
      + destruct (IH _ _ _ H5) as (d' & z' & G1 & G2 & G3 & G4 & G5). exists d', z'. split; [rewrite H2, G1, app_assoc; reflexivity|].
        split; [assumption|]. split; [assumption|]. split; [assumption|]. intros Hen. apply orb_true_iff in Hen. destruct Hen as [Hen|Hen]; [|auto].
        apply andb_true_iff in Hen. destruct Hen as [Hk Hn]. apply Nat.eqb_eq in Hk. apply Nat.ltb_lt in Hn. destruct (H6 Hk) as [H7|H7]; [lia|].
        left. rewrite H7 in H2. symmetry in H2. apply app_eq_nil in H2. destruct H2 as [_ H2]. rewrite H2 in G1. symmetry in G1. apply app_eq_nil in G1. apply G1.
      + destruct (IH _ _ _ H5) as (d' & z' & G1 & G2 & G3 & G4 & G5). exists d', z'. split; [rewrite H2, G1, app_assoc; reflexivity|].
        split; [assumption|]. split; [lia|]. split; [assumption|]. intros _. right. lia.
    - pose proof (HR Hd _ Hr) as H1. cbn in H1. destruct H1 as (e' & He & H1). destruct (IH _ _ _ H1) as (d' & z' & G1 & G2 & G3 & G4 & G5).
      exists d', z'. split; [assumption|]. split; [lia|]. split; [assumption|]. split; [|assumption]. subst e0. exact G4.
  Qed.

  (** Source state [st] stands before [rest], of which [d] is still to be read; [z] pauses and [e] errors may come. *)
  Definition awaits (st : src St B) (rest d : list I) (z e : nat) : Prop :=
    inv (src_buffer st) /\ R (src_source st) d z e /\ rest = view (src_buffer st) ++ d /\ src_auto st = true /\
    (src_incomplete st = true -> fits (Nat.min (Nat.max 1 (src_request st)) (length rest))).

  Definition effort (st : src St B) (d : list I) (z e : nat) : nat :=
    3 * z + 2 * length d + e +
    (if src_incomplete st then if length (view (src_buffer st)) <? Nat.max 1 (src_request st) then 0 else 1
     else if src_eoi st then 2 else 1).

  Lemma effort_bound : forall st d z e, effort st d z e <= 3 * z + 2 * length d + e + 2.
  Proof. intros st d z e. unfold effort. destruct (src_incomplete st), (src_eoi st), (length (view (src_buffer st)) <? Nat.max 1 (src_request st)); lia. Qed.

  Lemma fill_awaits : forall st rest d z e, awaits st rest d z e -> src_incomplete st = true ->
    exists st1 r d1 z1 e1, src_fill ds ops st = Done (st1, r) /\ awaits st1 rest d1 z1 e1 /\ length d1 <= length d /\ z1 <= z /\ e1 <= e /\
      match r with
      | IoErr _ => effort st1 d1 z1 e1 < effort st d z e
      | IoOk _ => e1 = e /\ src_incomplete st1 = false /\
          ((src_eoi st1 = true /\ (d1 = [] \/ z1 < z)) \/
           (src_eoi st1 = false /\ (length d1 < length d \/ Nat.max 1 (src_request st) <= length (view (src_buffer st)))))
      end.
  Proof.
    intros st rest d z e (Hi & Hd & Hrest & Ha & Hf) Hinc. destruct (src_fill_spec Q Ho st Hi) as (st1 & r & new & k & en & H1 & H2 & H3 & H4 & H5 & H6 & H7).
    destruct (reads_pausing H2 Hd) as (d1 & z1 & G1 & G2 & G3 & G4 & G5). exists st1, r, d1, z1, (e - k). split; [assumption|].
    assert (Hrest1 : rest = view (src_buffer st1) ++ d1) by (rewrite H4, <- app_assoc, <- G1; assumption).
    assert (Hlen : length d = length new + length d1) by (rewrite G1, app_length; reflexivity).
    destruct r as [m|x].
    - destruct H7 as (-> & _ & H7 & H8 & H9). split; [|split; [lia|split; [assumption|split; [lia|]]]].
      + repeat split; auto; congruence.
      + split; [lia|]. split; [assumption|]. destruct (src_eoi st1) eqn:Heoi; [left|right]; (split; [reflexivity|]).
        * destruct H9 as [H9|[H9|H9]]; [discriminate|auto|]. left.
          destruct d1 as [|y d1]; [reflexivity|exfalso]. apply H9. symmetry in H8. apply Nat.ltb_lt in H8.
          eapply (q_fits Q); [|apply (Hf Hinc)]. rewrite Hrest1, app_length in *. cbn [length]. lia.
        * symmetry in H8. apply Nat.ltb_ge in H8. rewrite H4, app_length in H8. destruct (length new) eqn:Hn; [right; lia|left; lia].
    - destruct H7 as (-> & H7 & H8 & H9). split; [|split; [lia|split; [assumption|split; [lia|]]]].
      + repeat split; auto; try congruence. rewrite H5, H8. assumption.
      + unfold effort. rewrite H8, Hinc, H5. apply Nat.ltb_lt in H7. rewrite H7. destruct (length (view (src_buffer st)) <? Nat.max 1 (src_request st)); lia.
  Qed.

  Definition unsettled {T E} (rest : list I) (p : parser I T E) : Prop := rest = [] \/ exists n, p (mkInput true rest) = Incomplete n.

  Definition once_more (st : src St B) : src St B := src_set_autofill true (src_reset st).

  Lemma once_more_awaits : forall st rest d z e, inv (src_buffer st) -> R (src_source st) d z e -> rest = view (src_buffer st) ++ d -> awaits (once_more st) rest d z e.
  Proof. intros. repeat split; auto; discriminate. Qed.

  Lemma once_more_effort : forall st d z e, effort (once_more st) d z e = 3 * z + 2 * length d + e + 1.
  Proof. reflexivity. Qed.

  (** One call of [parse]. *)
  Lemma follow_step : forall T E (p : parser I T E) st rest d z e, awaits st rest d z e -> suits fits rest p -> patient_in rest p ->
    (exists st' r d' z' e', src_parse ds ops p st = Done (st', r) /\ (r = inr SRetry \/ exists x, r = inr (SIoError x)) /\
       awaits st' rest d' z' e' /\ effort st' d' z' e' < effort st d z e /\ 3 * z' + 2 * length d' + e' <= 3 * z + 2 * length d + e) \/
    (exists st' r d' z' e', src_parse ds ops p st = Done (st', r) /\ (r = inr SEndOfInput \/ exists n, r = inr (SIncomplete n)) /\
       awaits (once_more st') rest d' z' e' /\ (effort (once_more st') d' z' e' < effort st d z e \/ unsettled rest p) /\
       3 * z' + 2 * length d' + e' <= 3 * z + 2 * length d + e) \/
    (rest <> [] /\ p (mkInput true rest) = Panic /\ src_parse ds ops p st = Panicked) \/
    (rest <> [] /\ exists st' d' z' e' out rest' out', src_parse ds ops p st = Done (st', out) /\ awaits st' rest' d' z' e' /\
       3 * z' + 2 * length d' + e' <= 3 * z + 2 * length d + e /\
       whole rest (p (mkInput true rest)) rest' out' /\ same out out' /\ match out with inl _ => True | inr (SParseError _ _) => True | _ => False end).
  Proof.
    intros T E p st rest d z e Hst Hsu Hpa.
    assert (Hi : inv (src_buffer st)) by apply Hst.
    destruct (src_parse_spec Q Ho st Hi (su_well_behaved Hsu)) as [(st1 & x & H1 & H2 & H3 & H4)|(st1 & H1 & H2)].
    { left. destruct (fill_awaits Hst H1) as (st2 & r & d1 & z1 & e1 & G1 & G2 & G3 & G4 & G5 & G6). rewrite H3 in G1. inversion G1; subst st2 r.
      exists st1, (inr (SIoError x)), d1, z1, e1. split; [assumption|]. split; [eauto|]. split; [assumption|]. split; [assumption|lia]. }
    (* state before the parser is run *)
    assert (Hst1 : exists d1 z1, awaits st1 rest d1 z1 e /\ src_incomplete st1 = false /\ length d1 <= length d /\ z1 <= z /\
      ((src_eoi st1 = true /\ (d1 = [] \/ 3 * z1 + 2 * length d1 + e + 1 < effort st d z e)) \/ (src_eoi st1 = false /\ 3 * z1 + 2 * length d1 + e < effort st d z e))).
    { destruct (src_incomplete st) eqn:Hinc.
      - assert (Hauto : src_auto st = true) by apply Hst. rewrite Hauto in H1. cbn [andb] in H1. destruct H1 as [m H1].
        destruct (fill_awaits Hst Hinc) as (st2 & r & d1 & z1 & e1 & G1 & G2 & G3 & G4 & _ & G5). rewrite H1 in G1. inversion G1; subst st2 r. destruct G5 as (-> & G5 & G6).
        exists d1, z1. split; [assumption|]. split; [assumption|]. split; [assumption|]. split; [assumption|].
        destruct G6 as [[G6 [G7|G7]]|[G6 G7]].
        + left. auto.
        + left. split; [assumption|]. right. unfold effort. rewrite Hinc. lia.
        + right. split; [assumption|]. unfold effort. rewrite Hinc. destruct G7 as [G7|G7]; [lia|]. apply Nat.ltb_ge in G7. rewrite G7. lia.
      - cbn [andb] in H1. subst st1. exists d, z. split; [assumption|]. split; [assumption|]. split; [lia|]. split; [lia|]. unfold effort. rewrite Hinc.
        destruct (src_eoi st); [left|right]; (split; [reflexivity|lia]). }
    destruct Hst1 as (d1 & z1 & Hst1 & Hinc1 & Hd1 & Hz1 & Hm1). clear H1. pose proof Hst1 as (Hi1 & HR1 & Hrest1 & Ha1 & Hf1).
    cbn zeta in H2. set (data := view (src_buffer st1)) in *.
    assert (Hle : 3 * z1 + 2 * length d1 + e <= 3 * z + 2 * length d + e) by lia.
    destruct H2 as [(H2 & H3 & H4)|[H2 H3]].
    { right. left. exists st1, (inr SEndOfInput), d1, z1, e. split; [assumption|]. split; [auto|].
      split; [apply once_more_awaits; auto|]. split; [|assumption]. rewrite once_more_effort. destruct Hm1 as [[_ [Hm1|Hm1]]|[Hm1 _]]; [right|left; lia|congruence].
      left. rewrite Hrest1, H3, Hm1. reflexivity. }
    (* the verdict on the data so far is the one on all of it *)
    assert (Hne : (forall n, p (mkInput false data) <> Incomplete n) -> rest <> []).
    { intros Hp Hr. destruct (su_needs_input Hsu Hr) as [n Hn]. rewrite Hr in Hrest1. symmetry in Hrest1. apply app_eq_nil in Hrest1. destruct Hrest1 as [Hr1 _].
      rewrite Hr1 in Hp. exact (Hp _ Hn). }
    destruct (src_eoi st1) eqn:Heoi.
    - assert (Hdec : d1 = [] \/ d1 <> []) by (destruct d1; [auto|right; discriminate]). destruct Hdec as [Hd0|Hd0].
      + (* all there is *)
        subst d1. rewrite app_nil_r in Hrest1. rewrite <- Hrest1 in *. destruct H2 as [H2|H2]; [discriminate|].
        destruct H3 as [(H3 & H4)|[(H3 & H4)|(st' & out & H3 & H4 & H5 & H6 & H7 & H8)]].
        * right. right. left. auto.
        * exfalso. exact (su_decides Hsu _ H3).
        * destruct (p (mkInput true rest)) as [j v|b x|n| |] eqn:Ep; cbn [answer whole] in *; try contradiction.
          -- right. right. right. split; [assumption|]. destruct H8 as (-> & H8 & H9 & H10). exists st', [], z1, e, (inl v), (buf j), (inl v). split; [assumption|].
             split; [|split; [assumption|split; [auto|split; [reflexivity|exact Logic.I]]]].
             split; [assumption|]. rewrite H5. split; [assumption|]. rewrite H8, app_nil_r. split; [reflexivity|]. split; congruence.
          -- right. right. right. split; [assumption|]. destruct H8 as (-> & H8 & H9 & H10). exists st', [], z1, e, (inr (SParseError b x)), b, (inr (SParseError b x)). split; [assumption|].
             split; [|split; [assumption|split; [auto|split; [|exact Logic.I]]]].
             { split; [assumption|]. rewrite H5. split; [assumption|]. rewrite H8, app_nil_r. split; [reflexivity|]. split; congruence. }
             split; [reflexivity|]. exists []. rewrite app_nil_r. reflexivity.
          -- right. left. destruct H8 as (H8 & H9 & H10). rewrite Heoi in H10. destruct H10 as [-> H10]. eexists st', _, [], z1, e. split; [eassumption|]. split; [eauto|].
             split; [|split; [right; right; eauto|assumption]]. apply once_more_awaits; [assumption|rewrite H5; assumption|]. rewrite H8, app_nil_r. exact Hrest1.
      + (* a pause *)
        destruct Hm1 as [[_ [Hm1|Hm1]]|[Hm1 _]]; [contradiction| |discriminate].
        assert (Hup := su_stable Hsu data true d1). rewrite <- Hrest1 in Hup.
        assert (Hup0 := su_stable Hsu data true []). rewrite app_nil_r in Hup0.
        assert (Hpa0 := fun n => Hpa data d1 n Hrest1 Hd0).
        destruct (p (mkInput false data)) as [j v|b x|n| |] eqn:Ep; cbn [upholds] in Hup, Hup0.
        * rewrite app_nil_r in Hup0. rewrite Hup0 in H3. destruct H3 as [(H3 & H4)|[(H3 & H4)|(st' & out & H3 & H4 & H5 & H6 & H7 & H8)]]; try discriminate.
          cbn [answer buf] in H8. right. right. right. split; [apply Hne; congruence|]. destruct H8 as (-> & H8 & H9 & H10). rewrite Hup. cbn [whole buf].
          exists st', d1, z1, e, (inl v), (buf j ++ d1), (inl v). split; [assumption|].
          split; [|split; [assumption|split; [auto|split; [reflexivity|exact Logic.I]]]].
          split; [assumption|]. rewrite H5. split; [assumption|]. rewrite H8. split; [reflexivity|]. split; congruence.
        * rewrite app_nil_r in Hup0. rewrite Hup0 in H3. destruct H3 as [(H3 & H4)|[(H3 & H4)|(st' & out & H3 & H4 & H5 & H6 & H7 & H8)]]; try discriminate.
          cbn [answer buf] in H8. right. right. right. split; [apply Hne; congruence|]. destruct H8 as (-> & H8 & H9 & H10). rewrite Hup. cbn [whole buf].
          exists st', d1, z1, e, (inr (SParseError b x)), (b ++ d1), (inr (SParseError (b ++ d1) x)). split; [assumption|].
          split; [|split; [assumption|split; [auto|split; [|exact Logic.I]]]].
          { split; [assumption|]. rewrite H5. split; [assumption|]. rewrite H8. split; [reflexivity|]. split; congruence. }
          split; [reflexivity|]. eauto.
        * destruct (Hpa0 _ eq_refl) as [m Hm]. rewrite Hm in H3. destruct H3 as [(H3 & H4)|[(H3 & H4)|(st' & out & H3 & H4 & H5 & H6 & H7 & H8)]]; try discriminate.
          cbn [answer] in H8. destruct H8 as (H8 & H9 & H10). rewrite Heoi in H10. destruct H10 as [-> H10].
          right. left. eexists st', _, d1, z1, e. split; [eassumption|]. split; [eauto|]. split; [|split; [left; rewrite once_more_effort; assumption|assumption]].
          apply once_more_awaits; [assumption|rewrite H5; assumption|]. rewrite H8. exact Hrest1.
        * rewrite Hup0 in H3. destruct H3 as [(H3 & H4)|[(H3 & H4)|(st' & out & H3 & H4 & H5 & H6 & H7 & H8)]]; try discriminate; [|contradiction].
          right. right. left. split; [apply Hne; congruence|]. auto.
        * exfalso. exact (su_decides Hsu _ Ep).
    - (* more may come *)
      destruct Hm1 as [[Hm1 _]|[_ Hm1]]; [discriminate|].
      assert (Hup := su_stable Hsu data true d1). rewrite <- Hrest1 in Hup.
      destruct H3 as [(H3 & H4)|[(H3 & H4)|(st' & out & H3 & H4 & H5 & H6 & H7 & H8)]].
      + right. right. left. rewrite H3 in Hup. cbn in Hup. split; [apply Hne; intros n Hn; congruence|]. auto.
      + exfalso. exact (su_decides Hsu _ H3).
      + pose proof (su_well_behaved Hsu (mkInput false data)) as Hw. destruct (p (mkInput false data)) as [j v|b x|n| |] eqn:Hp; cbn [answer upholds honest last buf] in *; try contradiction.
        * right. right. right. split; [apply Hne; congruence|]. destruct H8 as (-> & H8 & H9 & H10). rewrite Hup. cbn [whole buf].
          exists st', d1, z1, e, (inl v), (buf j ++ d1), (inl v). split; [assumption|].
          split; [|split; [assumption|split; [auto|split; [reflexivity|exact Logic.I]]]].
          split; [assumption|]. rewrite H5. split; [assumption|]. rewrite H8. split; [reflexivity|]. split; congruence.
        * right. right. right. split; [apply Hne; congruence|]. destruct H8 as (-> & H8 & H9 & H10). rewrite Hup. cbn [whole buf].
          exists st', d1, z1, e, (inr (SParseError b x)), (b ++ d1), (inr (SParseError (b ++ d1) x)). split; [assumption|].
          split; [|split; [assumption|split; [auto|split; [|exact Logic.I]]]].
          { split; [assumption|]. rewrite H5. split; [assumption|]. rewrite H8. split; [reflexivity|]. split; congruence. }
          split; [reflexivity|]. eauto.
        * left. destruct H8 as (H8 & H9 & H10). rewrite Heoi in H10. destruct H10 as [-> H10]. exists st', (inr SRetry), d1, z1, e. split; [assumption|]. split; [auto|]. split.
          { split; [assumption|]. rewrite H5. split; [assumption|]. rewrite H8. split; [assumption|]. split; [congruence|].
            intros _. rewrite H9. replace (Nat.max 1 (length data + n)) with (length data + n) by lia. eapply (su_fits Hsu); eauto. }
          { split; [|assumption]. unfold effort at 1. rewrite H10, H9, H8. fold data. replace (length data <? Nat.max 1 (length data + n)) with true by (symmetry; apply Nat.ltb_lt; lia). lia. }
  Qed.

  (** With data that does not suffice, for ever. *)
  Lemma follow_waits : forall T E (p : parser I T E) fuel st rest d z e, awaits st rest d z e -> suits fits rest p -> patient_in rest p -> unsettled rest p ->
    follow ds ops fuel p st = Stuck.
  Proof.
    intros T E p. induction fuel as [|fuel IH]; intros st rest d z e Hst Hsu Hpa Hun; [reflexivity|]. cbn [follow].
    destruct (follow_step Hst Hsu Hpa) as [(st' & r & d' & z' & e' & H1 & H2 & H3 & _)|[(st' & r & d' & z' & e' & H1 & H2 & H3 & _)|[(H1 & H2 & _)|(H1 & st' & d' & z' & e' & out & rest' & out' & H2 & H3 & H4 & H5 & H6 & H7)]]].
    - rewrite H1. cbn [run_bind]. destruct H2 as [->|[x ->]]; eapply IH; eauto.
    - rewrite H1. cbn [run_bind]. destruct H2 as [->|[x ->]]; eapply IH; eauto.
    - destruct Hun as [Hun|[n Hun]]; congruence.
    - destruct Hun as [Hun|[n Hun]]; [contradiction|]. rewrite Hun in H5. cbn [whole] in H5. destruct H5 as [_ ->]. destruct out as [|[]]; cbn [same] in H6; try discriminate; contradiction.
  Qed.

  Lemma follow_settles : forall T E (p : parser I T E) fuel st rest d z e, awaits st rest d z e -> suits fits rest p -> patient_in rest p -> ~ unsettled rest p ->
    effort st d z e < fuel ->
    (rest <> [] /\ p (mkInput true rest) = Panic /\ follow ds ops fuel p st = Panicked) \/
    (rest <> [] /\ exists st' d' z' e' out rest' out', follow ds ops fuel p st = Done (st', out) /\ awaits st' rest' d' z' e' /\
       3 * z' + 2 * length d' + e' <= 3 * z + 2 * length d + e /\ whole rest (p (mkInput true rest)) rest' out' /\ same out out').
  Proof.
    intros T E p. induction fuel as [|fuel IH]; intros st rest d z e Hst Hsu Hpa Hun Hm; [lia|]. cbn [follow].
    destruct (follow_step Hst Hsu Hpa) as [(st' & r & d' & z' & e' & H1 & H2 & H3 & H4 & H5)|[(st' & r & d' & z' & e' & H1 & H2 & H3 & H4 & H5)|[(H1 & H2 & H3)|(H1 & st' & d' & z' & e' & out & rest' & out' & H2 & H3 & H4 & H5 & H6 & H7)]]].
    - rewrite H1. cbn [run_bind].
      destruct (IH _ _ _ _ _ H3 Hsu Hpa Hun ltac:(lia)) as [(G1 & G2 & G3)|(G1 & st2 & d2 & z2 & e2 & out & rest' & out' & G2 & G3 & G4 & G5)].
      + left. destruct H2 as [->|[x ->]]; auto.
      + right. split; [assumption|]. exists st2, d2, z2, e2, out, rest', out'. split; [destruct H2 as [->|[x ->]]; assumption|]. split; [assumption|]. split; [lia|assumption].
    - rewrite H1. cbn [run_bind]. destruct H4 as [H4|H4]; [|contradiction].
      destruct (IH _ _ _ _ _ H3 Hsu Hpa Hun ltac:(lia)) as [(G1 & G2 & G3)|(G1 & st2 & d2 & z2 & e2 & out & rest' & out' & G2 & G3 & G4 & G5)].
      + left. destruct H2 as [->|[x ->]]; auto.
      + right. split; [assumption|]. exists st2, d2, z2, e2, out, rest', out'. split; [destruct H2 as [->|[x ->]]; assumption|]. split; [assumption|]. split; [lia|assumption].
    - rewrite H3. left. auto.
    - rewrite H2. cbn [run_bind]. right. split; [assumption|]. exists st', d', z', e', out, rest', out'.
      split; [destruct out as [|[]]; try contradiction; reflexivity|]. auto.
  Qed.

  Lemma following_spec : forall T E (c : script I T E) fuel s st d z e, ss_pos s <= length (ss_slice s) -> awaits st (rest_of s) d z e ->
    script_follows fits s c -> 3 * z + 2 * length d + e + 2 < fuel ->
    following ds ops fuel c st = on_open c s.
  Proof.
    intros T E c fuel. induction c as [|p k IH]; intros s st d z e Hpos Hst Hc Hf; [reflexivity|].
    inversion Hc as [|s1 p1 k1 Hsu Hpa Hk]; subst. fold (rest_of s) in Hsu, Hpa. cbn [following on_open].
    assert (Hm : effort st d z e < fuel) by (pose proof (effort_bound st d z e); lia).
    destruct (slice_parse_spec s Hpos (su_well_behaved Hsu)) as [[G1 G2]|[G1 [[G2 G3]|[[G2 G3]|(s' & out2 & G2 & G3 & G4 & G5)]]]].
    - rewrite (follow_waits fuel Hst Hsu Hpa (or_introl G1)), G2. reflexivity.
    - rewrite G3. destruct (follow_settles Hst Hsu Hpa (fuel := fuel)) as [(H1 & H2 & H3)|(H1 & st' & d' & z' & e' & out & rest' & out' & H2 & H3 & H4 & H5 & H6)]; auto.
      + intros [Hu|[n Hu]]; congruence.
      + rewrite H3. reflexivity.
      + rewrite G2 in H5. contradiction.
    - exfalso. exact (su_decides Hsu _ G2).
    - rewrite G2. cbn [run_bind]. destruct (p (mkInput true (rest_of s))) as [j v|b x|n| |] eqn:Ep; cbn [whole] in G5; try contradiction.
      + destruct (follow_settles Hst Hsu Hpa (fuel := fuel)) as [(H1 & H2 & H3)|(H1 & st' & d' & z' & e' & out & rest' & out' & H2 & H3 & H4 & H5 & H6)]; auto.
        * intros [Hu|[n Hu]]; congruence.
        * congruence.
        * rewrite Ep in H5. cbn [whole] in H5. destruct H5 as [-> ->], G5 as [G5 ->]. rewrite H2. cbn [run_bind]. rewrite (same_forget _ _ H6).
          rewrite (IH _ s' st' d' z' e'); auto; [rewrite G5; assumption|lia].
      + destruct (follow_settles Hst Hsu Hpa (fuel := fuel)) as [(H1 & H2 & H3)|(H1 & st' & d' & z' & e' & out & rest' & out' & H2 & H3 & H4 & H5 & H6)]; auto.
        * intros [Hu|[n Hu]]; congruence.
        * congruence.
        * rewrite Ep in H5. cbn [whole] in H5. destruct H5 as [-> ->], G5 as [G5 ->]. rewrite H2. cbn [run_bind]. rewrite (same_forget _ _ H6).
          rewrite (IH _ s' st' d' z' e'); auto; [rewrite G5; assumption|lia].
      + destruct G5 as [_ ->]. rewrite (@follow_waits _ _ p fuel st _ _ _ _ Hst Hsu Hpa); [reflexivity|]. right. eauto.
  Qed.
  (** From any state on. *)
  Lemma following_later : forall (admits : forall T E, parser I T E -> Prop) s0 b0 st out data z e T E (c : script I T E) fuel, inv b0 -> view b0 = [] ->
    history ds ops admits s0 b0 st out -> R s0 data z e -> script_follows fits (slice_new (skipn (length out) data)) c -> 3 * z + 2 * length data + e + 3 <= fuel ->
    following ds ops fuel c (once_more st) = on_open c (slice_new (skipn (length out) data)).
  Proof.
    intros admits s0 b0 st out data z e T E c fuel Hi Hv Hh Hs Hc Hf. destruct (history_inv Q Ho Hi Hv Hh) as (Hist & new & k & en & H1 & H2).
    destruct (reads_pausing H1 Hs) as (d & z' & G1 & G2 & G3 & G4 & _). subst new.
    assert (Hl : length data = length out + length (view (src_buffer st)) + length d) by (rewrite G1, !app_length; reflexivity).
    eapply following_spec with (d := d) (z := z') (e := e - k); eauto; [cbn; lia| |lia]. apply once_more_awaits; auto.
    unfold rest_of. cbn [slice_new ss_pos ss_slice skipn]. rewrite G1, <- app_assoc, skipn_app, Nat.sub_diag, skipn_all. reflexivity.
  Qed.
End Follow.

(** * Concrete sources *)
Lemma chunk_pausing : forall I, pausing (read_data_source (@chunk_read I)) timetable.
Proof.
  intros I s d z e (Hd & Hz & He) n s' w r H. cbn [ds_read read_data_source] in H. destruct s as [|[c|] s]; cbn [chunk_read] in H; inversion H; subst; clear H.
  - split; [lia|]. exists [], []. repeat split; auto. left. repeat split; auto.
  - rewrite firstn_length. split; [lia|]. exists (firstn n c), (skipn n c ++ chunks_data s). cbn [chunks_data flat_map].
    split; [rewrite app_assoc, firstn_skipn; reflexivity|]. split; [apply firstn_length|]. split; [unfold writes; rewrite firstn_all2; [reflexivity|rewrite map_length; lia]|].
    destruct c as [|y c].
    + right. split; [cbn; lia|]. rewrite skipn_nil. eexists. split; [reflexivity|]. repeat split; reflexivity.
    + left. split; [cbn [length]; intros; left; lia|]. destruct (skipn n (y :: c)) as [|y' r] eqn:Hsk; repeat split; reflexivity.
  - exists (chunks_errors s'). split; [reflexivity|]. repeat split; reflexivity.
Qed.
