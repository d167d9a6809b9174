(** bounded::many against its specification. *)
From Coq Require Import List Bool Arith Lia.
From Verif Require Import Base Parsers Combinators SpecIter IterProofs.
Import ListNotations.

Set Implicit Arguments.

Lemma may_grow_range : forall a b k, may_grow (RRange a b) k <-> (S k < b /\ a < b).
Proof.
  intros a b k. unfold may_grow; simpl. split.
  - intros (k' & H1 & H2 & H3). lia.
  - intros [H1 H2]. exists (Nat.max a (b - 1)). lia.
Qed.
Lemma may_grow_from : forall a k, may_grow (RFrom a) k.
Proof. intros a k. exists (S (Nat.max a k)). simpl. lia. Qed.
Lemma may_grow_full : forall k, may_grow RFull k.
Proof. intros k. exists (S k). simpl. lia. Qed.
Lemma may_grow_to : forall b k, may_grow (RTo b) k <-> S k < b.
Proof.
  intros b k. unfold may_grow; simpl. split.
  - intros (k' & H1 & H2). lia.
  - intros H. exists (S k). lia.
Qed.
Lemma may_grow_exact : forall n k, may_grow (RExact n) k <-> k < n.
Proof.
  intros n k. unfold may_grow; simpl. split.
  - intros (k' & H1 & H2). lia.
  - intros H. exists n. lia.
Qed.

Lemma iter_dec0 : forall k a, Nat.iter k dec0 a = a - k.
Proof.
  induction k as [|k IH]; intros a; simpl; [lia|]. rewrite IH. unfold dec0.
  destruct (Nat.eqb_spec (a - k) 0); lia.
Qed.
Lemma iter_pred : forall k a, Nat.iter k (fun d => d - 1) a = a - k.
Proof. induction k as [|k IH]; intros a; simpl; [lia|]. rewrite IH. lia. Qed.
Lemma iter_pair : forall k a b,
  Nat.iter k (fun d : nat * nat => (dec0 (fst d), snd d - 1)) (a, b) = (a - k, b - k).
Proof.
  induction k as [|k IH]; intros a b; simpl; [f_equal; lia|]. rewrite IH. simpl. unfold dec0.
  destruct (Nat.eqb_spec (a - k) 0); f_equal; lia.
Qed.
Lemma iter_id : forall A k (a : A), Nat.iter k (fun d => d) a = a.
Proof. induction k as [|k IH]; intros a; simpl; auto. Qed.

Section Many.
  Context {St I U E : Type}.
  Variable p : sparser St I U E.

  Lemma iterates_app : forall us s i s1 i1, iterates p s i us s1 i1 -> forall vs s2 i2,
    iterates p s1 i1 vs s2 i2 -> iterates p s i (us ++ vs) s2 i2.
  Proof. induction 1; intros; simpl; auto. econstructor; eauto. Qed.

  Lemma iterates_det : forall us s i s1 i1, iterates p s i us s1 i1 -> forall s2 i2,
    iterates p s i us s2 i2 -> s1 = s2 /\ i1 = i2.
  Proof.
    induction 1 as [|s i u s1 i1 us s2 i2 Hp Hi IH]; intros s3 i3 H;
      inversion H as [|? ? ? ? ? ? ? ? Hp' Hi']; subst; auto.
    rewrite Hp in Hp'. inversion Hp'; subst. eauto.
  Qed.

  (** Of two runs, the shorter one is an initial part of the longer. *)
  Lemma iterates_prefix : forall us s i s1 i1, iterates p s i us s1 i1 -> forall vs s2 i2,
    iterates p s i vs s2 i2 -> length us <= length vs -> exists ws, vs = us ++ ws /\ iterates p s1 i1 ws s2 i2.
  Proof.
    induction 1 as [|s i u s1 i1 us s2 i2 Hp Hi IH]; intros vs s3 i3 H Hl.
    - exists vs. auto.
    - inversion H as [|? ? ? ? ? ? ? ? Hp' Hi']; subst; simpl in Hl; [lia|]. rewrite Hp in Hp'. inversion Hp'; subst.
      destruct (IH _ _ _ Hi') as (ws & -> & Hw); [lia|]. exists ws. auto.
  Qed.

  Lemma iterates_step : forall us s i s1 i1, iterates p s i us s1 i1 -> forall vs s2 i2,
    iterates p s i vs s2 i2 -> length us < length vs -> exists j u, fst (p s1 i1) = Data j u.
  Proof.
    intros us s i s1 i1 H vs s2 i2 H' Hl. destruct (iterates_prefix H H') as (ws & -> & Hw); [lia|].
    rewrite app_length in Hl. inversion Hw as [|? ? ? ? ? ? ? ? Hp' Hi']; subst; simpl in Hl; [lia|]. rewrite Hp'. simpl. eauto.
  Qed.

  Ltac fin_ne := intros ? ? d e; try destruct d as [d1 d2]; destruct e; simpl; unfold ret, err, incomplete;
    repeat match goal with |- context [match ?x with _ => _ end] => destruct x end; discriminate.

  Lemma bmany_sound : forall fuel r s0 i res,
    nonempty r -> bmany fuel (vec_collector U) r s0 p i = res -> res <> NoFuel -> many_outcome r p s0 i res.
  Proof.
    intros fuel r s0 i res Hne Hr Hnf. destruct r as [a b|a| |b|n]; simpl in Hr.
    - destruct Hne as (k0 & Hk0). simpl in Hk0. unfold parse_many_range in Hr.
      replace (a <=? b) with true in Hr by (symmetry; apply Nat.leb_le; lia). simpl negb in Hr. cbv iota in Hr.
      apply run_iter_sound in Hr; [|fin_ne|auto].
      destruct Hr as (us & s & j & Hi & Hk & Ho). rewrite iter_pair in Ho.
      assert (Hlt : forall k, k < length us -> S k < b).
      { intros k Hlt. specialize (Hk k Hlt). rewrite iter_pair in Hk. cbn [fst snd] in Hk. apply Nat.eqb_neq in Hk. lia. }
      assert (Hle : length us < b).
      { destruct us as [|u us]; simpl in *; [lia|]. specialize (Hlt (length us)). lia. }
      destruct Ho as [(Hp & ->)|[(Hp & bb & e & Hpe & ->)|[(Hp & n & Hpn & ->)|(Hp & Hpp & ->)]]]; cbn [fst snd] in Hp;
        first [apply Nat.eqb_eq in Hp | apply Nat.eqb_neq in Hp].
      + destruct (a - length us) eqn:Ha.
        * rewrite Hp. eapply mo_data; eauto; [simpl; lia|]. left. rewrite may_grow_range. lia.
        * exfalso. lia.
      + destruct (a - length us) eqn:Ha.
        * replace (match Nat.max b 1 - 1 - length us with 0 => _ | S _ => _ end)
            with (Data j us : pres I (list U) E) by (destruct (Nat.max b 1 - 1 - length us); reflexivity).
          eapply mo_data; eauto; [simpl; lia|]. right. left. eauto.
        * simpl. eapply mo_error; eauto; [simpl; lia|]. rewrite may_grow_range. lia.
      + destruct (a - length us) eqn:Ha.
        * destruct (Nat.max b 1 - 1 - length us) eqn:Hb; [lia|].
          destruct (last j) eqn:Hl.
          -- eapply mo_data; eauto; [simpl; lia|]. right. right. eauto.
          -- eapply mo_incomplete; eauto. rewrite may_grow_range. lia.
        * eapply mo_incomplete; eauto; [rewrite may_grow_range; lia|]. left. simpl. lia.
      + eapply mo_panic; eauto. rewrite may_grow_range. lia.
    - apply run_iter_sound in Hr; [|fin_ne|auto].
      destruct Hr as (us & s & j & Hi & Hk & Ho). rewrite iter_dec0 in Ho.
      pose proof (may_grow_from a (length us)) as Hg.
      destruct Ho as [(Hp & ->)|[(Hp & bb & e & Hpe & ->)|[(Hp & n & Hpn & ->)|(Hp & Hpp & ->)]]]; [discriminate| | |].
      + destruct (a - length us) eqn:Ha.
        * eapply mo_data; eauto; [simpl; lia|]. right; left; eauto.
        * eapply mo_error; eauto. simpl; lia.
      + destruct (a - length us) eqn:Ha.
        * destruct (last j) eqn:Hl.
          -- eapply mo_data; eauto; [simpl; lia|]. right; right; eauto.
          -- eapply mo_incomplete; eauto.
        * eapply mo_incomplete; eauto. left; simpl; lia.
      + eapply mo_panic; eauto.
    - apply run_iter_sound in Hr; [|fin_ne|auto].
      destruct Hr as (us & s & j & Hi & Hk & Ho).
      pose proof (may_grow_full (length us)) as Hg.
      destruct Ho as [(Hp & ->)|[(Hp & bb & e & Hpe & ->)|[(Hp & n & Hpn & ->)|(Hp & Hpp & ->)]]]; [discriminate| | |].
      + eapply mo_data; eauto; [exact Logic.I|]. right; left; eauto.
      + destruct (last j) eqn:Hl.
        * eapply mo_data; eauto; [exact Logic.I|]. right; right; eauto.
        * eapply mo_incomplete; eauto.
      + eapply mo_panic; eauto.
    - destruct Hne as (k0 & Hk0). simpl in Hk0.
      apply run_iter_sound in Hr; [|fin_ne|auto].
      destruct Hr as (us & s & j & Hi & Hk & Ho). rewrite iter_pred in Ho.
      assert (Hlt : forall k, k < length us -> S k < b).
      { intros k Hlt. specialize (Hk k Hlt). rewrite iter_pred in Hk. apply Nat.eqb_neq in Hk. lia. }
      assert (Hle : length us < b).
      { destruct us as [|u us]; simpl in *; [lia|]. specialize (Hlt (length us)). lia. }
      destruct Ho as [(Hp & ->)|[(Hp & bb & e & Hpe & ->)|[(Hp & n & Hpn & ->)|(Hp & Hpp & ->)]]]; cbn [fst snd] in Hp;
        first [apply Nat.eqb_eq in Hp | apply Nat.eqb_neq in Hp].
      + rewrite Hp. eapply mo_data; eauto. left. rewrite may_grow_to. lia.
      + destruct (Nat.max b 1 - 1 - length us) eqn:Hb; [lia|].
        eapply mo_data; eauto. right; left; eauto.
      + destruct (Nat.max b 1 - 1 - length us) eqn:Hb; [lia|].
        destruct (last j) eqn:Hl.
        * eapply mo_data; eauto. right; right; eauto.
        * eapply mo_incomplete; eauto. rewrite may_grow_to. lia.
      + eapply mo_panic; eauto. rewrite may_grow_to. lia.
    - apply run_iter_sound in Hr; [|fin_ne|auto].
      destruct Hr as (us & s & j & Hi & Hk & Ho). rewrite iter_pred in Ho.
      assert (Hlt : forall k, k < length us -> k < n).
      { intros k Hlt. specialize (Hk k Hlt). rewrite iter_pred in Hk. apply Nat.eqb_neq in Hk. lia. }
      assert (Hle : length us <= n).
      { destruct us as [|u us]; simpl in *; [lia|]. specialize (Hlt (length us)). lia. }
      destruct Ho as [(Hp & ->)|[(Hp & bb & e & Hpe & ->)|[(Hp & m & Hpn & ->)|(Hp & Hpp & ->)]]]; cbn [fst snd] in Hp;
        first [apply Nat.eqb_eq in Hp | apply Nat.eqb_neq in Hp].
      + rewrite Hp. eapply mo_data; eauto; [simpl; lia|]. left. rewrite may_grow_exact. lia.
      + destruct (n - length us) eqn:Hb; [lia|].
        eapply mo_error; eauto; [simpl; lia|]. rewrite may_grow_exact. lia.
      + destruct (n - length us) eqn:Hb; [lia|].
        eapply mo_incomplete; eauto; [rewrite may_grow_exact; lia|]. left; simpl; lia.
      + eapply mo_panic; eauto. rewrite may_grow_exact. lia.
  Qed.

  (** Completeness goes through determinism: the model's answer is some outcome, and outcomes are unique. *)
  Lemma in_range_grow : forall r n k, in_range r n -> k < n -> may_grow r k.
  Proof. intros r n k H Hk. exists n. auto. Qed.

  Lemma may_grow_le : forall r n k, may_grow r n -> k <= n -> may_grow r k.
  Proof. intros r n k (m & H1 & H2) Hk. exists m. split; auto. lia. Qed.

  Lemma many_outcome_det : forall r s0 i res1, many_outcome r p s0 i res1 -> forall res2,
    many_outcome r p s0 i res2 -> res1 = res2.
  Proof.
    (* every outcome carries a run after which p is not (allowed to be) applied successfully *)
    assert (Hrun : forall r s0 i res, many_outcome r p s0 i res -> exists us s j,
      iterates p s0 i us s j /\
      ((~ may_grow r (length us) /\ in_range r (length us)) \/ (forall j' u, fst (p s j) <> Data j' u)) /\
      (us = [] \/ may_grow r (pred (length us))) /\
      match res with
      | Data k vs => k = j /\ vs = us /\ in_range r (length us) /\ (~ may_grow r (length us) \/ gives_up p s j)
      | Error b e => fst (p s j) = Error b e /\ ~ in_range r (length us) /\ may_grow r (length us)
      | Incomplete n => fst (p s j) = Incomplete n /\ may_grow r (length us) /\ (~ in_range r (length us) \/ last j = false)
      | Panic => fst (p s j) = Panic /\ may_grow r (length us)
      | NoFuel => False
      end).
    { intros r s0 i res H. destruct H as [us s j Hi Hr Hst|us s j b e Hi Hr Hg Hp|us s j n Hi Hg Hp Hl|us s j Hi Hg Hp];
        exists us, s, j; split; auto.
      - split; [|split; [|auto]].
        + destruct Hst as [Hst|Hst]; auto. right. destruct Hst as [(b & e & H)|(n & H & _)]; rewrite H; discriminate.
        + destruct us as [|u us]; auto. right. eapply in_range_grow; [eassumption|simpl; lia].
      - split; [|split; [|auto]]. { right; rewrite Hp; discriminate. }
        destruct us as [|u us]; auto. right. eapply may_grow_le; [eassumption|simpl; lia].
      - split; [|split; [|auto]]. { right; rewrite Hp; discriminate. }
        destruct us as [|u us]; auto. right. eapply may_grow_le; [eassumption|simpl; lia].
      - split; [|split; [|auto]]. { right; rewrite Hp; discriminate. }
        destruct us as [|u us]; auto. right. eapply may_grow_le; [eassumption|simpl; lia]. }
    intros r s0 i res1 H1 res2 H2. apply Hrun in H1. apply Hrun in H2. clear Hrun.
    destruct H1 as (us & s & j & Hi & Hs & Hg & H1). destruct H2 as (us' & s' & j' & Hi' & Hs' & Hg' & H2).
    assert (Hcmp : forall us us' s s' j j', iterates p s0 i us s j -> iterates p s0 i us' s' j' ->
      ((~ may_grow r (length us) /\ in_range r (length us)) \/ (forall j' u, fst (p s j) <> Data j' u)) ->
      (us' = [] \/ may_grow r (pred (length us'))) -> length us < length us' -> False).
    { clear. intros us us' s s' j j' Hi Hi' Hs Hg' Hl. destruct Hs as [[Hs _]|Hs].
      - destruct Hg' as [->|Hg']; [simpl in Hl; lia|]. apply Hs. eapply may_grow_le; [eassumption|simpl; lia].
      - destruct (iterates_step Hi Hi' Hl) as (j2 & u & Hu). eapply Hs; eauto. }
    assert (Hlen : length us = length us').
    { destruct (Nat.lt_trichotomy (length us) (length us')) as [Hl|[Hl|Hl]]; auto; exfalso.
      - eapply (Hcmp us us'); eauto. - eapply (Hcmp us' us); eauto. }
    destruct (iterates_prefix Hi Hi') as (ws & -> & Hw); [lia|]. rewrite app_length in Hlen.
    destruct ws; [|simpl in Hlen; lia]. rewrite app_nil_r in *. inversion Hw; subst s' j'.
    destruct res1, res2; try contradiction;
      repeat match goal with H : _ /\ _ |- _ => destruct H end; subst; try congruence;
      try tauto; try (exfalso; tauto).
    all: match goal with H : ~ may_grow _ _ \/ gives_up _ _ _ |- _ => destruct H as [H|[(?&?&H)|(?&H&?)]] end;
      try tauto; try congruence; try (intuition congruence).
  Qed.

  Lemma bmany_enough : forall r s0 i res, nonempty r -> many_outcome r p s0 i res ->
    exists f0, forall fuel, f0 <= fuel -> bmany fuel (vec_collector U) r s0 p i <> NoFuel.
  Proof.
    intros r s0 i res Hne H.
    assert (Hrun : exists us s j, iterates p s0 i us s j /\ (us = [] \/ may_grow r (pred (length us))) /\
       (~ may_grow r (length us) \/ (may_grow r (length us) /\ (forall j' u, fst (p s j) <> Data j' u) /\ fst (p s j) <> NoFuel))).
    { destruct H as [us s j Hi Hr Hst|us s j b e Hi Hr Hg Hp|us s j n Hi Hg Hp Hl|us s j Hi Hg Hp];
        exists us, s, j; (split; [assumption|]); split.
      - destruct us as [|u us]; auto. right. eapply in_range_grow; [eassumption|simpl; lia].
      - assert (Hd : may_grow r (length us) \/ ~ may_grow r (length us)).
        { destruct r as [a b|a| |b|n].
          - rewrite may_grow_range. lia. - left; apply may_grow_from. - left; apply may_grow_full.
          - rewrite may_grow_to. lia. - rewrite may_grow_exact. lia. }
        destruct Hd as [Hd|Hd]; auto. right. destruct Hst as [Hst|[(b & e & H)|(n & H & _)]]; [tauto| |];
        rewrite H; repeat split; auto; discriminate.
      - destruct us as [|u us]; auto. right. eapply may_grow_le; [eassumption|simpl; lia].
      - right. rewrite Hp. repeat split; auto; discriminate.
      - destruct us as [|u us]; auto. right. eapply may_grow_le; [eassumption|simpl; lia].
      - right. rewrite Hp. repeat split; auto; discriminate.
      - destruct us as [|u us]; auto. right. eapply may_grow_le; [eassumption|simpl; lia].
      - right. rewrite Hp. repeat split; auto; discriminate. }
    clear H. destruct Hrun as (us & s & j & Hi & Hg & Hs). exists (length us + 2). intros fuel Hf.
    assert (Hk : forall k, k < length us -> may_grow r k).
    { intros k Hk. destruct Hg as [->|Hg]; [simpl in Hk; lia|]. eapply may_grow_le; [eassumption|simpl; lia]. }
    assert (Hgen : forall D (pre : D -> bool) on d0 hint fin,
      (forall k, k < length us -> pre (Nat.iter k on d0) = false) ->
      (may_grow r (length us) <-> pre (Nat.iter (length us) on d0) = false) ->
      (forall t i d e, fin t i d e <> NoFuel) ->
      run_iter fuel (vec_collector U) i s0 p d0 hint pre on fin <> NoFuel).
    { intros D pre on d0 hint fin Hpre Hend Hfin.
      assert (Hex : exists res, stop_outcome p pre fin us s j (Nat.iter (length us) on d0) res /\ res <> NoFuel).
      { destruct (pre (Nat.iter (length us) on d0)) eqn:Hp.
        - eexists; split; [left; split; [assumption|reflexivity]|apply Hfin].
        - destruct Hs as [Hs|(_ & Hs & Hs')]; [tauto|].
          destruct (fst (p s j)) as [j' u|b e|n| |] eqn:Hpj; try (exfalso; congruence).
          + eexists; split; [right; left; split; [assumption|exists b, e; split; [assumption|reflexivity]]|apply Hfin].
          + eexists; split; [right; right; left; split; [assumption|exists n; split; [assumption|reflexivity]]|apply Hfin].
          + eexists; split; [right; right; right; split; [assumption|split; [assumption|reflexivity]]|discriminate]. }
      destruct Hex as (res' & Ho & Hn). erewrite run_iter_complete; eauto. }
    destruct r as [a b|a| |b|n]; simpl.
    - destruct Hne as (k0 & Hk0). simpl in Hk0. unfold parse_many_range.
      replace (a <=? b) with true by (symmetry; apply Nat.leb_le; lia). simpl negb. cbv iota.
      apply Hgen; [| |fin_ne].
      + intros k Hlt. apply Hk in Hlt. rewrite may_grow_range in Hlt. rewrite iter_pair. cbn [fst snd]. apply Nat.eqb_neq. lia.
      + rewrite may_grow_range, iter_pair. cbn [fst snd]. rewrite Nat.eqb_neq. lia.
    - apply Hgen; [intros; reflexivity| |fin_ne]. split; auto. intros; apply may_grow_from.
    - apply Hgen; [intros; reflexivity| |fin_ne]. split; auto. intros; apply may_grow_full.
    - destruct Hne as (k0 & Hk0). simpl in Hk0. apply Hgen; [| |fin_ne].
      + intros k Hlt. apply Hk in Hlt. rewrite may_grow_to in Hlt. rewrite iter_pred. apply Nat.eqb_neq. lia.
      + rewrite may_grow_to, iter_pred. rewrite Nat.eqb_neq. lia.
    - apply Hgen; [| |fin_ne].
      + intros k Hlt. apply Hk in Hlt. rewrite may_grow_exact in Hlt. rewrite iter_pred. apply Nat.eqb_neq. lia.
      + rewrite may_grow_exact, iter_pred. rewrite Nat.eqb_neq. lia.
  Qed.

  Lemma bmany_complete : forall r s0 i res, nonempty r -> many_outcome r p s0 i res ->
    exists f0, forall fuel, f0 <= fuel -> bmany fuel (vec_collector U) r s0 p i = res.
  Proof.
    intros r s0 i res Hne H. destruct (bmany_enough Hne H) as (f0 & Hf). exists f0. intros fuel Hl.
    eapply many_outcome_det; [|exact H]. eapply bmany_sound; eauto.
  Qed.
End Many.
