(** Proofs about how often a parser has to be run for one answer. *)
From Coq Require Import List Bool Arith Lia.
From Verif Require Import Base Parsers Combinators SpecBase SpecIter SpecSafe SpecAttempts SafeProofs StableProofs ManyProofs SkipProofs
  Buffer Stream SpecBuffer SpecStream SpecEffects Effects BufferProofs StreamProofs SimProofs HistoryProofs EffectsStreamProofs.
Import ListNotations.

Set Implicit Arguments.

(** * The library *)

Lemma asks_less : forall I T E (p : parser I T E) k l b, asks_at_most k p b -> k <= l -> asks_at_most l p b.
Proof.
  intros I T E p. induction k as [|k IH]; intros [|l] b H Hl; auto.
  - intros n Hn. destruct (H n Hn).
  - exfalso. lia.
  - intros n Hn d Hd. apply IH; [exact (H n Hn d Hd)|lia].
Qed.

Lemma asks_none : forall I T E (p : parser I T E) k b, (forall n, p (mkInput false b) <> Incomplete n) -> asks_at_most k p b.
Proof. intros I T E p [|k] b H n Hn; destruct (H n Hn). Qed.

(** Where [r] asks for what [q] asks for, after some items have been taken off. *)
Lemma asks_transfer : forall I T E U V (q : parser I T E) (r : parser I U V) k b b0,
  (forall c n, r (mkInput false (b ++ c)) = Incomplete n -> q (mkInput false (b0 ++ c)) = Incomplete n) ->
  asks_at_most k q b0 -> asks_at_most k r b.
Proof.
  intros I T E U V q r. induction k as [|k IH]; intros b b0 H Hq n Hn.
  - apply (Hq n). specialize (H [] n). rewrite !app_nil_r in H. auto.
  - intros d Hd. apply IH with (b0 := b0 ++ d).
    + intros c m Hm. rewrite <- app_assoc in *. apply H. exact Hm.
    + apply (Hq n); [|assumption]. specialize (H [] n). rewrite !app_nil_r in H. auto.
Qed.

Lemma asks_under : forall I T E U V (q : parser I T E) (r : parser I U V) k b,
  (forall b n, r (mkInput false b) = Incomplete n -> q (mkInput false b) = Incomplete n) -> asks_at_most k q b -> asks_at_most k r b.
Proof. intros I T E U V q r k b H. apply asks_transfer. intros c n. apply H. Qed.

(** First [p] asks, then what comes after. *)
Lemma asks_seq : forall I T E U V (p : parser I T E) (r : parser I U V) k l,
  (forall b n m, p (mkInput false b) = Incomplete n -> r (mkInput false b) = Incomplete m -> n <= m) ->
  (forall b, (forall n, p (mkInput false b) <> Incomplete n) -> asks_at_most l r b) ->
  forall b, asks_at_most k p b -> asks_at_most (k + l) r b.
Proof.
  intros I T E U V p r k l H1 H2. induction k as [|k IH]; intros b Hp.
  - apply H2. intros n Hn. exact (Hp n Hn).
  - destruct (p (mkInput false b)) as [j v|b' e|n| |] eqn:Ep.
    3: { cbn [plus asks]. intros m Hm d Hd. apply IH. apply (Hp n Ep). pose proof (H1 _ _ _ Ep Hm). lia. }
    all: apply asks_less with (k := l); [|lia]; apply H2; intros n Hn; congruence.
Qed.

Lemma sized_safe : forall I k T E (p : parser I T E), sized k p -> safe p.
Proof.
  intros I k T E p H. induction H; try (constructor; auto; fail).
  - eapply s_ext; eassumption.
  - assumption.
  - apply s_bmany; auto using vec_exhausts.
Qed.

Lemma sized_stable : forall I k T E (p : parser I T E), sized k p -> stable p.
Proof. intros. eapply safe_stable, sized_safe. eassumption. Qed.
Lemma sized_well_behaved : forall I k T E (p : parser I T E), sized k p -> well_behaved p.
Proof. intros. eapply built_well_behaved, safe_built, sized_safe. eassumption. Qed.

Lemma asks_item : forall I T E (p : parser I T E) b,
  (forall c b n, p (mkInput false (c :: b)) <> Incomplete n) -> (forall n, p (mkInput false []) = Incomplete n -> 1 <= n) -> asks_at_most 1 p b.
Proof.
  intros I T E p b Hc Hn. destruct b as [|c b].
  - intros n H d Hd. specialize (Hn n H). destruct d as [|c d]; [cbn in Hd; lia|]. intros m Hm. exact (Hc _ _ _ Hm).
  - intros n H. exfalso. exact (Hc _ _ _ H).
Qed.

(** * Repetition *)

Section Repeat.
  Context {S I U E : Type}.
  Variable p : sparser S I U E.
  Hypothesis Hst : forall s, stable (fun i => fst (p s i)).
  Hypothesis Hwb : forall s, well_behaved (fun i => fst (p s i)).
  Hypothesis Hc : carries p.

  Lemma iterates_extend : forall s b us s' j, iterates p s (mkInput false b) us s' j ->
    exists b', j = mkInput false b' /\ forall c, iterates p s (mkInput false (b ++ c)) us s' (mkInput false (b' ++ c)).
  Proof.
    intros s b us s' j H. remember (mkInput false b) as i eqn:Hi. revert b Hi. induction H as [s i|s i u s1 i1 us s2 i2 Hp _ IH]; intros b ->.
    - exists b. split; [reflexivity|]. intros c. constructor.
    - assert (H0 : fst (p s (mkInput false b)) = Data i1 u) by (rewrite Hp; reflexivity).
      pose proof (Hwb s (mkInput false b)) as Hw. cbv beta in Hw. rewrite H0 in Hw. destruct Hw as [Hl _]. cbn [last] in Hl.
      assert (Hi1 : i1 = mkInput false (buf i1)) by (destruct i1; cbn in *; congruence).
      destruct (IH _ Hi1) as (b' & -> & IH'). exists b'. split; [reflexivity|]. intros c. econstructor; [|apply IH'].
      pose proof (Hst s b false c) as Hup. cbv beta in Hup. rewrite H0 in Hup. cbn [upholds] in Hup.
      pose proof (Hc s b false c (or_introl (ex_intro _ _ (ex_intro _ _ H0)))) as Hsnd. rewrite Hp in Hsnd. cbn [snd] in Hsnd.
      destruct (p s (mkInput false (b ++ c))). cbn in *. congruence.
  Qed.

  (** If [p] succeeds [j] times and [q] asks on behalf of [p] after some successes, those are at least [j]. *)
  Lemma iterates_longer : forall s i us s1 i1, iterates p s i us s1 i1 -> forall vs s2 i2 n, iterates p s i vs s2 i2 -> fst (p s2 i2) = Incomplete n ->
    length us < length vs \/ (us = vs /\ s1 = s2 /\ i1 = i2) \/ False.
  Proof.
    intros s i us s1 i1 H. induction H as [s i|s i u s1 i1 us s2 i2 Hp _ IH]; intros vs s3 i3 n H Hn.
    - inversion H; subst; [right; left; auto|left; cbn; lia].
    - inversion H; subst.
      + rewrite Hp in Hn. discriminate.
      + rewrite Hp in H0. inversion H0; subst. destruct (IH _ _ _ _ H1 Hn) as [Hl|[(-> & -> & ->)|[]]]; [left; cbn; lia|right; left; auto].
  Qed.

  Variables (V F : Type) (q : parser I V F) (s0 : S) (m k : nat).
  Hypothesis Hk : forall s b, asks_at_most k (fun i => fst (p s i)) b.
  Hypothesis Hq : forall b n, q (mkInput false b) = Incomplete n ->
    exists us s j, iterates p s0 (mkInput false b) us s j /\ length us < m /\ fst (p s j) = Incomplete n.

  Lemma asks_reach : forall c b us s b' n, iterates p s0 (mkInput false b) us s (mkInput false b') -> asks_at_most c (fun i => fst (p s i)) b' ->
    q (mkInput false b) = Incomplete n ->
    exists c2 us2 s2 b2, iterates p s0 (mkInput false b) us2 s2 (mkInput false b2) /\ asks_at_most c2 (fun i => fst (p s2 i)) b2 /\
      fst (p s2 (mkInput false b2)) = Incomplete n /\ (m - 1 - length us2) * k + c2 <= (m - 1 - length us) * k + c.
  Proof.
    intros c b us s b' n Hit Ha Hn. destruct (Hq Hn) as (vs & s2 & j2 & Hit2 & Hm & Hp2).
    destruct (iterates_longer Hit Hit2 Hp2) as [Hl|[(<- & <- & <-)|[]]].
    - destruct (iterates_extend Hit2) as (b2 & -> & _). exists k, vs, s2, b2. repeat split; auto.
      replace (m - 1 - length us) with (m - 1 - length vs + 1 + (length vs - length us - 1)) by lia. nia.
    - exists c, us, s, b'. repeat split; auto.
  Qed.

  Lemma asks_repeat_at : forall N c b us s b', iterates p s0 (mkInput false b) us s (mkInput false b') -> asks_at_most c (fun i => fst (p s i)) b' ->
    (m - 1 - length us) * k + c <= N -> asks_at_most N q b.
  Proof.
    induction N as [|N IH]; intros c b us s b' Hit Ha HN n Hn; destruct (@asks_reach c b us s b' n Hit Ha Hn) as (c2 & us2 & s2 & b2 & H1 & H2 & H3 & H4);
      (destruct c2 as [|c2]; [destruct (H2 n H3)|]); pose proof (Nat.le_trans _ _ _ H4 HN) as Hle; rewrite Nat.add_succ_r in Hle; [inversion Hle|apply le_S_n in Hle].
    intros d Hd. destruct (iterates_extend H1) as (b3 & Hb3 & Hext). inversion Hb3; subst b3.
    apply IH with (c := c2) (us := us2) (s := s2) (b' := b2 ++ d); [apply Hext|exact (H2 n H3 d Hd)|exact Hle].
  Qed.

  Lemma asks_repeat : forall b, asks_at_most (m * k) q b.
  Proof.
    intros b. destruct (Nat.eq_dec m 0) as [Em|Em].
    - rewrite Em. intros n Hn. destruct (Hq Hn) as (us & _ & _ & _ & H & _). lia.
    - apply asks_repeat_at with (c := k) (us := []) (s := s0) (b' := b); [constructor|apply Hk|]. cbn [length].
      replace m with (m - 1 - 0 + 1) at 2 by lia. rewrite Nat.mul_add_distr_r, Nat.mul_1_l. apply le_n.
  Qed.
End Repeat.

Lemma bmany_asks : forall S I U E (p : sparser S I U E) r m fuel s0 b n, nonempty r -> (forall n, in_range r n -> n <= m) ->
  bmany fuel (vec_collector U) r s0 p (mkInput false b) = Incomplete n ->
  exists us s j, iterates p s0 (mkInput false b) us s j /\ length us < m /\ fst (p s j) = Incomplete n.
Proof.
  intros S I U E p r m fuel s0 b n Hne Hm H. apply bmany_sound in H; [|assumption|discriminate]. inversion H; subst.
  exists us, s, j. split; [assumption|]. split; [|assumption]. destruct H2 as (n' & H5 & H6). specialize (Hm _ H6). lia.
Qed.

Lemma bskip_many_asks : forall S I U E (p : sparser S I U E) r m fuel s0 b n, nonempty r -> (forall n, in_range r n -> n <= m) ->
  (forall s, well_behaved (fun i => fst (p s i))) ->
  bskip_many fuel r s0 p (mkInput false b) = Incomplete n ->
  exists us s j, iterates p s0 (mkInput false b) us s j /\ length us < m /\ fst (p s j) = Incomplete n.
Proof.
  intros S I U E p r m fuel s0 b n Hne Hm Hwb H.
  assert (Hag : skip_agrees r p).
  { destruct r; cbn; auto.
    - destruct Hne as (x & Hx). cbn in Hx. lia.
    - intros s i s' Hp. pose proof (Hwb s i) as Hw. cbv beta in Hw. rewrite Hp in Hw. cbn in Hw. lia. }
  destruct (@skip_many_lockstep S I U E p r Hag fuel s0 (mkInput false b)) as [Hs _]. rewrite H in Hs. specialize (Hs ltac:(discriminate)).
  destruct (bmany (Datatypes.S fuel) (vec_collector U) r s0 p (mkInput false b)) eqn:Hb; try discriminate. cbn in Hs. inversion Hs; subst.
  eapply bmany_asks; eassumption.
Qed.


Lemma take_asks : forall I n (b : list I), asks_at_most 1 (take n) b.
Proof.
  intros I n b k Hk d Hd m Hm. unfold take in *. cbn [buf] in *. rewrite app_length in Hm.
  destruct (Nat.leb_spec n (length b)) as [H|H]; [discriminate|]. unfold incomplete in Hk. inversion Hk; subst k.
  destruct (Nat.leb_spec n (length b + length d)) as [H1|H1]; [discriminate|lia].
Qed.

Lemma string_asks : forall I v eqb s (b : list I), asks_at_most 1 (string v eqb s) b.
Proof.
  intros I v eqb s b k Hk d Hd m Hm. unfold string in *. cbn [buf] in *. rewrite app_length in Hm.
  destruct (Nat.ltb_spec (length b) (length s)) as [H|H].
  - unfold incomplete in Hk. inversion Hk; subst k. destruct (Nat.ltb_spec (length b + length d) (length s)) as [H1|H1]; [lia|].
    destruct (string_mismatch eqb 0 s (firstn (length s) (b ++ d))); [destruct v|]; discriminate.
  - destruct (string_mismatch eqb 0 s (firstn (length s) b)); [destruct v|]; discriminate.
Qed.

Theorem sized_asks : forall I k T E (p : parser I T E), sized k p -> forall b, asks_at_most k p b.
Proof.
  intros I k T E p H. induction H; intros b0.
  - eapply asks_under; [|apply IHsized]. intros b n. rewrite H0. auto.
  - eapply asks_less; eauto.
  - intros n Hn; discriminate.
  - intros n Hn; discriminate.
  - intros n Hn; discriminate.
  - intros n Hn; destruct r; discriminate.
  - eapply asks_under; [|apply IHsized]. cbv beta. intros b n. destruct (p _); try discriminate. intros Hx; inversion Hx; reflexivity.
  - eapply asks_under; [|apply IHsized]. cbv beta. intros b n. destruct (p _); try discriminate. intros Hx; inversion Hx; reflexivity.
  - eapply asks_under; [|apply IHsized]. cbv beta. intros b n. unfold inspect. destruct (p _); try discriminate. intros Hx; inversion Hx; reflexivity.
  - apply asks_seq with (p := p); auto.
    + intros b n m Hn. cbv beta. rewrite Hn. intros Hm. inversion Hm. lia.
    + intros b Hn. destruct (p (mkInput false b)) as [j v|b' e|n| |] eqn:Ep; try (apply asks_none; intros n0 Hn0; cbv beta in Hn0; rewrite Ep in Hn0; discriminate).
      * apply asks_transfer with (q := fun i => f i v) (b0 := buf j); [|apply H1].
        intros c n Hc. pose proof (sized_stable H b false c) as Hup. rewrite Ep in Hup. cbn [upholds] in Hup. rewrite Hup in Hc. cbn in Hc.
        destruct (f _ v); try discriminate. cbn in Hc. assumption.
      * exfalso. exact (Hn n eq_refl).
  - apply asks_seq with (p := p); auto.
    + intros b n m Hn. cbv beta. rewrite Hn. intros Hm. inversion Hm. lia.
    + intros b Hn. destruct (p (mkInput false b)) as [j v|b' e|n| |] eqn:Ep; try (apply asks_none; intros n0 Hn0; cbv beta in Hn0; rewrite Ep in Hn0; discriminate).
      * apply asks_transfer with (q := f) (b0 := buf j); [|apply IHsized2].
        intros c n Hc. pose proof (sized_stable H b false c) as Hup. rewrite Ep in Hup. cbn [upholds] in Hup. rewrite Hup in Hc. cbn in Hc.
        destruct (f _); try discriminate. cbn in Hc. assumption.
      * exfalso. exact (Hn n eq_refl).
  - apply asks_item; [intros c b n; discriminate|]. intros n Hn. inversion Hn. lia.
  - apply asks_item; [intros c b n; unfold satisfy; cbn; destruct (f c); discriminate|]. intros n Hn. inversion Hn. lia.
  - apply asks_item; [intros c b n; unfold satisfy_with; cbn; destruct (g _); discriminate|]. intros n Hn. inversion Hn. lia.
  - apply asks_item; [intros c b n; unfold token; cbn; destruct (eqb _ _); discriminate|]. intros n Hn. inversion Hn. lia.
  - apply asks_item; [intros c b n; unfold not_token; cbn; destruct (eqb _ _); discriminate|]. intros n Hn. inversion Hn. lia.
  - apply asks_item; [intros c b n; discriminate|]. intros n Hn. inversion Hn. lia.
  - apply take_asks.
  - apply string_asks.
  - eapply asks_repeat; eauto using sized_stable, sized_well_behaved.
    intros b n Hn. eapply bmany_asks; eauto.
  - eapply asks_repeat; eauto using sized_stable, sized_well_behaved.
    intros b n Hn. eapply bskip_many_asks; eauto using sized_well_behaved.
  - eapply asks_under; [|apply IHsized]. intros b n. unfold option_. destruct (p _); try discriminate. intros Hx; inversion Hx; reflexivity.
  - apply asks_seq with (p := p); auto.
    + intros b n m Hn. unfold or_. rewrite Hn. cbn. intros Hm. inversion Hm. lia.
    + intros b Hn. destruct (p (mkInput false b)) as [j v|b' e|n| |] eqn:Ep; try (apply asks_none; intros n0 Hn0; unfold or_ in Hn0; rewrite Ep in Hn0; discriminate).
      * apply asks_transfer with (q := q) (b0 := b); [|apply IHsized2].
        intros c n Hc. pose proof (sized_stable H b false c) as Hup. rewrite Ep in Hup. cbn [upholds] in Hup. unfold or_ in Hc. rewrite Hup in Hc. assumption.
      * exfalso. exact (Hn n eq_refl).
  - eapply asks_under; [|apply IHsized]. intros b n. unfold matched_by. cbn zeta. destruct (p _); try discriminate; [|intros Hx; inversion Hx; reflexivity].
    destruct (_ <? _); discriminate.
  - eapply asks_under; [|apply IHsized]. intros b n. unfold look_ahead. destruct (p _); try discriminate. intros Hx; inversion Hx; reflexivity.
Qed.

(** * Streams *)

Section Runs.
  Context {St I B : Type}.
  Variable ds : data_source St I.
  Variable ops : buffer_ops I B.
  Variable inv : B -> Prop.
  Variable view : B -> list I.
  Variable room : B -> nat.
  Variable fits : nat -> Prop.
  Hypothesis Q : queue_like ops inv view room fits.
  Hypothesis Ho : obeys ds.

  (** What the next run of [p] before the end of input can see. *)
  Definition ready {T E} (c : nat) (p : parser I T E) (st : src St B) : Prop :=
    forall d, (src_incomplete st = true -> Nat.max 1 (src_request st) <= length (view (src_buffer st) ++ d)) ->
    asks_at_most c p (view (src_buffer st) ++ d).

  (** One call: an I/O error with nothing run, or one run with one request less to come, or an answer. *)
  Lemma attempt : forall T E (p : parser I T E) c st st' out w w', well_behaved p -> inv (src_buffer st) -> src_auto st = true -> ready c p st ->
    src_parse_w ds ops (counted p) st w = (Done (st', out), w') ->
    exists new e en, reads ds (src_source st) (src_source st') new e en /\ inv (src_buffer st') /\ src_auto st' = true /\
      ((exists x, out = inr (SIoError x) /\ w' = w /\ ready c p st' /\ e = 1) \/
       (out = inr SRetry /\ w' = S w /\ exists c', c = S c' /\ ready c' p st') \/
       (out <> inr SRetry /\ (forall x, out <> inr (SIoError x)) /\ w' <= S w)).
  Proof.
    intros T E p c st st' out w w' Hw Hi Ha Hr Hp0.
    assert (Hp : src_parse ds ops p st = Done (st', out)).
    { pose proof (src_parse_w_bridge ds ops (counted p) st w) as Hb. rewrite Hp0 in Hb. exact (eq_sym Hb). }
    destruct (call_ran Q Ho st Hi Hw Hp) as (new & e & en & H1 & H2 & H3 & H4 & H5).
    destruct (call_ran_w Q Ho (counted p) st w Hi Hw Hp0) as (new' & e' & en' & _ & _ & _ & H6).
    exists new, e, en. split; [assumption|]. split; [assumption|]. split; [congruence|].
    destruct H5 as [(x & -> & Hv & -> & Hin & _ & Hin' & Hreq & _)|[(-> & _ & -> & _)|(-> & _ & Hran & Hask & Hmax)]].
    - left. exists x. split; [reflexivity|]. split.
      { destruct H6 as [(x' & _ & _ & G & _)|[(G & _)|(-> & G & _)]]; [assumption|discriminate|].
        exfalso. unfold ran, counted in G. cbn [fst] in G. destruct (p _); try contradiction; destruct G as [G _]; try discriminate G; destruct (src_eoi st'); discriminate G. }
      split; [|reflexivity]. intros d Hd. rewrite Hv, <- app_assoc. apply Hr. intros _. rewrite app_assoc, <- Hv, <- Hreq. auto.
    - right. right. split; [discriminate|]. split; [intros; discriminate|].
      destruct H6 as [(x' & G & _)|[(_ & G)|(-> & G & _)]]; [discriminate|lia|]. cbn. lia.
    - assert (Hw' : w' <= S w).
      { destruct H6 as [(x' & _ & _ & -> & _)|[(_ & ->)|(-> & G & _)]]; cbn; lia. }
      unfold ran in Hran. destruct (p (mkInput (src_eoi st') (view (src_buffer st) ++ new))) as [j v|b x|n| |] eqn:Ep; try contradiction; destruct Hran as [-> Hran].
      1,2: right; right; split; [discriminate|]; split; [intros; discriminate|assumption].
      destruct (src_eoi st') eqn:Heoi; [right; right; split; [discriminate|]; split; [intros; discriminate|assumption]|].
      right. left. split; [reflexivity|]. split.
      { destruct H6 as [(x' & G & _)|[(G & _)|(-> & _)]]; try discriminate. reflexivity. }
      destruct (Hask n eq_refl eq_refl) as [G1 G2].
      assert (Hc : asks_at_most c p (view (src_buffer st) ++ new)).
      { apply Hr. intros Hin. destruct (Hmax Hin Ha) as [?|?]; [discriminate|rewrite app_length; assumption]. }
      destruct c as [|c]; [destruct (Hc n Ep)|]. exists c. split; [reflexivity|]. intros d Hd. rewrite Hran. apply (Hc n Ep).
      specialize (Hd G1). rewrite Hran, G2, !app_length in Hd. lia.
  Qed.

  Lemma runs_bound : forall T E (p : parser I T E), well_behaved p -> forall fuel c st w st' out w', inv (src_buffer st) -> src_auto st = true -> ready c p st ->
    insist_w ds ops fuel (counted p) st w = (Done (st', out), w') -> w' <= w + c + 1.
  Proof.
    intros T E p Hw. induction fuel as [|fuel IH]; intros c st w st' out w' Hi Ha Hr H; cbn [insist_w] in H; [discriminate|].
    destruct (src_parse_w ds ops (counted p) st w) as [r0 w1] eqn:Hp. destruct r0 as [[st1 out1]| | |]; try discriminate.
    destruct (@attempt T E p c st st1 out1 w w1 Hw Hi Ha Hr Hp) as (new & e & en & _ & Hi1 & Ha1 & [(x & -> & -> & Hr1 & _)|[(-> & -> & c' & -> & Hr1)|(Hn1 & Hn2 & Hle)]]).
    - exact (IH _ _ _ _ _ _ Hi1 Ha1 Hr1 H).
    - specialize (IH _ _ _ _ _ _ Hi1 Ha1 Hr1 H). lia.
    - assert (w' = w1); [|lia]. destruct out1 as [v|[| |x| |]]; try (inversion H; reflexivity); [destruct (Hn2 x eq_refl)|destruct (Hn1 eq_refl)].
  Qed.

  Variable R : St -> list I -> nat -> Prop.
  Hypothesis HR : delivers ds R.

  (** An answer after at most [c + 1] calls and one for every failing read. *)
  Lemma runs_enough : forall T E (p : parser I T E), well_behaved p -> (forall i, p i <> Panic) -> (forall i, p i <> NoFuel) ->
    forall fuel c st w d e, inv (src_buffer st) -> src_auto st = true -> ready c p st -> R (src_source st) d e -> c + 1 + e <= fuel ->
    exists st' out w', insist_w ds ops fuel (counted p) st w = (Done (st', out), w').
  Proof.
    intros T E p Hw Hnp Hnf. induction fuel as [|fuel IH]; intros c st w d e Hi Ha Hr HRs Hf; [lia|]. cbn [insist_w].
    assert (Hd : exists st1 out1 w1, src_parse_w ds ops (counted p) st w = (Done (st1, out1), w1)).
    { destruct (src_parse_spec Q Ho st Hi Hw) as [(st1 & x & H1 & H2 & H3 & H4)|(st1 & H1 & H2)];
      pose proof (src_parse_w_bridge ds ops (counted p) st w) as Hb; change (fun i => fst (counted p w i)) with p in Hb;
      destruct (src_parse_w ds ops (counted p) st w) as [r w1]; cbn [fst] in Hb.
      - rewrite H4 in Hb. subst r. eauto.
      - cbn zeta in H2.
        destruct H2 as [(H2 & H3 & H4)|[H2 [(H3 & H4)|[(H3 & H4)|(st2 & out2 & H3 & H4)]]]].
        + rewrite H4 in Hb. subst r. eauto.
        + destruct (Hnp _ H3).
        + destruct (Hnf _ H3).
        + rewrite H3 in Hb. subst r. eauto. }
    destruct Hd as (st1 & out1 & w1 & Hp). rewrite Hp.
    destruct (@attempt T E p c st st1 out1 w w1 Hw Hi Ha Hr Hp) as (new & k & en & Hrd & Hi1 & Ha1 & Hcases).
    destruct (reads_delivers HR Hrd _ _ HRs) as (d' & G1 & G2 & G3 & G4).
    destruct Hcases as [(x & -> & -> & Hr1 & ->)|[(-> & -> & c' & -> & Hr1)|(Hn1 & Hn2 & Hle)]].
    - apply IH with (c := c) (d := d') (e := e - 1); auto. lia.
    - apply IH with (c := c') (d := d') (e := e - k); auto. lia.
    - destruct out1 as [v|[| |x| |]]; eauto; [destruct (Hn2 x eq_refl)|destruct (Hn1 eq_refl)].
  Qed.
End Runs.

(** * The bound is met *)

Lemma items_sized : forall I n, sized n (@row_of I n).
Proof. induction n as [|n IH]; [apply z_ret|]. apply (z_then (k := 1) (l := n)); [apply z_any|exact IH]. Qed.

Lemma items_char : forall I n (b : list I) l, row_of n (mkInput l b) = if length b <? n then Incomplete 1 else Data (mkInput l (skipn n b)) tt.
Proof.
  induction n as [|n IH]; intros b l; [destruct b; reflexivity|]. cbn [row_of]. destruct b as [|c b]; [reflexivity|].
  change (then_ (fun e => e) (any (mkInput l (c :: b))) (row_of n)) with (map_err (fun e => e) (row_of n (mkInput l b))). rewrite IH. cbn [length]. change (S (length b) <? S n) with (length b <? n). destruct (length b <? n); reflexivity.
Qed.

Section Met.
  Context {I B : Type}.
  Variable ops : buffer_ops I B.
  Variable inv : B -> Prop.
  Variable view : B -> list I.
  Variable room : B -> nat.
  Variable Q : queue_like ops inv view room (fun _ => True).

  Lemma items_met : forall data c fuel b req en w, length data < fuel -> inv b -> Nat.max 1 req = S (length (view b)) -> exists st',
    insist_w (read_data_source chunk_read) ops fuel (counted (row_of (length (view b) + S (length data))))
      (mkSrc (one_by_one (c :: data)) b req true en true) w = (Done (st', inl tt), w + S (length data)).
  Proof.
    induction data as [|c' data IH]; intros c [|fuel] b req en w Hfu Hi Hr; cbn [length] in Hfu; try lia; cbn [insist_w]; unfold src_parse_w; cbn [src_incomplete src_auto andb];
      cbn [one_by_one List.map length];
      match goal with |- context [Some [c] :: ?cs] => destruct (@fill_one I B ops inv view room Q c cs b req en Hi Hr) as (b' & E & Hi' & V') end;
      rewrite E; unfold src_is_empty; cbn [src_eoi src_buffer]; rewrite (q_deref Q _ Hi'), V'; unfold counted at 1; rewrite items_char, app_length; cbn [length].
    - rewrite (proj2 (Nat.ltb_ge _ _)) by lia. rewrite (q_len Q _ Hi'), V'. cbn [run_bind buf].
      replace (skipn (length (view b) + 1) (view b ++ [c])) with (@nil I).
      2: { rewrite skipn_all2; [reflexivity|rewrite app_length; cbn; lia]. }
      cbn [length]. unfold usize_sub. rewrite (proj2 (Nat.leb_le _ _)) by lia. cbn [run_bind].
      rewrite app_length, Nat.sub_0_r. cbn [length].
      destruct (q_consume Q b' (k := length (view b) + 1) Hi' ltac:(rewrite V', app_length; cbn; lia)) as (b2 & E2 & _). rewrite E2. cbn [run_bind].
      rewrite Nat.add_1_r. eexists. reflexivity.
    - rewrite (proj2 (Nat.ltb_lt _ _)) by lia. rewrite (q_len Q _ Hi'), V'. cbn [run_bind]. cbn [src_source src_auto src_buffer src_eoi].
      destruct (IH c' fuel b' (length (view b ++ [c]) + 1) false (S w) ltac:(lia) Hi') as (st' & H3). { rewrite V', app_length. cbn [length]. lia. }
      rewrite V', app_length in H3. cbn [length] in H3. rewrite <- Nat.add_assoc in H3. cbn [Nat.add] in H3. rewrite app_length. cbn [length].
      unfold one_by_one in H3. cbn [List.map] in H3. rewrite H3. exists st'. f_equal. lia.
  Qed.
End Met.
