(** Parsers that do not take the end of the input for an answer. *)
From Coq Require Import List Bool Arith Lia.
From Verif Require Import Base Parsers Combinators Buffer Stream SpecBase SpecBuffer SpecSafe SpecStream SpecIter SpecFollow SafeProofs StableProofs ManyProofs TillProofs.
Import ListNotations.

Set Implicit Arguments.

Theorem waiting_safe : forall I T E (p : parser I T E), waiting p -> safe p.
Proof.
  induction 1; try (constructor; auto; fail).
  - eapply s_ext; eauto.
  - unfold count. apply (@s_bmany I unit _ _ _ _ fuel (vec_collector U) (RExact n) tt (pure p)); [apply vec_exhausts|apply pure_carries|intros; exact IHwaiting].
  - apply s_bmany_till; auto using vec_exhausts, pure_carries.
Qed.

(** As [patient], up to repetitions cut short. *)
Definition nearly {I T E} (p : parser I T E) : Prop :=
  forall b n, p (mkInput false b) = Incomplete n -> p (mkInput true b) = NoFuel \/ exists m, p (mkInput true b) = Incomplete m.

(** A value or an error on a slice does not depend on its being the last one. *)
Lemma stable_last : forall I T E (p : parser I T E), stable p -> forall b,
  match p (mkInput false b) with
  | Data j v => p (mkInput true b) = Data (mkInput true (buf j)) v
  | Error r e => p (mkInput true b) = Error r e
  | Panic => p (mkInput true b) = Panic
  | _ => True
  end.
Proof. intros I T E p Hs b. specialize (Hs b true []). rewrite app_nil_r in Hs. destruct (p (mkInput false b)); cbn [upholds] in Hs; rewrite ?app_nil_r in Hs; auto. Qed.

Lemma wb_last : forall I T E (p : parser I T E), well_behaved p -> forall b j v, p (mkInput false b) = Data j v -> j = mkInput false (buf j).
Proof. intros I T E p Hw b j v H. specialize (Hw (mkInput false b)). rewrite H in Hw. destruct Hw as [Hl _]. destruct j as [l bj]. cbn in *. congruence. Qed.

Lemma bind_nearly : forall I T U E V (conv : E -> V) (p : parser I T E) (f : input I -> T -> pres I U V),
  well_behaved p -> stable p -> nearly p -> (forall t, nearly (fun i => f i t)) -> nearly (fun i => bind conv (p i) f).
Proof.
  intros I T U E V conv p f Hw Hs Hp Hf b n H. pose proof (stable_last Hs b) as Hl. specialize (Hp b). pose proof (wb_last Hw b) as Hb. destruct (p (mkInput false b)) as [j v|r e|m| |] eqn:Ep; cbn [bind] in H; try discriminate.
  - rewrite Hl. cbn [bind]. rewrite (Hb _ _ eq_refl) in H. rewrite (honest_map_err_id (mkInput true b)) in *. exact (Hf v _ _ H).
  - destruct (Hp _ eq_refl) as [G|[k G]]; rewrite G; cbn [bind]; eauto.
Qed.

Section Iterate.
  Context {I U V E N : Type}.
  Variables (p : parser I U E) (end_ : parser I V N).
  Hypotheses (Hw : well_behaved p) (Hs : stable p) (Hn : nearly p) (Hd : forall i, p i <> NoFuel).

  Lemma iterates_last : forall us s b s' j, iterates (pure p) s (mkInput false b) us s' j ->
    exists bj, j = mkInput false bj /\ iterates (pure p) s (mkInput true b) us s' (mkInput true bj).
  Proof.
    induction us as [|u us IH]; intros s b s' j H; inversion H as [|? ? ? s1 i1 ? ? ? Hp Hi]; subst.
    - exists b. split; [reflexivity|constructor].
    - unfold pure in Hp. inversion Hp as [[Hp1 Hp2]]. pose proof (wb_last Hw _ Hp1) as Hi1. pose proof (stable_last Hs b) as Hl. rewrite Hp1 in Hl.
      rewrite Hi1 in Hi. destruct (IH _ _ _ _ Hi) as (bj & -> & G). exists bj. split; [reflexivity|]. subst s1. econstructor; [unfold pure; rewrite Hl; reflexivity|exact G].
  Qed.

  Lemma count_nearly : forall fuel n, nearly (count fuel (vec_collector U) n tt (pure p)).
  Proof.
    intros fuel n b k H. unfold count in *. assert (Hne : nonempty (RExact n)) by (exists n; reflexivity).
    assert (Ho : many_outcome (RExact n) (pure p) tt (mkInput false b) (Incomplete k)) by (eapply bmany_sound; [exact Hne|exact H|discriminate]).
    inversion Ho as [| |us s j m Hi Hg Hj Hr|]; subst. destruct (iterates_last Hi) as (bj & -> & G). cbn [pure fst] in Hj.
    destruct (Hn Hj) as [Hx|[m Hm]]; [contradiction (Hd Hx)|].
    assert (Ho' : many_outcome (RExact n) (pure p) tt (mkInput true b) (Incomplete m)).
    { eapply mo_incomplete; [exact G|assumption|exact Hm|]. left. apply may_grow_exact in Hg. cbn [in_range]. lia. }
    destruct (bmany fuel (vec_collector U) (RExact n) tt (pure p) (mkInput true b)) as [j v|x e|y| |] eqn:Eb; try solve [left; reflexivity | right; eauto].
    all: exfalso; assert (Hr1 : many_outcome (RExact n) (pure p) tt (mkInput true b) (bmany fuel (vec_collector U) (RExact n) tt (pure p) (mkInput true b)))
      by (eapply bmany_sound; [exact Hne|reflexivity|rewrite Eb; discriminate]); rewrite Eb in Hr1; assert (Hm1 := many_outcome_det Hr1 Ho'); discriminate.
  Qed.

  Hypotheses (Hse : stable end_) (Hne : nearly end_) (Hde : forall i, end_ i <> NoFuel) (Hdec : decisive (pure p) end_).

  Lemma till_last : forall r us k s b s' j, iterates_till r (pure p) end_ k s (mkInput false b) us s' j ->
    exists bj, j = mkInput false bj /\ iterates_till r (pure p) end_ k s (mkInput true b) us s' (mkInput true bj).
  Proof.
    intros r. induction us as [|u us IH]; intros k s b s' j H; inversion H as [|? ? ? ? s1 i1 ? ? ? He Hp Hi]; subst.
    - exists b. split; [reflexivity|constructor].
    - unfold pure in Hp. inversion Hp as [[Hp1 Hp2]]. pose proof (wb_last Hw _ Hp1) as Hi1. pose proof (stable_last Hs b) as Hl. rewrite Hp1 in Hl.
      rewrite Hi1 in Hi. destruct (IH _ _ _ _ _ Hi) as (bj & -> & G). exists bj. split; [reflexivity|]. subst s1. econstructor; [|unfold pure; rewrite Hl; reflexivity|exact G].
      intros Hr. destruct (He Hr) as [(x & e & H1)|(n & H1)].
      + left. pose proof (stable_last Hse b) as H2. rewrite H1 in H2. eauto.
      + destruct (Hdec tt H1) as (m & H2 & _). cbn [pure fst] in H2. congruence.
  Qed.

  Lemma end_last : forall r k b, end_fails r end_ k (mkInput false b) -> end_fails r end_ k (mkInput true b).
  Proof.
    intros r k b H Hr. destruct (H Hr) as [(x & e & H1)|(n & H1)].
    - left. pose proof (stable_last Hse b) as H2. rewrite H1 in H2. eauto.
    - right. destruct (Hne H1) as [Hx|Hx]; [contradiction (Hde Hx)|exact Hx].
  Qed.

  Lemma till_nearly : forall fuel r, nonempty r -> nearly (bmany_till fuel (vec_collector U) r tt tt (pure p) (pure end_)).
  Proof.
    intros fuel r Hr b k H. destruct (bmany_till_char (pure p) end_ Hr) as [Hsound _].
    destruct (Hsound _ _ _ _ H ltac:(discriminate)) as (res & Ho & Hq).
    assert (res = Incomplete k) by (destruct r, res; cbn [till_quirk] in Hq; try destruct (_ <? _); congruence). subst res. clear Hq.
    assert (Ho' : exists m, till_outcome r (pure p) end_ tt (mkInput true b) (Incomplete m)).
    { inversion Ho as [| |us s j m Hi He Hg Hj|us s j Hi Hin He Hg| |]; subst; destruct (till_last Hi) as (bj & -> & G).
      - cbn [pure fst] in Hj. destruct (Hn Hj) as [Hx|[m Hm]]; [contradiction (Hd Hx)|]. exists m. eapply to_incomplete; [exact G|apply end_last; assumption|assumption|exact Hm].
      - exists 1. eapply to_exhausted; [exact G|assumption|apply end_last; assumption|assumption]. }
    destruct Ho' as [m Ho'].
    destruct (bmany_till fuel (vec_collector U) r tt tt (pure p) (pure end_) (mkInput true b)) as [j v|x e|n| |] eqn:Eb; try solve [left; reflexivity | right; eauto].
    all: destruct (Hsound _ _ _ _ Eb ltac:(discriminate)) as (res & Hr1 & Hr2); assert (Hm := till_outcome_det Hr1 Ho'); subst res;
      exfalso; destruct r; discriminate.
  Qed.
End Iterate.

Lemma waiting_nearly : forall I T E (p : parser I T E), waiting p -> nearly p.
Proof.
  induction 1.
  - intros b n Hn. rewrite <- H0 in Hn |- *. exact (IHwaiting _ _ Hn).
  - discriminate.
  - discriminate.
  - right. eexists. reflexivity.
  - intros b m Hm. destruct r; unfold ret, err, incomplete in *; discriminate.
  - intros b m Hm. specialize (IHwaiting b). destruct (p (mkInput false b)); cbn in Hm; try discriminate. destruct (IHwaiting _ eq_refl) as [G|[k G]]; rewrite G; cbn; eauto.
  - intros b m Hm. specialize (IHwaiting b). destruct (p (mkInput false b)); cbn in Hm; try discriminate. destruct (IHwaiting _ eq_refl) as [G|[k G]]; rewrite G; cbn; eauto.
  - apply bind_nearly; auto; [apply built_well_behaved, safe_built, waiting_safe; assumption|apply safe_stable, waiting_safe; assumption].
  - apply bind_nearly; auto; [apply built_well_behaved, safe_built, waiting_safe; assumption|apply safe_stable, waiting_safe; assumption].
  - intros [|x b] n Hn; [right; eexists; reflexivity|discriminate].
  - intros [|x b] n Hn; [right; eexists; reflexivity|]. unfold satisfy in *. cbn [buf first] in *. destruct (f x); unfold ret, err, incomplete in *; discriminate.
  - intros [|x b] n Hn; [right; eexists; reflexivity|]. unfold satisfy_with in *. cbn [buf first] in *. destruct (g (f x)); unfold ret, err, incomplete in *; discriminate.
  - intros [|x b] n Hn; [right; eexists; reflexivity|]. unfold token in *. cbn [buf first] in *. destruct (eqb t x); unfold ret, err, incomplete in *; discriminate.
  - intros [|x b] n Hn; [right; eexists; reflexivity|]. unfold not_token in *. cbn [buf first] in *. destruct (eqb t x); unfold ret, err, incomplete in *; discriminate.
  - intros [|x b] n Hn; [right; eexists; reflexivity|discriminate].
  - intros b m Hm. unfold take in *. cbn [buf] in *. destruct (n <=? length b); [discriminate|]. right. eexists. reflexivity.
  - intros b m Hm. unfold take_till in *. cbn [buf] in *. destruct (position f b); [discriminate|]. right. eexists. reflexivity.
  - intros b m Hm. unfold string in *. cbn zeta in *; cbn [buf] in *. destruct (length b <? length s); [right; eexists; reflexivity|].
    destruct (string_mismatch eqb 0 s (firstn (length s) b)); unfold err_string in *; [destruct v|]; unfold ret, err, incomplete in *; discriminate.
  - intros b n Hn. unfold or_ in *. pose proof (stable_last (safe_stable (waiting_safe H)) b) as Hl. specialize (IHwaiting1 b). specialize (IHwaiting2 b). cbn [last] in *.
    specialize (H1 b). destruct (p (mkInput false b)) as [j v|r e|m| |]; try discriminate.
    + rewrite Hl. exact (IHwaiting2 _ Hn).
    + destruct (H1 _ eq_refl) as [k Hk]. destruct (IHwaiting1 _ eq_refl) as [G|[x G]]; rewrite G; [auto|]. exact (IHwaiting2 _ Hk).
  - intros b n Hn. unfold matched_by in *. specialize (IHwaiting b). cbn [buf] in *. destruct (p (mkInput false b)) as [j v|r e|m| |]; try discriminate.
    + destruct (_ <? _); unfold ret, err, incomplete in *; discriminate.
    + destruct (IHwaiting _ eq_refl) as [G|[x G]]; rewrite G; [auto|right; eexists; reflexivity].
  - intros b n Hn. unfold look_ahead in *. specialize (IHwaiting b). destruct (p (mkInput false b)) as [j v|r e|m| |]; try discriminate.
    destruct (IHwaiting _ eq_refl) as [G|[x G]]; rewrite G; [auto|right; eexists; reflexivity].
  - apply count_nearly; auto; [apply built_well_behaved, safe_built, waiting_safe; assumption|apply safe_stable, waiting_safe; assumption].
  - apply till_nearly; auto; [apply built_well_behaved, safe_built, waiting_safe; assumption|apply safe_stable, waiting_safe; assumption|apply safe_stable, waiting_safe; assumption].
Qed.

Theorem waiting_patient : forall I T E (p : parser I T E), waiting p -> (forall i, p i <> NoFuel) -> patient p.
Proof. intros I T E p Hp Hd b n H. destruct (waiting_nearly Hp _ H) as [G|G]; [contradiction (Hd _ G)|exact G]. Qed.
