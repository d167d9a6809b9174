(** More proofs for C70 and C71: determinism; larger budgets change nothing; well-formed grammars. *)
From Coq Require Import List Bool Arith Lia.
From Verif Require Import Base Parsers Combinators SpecBase SpecIter SpecSep BaseProofs IterProofs ManyProofs SepProofs SpecLaws SpecSafe SafeProofs StableProofs SpecPeg Peg PegProofs.
Import ListNotations.

Set Implicit Arguments.

Section Peg.
  Context {I : Type}.
  Variable eqb : I -> I -> bool.
  Variable g : nat -> peg I.
  Notation comp := (peg_parser false eqb g).
  Notation derives := (derives eqb g).
  Notation steps := (steps eqb g).

  Lemma derives_one_result : forall e s r r' d d', derives e s r d -> derives e s r' d' -> r = r'.
  Proof.
    intros e s r r' d d' H H'. destruct (proj1 (derives_does false eqb g) _ _ _ _ H) as [f0 D]. destruct (proj1 (derives_does false eqb g) _ _ _ _ H') as [f1 D'].
    destruct (D (f0 + f1) ltac:(lia)) as [E _]. destruct (D' (f0 + f1) ltac:(lia)) as [E' _]. unfold at_end in *.
    destruct r as [[t s1]|], r' as [[t' s1']|]; auto.
    - congruence.
    - destruct E' as [(b & x & E')|(n & E')]; congruence.
    - destruct E as [(b & x & E)|(n & E)]; congruence.
  Qed.
  Lemma steps_prefix : forall a s ts s1 d, steps a s ts s1 d -> forall ts' s1' d', steps a s ts' s1' d' -> length ts = length ts' -> ts = ts' /\ s1 = s1'.
  Proof.
    induction 1 as [a s|a s t s1 d1 ts s2 d2 D H IH]; intros ts' s1' d' H' Hl; inversion H' as [|? ? t' s1'' d1' ts'' ? d2' D' K]; subst; try discriminate; auto.
    pose proof (derives_one_result D D') as E. inversion E; subst. destruct (IH _ _ _ K) as [-> ->]; auto.
  Qed.
  (** A run of matches that ends because the next one fails is the longest. *)
  Lemma steps_longest : forall a s ts s1 d, steps a s ts s1 d -> forall ts' s1' d', steps a s ts' s1' d' -> forall d2, derives a s1' None d2 -> length ts <= length ts'.
  Proof.
    induction 1 as [a s|a s t s1 d1 ts s2 d2 D H IH]; intros ts' s1' d' H' d3 D3; [cbn; lia|]. inversion H' as [|? ? t' s1'' d1' ts'' ? d2' D' K]; subst.
    - pose proof (derives_one_result D D3). discriminate.
    - pose proof (derives_one_result D D') as E. inversion E; subst. cbn [length]. specialize (IH _ _ _ K _ D3). lia.
  Qed.
  Lemma steps_same : forall a s ts s1 d ts' s1' d' d2 d2', steps a s ts s1 d -> derives a s1 None d2 -> steps a s ts' s1' d' -> derives a s1' None d2' -> ts = ts' /\ s1 = s1'.
  Proof.
    intros a s ts s1 d ts' s1' d' d2 d2' H D H' D'. eapply steps_prefix; eauto. apply Nat.le_antisymm; eapply steps_longest; eauto.
  Qed.

  Lemma derives_one_look :
    (forall e s r d, derives e s r d -> forall d', derives e s r d' -> d = d') /\
    (forall a s ts s1 d, steps a s ts s1 d -> forall d', steps a s ts s1 d' -> d = d').
  Proof.
    apply derives_steps_ind.
    all: intros.
    all: match goal with H : SpecPeg.derives _ _ _ _ _ ?d' |- _ = ?d' => inversion H; subst | H : SpecPeg.steps _ _ _ _ _ _ ?d' |- _ = ?d' => inversion H; subst end.
    all: auto.
    all: repeat match goal with
      | H : SpecPeg.derives _ _ ?a ?s ?r _, K : SpecPeg.derives _ _ ?a ?s ?r' _ |- _ =>
          first [constr_eq r r'; fail 1 | pose proof (derives_one_result H K) as Heq; inversion Heq; clear Heq; subst]
      end.
    all: try congruence.
    all: repeat match goal with IH : forall d', SpecPeg.derives ?q ?h ?a ?s ?r d' -> ?d = d', K : SpecPeg.derives ?q ?h ?a ?s ?r ?e |- _ => 
         lazymatch d with e => fail | _ => pose proof (IH _ K); subst; clear IH end end.
    all: auto.
    destruct (steps_same H H2 H7 H10) as [<- <-]. rewrite (H0 _ H7), (H3 _ H10). reflexivity.
  Qed.
End Peg.

(** * Budgets *)

(** [r'] is what [r] is, unless the budget was too small for [r]. *)
Definition under {I T E} (r r' : pres I T E) : Prop := r <> NoFuel -> r' = r.

Lemma under_map : forall I T U E (f : T -> U) (r r' : pres I T E), under r r' -> under (map f r) (map f r').
Proof. intros I T U E f r r' H Hn. rewrite H; [reflexivity|]. intros ->. apply Hn. reflexivity. Qed.

Lemma under_bind : forall I T U E V (conv : E -> V) (r r' : pres I T E) (k k' : input I -> T -> pres I U V),
  under r r' -> (forall j t, under (k j t) (k' j t)) -> under (bind conv r k) (bind conv r' k').
Proof.
  intros I T U E V conv r r' k k' H Hk Hn. rewrite H; [|intros ->; apply Hn; reflexivity].
  destruct r as [j t|b e|n| |]; cbn [bind] in *; auto. rewrite Hk; [reflexivity|]. intros Hz. rewrite Hz in Hn. apply Hn. reflexivity.
Qed.

Lemma from_iter_under : forall U T C It fuel fuel' (next next' : It -> step It U) hint (act : C -> caction U T C) c it, fuel <= fuel' ->
  (forall it, next it <> StepNoFuel -> next' it = next it) ->
  from_iter fuel next hint act c it <> FNoFuel -> from_iter fuel' next' hint act c it = from_iter fuel next hint act c it.
Proof.
  intros U T C It. induction fuel as [|fuel IH]; intros [|fuel'] next next' hint act c it Hf Hn H; try lia; try (exfalso; apply H; reflexivity).
  cbn [from_iter] in *. destruct (act c); auto.
  - destruct (next it) eqn:E; rewrite (Hn it) by congruence; rewrite E; auto; apply IH; auto; lia.
  - apply IH; auto; lia.
Qed.

Lemma bmany_under : forall S I U T E C fuel fuel' (col : collector U T C) r s0 (p p' : sparser S I U E) i, fuel <= fuel' ->
  (forall s j, fst (p s j) <> NoFuel -> p' s j = p s j) -> under (bmany fuel col r s0 p i) (bmany fuel' col r s0 p' i).
Proof.
  intros S I U T E C fuel fuel' col r s0 p p' i Hf Hp.
  assert (Hr : forall D (d : D) hint pre on fin, under (run_iter fuel col i s0 p d hint pre on fin) (run_iter fuel' col i s0 p' d hint pre on fin)).
  { intros D d hint pre on fin. unfold run_iter, under. intros Hn.
    rewrite (@from_iter_under _ _ _ _ fuel fuel' (iter_next p pre on) (iter_next p' pre on)); auto.
    - intros it Hs. unfold iter_next in *. destruct (pre (it_data it)); auto. rewrite Hp; auto.
      intros Hz. apply Hs. destruct (p (it_ps it) (it_buf it)) as [x s]. cbn in Hz. subst x. reflexivity.
    - intros Hz. rewrite Hz in Hn. apply Hn. reflexivity. }
  destruct r as [a b|a| |b|n]; cbn [bmany]; unfold parse_many_range, parse_many_from, parse_many_full, parse_many_to, parse_many_exact; auto.
  destruct (negb _); [intros _; reflexivity|apply Hr].
Qed.

Section More.
  Context {I : Type}.
  Variable v : bool.
  Variable eqb : I -> I -> bool.
  Variable g : nat -> peg I.
  Notation comp := (peg_parser v eqb g).
  Notation derives := (derives eqb g).
  Notation steps := (steps eqb g).

  Lemma comp_under : forall f f' e i, f <= f' -> under (comp f e i) (comp f' e i).
  Proof.
    induction f as [f IHf] using lt_wf_ind. intros f' e i Hf. revert i.
    assert (Hpure : forall a, (forall i, under (comp f a i) (comp f' a i)) -> forall (s : unit) j, fst (pure (comp f a) s j) <> NoFuel -> pure (comp f' a) s j = pure (comp f a) s j).
    { intros a H s j Hn. unfold pure in *. cbn in Hn. rewrite H; auto. }
    induction e as [|p|w|p|a IHa b IHb|a IHa b IHb|a IHa b IHb|a IHa|a IHa|a IHa|a IHa|a IHa|n a IHa|a IHa b IHb|n]; intros i;
      match goal with |- under (comp _ ?x _) _ => rewrite (comp_eq v eqb g f x i), (comp_eq v eqb g f' x i) end; try (intros _; reflexivity).
    - apply under_bind; [apply IHa|]. intros j t. apply under_map, IHb.
    - unfold then_. apply under_bind; [apply IHa|]. intros j t. apply IHb.
    - unfold or_. intros Hn. rewrite IHa; [|intros Hz; rewrite Hz in Hn; apply Hn; reflexivity].
      destruct (comp f a i); auto; try (destruct (last i); auto); apply IHb; assumption.
    - unfold option_. intros Hn. rewrite IHa; [reflexivity|]. intros Hz. rewrite Hz in Hn. apply Hn. reflexivity.
    - unfold look_ahead. intros Hn. rewrite IHa; [reflexivity|]. intros Hz. rewrite Hz in Hn. apply Hn. reflexivity.
    - apply under_map. unfold matched_by. intros Hn. rewrite IHa; [reflexivity|]. intros Hz. rewrite Hz in Hn. apply Hn. reflexivity.
    - apply under_map, bmany_under; auto.
    - apply under_map, bmany_under; auto.
    - apply under_map, bmany_under; auto.
    - apply under_map. unfold sep_by1. apply bmany_under; auto. intros [[item []] []] j Hn. unfold sep_item, pure in *. destruct item.
      + cbn [fst] in *. rewrite IHb; [|intros Hz; rewrite Hz in Hn; apply Hn; reflexivity].
        destruct (comp f b j) as [k t|x e|n| |]; cbn [map] in *; try reflexivity.
        rewrite IHa; [reflexivity|]. intros Hz. rewrite Hz in Hn. apply Hn. reflexivity.
      + cbn [ret] in *. rewrite IHa; [reflexivity|]. intros Hz. rewrite Hz in Hn. apply Hn. reflexivity.
    - destruct f as [|f]; [intros Hn; congruence|]. destruct f' as [|f']; [lia|]. apply IHf; lia.
  Qed.

  Lemma comp_settles : forall f e i, comp f e i <> NoFuel -> settles (fun f => comp f e i) (comp f e i).
  Proof. intros f e i Hn. split; [assumption|]. exists f. intros f' Hf. apply comp_under; assumption. Qed.

  Lemma safe_nofuel : forall T E, @safe I T E (fun _ => NoFuel).
  Proof.
    intros T E. apply s_ext with (p := fun i => then_ (fun e : E => e) (bskip_many 0 RFull tt (pure (fun _ : input I => @Panic I T E)) i) (fun _ => @Panic I T E)).
    - apply s_then; [|apply s_panic]. apply s_bskip_many; [apply pure_carries|]. intros s. apply s_panic.
    - reflexivity.
  Qed.

  Lemma comp_safe : forall f e, safe (comp f e).
  Proof.
    induction f as [f IHf] using lt_wf_ind.
    induction e as [|p|w|p|a IHa b IHb|a IHa b IHb|a IHa b IHb|a IHa|a IHa|a IHa|a IHa|a IHa|n a IHa|a IHa b IHb|n];
      (eapply s_ext; [|intros i; symmetry; rewrite comp_eq; reflexivity]).
    - apply s_ret.
    - apply s_map, s_satisfy.
    - apply s_map, s_string.
    - apply s_map, s_take_while.
    - apply s_bind; [assumption|]. intros t. apply s_map. assumption.
    - apply s_then; assumption.
    - apply s_or; assumption.
    - apply s_option; assumption.
    - apply s_look_ahead; assumption.
    - apply s_map, s_matched_by; assumption.
    - apply s_map, safe_many; [apply vec_exhausts|apply pure_carries|intros s; assumption].
    - apply s_map, safe_many1; [apply vec_exhausts|apply pure_carries|intros s; assumption].
    - apply s_map, safe_count; [apply vec_exhausts|apply pure_carries|intros s; assumption].
    - apply s_map, s_sep_by1; [apply vec_exhausts|apply pure_carries|apply pure_carries|intros s; assumption|intros s; assumption].
    - destruct f as [|f]; [apply safe_nofuel|]. apply IHf. lia.
  Qed.

  (** The parser as a function, for grammars whose parsers return. *)
  Variable e : peg I.
  Variable p : parser I (tree I) (error I).
  Hypothesis Hp : forall i, settles (fun f => comp f e i) (p i).

  Lemma limit_at : forall i j, exists f, comp f e i = p i /\ comp f e j = p j.
  Proof.
    intros i j. destruct (Hp i) as (_ & f0 & H0). destruct (Hp j) as (_ & f1 & H1). exists (f0 + f1). split; [apply H0|apply H1]; lia.
  Qed.
  Lemma limit_stable : stable p.
  Proof. intros b l c. destruct (limit_at (mkInput false b) (mkInput l (b ++ c))) as (f & <- & <-). apply (safe_stable (comp_safe f e)). Qed.
  Lemma limit_well_behaved : well_behaved p.
  Proof.
    intros i. destruct (limit_at i i) as (f & <- & _). apply (built_well_behaved (safe_built (comp_safe f e))).
  Qed.
  Lemma limit_decides : forall i, p i <> NoFuel.
  Proof. intros i. apply (proj1 (Hp i)). Qed.
End More.

(** * Well-formed grammars *)

Section Total.
  Context {I : Type}.
  Variable eqb : I -> I -> bool.
  Variable g : nat -> peg I.
  Variable nul : nat -> bool.
  Variable rank : nat -> nat.
  Notation derives := (derives eqb g).
  Notation steps := (steps eqb g).
  Hypothesis Hg : well_formed nul rank g.

  Definition total e s : Prop := exists r d, derives e s r d.

  Lemma derives_consumes :
    (forall e s r d, derives e s r d -> may_empty nul e = false -> forall t s1, r = Some (t, s1) -> length s1 < length s) /\
    (forall a s ts s1 d, steps a s ts s1 d -> may_empty nul a = false -> ts <> [] -> length s1 < length s).
  Proof.
    apply derives_steps_ind; try (cbn [may_empty]; intros; discriminate); cbn [may_empty].
    - (* Sat *) intros f x s Hx _ t s1 E. inversion E; subst. cbn. lia.
    - (* Lit *) intros w x s Hw Hne t s1 E. inversion E; subst. rewrite app_length. apply same_items_length in Hw. destruct w; [discriminate|]. cbn in Hw. lia.
    - (* Seq *) intros a b s t s1 d1 u s2 d2 D1 IH1 D2 IH2 H t' s' E. inversion E; subst. apply andb_false_iff in H. pose proof (derives_length D1). pose proof (derives_length D2).
      destruct H as [H|H]; [specialize (IH1 H _ _ eq_refl)|specialize (IH2 H _ _ eq_refl)]; lia.
    - (* Then *) intros a b s t s1 d1 r d2 D1 IH1 D2 IH2 H t' s' E. subst r. apply andb_false_iff in H. pose proof (derives_length D1). pose proof (derives_length D2).
      destruct H as [H|H]; [specialize (IH1 H _ _ eq_refl)|specialize (IH2 H _ _ eq_refl)]; lia.
    - (* Alt *) intros a b s x d D IH H t s1 E. apply orb_false_iff in H. destruct H. eauto.
    - intros a b s d1 r d2 D1 IH1 D2 IH2 H t s1 E. apply orb_false_iff in H. destruct H. eauto.
    - (* Slice *) intros a x t s1 d D IH H t' s' E. inversion E; subst. eauto.
    - (* Plus *) intros a s ts s1 d1 d2 D1 IH1 Hne D2 IH2 H t s' E. inversion E; subst. auto.
    - (* Times *) intros a s ts s1 d D IH H t s' E. inversion E; subst. destruct ts; [discriminate|]. apply IH; [assumption|discriminate].
    - (* Sep *) intros a b s t s1 d1 ts s2 d2 d3 D1 IH1 D2 IH2 D3 _ H t' s' E. inversion E; subst. specialize (IH1 H _ _ eq_refl). pose proof (steps_length D2). lia.
    - (* Rule *) intros n s r d D IH H t s1 E. apply IH with t; [|assumption]. destruct (may_empty nul (g n)) eqn:M; [|reflexivity]. rewrite (proj2 (Hg n) M) in H. discriminate.
    - congruence.
    - intros a s t s1 d1 ts s2 d2 D1 IH1 D2 IH2 H _. specialize (IH1 H _ _ eq_refl). pose proof (steps_length D2). lia.
  Qed.

  Lemma good_none : forall (e : peg I) o, good nul rank o e -> good nul rank None e.
  Proof.
    assert (Hif : forall (x : bool) (o : option nat), (if x then @None nat else None) = None) by (intros [|]; reflexivity).
    induction e; intros o H; cbn [good] in *; rewrite ?Hif by exact None; intuition eauto.
  Qed.

  (** What a match leaves is shorter, or it is everything and the expression may match nothing. *)
  Lemma left : forall e s t s1 d, derives e s (Some (t, s1)) d -> length s1 < length s \/ (s1 = s /\ may_empty nul e = true).
  Proof.
    intros e s t s1 d D. destruct (may_empty nul e) eqn:M; [|left; eapply (proj1 derives_consumes); eauto].
    destruct (proj1 (derives_suffix eqb g) _ _ _ _ D _ _ eq_refl) as [[|x r] ->]; [auto|]. left. cbn. rewrite app_length. lia.
  Qed.

  Section At.
    Variable o : option nat.
    Variable s : list I.
    Hypothesis Hshort : forall s', length s' < length s -> forall e : peg I, good nul rank None e -> total e s'.
    Hypothesis Hrule : forall n, good nul rank o (@Rule I n) -> total (g n) s.

    Lemma star_total : forall a, may_empty nul a = false -> good nul rank None a -> total a s -> total (Star a) s.
    Proof.
      intros a Hm Ha ([[t s1]|] & d & D).
      - assert (Hl : length s1 < length s) by (eapply (proj1 derives_consumes); eauto). destruct (Hshort s1 Hl (Star a) (conj Hm Ha)) as (r & d' & D').
        inversion D'; subst. eexists _, _. eapply d_star; [eapply s_cons; eassumption|eassumption].
      - eexists _, _. eapply d_star; [apply s_nil|eassumption].
    Qed.
    Lemma then_total : forall a b, total a s -> (forall t s1 d, derives a s (Some (t, s1)) d -> total b s1) -> total (Then a b) s.
    Proof.
      intros a b ([[t s1]|] & d & D) Hb.
      - destruct (Hb _ _ _ D) as (r & d' & D'). eexists _, _. eapply d_then; eassumption.
      - eexists _, _. eapply d_then_not; eassumption.
    Qed.
    Lemma after : forall a b t s1 d, derives a s (Some (t, s1)) d -> good nul rank (if may_empty nul a then o else None) b ->
      (good nul rank o b -> total b s) -> total b s1.
    Proof.
      intros a b t s1 d D Hb IHb. destruct (left D) as [Hl|[-> Hm]].
      - apply Hshort; [assumption|]. eapply good_none; eassumption.
      - rewrite Hm in Hb. auto.
    Qed.

    Lemma good_total : forall e, good nul rank o e -> total e s.
    Proof.
      induction e as [|p|w|p|a IHa b IHb|a IHa b IHb|a IHa b IHb|a IHa|a IHa|a IHa|a IHa|a IHa|n a IHa|a IHa b IHb|n]; cbn [good]; intros H.
      - eexists _, _. constructor.
      - destruct s as [|x r]; [eexists _, _; constructor|]. destruct (p x) eqn:E; eexists _, _; [apply d_sat|apply d_sat_not]; assumption.
      - destruct (string_total eqb w s) as [Hs|[(x & y & Es & Hs)|(x & y & n & Es & Hl & Hs)]]; [|rewrite Es; eexists _, _; apply d_lit; assumption|].
        + eexists _, _. apply d_lit_not. intros x y E Hx. apply same_items_length in Hx. subst s. rewrite app_length in Hs. lia.
        + eexists _, _. apply d_lit_not. intros x' y' E Hx'. subst s. assert (Ex : x' = x).
          { pose proof (same_items_length Hx') as Hl'. apply (f_equal (firstn (length x))) in E. rewrite firstn_length_app in E. rewrite E. replace (length x) with (length x') by lia. rewrite firstn_length_app. reflexivity. }
          subst x'. destruct Hs as (p & q & Hp & Hq & Heq & _). revert Hp Hq Heq. clear - Hx'. revert n. induction Hx' as [|a b w x Hab Hs IH]; intros n Hp Hq Heq; destruct n; cbn in *; try discriminate; [congruence|eauto].
      - destruct (proj1 (take_while_spec p true s _) eq_refl) as [(x & c & y & Es & Hx & Hc & _)|[(Hx & _)|(_ & E & _)]]; [rewrite Es| |discriminate].
        + eexists _, _. apply d_run; assumption.
        + eexists _, _. apply d_run_end; assumption.
      - destruct H as [Ha Hb]. destruct (IHa Ha) as ([[t s1]|] & d & D).
        + destruct (after D Hb IHb) as ([[u s2]|] & d' & D'); eexists _, _; [eapply d_seq|eapply d_seq_not2]; eassumption.
        + eexists _, _. apply d_seq_not1. eassumption.
      - destruct H as [Ha Hb]. apply then_total; [auto|]. intros t s1 d D. eapply after; eauto.
      - destruct H as [Ha Hb]. destruct (IHa Ha) as ([x|] & d & D); [eexists _, _; apply d_alt1; eassumption|].
        destruct (IHb Hb) as (r & d' & D'). eexists _, _. eapply d_alt2; eassumption.
      - destruct (IHa H) as ([x|] & d & D); eexists _, _; [apply d_opt|apply d_opt_not]; eassumption.
      - destruct (IHa H) as ([[t s1]|] & d & D); eexists _, _; [eapply d_ahead|eapply d_ahead_not]; eassumption.
      - destruct (IHa H) as ([[t s1]|] & d & D); [|eexists _, _; eapply d_slice_not; eassumption].
        destruct (proj1 (derives_suffix eqb g) _ _ _ _ D _ _ eq_refl) as [x Es]. rewrite Es in D |- *. eexists _, _. apply d_slice. eassumption.
      - destruct H as [Hm Ha]. apply star_total; auto. eapply good_none; eassumption.
      - destruct H as [Hm Ha]. destruct (IHa Ha) as ([[t s1]|] & d & D); [|eexists _, _; apply d_plus_not; eassumption].
        assert (Hl : length s1 < length s) by (eapply (proj1 derives_consumes); eauto). destruct (Hshort s1 Hl (Star a) (conj Hm (good_none _ _ Ha))) as (r & d' & D').
        inversion D'; subst. eexists _, _. eapply d_plus; [eapply s_cons; eassumption|discriminate|eassumption].
      - induction n as [|n IHn]; [eexists _, _; apply (@d_times I eqb g a s []), s_nil|]. destruct (IHa H) as ([[t s1]|] & d & D).
        + assert (Ht : total (Times n a) s1).
          { destruct (left D) as [Hl|[-> _]]; [|assumption]. apply Hshort; [assumption|]. cbn [good]. eapply good_none; eassumption. }
          destruct Ht as (r & d' & D'). inversion D'; subst; eexists _, _.
          * eapply (@d_times I eqb g a s (t :: ts)). eapply s_cons; eassumption.
          * eapply d_times_not; [eapply s_cons; eassumption|cbn; lia|eassumption].
        + eexists _, _. eapply d_times_not; [apply s_nil|cbn; lia|eassumption].
      - destruct H as (Hm & Ha & Hb). destruct (IHa Ha) as ([[t s1]|] & d & D); [|eexists _, _; apply d_sep_not; eassumption].
        assert (Hgood : good nul rank None (Star (Then b a))).
        { cbn [good may_empty]. rewrite andb_comm. split; [assumption|]. split; [eapply good_none; eassumption|]. destruct (may_empty nul b); eapply good_none; eassumption. }
        assert (Ht : total (Star (Then b a)) s1).
        { destruct (left D) as [Hl|[-> Hma]]; [apply Hshort; assumption|]. rewrite Hma in *. apply star_total; try apply Hgood. apply then_total; [auto|].
          intros u s2 d' D'. apply Hshort; [|eapply good_none; eassumption]. eapply (proj1 derives_consumes); eauto. }
        destruct Ht as (r & d' & D'). inversion D'; subst. eexists _, _. eapply d_sep; eassumption.
      - destruct (Hrule n H) as (r & d & D). eexists _, _. apply d_rule. eassumption.
    Qed.
  End At.

  Lemma wf_total : forall s e, good nul rank None e -> total e s.
  Proof.
    intros s. remember (length s) as m eqn:Hm. revert s Hm. induction m as [m IHm] using lt_wf_ind. intros s Hm e He.
    assert (Hs : forall s', length s' < length s -> forall e : peg I, good nul rank None e -> total e s') by (intros s' Hl e' He'; apply (IHm (length s')); auto; lia).
    assert (Hk : forall k (e : peg I), good nul rank (Some k) e -> total e s).
    { induction k as [k IHk] using lt_wf_ind. intros e' He'. apply good_total with (o := Some k); auto. intros n Hn. cbn in Hn. apply (IHk (rank n) Hn). apply Hg. }
    apply good_total with (o := None); auto. intros n _. apply (Hk (rank n)). apply Hg.
  Qed.
End Total.

(** * The parser as a function *)

Section Limit.
  Context {I : Type}.
  Variable v : bool.
  Variable eqb : I -> I -> bool.
  Variable g : nat -> peg I.
  Notation comp := (peg_parser v eqb g).
  Notation derives := (derives eqb g).
  Notation steps := (steps eqb g).

  Lemma derives_returns : forall e s r d l, derives e s r d -> exists f, comp f e (mkInput l s) <> NoFuel.
  Proof.
    intros e s r d l D. destruct (proj1 (derives_does v eqb g) _ _ _ _ D) as [f Hf]. destruct (Hf f (le_n _)) as (H1 & H2 & H3). exists f. destruct l.
    - unfold at_end in H1. destruct r as [[t s1]|]; [|destruct H1 as [(b & x & H1)|(n & H1)]]; rewrite H1; discriminate.
    - destruct (Nat.le_gt_cases d (length s)) as [Hd|Hd].
      + specialize (H2 Hd false []). rewrite app_nil_r in H2. unfold verdict in H2. destruct r as [[t s1]|]; [|destruct H2 as (b & x & H2)]; rewrite H2; discriminate.
      + destruct (H3 Hd) as (n & _ & _ & H). rewrite H. discriminate.
  Qed.

  Lemma fails_looks :
    (forall e s r d, derives e s r d -> r = None -> 1 <= d) /\ (forall a s ts s1 d, steps a s ts s1 d -> True).
  Proof.
    apply derives_steps_ind; intros; try discriminate; subst; auto; unfold seen; try (match goal with H : None = None -> _ |- _ => specialize (H eq_refl) end; lia).
    - destruct w; [|cbn; lia]. exfalso. apply (H [] s eq_refl). constructor.
  Qed.

  (** [p] is the parser of [e], whatever budget that takes. *)
  Variable e : peg I.
  Variable p : parser I (tree I) (error I).
  Hypothesis Hp : forall i, settles (fun f => comp f e i) (p i).

  Lemma limit_does : forall s r d, derives e s r d ->
    at_end r (p (mkInput true s)) /\
    (d <= length s -> forall l c, verdict l c r (p (mkInput l (s ++ c)))) /\
    (length s < d -> exists n, 1 <= n /\ length s + n <= d /\ p (mkInput false s) = Incomplete n).
  Proof.
    intros s r d D. destruct (proj1 (derives_does v eqb g) _ _ _ _ D) as [f0 Hf].
    assert (Hat : forall i, exists f, f0 <= f /\ comp f e i = p i).
    { intros i. destruct (Hp i) as (_ & f1 & H1). exists (f0 + f1). split; [lia|apply H1; lia]. }
    split; [|split].
    - destruct (Hat (mkInput true s)) as (f & Hl & <-). apply (Hf f Hl).
    - intros Hd l c. destruct (Hat (mkInput l (s ++ c))) as (f & Hl & <-). apply (Hf f Hl). assumption.
    - intros Hd. destruct (Hat (mkInput false s)) as (f & Hl & <-). apply (Hf f Hl). assumption.
  Qed.
  Lemma limit_sound : forall l s,
    match p (mkInput l s) with
    | Data j t => last j = l /\ exists d, derives e s (Some (t, buf j)) d /\ (l = false -> d <= length s)
    | Error _ _ => exists d, derives e s None d /\ (l = false -> d <= length s)
    | Incomplete _ => l = true -> exists d, derives e s None d
    | Panic => False
    | NoFuel => True
    end.
  Proof. intros l s. destruct (limit_at v eqb g e p Hp (mkInput l s) (mkInput l s)) as (f & <- & _). apply sound. Qed.
End Limit.

(** For grammars whose parsers return, there is such a function. *)
From Coq Require Import ConstructiveEpsilon.
Lemma limit_exists : forall I v eqb (g : nat -> peg I) e, (forall i, exists f, peg_parser v eqb g f e i <> NoFuel) ->
  exists p, forall i, settles (fun f => peg_parser v eqb g f e i) (p i).
Proof.
  intros I v eqb g e H.
  assert (Hdec : forall i f, {peg_parser v eqb g f e i <> NoFuel} + {~ peg_parser v eqb g f e i <> NoFuel}).
  { intros i f. destruct (peg_parser v eqb g f e i); [left; discriminate|left; discriminate|left; discriminate|left; discriminate|right; intros H'; apply H'; reflexivity]. }
  exists (fun i => peg_parser v eqb g (proj1_sig (constructive_indefinite_ground_description_nat _ (Hdec i) (H i))) e i).
  intros i. apply comp_settles. apply (proj2_sig (constructive_indefinite_ground_description_nat _ (Hdec i) (H i))).
Qed.
