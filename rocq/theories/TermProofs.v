(** Fuel monotonicity, numbers of applications, divergence. *)
From Coq Require Import List Bool Arith Lia.
From Verif Require Import Base Parsers Combinators SpecIter SpecCollect SpecSep IterProofs ManyProofs CollectProofs SkipProofs SepProofs.
Import ListNotations.

Set Implicit Arguments.

(** ** More fuel changes nothing *)

Lemma from_iter_mono : forall It U T C (next : It -> step It U) hint (act : C -> caction U T C) fuel k c it,
  from_iter fuel next hint act c it <> FNoFuel ->
  from_iter (fuel + k) next hint act c it = from_iter fuel next hint act c it.
Proof.
  induction fuel as [|fuel IH]; intros k c it H; [exfalso; apply H; reflexivity|]. simpl in *.
  destruct (act c); auto. destruct (next it); auto.
Qed.

Lemma run_iter_mono : forall S I U T E D C fuel k (col : collector U T C) i s0 (p : sparser S I U E) (d : D) hint pre on fin,
  run_iter fuel col i s0 p d hint pre on fin <> NoFuel ->
  run_iter (fuel + k) col i s0 p d hint pre on fin = run_iter fuel col i s0 p d hint pre on fin.
Proof.
  intros S I U T E D C fuel k col i s0 p d hint pre on fin H. unfold run_iter in *.
  destruct (from_iter fuel (iter_next p pre on) _ _ _ _) as [t it| |] eqn:Hf; try congruence;
  rewrite from_iter_mono, Hf; try reflexivity; rewrite Hf; discriminate.
Qed.

Lemma run_till_mono : forall S SE I U T E D C fuel k (col : collector U T C) i s0 (e0 : SE) (p : sparser S I U E) (d : D) hint pre on fin,
  run_iter_till fuel col i s0 e0 p d hint pre on fin <> NoFuel ->
  run_iter_till (fuel + k) col i s0 e0 p d hint pre on fin = run_iter_till fuel col i s0 e0 p d hint pre on fin.
Proof.
  intros S SE I U T E D C fuel k col i s0 e0 p d hint pre on fin H. unfold run_iter_till in *.
  destruct (from_iter fuel (iter_till_next p pre on) _ _ _ _) as [t it| |] eqn:Hf; try congruence;
  rewrite from_iter_mono, Hf; try reflexivity; rewrite Hf; discriminate.
Qed.

Lemma bmany_mono : forall S I U T E C fuel fuel' (col : collector U T C) r s0 (p : sparser S I U E) i,
  bmany fuel col r s0 p i <> NoFuel -> fuel <= fuel' -> bmany fuel' col r s0 p i = bmany fuel col r s0 p i.
Proof.
  intros S I U T E C fuel fuel' col r s0 p i H Hle. replace fuel' with (fuel + (fuel' - fuel)) by lia.
  destruct r as [a b|a| |b|n]; cbn [bmany] in *; try (apply run_iter_mono; exact H).
  unfold parse_many_range in *. destruct (negb (a <=? b)); auto. apply run_iter_mono. exact H.
Qed.

Lemma bmany_till_mono : forall S SE I U V T E N C fuel fuel' (col : collector U T C) r s0 e0 (p : sparser S I U E) (end_ : sparser SE I V N) i,
  bmany_till fuel col r s0 e0 p end_ i <> NoFuel -> fuel <= fuel' ->
  bmany_till fuel' col r s0 e0 p end_ i = bmany_till fuel col r s0 e0 p end_ i.
Proof.
  intros S SE I U V T E N C fuel fuel' col r s0 e0 p end_ i H Hle. replace fuel' with (fuel + (fuel' - fuel)) by lia.
  destruct r as [a b|a| |b|n]; cbn [bmany_till] in *; try (apply run_till_mono; exact H).
  unfold many_till_range in *. destruct (negb (a <=? b)); auto. apply run_till_mono. exact H.
Qed.

Lemma bskip_mono : forall S I T E fuel fuel' r s0 (p : sparser S I T E) i,
  bskip_many fuel r s0 p i <> NoFuel -> fuel <= fuel' -> bskip_many fuel' r s0 p i = bskip_many fuel r s0 p i.
Proof.
  intros S I T E fuel fuel' r s0 p i H Hle. replace fuel' with (fuel + (fuel' - fuel)) by lia. remember (fuel' - fuel) as k. clear Heqk Hle fuel'.
  destruct r as [a b|a| |b|n]; cbn [bskip_many] in *.
  - unfold skip_many_range in *. destruct (negb (a <=? b)); auto. revert H. generalize a (Nat.max b 1 - 1) s0 i.
    induction fuel as [|fuel IH]; intros a0 b0 s j H; [exfalso; apply H; reflexivity|]. cbn [skip_loop_range Nat.add] in *.
    destruct (b0 =? 0); auto. destruct (p s j) as [[? ?|? ?|?| |] ?]; auto.
  - revert H. generalize a s0 i. induction fuel as [|fuel IH]; intros a0 s j H; [exfalso; apply H; reflexivity|]. cbn [skip_many_from Nat.add] in *.
    destruct (p s j) as [[? ?|? ?|?| |] ?]; auto.
  - revert H. generalize s0 i. induction fuel as [|fuel IH]; intros s j H; [exfalso; apply H; reflexivity|]. cbn [skip_many_full Nat.add] in *.
    destruct (p s j) as [[? ?|? ?|?| |] ?]; auto.
  - unfold skip_many_to in *. revert H. generalize (Nat.max b 1 - 1) s0 i.
    induction fuel as [|fuel IH]; intros b0 s j H; [exfalso; apply H; reflexivity|]. cbn [skip_loop_to Nat.add] in *.
    destruct (b0 =? 0); auto. destruct (p s j) as [[? ?|? ?|?| |] ?]; auto.
  - revert H. generalize n s0 i. induction fuel as [|fuel IH]; intros b0 s j H; [exfalso; apply H; reflexivity|]. cbn [skip_many_exact Nat.add] in *.
    destruct (b0 =? 0); auto. destruct (p s j) as [[? ?|? ?|?| |] ?]; auto.
Qed.

(** ** Numbers of applications *)

Section Limited.
  Context {S I U E : Type}.
  Variable p : sparser S I U E.
  Variable k : nat.
  Variable alt : S -> input I -> pres I U E.

  Lemma run_iter_limited : forall D (hint : D -> nat * option nat) pre on fin (rank : iter S I E D -> nat) fuel i s0 d0,
    (forall it, pre (it_data it) = false -> 1 <= rank it) ->
    (forall a u a', iter_next p pre on a = Yield u a' -> Datatypes.S (rank a') <= rank a) ->
    rank (mkIter (ESIncomplete 1) s0 i d0) <= k ->
    run_iter fuel (vec_collector U) i (0, s0) (limited k p alt) d0 hint pre on fin =
    run_iter fuel (vec_collector U) i s0 p d0 hint pre on fin.
  Proof.
    intros D hint pre on fin rank fuel i s0 d0 H1 H2 H0. unfold run_iter. cbn [cinit vec_collector].
    pose (R' := fun (a : iter (nat * S) I E D) (b : iter S I E D) => it_state a = it_state b /\ it_buf a = it_buf b /\ it_data a = it_data b).
    pose (R := fun (a : iter (nat * S) I E D) (b : iter S I E D) => R' a b /\ snd (it_ps a) = it_ps b /\ fst (it_ps a) + rank b <= k).
    pose proof (@vec_sim _ _ _ (iter_next (limited k p alt) pre on) (iter_next p pre on)
      (fun it : iter (nat * S) I E D => hint (it_data it)) (fun it : iter S I E D => hint (it_data it)) R R') as H.
    assert (Hs : forall a b, R a b ->
      match iter_next (limited k p alt) pre on a, iter_next p pre on b with
      | Yield u a', Yield v b' => u = v /\ R a' b'
      | Stop a', Stop b' => R' a' b'
      | StepPanic, StepPanic => True
      | StepNoFuel, StepNoFuel => True
      | _, _ => False
      end).
    { intros [sa [n s] ja da] [sb s' jb db] [[Hx [Hy Hz]] [Hw Hn]]. simpl in *. subst.
      pose proof (H2 (mkIter sb s' jb db)) as Hr. pose proof (H1 (mkIter sb s' jb db)) as Hr1. unfold iter_next in *.
      cbn [it_data it_state it_ps it_buf] in *. destruct (pre db); [unfold R'; simpl; auto|].
      unfold limited. cbn [fst snd]. specialize (Hr1 eq_refl). destruct (Nat.ltb_spec n k); [|lia].
      destruct (p s' jb) as [[j u|b e|m| |] s2]; cbn [fst snd]; auto; try (unfold R'; simpl; auto; fail).
      specialize (Hr _ _ eq_refl). unfold R, R'. simpl. repeat split; auto. lia. }
    specialize (H Hs fuel [] [] (mkIter (ESIncomplete 1) (0, s0) i d0) (mkIter (ESIncomplete 1) s0 i d0)).
    cbn [app] in H. specialize (H ltac:(unfold R, R'; simpl; auto)).
    destruct (from_iter fuel (iter_next (limited k p alt) pre on) _ _ _ _) as [t it| |];
    destruct (from_iter fuel (iter_next p pre on) _ _ _ _) as [t' it'| |]; try contradiction; auto.
    destruct H as [-> [Hx [Hy Hz]]]. rewrite Hx, Hy, Hz. reflexivity.
  Qed.

  Lemma bmany_limited : forall r fuel s0 i,
    (consuming p /\ length (buf i) + 1 <= k) \/ (exists m, max_count r = Some m /\ m <= k) ->
    bmany fuel (vec_collector U) r (0, s0) (limited k p alt) i = bmany fuel (vec_collector U) r s0 p i.
  Proof.
    intros r fuel s0 i [[Hc Hk]|[m [Hm Hk]]].
    - assert (Hcm : forall D pre (on : D -> D) a u a', iter_next p pre on a = Yield u a' ->
        Datatypes.S (length (buf (it_buf a')) + 1) <= length (buf (it_buf a)) + 1).
      { intros D pre on a u a' H. apply (consuming_measure Hc) in H. lia. }
      destruct r as [a b|a| |b|n]; cbn [bmany]; [unfold parse_many_range; destruct (negb (a <=? b)); [reflexivity|]| | | |];
        (eapply run_iter_limited with (rank := fun it => length (buf (it_buf it)) + 1); [intros; lia|apply Hcm|exact Hk]).
    - destruct r as [a b|a| |b|n]; cbn [bmany max_count] in *; inversion Hm; subst; clear Hm.
      + unfold parse_many_range. destruct (negb (a <=? b)); [reflexivity|].
        eapply run_iter_limited with (rank := fun it => snd (it_data it)); [| |simpl; lia].
        * intros it H. apply Nat.eqb_neq in H. lia.
        * intros [st s j [d1 d2]] u a' Hx. apply iter_next_yield in Hx. simpl in Hx. destruct Hx as [H1 ->]. apply Nat.eqb_neq in H1. simpl. lia.
      + eapply run_iter_limited with (rank := fun it => it_data it); [| |simpl; lia].
        * intros it H. apply Nat.eqb_neq in H. lia.
        * intros [st s j d] u a' Hx. apply iter_next_yield in Hx. simpl in Hx. destruct Hx as [H1 ->]. apply Nat.eqb_neq in H1. simpl. lia.
      + eapply run_iter_limited with (rank := fun it => it_data it); [| |simpl; lia].
        * intros it H. apply Nat.eqb_neq in H. lia.
        * intros [st s j d] u a' Hx. apply iter_next_yield in Hx. simpl in Hx. destruct Hx as [H1 ->]. apply Nat.eqb_neq in H1. simpl. lia.
  Qed.
End Limited.

(** ** Divergence *)

Section Endless.
  Context {It U : Type}.
  Variable next : It -> step It U.
  Variable hint : It -> nat * option nat.
  Variable P : It -> Prop.
  Hypothesis HP : forall a, P a -> exists u a', next a = Yield u a' /\ P a'.

  Lemma vec_endless : forall fuel acc a, P a -> from_iter fuel next hint (cact (vec_collector U)) (false, acc) a = FNoFuel.
  Proof.
    induction fuel as [|fuel IH]; intros acc a Ha; auto. cbn [from_iter cact vec_collector].
    destruct (HP Ha) as (u & a' & -> & Ha'). apply IH. assumption.
  Qed.
End Endless.

Lemma bmany_endless : forall S I U E (p : sparser S I U E) s0 i r fuel, max_count r = None -> endless p s0 i ->
  bmany fuel (vec_collector U) r s0 p i = NoFuel.
Proof.
  intros S I U E p s0 i r fuel Hr (P & H0 & HP).
  assert (Hn : forall D (on : D -> D) (a : iter S I E D), P (it_ps a) (it_buf a) ->
    exists u a', iter_next p (fun _ => false) on a = Yield u a' /\ P (it_ps a') (it_buf a')).
  { intros D on a Ha. destruct (HP _ _ Ha) as (j & u & s' & Hp & Hs). unfold iter_next. rewrite Hp.
    do 2 eexists. split; [reflexivity|]. exact Hs. }
  destruct r as [a b|a| |b|n]; try discriminate; cbn [bmany].
  - unfold parse_many_from, run_iter. cbn [cinit vec_collector].
    rewrite (@vec_endless _ _ (iter_next p (fun _ => false) dec0) _ (fun it => P (it_ps it) (it_buf it)) (Hn _ _)); auto.
  - unfold parse_many_full, run_iter. cbn [cinit vec_collector].
    rewrite (@vec_endless _ _ (iter_next p (fun _ => false) (fun d => d)) _ (fun it => P (it_ps it) (it_buf it)) (Hn _ _)); auto.
Qed.

Lemma bskip_endless : forall S I U E (p : sparser S I U E) s0 i r fuel, max_count r = None -> endless p s0 i ->
  bskip_many fuel r s0 p i = NoFuel.
Proof.
  intros S I U E p s0 i r fuel Hr He.
  assert (Ha : skip_agrees r p) by (destruct r; try discriminate; exact Logic.I).
  destruct (@skip_many_lockstep _ _ _ _ p r Ha fuel s0 i) as [H _]. rewrite (@bmany_endless _ _ _ _ p s0 i r (Datatypes.S fuel) Hr He) in H.
  destruct (bskip_many fuel r s0 p i); auto; exfalso; discriminate H; discriminate.
Qed.

Lemma bmany_till_endless : forall S I U V E N (p : sparser S I U E) (end_ : parser I V N) s0 i r fuel,
  max_count r = None -> endless_till p end_ s0 i ->
  bmany_till fuel (vec_collector U) r s0 tt p (pure end_) i = NoFuel.
Proof.
  intros S I U V E N p end_ s0 i r fuel Hr (P & H0 & HP).
  assert (He : forall D (it : iter_till S unit I E D), P (tt_ps it) (tt_buf it) ->
    end_test (pure end_) it = PreGo (mkIterTill (tt_state it) (tt_ps it) tt (tt_buf it) (tt_data it))).
  { intros D it Hit. destruct (HP _ _ Hit) as [_ [(b & e & H)|(n & H)]]; unfold end_test, pure; rewrite H; reflexivity. }
  assert (Hn : forall D pre (on : D -> D) (a : iter_till S unit I E D),
    (forall it, P (tt_ps it) (tt_buf it) -> exists it', pre it = PreGo it' /\ tt_ps it' = tt_ps it /\ tt_buf it' = tt_buf it) ->
    P (tt_ps a) (tt_buf a) ->
    exists u a', iter_till_next p pre on a = Yield u a' /\ P (tt_ps a') (tt_buf a')).
  { intros D pre on a Hpre Ha. destruct (HP _ _ Ha) as [(j & u & s' & Hp & Hs) _]. unfold iter_till_next.
    destruct (Hpre _ Ha) as (it' & -> & -> & ->). rewrite Hp. do 2 eexists. split; [reflexivity|]. exact Hs. }
  destruct r as [a b|a| |b|n]; try discriminate; cbn [bmany_till].
  - unfold many_till_from, run_iter_till. cbn [cinit vec_collector].
    erewrite (@vec_endless _ _ _ _ (fun it => P (tt_ps it) (tt_buf it))); auto.
    intros it Hit. apply Hn; auto. intros it0 Hit0. destruct (tt_data it0 =? 0).
    + rewrite He by assumption. eexists. repeat split.
    + eexists. repeat split.
  - unfold many_till_full, run_iter_till. cbn [cinit vec_collector].
    erewrite (@vec_endless _ _ _ _ (fun it => P (tt_ps it) (tt_buf it))); auto.
    intros it Hit. apply Hn; auto. intros it0 Hit0. rewrite He by assumption. eexists. repeat split.
Qed.

(** ** [sep_by]'s closure consumes when [p] does *)

Lemma sep_item_consuming : forall SP SS I U V E N (conv : N -> E) (p : sparser SP I U E) (sep : sparser SS I V N),
  consuming p -> shrinking sep -> consuming (sep_item conv p sep).
Proof.
  intros SP SS I U V E N conv p sep Hp Hs [[item sp] ss] i j u s' H. destruct item.
  - rewrite sep_item_later in H. unfold sep_then in H. cbn [fst snd] in H.
    destruct (sep ss i) as [[j' v|b e|n| |] ss'] eqn:Hsep; try (inversion H; fail).
    apply Hs in Hsep. destruct (p sp j') as [[j2 v2|b e|n| |] sp'] eqn:Hpp; try (inversion H; fail).
    cbn [fst snd] in H. inversion H; subst. apply Hp in Hpp. lia.
  - rewrite sep_item_first in H. destruct (p sp i) as [[j2 v2|b e|n| |] sp'] eqn:Hpp; inversion H; subst. apply Hp in Hpp. exact Hpp.
Qed.

Lemma sep_item_returns : forall SP SS I U V E N (conv : N -> E) (p : sparser SP I U E) (sep : sparser SS I V N),
  returns p -> returns sep -> returns (sep_item conv p sep).
Proof.
  intros SP SS I U V E N conv p sep Hp Hs [[item sp] ss] i s' H. destruct item.
  - rewrite sep_item_later in H. unfold sep_then in H. cbn [fst snd] in H.
    destruct (sep ss i) as [[j' v|b e|n| |] ss'] eqn:Hsep; try (inversion H; fail).
    + destruct (p sp j') as [[j2 v2|b e|n| |] sp'] eqn:Hpp; try (inversion H; fail). eapply Hp; eauto.
    + eapply Hs; eauto.
  - rewrite sep_item_first in H. destruct (p sp i) as [[j2 v2|b e|n| |] sp'] eqn:Hpp; inversion H. eapply Hp; eauto.
Qed.

Lemma sep_terminates : forall SP SS I U V E N (conv : N -> E) (p : sparser SP I U E) (sep : sparser SS I V N),
  consuming p -> shrinking sep -> returns p -> returns sep -> forall fuel sp ss i, length (buf i) + 2 <= fuel ->
  sep_by fuel (vec_collector U) conv sp ss p sep i <> NoFuel /\ sep_by1 fuel (vec_collector U) conv sp ss p sep i <> NoFuel.
Proof.
  intros SP SS I U V E N conv p sep H1 H2 H3 H4 fuel sp ss i Hf.
  split; apply bmany_terminates; auto using sep_item_consuming, sep_item_returns.
Qed.
