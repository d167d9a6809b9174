(** Proofs for C72. *)
From Coq Require Import List Bool Arith Lia.
From Verif Require Import Base Parsers Combinators SpecBase SpecIter SpecSep BaseProofs IterProofs ManyProofs SepProofs SpecLaws SpecPeg Peg PegProofs PegTotal SpecBlame.
Import ListNotations.

Set Implicit Arguments.

Section Blame.
  Context {I : Type}.
  Variable v : bool.
  Variable eqb : I -> I -> bool.
  Variable g : nat -> peg I.
  Notation comp := (peg_parser v eqb g).
  Notation derives := (derives eqb g).
  Notation steps := (steps eqb g).
  Notation blames := (blames eqb g).
  Notation reports := (reports eqb v).

  Lemma fails_blames : forall e s r d, derives e s r d -> r = None -> exists q u, blames e s q u.
  Proof.
    intros e s r d D. revert e s r d D.
    assert (H : (forall e s r d, derives e s r d -> r = None -> exists q u, blames e s q u) /\ (forall a s ts s1 d, steps a s ts s1 d -> True)).
    { apply derives_steps_ind; intros; try discriminate; subst; auto;
        repeat match goal with H : None = None -> _ |- _ => specialize (H eq_refl); destruct H as (q & u & H) end;
        try (eexists _, _; solve [econstructor; (eassumption || (econstructor; eassumption))]). }
    exact (proj1 H).
  Qed.
  Lemma blames_fails : forall e s q u, blames e s q u -> exists d, derives e s None d.
  Proof.
    induction 1; try (match goal with IH : exists d, _ |- _ => destruct IH as [d' D'] end); try (eexists; econstructor; eassumption); eauto.
  Qed.

  (** The leaves. *)
  Lemma blames_leaf : forall e s q u, blames e s q u -> (exists d, derives q u None d) /\ (match q with Sat _ | Lit _ => True | _ => False end) /\ exists x, s = x ++ u.
  Proof.
    assert (Hst : forall a s ts s1 d, steps a s ts s1 d -> exists x, s = x ++ s1) by (intros a s ts s1 d H; exact (proj2 (derives_suffix eqb g) _ _ _ _ _ H)).
    assert (Hd : forall a s t s1 d, derives a s (Some (t, s1)) d -> exists x, s = x ++ s1) by (intros a s t s1 d H; exact (proj1 (derives_suffix eqb g) _ _ _ _ H _ _ eq_refl)).
    induction 1 as [f s d D|w s d D|a b s q u H IH|a b s t s1 d q u D H IH|a b s q u H IH|a b s t s1 d q u D H IH|a b s d q u D H IH|a s q u H IH|a s q u H IH|a s q u H IH|n a s ts s1 d q u D Hl H IH|a b s q u H IH|n s q u H IH];
      try exact IH; try (split; [eauto|split; [exact Logic.I|exists []; reflexivity]]); destruct IH as (IH1 & IH2 & x & E); (split; [exact IH1|split; [exact IH2|]]);
      [apply Hd in D|apply Hd in D|apply Hst in D]; destruct D as [y ->]; rewrite E; exists (y ++ x); rewrite app_assoc; reflexivity.
  Qed.
  Lemma leaf_reports : forall q u d f l, derives q u None d -> match q with Sat _ | Lit _ => True | _ => False end ->
    exists res, reports q u res /\ comp f q (mkInput l u) = res.
  Proof.
    intros q u d f l D Hq. destruct q; try contradiction; rewrite comp_eq.
    - inversion D; subst; unfold satisfy; cbn [buf first].
      + match goal with H : _ = false |- _ => rewrite H end. eexists. split; [apply r_sat; assumption|]. destruct v; reflexivity.
      + eexists. split; [apply r_sat_end|reflexivity].
    - destruct (string_total eqb w u) as [H|[(x & y & -> & H)|(x & y & n & -> & Hl & H)]].
      + rewrite (@string_short I v eqb w l u (length w - length u)) by lia. eexists. split; [apply r_lit_end with (n := length w - length u); lia|reflexivity].
      + exfalso. inversion D; subst; eauto. eapply H1; eauto.
      + rewrite (@string_mismatch_spec I v eqb w l x y n Hl H). eexists. split; [apply r_lit; eassumption|]. destruct v; reflexivity.
  Qed.

  (** What the whole reports is what the leaf reports. *)
  Lemma blames_same : forall e s q u, blames e s q u -> exists res f0, reports q u res /\ forall f, f0 <= f -> comp f e (mkInput true s) = res.
  Proof.
    intros e s q u H. destruct (blames_leaf H) as ((dq & Dq) & Hq & _). destruct (leaf_reports 0 true Dq Hq) as (res & Hr & Hc).
    assert (Hleaf : forall f, comp f q (mkInput true u) = res).
    { intros f. destruct q; try contradiction; rewrite comp_eq; rewrite comp_eq in Hc; exact Hc. }
    assert (Hf : (exists b x, res = Error b x) \/ (exists n, res = Incomplete n)).
    { destruct Hr as [f x w Hx|f|w x n Hn|w x y n Hl Hd]; eauto. destruct v; eauto. }
    exists res. cut (exists f0, forall f, f0 <= f -> comp f e (mkInput true s) = res). { intros [f0 H0]. exists f0. auto. } clear Dq Hc Hr.
    induction H as [f s d D|w s d D|a b s q u H IH|a b s t s1 d q u D H IH|a b s q u H IH|a b s t s1 d q u D H IH|a b s d q u D H IH|a s q u H IH|a s q u H IH|a s q u H IH|n a s ts s1 d q u D Hl H IH|a b s q u H IH|n s q u H IH];
      try (exists 0; intros; apply Hleaf); specialize (IH Hq Hleaf); destruct IH as [f1 IH].
    - exists f1. intros f Hge. rewrite comp_eq, IH by assumption. destruct Hf as [(b' & x & ->)|(k & ->)]; reflexivity.
    - destruct (proj1 (derives_does v eqb g) _ _ _ _ D) as [f2 H2]. exists (f1 + f2). intros f Hge. destruct (H2 f ltac:(lia)) as (E & _). cbn in E. rewrite comp_eq, E. cbn [bind].
      rewrite IH by lia. destruct Hf as [(b' & x & ->)|(k & ->)]; reflexivity.
    - exists f1. intros f Hge. rewrite comp_eq, IH by assumption. destruct Hf as [(b' & x & ->)|(k & ->)]; reflexivity.
    - destruct (proj1 (derives_does v eqb g) _ _ _ _ D) as [f2 H2]. exists (f1 + f2). intros f Hge. destruct (H2 f ltac:(lia)) as (E & _). cbn in E. rewrite comp_eq, E. unfold then_. cbn [bind].
      rewrite IH by lia. destruct Hf as [(b' & x & ->)|(k & ->)]; reflexivity.
    - destruct (proj1 (derives_does v eqb g) _ _ _ _ D) as [f2 H2]. exists (f1 + f2). intros f Hge. destruct (H2 f ltac:(lia)) as (E & _). cbn in E. rewrite comp_eq. unfold or_. cbn [last].
      destruct E as [(b' & x & ->)|(k & ->)]; apply IH; lia.
    - exists f1. intros f Hge. rewrite comp_eq. unfold look_ahead. rewrite IH by assumption. destruct Hf as [(b' & x & ->)|(k & ->)]; reflexivity.
    - exists f1. intros f Hge. rewrite comp_eq. unfold matched_by. rewrite IH by assumption. destruct Hf as [(b' & x & ->)|(k & ->)]; reflexivity.
    - exists (f1 + 2). intros f Hge. rewrite comp_eq. pose proof (IH f ltac:(lia)) as E. destruct Hf as [(b' & x & ->)|(k & ->)].
      + erewrite (@from_error _ _ _ _ (pure (comp f a)) f tt _ [] tt); [|constructor|exact E|cbn; lia]. reflexivity.
      + erewrite (@from_incomplete _ _ _ _ (pure (comp f a)) f tt _ [] tt); [|constructor|exact E|cbn; lia]. reflexivity.
    - destruct (proj2 (derives_does v eqb g) _ _ _ _ _ D) as [f2 H2]. exists (f1 + f2 + length ts + 2). intros f Hge. destruct (H2 f ltac:(lia)) as (Hi & _).
      rewrite comp_eq. pose proof (IH f ltac:(lia)) as E. destruct Hf as [(b' & x & ->)|(k & ->)].
      + erewrite exact_error; [|exact Hi|exact Hl|exact E|lia]. reflexivity.
      + erewrite exact_incomplete; [|exact Hi|exact Hl|exact E|lia]. reflexivity.
    - exists (f1 + 2). intros f Hge. pose proof (IH f ltac:(lia)) as E. assert (Hfu : exists k, f = S (S k)) by (exists (f - 2); lia). destruct Hfu as (k & Hk).
      rewrite comp_eq. rewrite Hk at 1. rewrite sep_by1_char. unfold first_then, pure at 1. rewrite E. destruct Hf as [(b' & x & ->)|(k' & ->)]; reflexivity.
    - exists (S f1). intros f Hge. destruct f as [|f]; [lia|]. rewrite comp_eq. apply IH. lia.
  Qed.
End Blame.

Section Unique.
  Context {I : Type}.
  Variable eqb : I -> I -> bool.
  Variable g : nat -> peg I.
  Notation derives := (derives eqb g).
  Notation steps := (steps eqb g).
  Notation blames := (blames eqb g).

  Lemma blames_not : forall a s q u t s1 d, blames a s q u -> derives a s (Some (t, s1)) d -> False.
  Proof. intros a s q u t s1 d H D. destruct (blames_fails H) as [d' D']. pose proof (derives_one_result D D'). discriminate. Qed.

  Lemma blames_unique : forall e s q u, blames e s q u -> forall q' u', blames e s q' u' -> q = q' /\ u = u'.
  Proof.
    induction 1 as [f s d D|w s d D|a b s q u H IH|a b s t s1 d q u D H IH|a b s q u H IH|a b s t s1 d q u D H IH|a b s d q u D H IH|a s q u H IH|a s q u H IH|a s q u H IH|n a s ts s1 d q u D Hl H IH|a b s q u H IH|n s q u H IH];
      intros q' u' H'; inversion H'; subst; auto; try (exfalso; match goal with B : SpecBlame.blames _ _ ?a ?s _ _, D : SpecPeg.derives _ _ ?a ?s (Some _) _ |- _ => exact (blames_not B D) end);
      try (match goal with D : SpecPeg.derives _ _ ?a ?s (Some _) _, D' : SpecPeg.derives _ _ ?a ?s (Some _) _ |- _ =>
             let E := fresh in pose proof (derives_one_result D D') as E; inversion E; subst; clear E end; auto).
    match goal with D' : SpecPeg.steps _ _ a s _ _ _, K : SpecBlame.blames _ _ a _ q' u' |- _ =>
      destruct (blames_fails H) as [dd DD]; destruct (blames_fails K) as [dd' DD']; destruct (steps_same D DD D' DD') as [-> ->]; auto end.
  Qed.
End Unique.

Lemma reports_comp : forall I v eqb (g : nat -> peg I) q u res l f, reports eqb v q u res -> peg_parser v eqb g f q (mkInput l u) = res.
Proof.
  intros I v eqb g q u res l f H. destruct H as [h x u Hx|h|w u n Hn H1|w x y n Hl Hd]; rewrite comp_eq.
  - unfold satisfy. cbn [buf first]. rewrite Hx. destruct v; reflexivity.
  - reflexivity.
  - rewrite (string_short v eqb w l u Hn H1). reflexivity.
  - rewrite (@string_mismatch_spec I v eqb w l x y n Hl Hd). destruct v; reflexivity.
Qed.
