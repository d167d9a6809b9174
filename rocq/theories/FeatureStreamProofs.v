(** Proofs about programs with [string] that stop after an error (C46). *)
From Coq Require Import List Bool Arith Lia.
From Verif Require Import Base Parsers Combinators Buffer Stream SpecBase SpecSafe SpecBuffer SpecStream SpecFeature SafeProofs StreamProofs SimProofs FeatureProofs.
Import ListNotations.

Set Implicit Arguments.


Lemma agree_honest : forall I T E strings (p q : parser I T E), (forall i, agree (place strings) (p i) (q i)) -> well_behaved p -> well_behaved q.
Proof.
  intros I T E strings p q Ha Hw i. specialize (Ha i). specialize (Hw i).
  destruct (p i) as [j v|b e|n| |], (q i) as [j' v'|b' e'|n'| |]; cbn [agree honest] in *; try contradiction; auto.
  - destruct Ha as [<- _]. exact Hw.
  - destruct strings; cbn [place] in Ha; [|subst; exact Hw]. destruct Ha as [x ->], Hw as [y Hw]. exists (y ++ x). rewrite <- app_assoc. exact Hw.
  - subst. exact Hw.
Qed.

Section Stopping.
  Context {I T E : Type}.

  (** The outcomes of a call in the two builds, [ok] holding of the state after it. *)
  Definition call_stops {X} (strings : bool) (ok : X -> Prop) (a b : run (X * sres I T E)) : Prop :=
    match a, b with
    | Done (s1, r1), Done (s2, r2) => (s1 = s2 /\ same_answer r1 r2 /\ (strings = false \/ no_parse_error r1) /\ ok s1) \/
        (strings = true /\ exists u w, parse_error_result r1 u /\ parse_error_result r2 w)
    | Panicked, Panicked => True
    | Undefined, Undefined => True
    | Stuck, Stuck => True
    | _, _ => False
    end.

  Lemma stops_slice_parse : forall strings (p q : parser I T E), (forall i, agree (place strings) (p i) (q i)) -> well_behaved p ->
    forall s, ss_pos s <= length (ss_slice s) -> call_stops strings (fun s => ss_pos s <= length (ss_slice s)) (slice_parse p s) (slice_parse q s).
  Proof.
    intros strings p q Ha Hw s Hs. pose proof (@agree_honest _ _ _ strings p q Ha Hw) as Hw'.
    destruct (slice_parse_spec s Hs Hw) as [[H1 H2]|[H1 H2]], (slice_parse_spec s Hs Hw') as [[G1 G2]|[G1 G2]]; try contradiction.
    { rewrite H2, G2. left. split; [reflexivity|]. split; [exact Logic.I|]. split; [right; intros b e K; discriminate|assumption]. }
    pose proof (Ha (mkInput true (rest_of s))) as Hi.
    destruct H2 as [[H2 H3]|[[H2 H3]|(s1 & r1 & H2 & H3 & H4 & H5)]], G2 as [[G2 G3]|[[G2 G3]|(s2 & r2 & G2 & G3 & G4 & G5)]];
      try (rewrite H3, G3; exact Logic.I);
      try (rewrite H2 in Hi; destruct (q _) eqn:Eq; cbn [agree] in Hi; try contradiction; try discriminate; cbn [whole] in G5; contradiction);
      try (rewrite G2 in Hi; destruct (p _) eqn:Ep; cbn [agree] in Hi; try contradiction; try discriminate; cbn [whole] in H5; contradiction);
      try (rewrite H2, G2 in Hi; contradiction).
    pose proof (@slice_parse_agree _ _ _ p q strings s _ _ _ _ Ha H2 G2) as [[K1 K2]|(K1 & u & w & K2 & K3 & _)]; cbn [fst snd] in *.
    2: { rewrite H2, G2. right. split; [assumption|]. exists u, w. auto. }
    rewrite H2, G2. destruct strings; [|left; auto].
    destruct r1 as [t|[b e|n|n| |]]; try (left; split; [assumption|]; split; [assumption|]; split; [right; intros ? ? K; discriminate|assumption]).
    destruct r2 as [t|[b' e'|n|n| |]]; cbn [same_answer] in K2; try contradiction. right. split; [reflexivity|]. exists b, b'. split; eexists; reflexivity.
  Qed.

  Lemma on_slice_stops : forall c1 c2 : script I T E, script_stops c1 c2 -> forall s, ss_pos s <= length (ss_slice s) ->
    same_run (Forall2 same_answer) (on_slice c1 s) (on_slice c2 s).
  Proof.
    induction 1 as [|strings p k1 k2 Hp Hw Hk IH Hst]; intros s Hs; simpl; [constructor|].
    pose proof (@stops_slice_parse strings (p true) (p false) (text_agree Hp) Hw s Hs) as H.
    destruct (slice_parse (p true) s) as [[s1 r1]| | |], (slice_parse (p false) s) as [[s2 r2]| | |]; simpl in *; try contradiction; auto.
    destruct H as [(<- & H1 & H2 & H3)|(H1 & u & w & [e1 ->] & [e2 ->])].
    - assert (H4 : strings = false \/ no_parse_error (forget r1)).
      { destruct H2 as [H2|H2]; [left; exact H2|right]. destruct r1 as [t|[b e|n|n| |]]; intros b' e' K; try discriminate. exact (H2 _ _ eq_refl). }
      apply same_answer_forget in H1. specialize (IH _ _ H1 H4 s1 H3). destruct (on_slice (k1 _) s1), (on_slice (k2 _) s1); simpl in *; try contradiction; auto.
    - cbn [forget]. destruct (Hst H1 e1 e2) as [-> ->]. cbn. constructor; [reflexivity|constructor].
  Qed.

  Context {St B : Type}.
  Variable ds : data_source St I.
  Variables (ops : buffer_ops I B) (inv : B -> Prop) (view : B -> list I) (room : B -> nat) (fits : nat -> Prop).
  Hypothesis Q : queue_like ops inv view room fits.
  Hypothesis Ho : obeys ds.

  Lemma stops_src_parse : forall strings (p q : parser I T E), (forall i, agree (place strings) (p i) (q i)) -> well_behaved p ->
    forall st, inv (src_buffer st) -> call_stops strings (fun st => inv (src_buffer st)) (src_parse ds ops p st) (src_parse ds ops q st).
  Proof.
    intros strings p q Ha Hw st Hi. pose proof (@agree_honest _ _ _ strings p q Ha Hw) as Hw'.
    destruct (src_parse_spec Q Ho st Hi Hw) as [(st1 & x & H1 & H2 & H3 & H4)|(st1 & H1 & H2)],
      (src_parse_spec Q Ho st Hi Hw') as [(st2 & y & G1 & G2 & G3 & G4)|(st2 & G1 & G2)].
    - rewrite H3 in G3. inversion G3; subst st2 y. rewrite H4, G4. left. split; [reflexivity|]. split; [reflexivity|]. split; [right; intros b e K; discriminate|].
      destruct (src_fill_spec Q Ho st Hi) as (st2 & r & new & k & en & K1 & _ & K3 & _). rewrite H3 in K1. inversion K1; subst st2. exact K3.
    - exfalso. rewrite H1, H2 in G1. cbn [andb] in G1. destruct G1 as [m G1]. congruence.
    - exfalso. rewrite G1, G2 in H1. cbn [andb] in H1. destruct H1 as [m H1]. congruence.
    - assert (st2 = st1) as -> by (destruct (src_incomplete st && src_auto st); [destruct H1 as [m H1], G1 as [m' G1]; congruence|congruence]).
      assert (Hi1 : inv (src_buffer st1)).
      { destruct (src_incomplete st && src_auto st); [|congruence]. destruct H1 as [m H1].
        destruct (src_fill_spec Q Ho st Hi) as (st2 & r & new & k & en & K1 & _ & K3 & _). rewrite H1 in K1. inversion K1; subst st2. exact K3. }
      cbn zeta in *. set (data := view (src_buffer st1)) in *.
      destruct H2 as [(H2 & H3 & H4)|[H2 H3]], G2 as [(G2 & G3 & G4)|[G2 G3]].
      + rewrite H4, G4. left. split; [reflexivity|]. split; [exact Logic.I|]. split; [right; intros b e K; discriminate|assumption].
      + exfalso. destruct G2; congruence.
      + exfalso. destruct H2; congruence.
      + pose proof (Ha (mkInput (src_eoi st1) data)) as Hag.
        destruct H3 as [[H3 H4]|[[H3 H4]|(s1 & r1 & H3 & H4 & H5 & H6 & H7 & H8)]], G3 as [[G3 G4]|[[G3 G4]|(s2 & r2 & G3 & G4 & G5 & G6 & G7 & G8)]];
          try (rewrite H4, G4; exact Logic.I);
          try (rewrite H3 in Hag; destruct (q _) eqn:Eq; cbn [agree] in Hag; try contradiction; try discriminate; cbn [answer] in G8; contradiction);
          try (rewrite G3 in Hag; destruct (p _) eqn:Ep; cbn [agree] in Hag; try contradiction; try discriminate; cbn [answer] in H8; contradiction);
          try (rewrite H3, G3 in Hag; contradiction).
        pose proof (@src_parse_agree _ _ _ p q _ _ ds ops strings st _ _ _ _ Ha H3 G3) as [[K1 K2]|(K1 & u & w & K2 & K3 & _)]; cbn [fst snd] in *.
        2: { rewrite H3, G3. right. split; [assumption|]. exists u, w. auto. }
        rewrite H3, G3. destruct strings; [|left; auto].
        destruct r1 as [t|[b e|n|n| |]]; try (left; split; [assumption|]; split; [assumption|]; split; [right; intros ? ? K; discriminate|assumption]).
        destruct r2 as [t|[b' e'|n|n| |]]; cbn [same_answer] in K2; try contradiction. right. split; [reflexivity|]. exists b, b'. split; eexists; reflexivity.
  Qed.

  Lemma stops_insist : forall strings (p q : parser I T E), (forall i, agree (place strings) (p i) (q i)) -> well_behaved p ->
    forall fuel st, inv (src_buffer st) -> call_stops strings (fun st => inv (src_buffer st)) (insist ds ops fuel p st) (insist ds ops fuel q st).
  Proof.
    intros strings p q Ha Hw. induction fuel as [|fuel IH]; intros st Hi; cbn [insist]; [exact Logic.I|].
    pose proof (@stops_src_parse strings p q Ha Hw st Hi) as H.
    destruct (src_parse ds ops p st) as [[s1 r1]| | |], (src_parse ds ops q st) as [[s2 r2]| | |]; cbn [call_stops run_bind] in *; try contradiction; auto.
    destruct H as [(<- & H1 & H2 & H3)|(H1 & u & w & [e1 ->] & [e2 ->])].
    - destruct r1 as [t|[b e|n|n| |]], r2 as [t'|[b' e'|n'|n'| |]]; cbn [same_answer] in H1; try contradiction; auto; left; cbn [same_answer]; auto.
    - right. split; [assumption|]. exists u, w. split; eexists; reflexivity.
  Qed.

  Lemma on_source_stops : forall fuel (c1 c2 : script I T E), script_stops c1 c2 -> forall st, inv (src_buffer st) ->
    same_run (Forall2 same_answer) (on_source ds ops fuel c1 st) (on_source ds ops fuel c2 st).
  Proof.
    intros fuel. induction 1 as [|strings p k1 k2 Hp Hw Hk IH Hst]; intros st Hi; simpl; [constructor|].
    pose proof (@stops_insist strings (p true) (p false) (text_agree Hp) Hw fuel st Hi) as H.
    destruct (insist ds ops fuel (p true) st) as [[s1 r1]| | |], (insist ds ops fuel (p false) st) as [[s2 r2]| | |]; simpl in *; try contradiction; auto.
    destruct H as [(<- & H1 & H2 & H3)|(H1 & u & w & [e1 ->] & [e2 ->])].
    - assert (H4 : strings = false \/ no_parse_error (forget r1)).
      { destruct H2 as [H2|H2]; [left; exact H2|right]. destruct r1 as [t|[b e|n|n| |]]; intros b' e' K; try discriminate. exact (H2 _ _ eq_refl). }
      apply same_answer_forget in H1. specialize (IH _ _ H1 H4 s1 H3). destruct (on_source ds ops fuel (k1 _) s1), (on_source ds ops fuel (k2 _) s1); simpl in *; try contradiction; auto.
    - cbn [forget]. destruct (Hst H1 e1 e2) as [-> ->]. cbn. constructor; [reflexivity|constructor].
  Qed.
End Stopping.
