(** A law which all combinators keep: whatever set of inputs (and of remainders of errors) the user's parsers stay in, provided the world
    is in some condition which they restore, the combinators stay in.  Used in ClientProofs.v. *)
From Coq Require Import List Bool Arith Lia.
From Verif Require Import Base Parsers Combinators Buffer Stream Effects.
Import ListNotations.

Set Implicit Arguments.

Section Law.
  Context {W I : Type}.
  Variable ok : W -> Prop.
  Variable okp : W -> Prop.
  Hypothesis Hokp : forall w, ok w -> okp w.
  Variable P : input I -> Prop.
  Variable PE : list I -> Prop.

  Definition keeps {T E} (x : pres I T E * W) : Prop :=
    match fst x with
    | Data j _ => P j /\ ok (snd x)
    | Error b _ => PE b /\ ok (snd x)
    | Incomplete n => 1 <= n /\ ok (snd x)
    | Panic | NoFuel => okp (snd x)
    end.
  Definition respects {T E} (p : sparser W I T E) : Prop := forall w i, ok w -> P i -> keeps (p w i).
  Definition restores {A B} (f : callback W A B) : Prop := forall a w, ok w -> ok (snd (f a w)).

  Ltac step H := unfold keeps in *; match type of H with context [fst ?x] => destruct x as [[?j ?v|?b ?e|?n| |] ?w] end; cbn in *; auto.

  Lemma respects_option : forall T E (f : sparser W I T E) d, respects f -> respects (option_w f d).
  Proof. intros T E f d Hf w i Hw Hi. specialize (Hf w i Hw Hi). unfold option_w. step Hf; try (split; tauto). destruct (last i); split; tauto. Qed.

  Lemma respects_or : forall T E (f g : sparser W I T E), respects f -> respects g -> respects (or_w f g).
  Proof.
    intros T E f g Hf Hg w i Hw Hi. specialize (Hf w i Hw Hi). unfold or_w. step Hf.
    - destruct Hf as [_ H]. exact (Hg _ _ H Hi).
    - destruct Hf as [Hn H]. destruct (last i); [exact (Hg _ _ H Hi)|split; assumption].
  Qed.

  Lemma respects_matched_by : forall T E (f : sparser W I T E), respects f -> respects (matched_by_w f).
  Proof.
    intros T E f Hf w i Hw Hi. specialize (Hf w i Hw Hi). unfold matched_by_w. step Hf.
    match goal with |- context [if ?c then _ else _] => destruct c end; cbn; destruct Hf; auto.
  Qed.

  Lemma respects_look_ahead : forall T E (f : sparser W I T E), respects f -> respects (look_ahead_w f).
  Proof. intros T E f Hf w i Hw Hi. specialize (Hf w i Hw Hi). unfold look_ahead_w. step Hf. tauto. Qed.

  Lemma keeps_bind : forall T U E V (conv : callback W E V) (r : pres I T E) (f : T -> sparser W I U V) w,
    restores conv -> (forall t, respects (f t)) -> keeps (r, w) -> keeps (bind_w conv r f w).
  Proof.
    intros T U E V conv r f w Hc Hf Hr. unfold keeps in Hr. destruct r as [j t|b e|n| |]; cbn in *; auto.
    - destruct Hr as [Hj Hw]. specialize (Hf t w j Hw Hj). step Hf.
    - destruct Hr as [Hb Hw]. specialize (Hc e w Hw). destruct (conv e w) as [[v|] w1]; cbn in *; unfold keeps; cbn; auto.
  Qed.
  Lemma keeps_map : forall T U E (f : callback W T U) (r : pres I T E) w, restores f -> keeps (r, w) -> keeps (map_w f r w).
  Proof.
    intros T U E f r w Hf Hr. unfold keeps in *. destruct r as [j t|b e|n| |]; cbn in *; auto.
    destruct Hr as [Hj Hw]. specialize (Hf t w Hw). destruct (f t w) as [[v|] w1]; cbn in *; auto.
  Qed.
  Lemma keeps_map_err : forall T E V (f : callback W E V) (r : pres I T E) w, restores f -> keeps (r, w) -> keeps (map_err_w f r w).
  Proof.
    intros T E V f r w Hf Hr. unfold keeps in *. destruct r as [j t|b e|n| |]; cbn in *; auto.
    destruct Hr as [Hj Hw]. specialize (Hf e w Hw). destruct (f e w) as [[v|] w1]; cbn in *; auto.
  Qed.

  (** The iterations. *)
  Lemma from_iter_keeps : forall It U T C (next : It -> W -> step It U * W) hint (act : C -> caction U T C) (Q : It -> Prop),
    (forall it w, Q it -> ok w ->
       match fst (next it w) with Yield _ it' | Combinators.Stop it' => Q it' /\ ok (snd (next it w)) | _ => okp (snd (next it w)) end) ->
    forall fuel c it w x w', Q it -> ok w -> from_iter_w fuel next hint act c it w = (x, w') ->
    match x with FDone _ it' => Q it' /\ ok w' | _ => okp w' end.
  Proof.
    intros It U T C next hint act Q Hn. induction fuel as [|fuel IH]; intros c it w x w' HQ Hw H; [inversion H; subst; auto|].
    cbn in H. destruct (act c) as [t0|k|k|].
    - inversion H; subst; auto.
    - specialize (Hn it w HQ Hw). destruct (next it w) as [[u it1|it1| |] w1]; cbn in Hn.
      + destruct Hn as [H1 H2]; exact (IH _ _ _ _ _ H1 H2 H).
      + destruct Hn as [H1 H2]; exact (IH _ _ _ _ _ H1 H2 H).
      + inversion H; subst; auto.
      + inversion H; subst; auto.
    - exact (IH _ _ _ _ _ HQ Hw H).
    - inversion H; subst; auto.
  Qed.

  Section Many.
    Context {U T E C : Type}.
    Variable fuel : nat.
    Variable col : collector U T C.
    Variable f : sparser W I U E.
    Hypothesis Hf : respects f.

    Definition within_es (st : end_state I E) : Prop := match st with ESError b _ => PE b | ESIncomplete n => 1 <= n end.

    Lemma run_iter_keeps : forall D (data : D) hint pre on fin w i, ok w -> P i ->
      (forall t j d st w, P j -> ok w -> within_es st -> keeps (fin t j d st : pres I T E, w)) ->
      keeps (run_iter_w fuel col i f data hint pre on fin w).
    Proof.
      intros D data hint pre on fin w i Hw Hi Hfin. unfold run_iter_w.
      match goal with |- context [from_iter_w ?a ?b ?c ?d ?e ?f ?g] => destruct (from_iter_w a b c d e f g) as [x w1] eqn:H end.
      eapply from_iter_keeps with (Q := fun it => P (it_buf it) /\ within_es (it_state it)) in H.
      - destruct x as [t it| |]; [|exact H..]. destruct H as [[H1 H2] H3]. apply Hfin; assumption.
      - intros it1 w2 [H1 H2] Hw2. unfold iter_next_w. destruct (pre (it_data it1)); [cbn; tauto|].
        specialize (Hf Hw2 H1). unfold keeps in Hf. destruct (f w2 (it_buf it1)) as [[j v|b e|n| |] w3]; cbn in *; tauto.
      - cbn. auto.
      - exact Hw.
    Qed.

    Ltac fin_keeps :=
      intros t j d st w1 Hj Hw1 Hst; unfold keeps; cbn [fst snd]; match type of d with (_ * _)%type => destruct d | _ => idtac end;
      destruct st; cbn [within_es] in Hst; unfold ret, err, incomplete, replace;
      repeat match goal with |- context [match ?x with _ => _ end] => is_var x; destruct x | |- context [if last ?x then _ else _] => destruct (last x) end;
      cbn; auto.

    Lemma respects_bmany : forall r, respects (bmany_w fuel col f r).
    Proof.
      intros r w i Hw Hi. destruct r as [a b|a| |b|n]; unfold bmany_w.
      - destruct (negb (a <=? b)); [apply Hokp; assumption|]. apply run_iter_keeps; auto. fin_keeps.
      - apply run_iter_keeps; auto. fin_keeps.
      - apply run_iter_keeps; auto. fin_keeps.
      - apply run_iter_keeps; auto. fin_keeps.
      - apply run_iter_keeps; auto. fin_keeps.
    Qed.
  End Many.

  Section Till.
    Context {U V T E N C : Type}.
    Variable fuel : nat.
    Variable col : collector U T C.
    Variable p : sparser W I U E.
    Variable end_ : sparser W I V N.
    Hypothesis Hp : respects p.
    Hypothesis He : respects end_.

    Definition within_tt {D} (it : iter_till unit unit I E D) : Prop :=
      P (tt_buf it) /\ match tt_state it with TError b _ => PE b | TIncomplete n => 1 <= n | TEndSuccess => True end.
    Definition keeps_pre {D} (pre : iter_till unit unit I E D -> W -> pre_res (iter_till unit unit I E D) * W) : Prop :=
      forall it w, within_tt it -> ok w ->
        match fst (pre it w) with PreGo it' | PreNone it' => within_tt it' /\ ok (snd (pre it w)) | _ => okp (snd (pre it w)) end.

    Lemma keeps_end_test : forall D, keeps_pre (D := D) (end_test_w end_).
    Proof.
      intros D it w [H1 H2] Hw. unfold end_test_w. specialize (He Hw H1). unfold keeps in He.
      destruct (end_ w (tt_buf it)) as [[j v|b e|n| |] w1]; cbn in *; unfold within_tt; cbn; tauto.
    Qed.
    Lemma keeps_pre_seq : forall D (a k : iter_till unit unit I E D -> W -> pre_res (iter_till unit unit I E D) * W),
      keeps_pre a -> keeps_pre k -> keeps_pre (fun it w => pre_seq_w (a it w) k).
    Proof.
      intros D a k Ha Hk it w Hit Hw. specialize (Ha it w Hit Hw). unfold pre_seq_w. destruct (a it w) as [[it1|it1| |] w1]; cbn in *; auto.
      destruct Ha. apply Hk; assumption.
    Qed.
    Lemma keeps_pre_if : forall D (c : D -> bool) (a b : iter_till unit unit I E D -> W -> pre_res (iter_till unit unit I E D) * W),
      keeps_pre a -> keeps_pre b -> keeps_pre (fun it w => if c (tt_data it) then a it w else b it w).
    Proof. intros D c a b Ha Hb it w Hit Hw. destruct (c (tt_data it)); [apply Ha|apply Hb]; assumption. Qed.
    Lemma keeps_pre_go : forall D, keeps_pre (fun (it : iter_till unit unit I E D) w => (PreGo it, w)).
    Proof. intros D it w H Hw. split; assumption. Qed.
    Lemma keeps_pre_none : forall D, keeps_pre (fun (it : iter_till unit unit I E D) w => (PreNone it, w)).
    Proof. intros D it w H Hw. split; assumption. Qed.

    Lemma run_iter_till_keeps : forall D (data : D) hint pre on fin w i, ok w -> P i -> keeps_pre pre ->
      (forall t j d st w, P j -> ok w -> match st with TError b _ => PE b | TIncomplete n => 1 <= n | TEndSuccess => True end ->
         keeps (fin t j d st : pres I T E, w)) ->
      keeps (run_iter_till_w fuel col i p data hint pre on fin w).
    Proof.
      intros D data hint pre on fin w i Hw Hi Hpre Hfin. unfold run_iter_till_w.
      match goal with |- context [from_iter_w ?a ?b ?c ?d ?e ?f ?g] => destruct (from_iter_w a b c d e f g) as [x w1] eqn:H end.
      eapply from_iter_keeps with (Q := within_tt) in H.
      - destruct x as [t it| |]; [|exact H..]. destruct H as [[H1 H2] H3]. apply Hfin; assumption.
      - intros it1 w2 H1 Hw2. specialize (Hpre it1 w2 H1 Hw2). unfold iter_till_next_w. destruct (pre it1 w2) as [[it2|it2| |] w3]; cbn in *; auto.
        destruct Hpre as [[H2 H3] Hw3]. specialize (Hp Hw3 H2). unfold keeps in Hp.
        destruct (p w3 (tt_buf it2)) as [[j v|b e|n| |] w4]; cbn in *; unfold within_tt; cbn; tauto.
      - split; cbn; auto.
      - exact Hw.
    Qed.

    Ltac fin_keeps :=
      intros t j d st w1 Hj Hw1 Hst; unfold keeps; cbn [fst snd]; match type of d with (_ * _)%type => destruct d | _ => idtac end;
      destruct st; unfold ret, err, incomplete, replace;
      repeat match goal with |- context [match ?x with _ => _ end] => is_var x; destruct x end;
      cbn; auto.

    Lemma respects_bmany_till : forall r, respects (bmany_till_w fuel col p end_ r).
    Proof.
      intros r w i Hw Hi. destruct r as [a b|a| |b|n]; unfold bmany_till_w.
      - destruct (negb (a <=? b)); [apply Hokp; assumption|]. apply run_iter_till_keeps; auto; [|fin_keeps].
        apply keeps_pre_seq with (a := fun it w => if fst (tt_data it) =? 0 then end_test_w end_ it w else (PreGo it, w)).
        + apply (keeps_pre_if (fun d => fst d =? 0)); [apply keeps_end_test|apply keeps_pre_go].
        + apply (keeps_pre_if (fun d => snd d =? 0)); [|apply keeps_pre_go].
          apply keeps_pre_seq with (a := fun it w => end_test_w end_ it w); [apply keeps_end_test|apply keeps_pre_none].
      - apply run_iter_till_keeps; auto; [|fin_keeps]. apply (keeps_pre_if (fun d => d =? 0)); [apply keeps_end_test|apply keeps_pre_go].
      - apply run_iter_till_keeps; auto; [apply keeps_end_test|fin_keeps].
      - apply run_iter_till_keeps; auto; [|fin_keeps].
        apply keeps_pre_seq with (a := fun it w => end_test_w end_ it w) (k := fun it w => (if tt_data it =? 0 then PreNone it else PreGo it, w));
          [apply keeps_end_test|].
        intros it1 w1 H1 Hw1. cbn. destruct (tt_data it1 =? 0); cbn; auto.
      - apply run_iter_till_keeps; auto; [|fin_keeps].
        apply (keeps_pre_if (fun d => d =? 0)); [|apply keeps_pre_go].
        apply keeps_pre_seq with (a := fun it w => end_test_w end_ it w); [apply keeps_end_test|apply keeps_pre_none].
    Qed.
  End Till.

  Section Skip.
    Context {T E : Type}.
    Variable f : sparser W I T E.
    Hypothesis Hf : respects f.

    Ltac one IH w i Hw Hi := specialize (Hf Hw Hi); unfold keeps in Hf; destruct (f w i) as [[?j ?v|?b ?e|?n| |] ?w1]; cbn [fst snd] in *;
      [apply IH; tauto|..|exact Hf|exact Hf];
      repeat match goal with |- context [if ?c then _ else _] => destruct c end; unfold keeps; cbn; tauto.

    Lemma skip_loop_range_keeps : forall fuel min max w i, ok w -> P i -> keeps (skip_loop_range_w f fuel min max w i).
    Proof.
      induction fuel as [|fuel IH]; intros min max w i Hw Hi; [apply Hokp; assumption|]. cbn [skip_loop_range_w]. destruct (max =? 0); [split; assumption|].
      one IH w i Hw Hi.
    Qed.
    Lemma skip_many_from_keeps : forall fuel min w i, ok w -> P i -> keeps (skip_many_from_w f fuel min w i).
    Proof. induction fuel as [|fuel IH]; intros min w i Hw Hi; [apply Hokp; assumption|]. cbn [skip_many_from_w]. one IH w i Hw Hi. Qed.
    Lemma skip_many_full_keeps : forall fuel w i, ok w -> P i -> keeps (skip_many_full_w f fuel w i).
    Proof. induction fuel as [|fuel IH]; intros w i Hw Hi; [apply Hokp; assumption|]. cbn [skip_many_full_w]. one IH w i Hw Hi. Qed.
    Lemma skip_loop_to_keeps : forall fuel max w i, ok w -> P i -> keeps (skip_loop_to_w f fuel max w i).
    Proof.
      induction fuel as [|fuel IH]; intros max w i Hw Hi; [apply Hokp; assumption|]. cbn [skip_loop_to_w]. destruct (max =? 0); [split; assumption|].
      one IH w i Hw Hi.
    Qed.
    Lemma skip_many_exact_keeps : forall fuel n w i, ok w -> P i -> keeps (skip_many_exact_w f fuel n w i).
    Proof.
      induction fuel as [|fuel IH]; intros m w i Hw Hi; [apply Hokp; assumption|]. cbn [skip_many_exact_w]. destruct (m =? 0) eqn:Hm; [split; assumption|].
      one IH w i Hw Hi.
    Qed.
    Lemma respects_bskip_many : forall fuel r, respects (bskip_many_w f fuel r).
    Proof.
      intros fuel r w i Hw Hi. destruct r as [a b|a| |b|n]; unfold bskip_many_w.
      - destruct (negb (a <=? b)); [apply Hokp; assumption|]. apply skip_loop_range_keeps; assumption.
      - apply skip_many_from_keeps; assumption.
      - apply skip_many_full_keeps; assumption.
      - apply skip_loop_to_keeps; assumption.
      - apply skip_many_exact_keeps; assumption.
    Qed.
  End Skip.
End Law.

Lemma respects_sep_item : forall W I (ok okp : W -> Prop) (P : input I -> Prop) PE U V E N (conv : callback W N E) (p : sparser W I U E)
    (sep : sparser W I V N),
  (forall w, ok w -> okp w) -> restores ok conv -> respects ok okp P PE p -> respects ok okp P PE sep -> respects (fun st => ok (snd st)) (fun st => okp (snd st)) P PE (sep_item_w conv p sep).
Proof.
  intros W I ok okp P PE U V E N conv p sep Hokp Hc Hp Hs [item w] i Hw Hi. cbn in Hw. unfold sep_item_w.
  set (x := if item then _ else _). assert (Hx : keeps ok okp P PE x).
  { unfold x. destruct item; [|split; assumption]. specialize (Hs w i Hw Hi). destruct (sep w i) as [r w1].
    apply keeps_map; [exact Hokp|intros a w2 H; exact H|exact Hs]. }
  destruct x as [r0 w0]. pose proof (@keeps_bind _ _ ok okp Hokp P PE _ _ _ _ conv r0 (fun _ => p) w0 Hc (fun _ => Hp) Hx) as Hb. fold (then_w conv r0 p w0) in Hb.
  destruct (then_w conv r0 p w0) as [r1 w1]. unfold keeps, inspect_w in *. destruct r1; cbn in *; auto.
Qed.

Lemma respects_sep : forall W I (ok okp : W -> Prop) (P : input I -> Prop) PE U V T E N C fuel (col : collector U T C) (conv : callback W N E)
    (p : sparser W I U E) (sep : sparser W I V N) r,
  (forall w, ok w -> okp w) -> restores ok conv -> respects ok okp P PE p -> respects ok okp P PE sep ->
  respects ok okp P PE (fun w i => let '(r, (_, w)) := bmany_w fuel col (sep_item_w conv p sep) r (false, w) i in (r, w)).
Proof.
  intros W I ok okp P PE U V T E N C fuel col conv p sep r Hokp Hc Hp Hs w i Hw Hi.
  pose proof (@respects_bmany (bool * W) I (fun st => ok (snd st)) (fun st => okp (snd st)) (fun st => Hokp (snd st)) P PE U T E C fuel col _
    (respects_sep_item Hokp Hc Hp Hs) r (false, w) i Hw Hi) as H.
  destruct (bmany_w fuel col (sep_item_w conv p sep) r (false, w) i) as [res [b w1]]. exact H.
Qed.
