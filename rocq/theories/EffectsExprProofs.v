(** Proofs about expressions over the library with callbacks that act on an outside world (C53): the world changes only as the callbacks
    change it, the input is not tampered with, and callbacks with answers that do not depend on the world give the results of the model
    without a world. *)
From Coq Require Import List Bool Arith Lia.
From Verif Require Import Base Parsers Combinators Buffer Stream SpecBase SpecSafe SpecIter Effects SpecEffects
  SafeProofs EffectsProofs EffectsIterProofs.
Import ListNotations.

Set Implicit Arguments.

(** * The input is not tampered with *)

Section Honest.
  Context {W I : Type}.

  Lemma taken_honest : forall (i : input I) cs rest T E (t : T), buf i = cs ++ rest -> honest i (@Data I T E (mkInput (last i) rest) t).
  Proof. intros i cs rest T E t H. simpl. split; [reflexivity|]. exists cs. assumption. Qed.

  Lemma position_w_le : forall A (f : callback W A bool) b w n w', position_w f b w = (Some (Some n), w') -> n <= length b.
  Proof.
    induction b as [|c b IH]; intros w n w' H; simpl in H; [discriminate|].
    destruct (f c w) as [[[]|] w1]; try discriminate; [inversion H; subst; simpl; lia|].
    destruct (position_w f b w1) as [[[m|]|] w2] eqn:Hp; try discriminate. inversion H; subst. specialize (IH _ _ _ Hp). simpl. lia.
  Qed.

  Lemma search_honest : forall (f : callback W I bool) go w i v w' T E (k : list I -> T), search f go w (buf i) v w' ->
    forall cs c rest, v = UpTo cs c rest -> honest i (@Data I T E (mkInput (last i) (c :: rest)) (k cs)).
  Proof. intros f go w i v w' T E k H cs c rest ->. apply search_split in H. eapply taken_honest. apply H. Qed.

  Ltac first_honest i := let b := fresh "b" in let l := fresh "l" in destruct i as [l b]; destruct b; cbn; auto.

  Lemma satisfy_w_honest : forall v (f : callback W I bool) w i, honest i (fst (satisfy_w v f w i)).
  Proof.
    intros v f w [l [|c b]]; cbn; auto. destruct (f c w) as [[[]|] w1]; cbn; auto.
    - split; auto. exists [c]. reflexivity.
    - apply suffix_refl.
  Qed.
  Lemma token_w_honest : forall v (f : callback W (I * I) bool) t w i, honest i (fst (token_w v f t w i)).
  Proof.
    intros v f t w [l [|c b]]; cbn; auto. destruct (f (t, c) w) as [[[]|] w1]; cbn; auto.
    - split; auto. exists [c]. reflexivity.
    - apply suffix_refl.
  Qed.
  Lemma not_token_w_honest : forall v (f : callback W (I * I) bool) t w i, honest i (fst (not_token_w v f t w i)).
  Proof.
    intros v f t w [l [|c b]]; cbn; auto. destruct (f (t, c) w) as [[[]|] w1]; cbn; auto.
    - split; auto. exists [c]. reflexivity.
    - apply suffix_refl.
  Qed.
  Lemma satisfy_with_w_honest : forall T v icl tcl (f : callback W I T) g w i, honest i (fst (satisfy_with_w v icl tcl f g w i)).
  Proof.
    intros T v icl tcl f g w [l [|c b]]; cbn; auto. destruct (icl c w) as [[c1|] w1]; cbn; auto. destruct (f c1 w1) as [[t|] w2]; cbn; auto.
    destruct (tcl t w2) as [[t1|] w3]; cbn; auto. destruct (g t1 w3) as [[[]|] w4]; cbn; auto.
    - split; auto. exists [c]. reflexivity.
    - apply suffix_refl.
  Qed.
  Lemma all_honest : forall (i : input I) T E (t : T), honest i (@Data I T E (mkInput (last i) []) t).
  Proof. intros. eapply taken_honest. symmetry. apply app_nil_r. Qed.
  Lemma take_while_w_honest : forall (f : callback W I bool) w i, honest i (fst (take_while_w f w i)).
  Proof.
    intros f w i. destruct (take_while_w f w i) as [res w'] eqn:H. apply take_while_w_char in H. destruct H as (v & Hs & ->). cbn [fst].
    destruct v as [|cs c rest|]; cbn; auto.
    - destruct (last i) eqn:Hl; cbn; auto. rewrite Hl. split; auto. apply suffix_nil.
    - split; auto. apply search_split in Hs. exists cs. apply Hs.
  Qed.
  Lemma take_while1_w_honest : forall v (f : callback W I bool) w i, honest i (fst (take_while1_w v f w i)).
  Proof.
    intros vb f w i. destruct (take_while1_w vb f w i) as [res w'] eqn:H. apply take_while1_w_char in H. destruct H as (v & Hs & ->). cbn [fst].
    destruct v as [|cs c rest|]; cbn; auto.
    - destruct (buf i) as [|c b] eqn:Hb; cbn; auto. destruct (last i) eqn:Hl; cbn; auto. rewrite Hl. split; auto. apply suffix_nil.
    - apply search_split in Hs. destruct cs as [|d cs]; cbn; [apply suffix_refl|]. split; auto. exists (d :: cs). apply Hs.
  Qed.
  Lemma take_till_w_honest : forall icl (f : callback W I bool) w i, honest i (fst (take_till_w icl f w i)).
  Proof.
    intros icl f w i. destruct (take_till_w icl f w i) as [res w'] eqn:H. apply take_till_w_char in H. destruct H as (v & Hs & ->). cbn [fst].
    destruct v as [|cs c rest|]; cbn; auto. split; auto. apply search_split in Hs. exists cs. apply Hs.
  Qed.
  Lemma scan_suffix : forall S (f : callback W (S * I) (option S)) s w b cs c r s' w', scan_search f s w b (UpTo cs c r) s' w' -> suffix (c :: r) b.
  Proof. intros S f s w b cs c r s' w' H. inversion H; subst. exists cs. reflexivity. Qed.
  Lemma scan_w_honest : forall S (s : S) (f : callback W (S * I) (option S)) w i, honest i (fst (scan_w s f w i)).
  Proof.
    intros S s f w i. destruct (scan_w s f w i) as [res w'] eqn:H. apply scan_w_char in H. destruct H as (v & s' & Hs & ->). cbn [fst].
    destruct v as [|cs c rest|]; cbn; auto. split; auto. eapply scan_suffix; eauto.
  Qed.
  Lemma run_scanner_w_honest : forall S (s : S) (f : callback W (S * I) (option S)) w i, honest i (fst (run_scanner_w s f w i)).
  Proof.
    intros S s f w i. destruct (run_scanner_w s f w i) as [res w'] eqn:H. apply run_scanner_w_char in H. destruct H as (v & s' & Hs & ->). cbn [fst].
    destruct v as [|cs c rest|]; cbn; auto. split; auto. eapply scan_suffix; eauto.
  Qed.
  Lemma string_w_honest : forall v (ne : callback W (I * I) bool) s w i, honest i (fst (string_w v ne s w i)).
  Proof.
    intros vb ne s w i. unfold string_w. destruct (Nat.ltb_spec (length (buf i)) (length s)) as [Hl|Hl]; cbn; [lia|].
    destruct (string_mismatch_w ne 0 s (firstn (length s) (buf i)) w) as [[[j|]|] w1]; cbn; auto.
    - unfold err_string. destruct vb; cbn; apply suffix_skipn || apply suffix_refl.
    - split; auto. apply suffix_skipn.
  Qed.
End Honest.

Section HonestTill.
  Context {W I U V E N : Type}.
  Variable p : sparser W I U E.
  Variable end_ : sparser W I V N.
  Hypothesis Hp : forall w i, honest i (fst (p w i)).
  Hypothesis He : forall w i, honest i (fst (end_ w i)).
  Variable i0 : input I.

  Definition pre_w_ok {D} (pre : iter_till unit unit I E D -> W -> pre_res (iter_till unit unit I E D) * W) : Prop :=
    forall it w, tt_ok i0 it -> match fst (pre it w) with PreGo it' => tt_ok i0 it' | PreNone it' => tt_ok i0 it' | _ => True end.

  Lemma end_test_w_ok : forall D, pre_w_ok (D := D) (end_test_w end_).
  Proof.
    intros D it w (H1 & H2 & H3). unfold end_test_w. pose proof (He w (tt_buf it)) as Hh.
    destruct (end_ w (tt_buf it)) as [[j v|b e|n| |] s]; simpl in *; auto; try (repeat split; simpl; auto; fail).
    destruct Hh. repeat split; simpl; auto; [congruence|eapply suffix_trans; eauto].
  Qed.
  Lemma pre_seq_w_ok : forall D (a : iter_till unit unit I E D -> W -> pre_res (iter_till unit unit I E D) * W) k,
    pre_w_ok a -> pre_w_ok k -> pre_w_ok (fun it w => pre_seq_w (a it w) k).
  Proof.
    intros D a k Ha Hk it w Hit. specialize (Ha it w Hit). unfold pre_seq_w. destruct (a it w) as [[it1|it1| |] w1]; auto. apply Hk. assumption.
  Qed.
  Lemma pre_if_w_ok : forall D (c : D -> bool) (a b : iter_till unit unit I E D -> W -> pre_res (iter_till unit unit I E D) * W),
    pre_w_ok a -> pre_w_ok b -> pre_w_ok (fun it w => if c (tt_data it) then a it w else b it w).
  Proof. intros D c a b Ha Hb it w Hit. destruct (c (tt_data it)); [apply Ha|apply Hb]; assumption. Qed.
  Lemma pre_go_w_ok : forall D, pre_w_ok (fun (it : iter_till unit unit I E D) w => (PreGo it, w)).
  Proof. intros D it w H. exact H. Qed.
  Lemma pre_none_w_ok : forall D, pre_w_ok (fun (it : iter_till unit unit I E D) w => (PreNone it, w)).
  Proof. intros D it w H. exact H. Qed.

  Lemma from_iter_w_inv : forall It T C (next : It -> W -> step It U * W) hint (act : C -> caction U T C) (P : It -> Prop),
    (forall it w, P it -> match fst (next it w) with Yield _ it' => P it' | Stop it' => P it' | _ => True end) ->
    forall fuel c it w t it' w', P it -> from_iter_w fuel next hint act c it w = (FDone t it', w') -> P it'.
  Proof.
    intros It T C next hint act P Hn. induction fuel as [|fuel IH]; intros c it w t it' w' HP H; [discriminate|].
    simpl in H. destruct (act c) as [t0|k|k|].
    - inversion H; subst; auto.
    - specialize (Hn it w HP). destruct (next it w) as [[u it1|it1| |] w1]; try discriminate; exact (IH _ _ _ _ _ _ Hn H).
    - exact (IH _ _ _ _ _ _ HP H).
    - discriminate.
  Qed.

  Lemma run_iter_till_w_honest : forall T D C fuel (col : collector U T C) (data : D) hint pre on fin w,
    pre_w_ok pre ->
    (forall t j d st, last j = last i0 -> suffix (buf j) (buf i0) ->
       match st with TError b _ => suffix b (buf i0) | TIncomplete n => 1 <= n | TEndSuccess => True end -> honest i0 (fin t j d st)) ->
    honest i0 (fst (run_iter_till_w fuel col i0 p data hint pre on fin w)).
  Proof.
    intros T D C fuel col data hint pre on fin w Hpre Hfin. unfold run_iter_till_w.
    match goal with |- context [from_iter_w ?a ?b ?c ?d ?e ?f ?g] => destruct (from_iter_w a b c d e f g) as [[t it| |] w1] eqn:Hf end; simpl; auto.
    assert (Hok : tt_ok i0 it).
    { eapply from_iter_w_inv with (P := @tt_ok unit unit I E i0 D); [|..|exact Hf].
      - intros it1 w0 Hit1. specialize (Hpre it1 w0 Hit1). unfold iter_till_next_w. destruct (pre it1 w0) as [[it2|it2| |] w2]; auto.
        destruct Hpre as (H1 & H2 & H3).
        pose proof (Hp w2 (tt_buf it2)) as Hh. destruct (p w2 (tt_buf it2)) as [[j v|b e|n| |] s]; simpl in *; auto.
        + destruct Hh as [Hl Hs]. repeat split; simpl; auto; [congruence|eapply suffix_trans; eauto].
        + repeat split; simpl; auto. eapply suffix_trans; eauto.
        + repeat split; simpl; auto.
      - repeat split; simpl; auto with safe. }
    destruct Hok as (H1 & H2 & H3). apply Hfin; auto.
  Qed.

  Lemma bmany_till_w_honest : forall T C fuel (col : collector U T C) r w, honest i0 (fst (bmany_till_w fuel col p end_ r w i0)).
  Proof.
    intros T C fuel col r w. destruct r as [a b|a| |b|n]; unfold bmany_till_w.
    - destruct (negb (a <=? b)); [exact Logic.I|]. apply run_iter_till_w_honest; auto; [|fin_honest].
      apply pre_seq_w_ok with (a := fun it w => if fst (tt_data it) =? 0 then end_test_w end_ it w else (PreGo it, w)).
      + apply (pre_if_w_ok (fun d => fst d =? 0)); [apply end_test_w_ok|apply pre_go_w_ok].
      + apply (pre_if_w_ok (fun d => snd d =? 0)); [|apply pre_go_w_ok].
        apply pre_seq_w_ok with (a := fun it w => end_test_w end_ it w); [apply end_test_w_ok|apply pre_none_w_ok].
    - apply run_iter_till_w_honest; auto; [|fin_honest]. apply (pre_if_w_ok (fun d => d =? 0)); [apply end_test_w_ok|apply pre_go_w_ok].
    - apply run_iter_till_w_honest; auto; [apply end_test_w_ok|fin_honest].
    - apply run_iter_till_w_honest; auto; [|fin_honest]. intros it w0 Hit.
      apply pre_seq_w_ok with (a := fun it w => end_test_w end_ it w) (k := fun it w => (if tt_data it =? 0 then PreNone it else PreGo it, w));
        [apply end_test_w_ok| |assumption].
      intros it1 w1 H1. simpl. destruct (tt_data it1 =? 0); exact H1.
    - apply run_iter_till_w_honest; auto; [|fin_honest].
      apply (pre_if_w_ok (fun d => d =? 0)); [|apply pre_go_w_ok].
      apply pre_seq_w_ok with (a := fun it w => end_test_w end_ it w); [apply end_test_w_ok|apply pre_none_w_ok].
  Qed.
End HonestTill.

Lemma bind_w_honest : forall W I T U E V (conv : callback W E V) (i : input I) (r : pres I T E) (f : T -> sparser W I U V) w,
  honest i r -> (forall t w j, honest j (fst (f t w j))) -> honest i (fst (bind_w conv r f w)).
Proof.
  intros W I T U E V conv i r f w Hr Hf. destruct r as [j t|b e|n| |]; simpl; auto.
  - destruct Hr as [Hl Hs]. specialize (Hf t w j). destruct (f t w j) as [r w1]. simpl in Hf.
    destruct r as [k u|b e|n| |]; simpl in *; auto; [destruct Hf; split; [congruence|]|]; eapply suffix_trans; eauto.
  - destruct (conv e w) as [[v|] w1]; simpl; auto.
Qed.

Lemma sep_item_w_honest : forall W I U V E N (conv : callback W N E) (p : sparser W I U E) (sep : sparser W I V N),
  (forall w i, honest i (fst (p w i))) -> (forall w i, honest i (fst (sep w i))) ->
  forall st i, honest i (fst (sep_item_w conv p sep st i)).
Proof.
  intros W I U V E N conv p sep Hp Hs [item w] i. unfold sep_item_w.
  set (x := if item then _ else _). assert (Hx : honest i (fst x)).
  { unfold x. destruct item; [|split; [reflexivity|apply suffix_refl]]. specialize (Hs w i). destruct (sep w i) as [r w1]. destruct r; simpl in *; auto. }
  destruct x as [r0 w0]. cbn [fst] in Hx. assert (Hb := bind_w_honest conv i r0 (fun _ => p) w0 Hx (fun _ => Hp)). fold (then_w conv r0 p w0) in Hb.
  destruct (then_w conv r0 p w0) as [r1 w1]. cbn [fst] in Hb. unfold inspect_w. destruct r1; auto.
Qed.

Lemma sep_item_w_moves : forall W I (R : W -> W -> Prop) U V E N (conv : callback W N E) (p : sparser W I U E) (sep : sparser W I V N),
  preorder R -> acts R conv -> moves R p -> moves R sep -> moves (fun u v => R (snd u) (snd v)) (sep_item_w conv p sep).
Proof.
  intros W I R U V E N conv p sep HR Hc Hp Hs [item w] i. unfold sep_item_w.
  set (x := if item then _ else _). assert (Hx : R w (snd x)).
  { unfold x. destruct item; [|apply HR]. specialize (Hs w i). destruct (sep w i) as [r w1]. destruct r; simpl in *; auto. }
  destruct x as [r0 w0]. cbn [snd] in Hx.
  assert (Hb : R w0 (snd (then_w conv r0 p w0))).
  { unfold then_w. destruct r0 as [j t|b e|n| |]; simpl; try apply HR.
    - specialize (Hp w0 j). destruct (p w0 j) as [r w1]. destruct r; exact Hp.
    - specialize (Hc e w0). destruct (conv e w0) as [[v|] w1]; exact Hc. }
  destruct (then_w conv r0 p w0) as [r1 w1]. cbn [snd] in Hb. unfold inspect_w. destruct r1; simpl; eapply HR; eauto.
Qed.

Lemma sep_by_w_both : forall W I (R : W -> W -> Prop) U V T E N C fuel (col : collector U T C) (conv : callback W N E) (p : sparser W I U E) (sep : sparser W I V N) r,
  preorder R -> acts R conv -> moves R p -> moves R sep -> (forall w i, honest i (fst (p w i))) -> (forall w i, honest i (fst (sep w i))) ->
  forall w i, R w (snd (let '(r, (_, w)) := bmany_w fuel col (sep_item_w conv p sep) r (false, w) i in (r, w))) /\
    honest i (fst (let '(r, (_, w)) := bmany_w fuel col (sep_item_w conv p sep) r (false, w) i in (r, w))).
Proof.
  intros W I R U V T E N C fuel col conv p sep r HR Hc Hp Hs Hhp Hhs w i.
  assert (HR2 : preorder (fun u v : bool * W => R (snd u) (snd v))).
  { destruct HR as [H1 H2]. split; intros; eauto. }
  pose proof (bmany_w_moves HR2 fuel col r (sep_item_w_moves HR Hc Hp Hs) (false, w) i) as Hm.
  pose proof (bmany_bridge (sep_item_w conv p sep) col fuel r (false, w) i) as Hb.
  pose proof (bmany_honest fuel col r (false, w) (sep_item_w conv p sep) (sep_item_w_honest conv p sep Hhp Hhs) i) as Hh.
  destruct (bmany_w fuel col (sep_item_w conv p sep) r (false, w) i) as [res [b w1]]. simpl in *. subst. auto.
Qed.

(** * Both at once *)

Theorem over_moves : forall W I (R : W -> W -> Prop) T E (p : sparser W I T E), preorder R -> over R p ->
  moves R p /\ (forall w i, honest i (fst (p w i))).
Proof.
  intros W I R T E p HR H. induction H.
  - destruct IHover as [H1 H2]. split; intros w i; rewrite <- H0; auto.
  - split; auto.
  - split; [apply lifted_moves; assumption|]. intros w i. apply built_well_behaved in H. apply H.
  - destruct IHover as [H1 H2]. split; intros w i; specialize (H1 w i); specialize (H2 w i); destruct (p w i) as [r w1]; destruct r; simpl in *; auto;
      specialize (H t w1); destruct (f t w1) as [[u|] w2]; simpl in *; auto; eapply HR; eauto.
  - destruct IHover as [H1 H2]. split; intros w i; specialize (H1 w i); specialize (H2 w i); destruct (p w i) as [r w1]; destruct r; simpl in *; auto;
      match goal with |- context [f ?e w1] => specialize (H e w1); destruct (f e w1) as [[u|] w2] end; simpl in *; auto; eapply HR; eauto.
  - destruct IHover as [H1 H2]. split; intros w i; specialize (H1 w i); specialize (H2 w i); destruct (p w i) as [r w1]; destruct r; simpl in *; auto;
      specialize (H t w1); destruct (f t w1) as [[u|] w2]; simpl in *; auto; eapply HR; eauto.
  - destruct IHover as [H3 H4]. split; [apply bind_w_moves; auto; intros t; apply H2|]. intros w i. specialize (H4 w i). destruct (p w i) as [r w1].
    apply bind_w_honest; auto. intros t. apply H2.
  - destruct IHover1 as [H3 H4], IHover2 as [H5 H6]. split; [apply (bind_w_moves HR (fun _ => f)); auto|]. intros w i. specialize (H4 w i). destruct (p w i) as [r w1].
    apply bind_w_honest; auto.
  - split; [apply satisfy_w_moves|apply satisfy_w_honest]; auto.
  - split; [apply satisfy_with_w_moves|apply satisfy_with_w_honest]; auto.
  - split; [apply token_w_moves|apply token_w_honest]; auto.
  - split; [apply not_token_w_moves|apply not_token_w_honest]; auto.
  - split; [apply take_while_w_moves|apply take_while_w_honest]; auto.
  - split; [apply take_while1_w_moves|apply take_while1_w_honest]; auto.
  - split; [apply take_till_w_moves|apply take_till_w_honest]; auto.
  - split; [apply scan_w_moves|apply scan_w_honest]; auto.
  - split; [apply run_scanner_w_moves|apply run_scanner_w_honest]; auto.
  - split; [apply string_w_moves|apply string_w_honest]; auto.
  - destruct IHover as [H1 H2]. split; [apply option_w_moves; assumption|]. intros w i. specialize (H2 w i). unfold option_w.
    destruct (p w i) as [[j v|b e|n| |] w1]; cbn in *; auto; try (split; [reflexivity|apply suffix_refl]).
    destruct (last i); cbn; auto. split; [reflexivity|apply suffix_refl].
  - destruct IHover1 as [H1 H2], IHover2 as [H3 H4]. split; [apply or_w_moves; assumption|]. intros w i. specialize (H2 w i). unfold or_w.
    destruct (p w i) as [[j v|b e|n| |] w1]; cbn in *; auto. destruct (last i); cbn; auto.
  - destruct IHover as [H1 H2]. split; [apply matched_by_w_moves; assumption|]. intros w i. specialize (H2 w i). unfold matched_by_w.
    destruct (p w i) as [[j v|b e|n| |] w1]; cbn -[Nat.ltb honest] in *; auto. destruct (length (buf i) <? length (buf j)); auto. exact Logic.I.
  - destruct IHover as [H1 H2]. split; [apply look_ahead_w_moves; assumption|]. intros w i. specialize (H2 w i). unfold look_ahead_w.
    destruct (p w i) as [[j v|b e|n| |] w1]; cbn in *; auto. split; [reflexivity|apply suffix_refl].
  - destruct IHover as [H1 H2]. split; [apply bmany_w_moves; assumption|]. intros w i. rewrite bmany_bridge. apply bmany_honest. assumption.
  - destruct IHover as [H1 H2]. split; [apply bskip_many_w_moves; assumption|]. intros w i. rewrite bskip_bridge. apply bskip_honest. assumption.
  - destruct IHover1 as [H1 H2], IHover2 as [H3 H4]. split; [apply bmany_till_w_moves; assumption|]. intros w i. apply bmany_till_w_honest; assumption.
  - destruct IHover1 as [H3 H4], IHover2 as [H5 H6]. split; intros w i; apply (sep_by_w_both fuel col RFull HR H H3 H5 H4 H6 w i).
  - destruct IHover1 as [H3 H4], IHover2 as [H5 H6]. split; intros w i; apply (sep_by_w_both fuel col (RFrom 1) HR H H3 H5 H4 H6 w i).
Qed.

(** * Answers that do not depend on the world *)

(** [p] is [q] once the world is looked at through [al]. *)
Definition sim {W S I T E} (al : W -> S) (p : sparser W I T E) (q : sparser S I T E) : Prop :=
  forall w i, q (al w) i = (fst (p w i), al (snd (p w i))).

Section Sim.
  Context {W S I U T E C : Type}.
  Variable al : W -> S.
  Variable p : sparser W I U E.
  Variable q : sparser S I U E.
  Hypothesis Hsim : sim al p q.
  Variable col : collector U T C.

  Definition sim_f {D} (x : fres T (iter unit I E D) * W) (y : fres T (iter S I E D)) : Prop :=
    match x, y with
    | (FDone t it, w'), FDone t' it' => t = t' /\ it' = mkIter (it_state it) (al w') (it_buf it) (it_data it)
    | (FPanic, _), FPanic => True
    | (FNoFuel, _), FNoFuel => True
    | _, _ => False
    end.

  Lemma from_iter_sim : forall D (pre : D -> bool) (on : D -> D) (hint : D -> nat * option nat) fuel c st i d w,
    sim_f (from_iter_w fuel (iter_next_w p pre on) (fun it => hint (it_data it)) (cact col) c (mkIter st tt i d) w)
          (from_iter fuel (iter_next q pre on) (fun it => hint (it_data it)) (cact col) c (mkIter st (al w) i d)).
  Proof.
    intros D pre on hint. induction fuel as [|fuel IH]; intros c st i d w; [exact Logic.I|]. cbn [from_iter_w from_iter].
    destruct (cact col c) as [t|k|k|]; [split; reflexivity| |apply IH|exact Logic.I].
    - unfold iter_next_w at 1, iter_next at 1. cbn [it_data it_buf it_state it_ps].
      destruct (pre d); [apply IH|]. rewrite Hsim. destruct (p w i) as [[j u|b e|n| |] w1]; cbn [fst snd]; try apply IH; exact Logic.I.
  Qed.

  Lemma run_iter_sim : forall D fuel i (d : D) hint pre on fin w,
    fst (run_iter_w fuel col i p d hint pre on fin w) = run_iter fuel col i (al w) q d hint pre on fin.
  Proof.
    intros D fuel i d hint pre on fin w. unfold run_iter_w, run_iter.
    pose proof (from_iter_sim pre on hint fuel (cinit col) (ESIncomplete 1) i d w) as H.
    match type of H with sim_f ?x ?y => destruct x as [[t it| |] w']; destruct y as [t' it'| |] end; simpl in H; try contradiction; auto.
    destruct H as [-> ->]. reflexivity.
  Qed.

  Lemma bmany_sim : forall fuel r w i, fst (bmany_w fuel col p r w i) = bmany fuel col r (al w) q i.
  Proof.
    intros fuel r w i. destruct r as [a b|a| |b|n]; unfold bmany_w, bmany, parse_many_range, parse_many_from, parse_many_full, parse_many_to, parse_many_exact.
    1: destruct (negb (a <=? b)); [reflexivity|]. all: apply run_iter_sim.
  Qed.

  Lemma bskip_sim : forall fuel r w i, fst (bskip_many_w p fuel r w i) = bskip_many fuel r (al w) q i.
  Proof.
    intros fuel r w i. destruct r as [a b|a| |b|n]; unfold bskip_many_w, bskip_many, skip_many_range, skip_many_to.
    - destruct (negb (a <=? b)); [reflexivity|]. generalize (Nat.max b 1 - 1). intros m. revert a m w i.
      induction fuel as [|fuel IH]; intros a m w i; simpl; auto. destruct (m =? 0); auto. rewrite Hsim. destruct (p w i) as [[j u|bb e|n| |] w1]; simpl; auto.
    - revert a w i. induction fuel as [|fuel IH]; intros a w i; simpl; auto. rewrite Hsim. destruct (p w i) as [[j u|bb e|n| |] w1]; simpl; auto.
    - revert w i. induction fuel as [|fuel IH]; intros w i; simpl; auto. rewrite Hsim. destruct (p w i) as [[j u|bb e|n| |] w1]; simpl; auto.
    - generalize (Nat.max b 1 - 1). intros m. revert m w i.
      induction fuel as [|fuel IH]; intros m w i; simpl; auto. destruct (m =? 0); auto. rewrite Hsim. destruct (p w i) as [[j u|bb e|n| |] w1]; simpl; auto.
    - revert n w i. induction fuel as [|fuel IH]; intros n w i; simpl; auto. destruct (n =? 0); auto. rewrite Hsim. destruct (p w i) as [[j u|bb e|m| |] w1]; simpl; auto.
  Qed.
End Sim.

Lemma sim_pure : forall W I T E (p : sparser W I T E) q, parses_as p q -> sim (fun _ => tt) p (pure q).
Proof. intros W I T E p q H w i. unfold pure. rewrite H. reflexivity. Qed.

Section SimTill.
  Context {W I U V T E N C : Type}.
  Variable p : sparser W I U E.
  Variable p' : parser I U E.
  Variable end_ : sparser W I V N.
  Variable end' : parser I V N.
  Hypothesis Hp : parses_as p p'.
  Hypothesis He : parses_as end_ end'.
  Variable col : collector U T C.

  Definition sim_pre {D} (x : pre_res (iter_till unit unit I E D) * W) (y : pre_res (iter_till unit unit I E D)) : Prop := fst x = y.

  Lemma end_test_sim : forall D (it : iter_till unit unit I E D) w, sim_pre (end_test_w end_ it w) (end_test (pure end') it).
  Proof.
    intros D [st [] [] i d] w. unfold sim_pre, end_test_w, end_test, pure. cbn [tt_es tt_buf tt_ps tt_state tt_data].
    specialize (He w i). destruct (end_ w i) as [r w1]. simpl in He. subst. destruct (end' i); reflexivity.
  Qed.
  Lemma pre_seq_sim : forall D x y (k : iter_till unit unit I E D -> W -> pre_res (iter_till unit unit I E D) * W) k',
    sim_pre x y -> (forall it w, sim_pre (k it w) (k' it)) -> sim_pre (pre_seq_w x k) (pre_seq y k').
  Proof. intros D [x w] y k k' H Hk. unfold sim_pre in *. simpl in H. subst. destruct y; simpl; auto. Qed.

  Definition sim_ft {D} (x : fres T (iter_till unit unit I E D) * W) (y : fres T (iter_till unit unit I E D)) : Prop := fst x = y.

  Lemma from_iter_till_sim : forall D pre pre' (on : D -> D) (hint : D -> nat * option nat),
    (forall it w, sim_pre (pre it w) (pre' it)) -> forall fuel c it w,
    sim_ft (from_iter_w fuel (iter_till_next_w p pre on) (fun it => hint (tt_data it)) (cact col) c it w)
           (from_iter fuel (iter_till_next (pure p') pre' on) (fun it => hint (tt_data it)) (cact col) c it).
  Proof.
    intros D pre pre' on hint Hpre. unfold sim_ft. induction fuel as [|fuel IH]; intros c it w; [reflexivity|]. cbn [from_iter_w from_iter].
    destruct (cact col c) as [t|k|k|]; [reflexivity| |apply IH|reflexivity].
    - unfold iter_till_next_w at 1, iter_till_next at 1. specialize (Hpre it w). unfold sim_pre in Hpre. rewrite <- Hpre.
      destruct (pre it w) as [[it1|it1| |] w1]; cbn [fst]; auto.
      destruct it1 as [st [] [] i d]. unfold pure. cbn [tt_ps tt_es tt_buf tt_data tt_state]. specialize (Hp w1 i). destruct (p w1 i) as [r w2]. simpl in Hp. subst.
      destruct (p' i); auto.
  Qed.

  Lemma bmany_till_sim : forall fuel r w i, fst (bmany_till_w fuel col p end_ r w i) = bmany_till fuel col r tt tt (pure p') (pure end') i.
  Proof.
    assert (Hrun : forall D fuel i (d : D) hint pre pre' on fin w, (forall it w, sim_pre (pre it w) (pre' it)) ->
      fst (run_iter_till_w fuel col i p d hint pre on fin w) = run_iter_till fuel col i tt tt (pure p') d hint pre' on fin).
    { intros D fuel i d hint pre pre' on fin w Hpre. unfold run_iter_till_w, run_iter_till.
      pose proof (from_iter_till_sim pre pre' on hint Hpre fuel (cinit col) (mkIterTill (TIncomplete 1) tt tt i d) w) as H.
      unfold sim_ft in H. rewrite <- H.
      match goal with |- context [from_iter_w ?a ?b ?c ?d ?e ?f ?g] => destruct (from_iter_w a b c d e f g) as [[t it| |] w1] end; reflexivity. }
    intros fuel r w i. destruct r as [a b|a| |b|n];
      unfold bmany_till_w, bmany_till, many_till_range, many_till_from, many_till_full, many_till_to, many_till_exact.
    1: destruct (negb (a <=? b)); [reflexivity|]. all: apply Hrun; intros it v.
    - apply pre_seq_sim.
      + destruct (fst (tt_data it) =? 0); [apply end_test_sim|reflexivity].
      + intros it1 w1. destruct (snd (tt_data it1) =? 0); [|reflexivity]. apply pre_seq_sim; [apply end_test_sim|]. intros. reflexivity.
    - destruct (tt_data it =? 0); [apply end_test_sim|reflexivity].
    - apply end_test_sim.
    - apply pre_seq_sim; [apply end_test_sim|]. intros it1 w1. reflexivity.
    - destruct (tt_data it =? 0); [|reflexivity]. apply pre_seq_sim; [apply end_test_sim|]. intros. reflexivity.
  Qed.
End SimTill.

Lemma sep_item_sim : forall W I U V E N (conv : callback W N E) c (p : sparser W I U E) q (sep : sparser W I V N) s, answers conv c -> parses_as p q ->
  parses_as sep s -> sim (fun bw : bool * W => (fst bw, tt, tt)) (sep_item_w conv p sep) (sep_item c (pure q) (pure s)).
Proof.
  intros W I U V E N conv c p q sep s Hc Hp Hs [item w] i. unfold sep_item_w, sep_item, pure. cbn [fst].
  destruct item.
  - specialize (Hs w i). destruct (sep w i) as [r w1]. simpl in Hs. subst. destruct (s i) as [j v|b e|n| |]; simpl; auto.
    + specialize (Hp w1 j). destruct (p w1 j) as [r w2]. simpl in Hp. subst. destruct (q j); reflexivity.
    + destruct (answers_step e w1 Hc) as (w2 & ->). reflexivity.
  - simpl. specialize (Hp w i). destruct (p w i) as [r w2]. simpl in Hp. subst. destruct (q i); reflexivity.
Qed.

Lemma sep_by_sim : forall W I U V T E N C fuel (col : collector U T C) (conv : callback W N E) c (p : sparser W I U E) q (sep : sparser W I V N) s r,
  answers conv c -> parses_as p q -> parses_as sep s -> forall w i,
  fst (let '(r, (_, w)) := bmany_w fuel col (sep_item_w conv p sep) r (false, w) i in (r, w)) =
  bmany fuel col r (false, tt, tt) (sep_item c (pure q) (pure s)) i.
Proof.
  intros W I U V T E N C fuel col conv c p q sep s r Hc Hp Hs w i. pose proof (bmany_sim (sep_item_sim Hc Hp Hs) col fuel r (false, w) i) as H. cbn [fst] in H. rewrite <- H.
  destruct (bmany_w fuel col (sep_item_w conv p sep) r (false, w) i) as [res [b w1]]. reflexivity.
Qed.

Theorem renders_parses : forall W I T E (p : sparser W I T E) q, renders p q -> parses_as p q.
Proof.
  intros W I T E p q H. induction H.
  - intros w i. rewrite <- H0, <- H1. apply IHrenders.
  - assumption.
  - intros w i. specialize (IHrenders w i). destruct (p w i) as [r w1]. simpl in IHrenders. subst. destruct (q i) as [j t|b e|n| |]; simpl; auto.
    destruct (answers_step t w1 H) as (w2 & ->). reflexivity.
  - intros w i. specialize (IHrenders w i). destruct (p w i) as [r w1]. simpl in IHrenders. subst. destruct (q i) as [j t|b e|n| |]; simpl; auto.
    destruct (answers_step e w1 H) as (w2 & ->). reflexivity.
  - intros w i. specialize (IHrenders w i). destruct (p w i) as [r w1]. simpl in IHrenders. subst. destruct (q i) as [j t|b e|n| |]; simpl; auto.
    destruct (answers_step t w1 H) as (w2 & ->). reflexivity.
  - intros w i. specialize (IHrenders w i). destruct (p w i) as [r w1]. simpl in IHrenders. subst. apply bind_w_pure; auto.
  - intros w i. specialize (IHrenders1 w i). destruct (p w i) as [r w1]. simpl in IHrenders1. subst. unfold then_w, then_. apply bind_w_pure; auto.
  - apply satisfy_w_pure; assumption.
  - apply satisfy_with_w_pure; assumption.
  - apply token_w_pure; assumption.
  - apply not_token_w_pure; assumption.
  - apply take_while_w_pure; assumption.
  - apply take_while1_w_pure; assumption.
  - apply take_till_w_pure; assumption.
  - apply scan_w_pure; assumption.
  - apply run_scanner_w_pure; assumption.
  - apply string_w_pure; assumption.
  - apply option_w_pure; assumption.
  - apply or_w_pure; assumption.
  - apply matched_by_w_pure; assumption.
  - apply look_ahead_w_pure; assumption.
  - intros w i. apply (bmany_sim (sim_pure IHrenders)).
  - intros w i. apply (bskip_sim (sim_pure IHrenders)).
  - intros w i. apply (bmany_till_sim IHrenders1 IHrenders2).
  - intros w i. apply (sep_by_sim fuel col RFull H IHrenders1 IHrenders2 w i).
  - intros w i. apply (sep_by_sim fuel col (RFrom 1) H IHrenders1 IHrenders2 w i).
Qed.
