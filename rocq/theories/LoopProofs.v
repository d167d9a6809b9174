(** Proofs for property C66. *)
From Coq Require Import List Bool Arith Lia.
From Verif Require Import Base Parsers Combinators Buffer Stream SpecBase SpecSafe SpecStream SpecIter SpecLaws SpecLoop IterProofs ManyProofs LawsProofs BufferProofs.
Import ListNotations.

Set Implicit Arguments.

Section Loop.
  Context {I T E : Type}.
  Variable p : parser I T E.
  Hypothesis Hp : well_behaved p.
  Hypothesis Hempty : fails_on p (mkInput true []).

  Notation at_ rest := (mkInput true rest).
  Notation runs := (fun rest0 vs rest => iterates (pure p) tt (at_ rest0) vs tt (at_ rest)).

  Lemma not_empty : forall rest j v, p (at_ rest) = Data j v -> rest <> [].
  Proof. intros rest j v H ->. destruct Hempty as [(b & e & H1)|(n & H1)]; congruence. Qed.
  Lemma not_empty_panic : forall rest, p (at_ rest) = Panic -> rest <> [].
  Proof. intros rest H ->. destruct Hempty as [(b & e & H1)|(n & H1)]; congruence. Qed.

  Lemma slice_data : forall pos data j v, pos <= length data -> p (at_ (skipn pos data)) = Data j v ->
    exists pos', slice_parse p (mkSliceStream pos data) = Done (mkSliceStream pos' data, inl v) /\ pos' <= length data /\ j = at_ (skipn pos' data).
  Proof.
    intros pos data j v Hl H. pose proof (Hp (at_ (skipn pos data))) as Hh. rewrite H in Hh. destruct Hh as [Hm [pre Hs]]. cbn [buf last] in *.
    pose proof (not_empty H) as Hne. assert (Hn : 0 < length (skipn pos data)) by (destruct (skipn pos data); [congruence|cbn; lia]). rewrite skipn_length in Hn.
    pose proof (f_equal (@length I) Hs) as Hlen. rewrite skipn_length, app_length in Hlen.
    exists (pos + (length data - pos - length (buf j))). unfold slice_parse, slice_is_empty, slice_len, usize_sub. cbn [ss_pos ss_slice].
    destruct (Nat.leb_spec pos (length data)) as [_|]; [|lia]. cbn [run_bind]. destruct (Nat.eqb_spec (length data - pos) 0) as [|_]; [lia|].
    rewrite H. cbn [run_bind]. destruct (Nat.leb_spec (length (buf j)) (length data - pos)) as [_|]; [|lia]. cbn [run_bind]. split; [reflexivity|].
    split; [lia|]. destruct j as [l b]. cbn [buf last] in *. subst l. f_equal.
    rewrite <- (Nat.add_comm (length data - pos - length b)), <- skipn_skipn, Hs.
    replace (length data - pos - length b) with (length pre) by lia. rewrite skipn_app, skipn_all, Nat.sub_diag. reflexivity.
  Qed.
  Lemma slice_ending : forall pos data e, pos <= length data -> ending p (skipn pos data) e ->
    exists s', exists r, slice_parse p (mkSliceStream pos data) = Done (s', inr r) /\ forget (T := T) (inr r) = inr e.
  Proof.
    intros pos data e Hl H. unfold slice_parse, slice_is_empty, slice_len, usize_sub. cbn [ss_pos ss_slice].
    destruct (Nat.leb_spec pos (length data)) as [_|]; [|lia]. cbn [run_bind]. pose proof (skipn_length pos data) as Hlen.
    destruct (Nat.eqb_spec (length data - pos) 0) as [Hz|Hz].
    - destruct (skipn pos data); [|cbn in Hlen; lia]. cbn in H. subst e. eexists _, _. split; reflexivity.
    - unfold ending in H. destruct (skipn pos data) as [|x l] eqn:Hs; [cbn in Hlen; lia|]. rewrite <- Hs in *. destruct H as [(b & y & H & ->)|(n & H & ->)].
      + pose proof (Hp (at_ (skipn pos data))) as Hh. rewrite H in Hh. destruct Hh as [pre Hh]. cbn [buf] in Hh. apply (f_equal (@length I)) in Hh.
        rewrite app_length in Hh. rewrite H. cbn [run_bind]. destruct (Nat.leb_spec (length b) (length data - pos)) as [_|]; [|lia]. cbn [run_bind].
        eexists _, _. split; reflexivity.
      + rewrite H. cbn [run_bind]. eexists _, _. split; [reflexivity|]. cbn. rewrite Hlen. reflexivity.
  Qed.
  Lemma slice_panic : forall pos data, pos <= length data -> p (at_ (skipn pos data)) = Panic -> slice_parse p (mkSliceStream pos data) = Panicked.
  Proof.
    intros pos data Hl H. pose proof (not_empty_panic H) as Hne. assert (Hn : 0 < length (skipn pos data)) by (destruct (skipn pos data); [congruence|cbn; lia]).
    rewrite skipn_length in Hn. unfold slice_parse, slice_is_empty, slice_len, usize_sub. cbn [ss_pos ss_slice].
    destruct (Nat.leb_spec pos (length data)) as [_|]; [|lia]. cbn [run_bind]. destruct (Nat.eqb_spec (length data - pos) 0) as [|_]; [lia|]. rewrite H. reflexivity.
  Qed.

  Lemma runs_cons : forall rest0 v vs rest, runs rest0 (v :: vs) rest -> exists j, p (at_ rest0) = Data j v /\ iterates (pure p) tt j vs tt (at_ rest).
  Proof. intros rest0 v vs rest H. inversion H; subst. unfold pure in H4. inversion H4; subst. eauto. Qed.

  Lemma loop_ends : forall vs n pos data rest e, pos <= length data -> runs (skipn pos data) vs rest -> ending p rest e -> length vs < n ->
    on_slice (until_failure p n) (mkSliceStream pos data) = Done (List.map inl vs ++ [inr e]).
  Proof.
    induction vs as [|v vs IH]; intros [|n] pos data rest e Hl Hr He Hn; cbn in Hn; try lia; cbn [until_failure on_slice].
    - inversion Hr; subst. destruct (@slice_ending _ _ _ Hl He) as (s' & r & Hs & Hf). rewrite Hs. cbn [run_bind]. rewrite Hf. cbn. reflexivity.
    - apply runs_cons in Hr. destruct Hr as (j & Hj & Hr). destruct (@slice_data _ _ _ _ Hl Hj) as (pos' & Hs & Hl' & ->). rewrite Hs. cbn [run_bind forget].
      rewrite (IH n pos' data rest e Hl' Hr He) by lia. reflexivity.
  Qed.
  Lemma loop_goes_on : forall vs pos data rest, pos <= length data -> runs (skipn pos data) vs rest ->
    on_slice (until_failure p (length vs)) (mkSliceStream pos data) = Done (List.map inl vs).
  Proof.
    induction vs as [|v vs IH]; intros pos data rest Hl Hr; cbn [length until_failure on_slice]; [reflexivity|].
    apply runs_cons in Hr. destruct Hr as (j & Hj & Hr). destruct (@slice_data _ _ _ _ Hl Hj) as (pos' & Hs & Hl' & ->). rewrite Hs. cbn [run_bind forget].
    rewrite (IH pos' data rest Hl' Hr). reflexivity.
  Qed.
  Lemma loop_panics : forall vs n pos data rest, pos <= length data -> runs (skipn pos data) vs rest -> p (at_ rest) = Panic -> length vs < n ->
    on_slice (until_failure p n) (mkSliceStream pos data) = Panicked.
  Proof.
    induction vs as [|v vs IH]; intros [|n] pos data rest Hl Hr He Hn; cbn in Hn; try lia; cbn [until_failure on_slice].
    - inversion Hr; subst. rewrite (@slice_panic _ _ Hl He). reflexivity.
    - apply runs_cons in Hr. destruct Hr as (j & Hj & Hr). destruct (@slice_data _ _ _ _ Hl Hj) as (pos' & Hs & Hl' & ->). rewrite Hs. cbn [run_bind forget].
      rewrite (IH n pos' data rest Hl' Hr He) by lia. reflexivity.
  Qed.

  Hypothesis Hdec : forall i, p i <> NoFuel.

  Lemma loop_cases : forall n rest0, exists vs rest, runs rest0 vs rest /\
    (length vs = n \/ length vs < n /\ ((exists e, ending p rest e) \/ p (at_ rest) = Panic)).
  Proof.
    induction n as [|n IH]; intros rest0; [exists [], rest0; split; [constructor|auto]|].
    pose proof (Hp (at_ rest0)) as Hh. destruct (p (at_ rest0)) as [j v|b e|m| |] eqn:H.
    - destruct Hh as [Hl _]. destruct j as [l b]. cbn in Hl. subst l. destruct (IH b) as (vs & rest & H1 & H2). exists (v :: vs), rest.
      split; [econstructor; [unfold pure; rewrite H; reflexivity|exact H1]|]. cbn [length]. destruct H2 as [H2|[H2 H3]]; [left; lia|right; split; [lia|exact H3]].
    - exists [], rest0. split; [constructor|]. right. split; [cbn; lia|]. left. destruct rest0 as [|x l]; [exists SEndOfInput; reflexivity|].
      exists (SParseError [] e). left. eauto.
    - exists [], rest0. split; [constructor|]. right. split; [cbn; lia|]. left. destruct rest0 as [|x l]; [exists SEndOfInput; reflexivity|].
      exists (SIncomplete (m + length (x :: l))). right. eauto.
    - exists [], rest0. split; [constructor|]. right. split; [cbn; lia|]. right. exact H.
    - exfalso. exact (@Hdec _ H).
  Qed.

  Lemma values_eq : forall (vs vs' : list T) (e e' : stream_error I E),
    List.map inl vs ++ [inr e] = List.map inl vs' ++ [inr e'] -> vs = vs' /\ e = e'.
  Proof.
    induction vs as [|v vs IH]; intros [|v' vs'] e e' H; cbn in H; inversion H; subst; auto. destruct (IH _ _ _ H2); subst; auto.
  Qed.
  Lemma values_neq : forall (vs vs' : list T) (e : stream_error I E), List.map inl vs <> List.map inl vs' ++ [inr e].
  Proof. induction vs as [|v vs IH]; intros [|v' vs'] e H; cbn in H; inversion H; subst; eapply IH; eassumption. Qed.

  Lemma on_slice_ends : forall n data vs e, on_slice (until_failure p n) (slice_new data) = Done (List.map inl vs ++ [inr e]) ->
    exists rest, runs data vs rest /\ ending p rest e /\ length vs < n.
  Proof.
    intros n data vs e H. destruct (loop_cases n data) as (ws & rest & Hr & Hc). unfold slice_new in H.
    destruct Hc as [Hc|[Hc [[x Hx]|Hx]]].
    - subst n. rewrite (@loop_goes_on ws 0 data rest) in H by (auto; cbn; lia). inversion H. exfalso. eapply values_neq; eassumption.
    - rewrite (@loop_ends ws n 0 data rest x) in H by (auto; cbn; lia). inversion H. destruct (values_eq _ _ _ _ H1); subst. eauto.
    - rewrite (@loop_panics ws n 0 data rest) in H by (auto; cbn; lia). discriminate.
  Qed.
  Lemma on_slice_panics : forall n data, on_slice (until_failure p n) (slice_new data) = Panicked ->
    exists vs rest, runs data vs rest /\ p (at_ rest) = Panic /\ length vs < n.
  Proof.
    intros n data H. destruct (loop_cases n data) as (ws & rest & Hr & Hc). unfold slice_new in H.
    destruct Hc as [Hc|[Hc [[x Hx]|Hx]]].
    - subst n. rewrite (@loop_goes_on ws 0 data rest) in H by (auto; cbn; lia). discriminate.
    - rewrite (@loop_ends ws n 0 data rest x) in H by (auto; cbn; lia). discriminate.
    - eauto.
  Qed.

  Lemma full_grows : forall k, may_grow RFull k.
  Proof. intros k. exists (S k). split; [lia|exact Logic.I]. Qed.
  Lemma iterates_last : forall s i us s' j, iterates (pure p) s i us s' j -> last i = true -> last j = true.
  Proof.
    intros s i us s' j H. induction H as [|s i u s1 i1 us s2 i2 H H0 IH]; auto. intros Hl. apply IH. unfold pure in H. inversion H; subst.
    pose proof (Hp i) as Hh. rewrite H2 in Hh. destruct Hh. congruence.
  Qed.

  Lemma many_data : forall data j vs, settles (fun fuel => many fuel (vec_collector T) tt (pure p) (at_ data)) (Data j vs) <->
    exists rest, j = at_ rest /\ runs data vs rest /\ exists e, ending p rest e.
  Proof.
    intros data j vs. unfold many. rewrite many_settles by (exists 0; exact Logic.I). split.
    - intros H. inversion H as [us s j' H1 _ H3| | |]; subst. destruct H3 as [H3|H3]; [destruct (H3 (full_grows _))|].
      pose proof (iterates_last H1 eq_refl) as Hl. destruct j as [l rest]. cbn in Hl. subst l. exists rest. split; [reflexivity|].
      destruct (iterates_unit H1) as [_ ->]. split; [assumption|]. unfold gives_up, pure in H3. cbn [fst] in H3. destruct rest as [|x l]; [exists SEndOfInput; reflexivity|].
      destruct H3 as [(b & e & H3)|(n & H3 & _)]; eexists; [left|right]; eauto.
    - intros (rest & -> & Hr & e & He). eapply mo_data; [exact Hr|exact Logic.I|]. right. unfold gives_up, pure. cbn [fst last].
      destruct rest as [|x l].
      + destruct Hempty as [(b & y & H)|(n & H)]; [left|right]; eauto.
      + destruct He as [(b & y & H & _)|(n & H & _)]; [left|right]; eauto.
  Qed.
  Lemma many_panic : forall data, settles (fun fuel => many fuel (vec_collector T) tt (pure p) (at_ data)) Panic <->
    exists vs rest, runs data vs rest /\ p (at_ rest) = Panic.
  Proof.
    intros data. unfold many. rewrite many_settles by (exists 0; exact Logic.I). split.
    - intros H. inversion H as [| | |us s j H0 _ H1]; subst. destruct (iterates_unit H0) as [_ ->]. pose proof (iterates_last H0 eq_refl) as Hl. destruct j as [l rest]. cbn in Hl. subst l. eauto.
    - intros (vs & rest & Hr & H). eapply mo_panic; [exact Hr|apply full_grows|]. exact H.
  Qed.
  (** At the end of the input [many] does nothing else. *)
  Lemma many_only : forall data res, settles (fun fuel => many fuel (vec_collector T) tt (pure p) (at_ data)) res -> res = Panic \/ exists j vs, res = Data j vs.
  Proof.
    intros data res. unfold many. rewrite many_settles by (exists 0; exact Logic.I). intros H. inversion H as [us s j H0 _ H1|us s j b e H0 H1 _ _|us s j n H0 _ _ H3|us s j H0 _ H1]; subst; eauto.
    - exfalso. apply H1. exact Logic.I.
    - exfalso. destruct H3 as [H3|H3]; [apply H3; exact Logic.I|]. pose proof (iterates_last H0 eq_refl). congruence.
  Qed.
End Loop.
