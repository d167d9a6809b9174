(** Proofs for property C65. *)
From Coq Require Import List Bool Arith Lia.
From Verif Require Import Base Parsers Combinators Buffer Stream Effects SpecBase SpecSafe SafeProofs Client SpecClient LinearProofs.
Import ListNotations.

Set Implicit Arguments.

Section Within.
  Context {I T E M : Type}.

  (** A set of inputs and one of remainders which honest parsers do not leave. *)
  Record shut (P : input I -> Prop) (PE : list I -> Prop) : Prop := {
    shut_buf : forall i, P i -> PE (buf i);
    shut_data : forall i j, P i -> last j = last i -> suffix (buf j) (buf i) -> P j;
    shut_error : forall i b, P i -> suffix b (buf i) -> PE b }.

  Definition within_res (P : input I -> Prop) (PE : list I -> Prop) (r : pres I T E) : Prop :=
    match r with Data j _ => P j | Error b _ => PE b | Incomplete n => 1 <= n | Panic | NoFuel => True end.
  Definition within (P : input I -> Prop) (PE : list I -> Prop) (h : handle I T E) : Prop :=
    match h with HIn i => P i | HRes r => within_res P PE r end.

  Lemma within_honest : forall P PE i (r : pres I T E), shut P PE -> P i -> honest i r -> within_res P PE r.
  Proof.
    intros P PE i r HP Hi Hr. destruct r as [j t|b e|n| |]; cbn in *; auto.
    - destruct Hr. eapply (shut_data HP); eauto.
    - eapply (shut_error HP); eauto.
  Qed.

  (** How many variables may be held while a call is made, and in between. *)
  Variable rest live : nat -> Prop.
  Hypothesis rest_live : forall n, rest n -> live n /\ live (S n).
  Hypothesis live_rest : forall n, live (S n) -> rest n.
  Hypothesis rest_0 : rest 0.

  Definition okp (w : hold I T E M) : Prop := live (peak w).
  Definition ok P PE (w : hold I T E M) : Prop := rest (length (hand w)) /\ Forall (within P PE) (hand w) /\ live (peak w).
  Definition alive P PE (w : hold I T E M) : Prop := live (length (hand w)) /\ Forall (within P PE) (hand w) /\ live (peak w).

  Lemma ok_okp : forall P PE w, ok P PE w -> okp w.
  Proof. intros P PE w (_ & _ & H). exact H. Qed.
  Lemma ok_alive : forall P PE w, ok P PE w -> alive P PE w.
  Proof. intros P PE w (H1 & H2 & H3). split; [apply rest_live; assumption|auto]. Qed.
  Lemma put_alive : forall P PE h w, ok P PE w -> within P PE h -> alive P PE (hold_put h w).
  Proof.
    intros P PE h w (H1 & H2 & H3) Hh. unfold alive, hold_put. cbn [hand peak length]. pose proof (proj2 (rest_live H1)) as H4.
    split; [assumption|]. split; [constructor; assumption|]. destruct (Nat.max_dec (peak w) (S (length (hand w)))) as [H|H]; rewrite H; assumption.
  Qed.
  Lemma take_ok : forall P PE n w h w', alive P PE w -> hold_take n w = Some (h, w') -> ok P PE w' /\ within P PE h.
  Proof.
    intros P PE n w h w' (H1 & H2 & H3) H. unfold hold_take in H. destruct (nth_error (hand w) n) as [x|] eqn:Hn; [|discriminate].
    inversion H; subst; clear H. rewrite Forall_forall in H2. split; [|apply H2; eapply nth_error_In; eassumption].
    change (match hand w with [] => [] | _ :: l => skipn n l end) with (skipn (S n) (hand w)).
    unfold ok. cbn [hand peak]. split; [|split; [|assumption]].
    - assert (Hl : n < length (hand w)) by (apply nth_error_Some; congruence).
      apply live_rest. rewrite app_length, firstn_length, skipn_length. replace (S _) with (length (hand w)) by lia. exact H1.
    - apply Forall_forall. intros y Hy. apply H2. rewrite <- (firstn_skipn n (hand w)). apply in_app_or in Hy. apply in_or_app. destruct Hy as [Hy|Hy]; [auto|].
      right. replace (S n) with (1 + n) in Hy by reflexivity. rewrite <- (firstn_skipn 1 (skipn n (hand w))). apply in_or_app. right.
      clear - Hy. revert Hy. generalize (hand w). induction n as [|n IH]; intros l Hy; [exact Hy|]. destruct l as [|a l]; [exact Hy|]. apply IH. exact Hy.
  Qed.

  Definition fine P PE (x : pres I T E * hold I T E M) : Prop := keeps (ok P PE) okp P PE x.

  Lemma on_input_fine : forall P PE n w f, alive P PE w -> (forall i w, ok P PE w -> P i -> fine P PE (f i w)) -> fine P PE (on_input n w f).
  Proof.
    intros P PE n w f Hw Hf. unfold on_input. destruct (hold_take n w) as [[[i|r] w']|] eqn:H; try exact (proj2 (proj2 Hw)).
    - destruct (take_ok _ Hw H). apply Hf; assumption.
  Qed.
  Lemma on_result_fine : forall P PE n w f, alive P PE w -> (forall r w, ok P PE w -> within_res P PE r -> fine P PE (f r w)) -> fine P PE (on_result n w f).
  Proof.
    intros P PE n w f Hw Hf. unfold on_result. destruct (hold_take n w) as [[[i|r] w']|] eqn:H; try exact (proj2 (proj2 Hw)).
    - destruct (take_ok _ Hw H). apply Hf; assumption.
  Qed.
  Lemma res_fine : forall P PE (r : pres I T E) w, ok P PE w -> within_res P PE r -> fine P PE (r, w).
  Proof. intros P PE r w Hw Hr. unfold fine, keeps. destruct r; cbn in *; auto; eapply ok_okp; eassumption. Qed.
  Lemma and_then_fine : forall P PE x k, fine P PE x -> (forall w, alive P PE w -> fine P PE (k w)) -> fine P PE (and_then x k).
  Proof.
    intros P PE [r w] k Hx Hk. unfold fine, keeps in Hx. destruct r; cbn in *; try exact Hx; destruct Hx; apply Hk; apply put_alive; cbn; assumption.
  Qed.
  Lemma put_fine : forall P PE r w k, ok P PE w -> within_res P PE r -> (forall w, alive P PE w -> fine P PE (k w)) ->
    fine P PE (k (hold_put (HRes r) w)).
  Proof. intros P PE r w k Hw Hr Hk. apply Hk. apply put_alive; assumption. Qed.

  Definition quiet {A B} (f : callback (hold I T E M) A B) : Prop := forall a w, hand (snd (f a w)) = hand w /\ peak (snd (f a w)) = peak w.
  Lemma quiet_restores : forall P PE A B (f : callback (hold I T E M) A B), quiet f -> restores (ok P PE) f.
  Proof. intros P PE A B f Hf a w (H1 & H2 & H3). destruct (Hf a w) as [Ha Hb]. unfold ok. rewrite Ha, Hb. auto. Qed.
  Lemma on_memory_quiet : forall A B (f : callback M A B), quiet (on_memory f).
  Proof. intros A B f a w. unfold on_memory. destruct (f a (mem w)). cbn. auto. Qed.
  Lemma pure_quiet : forall A B (g : A -> B), quiet (fun a w => (Some (g a), w)).
  Proof. intros A B g a w. cbn. auto. Qed.

  Variable O : input I -> Prop.
  Variable cap : Prop.
  Hypothesis O_free : forall i, O i -> forall n, rest n.
  Hypothesis cap_free : cap -> forall n, rest n.

  Lemma act_fine : forall c, uses O cap c -> forall P PE, shut P PE -> (forall i, O i -> P i) ->
    forall w, alive P PE w -> fine P PE (act c w).
  Proof.
    intros c. induction c; intros Hu P PE HP HO w Hw; cbn [act uses] in *.
    - apply on_result_fine; auto. intros; apply res_fine; assumption.
    - exact (proj2 (proj2 Hw)).
    - apply on_input_fine; auto. intros i w1 H1 Hi. apply put_fine; auto.
    - apply on_input_fine; auto. intros i w1 H1 Hi. apply put_fine; auto. cbn. apply (@shut_buf _ _ HP i Hi).
    - destruct Hu as [Hn Hu]. apply on_input_fine; auto. intros i w1 H1 Hi. apply put_fine; auto.
    - destruct Hu as [Hb Hu]. apply on_input_fine; auto. intros i w1 H1 Hi. apply and_then_fine; auto. apply res_fine; auto.
      apply within_honest with (i := i); auto. apply built_well_behaved; assumption.
    - destruct Hu as [Hb Hu]. apply on_result_fine; auto. intros r w1 H1 Hr. apply and_then_fine; auto.
      apply keeps_bind; [apply ok_okp|apply quiet_restores; apply (pure_quiet (fun e : E => e))| |apply res_fine; assumption].
      intros t w2 i H2 Hi. apply H; auto. apply put_alive; assumption.
    - apply on_result_fine; auto. intros r w1 H1 Hr. apply and_then_fine; auto.
      apply keeps_map; [apply ok_okp|apply quiet_restores; apply on_memory_quiet|apply res_fine; assumption].
    - apply on_result_fine; auto. intros r w1 H1 Hr. apply and_then_fine; auto.
      apply keeps_map_err; [apply ok_okp|apply quiet_restores; apply on_memory_quiet|apply res_fine; assumption].
    - destruct Hu as [Hb Hu]. apply on_input_fine; auto. intros i w1 H1 Hi. apply and_then_fine; auto.
      apply respects_option; auto. intros w2 j H2 Hj. apply IHc1; auto. apply put_alive; assumption.
    - destruct Hu as (Hb1 & Hb2 & Hu). apply on_input_fine; auto. intros i w1 H1 Hi. apply and_then_fine; auto.
      apply respects_or; auto; intros w2 j H2 Hj; [apply IHc1|apply IHc2]; auto; apply put_alive; assumption.
    - destruct Hu as [Hb Hu]. apply on_input_fine; auto. intros i w1 H1 Hi.
      assert (Hr : respects (ok P PE) okp P PE (fun w i => act c1 (hold_put (HIn i) w))) by (intros w2 j H2 Hj; apply IHc1; auto; apply put_alive; assumption).
      pose proof (@respects_matched_by _ _ _ _ (@ok_okp P PE) P PE _ _ _ Hr w1 i H1 Hi) as Hm. destruct (matched_by_w _ w1 i) as [r w2].
      apply and_then_fine; auto. apply keeps_map; [apply ok_okp|apply quiet_restores; apply pure_quiet|exact Hm].
    - destruct Hu as [Hb Hu]. apply on_input_fine; auto. intros i w1 H1 Hi. apply and_then_fine; auto.
      apply respects_look_ahead; auto. intros w2 j H2 Hj. apply IHc1; auto. apply put_alive; assumption.
    - destruct Hu as [Hb Hu]. apply on_input_fine; auto. intros i w1 H1 Hi. apply and_then_fine; auto.
      apply respects_bmany; auto; [apply ok_okp|]. intros w2 j H2 Hj. apply IHc1; auto. apply put_alive; assumption.
    - destruct Hu as (Hb1 & Hb2 & Hu). apply on_input_fine; auto. intros i w1 H1 Hi. apply and_then_fine; auto.
      apply respects_bmany_till; auto; [apply ok_okp|..]; intros w2 j H2 Hj; [apply IHc1|apply IHc2]; auto; apply put_alive; assumption.
    - destruct Hu as [Hb Hu]. apply on_input_fine; auto. intros i w1 H1 Hi.
      assert (Hr : respects (ok P PE) okp P PE (fun w i => act c1 (hold_put (HIn i) w))) by (intros w2 j H2 Hj; apply IHc1; auto; apply put_alive; assumption).
      pose proof (@respects_bskip_many _ _ _ _ (@ok_okp P PE) P PE _ _ _ Hr fuel r w1 i H1 Hi) as Hm. destruct (bskip_many_w _ fuel r w1 i) as [x w2].
      apply and_then_fine; auto. apply keeps_map; [apply ok_okp|apply quiet_restores; apply (pure_quiet (fun _ : unit => t))|exact Hm].
    - destruct Hu as (Hb1 & Hb2 & Hu). apply on_input_fine; auto. intros i w1 H1 Hi.
      assert (Hr1 : respects (ok P PE) okp P PE (fun w i => act c1 (hold_put (HIn i) w))) by (intros w2 j H2 Hj; apply IHc1; auto; apply put_alive; assumption).
      assert (Hr2 : respects (ok P PE) okp P PE (fun w i => act c2 (hold_put (HIn i) w))) by (intros w2 j H2 Hj; apply IHc2; auto; apply put_alive; assumption).
      pose proof (@respects_sep _ _ _ _ P PE _ _ _ _ _ _ fuel col same _ _ r (@ok_okp P PE) (quiet_restores (pure_quiet (fun e : E => e))) Hr1 Hr2 w1 i H1 Hi) as Hm.
      cbv beta in Hm. destruct (bmany_w fuel col _ r (false, w1) i) as [x [b w2]]. apply and_then_fine; auto.
    - apply H; auto.
    - apply IHc; auto.
    - destruct (hold_take h w) as [[x w1]|] eqn:Ht; [|exact (proj2 (proj2 Hw))]. apply IHc; auto. apply ok_alive. eapply take_ok; eassumption.
    - destruct Hu as (Hs & Hb & Hk). destruct captures.
      + destruct (Hs eq_refl) as [Hc HOs]. pose proof (cap_free Hc) as Hfree. unfold parse_only_w.
        assert (Hin : fine P PE (act c (hold_put (HIn (mkInput true s)) w))).
        { apply IHc; auto. apply put_alive; [|cbn; auto]. destruct Hw as (H1 & H2 & H3). split; auto. }
        unfold fine, keeps in Hin. destruct (act c (hold_put (HIn (mkInput true s)) w)) as [[j t|b e|n| |] w1]; cbn in *; try exact Hin;
          destruct Hin; apply H; auto; apply ok_alive; assumption.
      + set (w0 := mkHold [] (peak w) (mem w)). unfold parse_only_w.
        set (P' := fun j => P j \/ (last j = true /\ suffix (buf j) s)). set (PE' := fun b => PE b \/ suffix b s).
        assert (HP' : shut P' PE').
        { split.
          - intros i [Hi|[_ Hi]]; [left; apply (@shut_buf _ _ HP i Hi)|right; assumption].
          - intros i j [Hi|[Hl Hi]] Hj1 Hj2; [left; eapply (shut_data HP); eauto|]. right. split; [congruence|eapply suffix_trans; eauto].
          - intros i b [Hi|[Hl Hi]] Hj; [left; eapply (shut_error HP); eauto|]. right. eapply suffix_trans; eauto. }
        assert (Hin : fine P' PE' (act c (hold_put (HIn (mkInput true s)) w0))).
        { apply IHc; auto; [intros i Hi; left; auto|]. apply put_alive; [|right; cbn; auto with safe]. destruct Hw as (H1 & H2 & H3).
          split; [exact rest_0|]. split; [constructor|assumption]. }
        unfold fine, keeps in Hin.
        assert (Hpk : okp (snd (act c (hold_put (HIn (mkInput true s)) w0)))).
        { destruct (act c (hold_put (HIn (mkInput true s)) w0)) as [[j t|b e|n| |] w1]; cbn in *; try exact Hin; destruct Hin; eapply ok_okp; eassumption. }
        clear Hin. destruct (act c (hold_put (HIn (mkInput true s)) w0)) as [[j t|b e|n| |] w1]; cbn in *; try exact Hpk;
          apply H; auto; destruct Hw as (H1 & H2 & H3); split; auto.
    - destruct Hu as [Hi Hu]. apply IHc; auto. apply put_alive; [|cbn; auto]. destruct Hw as (H1 & H2 & H3). split; auto. eapply O_free; eassumption.
  Qed.
End Within.

(** * Clients without loops *)

Section Returns.
  Context {I T E M : Type}.
  Definition returned (h : handle I T E) : Prop := match h with HRes NoFuel => False | _ => True end.
  Definition sound_hold (w : hold I T E M) : Prop := Forall returned (hand w).
  Definition sound_res {U} (x : pres I U E * hold I T E M) : Prop := fst x <> NoFuel /\ sound_hold (snd x).

  Lemma sound_take : forall n w h w1, sound_hold w -> hold_take n w = Some (h, w1) -> returned h /\ sound_hold w1.
  Proof.
    intros n w h w1 Hw H. unfold hold_take in H. destruct (nth_error (hand w) n) as [h'|] eqn:En; inversion H; subst. unfold sound_hold in *. rewrite Forall_forall in Hw. split.
    - apply Hw. eapply nth_error_In; eassumption.
    - cbn [hand]. rewrite Forall_forall. intros x Hx. apply in_app_or in Hx. apply Hw. destruct Hx as [Hx|Hx]; [rewrite <- (firstn_skipn n)|rewrite <- (firstn_skipn (S n))]; apply in_or_app; auto.
  Qed.
  Lemma sound_put : forall h w, returned h -> sound_hold w -> sound_hold (hold_put h w).
  Proof. intros h w Hh Hw. constructor; assumption. Qed.
  Lemma sound_in : forall i w, sound_hold w -> sound_hold (hold_put (HIn i) w).
  Proof. intros i w. apply sound_put. exact Logic.I. Qed.
  Lemma sound_input : forall n w f, sound_hold w -> (forall i w, sound_hold w -> sound_res (f i w)) -> sound_res (on_input n w f).
  Proof.
    intros n w f Hw Hf. unfold on_input. destruct (hold_take n w) as [[[i|r] w1]|] eqn:Et; [|split; [discriminate|assumption]|split; [discriminate|assumption]].
    apply Hf. apply (sound_take _ Hw Et).
  Qed.
  Lemma sound_result : forall n w f, sound_hold w -> (forall r w, r <> NoFuel -> sound_hold w -> sound_res (f r w)) -> sound_res (on_result n w f).
  Proof.
    intros n w f Hw Hf. unfold on_result. destruct (hold_take n w) as [[[i|r] w1]|] eqn:Et; [split; [discriminate|assumption]| |split; [discriminate|assumption]].
    destruct (sound_take _ Hw Et) as [Hr H1]. apply Hf; [|assumption]. intros ->. exact Hr.
  Qed.
  Lemma sound_then : forall x k, sound_res x -> (forall w, sound_hold w -> sound_res (k w)) -> sound_res (and_then x k).
  Proof.
    intros [r w] k [Hr Hw] Hk. unfold and_then. cbn [fst snd] in *. destruct r; try (apply Hk, sound_put; [exact Logic.I|assumption]); [split; [discriminate|assumption]|congruence].
  Qed.
  Lemma sound_memory : forall A B (f : callback M A B) a (w : hold I T E M), sound_hold w -> sound_hold (snd (on_memory f a w)).
  Proof. intros A B f a w Hw. unfold on_memory. destruct (f a (mem w)). exact Hw. Qed.

  Lemma act_returns : forall c : client I T E M, loopless c -> forall w, sound_hold w -> sound_res (act c w).
  Proof.
    induction c; intros Hl w Hw; cbn [loopless act] in *; try contradiction.
    - apply sound_result; [assumption|]. intros r w1 Hr H1. split; assumption.
    - split; [discriminate|assumption].
    - apply sound_input; [assumption|]. intros i w1 H1. apply IHc; [assumption|]. apply sound_put; [exact Logic.I|assumption].
    - apply sound_input; [assumption|]. intros i w1 H1. apply IHc; [assumption|]. apply sound_put; [exact Logic.I|assumption].
    - apply sound_input; [assumption|]. intros i w1 H1. apply IHc; [assumption|]. apply sound_put; [exact Logic.I|assumption].
    - destruct Hl as [Hp Hk]. apply sound_input; [assumption|]. intros i w1 H1. apply sound_then; [split; [apply Hp|assumption]|auto].
    - destruct Hl as [Hb Hk]. apply sound_result; [assumption|]. intros r w1 Hr H1. apply sound_then; [|auto]. destruct r as [j t|b e|n| |]; cbn [bind_w same]; try (split; [discriminate|assumption]); [|congruence].
      destruct (H t (Hb t) (hold_put (HIn j) w1) (sound_in _ H1)) as [H2 H3]. destruct (act (body t) (hold_put (HIn j) w1)) as [[j' t'|b' e'|n'| |] w2]; cbn [fst snd map_err_w] in *; try (split; [discriminate|assumption]); congruence.
    - apply sound_result; [assumption|]. intros r w1 Hr H1. apply sound_then; [|auto]. destruct r as [j t|b e|n| |]; cbn [map_w]; try (split; [discriminate|assumption]); [|congruence].
      pose proof (sound_memory f t H1) as H2. destruct (on_memory f t w1) as [[u|] w2]; (split; [discriminate|exact H2]).
    - apply sound_result; [assumption|]. intros r w1 Hr H1. apply sound_then; [|auto]. destruct r as [j t|b e|n| |]; cbn [map_err_w]; try (split; [discriminate|assumption]); [|congruence].
      pose proof (sound_memory f e H1) as H2. destruct (on_memory f e w1) as [[u|] w2]; (split; [discriminate|exact H2]).
    - destruct Hl as [Hb Hk]. apply sound_input; [assumption|]. intros i w1 H1. apply sound_then; [|auto]. unfold option_w.
      destruct (IHc1 Hb _ (sound_in i H1)) as [H2 H3]. destruct (act c1 (hold_put (HIn i) w1)) as [[j' t'|b' e'|n'| |] w2]; cbn [fst snd] in *; try (split; [discriminate|assumption]); [|congruence].
      destruct (last i); (split; [discriminate|assumption]).
    - destruct Hl as (Hb1 & Hb2 & Hk). apply sound_input; [assumption|]. intros i w1 H1. apply sound_then; [|auto]. unfold or_w.
      destruct (IHc1 Hb1 _ (sound_in i H1)) as [H2 H3]. destruct (act c1 (hold_put (HIn i) w1)) as [[j' t'|b' e'|n'| |] w2]; cbn [fst snd] in *; try (split; [discriminate|assumption]); [| |congruence].
      + apply IHc2; [assumption|]. apply sound_in. assumption.
      + destruct (last i); [|split; [discriminate|assumption]]. apply IHc2; [assumption|]. apply sound_in. assumption.
    - destruct Hl as [Hb Hk]. apply sound_input; [assumption|]. intros i w1 H1. unfold matched_by_w.
      destruct (IHc1 Hb _ (sound_in i H1)) as [H2 H3]. destruct (act c1 (hold_put (HIn i) w1)) as [[j' t'|b' e'|n'| |] w2]; cbn [fst snd] in *.
      + apply sound_then; [|auto]. destruct (_ <? _); cbn [map_w ret]; (split; [discriminate|assumption]).
      + apply sound_then; [|auto]. split; [discriminate|assumption].
      + apply sound_then; [|auto]. split; [discriminate|assumption].
      + apply sound_then; [|auto]. split; [discriminate|assumption].
      + congruence.
    - destruct Hl as [Hb Hk]. apply sound_input; [assumption|]. intros i w1 H1. apply sound_then; [|auto]. unfold look_ahead_w.
      destruct (IHc1 Hb _ (sound_in i H1)) as [H2 H3]. destruct (act c1 (hold_put (HIn i) w1)) as [[j' t'|b' e'|n'| |] w2]; cbn [fst snd] in *; try (split; [discriminate|assumption]); congruence.
    - apply H; auto.
    - apply IHc; assumption.
    - destruct (hold_take h w) as [[x w1]|] eqn:Et; [|split; [discriminate|assumption]]. apply IHc; [assumption|]. apply (sound_take _ Hw Et).
    - destruct Hl as [Hb Hk].
      assert (Ho : forall w0, sound_hold w0 -> match parse_only_w (fun w i => act c (hold_put (HIn i) w)) s w0 with (o, w') => o <> ONoFuel /\ sound_hold w' end).
      { intros w0 H0. unfold parse_only_w. destruct (IHc Hb _ (sound_in (mkInput true s) H0)) as [H2 H3].
        destruct (act c (hold_put (HIn (mkInput true s)) w0)) as [[j' t'|b' e'|n'| |] w2]; cbn [fst snd] in *; try (split; [discriminate|assumption]); congruence. }
      assert (Hend : forall o w', o <> ONoFuel -> sound_hold w' ->
        sound_res (match o with OOk t => act (k (inl t)) w' | OErr e => act (k (inr e)) w' | OPanic => (Panic, w') | ONoFuel => (NoFuel, w') end)).
      { intros [t|e| |] w' Ho' Hw'; [apply H; auto|apply H; auto|split; [discriminate|assumption]|congruence]. }
      destruct captures.
      + specialize (Ho w Hw). destruct (parse_only_w _ s w) as [o w']. apply Hend; apply Ho.
      + specialize (Ho (mkHold [] (peak w) (mem w)) (Forall_nil _)). destruct (parse_only_w _ s _) as [o w']. apply Hend; [apply Ho|exact Hw].
    - apply IHc; [assumption|]. apply sound_in. assumption.
  Qed.
End Returns.
