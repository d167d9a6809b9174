(** Repetition with acting callbacks, against SpecEffects.v. *)
From Coq Require Import List Bool Arith Lia.
From Verif Require Import Base Parsers Combinators SpecIter SpecTill IterProofs ManyProofs TillProofs Effects SpecEffects EffectsProofs.
Import ListNotations.

Set Implicit Arguments.

(** [k] items can have been parsed. *)
Definition reach (r : range) (k : nat) : Prop := match k with 0 => True | S k' => may_grow r k' end.

Lemma nofuel_map : forall I T U E (f : T -> U) (r : pres I T E), map f r <> NoFuel -> r <> NoFuel.
Proof. intros I T U E f r H ->. apply H. reflexivity. Qed.

Lemma map_map' : forall I T U V E (f : T -> U) (g : U -> V) (r : pres I T E), map g (map f r) = map (fun x => g (f x)) r.
Proof. destruct r; reflexivity. Qed.

Lemma map_ext' : forall I T U E (f g : T -> U) (r : pres I T E), (forall x, f x = g x) -> map f r = map g r.
Proof. destruct r; simpl; intros H; rewrite ?H; reflexivity. Qed.

Section RunMany.
  Context {W I U E D : Type}.
  Variable r : range.
  Variable p : sparser W I U E.
  Variable d0 : D.
  Variable pre : D -> bool.
  Variable on : D -> D.

  (** What the final arms [fin] do, for results [T] made of the items by [mk]. *)
  Definition arms {T} (mk : list U -> T) (fin : T -> input I -> D -> end_state I E -> pres I T E) : Prop :=
    (forall k, reach r k -> (pre (Nat.iter k on d0) = true <-> ~ may_grow r k)) /\
    (forall us j k, reach r k -> ~ may_grow r k -> in_range r k /\ fin (mk us) j (Nat.iter k on d0) (ESIncomplete 1) = Data j (mk us)) /\
    (forall us j k b e, reach r k -> may_grow r k ->
       (in_range r k -> fin (mk us) j (Nat.iter k on d0) (ESError b e) = Data j (mk us)) /\
       (~ in_range r k -> fin (mk us) j (Nat.iter k on d0) (ESError b e) = Error b e)) /\
    (forall us j k n, reach r k -> may_grow r k -> (exists w i, fst (p w i) = Incomplete n) ->
       (in_range r k /\ last j = true -> fin (mk us) j (Nat.iter k on d0) (ESIncomplete n) = Data j (mk us)) /\
       (~ in_range r k \/ last j = false -> fin (mk us) j (Nat.iter k on d0) (ESIncomplete n) = Incomplete n)).

  Lemma pre_cases : forall T mk fin k, @arms T mk fin -> reach r k ->
    (pre (Nat.iter k on d0) = true /\ ~ may_grow r k) \/ (pre (Nat.iter k on d0) = false /\ may_grow r k).
  Proof.
    intros T mk fin k (H & _) Hk. specialize (H k Hk). destruct (pre (Nat.iter k on d0)).
    - left. split; auto. apply H. reflexivity.
    - right. split; auto. destruct (may_grow_dec r k) as [Hg|Hg]; auto. apply H in Hg. discriminate.
  Qed.

  Lemma may_inc : forall w i n w', p w i = (Incomplete n, w') -> exists w i, fst (p w i) = Incomplete n.
  Proof. intros w i n w' H. exists w, i. rewrite H. reflexivity. Qed.

  Section Vec.
    Variable hint : iter unit I E D -> nat * option nat.
    Variable fin : list U -> input I -> D -> end_state I E -> pres I (list U) E.
    Hypothesis Harms : arms (fun us => us) fin.

    Definition finish (x : fres (list U) (iter unit I E D) * W) : pres I (list U) E * W :=
      match x with
      | (FDone t it, w) => (fin t (it_buf it) (it_data it) (it_state it), w)
      | (FPanic, w) => (Panic, w)
      | (FNoFuel, w) => (NoFuel, w)
      end.
    Definition go (fuel k : nat) (acc : list U) (i : input I) (w : W) : pres I (list U) E * W :=
      finish (from_iter_w fuel (iter_next_w p pre on) hint (cact (vec_collector U)) (false, acc)
        (mkIter (ESIncomplete 1) tt i (Nat.iter k on d0)) w).

    Lemma go_step : forall fuel k acc i w, reach r k -> go (S (S fuel)) k acc i w =
      if pre (Nat.iter k on d0) then (fin acc i (Nat.iter k on d0) (ESIncomplete 1), w)
      else match p w i with
           | (Data j u, w1) => go (S fuel) (S k) (acc ++ [u]) j w1
           | (Error b e, w1) => (fin acc i (Nat.iter k on d0) (ESError b e), w1)
           | (Incomplete n, w1) => (fin acc i (Nat.iter k on d0) (ESIncomplete n), w1)
           | (Panic, w1) => (Panic, w1)
           | (NoFuel, w1) => (NoFuel, w1)
           end.
    Proof.
      intros fuel k acc i w Hk. unfold go.
      change (from_iter_w (S (S fuel)) (iter_next_w p pre on) hint (cact (vec_collector U)) (false, acc) (mkIter (ESIncomplete 1) tt i (Nat.iter k on d0)) w)
        with (match iter_next_w p pre on (mkIter (ESIncomplete 1) tt i (Nat.iter k on d0)) w with
              | (Yield u it', w) => from_iter_w (S fuel) (iter_next_w p pre on) hint (cact (vec_collector U)) (false, acc ++ [u]) it' w
              | (Stop it', w) => from_iter_w (S fuel) (iter_next_w p pre on) hint (cact (vec_collector U)) (true, acc) it' w
              | (StepPanic, w) => (FPanic, w)
              | (StepNoFuel, w) => (FNoFuel, w)
              end).
      unfold iter_next_w at 1. cbn [it_data it_buf it_state]. destruct (pre (Nat.iter k on d0)); [reflexivity|].
      destruct (p w i) as [[j u|b e|n| |] w1]; reflexivity.
    Qed.

    Lemma go_0 : forall k acc i w, go 0 k acc i w = (NoFuel, w).
    Proof. reflexivity. Qed.
    Lemma go_1 : forall k acc i w, (exists w', go 1 k acc i w = (NoFuel, w')) \/ (pre (Nat.iter k on d0) = false /\ exists w', p w i = (Panic, w') /\ go 1 k acc i w = (Panic, w')).
    Proof.
      intros k acc i w. unfold go. simpl. unfold iter_next_w. cbn [it_data it_buf it_state].
      destruct (pre (Nat.iter k on d0)); [left; eexists; reflexivity|]. destruct (p w i) as [[j u|b e|n| |] w1]; [left|left|left|right|left]; eauto.
      all: eexists; reflexivity.
    Qed.

    Lemma go_sound : forall fuel k acc i w res w', reach r k -> go fuel k acc i w = (res, w') -> res <> NoFuel ->
      exists res', many_goes r (fun _ => p) k w i res' w' /\ res = map (app acc) res'.
    Proof.
      destruct Harms as (H1 & H2 & H3 & H4).
      induction fuel as [|fuel IH]; intros k acc i w res w' Hk H Hnf.
      - rewrite go_0 in H. congruence.
      - pose proof (pre_cases k Harms Hk) as Hc. destruct fuel as [|fuel].
        + destruct (go_1 k acc i w) as [(w2 & Hx)|(Hp & w2 & Hpp & Hx)]; rewrite Hx in H; inversion H; subst; [congruence|].
          destruct Hc as [[Hc _]|[_ Hc]]; [congruence|]. exists Panic. split; auto. eapply mg_panic; eauto.
        + rewrite go_step in H by assumption. destruct Hc as [[Hpr Hg]|[Hpr Hg]]; rewrite Hpr in H.
          * destruct (H2 acc i k Hk Hg) as [Hin Hf]. rewrite Hf in H. inversion H; subst.
            exists (Data i []). split; [constructor; auto|]. simpl. rewrite app_nil_r. reflexivity.
          * destruct (p w i) as [[j u|b e|n| |] w1] eqn:Hp.
            -- destruct (IH (S k) (acc ++ [u]) j w1 res w' Hg H Hnf) as (res' & Hm & ->).
               exists (map (cons u) res'). split; [eapply mg_item; eauto|].
               rewrite map_map'. apply map_ext'. intros x. rewrite <- app_assoc. reflexivity.
            -- destruct (H3 acc i k b e Hk Hg) as [Ha Hb]. destruct (in_range_dec r k) as [Hin|Hin].
               ++ rewrite Ha in H by assumption. inversion H; subst. exists (Data i []). split; [eapply mg_stop; eauto|].
                  simpl. rewrite app_nil_r. reflexivity.
               ++ rewrite Hb in H by assumption. inversion H; subst. exists (Error b e). split; [eapply mg_error; eauto|]. reflexivity.
            -- destruct (H4 acc i k n Hk Hg (may_inc Hp)) as [Ha Hb]. destruct (in_range_dec r k) as [Hin|Hin]; [destruct (last i) eqn:Hl|].
               ++ rewrite Ha in H by auto. inversion H; subst. exists (Data i []). split; [eapply mg_end; eauto|].
                  simpl. rewrite app_nil_r. reflexivity.
               ++ rewrite Hb in H by auto. inversion H; subst. exists (Incomplete n). split; [eapply mg_incomplete; eauto|]. reflexivity.
               ++ rewrite Hb in H by auto. inversion H; subst. exists (Incomplete n). split; [eapply mg_incomplete; eauto|]. reflexivity.
            -- inversion H; subst. exists Panic. split; auto. eapply mg_panic; eauto.
            -- inversion H; subst. congruence.
    Qed.

    Lemma go_complete : forall k w i res w', many_goes r (fun _ => p) k w i res w' -> reach r k ->
      exists f0, forall fuel, f0 <= fuel -> forall acc, go fuel k acc i w = (map (app acc) res, w').
    Proof.
      destruct Harms as (H1 & H2 & H3 & H4).
      assert (Hgo : forall k, reach r k -> may_grow r k -> pre (Nat.iter k on d0) = false).
      { intros k Hk Hg. destruct (pre_cases k Harms Hk) as [[_ Hc]|[Hc _]]; [contradiction|assumption]. }
      induction 1 as [k w i Hg Hin|k w i j u w1 res w2 Hg Hp Hm IH|k w i b e w1 Hg Hp Hin|k w i b e w1 Hg Hp Hin
        |k w i n w1 Hg Hp Hin Hl|k w i n w1 Hg Hp Hin|k w i w1 Hg Hp]; intros Hk.
      2: { destruct (IH Hg) as (f0 & Hf). exists (S (S f0)). intros [|[|fuel]] Hle acc; try lia.
           rewrite go_step, (Hgo k Hk Hg), Hp by assumption. rewrite Hf by lia. rewrite map_map'. f_equal. apply map_ext'.
           intros x. rewrite <- app_assoc. reflexivity. }
      all: exists 2; intros [|[|fuel]] Hle acc; try lia; rewrite go_step by assumption.
      - replace (pre (Nat.iter k on d0)) with true by (symmetry; apply H1; assumption).
        destruct (H2 acc i k Hk Hg) as [_ ->]. simpl. rewrite app_nil_r. reflexivity.
      - rewrite (Hgo k Hk Hg), Hp. destruct (H3 acc i k b e Hk Hg) as [Ha _]. rewrite Ha by assumption. simpl. rewrite app_nil_r. reflexivity.
      - rewrite (Hgo k Hk Hg), Hp. destruct (H3 acc i k b e Hk Hg) as [_ Ha]. rewrite Ha by assumption. reflexivity.
      - rewrite (Hgo k Hk Hg), Hp. destruct (H4 acc i k n Hk Hg (may_inc Hp)) as [Ha _]. rewrite Ha by auto. simpl. rewrite app_nil_r. reflexivity.
      - rewrite (Hgo k Hk Hg), Hp. destruct (H4 acc i k n Hk Hg (may_inc Hp)) as [_ Ha]. rewrite Ha by auto. reflexivity.
      - rewrite (Hgo k Hk Hg), Hp. reflexivity.
    Qed.
  End Vec.

  (** The loops of [skip_many] have this form. *)
  Section Skip.
    Variable fin : unit -> input I -> D -> end_state I E -> pres I unit E.

    Fixpoint loop (fuel : nat) (d : D) (w : W) (i : input I) : pres I unit E * W :=
      match fuel with
      | O => (NoFuel, w)
      | S fuel' =>
          if pre d then (fin tt i d (ESIncomplete 1), w)
          else match p w i with
               | (Data j _, w) => loop fuel' (on d) w j
               | (Error b e, w) => (fin tt i d (ESError b e), w)
               | (Incomplete n, w) => (fin tt i d (ESIncomplete n), w)
               | (Panic, w) => (Panic, w)
               | (NoFuel, w) => (NoFuel, w)
               end
      end.

    Hypothesis Harms : arms (fun _ => tt) fin.

    Lemma loop_sound : forall fuel k i w res w', reach r k -> loop fuel (Nat.iter k on d0) w i = (res, w') -> res <> NoFuel ->
      exists res', many_goes r (fun _ => p) k w i res' w' /\ res = map (fun _ => tt) res'.
    Proof.
      destruct Harms as (H1 & H2 & H3 & H4).
      induction fuel as [|fuel IH]; intros k i w res w' Hk H Hnf; simpl in H; [congruence|].
      destruct (pre_cases k Harms Hk) as [[Hp Hg]|[Hp Hg]]; rewrite Hp in H.
      - destruct (H2 [] i k Hk Hg) as [Hin Hf]. rewrite Hf in H. inversion H; subst. exists (Data i []). split; [constructor; auto|reflexivity].
      - clear Hp. destruct (p w i) as [[j u|b e|n| |] w1] eqn:Hp.
        + change (on (Nat.iter k on d0)) with (Nat.iter (S k) on d0) in H.
          destruct (IH (S k) j w1 res w' Hg H Hnf) as (res' & Hm & ->). exists (map (cons u) res'). split; [eapply mg_item; eauto|].
          rewrite map_map'. reflexivity.
        + destruct (H3 [] i k b e Hk Hg) as [Ha Hb]. destruct (in_range_dec r k) as [Hin|Hin].
          * rewrite Ha in H by assumption. inversion H; subst. exists (Data i []). split; [eapply mg_stop; eauto|reflexivity].
          * rewrite Hb in H by assumption. inversion H; subst. exists (Error b e). split; [eapply mg_error; eauto|reflexivity].
        + destruct (H4 [] i k n Hk Hg (may_inc Hp)) as [Ha Hb]. destruct (in_range_dec r k) as [Hin|Hin]; [destruct (last i) eqn:Hl|].
          * rewrite Ha in H by auto. inversion H; subst. exists (Data i []). split; [eapply mg_end; eauto|reflexivity].
          * rewrite Hb in H by auto. inversion H; subst. exists (Incomplete n). split; [eapply mg_incomplete; eauto|reflexivity].
          * rewrite Hb in H by auto. inversion H; subst. exists (Incomplete n). split; [eapply mg_incomplete; eauto|reflexivity].
        + inversion H; subst. exists Panic. split; auto. eapply mg_panic; eauto.
        + inversion H; subst. congruence.
    Qed.

    Lemma loop_complete : forall k w i res w', many_goes r (fun _ => p) k w i res w' -> reach r k ->
      exists f0, forall fuel, f0 <= fuel -> loop fuel (Nat.iter k on d0) w i = (map (fun _ => tt) res, w').
    Proof.
      destruct Harms as (H1 & H2 & H3 & H4).
      assert (Hgo : forall k, reach r k -> may_grow r k -> pre (Nat.iter k on d0) = false).
      { intros k Hk Hg. destruct (pre_cases k Harms Hk) as [[_ Hc]|[Hc _]]; [contradiction|assumption]. }
      induction 1 as [k w i Hg Hin|k w i j u w1 res w2 Hg Hp Hm IH|k w i b e w1 Hg Hp Hin|k w i b e w1 Hg Hp Hin
        |k w i n w1 Hg Hp Hin Hl|k w i n w1 Hg Hp Hin|k w i w1 Hg Hp]; intros Hk.
      2: { destruct (IH Hg) as (f0 & Hf). exists (S f0). intros [|fuel] Hle; try lia. simpl.
           rewrite (Hgo k Hk Hg), Hp. change (on (Nat.iter k on d0)) with (Nat.iter (S k) on d0). rewrite Hf by lia. rewrite map_map'. reflexivity. }
      all: exists 1; intros [|fuel] Hle; try lia; simpl.
      - replace (pre (Nat.iter k on d0)) with true by (symmetry; apply H1; assumption). destruct (H2 [] i k Hk Hg) as [_ ->]. reflexivity.
      - rewrite (Hgo k Hk Hg), Hp. destruct (H3 [] i k b e Hk Hg) as [Ha _]. rewrite Ha by assumption. reflexivity.
      - rewrite (Hgo k Hk Hg), Hp. destruct (H3 [] i k b e Hk Hg) as [_ Ha]. rewrite Ha by assumption. reflexivity.
      - rewrite (Hgo k Hk Hg), Hp. destruct (H4 [] i k n Hk Hg (may_inc Hp)) as [Ha _]. rewrite Ha by auto. reflexivity.
      - rewrite (Hgo k Hk Hg), Hp. destruct (H4 [] i k n Hk Hg (may_inc Hp)) as [_ Ha]. rewrite Ha by auto. reflexivity.
      - rewrite (Hgo k Hk Hg), Hp. reflexivity.
    Qed.
  End Skip.
End RunMany.

(** * The five kinds of ranges *)

Lemma reach_to : forall b k, reach (RTo b) k -> 0 < b -> k < b.
Proof. intros b [|k] H Hb; auto. apply may_grow_to in H. lia. Qed.
Lemma reach_range : forall a b k, reach (RRange a b) k -> a < b -> k < b.
Proof. intros a b [|k] H Hb; [lia|]. apply may_grow_range in H. lia. Qed.
Lemma reach_exact : forall n k, reach (RExact n) k -> k <= n.
Proof. intros n [|k] H; [lia|]. apply may_grow_exact in H. lia. Qed.

Section Arms.
  Context {W I U E T : Type}.
  Variable p : sparser W I U E.
  Variable mk : list U -> T.

  Definition fin_range (result : T) (s : input I) (d : nat * nat) (st : end_state I E) : pres I T E :=
    match d, st with
    | (0, 0), _ => ret result s
    | (0, _), ESError _ _ => ret result s
    | (0, _), ESIncomplete n => if last s then ret result s else incomplete n s
    | (_, _), ESError b e => err e (replace s b)
    | (_, _), ESIncomplete n => incomplete n s
    end.
  Definition fin_from (result : T) (s : input I) (d : nat) (st : end_state I E) : pres I T E :=
    match d, st with
    | 0, ESError _ _ => ret result s
    | 0, ESIncomplete n => if last s then ret result s else incomplete n s
    | _, ESError b e => err e (replace s b)
    | _, ESIncomplete n => incomplete n s
    end.
  Definition fin_full (result : T) (s : input I) (d : unit) (st : end_state I E) : pres I T E :=
    match st with
    | ESError _ _ => ret result s
    | ESIncomplete n => if last s then ret result s else incomplete n s
    end.
  Definition fin_to (result : T) (s : input I) (d : nat) (st : end_state I E) : pres I T E :=
    match d, st with
    | 0, _ => ret result s
    | _, ESError _ _ => ret result s
    | _, ESIncomplete n => if last s then ret result s else incomplete n s
    end.
  Definition fin_exact (result : T) (s : input I) (d : nat) (st : end_state I E) : pres I T E :=
    match d, st with
    | 0, _ => ret result s
    | _, ESError b e => err e (replace s b)
    | _, ESIncomplete n => incomplete n s
    end.

  Lemma arms_range : forall a b, a < b ->
    arms (RRange a b) p (a, Nat.max b 1 - 1) (fun d => snd d =? 0) (fun d => (dec0 (fst d), snd d - 1)) mk fin_range.
  Proof.
    intros a b Hab. unfold arms. repeat split.
    - rewrite iter_pair, may_grow_range. cbn [snd]. rewrite Nat.eqb_eq. apply reach_range in H; auto. lia.
    - rewrite iter_pair, may_grow_range. cbn [snd]. rewrite Nat.eqb_eq. apply reach_range in H; auto. lia.
    - rewrite may_grow_range in H0. lia.
    - apply reach_range in H; auto.
    - rewrite iter_pair. rewrite may_grow_range in H0. apply reach_range in H; auto.
      replace (a - k) with 0 by lia. replace (Nat.max b 1 - 1 - k) with 0 by lia. reflexivity.
    - intros Hin. rewrite iter_pair. simpl in Hin. replace (a - k) with 0 by lia. destruct (Nat.max b 1 - 1 - k); reflexivity.
    - intros Hin. rewrite iter_pair. simpl in Hin. apply reach_range in H; auto. destruct (a - k) eqn:Ha; [lia|]. reflexivity.
    - intros [Hin Hl]. rewrite iter_pair. simpl in Hin. replace (a - k) with 0 by lia. unfold fin_range. rewrite Hl. destruct (Nat.max b 1 - 1 - k); reflexivity.
    - intros Hor. rewrite iter_pair. simpl in Hor. rewrite may_grow_range in H0. apply reach_range in H; auto.
      destruct (a - k) eqn:Ha; [|reflexivity]. destruct (Nat.max b 1 - 1 - k) eqn:Hb; [lia|]. destruct Hor as [Hor|Hl]; [lia|].
      simpl. rewrite Hl. reflexivity.
  Qed.
  Lemma arms_from : forall a, arms (RFrom a) p a (fun _ => false) dec0 mk fin_from.
  Proof.
    intros a. unfold arms. repeat split.
    - discriminate.
    - intros H1. exfalso. apply H1, may_grow_from.
    - exfalso. apply H0, may_grow_from.
    - exfalso. apply H0, may_grow_from.
    - intros Hin. rewrite iter_dec0. simpl in Hin. replace (a - k) with 0 by lia. reflexivity.
    - intros Hin. rewrite iter_dec0. simpl in Hin. destruct (a - k) eqn:Ha; [lia|]. reflexivity.
    - intros [Hin Hl]. rewrite iter_dec0. simpl in Hin. replace (a - k) with 0 by lia. simpl. rewrite Hl. reflexivity.
    - intros Hor. rewrite iter_dec0. simpl in Hor. destruct (a - k) eqn:Ha; [|reflexivity]. destruct Hor as [Hor|Hl]; [lia|]. simpl. rewrite Hl. reflexivity.
  Qed.
  Lemma arms_full : arms RFull p tt (fun _ => false) (fun d => d) mk fin_full.
  Proof.
    unfold arms. repeat split.
    - discriminate.
    - intros H1. exfalso. apply H1, may_grow_full.
    - exfalso. apply H0, may_grow_full.
    - intros Hin. exfalso. apply Hin. exact Logic.I.
    - intros [Hin Hl]. simpl. rewrite Hl. reflexivity.
    - intros [Hor|Hl]; [exfalso; apply Hor; exact Logic.I|]. simpl. rewrite Hl. reflexivity.
  Qed.
  Lemma arms_to : forall b, 0 < b -> arms (RTo b) p (Nat.max b 1 - 1) (fun d => d =? 0) (fun d => d - 1) mk fin_to.
  Proof.
    intros b Hb. unfold arms. repeat split.
    - rewrite iter_pred, may_grow_to, Nat.eqb_eq. apply reach_to in H; auto. lia.
    - rewrite iter_pred, may_grow_to, Nat.eqb_eq. apply reach_to in H; auto. lia.
    - apply reach_to in H; auto.
    - rewrite iter_pred. rewrite may_grow_to in H0. apply reach_to in H; auto. replace (Nat.max b 1 - 1 - k) with 0 by lia. reflexivity.
    - intros Hin. rewrite iter_pred. destruct (Nat.max b 1 - 1 - k); reflexivity.
    - intros Hin. apply reach_to in H; auto. simpl in Hin. lia.
    - intros [Hin Hl]. rewrite iter_pred. unfold fin_to. rewrite Hl. destruct (Nat.max b 1 - 1 - k); reflexivity.
    - intros Hor. rewrite iter_pred. rewrite may_grow_to in H0. destruct (Nat.max b 1 - 1 - k) eqn:Hk; [lia|].
      destruct Hor as [Hor|Hl]; [simpl in Hor; lia|]. simpl. rewrite Hl. reflexivity.
  Qed.
  Lemma arms_exact : forall n, arms (RExact n) p n (fun d => d =? 0) (fun d => d - 1) mk fin_exact.
  Proof.
    intros n. unfold arms. repeat split.
    - rewrite iter_pred, may_grow_exact, Nat.eqb_eq. apply reach_exact in H; auto. lia.
    - rewrite iter_pred, may_grow_exact, Nat.eqb_eq. apply reach_exact in H; auto. lia.
    - rewrite may_grow_exact in H0. apply reach_exact in H. simpl. lia.
    - rewrite iter_pred. rewrite may_grow_exact in H0. replace (n - k) with 0 by lia. reflexivity.
    - intros Hin. rewrite may_grow_exact in H0. simpl in Hin. lia.
    - intros Hin. rewrite may_grow_exact in H0. rewrite iter_pred. destruct (n - k) eqn:Hk; [lia|]. reflexivity.
    - intros [Hin Hl]. rewrite may_grow_exact in H0. simpl in Hin. lia.
    - intros Hor. rewrite may_grow_exact in H0. rewrite iter_pred. destruct (n - k) eqn:Hk; [lia|]. reflexivity.
  Qed.
End Arms.

Lemma map_app_nil : forall I T E (r : pres I (list T) E), map (app []) r = r.
Proof. destruct r; reflexivity. Qed.

Section ManyW.
  Context {W I U E : Type}.
  Variable p : sparser W I U E.

  Lemma run_iter_go : forall D r fuel i w d0 hint pre on fin res w', @arms W I U E D r p d0 pre on _ (fun us => us) fin ->
    run_iter_w fuel (vec_collector U) i p d0 hint pre on fin w = (res, w') -> res <> NoFuel -> many_goes r (fun _ => p) 0 w i res w'.
  Proof.
    intros D r fuel i w d0 hint pre on fin res w' Ha H Hnf.
    destruct (@go_sound _ _ _ _ _ r p d0 pre on (fun it => hint (it_data it)) fin Ha fuel 0 [] i w res w' Logic.I H Hnf) as (res' & Hm & ->).
    rewrite map_app_nil. assumption.
  Qed.
  Lemma run_iter_back : forall D r i w d0 hint pre on fin res w', @arms W I U E D r p d0 pre on _ (fun us => us) fin ->
    many_goes r (fun _ => p) 0 w i res w' -> exists f0, forall fuel, f0 <= fuel ->
    run_iter_w fuel (vec_collector U) i p d0 hint pre on fin w = (res, w').
  Proof.
    intros D r i w d0 hint pre on fin res w' Ha H.
    destruct (@go_complete _ _ _ _ _ r p d0 pre on (fun it => hint (it_data it)) fin Ha 0 w i res w' H Logic.I) as (f0 & Hf).
    exists f0. intros fuel Hle. specialize (Hf fuel Hle []). rewrite map_app_nil in Hf. exact Hf.
  Qed.

  Lemma bmany_w_sound : forall fuel r w i res w', nonempty r -> bmany_w fuel (vec_collector U) p r w i = (res, w') -> res <> NoFuel ->
    many_goes r (fun _ => p) 0 w i res w'.
  Proof.
    intros fuel r w i res w' Hne H Hnf. destruct r as [a b|a| |b|n]; unfold bmany_w in H.
    - destruct Hne as (k & Hk). simpl in Hk. replace (a <=? b) with true in H by (symmetry; apply Nat.leb_le; lia).
      eapply run_iter_go; [apply arms_range; lia|exact H|exact Hnf].
    - eapply run_iter_go; [apply arms_from|exact H|exact Hnf].
    - eapply run_iter_go; [apply arms_full|exact H|exact Hnf].
    - destruct Hne as (k & Hk). simpl in Hk. eapply run_iter_go; [apply arms_to; lia|exact H|exact Hnf].
    - eapply run_iter_go; [apply arms_exact|exact H|exact Hnf].
  Qed.

  Lemma bmany_w_complete : forall r w i res w', nonempty r -> many_goes r (fun _ => p) 0 w i res w' ->
    exists f0, forall fuel, f0 <= fuel -> bmany_w fuel (vec_collector U) p r w i = (res, w').
  Proof.
    intros r w i res w' Hne H. destruct r as [a b|a| |b|n]; unfold bmany_w.
    - destruct Hne as (k & Hk). simpl in Hk. replace (a <=? b) with true by (symmetry; apply Nat.leb_le; lia).
      eapply run_iter_back; [apply arms_range; lia|exact H].
    - eapply run_iter_back; [apply arms_from|exact H].
    - eapply run_iter_back; [apply arms_full|exact H].
    - destruct Hne as (k & Hk). simpl in Hk. eapply run_iter_back; [apply arms_to; lia|exact H].
    - eapply run_iter_back; [apply arms_exact|exact H].
  Qed.

  (** ** skip_many *)
  Lemma loop_range : forall fuel a b w i, skip_loop_range_w p fuel a b w i =
    loop p (fun d => snd d =? 0) (fun d => (dec0 (fst d), snd d - 1))
      (fun _ s d st => match st with
         | ESError b e => if fst d =? 0 then ret tt s else err e (replace s b)
         | ESIncomplete n => if snd d =? 0 then ret tt s else if (fst d =? 0) && last s then ret tt s else incomplete n s end) fuel (a, b) w i.
  Proof.
    induction fuel as [|fuel IH]; intros a b w i; simpl; auto. destruct (Nat.eqb_spec b 0) as [Hb|Hb]; auto.
    destruct (p w i) as [[j u|bb e|n| |] w1]; auto.
  Qed.
  Lemma loop_from : forall fuel a w i, skip_many_from_w p fuel a w i = loop p (fun _ => false) dec0 fin_from fuel a w i.
  Proof.
    induction fuel as [|fuel IH]; intros a w i; simpl; auto.
    destruct (p w i) as [[j u|bb e|n| |] w1]; auto; destruct a; reflexivity.
  Qed.
  Lemma loop_full : forall fuel w i, skip_many_full_w p fuel w i = loop p (fun _ => false) (fun d => d) fin_full fuel tt w i.
  Proof. induction fuel as [|fuel IH]; intros w i; simpl; auto. destruct (p w i) as [[j u|bb e|n| |] w1]; auto. Qed.
  Lemma loop_to : forall fuel b w i, skip_loop_to_w p fuel b w i = loop p (fun d => d =? 0) (fun d => d - 1) fin_to fuel b w i.
  Proof.
    induction fuel as [|fuel IH]; intros b w i; simpl; auto. destruct (Nat.eqb_spec b 0) as [->|Hb]; auto.
    destruct (p w i) as [[j u|bb e|n| |] w1]; auto; destruct b; auto; contradiction.
  Qed.
  Lemma loop_exact : forall fuel n w i, skip_many_exact_w p fuel n w i = loop p (fun d => d =? 0) (fun d => d - 1)
    (fun _ s d st => match st with
       | ESError b e => if d =? 0 then ret tt s else err e (replace s b)
       | ESIncomplete n => if d =? 0 then ret tt s else if n =? 0 then ret tt s else incomplete n s end) fuel n w i.
  Proof. induction fuel as [|fuel IH]; intros b w i; simpl; auto. destruct (Nat.eqb_spec b 0) as [->|Hb]; auto. destruct (p w i) as [[j u|bb e|n| |] w1]; auto. Qed.

  Lemma arms_skip_range : forall a b, a < b ->
    arms (RRange a b) p (a, Nat.max b 1 - 1) (fun d => snd d =? 0) (fun d => (dec0 (fst d), snd d - 1)) (fun _ => tt)
      (fun _ s d st => match st with
         | ESError b e => if fst d =? 0 then ret tt s else err e (replace s b)
         | ESIncomplete n => if snd d =? 0 then ret tt s else if (fst d =? 0) && last s then ret tt s else incomplete n s end).
  Proof.
    intros a b Hab. destruct (@arms_range W I U E unit p (fun _ => tt) a b Hab) as (H1 & H2 & H3 & H4).
    split; [exact H1|split; [|split]].
    - intros us j k Hk Hg. split; [apply (H2 us j k Hk Hg)|]. rewrite iter_pair. cbn [fst snd]. rewrite may_grow_range in Hg. apply reach_range in Hk; auto.
      replace (Nat.max b 1 - 1 - k) with 0 by lia. reflexivity.
    - intros us j k bb e Hk Hg. rewrite iter_pair. cbn [fst snd]. rewrite may_grow_range in Hg. simpl. split; intros Hin.
      + replace (a - k) with 0 by lia. reflexivity.
      + apply reach_range in Hk; auto. destruct (Nat.eqb_spec (a - k) 0); [lia|reflexivity].
    - intros us j k n Hk Hg _. rewrite iter_pair. cbn [fst snd]. rewrite may_grow_range in Hg. simpl.
      destruct (Nat.eqb_spec (Nat.max b 1 - 1 - k) 0); [lia|]. split.
      + intros [Hin Hl]. replace (a - k) with 0 by lia. rewrite Hl. reflexivity.
      + intros Hor. apply reach_range in Hk; auto. destruct (Nat.eqb_spec (a - k) 0); [|reflexivity]. destruct Hor as [Hor|Hl]; [lia|]. rewrite Hl. reflexivity.
  Qed.
  Lemma arms_skip_exact : forall n, (forall w i w', p w i <> (Incomplete 0, w')) ->
    arms (RExact n) p n (fun d => d =? 0) (fun d => d - 1) (fun _ => tt)
    (fun _ s d st => match st with
       | ESError b e => if d =? 0 then ret tt s else err e (replace s b)
       | ESIncomplete n => if d =? 0 then ret tt s else if n =? 0 then ret tt s else incomplete n s end).
  Proof.
    intros n Hp. destruct (@arms_exact W I U E unit p (fun _ => tt) n) as (H1 & H2 & H3 & H4).
    split; [exact H1|split; [|split]].
    - intros us j k Hk Hg. split; [apply (H2 us j k Hk Hg)|]. rewrite iter_pred. rewrite may_grow_exact in Hg. replace (n - k) with 0 by lia. reflexivity.
    - intros us j k bb e Hk Hg. rewrite iter_pred. rewrite may_grow_exact in Hg. simpl. split; intros Hin; [lia|].
      destruct (Nat.eqb_spec (n - k) 0); [lia|reflexivity].
    - intros us j k m Hk Hg (w & i & Hm). rewrite iter_pred. rewrite may_grow_exact in Hg. simpl. split; intros Hin; [lia|].
      destruct (Nat.eqb_spec (n - k) 0); [lia|]. destruct m; [|reflexivity]. exfalso. destruct (p w i) as [rr w'] eqn:Hx. simpl in Hm. subst.
      eapply Hp; eauto.
  Qed.

  (** [skip_many] for a count mistakes [Incomplete(0)]; see C16. *)
  Definition skippable (r : range) : Prop := match r with RExact _ => forall w i w', p w i <> (Incomplete 0, w') | _ => True end.

  Lemma bskip_many_w_sound : forall fuel r w i res w', nonempty r -> skippable r -> bskip_many_w p fuel r w i = (res, w') -> res <> NoFuel ->
    exists res', many_goes r (fun _ => p) 0 w i res' w' /\ res = map (fun _ => tt) res'.
  Proof.
    intros fuel r w i res w' Hne Hs H Hnf. destruct r as [a b|a| |b|n]; unfold bskip_many_w in H.
    - destruct Hne as (k & Hk). simpl in Hk. replace (a <=? b) with true in H by (symmetry; apply Nat.leb_le; lia). cbn [negb] in H.
      rewrite loop_range in H. eapply loop_sound with (k := 0); [apply arms_skip_range; lia|exact Logic.I|exact H|exact Hnf].
    - rewrite loop_from in H. eapply loop_sound with (k := 0); [apply arms_from|exact Logic.I|exact H|exact Hnf].
    - rewrite loop_full in H. eapply loop_sound with (k := 0); [apply arms_full|exact Logic.I|exact H|exact Hnf].
    - destruct Hne as (k & Hk). simpl in Hk. rewrite loop_to in H. eapply loop_sound with (k := 0); [apply arms_to; lia|exact Logic.I|exact H|exact Hnf].
    - rewrite loop_exact in H. eapply loop_sound with (k := 0); [apply arms_skip_exact; exact Hs|exact Logic.I|exact H|exact Hnf].
  Qed.
  Lemma bskip_many_w_complete : forall r w i res w', nonempty r -> skippable r -> many_goes r (fun _ => p) 0 w i res w' ->
    exists f0, forall fuel, f0 <= fuel -> bskip_many_w p fuel r w i = (map (fun _ => tt) res, w').
  Proof.
    intros r w i res w' Hne Hs H. destruct r as [a b|a| |b|n]; unfold bskip_many_w.
    - destruct Hne as (k & Hk). simpl in Hk. replace (a <=? b) with true by (symmetry; apply Nat.leb_le; lia). cbn [negb].
      destruct (loop_complete (@arms_skip_range a b ltac:(lia)) H Logic.I) as (f0 & Hf). exists f0. intros fuel Hle. rewrite loop_range. apply Hf; auto.
    - destruct (loop_complete (@arms_from W I U E unit p (fun _ => tt) a) H Logic.I) as (f0 & Hf). exists f0. intros fuel Hle. rewrite loop_from. apply Hf; auto.
    - destruct (loop_complete (@arms_full W I U E unit p (fun _ => tt)) H Logic.I) as (f0 & Hf). exists f0. intros fuel Hle. rewrite loop_full. apply Hf; auto.
    - destruct Hne as (k & Hk). simpl in Hk.
      destruct (loop_complete (@arms_to W I U E unit p (fun _ => tt) b ltac:(lia)) H Logic.I) as (f0 & Hf). exists f0. intros fuel Hle. rewrite loop_to. apply Hf; auto.
    - destruct (loop_complete (@arms_skip_exact n Hs) H Logic.I) as (f0 & Hf). exists f0. intros fuel Hle. rewrite loop_exact. apply Hf; auto.
  Qed.
End ManyW.

(** * Lists with separators *)
Section Sep.
  Context {W I U V E N : Type}.
  Variable conv : callback W N E.
  Variable p : sparser W I U E.
  Variable sep : sparser W I V N.

  Lemma sep_item_w_char : forall k w i, exists b', sep_item_w conv p sep (0 <? k, w) i =
    (fst (separated conv p sep k w i), (b', snd (separated conv p sep k w i))) /\
    (forall j u, fst (separated conv p sep k w i) = Data j u -> b' = true).
  Proof.
    intros k w i. unfold sep_item_w, separated, then_w. destruct k as [|k]; simpl.
    - destruct (p w i) as [[j u|b e|n| |] w1]; eexists; (split; [reflexivity|]); simpl; intros; try discriminate; reflexivity.
    - unfold sep_then. destruct (sep w i) as [[j v|b x|n| |] w1]; simpl.
      + destruct (p w1 j) as [[j' u|b e|n| |] w2]; eexists; (split; [reflexivity|]); simpl; intros; try discriminate; reflexivity.
      + destruct (conv x w1) as [[e|] w2]; eexists; (split; [reflexivity|]); simpl; intros; discriminate.
      + eexists; (split; [reflexivity|]); simpl; intros; discriminate.
      + eexists; (split; [reflexivity|]); simpl; intros; discriminate.
      + eexists; (split; [reflexivity|]); simpl; intros; discriminate.
  Qed.

  Lemma sep_goes_1 : forall r k w i res w', many_goes r (fun _ => sep_item_w conv p sep) k (0 <? k, w) i res w' ->
    many_goes r (separated conv p sep) k w i res (snd w').
  Proof.
    assert (H : forall r k st i res st', many_goes r (fun _ => sep_item_w conv p sep) k st i res st' -> fst st = (0 <? k) ->
      many_goes r (separated conv p sep) k (snd st) i res (snd st')).
    { induction 1 as [k [b w] i Hg Hin|k [b w] i j u w1 res w2 Hg Hp Hm IH|k [b w] i bb e w1 Hg Hp Hin|k [b w] i bb e w1 Hg Hp Hin
        |k [b w] i n w1 Hg Hp Hin Hl|k [b w] i n w1 Hg Hp Hin|k [b w] i w1 Hg Hp]; cbn [fst snd]; intros ->; [constructor; auto|..];
        destruct (sep_item_w_char k w i) as (b' & Hx & Hb); rewrite Hx in Hp; destruct (separated conv p sep k w i) as [rr ww] eqn:Hs;
        cbn [fst snd] in *; inversion Hp; subst.
      - eapply mg_item; [assumption|exact Hs|]. apply IH. exact (Hb _ _ eq_refl).
      - eapply mg_stop; eauto.
      - eapply mg_error; eauto.
      - eapply mg_end; eauto.
      - eapply mg_incomplete; eauto.
      - eapply mg_panic; eauto. }
    intros r k w i res w' Hm. apply (H r k (0 <? k, w) i res w' Hm eq_refl).
  Qed.

  Lemma sep_goes_2 : forall r k w i res w', many_goes r (separated conv p sep) k w i res w' ->
    exists b', many_goes r (fun _ => sep_item_w conv p sep) k (0 <? k, w) i res (b', w').
  Proof.
    induction 1 as [k w i Hg Hin|k w i j u w1 res w2 Hg Hp Hm IH|k w i bb e w1 Hg Hp Hin|k w i bb e w1 Hg Hp Hin
        |k w i n w1 Hg Hp Hin Hl|k w i n w1 Hg Hp Hin|k w i w1 Hg Hp].
    1: exists (0 <? k); constructor; auto.
    all: destruct (sep_item_w_char k w i) as (b' & Hx & Hb); rewrite Hp in Hx, Hb; cbn [fst snd] in Hx, Hb.
    1: { destruct IH as (b2 & IH). exists b2. rewrite (Hb _ _ eq_refl) in Hx. eapply mg_item; eauto. }
    all: exists b'.
    - eapply mg_stop; eauto.
    - eapply mg_error; eauto.
    - eapply mg_end; eauto.
    - eapply mg_incomplete; eauto.
    - eapply mg_panic; eauto.
  Qed.

  Lemma sep_by_w_sound : forall fuel w i res w', sep_by_w fuel (vec_collector U) conv p sep w i = (res, w') -> res <> NoFuel ->
    many_goes RFull (separated conv p sep) 0 w i res w'.
  Proof.
    intros fuel w i res w' H Hnf. unfold sep_by_w in H.
    destruct (bmany_w fuel (vec_collector U) (sep_item_w conv p sep) RFull (false, w) i) as [r [b w1]] eqn:Hb. inversion H; subst.
    apply bmany_w_sound in Hb; auto. apply (sep_goes_1 (k := 0) Hb). exists 0. exact Logic.I.
  Qed.
  Lemma sep_by_w_complete : forall w i res w', many_goes RFull (separated conv p sep) 0 w i res w' ->
    exists f0, forall fuel, f0 <= fuel -> sep_by_w fuel (vec_collector U) conv p sep w i = (res, w').
  Proof.
    intros w i res w' H. destruct (sep_goes_2 H) as (b' & Hm). apply bmany_w_complete in Hm; [|exists 0; exact Logic.I].
    destruct Hm as (f0 & Hf). exists f0. intros fuel Hle. unfold sep_by_w. change false with (0 <? 0). rewrite Hf by assumption. reflexivity.
  Qed.
  Lemma sep_by1_w_sound : forall fuel w i res w', sep_by1_w fuel (vec_collector U) conv p sep w i = (res, w') -> res <> NoFuel ->
    many_goes (RFrom 1) (separated conv p sep) 0 w i res w'.
  Proof.
    intros fuel w i res w' H Hnf. unfold sep_by1_w in H.
    destruct (bmany_w fuel (vec_collector U) (sep_item_w conv p sep) (RFrom 1) (false, w) i) as [r [b w1]] eqn:Hb. inversion H; subst.
    apply bmany_w_sound in Hb; auto. apply (sep_goes_1 (k := 0) Hb). exists 1. simpl; lia.
  Qed.
  Lemma sep_by1_w_complete : forall w i res w', many_goes (RFrom 1) (separated conv p sep) 0 w i res w' ->
    exists f0, forall fuel, f0 <= fuel -> sep_by1_w fuel (vec_collector U) conv p sep w i = (res, w').
  Proof.
    intros w i res w' H. destruct (sep_goes_2 H) as (b' & Hm). apply bmany_w_complete in Hm; [|exists 1; simpl; lia].
    destruct Hm as (f0 & Hf). exists f0. intros fuel Hle. unfold sep_by1_w. change false with (0 <? 0). rewrite Hf by assumption. reflexivity.
  Qed.
End Sep.

(** * many_till *)

Inductive try_res (I : Type) : Type := TryYes (j : input I) | TryNo | TryPanic | TryNoFuel.
Arguments TryYes {I} j.
Arguments TryNo {I}.
Arguments TryPanic {I}.
Arguments TryNoFuel {I}.

Section Attempt.
  Context {W I V N : Type}.
  Variable end_ : sparser W I V N.

  Fixpoint attempt_w (m : nat) (w : W) (i : input I) : try_res I * W :=
    match m with
    | 0 => (TryNo, w)
    | S m =>
        match end_ w i with
        | (Data j _, w) => (TryYes j, w)
        | (Error _ _, w) | (Incomplete _, w) => attempt_w m w i
        | (Panic, w) => (TryPanic, w)
        | (NoFuel, w) => (TryNoFuel, w)
        end
    end.

  Definition told (t : try_res I) : option (option (option (input I))) :=
    match t with TryYes j => Some (Some (Some j)) | TryNo => Some (Some None) | TryPanic => Some None | TryNoFuel => None end.

  Lemma attempt_tried : forall m w i t w' o, attempt_w m w i = (t, w') -> told t = Some o -> tried end_ i m w o w'.
  Proof.
    induction m as [|m IH]; intros w i t w' o H Ht; simpl in H.
    - inversion H; subst. inversion Ht; subst. constructor.
    - destruct (end_ w i) as [[j v|b x|n| |] w1] eqn:He.
      + inversion H; subst. inversion Ht; subst. eapply tried_yes; eauto.
      + eapply tried_error; eauto.
      + eapply tried_incomplete; eauto.
      + inversion H; subst. inversion Ht; subst. eapply tried_panic; eauto.
      + inversion H; subst. discriminate.
  Qed.
  Lemma tried_attempt : forall m w i o w', tried end_ i m w o w' -> exists t, attempt_w m w i = (t, w') /\ told t = Some o.
  Proof.
    induction 1 as [w|m w j v w1 He|m w w1 He|m w b x w1 o w2 He Ht IH|m w n w1 o w2 He Ht IH]; simpl; rewrite ?He; eauto.
    all: eexists; split; [reflexivity|reflexivity].
  Qed.
  Lemma tried_yes_pos : forall i m w j w', tried end_ i m w (Some (Some j)) w' -> 0 < m.
  Proof. intros i m w j w' H. destruct m; [inversion H|lia]. Qed.
End Attempt.

Section TillW.
  Context {W I U V E N D : Type}.
  Variable r : range.
  Variable p : sparser W I U E.
  Variable end_ : sparser W I V N.
  Variable d0 : D.
  Variable stops : D -> bool.
  Variable hint : iter_till unit unit I E D -> nat * option nat.
  Variable pre : iter_till unit unit I E D -> W -> pre_res (iter_till unit unit I E D) * W.
  Variable on : D -> D.
  Variable fin : list U -> input I -> D -> end_state_till I E -> pres I (list U) E.
  Notation att := (twice_at_max r).
  Notation it_ st i d := (mkIterTill st tt tt i d : iter_till unit unit I E D).

  Hypothesis Hstops : forall k, reach r k -> (stops (Nat.iter k on d0) = true <-> ~ may_grow r k).
  Hypothesis Hpre : forall k i w, reach r k ->
    pre (it_ (TIncomplete 1) i (Nat.iter k on d0)) w =
      match attempt_w end_ (att k) w i with
      | (TryYes j, w) => (PreNone (it_ TEndSuccess j (Nat.iter k on d0)), w)
      | (TryNo, w) => (if stops (Nat.iter k on d0) then PreNone (it_ (TIncomplete 1) i (Nat.iter k on d0)) else PreGo (it_ (TIncomplete 1) i (Nat.iter k on d0)), w)
      | (TryPanic, w) => (PrePanic, w)
      | (TryNoFuel, w) => (PreNoFuel, w)
      end.
  Hypothesis Hend : forall us j k, reach r k -> in_range r k -> k = length us -> fin us j (Nat.iter k on d0) TEndSuccess = till_quirk r (Data j us).
  Hypothesis Herr : forall us j k b e, fin us j (Nat.iter k on d0) (TError b e) = Error b e.
  Hypothesis Hinc : forall us j k n, fin us j (Nat.iter k on d0) (TIncomplete n) = Incomplete n.

  Definition finish_till (x : fres (list U) (iter_till unit unit I E D) * W) : pres I (list U) E * W :=
    match x with
    | (FDone t it, w) => (fin t (tt_buf it) (tt_data it) (tt_state it), w)
    | (FPanic, w) => (Panic, w)
    | (FNoFuel, w) => (NoFuel, w)
    end.
  Definition tgo (fuel k : nat) (acc : list U) (i : input I) (w : W) : pres I (list U) E * W :=
    finish_till (from_iter_w fuel (iter_till_next_w p pre on) hint (cact (vec_collector U)) (false, acc)
      (it_ (TIncomplete 1) i (Nat.iter k on d0)) w).

  (** One step, when [low] says whether there is fuel for the end of the collection. *)
  Definition tstep (low : bool) (next : nat -> list U -> input I -> W -> pres I (list U) E * W) (k : nat) (acc : list U) (i : input I) (w : W)
    : pres I (list U) E * W :=
    match attempt_w end_ (att k) w i with
    | (TryYes j, w) => (if low then NoFuel else fin acc j (Nat.iter k on d0) TEndSuccess, w)
    | (TryPanic, w) => (Panic, w)
    | (TryNoFuel, w) => (NoFuel, w)
    | (TryNo, w) =>
        if stops (Nat.iter k on d0) then (if low then NoFuel else fin acc i (Nat.iter k on d0) (TIncomplete 1), w)
        else match p w i with
             | (Data j u, w) => next (S k) (acc ++ [u]) j w
             | (Error b e, w) => (if low then NoFuel else fin acc i (Nat.iter k on d0) (TError b e), w)
             | (Incomplete n, w) => (if low then NoFuel else fin acc i (Nat.iter k on d0) (TIncomplete n), w)
             | (Panic, w) => (Panic, w)
             | (NoFuel, w) => (NoFuel, w)
             end
    end.

  Lemma tgo_step : forall fuel k acc i w, reach r k -> tgo (S fuel) k acc i w = tstep (fuel =? 0) (tgo fuel) k acc i w.
  Proof.
    intros fuel k acc i w Hk. unfold tgo, tstep.
    change (from_iter_w (S fuel) (iter_till_next_w p pre on) hint (cact (vec_collector U)) (false, acc) (it_ (TIncomplete 1) i (Nat.iter k on d0)) w)
      with (match iter_till_next_w p pre on (it_ (TIncomplete 1) i (Nat.iter k on d0)) w with
            | (Yield u it', w) => from_iter_w fuel (iter_till_next_w p pre on) hint (cact (vec_collector U)) (false, acc ++ [u]) it' w
            | (Stop it', w) => from_iter_w fuel (iter_till_next_w p pre on) hint (cact (vec_collector U)) (true, acc) it' w
            | (StepPanic, w) => (FPanic, w)
            | (StepNoFuel, w) => (FNoFuel, w)
            end).
    unfold iter_till_next_w at 1. rewrite Hpre by assumption.
    destruct (attempt_w end_ (att k) w i) as [[j| | |] w1]; try reflexivity.
    - destruct fuel; reflexivity.
    - destruct (stops (Nat.iter k on d0)); [destruct fuel; reflexivity|]. cbn [tt_buf tt_data tt_state].
      destruct (p w1 i) as [[j u|b e|n| |] w2]; try reflexivity; destruct fuel; reflexivity.
  Qed.

  Lemma stop_cases : forall k, reach r k ->
    (stops (Nat.iter k on d0) = true /\ ~ may_grow r k) \/ (stops (Nat.iter k on d0) = false /\ may_grow r k).
  Proof.
    intros k Hk. specialize (Hstops k Hk). destruct (stops (Nat.iter k on d0)).
    - left. split; auto. apply Hstops. reflexivity.
    - right. split; auto. destruct (may_grow_dec r k) as [Hg|Hg]; auto. apply Hstops in Hg. discriminate.
  Qed.

  Lemma quirk_other : forall (x : pres I (list U) E), (forall j us, x <> Data j us) -> till_quirk r x = x.
  Proof. intros x Hx. destruct x; try (destruct r; reflexivity). exfalso. eapply Hx; reflexivity. Qed.

  Lemma att_pos : forall k, 0 < att k -> in_range r k.
  Proof.
    intros k. destruct r as [a b|a| |b|n]; cbn [twice_at_max once in_range].
    - destruct (Nat.leb_spec a k), (Nat.ltb_spec k b); cbn [andb]; lia.
    - destruct (Nat.leb_spec a k); lia.
    - auto.
    - destruct (Nat.ltb_spec k b); lia.
    - destruct (Nat.eqb_spec k n); lia.
  Qed.

  Lemma tgo_sound : forall fuel k acc i w res w', reach r k -> length acc = k -> tgo fuel k acc i w = (res, w') -> res <> NoFuel ->
    exists res', till_goes r att p end_ k w i res' w' /\ res = till_quirk r (map (app acc) res').
  Proof.
    induction fuel as [|fuel IH]; intros k acc i w res w' Hk Hacc H Hnf; [unfold tgo in H; simpl in H; congruence|].
    rewrite tgo_step in H by assumption. unfold tstep in H.
    destruct (attempt_w end_ (att k) w i) as [t w1] eqn:Ha. destruct t as [j| | |].
    - pose proof (attempt_tried _ _ _ _ Ha eq_refl) as Ht. destruct (fuel =? 0); [congruence|].
      rewrite Hend in H; [|assumption|apply att_pos; eapply tried_yes_pos; eauto|auto]. inversion H; subst.
      exists (Data j []). split; [eapply tg_end; eauto|]. simpl map. rewrite app_nil_r. reflexivity.
    - pose proof (attempt_tried _ _ _ _ Ha eq_refl) as Ht. destruct (stop_cases k Hk) as [[Hs Hg]|[Hs Hg]]; rewrite Hs in H.
      + destruct (fuel =? 0); [congruence|]. rewrite Hinc in H. inversion H; subst. exists (Incomplete 1).
        split; [eapply tg_max; eauto|]. rewrite quirk_other; [reflexivity|discriminate].
      + destruct (p w1 i) as [[j u|b e|n| |] w2] eqn:Hp.
        * destruct (IH (S k) (acc ++ [u]) j w2 res w' Hg) as (res' & Hm & ->); auto; [rewrite app_length; simpl; lia|].
          exists (map (cons u) res'). split; [eapply tg_item; eauto|]. rewrite map_map'. f_equal. apply map_ext'.
          intros x. rewrite <- app_assoc. reflexivity.
        * destruct (fuel =? 0); [congruence|]. rewrite Herr in H. inversion H; subst. exists (Error b e).
          split; [eapply tg_error; eauto|]. rewrite quirk_other; [reflexivity|discriminate].
        * destruct (fuel =? 0); [congruence|]. rewrite Hinc in H. inversion H; subst. exists (Incomplete n).
          split; [eapply tg_incomplete; eauto|]. rewrite quirk_other; [reflexivity|discriminate].
        * inversion H; subst. exists Panic. split; [eapply tg_panic; eauto|]. rewrite quirk_other; [reflexivity|discriminate].
        * congruence.
    - pose proof (attempt_tried _ _ _ _ Ha eq_refl) as Ht. inversion H; subst. exists Panic.
      split; [eapply tg_end_panic; eauto|]. rewrite quirk_other; [reflexivity|discriminate].
    - congruence.
  Qed.

  Lemma tgo_complete : forall k w i res w', till_goes r att p end_ k w i res w' -> reach r k ->
    exists f0, forall fuel, f0 <= fuel -> forall acc, length acc = k -> tgo fuel k acc i w = (till_quirk r (map (app acc) res), w').
  Proof.
    assert (Hgo : forall k, reach r k -> may_grow r k -> stops (Nat.iter k on d0) = false).
    { intros k Hk Hg. destruct (stop_cases k Hk) as [[_ Hc]|[Hc _]]; [contradiction|assumption]. }
    assert (Hatt : forall i m w o w', tried end_ i m w o w' -> exists t, attempt_w end_ m w i = (t, w') /\ told t = Some o).
    { intros. eapply tried_attempt; eauto. }
    induction 1 as [k w i j w1 Ht|k w i w1 Ht|k w i w1 Ht Hg|k w i w1 j u w2 res w3 Ht Hg Hp Hm IH|k w i w1 b e w2 Ht Hg Hp
      |k w i w1 n w2 Ht Hg Hp|k w i w1 w2 Ht Hg Hp]; intros Hk;
      destruct (Hatt _ _ _ _ _ Ht) as (t & Ha & Htold); destruct t; inversion Htold; subst.
    4: { destruct (IH Hg) as (f0 & Hf). exists (S f0). intros [|fuel] Hle acc Hacc; [lia|].
         rewrite tgo_step by assumption. unfold tstep. rewrite Ha, (Hgo k Hk Hg), Hp. rewrite Hf; [|lia|rewrite app_length; simpl; lia].
         rewrite map_map'. f_equal. f_equal. apply map_ext'. intros x. rewrite <- app_assoc. reflexivity. }
    all: exists 2; intros [|[|fuel]] Hle acc Hacc; try lia; rewrite tgo_step by assumption; unfold tstep; rewrite Ha; cbn [Nat.eqb].
    - rewrite Hend; [|assumption|apply att_pos; eapply tried_yes_pos; eauto|auto]. simpl map. rewrite app_nil_r. reflexivity.
    - rewrite quirk_other; [reflexivity|discriminate].
    - replace (stops (Nat.iter k on d0)) with true by (symmetry; apply Hstops; assumption). rewrite Hinc.
      rewrite quirk_other; [reflexivity|discriminate].
    - rewrite (Hgo k Hk Hg), Hp, Herr. rewrite quirk_other; [reflexivity|discriminate].
    - rewrite (Hgo k Hk Hg), Hp, Hinc. rewrite quirk_other; [reflexivity|discriminate].
    - rewrite (Hgo k Hk Hg), Hp. rewrite quirk_other; [reflexivity|discriminate].
  Qed.
End TillW.

Lemma att_range : forall a b k, twice_at_max (RRange a b) k = if (a <=? k) && (k <? b) then (if S k =? b then 2 else 1) else 0.
Proof. reflexivity. Qed.

Section TillRanges.
  Context {W I U V E N : Type}.
  Variable p : sparser W I U E.
  Variable end_ : sparser W I V N.

  Lemma run_till_go : forall D r fuel i w (d0 : D) hint stops pre on fin res w',
    (forall k, reach r k -> (stops (Nat.iter k on d0) = true <-> ~ may_grow r k)) ->
    (forall k i w, reach r k ->
      pre (mkIterTill (TIncomplete 1) tt tt i (Nat.iter k on d0)) w =
      match attempt_w end_ (twice_at_max r k) w i with
      | (TryYes j, w) => (PreNone (mkIterTill TEndSuccess tt tt j (Nat.iter k on d0)), w)
      | (TryNo, w) => (if stops (Nat.iter k on d0) then PreNone (mkIterTill (TIncomplete 1) tt tt i (Nat.iter k on d0))
                       else PreGo (mkIterTill (TIncomplete 1) tt tt i (Nat.iter k on d0)), w)
      | (TryPanic, w) => (PrePanic, w)
      | (TryNoFuel, w) => (PreNoFuel, w)
      end) ->
    (forall us j k, reach r k -> in_range r k -> k = length us -> fin us j (Nat.iter k on d0) TEndSuccess = till_quirk r (Data j us)) ->
    (forall us j k b e, fin us j (Nat.iter k on d0) (TError b e) = Error b e) ->
    (forall us j k n, fin us j (Nat.iter k on d0) (TIncomplete n) = Incomplete n) ->
    (run_iter_till_w fuel (vec_collector U) i p d0 hint pre on fin w = (res, w') -> res <> NoFuel ->
       exists res', till_goes r (twice_at_max r) p end_ 0 w i res' w' /\ res = till_quirk r res') /\
    (till_goes r (twice_at_max r) p end_ 0 w i res w' ->
       exists f0, forall fuel, f0 <= fuel -> run_iter_till_w fuel (vec_collector U) i p d0 hint pre on fin w = (till_quirk r res, w')).
  Proof.
    intros D r fuel i w d0 hint stops pre on fin res w' H1 H2 H3 H4 H5. split.
    - intros H Hnf.
      destruct (@tgo_sound _ _ _ _ _ _ _ r p end_ d0 stops (fun it => hint (tt_data it)) pre on fin H1 H2 H3 H4 H5 fuel 0 [] i w res w' Logic.I eq_refl H Hnf)
        as (res' & Hm & ->). exists res'. rewrite map_app_nil. auto.
    - intros H.
      destruct (@tgo_complete _ _ _ _ _ _ _ r p end_ d0 stops (fun it => hint (tt_data it)) pre on fin H1 H2 H3 H4 H5 0 w i res w' H Logic.I) as (f0 & Hf).
      exists f0. intros fuel' Hle. specialize (Hf fuel' Hle [] eq_refl). rewrite map_app_nil in Hf. exact Hf.
  Qed.

  Lemma bmany_till_w_char : forall r fuel w i res w', nonempty r ->
    (bmany_till_w fuel (vec_collector U) p end_ r w i = (res, w') -> res <> NoFuel ->
       exists res', till_goes r (twice_at_max r) p end_ 0 w i res' w' /\ res = till_quirk r res') /\
    (till_goes r (twice_at_max r) p end_ 0 w i res w' ->
       exists f0, forall fuel, f0 <= fuel -> bmany_till_w fuel (vec_collector U) p end_ r w i = (till_quirk r res, w')).
  Proof.
    intros r fuel w i res w' Hne. destruct r as [a b|a| |b|n]; unfold bmany_till_w.
    - destruct Hne as (k0 & Hk0). simpl in Hk0. replace (a <=? b) with true by (symmetry; apply Nat.leb_le; lia). cbn [negb].
      apply run_till_go with (stops := fun d => snd d =? 0).
      + intros k Hk. rewrite iter_pair, may_grow_range. cbn [snd]. rewrite Nat.eqb_eq. apply reach_range in Hk; lia.
      + intros k j v Hk. rewrite iter_pair, att_range. cbn [tt_data fst snd]. apply reach_range in Hk; [|lia].
        replace (k <? b) with true by (symmetry; apply Nat.ltb_lt; lia). rewrite andb_true_r.
        replace (a - k =? 0) with (a <=? k) by (destruct (Nat.leb_spec a k), (Nat.eqb_spec (a - k) 0); auto; lia).
        replace (Nat.max b 1 - 1 - k =? 0) with (S k =? b) by (destruct (Nat.eqb_spec (S k) b), (Nat.eqb_spec (Nat.max b 1 - 1 - k) 0); auto; lia).
        destruct (Nat.leb_spec a k) as [Ha|Ha].
        * unfold end_test_w. cbn [tt_buf tt_data]. destruct (Nat.eqb_spec (S k) b) as [Hb|Hb]; cbn [attempt_w].
          -- destruct (end_ v j) as [[j1 v1|b1 x|n1| |] w1]; try reflexivity; cbn [pre_seq_w tt_buf tt_data snd];
               replace (Nat.max b 1 - 1 - k =? 0) with true by (symmetry; apply Nat.eqb_eq; lia);
               destruct (end_ w1 j) as [[j2 v2|b2 x2|n2| |] w2]; reflexivity.
          -- destruct (end_ v j) as [[j1 v1|b1 x|n1| |] w1]; try reflexivity; cbn [pre_seq_w tt_buf tt_data snd];
               replace (Nat.max b 1 - 1 - k =? 0) with false by (symmetry; apply Nat.eqb_neq; lia); reflexivity.
        * cbn [attempt_w pre_seq_w tt_data snd]. destruct (Nat.eqb_spec (S k) b) as [Hb|Hb]; [lia|].
          replace (Nat.max b 1 - 1 - k =? 0) with false by (symmetry; apply Nat.eqb_neq; lia). reflexivity.
      + intros us j k Hk Hin _. rewrite iter_pair. simpl in Hin. replace (a - k) with 0 by lia. reflexivity.
      + intros us j k bb e. rewrite iter_pair. destruct (a - k); reflexivity.
      + intros us j k m. rewrite iter_pair. destruct (a - k); reflexivity.
    - apply run_till_go with (stops := fun _ => false).
      + intros k Hk. split; [discriminate|]. intros H. exfalso. apply H, may_grow_from.
      + intros k j v Hk. rewrite iter_dec0. cbn [tt_data twice_at_max once].
        replace (a - k =? 0) with (a <=? k) by (destruct (Nat.leb_spec a k), (Nat.eqb_spec (a - k) 0); auto; lia).
        destruct (a <=? k); [|reflexivity]. unfold end_test_w. cbn [attempt_w tt_buf tt_data].
        destruct (end_ v j) as [[j1 v1|b1 x|n1| |] w1]; reflexivity.
      + intros us j k Hk Hin _. rewrite iter_dec0. simpl in Hin. replace (a - k) with 0 by lia. reflexivity.
      + intros us j k bb e. rewrite iter_dec0. destruct (a - k); reflexivity.
      + intros us j k m. rewrite iter_dec0. destruct (a - k); reflexivity.
    - apply run_till_go with (stops := fun _ => false).
      + intros k Hk. split; [discriminate|]. intros H. exfalso. apply H, may_grow_full.
      + intros k j v Hk. cbn [twice_at_max once attempt_w]. unfold end_test_w. cbn [tt_buf tt_data].
        destruct (end_ v j) as [[j1 v1|b1 x|n1| |] w1]; reflexivity.
      + reflexivity.
      + reflexivity.
      + reflexivity.
    - destruct Hne as (k0 & Hk0). simpl in Hk0. apply run_till_go with (stops := fun d => d =? 0).
      + intros k Hk. rewrite iter_pred, may_grow_to, Nat.eqb_eq. apply reach_to in Hk; lia.
      + intros k j v Hk. rewrite iter_pred. apply reach_to in Hk; [|lia]. cbn [twice_at_max once].
        replace (k <? b) with true by (symmetry; apply Nat.ltb_lt; lia). cbn [attempt_w]. unfold end_test_w. cbn [tt_buf tt_data].
        destruct (end_ v j) as [[j1 v1|b1 x|n1| |] w1]; reflexivity.
      + intros us j k Hk Hin ->. rewrite iter_pred. simpl in Hin. unfold till_quirk.
        destruct (Nat.ltb_spec (S (length us)) b); destruct (Nat.max b 1 - 1 - length us) eqn:Hd; try lia; reflexivity.
      + intros us j k bb e. rewrite iter_pred. destruct (Nat.max b 1 - 1 - k); reflexivity.
      + intros us j k m. rewrite iter_pred. destruct (Nat.max b 1 - 1 - k); reflexivity.
    - apply run_till_go with (stops := fun d => d =? 0).
      + intros k Hk. rewrite iter_pred, may_grow_exact, Nat.eqb_eq. apply reach_exact in Hk; lia.
      + intros k j v Hk. rewrite iter_pred. apply reach_exact in Hk. cbn [twice_at_max once tt_data].
        replace (n - k =? 0) with (k =? n) by (destruct (Nat.eqb_spec k n), (Nat.eqb_spec (n - k) 0); auto; lia).
        destruct (Nat.eqb_spec k n); cbn [attempt_w]; [|reflexivity]. unfold end_test_w. cbn [tt_buf tt_data].
        destruct (end_ v j) as [[j1 v1|b1 x|n1| |] w1]; reflexivity.
      + intros us j k Hk Hin _. rewrite iter_pred. simpl in Hin. replace (n - k) with 0 by lia. reflexivity.
      + intros us j k bb e. rewrite iter_pred. destruct (n - k); reflexivity.
      + intros us j k m. rewrite iter_pred. destruct (n - k); reflexivity.
  Qed.
End TillRanges.

(** * The state-passing model of Combinators.v *)

Section Bridge.
  Context {W I U T E C : Type}.
  Variable p : sparser W I U E.
  Variable col : collector U T C.

  Definition same_f {D} (x : fres T (iter unit I E D) * W) (y : fres T (iter W I E D)) : Prop :=
    match x, y with
    | (FDone t it, w'), FDone t' it' => t = t' /\ it' = mkIter (it_state it) w' (it_buf it) (it_data it)
    | (FPanic, _), FPanic => True
    | (FNoFuel, _), FNoFuel => True
    | _, _ => False
    end.

  Lemma from_iter_bridge : forall D (pre : D -> bool) (on : D -> D) (hint : D -> nat * option nat) fuel c st i d w,
    same_f (from_iter_w fuel (iter_next_w p pre on) (fun it => hint (it_data it)) (cact col) c (mkIter st tt i d) w)
           (from_iter fuel (iter_next p pre on) (fun it => hint (it_data it)) (cact col) c (mkIter st w i d)).
  Proof.
    intros D pre on hint. induction fuel as [|fuel IH]; intros c st i d w; [exact Logic.I|]. cbn [from_iter_w from_iter].
    destruct (cact col c) as [t|k|k|]; [split; reflexivity| |apply IH|exact Logic.I].
    - unfold iter_next_w at 1, iter_next at 1. cbn [it_data it_buf it_state it_ps].
      destruct (pre d); [apply IH|]. destruct (p w i) as [[j u|b e|n| |] w1]; try apply IH; exact Logic.I.
  Qed.

  Lemma run_iter_bridge : forall D fuel i (d : D) hint pre on fin w,
    fst (run_iter_w fuel col i p d hint pre on fin w) = run_iter fuel col i w p d hint pre on fin.
  Proof.
    intros D fuel i d hint pre on fin w. unfold run_iter_w, run_iter.
    pose proof (from_iter_bridge pre on hint fuel (cinit col) (ESIncomplete 1) i d w) as H.
    match type of H with same_f ?x ?y => destruct x as [[t it| |] w']; destruct y as [t' it'| |] end; simpl in H; try contradiction; auto.
    destruct H as [-> ->]. reflexivity.
  Qed.

  Lemma bmany_bridge : forall fuel r w i, fst (bmany_w fuel col p r w i) = bmany fuel col r w p i.
  Proof.
    intros fuel r w i. destruct r as [a b|a| |b|n]; unfold bmany_w, bmany, parse_many_range, parse_many_from, parse_many_full, parse_many_to, parse_many_exact.
    1: destruct (negb (a <=? b)); [reflexivity|]. all: apply run_iter_bridge.
  Qed.

  Lemma bskip_bridge : forall fuel r w i, fst (bskip_many_w p fuel r w i) = bskip_many fuel r w p i.
  Proof.
    intros fuel r w i. destruct r as [a b|a| |b|n]; unfold bskip_many_w, bskip_many, skip_many_range, skip_many_to.
    - destruct (negb (a <=? b)); [reflexivity|]. generalize (Nat.max b 1 - 1). intros m. revert a m w i.
      induction fuel as [|fuel IH]; intros a m w i; simpl; auto. destruct (m =? 0); auto. destruct (p w i) as [[j u|bb e|n| |] w1]; auto.
    - revert a w i. induction fuel as [|fuel IH]; intros a w i; simpl; auto. destruct (p w i) as [[j u|bb e|n| |] w1]; auto.
    - revert w i. induction fuel as [|fuel IH]; intros w i; simpl; auto. destruct (p w i) as [[j u|bb e|n| |] w1]; auto.
    - generalize (Nat.max b 1 - 1). intros m. revert m w i.
      induction fuel as [|fuel IH]; intros m w i; simpl; auto. destruct (m =? 0); auto. destruct (p w i) as [[j u|bb e|n| |] w1]; auto.
    - revert n w i. induction fuel as [|fuel IH]; intros n w i; simpl; auto. destruct (n =? 0); auto. destruct (p w i) as [[j u|bb e|m| |] w1]; auto.
  Qed.
End Bridge.

(** [many_till]: the two closures have separate states. *)
Section BridgeTill.
  Context {S SE I U V T E N C : Type}.
  Variable p : sparser S I U E.
  Variable end_ : sparser SE I V N.
  Variable col : collector U T C.

  Definition on_left : sparser (S * SE) I U E := fun w i => let (r, s) := p (fst w) i in (r, (s, snd w)).
  Definition on_right : sparser (S * SE) I V N := fun w i => let (r, s) := end_ (snd w) i in (r, (fst w, s)).

  Definition same_it {D} (it : iter_till unit unit I E D) (w : S * SE) : iter_till S SE I E D :=
    mkIterTill (tt_state it) (fst w) (snd w) (tt_buf it) (tt_data it).
  Definition same_pre {D} (x : pre_res (iter_till unit unit I E D) * (S * SE)) (y : pre_res (iter_till S SE I E D)) : Prop :=
    match x, y with
    | (PreGo it, w), PreGo it' => it' = same_it it w
    | (PreNone it, w), PreNone it' => it' = same_it it w
    | (PrePanic, _), PrePanic => True
    | (PreNoFuel, _), PreNoFuel => True
    | _, _ => False
    end.

  Lemma unit_it : forall D (it : iter_till unit unit I E D), it = mkIterTill (tt_state it) tt tt (tt_buf it) (tt_data it).
  Proof. intros D [st [] [] i d]. reflexivity. Qed.

  Lemma end_test_same : forall D (it : iter_till unit unit I E D) w, same_pre (end_test_w on_right it w) (end_test end_ (same_it it w)).
  Proof.
    intros D it w. unfold end_test_w, end_test, on_right, same_it. cbn [tt_es tt_buf tt_ps tt_state tt_data].
    destruct (end_ (snd w) (tt_buf it)) as [[j v|b x|n| |] s]; simpl; auto.
  Qed.
  Lemma pre_seq_same : forall D x y (k : iter_till unit unit I E D -> S * SE -> pre_res (iter_till unit unit I E D) * (S * SE)) k',
    same_pre x y -> (forall it w, same_pre (k it w) (k' (same_it it w))) -> same_pre (pre_seq_w x k) (pre_seq y k').
  Proof.
    intros D [x w] y k k' H Hk. destruct x, y; simpl in *; try contradiction; auto. subst. apply Hk.
  Qed.

  Definition same_ft {D} (x : fres T (iter_till unit unit I E D) * (S * SE)) (y : fres T (iter_till S SE I E D)) : Prop :=
    match x, y with
    | (FDone t it, w'), FDone t' it' => t = t' /\ it' = same_it it w'
    | (FPanic, _), FPanic => True
    | (FNoFuel, _), FNoFuel => True
    | _, _ => False
    end.

  Lemma from_iter_till_bridge : forall D pre pre' (on : D -> D) (hint : D -> nat * option nat),
    (forall it w, same_pre (pre it w) (pre' (same_it it w))) -> forall fuel c it w,
    same_ft (from_iter_w fuel (iter_till_next_w on_left pre on) (fun it => hint (tt_data it)) (cact col) c it w)
            (from_iter fuel (iter_till_next p pre' on) (fun it => hint (tt_data it)) (cact col) c (same_it it w)).
  Proof.
    intros D pre pre' on hint Hpre. induction fuel as [|fuel IH]; intros c it w; [exact Logic.I|]. cbn [from_iter_w from_iter].
    destruct (cact col c) as [t|k|k|]; [split; reflexivity| |apply IH|exact Logic.I].
    - unfold iter_till_next_w at 1, iter_till_next at 1. specialize (Hpre it w).
      destruct (pre it w) as [x w1]. destruct x as [it1|it1| |], (pre' (same_it it w)) as [it2|it2| |]; simpl in Hpre; try contradiction; try exact Logic.I; subst.
      + unfold on_left at 1. cbn [same_it tt_ps tt_buf]. destruct (p (fst w1) (tt_buf it1)) as [[j u|b e|n| |] s1]; try exact Logic.I; apply IH.
      + apply IH.
  Qed.

  Lemma bmany_till_bridge : forall fuel r w i, fst (bmany_till_w fuel col on_left on_right r w i) = bmany_till fuel col r (fst w) (snd w) p end_ i.
  Proof.
    assert (Hrun : forall D fuel i (d : D) hint pre pre' on fin w, (forall it w, same_pre (pre it w) (pre' (same_it it w))) ->
      fst (run_iter_till_w fuel col i on_left d hint pre on fin w) = run_iter_till fuel col i (fst w) (snd w) p d hint pre' on fin).
    { intros D fuel i d hint pre pre' on fin w Hpre. unfold run_iter_till_w, run_iter_till.
      pose proof (from_iter_till_bridge pre pre' on hint Hpre fuel (cinit col) (mkIterTill (TIncomplete 1) tt tt i d) w) as H.
      unfold same_it at 1 in H. cbn [tt_state tt_buf tt_data] in H.
      match type of H with same_ft ?x ?y => destruct x as [[t it| |] w']; destruct y as [t' it'| |] end; simpl in H; try contradiction; auto.
      destruct H as [-> ->]. reflexivity. }
    intros fuel r w i. destruct r as [a b|a| |b|n];
      unfold bmany_till_w, bmany_till, many_till_range, many_till_from, many_till_full, many_till_to, many_till_exact.
    1: destruct (negb (a <=? b)); [reflexivity|]. all: apply Hrun; intros it v.
    - apply pre_seq_same.
      + unfold same_it at 1. cbn [tt_data]. destruct (fst (tt_data it) =? 0); [apply end_test_same|reflexivity].
      + intros it1 w1. unfold same_it at 1. cbn [tt_data]. destruct (snd (tt_data it1) =? 0); [|reflexivity].
        apply pre_seq_same; [apply end_test_same|]. intros. reflexivity.
    - unfold same_it at 1. cbn [tt_data]. destruct (tt_data it =? 0); [apply end_test_same|reflexivity].
    - apply end_test_same.
    - apply pre_seq_same; [apply end_test_same|]. intros it1 w1. unfold same_it at 1. cbn [tt_data]. destruct (tt_data it1 =? 0); reflexivity.
    - unfold same_it at 1. cbn [tt_data]. destruct (tt_data it =? 0); [|reflexivity].
      apply pre_seq_same; [apply end_test_same|]. intros. reflexivity.
  Qed.
End BridgeTill.

(** * Nothing but the parsers acts on the world *)
Section MovesIter.
  Context {W I U E : Type}.
  Variable R : W -> W -> Prop.
  Hypothesis HR : preorder R.

  Lemma from_iter_w_moves : forall It T C (next : It -> W -> step It U * W) hint (act : C -> caction U T C),
    (forall it w, R w (snd (next it w))) -> forall fuel c it w, R w (snd (from_iter_w fuel next hint act c it w)).
  Proof.
    intros It T C next hint act Hn. induction fuel as [|fuel IH]; intros c it w; simpl; [apply HR|].
    destruct (act c) as [t|k|k|]; try apply HR; [|apply IH].
    specialize (Hn it w). destruct (next it w) as [[u it'|it'| |] w1]; simpl in *; auto; (eapply HR; [exact Hn|apply IH]).
  Qed.
  Lemma iter_next_w_moves : forall D (p : sparser W I U E) pre (on : D -> D) it w, moves R p -> R w (snd (iter_next_w p pre on it w)).
  Proof.
    intros D p pre on it w H. unfold iter_next_w. destruct (pre (it_data it)); [apply HR|].
    specialize (H w (it_buf it)). destruct (p w (it_buf it)) as [[j u|b e|n| |] w1]; exact H.
  Qed.
  Lemma bmany_w_moves : forall T C fuel (col : collector U T C) (p : sparser W I U E) r, moves R p -> moves R (bmany_w fuel col p r).
  Proof.
    intros T C fuel col p r H.
    assert (Hrun : forall D i (d : D) hint pre on fin w, R w (snd (run_iter_w fuel col i p d hint pre on fin w))).
    { intros D i d hint pre on fin w. unfold run_iter_w.
      pose proof (@from_iter_w_moves _ _ _ (iter_next_w p pre on) (fun it => hint (it_data it)) (cact col)
        (fun it w => iter_next_w_moves pre on it w H) fuel (cinit col) (mkIter (ESIncomplete 1) tt i d) w) as Hx.
      match goal with |- context [from_iter_w ?a ?b ?c ?d ?e ?f ?g] => destruct (from_iter_w a b c d e f g) as [[t it| |] w1] end; exact Hx. }
    intros w i. destruct r as [a b|a| |b|n]; unfold bmany_w; try apply Hrun. destruct (negb (a <=? b)); [apply HR|apply Hrun].
  Qed.
  Lemma bskip_many_w_moves : forall fuel (p : sparser W I U E) r, moves R p -> moves R (bskip_many_w p fuel r).
  Proof.
    intros fuel p r H.
    assert (Hstep : forall w i r1 w1 (x : pres I unit E * W), p w i = (r1, w1) -> R w1 (snd x) -> R w (snd x)).
    { intros w i r1 w1 x Hp Hx. specialize (H w i). rewrite Hp in H. eapply HR; eauto. }
    assert (Hone : forall w i r1 w1, p w i = (r1, w1) -> R w w1).
    { intros w i r1 w1 Hp. specialize (H w i). rewrite Hp in H. exact H. }
    intros w i. destruct r as [a b|a| |b|n]; unfold bskip_many_w.
    - destruct (negb (a <=? b)); [apply HR|]. generalize (Nat.max b 1 - 1). intros m. revert a m w i.
      induction fuel as [|fuel IH]; intros a m w i; simpl; [apply HR|]. destruct (m =? 0); [apply HR|].
      destruct (p w i) as [[j u|bb e|n| |] w1] eqn:Hp; simpl; eauto.
    - revert a w i. induction fuel as [|fuel IH]; intros a w i; simpl; [apply HR|]. destruct (p w i) as [[j u|bb e|n| |] w1] eqn:Hp; simpl; eauto.
    - revert w i. induction fuel as [|fuel IH]; intros w i; simpl; [apply HR|]. destruct (p w i) as [[j u|bb e|n| |] w1] eqn:Hp; simpl; eauto.
    - generalize (Nat.max b 1 - 1). intros m. revert m w i.
      induction fuel as [|fuel IH]; intros m w i; simpl; [apply HR|]. destruct (m =? 0); [apply HR|].
      destruct (p w i) as [[j u|bb e|n| |] w1] eqn:Hp; simpl; eauto.
    - revert n w i. induction fuel as [|fuel IH]; intros n w i; simpl; [apply HR|]. destruct (n =? 0); [apply HR|].
      destruct (p w i) as [[j u|bb e|m| |] w1] eqn:Hp; simpl; eauto.
  Qed.
  Lemma end_test_w_moves : forall V N D (end_ : sparser W I V N) (it : iter_till unit unit I E D) w, moves R end_ -> R w (snd (end_test_w end_ it w)).
  Proof. intros V N D end_ it w H. unfold end_test_w. specialize (H w (tt_buf it)). destruct (end_ w (tt_buf it)) as [[] w1]; exact H. Qed.
  Lemma pre_seq_w_moves : forall It w (a : pre_res It * W) k, R w (snd a) -> (forall it w, R w (snd (k it w))) -> R w (snd (pre_seq_w a k)).
  Proof. intros It w [[it|it| |] w1] k H Hk; simpl in *; auto. eapply HR; [exact H|apply Hk]. Qed.
  Lemma bmany_till_w_moves : forall V N T C fuel (col : collector U T C) (p : sparser W I U E) (end_ : sparser W I V N) r, moves R p -> moves R end_ ->
    moves R (bmany_till_w fuel col p end_ r).
  Proof.
    intros V N T C fuel col p end_ r H He.
    assert (Hrun : forall D i (d : D) hint pre on fin w, (forall it w, R w (snd (pre it w))) -> R w (snd (run_iter_till_w fuel col i p d hint pre on fin w))).
    { intros D i d hint pre on fin w Hpre. unfold run_iter_till_w.
      assert (Hn : forall it w, R w (snd (iter_till_next_w p pre on it w))).
      { intros it v. unfold iter_till_next_w. specialize (Hpre it v). destruct (pre it v) as [[it1|it1| |] w1]; simpl in *; auto.
        specialize (H w1 (tt_buf it1)). destruct (p w1 (tt_buf it1)) as [[j u|b e|n| |] w2]; simpl in *; eapply HR; eauto. }
      pose proof (@from_iter_w_moves _ _ _ (iter_till_next_w p pre on) (fun it => hint (tt_data it)) (cact col)
        Hn fuel (cinit col) (mkIterTill (TIncomplete 1) tt tt i d) w) as Hx.
      match goal with |- context [from_iter_w ?a ?b ?c ?d ?e ?f ?g] => destruct (from_iter_w a b c d e f g) as [[t it| |] w1] end; exact Hx. }
    intros w i. destruct r as [a b|a| |b|n]; unfold bmany_till_w; [destruct (negb (a <=? b)); [apply HR|]|..]; apply Hrun; intros it v.
    - apply pre_seq_w_moves.
      + destruct (fst (tt_data it) =? 0); [apply end_test_w_moves; assumption|apply HR].
      + intros it1 w1. destruct (snd (tt_data it1) =? 0); [|apply HR]. apply pre_seq_w_moves; [apply end_test_w_moves; assumption|]. intros; apply HR.
    - destruct (tt_data it =? 0); [apply end_test_w_moves; assumption|apply HR].
    - apply end_test_w_moves; assumption.
    - apply pre_seq_w_moves; [apply end_test_w_moves; assumption|]. intros; apply HR.
    - destruct (tt_data it =? 0); [|apply HR]. apply pre_seq_w_moves; [apply end_test_w_moves; assumption|]. intros; apply HR.
  Qed.
End MovesIter.
