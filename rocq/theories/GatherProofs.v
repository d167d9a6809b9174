(** Collections other than [Vec]. *)
From Coq Require Import List Bool Arith Lia.
From Verif Require Import Base Parsers Combinators SpecIter SpecCollect SpecGather SpecSep IterProofs ManyProofs TermProofs.
Import ListNotations.

Set Implicit Arguments.

Section FromIter.
  Context {It U T C : Type}.
  Variable next : It -> step It U.
  Variable hint : It -> nat * option nat.
  Variable act : C -> caction U T C.
  Variable again : bool.
  Hypothesis Hagain : again = true -> forall it it', next it = Stop it' -> next it' = Stop it'.

  Lemma closes_run : forall c t, closes act again c t -> forall it, (again = true -> next it = Stop it) ->
    exists fuel, from_iter fuel next hint act c it = FDone t it.
  Proof.
    induction 1 as [c t Ha|c k t Ha Hk IH|c k t Hag Ha Hk IH]; intros it Hn.
    - exists 1. simpl. rewrite Ha. reflexivity.
    - destruct (IH (hint it) it Hn) as (fuel & Hf). exists (S fuel). simpl. rewrite Ha. exact Hf.
    - destruct (IH it Hn) as (fuel & Hf). exists (S fuel). simpl. rewrite Ha, (Hn Hag). exact Hf.
  Qed.

  Lemma gathers_run : forall c us t, gathers act again c us t -> forall it it1, yields next it us it1 -> forall it2,
    next it1 = Stop it2 -> exists fuel, from_iter fuel next hint act c it = FDone t it2.
  Proof.
    induction 1 as [c k t Ha Hc|c k u us t Ha Hg IH|c k us t Ha Hg IH]; intros it it1 Hy it2 Hn.
    - inversion Hy; subst. destruct (closes_run Hc (it := it2)) as (fuel & Hf).
      { intros Hag. eapply Hagain; eauto. }
      exists (S fuel). simpl. rewrite Ha, Hn. exact Hf.
    - inversion Hy as [|? ? itm ? ? Hn0 Hy0]; subst. destruct (IH itm it1 Hy0 it2 Hn) as (fuel & Hf).
      exists (S fuel). simpl. rewrite Ha, Hn0. exact Hf.
    - destruct (IH (hint it) it it1 Hy it2 Hn) as (fuel & Hf). exists (S fuel). simpl. rewrite Ha. exact Hf.
  Qed.

  Lemma gathers_panic : forall c us t, gathers act again c us t -> forall it it1, yields next it us it1 ->
    next it1 = StepPanic -> exists fuel, from_iter fuel next hint act c it = FPanic.
  Proof.
    induction 1 as [c k t Ha Hc|c k u us t Ha Hg IH|c k us t Ha Hg IH]; intros it it1 Hy Hn.
    - inversion Hy; subst. exists 1. simpl. rewrite Ha, Hn. reflexivity.
    - inversion Hy as [|? ? itm ? ? Hn0 Hy0]; subst. destruct (IH itm it1 Hy0 Hn) as (fuel & Hf).
      exists (S fuel). simpl. rewrite Ha, Hn0. exact Hf.
    - destruct (IH (hint it) it it1 Hy Hn) as (fuel & Hf). exists (S fuel). simpl. rewrite Ha. exact Hf.
  Qed.

  Lemma closes_done : forall fuel c t it, closes act again c t -> (again = true -> next it = Stop it) ->
    from_iter fuel next hint act c it = FDone t it \/ from_iter fuel next hint act c it = FNoFuel.
  Proof.
    intros fuel c t it Hc Hn. destruct (closes_run Hc Hn) as (f & Hf).
    destruct (from_iter fuel next hint act c it) eqn:H; auto.
    - left. assert (H1 : from_iter (f + fuel) next hint act c it = FDone t it) by (rewrite from_iter_mono; [exact Hf|rewrite Hf; discriminate]).
      rewrite Nat.add_comm, from_iter_mono in H1 by (rewrite H; discriminate). congruence.
    - exfalso. assert (H1 : from_iter (f + fuel) next hint act c it = FDone t it) by (rewrite from_iter_mono; [exact Hf|rewrite Hf; discriminate]).
      rewrite Nat.add_comm, from_iter_mono in H1 by (rewrite H; discriminate). congruence.
  Qed.

  Lemma gathers_back : forall fuel c (g : list U -> T) acc it, (forall us, gathers act again c us (g (acc ++ us))) ->
    match from_iter fuel next hint act c it with
    | FDone t it2 => exists us it1, yields next it us it1 /\ next it1 = Stop it2 /\ t = g (acc ++ us)
    | FPanic => exists us it1, yields next it us it1 /\ next it1 = StepPanic
    | FNoFuel => True
    end.
  Proof.
    induction fuel as [|fuel IH]; intros c g acc it Hg; simpl; auto.
    pose proof (Hg []) as H0. destruct (act c) as [t|k|k|] eqn:Ha.
    - inversion H0; congruence.
    - destruct (next it) as [u it1|it1| |] eqn:Hn; auto.
      + assert (Hg' : forall us, gathers act again (k (Some u)) us (g ((acc ++ [u]) ++ us))).
        { intros us. specialize (Hg (u :: us)). rewrite <- app_assoc. simpl. inversion Hg; subst; congruence. }
        specialize (IH _ _ _ it1 Hg'). destruct (from_iter fuel next hint act (k (Some u)) it1); auto.
        * destruct IH as (us & it2 & Hy & Hs & ->). exists (u :: us), it2. rewrite <- app_assoc. simpl. repeat split; auto.
          econstructor; eauto.
        * destruct IH as (us & it2 & Hy & Hs). exists (u :: us), it2. split; auto. econstructor; eauto.
      + assert (Hc : closes act again (k None) (g (acc ++ []))) by (inversion H0; subst; congruence).
        assert (Hnn : again = true -> next it1 = Stop it1) by (intros Hag; eapply Hagain; eauto).
        destruct (closes_done fuel Hc Hnn) as [->| ->]; auto.
        exists [], it. repeat split; auto. constructor.
      + exists [], it. split; auto. constructor.
    - assert (Hg' : forall us, gathers act again (k (hint it)) us (g (acc ++ us))).
      { intros us. specialize (Hg us). inversion Hg; subst; try congruence.
        match goal with H : act c = CHint ?k0, H1 : forall h, gathers _ _ (?k0 h) _ _ |- _ => rewrite Ha in H; inversion H; subst; apply H1 end. }
      exact (IH _ _ _ it Hg').
    - inversion H0; congruence.
  Qed.

  Lemma stops_run : forall c us t, stops_after act c us t -> forall it it1, yields next it us it1 ->
    exists fuel, from_iter fuel next hint act c it = FDone t it1.
  Proof.
    induction 1 as [c t Ha|c k u us t Ha Hg IH|c k us t Ha Hg IH]; intros it it1 Hy.
    - inversion Hy; subst. exists 1. simpl. rewrite Ha. reflexivity.
    - inversion Hy as [|? ? itm ? ? Hn0 Hy0]; subst. destruct (IH itm it1 Hy0) as (fuel & Hf).
      exists (S fuel). simpl. rewrite Ha, Hn0. exact Hf.
    - destruct (IH (hint it) it it1 Hy) as (fuel & Hf). exists (S fuel). simpl. rewrite Ha. exact Hf.
  Qed.

  Lemma yields_prefix : forall us vs it it1, yields next it (us ++ vs) it1 -> exists itm, yields next it us itm.
  Proof.
    induction us as [|u us IH]; intros vs it it1 H.
    - exists it. constructor.
    - inversion H as [|? ? itm ? ? Hn Hy]; subst. destruct (IH _ _ _ Hy) as (x & Hx). exists x. econstructor; eauto.
  Qed.
End FromIter.

(** ** [run_iter!] and [run_iter_till!] *)

Section Both.
  Context {It U T C I E : Type}.
  Variable next : It -> step It U.
  Variable hint : It -> nat * option nat.
  Variable col : collector U T C.
  Variable again : bool.
  Hypothesis Hagain : again = true -> forall it it', next it = Stop it' -> next it' = Stop it'.
  Variable g : list U -> T.
  Hypothesis Hg : gathering again col g.
  Variable finv : list U -> It -> pres I (list U) E.
  Variable fin : T -> It -> pres I T E.
  Hypothesis Hfin : forall us it, fin (g us) it = map g (finv us it).
  Hypothesis Hfinv : forall us it, finv us it <> NoFuel.

  Definition over {A} (f : A -> It -> pres I A E) (r : fres A It) : pres I A E :=
    match r with FDone t it => f t it | FPanic => Panic | FNoFuel => NoFuel end.

  Lemma gives_both : forall it res,
    gives (fun fuel => over fin (from_iter fuel next hint (cact col) (cinit col) it)) res <->
    exists res0, gives (fun fuel => over finv (from_iter fuel next hint (cact (vec_collector U)) (cinit (vec_collector U)) it)) res0 /\
      res = map g res0.
  Proof.
    intros it res. split.
    - intros (Hne & fuel & Hf). pose proof (@gathers_back It U T C next hint (cact col) again Hagain fuel (cinit col) g [] it Hg) as Hb.
      destruct (from_iter fuel next hint (cact col) (cinit col) it) as [t it2| |] eqn:Hr; simpl in Hf; [| |congruence].
      + destruct Hb as (us & it1 & Hy & Hs & ->). exists (finv us it2). split.
        * split; [apply Hfinv|]. exists (length us + 2). cbn [cinit vec_collector].
          rewrite (proj2 (from_iter_vec_done next hint (length us + 2) [] it us it2)); [reflexivity|].
          exists us, it1. repeat split; auto.
        * rewrite <- Hf. apply Hfin.
      + destruct Hb as (us & it1 & Hy & Hs). exists Panic. split; [|now rewrite <- Hf].
        split; [discriminate|]. exists (length us + 1). cbn [cinit vec_collector].
        rewrite (proj2 (from_iter_vec_panic next hint (length us + 1) [] it)); [reflexivity|]. exists us, it1. auto.
    - intros (res0 & (Hne & fuel & Hf) & ->). cbn [cinit vec_collector] in Hf.
      destruct (from_iter fuel next hint (cact (vec_collector U)) (false, []) it) as [us it2| |] eqn:Hr; simpl in Hf; [| |congruence].
      + apply from_iter_vec_done in Hr. destruct Hr as (vs & it1 & Hv & Hy & Hs & _). simpl in Hv. subst vs.
        destruct (gathers_run hint Hagain (Hg us) Hy Hs) as (f & Hfr). split.
        * rewrite <- Hf. pose proof (@Hfinv us it2) as Hx. destruct (finv us it2); simpl; congruence.
        * exists f. rewrite Hfr. simpl. rewrite <- Hf. apply Hfin.
      + apply from_iter_vec_panic in Hr. destruct Hr as (vs & it1 & Hy & Hs & _).
        destruct (gathers_panic hint (Hg vs) Hy Hs) as (f & Hfr). rewrite <- Hf. split; [discriminate|].
        exists f. rewrite Hfr. reflexivity.
  Qed.
End Both.

Lemma gives_never : forall I T E (res : pres I T E), ~ gives (fun _ => NoFuel) res.
Proof. intros I T E res (H & _ & Hf). congruence. Qed.

Section Many.
  Context {S I U T E C : Type}.
  Variable p : sparser S I U E.
  Variable col : collector U T C.
  Variable again : bool.
  Variable g : list U -> T.
  Hypothesis Hg : gathering again col g.

  Lemma quiet_fused : forall D pre on, quiet p -> forall it it' : iter S I E D,
    iter_next p pre on it = Stop it' -> iter_next p pre on it' = Stop it'.
  Proof.
    intros D pre on Hq it it' H. unfold iter_next in *. destruct (pre (it_data it)) eqn:Hp.
    - inversion H; subst. rewrite Hp. reflexivity.
    - destruct (p (it_ps it) (it_buf it)) as [[b v|b e|n| |] s] eqn:Hpp; inversion H; subst; simpl; rewrite Hp.
      + assert (s = it_ps it) by (eapply Hq; [exact Hpp|discriminate]). subst s. rewrite Hpp. reflexivity.
      + assert (s = it_ps it) by (eapply Hq; [exact Hpp|discriminate]). subst s. rewrite Hpp. reflexivity.
  Qed.

  Lemma run_iter_gives : forall D (hint : D -> nat * option nat) pre on fin finv i s0 d0 res, (again = true -> quiet p) ->
    (forall us j d e, fin (g us) j d e = map g (finv us j d e)) -> (forall us j d e, finv us j d e <> NoFuel) ->
    (gives (fun fuel => run_iter fuel col i s0 p d0 hint pre on fin) res <->
     exists res0, gives (fun fuel => run_iter fuel (vec_collector U) i s0 p d0 hint pre on finv) res0 /\ res = map g res0).
  Proof.
    intros D hint pre on fin finv i s0 d0 res Hq Hfin Hfinv.
    apply (@gives_both (iter S I E D) U T C I E (iter_next p pre on) (fun it => hint (it_data it)) col again) with
      (finv := fun us it => finv us (it_buf it) (it_data it) (it_state it)) (fin := fun t it => fin t (it_buf it) (it_data it) (it_state it)); auto.
    intros Hag. apply quiet_fused. auto.
  Qed.

  Ltac fin_tac := intros us j d e; unfold ret, err, incomplete; try (match type of d with prod _ _ => destruct d as [? ?] end);
    repeat match goal with |- context [match ?x with _ => _ end] => destruct x end; first [reflexivity | discriminate].

  Lemma bmany_gives : forall r s0 i res, (again = true -> quiet p) ->
    (gives (fun fuel => bmany fuel col r s0 p i) res <->
     exists res0, gives (fun fuel => bmany fuel (vec_collector U) r s0 p i) res0 /\ res = map g res0).
  Proof.
    intros r s0 i res Hq. destruct r as [a b|a| |b|n]; cbn [bmany].
    - unfold parse_many_range. destruct (negb (a <=? b)).
      + split.
        * intros (Hne & f & <-). exists Panic. split; auto. split; auto; try discriminate. exists 0. reflexivity.
        * intros (res0 & (Hne & f & <-) & ->). split; [discriminate|]. exists 0. reflexivity.
      + apply run_iter_gives; [exact Hq|fin_tac|fin_tac].
    - apply run_iter_gives; [exact Hq|fin_tac|fin_tac].
    - apply run_iter_gives; [exact Hq|fin_tac|fin_tac].
    - apply run_iter_gives; [exact Hq|fin_tac|fin_tac].
    - apply run_iter_gives; [exact Hq|fin_tac|fin_tac].
  Qed.
End Many.

Section Till.
  Context {S SE I U V T E N C : Type}.
  Variable p : sparser S I U E.
  Variable end_ : sparser SE I V N.
  Variable col : collector U T C.
  Variable g : list U -> T.
  Hypothesis Hg : gathering false col g.

  Lemma run_till_gives : forall D (hint : D -> nat * option nat) pre on fin finv i s0 (e0 : SE) d0 res,
    (forall us j d e, fin (g us) j d e = map g (finv us j d e)) -> (forall us j d e, finv us j d e <> NoFuel) ->
    (gives (fun fuel => run_iter_till fuel col i s0 e0 p d0 hint pre on fin) res <->
     exists res0, gives (fun fuel => run_iter_till fuel (vec_collector U) i s0 e0 p d0 hint pre on finv) res0 /\ res = map g res0).
  Proof.
    intros D hint pre on fin finv i s0 e0 d0 res Hfin Hfinv.
    apply (@gives_both (iter_till S SE I E D) U T C I E (iter_till_next p pre on) (fun it => hint (tt_data it)) col false) with
      (finv := fun us it => finv us (tt_buf it) (tt_data it) (tt_state it)) (fin := fun t it => fin t (tt_buf it) (tt_data it) (tt_state it)); auto.
    discriminate.
  Qed.

  Ltac fin_tac := intros us j d e; unfold ret, err, incomplete; try (match type of d with prod _ _ => destruct d as [? ?] end);
    repeat match goal with |- context [match ?x with _ => _ end] => destruct x end; first [reflexivity | discriminate].

  Lemma bmany_till_gives : forall r s0 e0 i res,
    gives (fun fuel => bmany_till fuel col r s0 e0 p end_ i) res <->
    exists res0, gives (fun fuel => bmany_till fuel (vec_collector U) r s0 e0 p end_ i) res0 /\ res = map g res0.
  Proof.
    intros r s0 e0 i res. destruct r as [a b|a| |b|n]; cbn [bmany_till].
    - unfold many_till_range. destruct (negb (a <=? b)).
      + split.
        * intros (Hne & f & <-). exists Panic. split; auto. split; auto; try discriminate. exists 0. reflexivity.
        * intros (res0 & (Hne & f & <-) & ->). split; [discriminate|]. exists 0. reflexivity.
      + apply run_till_gives; fin_tac.
    - apply run_till_gives; fin_tac.
    - apply run_till_gives; fin_tac.
    - apply run_till_gives; fin_tac.
    - apply run_till_gives; fin_tac.
  Qed.
End Till.

(** ** Collections that stop before the end *)

Section Early.
  Context {S I U T E C : Type}.
  Variable p : sparser S I U E.
  Variable col : collector U T C.

  Lemma run_iter_stops : forall D (hint : D -> nat * option nat) pre on fin i s0 d0 us s j t,
    iterates p s0 i us s j -> (forall k, k < length us -> pre (Nat.iter k on d0) = false) ->
    stops_after (cact col) (cinit col) us t ->
    exists fuel, run_iter fuel col i s0 p d0 hint pre on fin = fin t j (Nat.iter (length us) on d0) (ESIncomplete 1).
  Proof.
    intros D hint pre on fin i s0 d0 us s j t Hi Hk Hs.
    assert (Hy : yields (iter_next p pre on) (mkIter (ESIncomplete 1) s0 i d0) us (mkIter (ESIncomplete 1) s j (Nat.iter (length us) on d0)))
      by (apply iter_yields; simpl; auto).
    destruct (stops_run (fun it => hint (it_data it)) Hs Hy) as (fuel & Hf). exists fuel. unfold run_iter. rewrite Hf. reflexivity.
  Qed.

  (** What the code makes of a collection that has had enough. *)
  Lemma bmany_early : forall r s0 i us s j t, nonempty r -> iterates p s0 i us s j -> (forall k, k < length us -> may_grow r k) ->
    stops_after (cact col) (cinit col) us t ->
    (in_range r (length us) /\ (~ may_grow r (length us) \/ last j = true) -> gives (fun fuel => bmany fuel col r s0 p i) (Data j t)) /\
    (~ in_range r (length us) \/ may_grow r (length us) /\ last j = false -> gives (fun fuel => bmany fuel col r s0 p i) (Incomplete 1)).
  Proof.
    intros r s0 i us s j t Hne Hi Hk Hs. unfold gives.
    enough (Hx : exists fuel res, bmany fuel col r s0 p i = res /\
      (in_range r (length us) /\ (~ may_grow r (length us) \/ last j = true) -> res = Data j t) /\
      (~ in_range r (length us) \/ may_grow r (length us) /\ last j = false -> res = Incomplete 1)).
    { destruct Hx as (fuel & res & Hf & H1 & H2). split; intros H; (split; [discriminate|]); exists fuel; rewrite Hf; auto. }
    destruct r as [a b|a| |b|n]; cbn [bmany].
    - assert (Hab : a < b) by (destruct Hne as (k & Hk0); simpl in Hk0; lia).
      unfold parse_many_range. replace (a <=? b) with true by (symmetry; apply Nat.leb_le; lia). simpl negb. cbv iota.
      destruct (@run_iter_stops (nat * nat) (fun d => (fst d, Some (snd d))) (fun d => snd d =? 0) (fun d => (dec0 (fst d), snd d - 1))
        (fun result s d st =>
           match d, st with
           | (0, 0), _ => ret result s
           | (0, _), ESError _ _ => ret result s
           | (0, _), ESIncomplete n => if last s then ret result s else incomplete n s
           | (_, _), ESError b e => err e (replace s b)
           | (_, _), ESIncomplete n => incomplete n s
           end) i s0 (a, Nat.max b 1 - 1) us s j t Hi) as (fuel & Hf); [|exact Hs|].
      { intros k Hlt. specialize (Hk k Hlt). rewrite may_grow_range in Hk. rewrite iter_pair. cbn [snd]. apply Nat.eqb_neq. lia. }
      exists fuel. eexists. split; [exact Hf|]. rewrite iter_pair, may_grow_range. cbn [in_range].
      destruct (a - length us) eqn:Ha; destruct (Nat.max b 1 - 1 - length us) eqn:Hb; unfold ret, incomplete;
        destruct (last j) eqn:Hl; split; intros H; try reflexivity; exfalso;
        (destruct us as [|u us]; [|specialize (Hk (length us) ltac:(simpl; lia)); rewrite may_grow_range in Hk]; cbn [length] in *; decompose [and or] H; try discriminate; try lia; tauto).
    - destruct (@run_iter_stops nat (fun d => (d, None)) (fun _ => false) dec0
        (fun result s d st =>
         match d, st with
         | 0, ESError _ _ => ret result s
         | 0, ESIncomplete n => if last s then ret result s else incomplete n s
         | _, ESError b e => err e (replace s b)
         | _, ESIncomplete n => incomplete n s
         end) i s0 a us s j t Hi) as (fuel & Hf); [reflexivity|exact Hs|].
      exists fuel. eexists. split; [exact Hf|]. rewrite iter_dec0. cbn [in_range]. pose proof (may_grow_from a (length us)) as Hgr.
      destruct (a - length us) eqn:Ha; unfold ret, incomplete; destruct (last j) eqn:Hl; split; intros H; try reflexivity; exfalso;
        decompose [and or] H; try discriminate; try lia; tauto.
    - destruct (@run_iter_stops unit (fun _ => (0, None)) (fun _ => false) (fun d => d)
        (fun result s d st =>
         match st with
         | ESError _ _ => ret result s
         | ESIncomplete n => if last s then ret result s else incomplete n s
         end) i s0 tt us s j t Hi) as (fuel & Hf); [reflexivity|exact Hs|].
      exists fuel. eexists. split; [exact Hf|]. cbn [in_range]. pose proof (may_grow_full (length us)) as Hgr.
      unfold ret, incomplete; destruct (last j) eqn:Hl; split; intros H; try reflexivity; exfalso;
        decompose [and or] H; try discriminate; tauto.
    - assert (Hb0 : 0 < b) by (destruct Hne as (k & Hk0); simpl in Hk0; lia).
      destruct (@run_iter_stops nat (fun d => (0, Some d)) (fun d => d =? 0) (fun d => d - 1)
        (fun result s d st =>
         match d, st with
         | 0, _ => ret result s
         | _, ESError _ _ => ret result s
         | _, ESIncomplete n => if last s then ret result s else incomplete n s
         end) i s0 (Nat.max b 1 - 1) us s j t Hi) as (fuel & Hf); [|exact Hs|].
      { intros k Hlt. specialize (Hk k Hlt). rewrite may_grow_to in Hk. rewrite iter_pred. apply Nat.eqb_neq. lia. }
      exists fuel. eexists. split; [exact Hf|]. rewrite iter_pred, may_grow_to. cbn [in_range].
      destruct (Nat.max b 1 - 1 - length us) eqn:Hb; unfold ret, incomplete;
        destruct (last j) eqn:Hl; split; intros H; try reflexivity; exfalso;
        (destruct us as [|u us]; [|specialize (Hk (length us) ltac:(simpl; lia)); rewrite may_grow_to in Hk]; cbn [length] in *; decompose [and or] H; try discriminate; try lia; tauto).
    - destruct (@run_iter_stops nat (fun d => (d, Some d)) (fun d => d =? 0) (fun d => d - 1)
        (fun result s d st =>
         match d, st with
         | 0, _ => ret result s
         | _, ESError b e => err e (replace s b)
         | _, ESIncomplete n => incomplete n s
         end) i s0 n us s j t Hi) as (fuel & Hf); [|exact Hs|].
      { intros k Hlt. specialize (Hk k Hlt). rewrite may_grow_exact in Hk. rewrite iter_pred. apply Nat.eqb_neq. lia. }
      exists fuel. eexists. split; [exact Hf|]. rewrite iter_pred, may_grow_exact. cbn [in_range].
      destruct (n - length us) eqn:Hb; unfold ret, incomplete; split; intros H; try reflexivity; exfalso;
        (destruct us as [|u us]; [|specialize (Hk (length us) ltac:(simpl; lia)); rewrite may_grow_exact in Hk]; cbn [length] in *; decompose [and or] H; try discriminate; lia).
  Qed.
End Early.

Section EarlyTill.
  Context {S SE I U V T E N C : Type}.
  Variable p : sparser S I U E.
  Variable end_ : sparser SE I V N.
  Variable col : collector U T C.

  Lemma till_yields_state : forall D pre on us (it it1 : iter_till S SE I E D),
    (forall it it', pre it = PreGo it' -> tt_state it' = tt_state it) ->
    yields (iter_till_next p pre on) it us it1 -> tt_state it1 = tt_state it.
  Proof.
    intros D pre on us it it1 Hpre H. induction H as [it|it u itm us it2 Hn Hy IH]; auto. rewrite IH.
    unfold iter_till_next in Hn. destruct (pre it) as [x|x| |] eqn:Hp; try discriminate. apply Hpre in Hp.
    destruct (p (tt_ps x) (tt_buf x)) as [[b v|b e|n| |] s]; inversion Hn; subst; simpl. exact Hp.
  Qed.

  Lemma run_till_early : forall D (hint : D -> nat * option nat) pre on fin finv i s0 (e0 : SE) d0 us vs t k fuel,
    (forall it it', pre it = PreGo it' -> tt_state it' = tt_state it) ->
    (forall t j d, fin t j d (TIncomplete 1) = Incomplete 1) ->
    (forall us j d e k vs, finv us j d e = Data k vs -> vs = us) ->
    run_iter_till fuel (vec_collector U) i s0 e0 p d0 hint pre on finv = Data k (us ++ vs) ->
    stops_after (cact col) (cinit col) us t ->
    gives (fun fuel => run_iter_till fuel col i s0 e0 p d0 hint pre on fin) (Incomplete 1).
  Proof.
    intros D hint pre on fin finv i s0 e0 d0 us vs t k fuel Hpre Hfin Hfinv Hv Hs. split; [discriminate|].
    unfold run_iter_till in Hv. cbn [cinit vec_collector] in Hv.
    destruct (from_iter fuel _ _ _ _ _) as [ws it2| |] eqn:Hf; try discriminate.
    apply Hfinv in Hv. subst ws. apply from_iter_vec_done in Hf. destruct Hf as (ws & it1 & Hw & Hy & _). simpl in Hw. subst ws.
    apply yields_prefix in Hy. destruct Hy as (itm & Hy).
    destruct (stops_run (fun it => hint (tt_data it)) Hs Hy) as (f & Hfr). exists f. unfold run_iter_till. rewrite Hfr.
    apply till_yields_state in Hy; auto. rewrite Hy. apply Hfin.
  Qed.

  Lemma end_test_go : forall D (it it' : iter_till S SE I E D), end_test end_ it = PreGo it' -> tt_state it' = tt_state it.
  Proof.
    intros D it it' H. unfold end_test in H. destruct (end_ (tt_es it) (tt_buf it)) as [[b v|b e|n| |] s]; inversion H; reflexivity.
  Qed.

  Ltac pre_tac := intros it it' H; unfold pre_seq in H;
    repeat match type of H with
           | context [end_test end_ ?x] => let Hx := fresh in destruct (end_test end_ x) eqn:Hx; try discriminate; try (apply end_test_go in Hx)
           | context [if ?x then _ else _] => destruct x
           end; try discriminate; inversion H; subst; congruence.
  Ltac fin_tac := unfold ret, err, incomplete; try (intros t0 j0 [d1 d2]); intros;
    repeat match goal with |- context [match ?x with _ => _ end] => destruct x end; first [reflexivity | congruence].
  Ltac finv_tac := intros us0 j0 d0 e0' k0 vs0 H; unfold ret, err, incomplete in H; try (match type of d0 with prod _ _ => destruct d0 as [? ?] end);
    repeat match type of H with context [match ?x with _ => _ end] => destruct x end; first [congruence | discriminate].

  (** A collection that stops before the end: [many_till] is incomplete. *)
  Lemma bmany_till_early : forall r s0 e0 i us vs t k fuel,
    bmany_till fuel (vec_collector U) r s0 e0 p end_ i = Data k (us ++ vs) ->
    stops_after (cact col) (cinit col) us t ->
    gives (fun fuel => bmany_till fuel col r s0 e0 p end_ i) (Incomplete 1).
  Proof.
    intros r s0 e0 i us vs t k fuel Hv Hs. destruct r as [a b|a| |b|n]; cbn [bmany_till] in *.
    - unfold many_till_range in *. destruct (negb (a <=? b)); [discriminate|].
      eapply run_till_early; [| | |exact Hv|exact Hs]; [pre_tac|fin_tac|finv_tac].
    - eapply run_till_early; [| | |exact Hv|exact Hs]; [pre_tac|fin_tac|finv_tac].
    - eapply run_till_early; [| | |exact Hv|exact Hs]; [pre_tac|fin_tac|finv_tac].
    - eapply run_till_early; [| | |exact Hv|exact Hs]; [pre_tac|fin_tac|finv_tac].
    - eapply run_till_early; [| | |exact Hv|exact Hs]; [pre_tac|fin_tac|finv_tac].
  Qed.
End EarlyTill.

Lemma sep_item_quiet : forall SP SS I U V E N (conv : N -> E) (p : sparser SP I U E) (sep : sparser SS I V N),
  quiet p -> (forall ss i, snd (sep ss i) = ss) -> quiet (sep_item conv p sep).
Proof.
  intros SP SS I U V E N conv p sep Hp Hs [[item sp] ss] i r s' H Hd. unfold sep_item in H.
  destruct item.
  - specialize (Hs ss i). destruct (sep ss i) as [r0 ss'] eqn:Hsep. simpl in Hs. subst ss'.
    destruct r0 as [b v|b e|n| |]; simpl in H; try (inversion H; subst; reflexivity).
    destruct (p sp b) as [r1 sp'] eqn:Hpp. destruct r1 as [b1 v1|b1 e1|n1| |]; simpl in H; inversion H; subst; try (exfalso; eapply Hd; reflexivity);
      (assert (sp' = sp) by (eapply Hp; [exact Hpp|discriminate]); subst; reflexivity).
  - simpl in H. destruct (p sp i) as [r1 sp'] eqn:Hpp. destruct r1 as [b1 v1|b1 e1|n1| |]; simpl in H; inversion H; subst; try (exfalso; eapply Hd; reflexivity);
      (assert (sp' = sp) by (eapply Hp; [exact Hpp|discriminate]); subst; reflexivity).
Qed.

Lemma pure_quiet : forall I U E (p : parser I U E), quiet (pure p).
Proof. intros I U E p [] i r [] _ _. reflexivity. Qed.

Lemma fold_gathers : forall U T (add : T -> U -> T) us t0, gathers (cact (fold_collector t0 add)) false (false, t0) us (fold_left add us t0).
Proof.
  intros U T add us. induction us as [|u us IH]; intros t0; simpl.
  - eapply gathers_end; [reflexivity|]. apply closes_finish. reflexivity.
  - eapply gathers_item; [reflexivity|]. cbv beta iota. apply IH.
Qed.

(** ** One run *)

Lemma bmany_content : forall S I U T E C (col : collector U T C) again (p : sparser S I U E) r s0 i j us t,
  (again = true -> quiet p) -> gives (fun fuel => bmany fuel (vec_collector U) r s0 p i) (Data j us) ->
  gathers (cact col) again (cinit col) us t -> gives (fun fuel => bmany fuel col r s0 p i) (Data j t).
Proof.
  intros S I U T E C col again p r s0 i j us t Hq (_ & fuel & Hf) Hg. split; [discriminate|].
  assert (H : forall D (hint : D -> nat * option nat) pre on fin finv d0,
    (forall us' t' j d e, finv us' j d e = Data j us' -> fin t' j d e = Data j t') ->
    (forall us' j d e k vs, finv us' j d e = Data k vs -> vs = us' /\ k = j) ->
    run_iter fuel (vec_collector U) i s0 p d0 hint pre on finv = Data j us ->
    exists f, run_iter f col i s0 p d0 hint pre on fin = Data j t).
  { clear Hf. intros D hint pre on fin finv d0 H1 H2 Hr. unfold run_iter in Hr. cbn [cinit vec_collector] in Hr.
    destruct (from_iter fuel _ _ _ _ _) as [vs it| |] eqn:Hf; try discriminate. destruct (H2 _ _ _ _ _ _ Hr) as [Ha Hb]. subst vs.
    apply from_iter_vec_done in Hf. destruct Hf as (ws & it1 & Hw & Hy & Hs & _). simpl in Hw. subst ws.
    destruct (gathers_run (fun it => hint (it_data it)) (again := again) (act := cact col) (fun Hag => @quiet_fused S I U E p D pre on (Hq Hag)) Hg Hy Hs) as (f & Hfr).
    exists f. unfold run_iter. rewrite Hfr. rewrite Hb in *. apply (H1 us). exact Hr. }
  destruct r as [a b|a| |b|n]; cbn [bmany] in *;
    [unfold parse_many_range in *; destruct (negb (a <=? b)); [discriminate|]| | | |];
    (eapply H; [| |exact Hf]; [intros us' t' j' d e Hx|intros us' j' d e k' vs Hx]); unfold ret, err, incomplete in *;
    try (match type of d with prod _ _ => destruct d as [? ?] end);
    repeat match type of Hx with context [match ?x with _ => _ end] => destruct x end; try discriminate; try congruence; split; congruence.
Qed.
