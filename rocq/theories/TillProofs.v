(** bounded::many_till against its specification. *)
From Coq Require Import List Bool Arith Lia.
From Verif Require Import Base Parsers Combinators SpecIter IterProofs ManyProofs.
Import ListNotations.

Set Implicit Arguments.

Section Till.
  Context {St I U V E N D : Type}.
  Variable p : sparser St I U E.
  Variable end_ : parser I V N.
  (** [tests d]: [end] is run at this point; [stops d]: the maximum is reached. *)
  Variable tests stops : D -> bool.
  Variable on : D -> D.

  Notation it_t := (iter_till St unit I E D).
  Variable pre : it_t -> pre_res it_t.
  Hypothesis pre_spec : forall it, pre it =
    match (if tests (tt_data it) then end_ (tt_buf it) else Incomplete 0) with
    | Data b _ => PreNone (mkIterTill TEndSuccess (tt_ps it) tt b (tt_data it))
    | Error _ _ | Incomplete _ => if stops (tt_data it) then PreNone it else PreGo it
    | Panic => PrePanic
    | NoFuel => PreNoFuel
    end.

  Definition efails (d : D) (i : input I) : Prop :=
    tests d = true -> (exists b e, end_ i = Error b e) \/ (exists n, end_ i = Incomplete n).

  Inductive tsteps : D -> St -> input I -> list U -> D -> St -> input I -> Prop :=
  | ts_nil : forall d s i, tsteps d s i [] d s i
  | ts_cons : forall d s i u s1 i1 us d2 s2 i2,
      efails d i -> stops d = false -> p s i = (Data i1 u, s1) -> tsteps (on d) s1 i1 us d2 s2 i2 ->
      tsteps d s i (u :: us) d2 s2 i2.

  Lemma efails_pre : forall it, efails (tt_data it) (tt_buf it) ->
    pre it = if stops (tt_data it) then PreNone it else PreGo it.
  Proof.
    intros it H. rewrite pre_spec. destruct (tests (tt_data it)) eqn:Ht; auto.
    destruct (H Ht) as [(b & e & ->)|(n & ->)]; reflexivity.
  Qed.

  Lemma pre_go_inv : forall it it1, pre it = PreGo it1 -> it1 = it /\ efails (tt_data it) (tt_buf it) /\ stops (tt_data it) = false.
  Proof.
    intros it it1 H. rewrite pre_spec in H. unfold efails.
    destruct (tests (tt_data it)) eqn:Ht.
    - destruct (end_ (tt_buf it)) as [b v|b e|n| |] eqn:He; try discriminate;
        destruct (stops (tt_data it)); inversion H; subst; repeat split; eauto.
    - destruct (stops (tt_data it)); inversion H; subst; repeat split; intros; discriminate.
  Qed.

  Lemma till_yields : forall us it it1,
    yields (iter_till_next p pre on) it us it1 <->
    (tsteps (tt_data it) (tt_ps it) (tt_buf it) us (tt_data it1) (tt_ps it1) (tt_buf it1) /\ tt_state it1 = tt_state it).
  Proof.
    induction us as [|u us IH]; intros it it1.
    - split.
      + intros H; inversion H; subst. split; auto. constructor.
      + intros (H1 & H2). inversion H1; subst. destruct it as [a1 a2 [] a4 a5], it1 as [b1 b2 [] b4 b5]; simpl in *; subst. constructor.
    - split.
      + intros H; inversion H as [|? ? itm ? ? Hn Hy]; subst. apply IH in Hy. destruct Hy as (Hi & Hs).
        unfold iter_till_next in Hn. destruct (pre it) as [it0|it0| |] eqn:Hp; try discriminate.
        apply pre_go_inv in Hp. destruct Hp as (-> & He & Hst).
        destruct (p (tt_ps it) (tt_buf it)) as [[b v|b e|n| |] s] eqn:Hpp; inversion Hn; subst; simpl in *.
        split; auto. econstructor; eauto.
      + intros (Hi & Hs). inversion Hi as [|? ? ? ? s1 i1 ? ? ? ? He Hst Hp1 Hi1]; subst.
        apply yields_cons with (it1 := mkIterTill (tt_state it) s1 tt i1 (on (tt_data it))).
        * unfold iter_till_next. rewrite (efails_pre _ He), Hst, Hp1. destruct (tt_es it). reflexivity.
        * apply IH. simpl. auto.
  Qed.

  Variable hint : D -> nat * option nat.
  Variable fin : list U -> input I -> D -> end_state_till I E -> pres I (list U) E.

  (** Everything [run_iter_till] with a Vec can do after the run [us] has been yielded. *)
  Inductive till_stop (us : list U) (d : D) (s : St) (j : input I) : pres I (list U) E -> Prop :=
  | st_end : forall k v, tests d = true -> end_ j = Data k v -> till_stop us d s j (fin us k d TEndSuccess)
  | st_end_panic : tests d = true -> end_ j = Panic -> till_stop us d s j Panic
  | st_max : efails d j -> stops d = true -> till_stop us d s j (fin us j d (TIncomplete 1))
  | st_err : forall b e, efails d j -> stops d = false -> fst (p s j) = Error b e -> till_stop us d s j (fin us j d (TError b e))
  | st_inc : forall n, efails d j -> stops d = false -> fst (p s j) = Incomplete n -> till_stop us d s j (fin us j d (TIncomplete n))
  | st_panic : efails d j -> stops d = false -> fst (p s j) = Panic -> till_stop us d s j Panic.

  Lemma efails_error : forall d i b e, end_ i = Error b e -> efails d i.
  Proof. unfold efails; eauto. Qed.
  Lemma efails_incomplete : forall d i n, end_ i = Incomplete n -> efails d i.
  Proof. unfold efails; eauto. Qed.
  Lemma efails_notest : forall d i, tests d = false -> efails d i.
  Proof. unfold efails; congruence. Qed.

  Lemma run_till_sound : forall fuel i s0 d0 res,
    run_iter_till fuel (vec_collector U) i s0 tt p d0 hint pre on fin = res ->
    (forall t i d e, fin t i d e <> NoFuel) -> res <> NoFuel ->
    exists us d s j, tsteps d0 s0 i us d s j /\ till_stop us d s j res.
  Proof.
    intros fuel i s0 d0 res Hr Hfin Hne. unfold run_iter_till in Hr. cbn [cinit vec_collector] in Hr.
    destruct (from_iter _ _ _ _ _ _) as [t it| |] eqn:Hf; [| |congruence].
    - apply from_iter_vec_done in Hf. destruct Hf as (us & it1 & -> & Hy & Hs & _). simpl app in Hr.
      apply till_yields in Hy. cbn [tt_ps tt_buf tt_state tt_data] in Hy. destruct Hy as (Hi & Hst).
      exists us, (tt_data it1), (tt_ps it1), (tt_buf it1). split; auto.
      unfold iter_till_next in Hs. destruct (pre it1) as [it2|it2| |] eqn:Hp; try discriminate.
      + apply pre_go_inv in Hp. destruct Hp as (-> & He & Hx).
        destruct (p (tt_ps it1) (tt_buf it1)) as [[b v|b e|n| |] s] eqn:Hpp; inversion Hs; subst it; simpl in *; subst res.
        * eapply st_err; eauto. rewrite Hpp. reflexivity.
        * eapply st_inc; eauto. rewrite Hpp. reflexivity.
      + inversion Hs; subst it2. rewrite pre_spec in Hp. destruct (tests (tt_data it1)) eqn:Ht.
        * destruct (end_ (tt_buf it1)) as [b v|b e|n| |] eqn:He; try discriminate.
          -- inversion Hp; subst it; simpl in *; subst res. eapply st_end; eauto.
          -- destruct (stops (tt_data it1)) eqn:Hx; inversion Hp; subst it. rewrite Hst in Hr. subst res.
             eapply st_max; eauto using efails_error.
          -- destruct (stops (tt_data it1)) eqn:Hx; inversion Hp; subst it. rewrite Hst in Hr. subst res.
             eapply st_max; eauto using efails_incomplete.
        * destruct (stops (tt_data it1)) eqn:Hx; inversion Hp; subst it. rewrite Hst in Hr. subst res.
          eapply st_max; eauto using efails_notest.
    - apply from_iter_vec_panic in Hf. destruct Hf as (us & it1 & Hy & Hs & _).
      apply till_yields in Hy. cbn [tt_ps tt_buf tt_state tt_data] in Hy. destruct Hy as (Hi & Hst).
      exists us, (tt_data it1), (tt_ps it1), (tt_buf it1). split; auto.
      unfold iter_till_next in Hs. destruct (pre it1) as [it2|it2| |] eqn:Hp; try discriminate.
      + apply pre_go_inv in Hp. destruct Hp as (-> & He & Hx).
        destruct (p (tt_ps it1) (tt_buf it1)) as [[b v|b e|n| |] s] eqn:Hpp; inversion Hs; subst res.
        eapply st_panic; eauto. rewrite Hpp. reflexivity.
      + rewrite pre_spec in Hp. destruct (tests (tt_data it1)) eqn:Ht.
        * destruct (end_ (tt_buf it1)) as [b v|b e|n| |] eqn:He; try discriminate;
            try (destruct (stops (tt_data it1)); discriminate). subst res. eapply st_end_panic; eauto.
        * destruct (stops (tt_data it1)); discriminate.
  Qed.

  Lemma run_till_complete : forall fuel i s0 d0 us d s j res,
    tsteps d0 s0 i us d s j -> till_stop us d s j res -> length us + 2 <= fuel ->
    run_iter_till fuel (vec_collector U) i s0 tt p d0 hint pre on fin = res.
  Proof.
    intros fuel i s0 d0 us d s j res Hi Ho Hf.
    set (it1 := mkIterTill (TIncomplete 1) s tt j d : it_t).
    assert (Hy : yields (iter_till_next p pre on) (mkIterTill (TIncomplete 1) s0 tt i d0) us it1)
      by (apply till_yields; simpl; auto).
    assert (Hdone : forall it2 r, iter_till_next p pre on it1 = Stop it2 ->
      fin us (tt_buf it2) (tt_data it2) (tt_state it2) = r ->
      run_iter_till fuel (vec_collector U) i s0 tt p d0 hint pre on fin = r).
    { intros it2 r Hn <-. unfold run_iter_till. cbn [cinit vec_collector].
      erewrite (proj2 (from_iter_vec_done _ _ _ _ _ us it2)); [reflexivity|].
      exists us, it1. repeat split; auto. }
    assert (Hpan : iter_till_next p pre on it1 = StepPanic ->
      run_iter_till fuel (vec_collector U) i s0 tt p d0 hint pre on fin = Panic).
    { intros Hn. unfold run_iter_till. cbn [cinit vec_collector].
      rewrite (proj2 (from_iter_vec_panic _ _ _ _ _)); [reflexivity|].
      exists us, it1. repeat split; auto. lia. }
    destruct Ho as [k v Ht He|Ht He|He Hx|b e He Hx Hp|n He Hx Hp|He Hx Hp].
    - eapply Hdone; [unfold iter_till_next; rewrite pre_spec; cbn [tt_data tt_buf it1]; rewrite Ht, He; reflexivity|reflexivity].
    - apply Hpan. unfold iter_till_next. rewrite pre_spec. cbn [tt_data tt_buf it1]. rewrite Ht, He. reflexivity.
    - eapply Hdone; [unfold iter_till_next; rewrite (efails_pre it1 He); cbn [tt_data it1]; rewrite Hx; reflexivity|reflexivity].
    - destruct (p s j) as [r s'] eqn:Hps. simpl in Hp. subst r.
      eapply Hdone; [unfold iter_till_next; rewrite (efails_pre it1 He); cbn [tt_data tt_ps tt_buf it1]; rewrite Hx; cbn; rewrite Hps; reflexivity|reflexivity].
    - destruct (p s j) as [r s'] eqn:Hps. simpl in Hp. subst r.
      eapply Hdone; [unfold iter_till_next; rewrite (efails_pre it1 He); cbn [tt_data tt_ps tt_buf it1]; rewrite Hx; cbn; rewrite Hps; reflexivity|reflexivity].
    - destruct (p s j) as [r s'] eqn:Hps. simpl in Hp. subst r.
      apply Hpan. unfold iter_till_next. rewrite (efails_pre it1 He). cbn [tt_data tt_ps tt_buf it1].
      rewrite Hx; cbn; rewrite Hps. reflexivity.
  Qed.

  Lemma tsteps_data : forall us d s i d2 s2 i2, tsteps d s i us d2 s2 i2 -> d2 = Nat.iter (length us) on d.
  Proof.
    induction us as [|u us IH]; intros d s i d2 s2 i2 H; inversion H; subst; auto.
    simpl length. rewrite nat_iter_succ_r. eapply IH; eauto.
  Qed.
End Till.

Section TillRange.
  Context {St I U V E N D : Type}.
  Variable p : sparser St I U E.
  Variable end_ : parser I V N.
  Variable r : range.
  Variable tests stops : D -> bool.
  Variable on : D -> D.
  Variable d0 : D.
  Hypothesis Hconv : forall k, (forall j, j < k -> may_grow r j) ->
    (tests (Nat.iter k on d0) = true <-> in_range r k) /\ (stops (Nat.iter k on d0) = false <-> may_grow r k).

  Lemma tsteps_iterates : forall us k s i d2 s2 i2,
    tsteps p end_ tests stops on (Nat.iter k on d0) s i us d2 s2 i2 -> (forall j, j < k -> may_grow r j) ->
    iterates_till r p end_ k s i us s2 i2 /\ (forall j, j < k + length us -> may_grow r j).
  Proof.
    induction us as [|u us IH]; intros k s i d2 s2 i2 H Hk; inversion H as [|? ? ? ? ? ? ? ? ? ? He Hs Hp Ht]; subst.
    - split; [constructor|]. intros j Hj. apply Hk. simpl in Hj. lia.
    - destruct (Hconv Hk) as [Ht1 Ht2]. apply Ht2 in Hs.
      change (on (Nat.iter k on d0)) with (Nat.iter (S k) on d0) in Ht.
      apply IH in Ht; [|intros j Hj; destruct (Nat.eq_dec j k) as [->|]; [assumption|apply Hk; lia]].
      destruct Ht as [Ht Hg]. split.
      + econstructor; eauto. intros Hr. apply He. apply Ht1. assumption.
      + intros j Hj. apply Hg. simpl in Hj. lia.
  Qed.

  Lemma iterates_tsteps : forall us k s i s2 i2,
    iterates_till r p end_ k s i us s2 i2 -> (forall j, j < k + length us -> may_grow r j) ->
    tsteps p end_ tests stops on (Nat.iter k on d0) s i us (Nat.iter (k + length us) on d0) s2 i2.
  Proof.
    induction us as [|u us IH]; intros k s i s2 i2 H Hk; inversion H as [|? ? ? ? ? ? ? ? ? He Hp Ht]; subst; simpl length.
    - rewrite Nat.add_0_r. constructor.
    - assert (Hk' : forall j, j < k -> may_grow r j) by (intros j Hj; apply Hk; simpl; lia).
      destruct (Hconv Hk') as [Ht1 Ht2]. econstructor; eauto.
      + intros Hx. apply He. apply Ht1. assumption.
      + apply Ht2. apply Hk. simpl; lia.
      + change (on (Nat.iter k on d0)) with (Nat.iter (S k) on d0). rewrite <- Nat.add_succ_comm. apply IH; auto.
        intros j Hj. apply Hk. simpl. lia.
  Qed.
End TillRange.

(** The result of the code, given the specified outcome: for [..b] success before the maximum is a panic. *)
Definition till_quirk {I U E} (r : range) (res : pres I (list U) E) : pres I (list U) E :=
  match r, res with
  | RTo b, Data k us => if S (length us) <? b then Panic else res
  | _, _ => res
  end.

Lemma may_grow_dec : forall r k, may_grow r k \/ ~ may_grow r k.
Proof.
  intros [a b|a| |b|n] k.
  - rewrite may_grow_range. lia. - left; apply may_grow_from. - left; apply may_grow_full.
  - rewrite may_grow_to. lia. - rewrite may_grow_exact. lia.
Qed.
Lemma in_range_dec : forall r k, in_range r k \/ ~ in_range r k.
Proof. intros [a b|a| |b|n] k; simpl; lia || auto. Qed.

Lemma max_in_range : forall r k, nonempty r -> (forall j, j < k -> may_grow r j) -> ~ may_grow r k -> in_range r k.
Proof.
  intros r k (k0 & Hk0) Hg Hn. destruct (Nat.lt_trichotomy k k0) as [H|[<-|H]]; auto.
  - exfalso. apply Hn. exists k0. auto.
  - destruct k as [|k]; [lia|]. destruct (Hg k) as (m & Hm & Hr); [lia|].
    destruct (Nat.eq_dec m (S k)) as [->|]; auto. exfalso. apply Hn. exists m. split; auto. lia.
Qed.

Section ManyTill.
  Context {St I U V E N : Type}.
  Variable p : sparser St I U E.
  Variable end_ : parser I V N.

  Lemma till_sound_gen : forall D (tests stops : D -> bool) on d0 pre hint fin r fuel i s0 res,
    nonempty r ->
    (forall it : iter_till St unit I E D, pre it =
      match (if tests (tt_data it) then end_ (tt_buf it) else Incomplete 0) with
      | Data b _ => PreNone (mkIterTill TEndSuccess (tt_ps it) tt b (tt_data it))
      | Error _ _ | Incomplete _ => if stops (tt_data it) then PreNone it else PreGo it
      | Panic => PrePanic
      | NoFuel => PreNoFuel
      end) ->
    (forall k, (forall j, j < k -> may_grow r j) ->
      (tests (Nat.iter k on d0) = true <-> in_range r k) /\ (stops (Nat.iter k on d0) = false <-> may_grow r k)) ->
    (forall us j k, in_range r k -> k = length us -> fin us j (Nat.iter k on d0) TEndSuccess = till_quirk r (Data j us)) ->
    (forall us j d n, fin us j d (TIncomplete n) = Incomplete n) ->
    (forall us j d b e, fin us j d (TError b e) = Error b e) ->
    (forall t i d e, fin t i d e <> NoFuel) ->
    run_iter_till fuel (vec_collector U) i s0 tt p d0 hint pre on fin = res -> res <> NoFuel ->
    exists res', till_outcome r p end_ s0 i res' /\ res = till_quirk r res'.
  Proof.
    intros D tests stops on d0 pre hint fin r fuel i s0 res Hnon Hpre Hconv Hend Hinc Herr Hfin Hr Hne.
    eapply run_till_sound in Hr; eauto. destruct Hr as (us & d & s & j & Ht & Hs).
    pose proof (tsteps_data Ht) as Hd.
    destruct (@tsteps_iterates _ _ _ _ _ _ _ p end_ r tests stops on d0 Hconv us 0 s0 i d s j Ht) as [Hi Hg]; [intros; lia|].
    simpl in Hg. destruct (Hconv _ Hg) as [Hc1 Hc2]. subst d.
    assert (Hc3 : stops (Nat.iter (length us) on d0) = true <-> ~ may_grow r (length us)).
    { destruct (stops (Nat.iter (length us) on d0)); split; intros H; auto; try discriminate.
      - intros Hx. apply Hc2 in Hx. discriminate.
      - exfalso. apply H. apply Hc2. reflexivity. }
    assert (He : forall j, efails end_ tests (Nat.iter (length us) on d0) j -> end_fails r end_ (length us) j).
    { intros j0 H Hx. apply H. apply Hc1. assumption. }
    destruct Hs as [k v Htt Hej|Htt Hej|Hef Hx|b e Hef Hx Hp|n Hef Hx Hp|Hef Hx Hp].
    - exists (Data k us). split.
      + eapply to_data; eauto. apply Hc1; auto.
      + eapply Hend; eauto. apply Hc1; auto.
    - exists Panic. split; [|destruct r; reflexivity]. eapply to_panic_end; eauto. apply Hc1; auto.
    - exists (Incomplete 1). split; [|rewrite Hinc; destruct r; reflexivity]. apply Hc3 in Hx.
      eapply to_exhausted; eauto. apply max_in_range; auto.
    - exists (Error b e). split; [|rewrite Herr; destruct r; reflexivity]. eapply to_error; eauto. apply Hc2; auto.
    - exists (Incomplete n). split; [|rewrite Hinc; destruct r; reflexivity]. eapply to_incomplete; eauto. apply Hc2; auto.
    - exists Panic. split; [|destruct r; reflexivity]. eapply to_panic; eauto. apply Hc2; auto.
  Qed.

  Lemma outcome_run : forall r s0 i res, till_outcome r p end_ s0 i res -> exists us s j,
    iterates_till r p end_ 0 s0 i us s j /\ (forall k, k < length us -> may_grow r k) /\
    ((in_range r (length us) /\ ((exists k v, end_ j = Data k v /\ res = Data k us) \/ (end_ j = Panic /\ res = Panic))) \/
     (end_fails r end_ (length us) j /\
      ((~ may_grow r (length us) /\ res = Incomplete 1) \/
       (may_grow r (length us) /\
        ((exists b e, fst (p s j) = Error b e /\ res = Error b e) \/ (exists n, fst (p s j) = Incomplete n /\ res = Incomplete n) \/
         (fst (p s j) = Panic /\ res = Panic)))))).
  Proof.
    intros r s0 i res H.
    destruct H as [us s j k v Hi Hr He|us s j b e Hi He Hg Hp|us s j n Hi He Hg Hp|us s j Hi Hr He Hg|us s j Hi He Hg Hp|us s j Hi Hr He];
      exists us, s, j; (split; [assumption|]);
      (split; [intros k' Hk'; first [eapply in_range_grow; eassumption | eapply may_grow_le; [eassumption|lia]]|]).
    - left. split; auto. left. eauto.
    - right. split; auto. right. split; auto. left. eauto.
    - right. split; auto. right. split; auto. right; left. eauto.
    - right. split; auto.
    - right. split; auto. right. split; auto.
    - left. auto.
  Qed.

  Lemma iterates_till_prefix : forall r us k s i s1 i1, iterates_till r p end_ k s i us s1 i1 -> forall vs s2 i2,
    iterates_till r p end_ k s i vs s2 i2 -> length us <= length vs ->
    exists ws, vs = us ++ ws /\ iterates_till r p end_ (k + length us) s1 i1 ws s2 i2.
  Proof.
    induction 1 as [k s i|k s i u s1 i1 us s2 i2 He Hp Hi IH]; intros vs s3 i3 H Hl.
    - exists vs. simpl. rewrite Nat.add_0_r. auto.
    - inversion H as [|? ? ? ? ? ? ? ? ? He' Hp' Hi']; subst; simpl in Hl; [lia|]. rewrite Hp in Hp'. inversion Hp'; subst.
      destruct (IH _ _ _ Hi') as (ws & -> & Hw); [lia|]. exists ws. simpl. split; auto. rewrite <- Nat.add_succ_comm. assumption.
  Qed.

  Lemma till_outcome_det : forall r s0 i res1 res2,
    till_outcome r p end_ s0 i res1 -> till_outcome r p end_ s0 i res2 -> res1 = res2.
  Proof.
    intros r s0 i res1 res2 H1 H2. apply outcome_run in H1. apply outcome_run in H2.
    destruct H1 as (us & s & j & Hi & Hg & H1). destruct H2 as (us' & s' & j' & Hi' & Hg' & H2).
    assert (Hcmp : forall us us' s s' j j' res, iterates_till r p end_ 0 s0 i us s j -> iterates_till r p end_ 0 s0 i us' s' j' ->
      ((in_range r (length us) /\ ((exists k v, end_ j = Data k v /\ res = Data k us) \/ (end_ j = Panic /\ res = Panic))) \/
       (end_fails r end_ (length us) j /\
        ((~ may_grow r (length us) /\ res = Incomplete 1) \/
         (may_grow r (length us) /\
          ((exists b e, fst (p s j) = Error b e /\ res = Error b e) \/ (exists n, fst (p s j) = Incomplete n /\ res = Incomplete n) \/
           (fst (p s j) = Panic /\ res = Panic)))))) ->
      (forall k, k < length us' -> may_grow r k) -> length us < length us' -> False).
    { clear. intros us us' s s' j j' res Hi Hi' H Hg' Hl.
      destruct (iterates_till_prefix Hi Hi') as (ws & -> & Hw); [lia|]. rewrite app_length in Hl.
      inversion Hw as [|? ? ? ? ? ? ? ? ? He Hp Ht]; subst; simpl in Hl; [lia|].
      destruct H as [(Hr & H)|(_ & H)].
      - apply He in Hr. destruct H as [(k & v & H & _)|(H & _)]; rewrite H in Hr; destruct Hr as [(b & e & Hr)|(n & Hr)]; discriminate.
      - destruct H as [(Hn & _)|(_ & H)].
        + apply Hn. apply Hg'. rewrite app_length. simpl. lia.
        + rewrite Hp in H. simpl in H. destruct H as [(b & e & H & _)|[(n & H & _)|(H & _)]]; discriminate. }
    assert (Hlen : length us = length us').
    { destruct (Nat.lt_trichotomy (length us) (length us')) as [Hl|[Hl|Hl]]; auto; exfalso.
      - eapply (Hcmp us us'); eauto. - eapply (Hcmp us' us); eauto. }
    destruct (iterates_till_prefix Hi Hi') as (ws & -> & Hw); [lia|]. rewrite app_length in Hlen.
    destruct ws; [|simpl in Hlen; lia]. rewrite app_nil_r in *. inversion Hw; subst s' j'. clear Hcmp Hw Hi Hi' Hg Hg'.
    destruct H1 as [(Hr & H1)|(He & H1)]; destruct H2 as [(Hr' & H2)|(He' & H2)].
    - destruct H1 as [(kk & vv & H1 & ->)|(H1 & ->)]; destruct H2 as [(kk' & vv' & H2 & ->)|(H2 & ->)]; congruence.
    - exfalso. apply He' in Hr. destruct H1 as [(kk & vv & Hz & _)|(Hz & _)]; rewrite Hz in Hr; destruct Hr as [(b & e & Hr)|(n & Hr)]; discriminate.
    - exfalso. apply He in Hr'. destruct H2 as [(kk & vv & Hz & _)|(Hz & _)]; rewrite Hz in Hr'; destruct Hr' as [(b & e & Hr)|(n & Hr)]; discriminate.
    - destruct H1 as [(Hn & ->)|(Hn & H1)]; destruct H2 as [(Hn' & ->)|(Hn' & H2)]; try tauto.
      destruct H1 as [(b & e & H1 & ->)|[(n & H1 & ->)|(H1 & ->)]]; destruct H2 as [(b' & e' & H2 & ->)|[(n' & H2 & ->)|(H2 & ->)]]; congruence.
  Qed.

  Lemma till_complete_gen : forall D (tests stops : D -> bool) on d0 pre hint fin r i s0 res,
    nonempty r ->
    (forall it : iter_till St unit I E D, pre it =
      match (if tests (tt_data it) then end_ (tt_buf it) else Incomplete 0) with
      | Data b _ => PreNone (mkIterTill TEndSuccess (tt_ps it) tt b (tt_data it))
      | Error _ _ | Incomplete _ => if stops (tt_data it) then PreNone it else PreGo it
      | Panic => PrePanic
      | NoFuel => PreNoFuel
      end) ->
    (forall k, (forall j, j < k -> may_grow r j) ->
      (tests (Nat.iter k on d0) = true <-> in_range r k) /\ (stops (Nat.iter k on d0) = false <-> may_grow r k)) ->
    (forall us j k, in_range r k -> k = length us -> fin us j (Nat.iter k on d0) TEndSuccess = till_quirk r (Data j us)) ->
    (forall us j d n, fin us j d (TIncomplete n) = Incomplete n) ->
    (forall us j d b e, fin us j d (TError b e) = Error b e) ->
    till_outcome r p end_ s0 i res ->
    exists f0, forall fuel, f0 <= fuel ->
      run_iter_till fuel (vec_collector U) i s0 tt p d0 hint pre on fin = till_quirk r res.
  Proof.
    intros D tests stops on d0 pre hint fin r i s0 res Hnon Hpre Hconv Hend Hinc Herr H.
    apply outcome_run in H. destruct H as (us & s & j & Hi & Hg & H). exists (length us + 2). intros fuel Hf.
    pose proof (@iterates_tsteps _ _ _ _ _ _ _ p end_ r tests stops on d0 Hconv us 0 s0 i s j Hi Hg) as Ht. simpl in Ht.
    destruct (Hconv _ Hg) as [Hc1 Hc2].
    assert (Hc3 : ~ may_grow r (length us) -> stops (Nat.iter (length us) on d0) = true).
    { intros Hn. destruct (stops (Nat.iter (length us) on d0)); auto. exfalso. apply Hn, Hc2; reflexivity. }
    assert (He : forall j, end_fails r end_ (length us) j -> efails end_ tests (Nat.iter (length us) on d0) j).
    { intros j0 Hj Hx. apply Hj. apply Hc1. assumption. }
    eapply run_till_complete; eauto.
    destruct H as [(Hr & H)|(Hef & H)].
    - destruct H as [(k & v & H & ->)|(H & ->)].
      + rewrite <- (Hend us k (length us)); auto. eapply st_end; eauto. apply Hc1; auto.
      + replace (till_quirk r Panic) with (Panic : pres I (list U) E) by (destruct r; reflexivity).
        apply st_end_panic; auto. apply Hc1; auto.
    - destruct H as [(Hn & ->)|(Hn & H)].
      + replace (till_quirk r (Incomplete 1)) with (Incomplete 1 : pres I (list U) E) by (destruct r; reflexivity).
        rewrite <- (Hinc us j (Nat.iter (length us) on d0) 1). apply st_max; auto.
      + apply Hc2 in Hn. destruct H as [(b & e & H & ->)|[(n & H & ->)|(H & ->)]].
        * replace (till_quirk r (Error b e)) with (Error b e : pres I (list U) E) by (destruct r; reflexivity).
          rewrite <- (Herr us j (Nat.iter (length us) on d0)). eapply st_err; eauto.
        * replace (till_quirk r (Incomplete n)) with (Incomplete n : pres I (list U) E) by (destruct r; reflexivity).
          rewrite <- (Hinc us j (Nat.iter (length us) on d0)). eapply st_inc; eauto.
        * replace (till_quirk r Panic) with (Panic : pres I (list U) E) by (destruct r; reflexivity).
          apply st_panic; auto.
  Qed.

  Ltac pre_tac := intros it; destruct it as [st ps [] ib d]; unfold pre_seq, end_test; cbn [tt_data tt_buf tt_es tt_ps tt_state].

  (** What every range instantiates the two generic lemmas with. *)
  Lemma bmany_till_char : forall r, nonempty r ->
    (forall fuel s0 i res, bmany_till fuel (vec_collector U) r s0 tt p (pure end_) i = res -> res <> NoFuel ->
       exists res', till_outcome r p end_ s0 i res' /\ res = till_quirk r res') /\
    (forall s0 i res, till_outcome r p end_ s0 i res -> exists f0, forall fuel, f0 <= fuel ->
       bmany_till fuel (vec_collector U) r s0 tt p (pure end_) i = till_quirk r res).
  Proof.
    intros r Hne. destruct r as [a b|a| |b|n]; simpl bmany_till.
    - assert (Hab : a < b) by (destruct Hne as (k & Hk); simpl in Hk; lia).
      unfold many_till_range. replace (a <=? b) with true by (symmetry; apply Nat.leb_le; lia). simpl negb. cbv iota.
      assert (Hpre : forall it : iter_till St unit I E (nat * nat),
        pre_seq (if fst (tt_data it) =? 0 then end_test (pure end_) it else PreGo it)
             (fun it => if snd (tt_data it) =? 0 then pre_seq (end_test (pure end_) it) (fun it => PreNone it) else PreGo it) =
        match (if (fst (tt_data it) =? 0) || (snd (tt_data it) =? 0) then end_ (tt_buf it) else Incomplete 0) with
        | Data b _ => PreNone (mkIterTill TEndSuccess (tt_ps it) tt b (tt_data it))
        | Error _ _ | Incomplete _ => if snd (tt_data it) =? 0 then PreNone it else PreGo it
        | Panic => PrePanic
        | NoFuel => PreNoFuel
        end).
      { pre_tac. unfold pure. destruct (fst d =? 0) eqn:H0; simpl.
        - destruct (end_ ib) eqn:He; simpl; auto; destruct (snd d =? 0); auto; rewrite He; reflexivity.
        - destruct (snd d =? 0); simpl; auto. destruct (end_ ib); reflexivity. }
      assert (Hconv : forall k, (forall j, j < k -> may_grow (RRange a b) j) ->
        ((fst (Nat.iter k (fun d : nat * nat => (dec0 (fst d), snd d - 1)) (a, Nat.max b 1 - 1)) =? 0)
         || (snd (Nat.iter k (fun d : nat * nat => (dec0 (fst d), snd d - 1)) (a, Nat.max b 1 - 1)) =? 0) = true <-> in_range (RRange a b) k) /\
        (snd (Nat.iter k (fun d : nat * nat => (dec0 (fst d), snd d - 1)) (a, Nat.max b 1 - 1)) =? 0 = false <-> may_grow (RRange a b) k)).
      { intros k Hk. rewrite iter_pair, may_grow_range. cbn [fst snd in_range].
        assert (Hkb : k < b). { destruct k; [lia|]. specialize (Hk k). rewrite may_grow_range in Hk. lia. }
        rewrite orb_true_iff, !Nat.eqb_eq, Nat.eqb_neq. lia. }
      split; [intros fuel s0 i res Hr Hnf|intros s0 i res Hr].
      + eapply till_sound_gen with (tests := fun d => (fst d =? 0) || (snd d =? 0)) (stops := fun d => snd d =? 0) (r := RRange a b); [..|exact Hr|exact Hnf];
        first [exact Hne | solve [intros; reflexivity] | exact Hpre | exact Hconv | solve [intros us j k Hk _; rewrite iter_pair; simpl in Hk; replace (a - k) with 0 by lia; reflexivity]
          | solve [intros us j [[|d1] d2] n; reflexivity]
          | solve [intros us j [[|d1] d2] n e; reflexivity]
          | solve [intros us j [[|d1] d2] []; discriminate]].
      + eapply till_complete_gen with (tests := fun d => (fst d =? 0) || (snd d =? 0)) (stops := fun d => snd d =? 0) (r := RRange a b); [..|exact Hr];
        first [exact Hne | solve [intros; reflexivity] | exact Hpre | exact Hconv | solve [intros us j k Hk _; rewrite iter_pair; simpl in Hk; replace (a - k) with 0 by lia; reflexivity]
          | solve [intros us j [[|d1] d2] n; reflexivity]
          | solve [intros us j [[|d1] d2] n e; reflexivity]].
    - assert (Hpre : forall it : iter_till St unit I E nat,
        (if tt_data it =? 0 then end_test (pure end_) it else PreGo it) =
        match (if tt_data it =? 0 then end_ (tt_buf it) else Incomplete 0) with
        | Data b _ => PreNone (mkIterTill TEndSuccess (tt_ps it) tt b (tt_data it))
        | Error _ _ | Incomplete _ => if false then PreNone it else PreGo it
        | Panic => PrePanic
        | NoFuel => PreNoFuel
        end).
      { pre_tac. unfold pure. destruct (d =? 0); auto; destruct (end_ ib); reflexivity. }
      assert (Hconv : forall k, (forall j, j < k -> may_grow (RFrom a) j) ->
        ((Nat.iter k dec0 a =? 0) = true <-> in_range (RFrom a) k) /\ (false = false <-> may_grow (RFrom a) k)).
      { intros k Hk. rewrite iter_dec0, Nat.eqb_eq. simpl. split; [lia|]. split; auto. intros _. apply may_grow_from. }
      split; [intros fuel s0 i res Hr Hnf|intros s0 i res Hr].
      + eapply till_sound_gen with (tests := fun d => d =? 0) (stops := fun d => false) (r := RFrom a); [..|exact Hr|exact Hnf];
        first [exact Hne | solve [intros; reflexivity] | exact Hpre | exact Hconv | solve [intros us j k Hk _; rewrite iter_dec0; simpl in Hk; replace (a - k) with 0 by lia; reflexivity]
          | solve [intros us j [|d] n; reflexivity]
          | solve [intros us j [|d] n e; reflexivity]
          | solve [intros us j [|d] []; discriminate]].
      + eapply till_complete_gen with (tests := fun d => d =? 0) (stops := fun d => false) (r := RFrom a); [..|exact Hr];
        first [exact Hne | solve [intros; reflexivity] | exact Hpre | exact Hconv | solve [intros us j k Hk _; rewrite iter_dec0; simpl in Hk; replace (a - k) with 0 by lia; reflexivity]
          | solve [intros us j [|d] n; reflexivity]
          | solve [intros us j [|d] n e; reflexivity]].
    - assert (Hpre : forall it : iter_till St unit I E unit,
        end_test (pure end_) it =
        match (if true then end_ (tt_buf it) else Incomplete 0) with
        | Data b _ => PreNone (mkIterTill TEndSuccess (tt_ps it) tt b (tt_data it))
        | Error _ _ | Incomplete _ => if false then PreNone it else PreGo it
        | Panic => PrePanic
        | NoFuel => PreNoFuel
        end).
      { pre_tac. unfold pure. destruct (end_ ib); reflexivity. }
      assert (Hconv : forall k, (forall j, j < k -> may_grow RFull j) ->
        (true = true <-> in_range RFull k) /\ (false = false <-> may_grow RFull k)).
      { intros k Hk. simpl. split; [tauto|]. split; auto. intros _. apply may_grow_full. }
      split; [intros fuel s0 i res Hr Hnf|intros s0 i res Hr].
      + eapply till_sound_gen with (tests := fun d => true) (stops := fun d => false) (r := RFull); [..|exact Hr|exact Hnf];
        first [exact Hne | solve [intros; reflexivity] | exact Hpre | exact Hconv | solve [intros us j d []; discriminate]].
      + eapply till_complete_gen with (tests := fun d => true) (stops := fun d => false) (r := RFull); [..|exact Hr];
        first [exact Hne | solve [intros; reflexivity] | exact Hpre | exact Hconv].
    - assert (Hab : 0 < b) by (destruct Hne as (k & Hk); simpl in Hk; lia).
      assert (Hpre : forall it : iter_till St unit I E nat,
        pre_seq (end_test (pure end_) it) (fun it => if tt_data it =? 0 then PreNone it else PreGo it) =
        match (if true then end_ (tt_buf it) else Incomplete 0) with
        | Data b _ => PreNone (mkIterTill TEndSuccess (tt_ps it) tt b (tt_data it))
        | Error _ _ | Incomplete _ => if tt_data it =? 0 then PreNone it else PreGo it
        | Panic => PrePanic
        | NoFuel => PreNoFuel
        end).
      { pre_tac. unfold pure. destruct (end_ ib); reflexivity. }
      assert (Hconv : forall k, (forall j, j < k -> may_grow (RTo b) j) ->
        (true = true <-> in_range (RTo b) k) /\ ((Nat.iter k (fun d => d - 1) (Nat.max b 1 - 1) =? 0) = false <-> may_grow (RTo b) k)).
      { intros k Hk. rewrite iter_pred, may_grow_to, Nat.eqb_neq. cbn [in_range].
        assert (Hkb : k < b). { destruct k; [lia|]. specialize (Hk k). rewrite may_grow_to in Hk. lia. } lia. }
      assert (Hq : forall (us : list U) (j : input I) k, in_range (RTo b) k -> k = length us ->
        (match Nat.iter k (fun d => d - 1) (Nat.max b 1 - 1) with 0 => ret us j | S _ => Panic end : pres I (list U) E) = till_quirk (RTo b) (Data j us)).
      { intros us j k Hk ->. rewrite iter_pred. cbn [in_range] in Hk. cbn [till_quirk].
        destruct (Nat.ltb_spec (S (length us)) b).
        - destruct (Nat.max b 1 - 1 - length us) eqn:Hx; [lia|reflexivity].
        - replace (Nat.max b 1 - 1 - length us) with 0 by lia. reflexivity. }
      split; [intros fuel s0 i res Hr Hnf|intros s0 i res Hr].
      + eapply till_sound_gen with (tests := fun d => true) (stops := fun d => d =? 0) (r := RTo b); [..|exact Hr|exact Hnf];
        first [exact Hne | solve [intros; reflexivity] | exact Hq | exact Hpre | exact Hconv | solve [intros us j [|d] n; reflexivity]
          | solve [intros us j [|d] n e; reflexivity]
          | solve [intros us j [|d] []; discriminate]].
      + eapply till_complete_gen with (tests := fun d => true) (stops := fun d => d =? 0) (r := RTo b); [..|exact Hr];
        first [exact Hne | solve [intros; reflexivity] | exact Hq | exact Hpre | exact Hconv | solve [intros us j [|d] n; reflexivity]
          | solve [intros us j [|d] n e; reflexivity]].
    - assert (Hpre : forall it : iter_till St unit I E nat,
        (if tt_data it =? 0 then pre_seq (end_test (pure end_) it) (fun it => PreNone it) else PreGo it) =
        match (if tt_data it =? 0 then end_ (tt_buf it) else Incomplete 0) with
        | Data b _ => PreNone (mkIterTill TEndSuccess (tt_ps it) tt b (tt_data it))
        | Error _ _ | Incomplete _ => if tt_data it =? 0 then PreNone it else PreGo it
        | Panic => PrePanic
        | NoFuel => PreNoFuel
        end).
      { pre_tac. unfold pure. destruct (d =? 0); auto; destruct (end_ ib); reflexivity. }
      assert (Hconv : forall k, (forall j, j < k -> may_grow (RExact n) j) ->
        ((Nat.iter k (fun d => d - 1) n =? 0) = true <-> in_range (RExact n) k) /\
        ((Nat.iter k (fun d => d - 1) n =? 0) = false <-> may_grow (RExact n) k)).
      { intros k Hk. rewrite iter_pred, may_grow_exact, Nat.eqb_neq, Nat.eqb_eq. cbn [in_range].
        assert (Hkb : k <= n). { destruct k; [lia|]. specialize (Hk k). rewrite may_grow_exact in Hk. lia. } lia. }
      split; [intros fuel s0 i res Hr Hnf|intros s0 i res Hr].
      + eapply till_sound_gen with (tests := fun d => d =? 0) (stops := fun d => d =? 0) (r := RExact n); [..|exact Hr|exact Hnf];
        first [exact Hne | solve [intros; reflexivity] | exact Hpre | exact Hconv | solve [intros us j k Hk _; rewrite iter_pred; simpl in Hk; replace (n - k) with 0 by lia; reflexivity]
          | solve [intros us j [|d] m; reflexivity]
          | solve [intros us j [|d] m e; reflexivity]
          | solve [intros us j [|d] []; discriminate]].
      + eapply till_complete_gen with (tests := fun d => d =? 0) (stops := fun d => d =? 0) (r := RExact n); [..|exact Hr];
        first [exact Hne | solve [intros; reflexivity] | exact Hpre | exact Hconv | solve [intros us j k Hk _; rewrite iter_pred; simpl in Hk; replace (n - k) with 0 by lia; reflexivity]
          | solve [intros us j [|d] m; reflexivity]
          | solve [intros us j [|d] m e; reflexivity]].
  Qed.
End ManyTill.
