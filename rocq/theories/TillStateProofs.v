(** bounded::many_till with a stateful [end]. *)
From Coq Require Import List Bool Arith Lia.
From Verif Require Import Base Parsers Combinators SpecIter SpecTill IterProofs ManyProofs TillProofs.
Import ListNotations.

Set Implicit Arguments.

Inductive att_res (SE I : Type) : Type :=
| ADone (b : input I) (e : SE) | AFail (e : SE) | APanic | ANoFuel.
Arguments ADone {SE I} b e.
Arguments AFail {SE I} e.
Arguments APanic {SE I}.
Arguments ANoFuel {SE I}.

Section Attempt.
  Context {SE I V N : Type}.
  Variable end_ : sparser SE I V N.

  Fixpoint attempt (m : nat) (e : SE) (i : input I) : att_res SE I :=
    match m with
    | 0 => AFail e
    | S m =>
        match end_ e i with
        | (Data b _, e1) => ADone b e1
        | (Error _ _, e1) | (Incomplete _, e1) => attempt m e1 i
        | (Panic, _) => APanic
        | (NoFuel, _) => ANoFuel
        end
    end.

  Lemma attempt_fail : forall i m e e1, attempt m e i = AFail e1 <-> fails end_ i m e e1.
  Proof.
    intros i. induction m as [|m IH]; intros e e1; cbn [attempt].
    - split; [intros H; inversion H; subst; constructor|intros H; inversion H; reflexivity].
    - split.
      + destruct (end_ e i) as [[b v|b x|n| |] e2] eqn:He; try discriminate; intros H; apply IH in H; econstructor; eauto.
      + intros H. inversion H as [|? ? ? ? Hx Hf]; subst. destruct Hx as [(b & x & ->)|(n & ->)]; apply IH; assumption.
  Qed.
  Lemma attempt_done : forall i m e k e2, attempt m e i = ADone k e2 <-> exists j e1 v, j < m /\ fails end_ i j e e1 /\ end_ e1 i = (Data k v, e2).
  Proof.
    intros i. induction m as [|m IH]; intros e k e2; cbn [attempt].
    - split; [discriminate|]. intros (j & e1 & v & Hj & _). lia.
    - split.
      + destruct (end_ e i) as [[b v|b x|n| |] e3] eqn:He; try discriminate; intros H.
        * inversion H; subst. exists 0, e, v. repeat split; [lia|constructor|assumption].
        * apply IH in H. destruct H as (j & e1 & v & Hj & Hf & Hd). exists (S j), e1, v. repeat split; [lia| |assumption]. econstructor; eauto.
        * apply IH in H. destruct H as (j & e1 & v & Hj & Hf & Hd). exists (S j), e1, v. repeat split; [lia| |assumption]. econstructor; eauto.
      + intros (j & e1 & v & Hj & Hf & Hd). inversion Hf as [|? ? ? ? Hx Hf']; subst.
        * rewrite Hd. reflexivity.
        * destruct Hx as [(b & x & ->)|(n & ->)]; apply IH; eexists _, _, _; repeat split; eauto; lia.
  Qed.
  Lemma attempt_panic : forall i m e, attempt m e i = APanic <-> exists j e1, j < m /\ fails end_ i j e e1 /\ fst (end_ e1 i) = Panic.
  Proof.
    intros i. induction m as [|m IH]; intros e; cbn [attempt].
    - split; [discriminate|]. intros (j & e1 & Hj & _). lia.
    - split.
      + destruct (end_ e i) as [[b v|b x|n| |] e3] eqn:He; try discriminate; intros H.
        * apply IH in H. destruct H as (j & e1 & Hj & Hf & Hd). exists (S j), e1. repeat split; [lia| |assumption]. econstructor; eauto.
        * apply IH in H. destruct H as (j & e1 & Hj & Hf & Hd). exists (S j), e1. repeat split; [lia| |assumption]. econstructor; eauto.
        * exists 0, e. rewrite He. repeat split; [lia|constructor].
      + intros (j & e1 & Hj & Hf & Hd). inversion Hf as [|? ? ? ? Hx Hf']; subst.
        * destruct (end_ e1 i) as [r e2]. cbn [fst] in Hd. subst r. reflexivity.
        * destruct Hx as [(b & x & ->)|(n & ->)]; apply IH; eexists _, _; repeat split; eauto; lia.
  Qed.
  Lemma fails_app : forall i m1 m2 e e1 e2, fails end_ i m1 e e1 -> fails end_ i m2 e1 e2 -> fails end_ i (m1 + m2) e e2.
  Proof. intros i m1 m2 e e1 e2 H H2. induction H as [|m e e1 e3 Hx Hf IH]; [assumption|]. cbn [Nat.add]. econstructor; eauto. Qed.
End Attempt.

Section Till.
  Context {St SE I U V E N D : Type}.
  Variable p : sparser St I U E.
  Variable end_ : sparser SE I V N.
  (** [tests d]: how often [end] is run at this point; [stops d]: the maximum is reached. *)
  Variable tests : D -> nat.
  Variable stops : D -> bool.
  Variable on : D -> D.

  Notation it_t := (iter_till St SE I E D).
  Variable pre : it_t -> pre_res it_t.
  Definition with_es (it : it_t) (e : SE) : it_t := mkIterTill (tt_state it) (tt_ps it) e (tt_buf it) (tt_data it).
  Hypothesis pre_spec : forall it, pre it =
    match attempt end_ (tests (tt_data it)) (tt_es it) (tt_buf it) with
    | ADone b e => PreNone (mkIterTill TEndSuccess (tt_ps it) e b (tt_data it))
    | AFail e => if stops (tt_data it) then PreNone (with_es it e) else PreGo (with_es it e)
    | APanic => PrePanic
    | ANoFuel => PreNoFuel
    end.

  Inductive tsteps : D -> St -> SE -> input I -> list U -> D -> St -> SE -> input I -> Prop :=
  | ts_nil : forall d s e i, tsteps d s e i [] d s e i
  | ts_cons : forall d s e i u s1 e1 i1 us d2 s2 e2 i2,
      fails end_ i (tests d) e e1 -> stops d = false -> p s i = (Data i1 u, s1) -> tsteps (on d) s1 e1 i1 us d2 s2 e2 i2 ->
      tsteps d s e i (u :: us) d2 s2 e2 i2.

  Lemma till_yields : forall us it it1,
    yields (iter_till_next p pre on) it us it1 <->
    (tsteps (tt_data it) (tt_ps it) (tt_es it) (tt_buf it) us (tt_data it1) (tt_ps it1) (tt_es it1) (tt_buf it1) /\ tt_state it1 = tt_state it).
  Proof.
    induction us as [|u us IH]; intros it it1.
    - split.
      + intros H; inversion H; subst. split; auto. constructor.
      + intros (H1 & H2). inversion H1; subst. destruct it as [a1 a2 a3 a4 a5], it1 as [b1 b2 b3 b4 b5]; cbn in *; subst. constructor.
    - split.
      + intros H; inversion H as [|? ? itm ? ? Hn Hy]; subst. apply IH in Hy. destruct Hy as (Hi & Hs).
        unfold iter_till_next in Hn. rewrite pre_spec in Hn.
        destruct (attempt end_ (tests (tt_data it)) (tt_es it) (tt_buf it)) as [b e|e| |] eqn:Ha; try discriminate.
        apply attempt_fail in Ha. destruct (stops (tt_data it)) eqn:Hst; [discriminate|]. cbn [with_es tt_ps tt_buf tt_state tt_es tt_data] in Hn.
        destruct (p (tt_ps it) (tt_buf it)) as [[b v|b x|n| |] s] eqn:Hpp; inversion Hn; subst; cbn in *.
        split; auto. econstructor; eauto.
      + intros (Hi & Hs). inversion Hi as [|? ? ? ? ? s1 e1 i1 ? ? ? ? ? He Hst Hp1 Hi1]; subst.
        apply yields_cons with (it1 := mkIterTill (tt_state it) s1 e1 i1 (on (tt_data it))).
        * unfold iter_till_next. rewrite pre_spec. apply attempt_fail in He. rewrite He, Hst. cbn [with_es tt_ps tt_buf tt_state tt_es tt_data]. rewrite Hp1. reflexivity.
        * apply IH. cbn. auto.
  Qed.

  Variable hint : D -> nat * option nat.
  Variable fin : list U -> input I -> D -> end_state_till I E -> pres I (list U) E.

  (** Everything [run_iter_till] with a Vec can do after the run [us] has been yielded. *)
  Inductive till_stop (us : list U) (d : D) (s : St) (e : SE) (j : input I) : pres I (list U) E -> Prop :=
  | st_end : forall k e2, attempt end_ (tests d) e j = ADone k e2 -> till_stop us d s e j (fin us k d TEndSuccess)
  | st_end_panic : attempt end_ (tests d) e j = APanic -> till_stop us d s e j Panic
  | st_max : forall e1, fails end_ j (tests d) e e1 -> stops d = true -> till_stop us d s e j (fin us j d (TIncomplete 1))
  | st_err : forall e1 b x, fails end_ j (tests d) e e1 -> stops d = false -> fst (p s j) = Error b x -> till_stop us d s e j (fin us j d (TError b x))
  | st_inc : forall e1 n, fails end_ j (tests d) e e1 -> stops d = false -> fst (p s j) = Incomplete n -> till_stop us d s e j (fin us j d (TIncomplete n))
  | st_panic : forall e1, fails end_ j (tests d) e e1 -> stops d = false -> fst (p s j) = Panic -> till_stop us d s e j Panic.

  Lemma run_till_sound : forall fuel i s0 e0 d0 res,
    run_iter_till fuel (vec_collector U) i s0 e0 p d0 hint pre on fin = res ->
    (forall t i d e, fin t i d e <> NoFuel) -> res <> NoFuel ->
    exists us d s e j, tsteps d0 s0 e0 i us d s e j /\ till_stop us d s e j res.
  Proof.
    intros fuel i s0 e0 d0 res Hr Hfin Hne. unfold run_iter_till in Hr. cbn [cinit vec_collector] in Hr.
    destruct (from_iter _ _ _ _ _ _) as [t it| |] eqn:Hf; [| |congruence].
    - apply from_iter_vec_done in Hf. destruct Hf as (us & it1 & -> & Hy & Hs & _). cbn [app] in Hr.
      apply till_yields in Hy. cbn [tt_ps tt_es tt_buf tt_state tt_data] in Hy. destruct Hy as (Hi & Hst).
      exists us, (tt_data it1), (tt_ps it1), (tt_es it1), (tt_buf it1). split; auto.
      unfold iter_till_next in Hs. rewrite pre_spec in Hs.
      destruct (attempt end_ (tests (tt_data it1)) (tt_es it1) (tt_buf it1)) as [b e|e| |] eqn:Ha; try discriminate.
      + inversion Hs; subst it. cbn in Hr. subst res. eapply st_end; eauto.
      + apply attempt_fail in Ha. destruct (stops (tt_data it1)) eqn:Hx.
        * inversion Hs; subst it. cbn [with_es tt_ps tt_buf tt_state tt_es tt_data] in Hr. rewrite Hst in Hr. subst res. eapply st_max; eauto.
        * cbn [with_es tt_ps tt_buf tt_state tt_es tt_data] in Hs.
          destruct (p (tt_ps it1) (tt_buf it1)) as [[b v|b x|n| |] s] eqn:Hpp; inversion Hs; subst it; cbn [tt_ps tt_buf tt_state tt_es tt_data] in Hr; subst res.
          -- eapply st_err; eauto. rewrite Hpp. reflexivity.
          -- eapply st_inc; eauto. rewrite Hpp. reflexivity.
    - apply from_iter_vec_panic in Hf. destruct Hf as (us & it1 & Hy & Hs & _).
      apply till_yields in Hy. cbn [tt_ps tt_es tt_buf tt_state tt_data] in Hy. destruct Hy as (Hi & Hst).
      exists us, (tt_data it1), (tt_ps it1), (tt_es it1), (tt_buf it1). split; auto. subst res.
      unfold iter_till_next in Hs. rewrite pre_spec in Hs.
      destruct (attempt end_ (tests (tt_data it1)) (tt_es it1) (tt_buf it1)) as [b e|e| |] eqn:Ha; try discriminate.
      + apply attempt_fail in Ha. destruct (stops (tt_data it1)) eqn:Hx; [discriminate|].
        cbn [with_es tt_ps tt_buf tt_state tt_es tt_data] in Hs.
        destruct (p (tt_ps it1) (tt_buf it1)) as [[b v|b x|n| |] s] eqn:Hpp; inversion Hs.
        eapply st_panic; eauto. rewrite Hpp. reflexivity.
      + apply st_end_panic. assumption.
  Qed.

  Lemma run_till_complete : forall fuel i s0 e0 d0 us d s e j res,
    tsteps d0 s0 e0 i us d s e j -> till_stop us d s e j res -> length us + 2 <= fuel ->
    run_iter_till fuel (vec_collector U) i s0 e0 p d0 hint pre on fin = res.
  Proof.
    intros fuel i s0 e0 d0 us d s e j res Hi Ho Hf.
    set (it1 := mkIterTill (TIncomplete 1) s e j d : it_t).
    assert (Hy : yields (iter_till_next p pre on) (mkIterTill (TIncomplete 1) s0 e0 i d0) us it1)
      by (apply till_yields; cbn; auto).
    assert (Hdone : forall it2 r, iter_till_next p pre on it1 = Stop it2 ->
      fin us (tt_buf it2) (tt_data it2) (tt_state it2) = r ->
      run_iter_till fuel (vec_collector U) i s0 e0 p d0 hint pre on fin = r).
    { intros it2 r Hn <-. unfold run_iter_till. cbn [cinit vec_collector].
      erewrite (proj2 (from_iter_vec_done _ _ _ _ _ us it2)); [reflexivity|].
      exists us, it1. repeat split; auto. }
    assert (Hpan : iter_till_next p pre on it1 = StepPanic ->
      run_iter_till fuel (vec_collector U) i s0 e0 p d0 hint pre on fin = Panic).
    { intros Hn. unfold run_iter_till. cbn [cinit vec_collector].
      rewrite (proj2 (from_iter_vec_panic _ _ _ _ _)); [reflexivity|].
      exists us, it1. repeat split; auto. lia. }
    destruct Ho as [k e2 Ha|Ha|e1 Ha Hx|e1 b x Ha Hx Hp|e1 n Ha Hx Hp|e1 Ha Hx Hp]; try apply attempt_fail in Ha.
    - eapply Hdone; [unfold iter_till_next; rewrite pre_spec; cbn [tt_data tt_buf tt_es it1]; rewrite Ha; reflexivity|reflexivity].
    - apply Hpan. unfold iter_till_next. rewrite pre_spec. cbn [tt_data tt_buf tt_es it1]. rewrite Ha. reflexivity.
    - eapply Hdone; [unfold iter_till_next; rewrite pre_spec; cbn [tt_data tt_buf tt_es it1]; rewrite Ha, Hx; reflexivity|reflexivity].
    - destruct (p s j) as [r s'] eqn:Hps. cbn [fst] in Hp. subst r.
      eapply Hdone; [unfold iter_till_next; rewrite pre_spec; cbn [tt_data tt_buf tt_es it1]; rewrite Ha, Hx; cbn; rewrite Hps; reflexivity|reflexivity].
    - destruct (p s j) as [r s'] eqn:Hps. cbn [fst] in Hp. subst r.
      eapply Hdone; [unfold iter_till_next; rewrite pre_spec; cbn [tt_data tt_buf tt_es it1]; rewrite Ha, Hx; cbn; rewrite Hps; reflexivity|reflexivity].
    - destruct (p s j) as [r s'] eqn:Hps. cbn [fst] in Hp. subst r.
      apply Hpan. unfold iter_till_next. rewrite pre_spec. cbn [tt_data tt_buf tt_es it1]. rewrite Ha, Hx. cbn. rewrite Hps. reflexivity.
  Qed.

  Lemma tsteps_data : forall us d s e i d2 s2 e2 i2, tsteps d s e i us d2 s2 e2 i2 -> d2 = Nat.iter (length us) on d.
  Proof.
    induction us as [|u us IH]; intros d s e i d2 s2 e2 i2 H; inversion H; subst; auto.
    cbn [length]. rewrite nat_iter_succ_r. eapply IH; eauto.
  Qed.
End Till.

Section TillRange.
  Context {St SE I U V E N D : Type}.
  Variable p : sparser St I U E.
  Variable end_ : sparser SE I V N.
  Variable r : range.
  Variable tests : D -> nat.
  Variable stops : D -> bool.
  Variable on : D -> D.
  Variable d0 : D.
  Notation att := (twice_at_max r).
  Hypothesis Hconv : forall k, (forall j, j < k -> may_grow r j) ->
    tests (Nat.iter k on d0) = att k /\ (stops (Nat.iter k on d0) = false <-> may_grow r k).

  Lemma tsteps_iterates : forall us k s e i d2 s2 e2 i2,
    tsteps p end_ tests stops on (Nat.iter k on d0) s e i us d2 s2 e2 i2 -> (forall j, j < k -> may_grow r j) ->
    iterates_till_st att p end_ k s e i us s2 e2 i2 /\ (forall j, j < k + length us -> may_grow r j).
  Proof.
    induction us as [|u us IH]; intros k s e i d2 s2 e2 i2 H Hk; inversion H as [|? ? ? ? ? ? ? ? ? ? ? ? ? He Hs Hp Ht]; subst.
    - split; [constructor|]. intros j Hj. apply Hk. cbn in Hj. lia.
    - destruct (Hconv Hk) as [Ht1 Ht2]. apply Ht2 in Hs.
      change (on (Nat.iter k on d0)) with (Nat.iter (S k) on d0) in Ht.
      apply IH in Ht; [|intros j Hj; destruct (Nat.eq_dec j k) as [->|]; [assumption|apply Hk; lia]].
      destruct Ht as [Ht Hg]. split.
      + econstructor; eauto. rewrite <- Ht1. assumption.
      + intros j Hj. apply Hg. cbn in Hj. lia.
  Qed.

  Lemma iterates_tsteps : forall us k s e i s2 e2 i2,
    iterates_till_st att p end_ k s e i us s2 e2 i2 -> (forall j, j < k + length us -> may_grow r j) ->
    tsteps p end_ tests stops on (Nat.iter k on d0) s e i us (Nat.iter (k + length us) on d0) s2 e2 i2.
  Proof.
    induction us as [|u us IH]; intros k s e i s2 e2 i2 H Hk; inversion H as [|? ? ? ? ? ? ? ? ? ? ? ? He Hp Ht]; subst; cbn [length].
    - rewrite Nat.add_0_r. constructor.
    - assert (Hk' : forall j, j < k -> may_grow r j) by (intros j Hj; apply Hk; cbn; lia).
      destruct (Hconv Hk') as [Ht1 Ht2]. econstructor.
      + rewrite Ht1. exact He.
      + apply Ht2. apply Hk. cbn; lia.
      + exact Hp.
      + change (on (Nat.iter k on d0)) with (Nat.iter (S k) on d0). rewrite <- Nat.add_succ_comm. apply IH; auto.
        intros j Hj. apply Hk. cbn. lia.
  Qed.
End TillRange.

Lemma att_in_range : forall r k, 0 < twice_at_max r k <-> in_range r k.
Proof.
  intros [a b|a| |b|n] k; cbn [twice_at_max once in_range].
  - destruct (Nat.leb_spec a k), (Nat.ltb_spec k b); cbn [andb]; try lia. destruct (S k =? b); lia.
  - destruct (Nat.leb_spec a k); lia.
  - split; auto.
  - destruct (Nat.ltb_spec k b); lia.
  - destruct (Nat.eqb_spec k n); lia.
Qed.

Section ManyTill.
  Context {St SE I U V E N : Type}.
  Variable p : sparser St I U E.
  Variable end_ : sparser SE I V N.

  Definition pre_shape {D} (tests : D -> nat) (stops : D -> bool) (pre : iter_till St SE I E D -> pre_res (iter_till St SE I E D)) : Prop :=
    forall it, pre it =
      match attempt end_ (tests (tt_data it)) (tt_es it) (tt_buf it) with
      | ADone b e => PreNone (mkIterTill TEndSuccess (tt_ps it) e b (tt_data it))
      | AFail e => if stops (tt_data it) then PreNone (with_es it e) else PreGo (with_es it e)
      | APanic => PrePanic
      | ANoFuel => PreNoFuel
      end.

  Lemma till_sound_gen : forall D (tests : D -> nat) (stops : D -> bool) on d0 pre hint fin r fuel i s0 e0 res,
    nonempty r -> pre_shape tests stops pre ->
    (forall k, (forall j, j < k -> may_grow r j) ->
      tests (Nat.iter k on d0) = twice_at_max r k /\ (stops (Nat.iter k on d0) = false <-> may_grow r k)) ->
    (forall us j k, in_range r k -> k = length us -> fin us j (Nat.iter k on d0) TEndSuccess = till_quirk r (Data j us)) ->
    (forall us j d n, fin us j d (TIncomplete n) = Incomplete n) ->
    (forall us j d b e, fin us j d (TError b e) = Error b e) ->
    (forall t i d e, fin t i d e <> NoFuel) ->
    run_iter_till fuel (vec_collector U) i s0 e0 p d0 hint pre on fin = res -> res <> NoFuel ->
    exists res', till_outcome_st r (twice_at_max r) p end_ s0 e0 i res' /\ res = till_quirk r res'.
  Proof.
    intros D tests stops on d0 pre hint fin r fuel i s0 e0 res Hnon Hpre Hconv Hend Hinc Herr Hfin Hr Hne.
    eapply run_till_sound in Hr; eauto. destruct Hr as (us & d & s & e & j & Ht & Hs).
    pose proof (tsteps_data Ht) as Hd.
    destruct (@tsteps_iterates _ _ _ _ _ _ _ _ p end_ r tests stops on d0 Hconv us 0 s0 e0 i d s e j Ht) as [Hi Hg]; [intros; lia|].
    cbn [Nat.add] in Hg. destruct (Hconv _ Hg) as [Hc1 Hc2]. subst d.
    assert (Hc3 : stops (Nat.iter (length us) on d0) = true <-> ~ may_grow r (length us)).
    { destruct (stops (Nat.iter (length us) on d0)); split; intros H; auto; try discriminate.
      - intros Hx. apply Hc2 in Hx. discriminate.
      - exfalso. apply H. apply Hc2. reflexivity. }
    destruct Hs as [k e2 Ha|Ha|e1 Ha Hx|e1 b x Ha Hx Hp|e1 n Ha Hx Hp|e1 Ha Hx Hp]; rewrite Hc1 in Ha.
    - exists (Data k us). apply attempt_done in Ha. destruct Ha as (m & e1 & v & Hm & Hf & Hd).
      assert (Hin : in_range r (length us)) by (apply att_in_range; lia). split.
      + eapply tos_data; eauto.
      + eapply Hend; eauto.
    - exists Panic. split; [|destruct r; reflexivity]. apply attempt_panic in Ha. destruct Ha as (m & e1 & Hm & Hf & Hd).
      eapply tos_panic_end; eauto. apply att_in_range; lia.
    - exists (Incomplete 1). split; [|rewrite Hinc; destruct r; reflexivity]. apply Hc3 in Hx. eapply tos_exhausted; eauto. apply max_in_range; auto.
    - exists (Error b x). split; [|rewrite Herr; destruct r; reflexivity]. eapply tos_error; eauto. apply Hc2; auto.
    - exists (Incomplete n). split; [|rewrite Hinc; destruct r; reflexivity]. eapply tos_incomplete; eauto. apply Hc2; auto.
    - exists Panic. split; [|destruct r; reflexivity]. eapply tos_panic; eauto. apply Hc2; auto.
  Qed.

  (** One description of all outcomes, with the run first. *)
  Definition ends (r : range) (us : list U) (s : St) (e : SE) (j : input I) (res : pres I (list U) E) : Prop :=
    match attempt end_ (twice_at_max r (length us)) e j with
    | ADone k _ => res = Data k us
    | APanic => res = Panic
    | ANoFuel => False
    | AFail _ =>
        (~ may_grow r (length us) /\ res = Incomplete 1) \/
        (may_grow r (length us) /\
         match fst (p s j) with
         | Error b x => res = Error b x
         | Incomplete n => res = Incomplete n
         | Panic => res = Panic
         | _ => False
         end)
    end.

  Lemma outcome_run : forall r s0 e0 i res, till_outcome_st r (twice_at_max r) p end_ s0 e0 i res -> exists us s e j,
    iterates_till_st (twice_at_max r) p end_ 0 s0 e0 i us s e j /\ (forall k, k < length us -> may_grow r k) /\ ends r us s e j res.
  Proof.
    intros r s0 e0 i res H. unfold ends.
    destruct H as [us s e j m e1 e2 k v Hi Hr Hm Hf Hd|us s e j e1 b x Hi Hf Hg Hp|us s e j e1 n Hi Hf Hg Hp|us s e j e1 Hi Hr Hf Hg|us s e j e1 Hi Hf Hg Hp|us s e j m e1 Hi Hr Hm Hf Hd];
      exists us, s, e, j; (split; [assumption|]);
      (split; [intros k' Hk'; first [eapply in_range_grow; eassumption | eapply may_grow_le; [eassumption|lia]]|]);
      pose proof Hf as Hf'; apply attempt_fail in Hf'.
    - replace (attempt end_ (twice_at_max r (length us)) e j) with (ADone k e2) by (symmetry; apply attempt_done; exists m, e1, v; auto). reflexivity.
    - rewrite Hf'. right. rewrite Hp. auto.
    - rewrite Hf'. right. rewrite Hp. auto.
    - rewrite Hf'. left. auto.
    - rewrite Hf'. right. rewrite Hp. auto.
    - replace (attempt end_ (twice_at_max r (length us)) e j) with (@APanic SE I) by (symmetry; apply attempt_panic; exists m, e1; auto). reflexivity.
  Qed.

  Lemma iterates_till_prefix : forall att us k s e i s1 e1 i1, iterates_till_st att p end_ k s e i us s1 e1 i1 -> forall vs s2 e2 i2,
    iterates_till_st att p end_ k s e i vs s2 e2 i2 -> length us <= length vs ->
    exists ws, vs = us ++ ws /\ iterates_till_st att p end_ (k + length us) s1 e1 i1 ws s2 e2 i2.
  Proof.
    induction 1 as [k s e i|k s e i u s1 e1 i1 us s2 e2 i2 He Hp Hi IH]; intros vs s3 e3 i3 H Hl.
    - exists vs. cbn [length]. rewrite Nat.add_0_r. auto.
    - inversion H as [|? ? ? ? ? ? ? ? ? ? ? ? He' Hp' Hi']; subst; cbn in Hl; [lia|]. rewrite Hp in Hp'. inversion Hp'; subst.
      apply attempt_fail in He. apply attempt_fail in He'. rewrite He in He'. inversion He'; subst.
      destruct (IH _ _ _ _ Hi') as (ws & -> & Hw); [lia|]. exists ws. cbn [length app]. split; auto. rewrite <- Nat.add_succ_comm. assumption.
  Qed.

  Lemma till_outcome_st_det : forall r s0 e0 i res1 res2,
    till_outcome_st r (twice_at_max r) p end_ s0 e0 i res1 -> till_outcome_st r (twice_at_max r) p end_ s0 e0 i res2 -> res1 = res2.
  Proof.
    intros r s0 e0 i res1 res2 H1 H2. apply outcome_run in H1. apply outcome_run in H2.
    destruct H1 as (us & s & e & j & Hi & Hg & H1). destruct H2 as (us' & s' & e' & j' & Hi' & Hg' & H2).
    assert (Hcmp : forall us us' s s' e e' j j' res, iterates_till_st (twice_at_max r) p end_ 0 s0 e0 i us s e j ->
      iterates_till_st (twice_at_max r) p end_ 0 s0 e0 i us' s' e' j' -> ends r us s e j res ->
      (forall k, k < length us' -> may_grow r k) -> length us < length us' -> False).
    { clear. intros us us' s s' e e' j j' res Hi Hi' H Hg' Hl.
      destruct (iterates_till_prefix Hi Hi') as (ws & -> & Hw); [lia|]. rewrite app_length in Hl, Hg'.
      inversion Hw as [|? ? ? ? ? ? ? ? ? ? ? ? He Hp Ht]; subst; cbn [length] in Hl; [lia|].
      unfold ends in H. apply attempt_fail in He. cbn [Nat.add] in He. rewrite He in H. destruct H as [(Hn & _)|(_ & H)].
      - apply Hn. apply Hg'. cbn [length]. lia.
      - rewrite Hp in H. exact H. }
    assert (Hlen : length us = length us').
    { destruct (Nat.lt_trichotomy (length us) (length us')) as [Hl|[Hl|Hl]]; auto; exfalso.
      - eapply (Hcmp us us'); eauto. - eapply (Hcmp us' us); eauto. }
    destruct (iterates_till_prefix Hi Hi') as (ws & -> & Hw); [lia|]. rewrite app_length in Hlen.
    destruct ws; [|simpl in Hlen; lia]. rewrite app_nil_r in *. inversion Hw; subst s' e' j'. clear Hcmp Hw Hi Hi' Hg Hg'.
    unfold ends in *. destruct (attempt end_ (twice_at_max r (length us)) e j); try congruence; [|contradiction].
    destruct H1 as [(Hn & ->)|(Hn & H1)]; destruct H2 as [(Hn' & ->)|(Hn' & H2)]; try tauto.
    destruct (fst (p s j)); try contradiction; congruence.
  Qed.

  Lemma till_complete_gen : forall D (tests : D -> nat) (stops : D -> bool) on d0 pre hint fin r i s0 e0 res,
    pre_shape tests stops pre ->
    (forall k, (forall j, j < k -> may_grow r j) ->
      tests (Nat.iter k on d0) = twice_at_max r k /\ (stops (Nat.iter k on d0) = false <-> may_grow r k)) ->
    (forall us j k, in_range r k -> k = length us -> fin us j (Nat.iter k on d0) TEndSuccess = till_quirk r (Data j us)) ->
    (forall us j d n, fin us j d (TIncomplete n) = Incomplete n) ->
    (forall us j d b e, fin us j d (TError b e) = Error b e) ->
    till_outcome_st r (twice_at_max r) p end_ s0 e0 i res ->
    exists f0, forall fuel, f0 <= fuel ->
      run_iter_till fuel (vec_collector U) i s0 e0 p d0 hint pre on fin = till_quirk r res.
  Proof.
    intros D tests stops on d0 pre hint fin r i s0 e0 res Hpre Hconv Hend Hinc Herr H.
    apply outcome_run in H. destruct H as (us & s & e & j & Hi & Hg & H). exists (length us + 2). intros fuel Hf.
    pose proof (@iterates_tsteps _ _ _ _ _ _ _ _ p end_ r tests stops on d0 Hconv us 0 s0 e0 i s e j Hi Hg) as Ht. cbn [Nat.add] in Ht.
    change (Nat.iter 0 on d0) with d0 in Ht.
    destruct (Hconv _ Hg) as [Hc1 Hc2].
    assert (Hc3 : ~ may_grow r (length us) -> stops (Nat.iter (length us) on d0) = true).
    { intros Hn. destruct (stops (Nat.iter (length us) on d0)); auto. exfalso. apply Hn, Hc2; reflexivity. }
    eapply run_till_complete; eauto. unfold ends in H. rewrite <- Hc1 in H.
    destruct (attempt end_ (tests (Nat.iter (length us) on d0)) e j) as [k e2|e1| |] eqn:Ha.
    - subst res. rewrite <- (Hend us k (length us)); auto; [eapply st_end; eauto|].
      apply att_in_range. rewrite <- Hc1. destruct (tests (Nat.iter (length us) on d0)); [discriminate|lia].
    - apply attempt_fail in Ha. destruct H as [(Hn & ->)|(Hn & H)].
      + replace (till_quirk r (Incomplete 1)) with (Incomplete 1 : pres I (list U) E) by (destruct r; reflexivity).
        rewrite <- (Hinc us j (Nat.iter (length us) on d0) 1). eapply st_max; eauto.
      + apply Hc2 in Hn. destruct (fst (p s j)) as [b v|b x|n| |] eqn:Hp; try contradiction; subst res.
        * replace (till_quirk r (Error b x)) with (Error b x : pres I (list U) E) by (destruct r; reflexivity).
          rewrite <- (Herr us j (Nat.iter (length us) on d0)). eapply st_err; eauto.
        * replace (till_quirk r (Incomplete n)) with (Incomplete n : pres I (list U) E) by (destruct r; reflexivity).
          rewrite <- (Hinc us j (Nat.iter (length us) on d0)). eapply st_inc; eauto.
        * replace (till_quirk r Panic) with (Panic : pres I (list U) E) by (destruct r; reflexivity).
          eapply st_panic; eauto.
    - subst res. replace (till_quirk r Panic) with (Panic : pres I (list U) E) by (destruct r; reflexivity).
      apply st_end_panic. assumption.
    - contradiction.
  Qed.

  Ltac pre_tac := intros it; destruct it as [st ps es ib d]; unfold pre_seq, end_test, with_es; cbn [tt_data tt_buf tt_es tt_ps tt_state].
  Ltac sound_tac tt0 ss0 rr0 Hr Hnf Hne Hpre Hconv hend :=
    eapply till_sound_gen with (tests := tt0) (stops := ss0) (r := rr0); [..|exact Hr|exact Hnf];
    first [exact Hne | exact Hpre | exact Hconv | hend
      | solve [intros ? ? [[|d1] d2] ?; reflexivity] | solve [intros ? ? [[|d1] d2] ? ?; reflexivity] | solve [intros ? ? [[|d1] d2] []; discriminate]
      | solve [intros ? ? [|d] ?; reflexivity] | solve [intros ? ? [|d] ? ?; reflexivity] | solve [intros ? ? [|d] []; discriminate]
      | solve [intros; reflexivity] | solve [intros ? ? d []; discriminate]].
  Ltac complete_tac tt0 ss0 rr0 Hr Hpre Hconv hend :=
    eapply till_complete_gen with (tests := tt0) (stops := ss0) (r := rr0); [..|exact Hr];
    first [exact Hpre | exact Hconv | hend
      | solve [intros ? ? [[|d1] d2] ?; reflexivity] | solve [intros ? ? [[|d1] d2] ? ?; reflexivity]
      | solve [intros ? ? [|d] ?; reflexivity] | solve [intros ? ? [|d] ? ?; reflexivity]
      | solve [intros; reflexivity]].

  Lemma bmany_till_char_st : forall r, nonempty r ->
    (forall fuel s0 e0 i res, bmany_till fuel (vec_collector U) r s0 e0 p end_ i = res -> res <> NoFuel ->
       exists res', till_outcome_st r (twice_at_max r) p end_ s0 e0 i res' /\ res = till_quirk r res') /\
    (forall s0 e0 i res, till_outcome_st r (twice_at_max r) p end_ s0 e0 i res -> exists f0, forall fuel, f0 <= fuel ->
       bmany_till fuel (vec_collector U) r s0 e0 p end_ i = till_quirk r res).
  Proof.
    intros r Hne. destruct r as [a b|a| |b|n]; cbn [bmany_till].
    - assert (Hab : a < b) by (destruct Hne as (k & Hk); cbn in Hk; lia).
      unfold many_till_range. replace (a <=? b) with true by (symmetry; apply Nat.leb_le; lia). cbn [negb].
      set (tests := fun d : nat * nat => (if fst d =? 0 then 1 else 0) + (if snd d =? 0 then 1 else 0)).
      assert (Hpre : pre_shape tests (fun d => snd d =? 0) (fun it : iter_till St SE I E (nat * nat) =>
        pre_seq (if fst (tt_data it) =? 0 then end_test end_ it else PreGo it)
             (fun it => if snd (tt_data it) =? 0 then pre_seq (end_test end_ it) (fun it => PreNone it) else PreGo it))).
      { pre_tac. unfold tests. destruct (fst d =? 0) eqn:H0; cbn [Nat.add attempt].
        - destruct (end_ es ib) as [[? ?|? ?|?| |] e1] eqn:He; try reflexivity; cbn [tt_data tt_buf tt_es tt_ps tt_state];
            destruct (snd d =? 0) eqn:Hs; cbn [attempt]; rewrite ?Hs; try reflexivity;
            destruct (end_ e1 ib) as [[? ?|? ?|?| |] e2] eqn:He2; reflexivity.
        - cbn [tt_data tt_buf tt_es tt_ps tt_state]. destruct (snd d =? 0) eqn:Hs; cbn [attempt]; rewrite ?Hs; try reflexivity.
          destruct (end_ es ib) as [[? ?|? ?|?| |] e2] eqn:He2; reflexivity. }
      assert (Hconv : forall k, (forall j, j < k -> may_grow (RRange a b) j) ->
        tests (Nat.iter k (fun d : nat * nat => (dec0 (fst d), snd d - 1)) (a, Nat.max b 1 - 1)) = twice_at_max (RRange a b) k /\
        (snd (Nat.iter k (fun d : nat * nat => (dec0 (fst d), snd d - 1)) (a, Nat.max b 1 - 1)) =? 0 = false <-> may_grow (RRange a b) k)).
      { intros k Hk. rewrite iter_pair, may_grow_range. unfold tests. cbn [fst snd twice_at_max].
        assert (Hkb : k < b). { destruct k; [lia|]. specialize (Hk k). rewrite may_grow_range in Hk. lia. }
        split; [|rewrite Nat.eqb_neq; lia].
        destruct (Nat.leb_spec a k), (Nat.ltb_spec k b), (Nat.eqb_spec (S k) b), (Nat.eqb_spec (a - k) 0), (Nat.eqb_spec (Nat.max b 1 - 1 - k) 0); cbn; lia. }
      split; [intros fuel s0 e0 i res Hr Hnf|intros s0 e0 i res Hr].
      + sound_tac tests (fun d : nat * nat => snd d =? 0) (RRange a b) Hr Hnf Hne Hpre Hconv
          ltac:(solve [intros us j k Hk _; rewrite iter_pair; cbn in Hk; replace (a - k) with 0 by lia; reflexivity]).
      + complete_tac tests (fun d : nat * nat => snd d =? 0) (RRange a b) Hr Hpre Hconv
          ltac:(solve [intros us j k Hk _; rewrite iter_pair; cbn in Hk; replace (a - k) with 0 by lia; reflexivity]).
    - set (tests := fun d : nat => if d =? 0 then 1 else 0).
      assert (Hpre : pre_shape tests (fun d => false) (fun it : iter_till St SE I E nat => if tt_data it =? 0 then end_test end_ it else PreGo it)).
      { pre_tac. unfold tests. destruct (d =? 0); cbn [attempt]; [|reflexivity]. destruct (end_ es ib) as [[? ?|? ?|?| |] e1]; reflexivity. }
      assert (Hconv : forall k, (forall j, j < k -> may_grow (RFrom a) j) ->
        tests (Nat.iter k dec0 a) = twice_at_max (RFrom a) k /\ (false = false <-> may_grow (RFrom a) k)).
      { intros k Hk. rewrite iter_dec0. unfold tests. cbn [twice_at_max once]. split.
        - destruct (Nat.eqb_spec (a - k) 0), (Nat.leb_spec a k); lia.
        - split; auto. intros _. apply may_grow_from. }
      split; [intros fuel s0 e0 i res Hr Hnf|intros s0 e0 i res Hr].
      + sound_tac tests (fun d : nat => false) (RFrom a) Hr Hnf Hne Hpre Hconv
          ltac:(solve [intros us j k Hk _; rewrite iter_dec0; cbn in Hk; replace (a - k) with 0 by lia; reflexivity]).
      + complete_tac tests (fun d : nat => false) (RFrom a) Hr Hpre Hconv
          ltac:(solve [intros us j k Hk _; rewrite iter_dec0; cbn in Hk; replace (a - k) with 0 by lia; reflexivity]).
    - assert (Hpre : pre_shape (fun _ : unit => 1) (fun d => false) (fun it : iter_till St SE I E unit => end_test end_ it)).
      { pre_tac. cbn [attempt]. destruct (end_ es ib) as [[? ?|? ?|?| |] e1]; reflexivity. }
      assert (Hconv : forall k, (forall j, j < k -> may_grow RFull j) -> 1 = twice_at_max RFull k /\ (false = false <-> may_grow RFull k)).
      { intros k Hk. split; [reflexivity|]. split; auto. intros _. apply may_grow_full. }
      split; [intros fuel s0 e0 i res Hr Hnf|intros s0 e0 i res Hr].
      + sound_tac (fun _ : unit => 1) (fun d : unit => false) RFull Hr Hnf Hne Hpre Hconv ltac:(solve [intros; reflexivity]).
      + complete_tac (fun _ : unit => 1) (fun d : unit => false) RFull Hr Hpre Hconv ltac:(solve [intros; reflexivity]).
    - assert (Hab : 0 < b) by (destruct Hne as (k & Hk); cbn in Hk; lia).
      assert (Hpre : pre_shape (fun _ : nat => 1) (fun d => d =? 0) (fun it : iter_till St SE I E nat =>
        pre_seq (end_test end_ it) (fun it => if tt_data it =? 0 then PreNone it else PreGo it))).
      { pre_tac. cbn [attempt]. destruct (end_ es ib) as [[? ?|? ?|?| |] e1]; reflexivity. }
      assert (Hconv : forall k, (forall j, j < k -> may_grow (RTo b) j) ->
        1 = twice_at_max (RTo b) k /\ ((Nat.iter k (fun d => d - 1) (Nat.max b 1 - 1) =? 0) = false <-> may_grow (RTo b) k)).
      { intros k Hk. rewrite iter_pred, may_grow_to, Nat.eqb_neq. cbn [twice_at_max once].
        assert (Hkb : k < b). { destruct k; [lia|]. specialize (Hk k). rewrite may_grow_to in Hk. lia. }
        split; [|lia]. destruct (Nat.ltb_spec k b); lia. }
      assert (Hq : forall (us : list U) (j : input I) k, in_range (RTo b) k -> k = length us ->
        (match Nat.iter k (fun d => d - 1) (Nat.max b 1 - 1) with 0 => ret us j | S _ => Panic end : pres I (list U) E) = till_quirk (RTo b) (Data j us)).
      { intros us j k Hk ->. rewrite iter_pred. cbn [in_range] in Hk. cbn [till_quirk].
        destruct (Nat.ltb_spec (S (length us)) b).
        - destruct (Nat.max b 1 - 1 - length us) eqn:Hx; [lia|reflexivity].
        - replace (Nat.max b 1 - 1 - length us) with 0 by lia. reflexivity. }
      split; [intros fuel s0 e0 i res Hr Hnf|intros s0 e0 i res Hr].
      + sound_tac (fun _ : nat => 1) (fun d : nat => d =? 0) (RTo b) Hr Hnf Hne Hpre Hconv ltac:(exact Hq).
      + complete_tac (fun _ : nat => 1) (fun d : nat => d =? 0) (RTo b) Hr Hpre Hconv ltac:(exact Hq).
    - set (tests := fun d : nat => if d =? 0 then 1 else 0).
      assert (Hpre : pre_shape tests (fun d => d =? 0) (fun it : iter_till St SE I E nat =>
        if tt_data it =? 0 then pre_seq (end_test end_ it) (fun it => PreNone it) else PreGo it)).
      { pre_tac. unfold tests. destruct (d =? 0) eqn:Hd; cbn [attempt]; [|reflexivity]. destruct (end_ es ib) as [[? ?|? ?|?| |] e1]; reflexivity. }
      assert (Hconv : forall k, (forall j, j < k -> may_grow (RExact n) j) ->
        tests (Nat.iter k (fun d => d - 1) n) = twice_at_max (RExact n) k /\
        ((Nat.iter k (fun d => d - 1) n =? 0) = false <-> may_grow (RExact n) k)).
      { intros k Hk. rewrite iter_pred, may_grow_exact, Nat.eqb_neq. unfold tests. cbn [twice_at_max once].
        assert (Hkb : k <= n). { destruct k; [lia|]. specialize (Hk k). rewrite may_grow_exact in Hk. lia. }
        split; [|lia]. destruct (Nat.eqb_spec (n - k) 0), (Nat.eqb_spec k n); lia. }
      split; [intros fuel s0 e0 i res Hr Hnf|intros s0 e0 i res Hr].
      + sound_tac tests (fun d : nat => d =? 0) (RExact n) Hr Hnf Hne Hpre Hconv
          ltac:(solve [intros us j k Hk _; rewrite iter_pred; cbn in Hk; replace (n - k) with 0 by lia; reflexivity]).
      + complete_tac tests (fun d : nat => d =? 0) (RExact n) Hr Hpre Hconv
          ltac:(solve [intros us j k Hk _; rewrite iter_pred; cbn in Hk; replace (n - k) with 0 by lia; reflexivity]).
  Qed.
End ManyTill.

(** Where the second run cannot change anything. *)
Section Once.
  Context {St SE I U V E N : Type}.
  Variable p : sparser St I U E.
  Variable end_ : sparser SE I V N.

  Lemma iterates_att_ext : forall att1 att2 k s e i us s2 e2 i2, iterates_till_st att1 p end_ k s e i us s2 e2 i2 ->
    (forall j, k <= j -> j < k + length us -> att1 j = att2 j) -> iterates_till_st att2 p end_ k s e i us s2 e2 i2.
  Proof.
    induction 1 as [k s e i|k s e i u s1 e1 i1 us s2 e2 i2 He Hp Hi IH]; intros Heq; [constructor|]. cbn [length] in Heq. econstructor; eauto.
    - rewrite <- Heq; [exact He|lia|lia].
    - apply IH. intros j H1 H2. apply Heq; lia.
  Qed.

  Lemma once_att : forall r k, may_grow r k -> twice_at_max r k = once r k.
  Proof.
    intros [a b|a| |b|n] k H; try reflexivity. apply may_grow_range in H. cbn [twice_at_max once].
    destruct (Nat.leb_spec a k), (Nat.ltb_spec k b), (Nat.eqb_spec (S k) b); cbn [andb]; try reflexivity. lia.
  Qed.
  Lemma once_in_range : forall r k, in_range r k -> once r k = 1.
  Proof.
    intros [a b|a| |b|n] k H; cbn [in_range once] in *.
    - destruct (Nat.leb_spec a k), (Nat.ltb_spec k b); cbn [andb]; lia.
    - destruct (Nat.leb_spec a k); lia.
    - reflexivity.
    - destruct (Nat.ltb_spec k b); lia.
    - subst. rewrite Nat.eqb_refl. reflexivity.
  Qed.
  Lemma twice_le : forall r k, twice_at_max r k = once r k \/ (once r k = 1 /\ twice_at_max r k = 2).
  Proof.
    intros [a b|a| |b|n] k; try (left; reflexivity). cbn [twice_at_max once].
    destruct ((a <=? k) && (k <? b)); auto. destruct (S k =? b); auto.
  Qed.

  Hypothesis Hst : steady end_.

  Lemma steady_fails : forall i m e e1, fails end_ i 1 e e1 -> exists e2, fails end_ i m e e2.
  Proof.
    intros i. induction m as [|m IH]; intros e e1 H; [exists e; constructor|].
    destruct (Hst H) as (e2 & H2). destruct (IH _ _ H2) as (e3 & H3). exists e3.
    inversion H as [|? ? ? ? Hx Hf]; subst. inversion Hf; subst. econstructor; eauto.
  Qed.

  Lemma outcome_twice_once : forall r s0 e0 i res,
    till_outcome_st r (twice_at_max r) p end_ s0 e0 i res -> till_outcome_st r (once r) p end_ s0 e0 i res.
  Proof.
    intros r s0 e0 i res H.
    assert (Hit : forall us s e j, iterates_till_st (twice_at_max r) p end_ 0 s0 e0 i us s e j -> (forall k, k < length us -> may_grow r k) ->
      iterates_till_st (once r) p end_ 0 s0 e0 i us s e j).
    { intros us s e j Hi Hk. eapply iterates_att_ext; [exact Hi|]. intros k _ Hl. apply once_att, Hk. exact Hl. }
    assert (Hnot : forall j e e1, fails end_ j 1 e e1 -> (exists k v e2, end_ e1 j = (Data k v, e2)) \/ fst (end_ e1 j) = Panic -> False).
    { intros j e e1 Hf Hx. destruct (Hst Hf) as (e2 & H2). inversion H2 as [|? ? ? ? Hy Hz]; subst.
      destruct Hx as [(k & v & e3 & Hx)|Hx]; destruct Hy as [(b & x & Hy)|(n & Hy)]; rewrite Hy in Hx; discriminate. }
    destruct H as [us s e j m e1 e2 k v Hi Hr Hm Hf Hd|us s e j e1 b x Hi Hf Hg Hp|us s e j e1 n Hi Hf Hg Hp|us s e j e1 Hi Hr Hf Hg|us s e j e1 Hi Hf Hg Hp|us s e j m e1 Hi Hr Hm Hf Hd].
    - assert (Hm0 : m = 0).
      { destruct m as [|m]; auto. exfalso. destruct (twice_le r (length us)) as [Ht|[_ Ht]]; rewrite Ht in Hm; [rewrite once_in_range in Hm by assumption; lia|].
        assert (m = 0) by lia. subst m. eapply (Hnot j e e1); [exact Hf|left; eauto]. }
      subst m. eapply tos_data with (m := 0); [apply Hit; [exact Hi|intros; eapply in_range_grow; eauto]|exact Hr|rewrite once_in_range by assumption; lia|exact Hf|exact Hd].
    - rewrite once_att in Hf by assumption. eapply tos_error; [|exact Hf|exact Hg|exact Hp]. apply Hit; [exact Hi|]. intros; eapply may_grow_le; [eassumption|lia].
    - rewrite once_att in Hf by assumption. eapply tos_incomplete; [|exact Hf|exact Hg|exact Hp]. apply Hit; [exact Hi|]. intros; eapply may_grow_le; [eassumption|lia].
    - assert (Hf1 : exists e3, fails end_ j 1 e e3).
      { assert (Hpos : 0 < twice_at_max r (length us)) by (apply att_in_range; assumption). destruct (twice_at_max r (length us)) as [|m]; [lia|].
        inversion Hf as [|? ? ? ? Hx Hf']; subst. eexists. econstructor; [exact Hx|constructor]. }
      destruct Hf1 as (e3 & Hf1). eapply tos_exhausted; [apply Hit; [exact Hi|intros; eapply in_range_grow; eauto]|exact Hr| |exact Hg].
      rewrite once_in_range by assumption. exact Hf1.
    - rewrite once_att in Hf by assumption. eapply tos_panic; [|exact Hf|exact Hg|exact Hp]. apply Hit; [exact Hi|]. intros; eapply may_grow_le; [eassumption|lia].
    - assert (Hm0 : m = 0).
      { destruct m as [|m]; auto. exfalso. destruct (twice_le r (length us)) as [Ht|[_ Ht]]; rewrite Ht in Hm; [rewrite once_in_range in Hm by assumption; lia|].
        assert (m = 0) by lia. subst m. eapply (Hnot j e e1); [exact Hf|right; exact Hd]. }
      subst m. eapply tos_panic_end with (m := 0); [apply Hit; [exact Hi|intros; eapply in_range_grow; eauto]|exact Hr|rewrite once_in_range by assumption; lia|exact Hf|exact Hd].
  Qed.

  Lemma outcome_once_twice : forall r s0 e0 i res,
    till_outcome_st r (once r) p end_ s0 e0 i res -> till_outcome_st r (twice_at_max r) p end_ s0 e0 i res.
  Proof.
    intros r s0 e0 i res H.
    assert (Hit : forall us s e j, iterates_till_st (once r) p end_ 0 s0 e0 i us s e j -> (forall k, k < length us -> may_grow r k) ->
      iterates_till_st (twice_at_max r) p end_ 0 s0 e0 i us s e j).
    { intros us s e j Hi Hk. eapply iterates_att_ext; [exact Hi|]. intros k _ Hl. symmetry. apply once_att, Hk. exact Hl. }
    assert (Hle : forall k, once r k <= twice_at_max r k) by (intros k; destruct (twice_le r k) as [->|[-> ->]]; lia).
    destruct H as [us s e j m e1 e2 k v Hi Hr Hm Hf Hd|us s e j e1 b x Hi Hf Hg Hp|us s e j e1 n Hi Hf Hg Hp|us s e j e1 Hi Hr Hf Hg|us s e j e1 Hi Hf Hg Hp|us s e j m e1 Hi Hr Hm Hf Hd].
    - eapply tos_data with (m := m); [apply Hit; [exact Hi|intros; eapply in_range_grow; eauto]|exact Hr|specialize (Hle (length us)); lia|exact Hf|exact Hd].
    - rewrite <- once_att in Hf by assumption. eapply tos_error; [|exact Hf|exact Hg|exact Hp]. apply Hit; [exact Hi|]. intros; eapply may_grow_le; [eassumption|lia].
    - rewrite <- once_att in Hf by assumption. eapply tos_incomplete; [|exact Hf|exact Hg|exact Hp]. apply Hit; [exact Hi|]. intros; eapply may_grow_le; [eassumption|lia].
    - rewrite once_in_range in Hf by assumption. destruct (steady_fails (twice_at_max r (length us)) Hf) as (e2 & Hf2).
      eapply tos_exhausted; [apply Hit; [exact Hi|intros; eapply in_range_grow; eauto]|exact Hr|exact Hf2|exact Hg].
    - rewrite <- once_att in Hf by assumption. eapply tos_panic; [|exact Hf|exact Hg|exact Hp]. apply Hit; [exact Hi|]. intros; eapply may_grow_le; [eassumption|lia].
    - eapply tos_panic_end with (m := m); [apply Hit; [exact Hi|intros; eapply in_range_grow; eauto]|exact Hr|specialize (Hle (length us)); lia|exact Hf|exact Hd].
  Qed.
End Once.
