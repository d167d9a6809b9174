(** Lemmas about the iterator machinery. *)
From Coq Require Import List Bool Arith Lia.
From Verif Require Import Base Parsers Combinators SpecIter.
Import ListNotations.

Set Implicit Arguments.

Lemma nat_iter_succ_r : forall (A : Type) (n : nat) (f : A -> A) (x : A), Nat.iter (S n) f x = Nat.iter n f (f x).
Proof. induction n as [|n IH]; intros f x; [reflexivity|]. change (f (Nat.iter (S n) f x) = f (Nat.iter n f (f x))). now rewrite IH. Qed.

(** * Generic: the Vec collector *)

Section Yields.
  Context {It U : Type}.
  Variable next : It -> step It U.
  Variable hint : It -> nat * option nat.

  Inductive yields : It -> list U -> It -> Prop :=
  | yields_nil : forall it, yields it [] it
  | yields_cons : forall it u it1 us it2,
      next it = Yield u it1 -> yields it1 us it2 -> yields it (u :: us) it2.

  Lemma from_iter_vec_done : forall fuel acc it t it',
    from_iter fuel next hint (cact (vec_collector U)) (false, acc) it = FDone t it' <->
    exists us it1, t = acc ++ us /\ yields it us it1 /\ next it1 = Stop it' /\ length us + 2 <= fuel.
  Proof.
    induction fuel as [|fuel IH]; intros acc it t it'; simpl.
    - split; [discriminate|]. intros (us & it1 & _ & _ & _ & H). lia.
    - destruct (next it) as [u it1|it1| |] eqn:Hn.
      + rewrite IH. split.
        * intros (us & it2 & -> & Hy & Hs & Hl). exists (u :: us), it2. rewrite <- app_assoc. simpl.
          repeat split; auto. econstructor; eauto. lia.
        * intros (us & it2 & -> & Hy & Hs & Hl). inversion Hy; subst.
          -- rewrite Hn in Hs. discriminate.
          -- rewrite Hn in H. inversion H; subst. exists us0, it2. rewrite <- app_assoc. simpl in *.
             repeat split; auto. lia.
      + destruct fuel as [|fuel]; simpl.
        * split; [discriminate|]. intros (us & it2 & _ & Hy & Hs & Hl). lia.
        * split.
          -- intros H; inversion H; subst. exists [], it. rewrite app_nil_r. repeat split; auto. constructor. simpl; lia.
          -- intros (us & it2 & -> & Hy & Hs & Hl). inversion Hy; subst.
             ++ rewrite Hn in Hs. inversion Hs. rewrite app_nil_r. reflexivity.
             ++ rewrite Hn in H. discriminate.
      + split; [discriminate|]. intros (us & it2 & -> & Hy & Hs & Hl). inversion Hy; subst; congruence.
      + split; [discriminate|]. intros (us & it2 & -> & Hy & Hs & Hl). inversion Hy; subst; congruence.
  Qed.

  Lemma from_iter_vec_panic : forall fuel acc it,
    from_iter fuel next hint (cact (vec_collector U)) (false, acc) it = FPanic <->
    exists us it1, yields it us it1 /\ next it1 = StepPanic /\ length us + 1 <= fuel.
  Proof.
    induction fuel as [|fuel IH]; intros acc it; simpl.
    - split; [discriminate|]. intros (us & it1 & _ & _ & H). lia.
    - destruct (next it) as [u it1|it1| |] eqn:Hn.
      + rewrite IH. split.
        * intros (us & it2 & Hy & Hs & Hl). exists (u :: us), it2. 
          repeat split; auto. econstructor; eauto. simpl; lia.
        * intros (us & it2 & Hy & Hs & Hl). inversion Hy; subst.
          -- rewrite Hn in Hs. discriminate.
          -- rewrite Hn in H. inversion H; subst. exists us0, it2. simpl in *.
             repeat split; auto. lia.
      + split.
        * destruct fuel; simpl; discriminate.
        * intros (us & it2 & Hy & Hs & Hl). inversion Hy; subst; congruence.
      + split; [|reflexivity]. intros _. exists [], it. repeat split; auto. constructor. simpl; lia.
      + split; [discriminate|]. intros (us & it2 & Hy & Hs & Hl). inversion Hy; subst; congruence.
  Qed.

  Lemma yields_det : forall it us it1, yields it us it1 -> forall us' it1',
    yields it us' it1' -> (forall u it2, next it1 <> Yield u it2) -> (forall u it2, next it1' <> Yield u it2) ->
    us = us' /\ it1 = it1'.
  Proof.
    induction 1 as [it|it u it1 us it2 Hn Hy IH]; intros us' it1' Hy' H1 H2.
    - inversion Hy'; subst; auto. exfalso. eapply H1; eauto.
    - inversion Hy'; subst.
      + exfalso. eapply H2; eauto.
      + rewrite Hn in H. inversion H; subst. destruct (IH _ _ H0 H1 H2); subst; auto.
  Qed.
End Yields.

(** * run_iter with Vec *)

Section RunIter.
  Context {St I U E D : Type}.
  Variable p : sparser St I U E.
  Variable pre : D -> bool.
  Variable on : D -> D.

  Lemma iter_yields : forall us it it1,
    yields (iter_next p pre on) it us it1 <->
    (iterates p (it_ps it) (it_buf it) us (it_ps it1) (it_buf it1) /\
     it_state it1 = it_state it /\ it_data it1 = Nat.iter (length us) on (it_data it) /\
     (forall k, k < length us -> pre (Nat.iter k on (it_data it)) = false)).
  Proof.
    induction us as [|u us IH]; intros it it1.
    - split.
      + intros H; inversion H; subst. repeat split; auto. constructor. simpl; intros; lia.
      + intros (H1 & H2 & H3 & H4). inversion H1; subst. destruct it, it1; simpl in *; subst. constructor.
    - split.
      + intros H; inversion H as [|? ? itm ? ? Hn Hy]; subst. apply IH in Hy. destruct Hy as (Hi & Hs & Hd & Hk).
        unfold iter_next in Hn. destruct (pre (it_data it)) eqn:Hp; [discriminate|].
        destruct (p (it_ps it) (it_buf it)) as [[b v|b e|n| |] s] eqn:Hpp; inversion Hn; subst; simpl in *.
        repeat split; auto.
        * econstructor; eauto.
        * rewrite Hd. rewrite <- nat_iter_succ_r. reflexivity.
        * intros [|k] Hlt; simpl; auto. rewrite <- (Hk k) by lia.  rewrite <- nat_iter_succ_r. reflexivity.
      + intros (Hi & Hs & Hd & Hk). inversion Hi as [|? ? ? s1 i1 ? ? ? Hp1 Hi1]; subst.
        assert (Hp : pre (it_data it) = false) by (apply (Hk 0); simpl; lia).
        apply yields_cons with (it1 := mkIter (it_state it) s1 i1 (on (it_data it))).
        * unfold iter_next. rewrite Hp, Hp1. reflexivity.
        * apply IH. simpl. repeat split; auto.
          -- rewrite Hd. simpl length. rewrite nat_iter_succ_r. reflexivity.
          -- intros k Hlt. rewrite <- (Hk (S k)) by (simpl; lia). rewrite nat_iter_succ_r. reflexivity.
  Qed.

  Variable hint : D -> nat * option nat.
  Variable fin : list U -> input I -> D -> end_state I E -> pres I (list U) E.

  (** Everything [run_iter] with a Vec can do. *)
  Definition stop_outcome (us : list U) (s : St) (j : input I) (d : D) (res : pres I (list U) E) : Prop :=
    (pre d = true /\ res = fin us j d (ESIncomplete 1)) \/
    (pre d = false /\ exists b e, fst (p s j) = Error b e /\ res = fin us j d (ESError b e)) \/
    (pre d = false /\ exists n, fst (p s j) = Incomplete n /\ res = fin us j d (ESIncomplete n)) \/
    (pre d = false /\ fst (p s j) = Panic /\ res = Panic).

  Lemma run_iter_sound : forall fuel i s0 d0 res,
    run_iter fuel (vec_collector U) i s0 p d0 hint pre on fin = res ->
    (forall t i d e, fin t i d e <> NoFuel) -> res <> NoFuel ->
    exists us s j, iterates p s0 i us s j /\ (forall k, k < length us -> pre (Nat.iter k on d0) = false) /\
      stop_outcome us s j (Nat.iter (length us) on d0) res.
  Proof.
    intros fuel i s0 d0 res Hr Hfin Hne. unfold run_iter in Hr. cbn [cinit vec_collector] in Hr.
    destruct (from_iter _ _ _ _ _ _) as [t it| |] eqn:Hf; [| |congruence].
    - apply from_iter_vec_done in Hf. destruct Hf as (us & it1 & -> & Hy & Hs & _). simpl app in Hr.
      apply iter_yields in Hy. cbn [it_ps it_buf it_state it_data] in Hy. destruct Hy as (Hi & Hst & Hd & Hk).
      exists us, (it_ps it1), (it_buf it1). repeat split; auto.
      unfold stop_outcome. rewrite <- Hd. unfold iter_next in Hs.
      destruct (pre (it_data it1)) eqn:Hp.
      + inversion Hs; subst it. left. rewrite Hst in Hr. auto.
      + destruct (p (it_ps it1) (it_buf it1)) as [[b v|b e|n| |] s] eqn:Hpp; inversion Hs; subst it; simpl in *.
        * right; left. split; auto. exists b, e. auto.
        * right; right; left. split; auto. exists n. auto.
    - apply from_iter_vec_panic in Hf. destruct Hf as (us & it1 & Hy & Hs & _). 
      apply iter_yields in Hy. cbn [it_ps it_buf it_state it_data] in Hy. destruct Hy as (Hi & Hst & Hd & Hk).
      exists us, (it_ps it1), (it_buf it1). repeat split; auto.
      unfold stop_outcome. rewrite <- Hd. unfold iter_next in Hs.
      destruct (pre (it_data it1)) eqn:Hp; [discriminate|].
      destruct (p (it_ps it1) (it_buf it1)) as [[b v|b e|n| |] s] eqn:Hpp; inversion Hs.
      right; right; right. simpl. auto.
  Qed.

  Lemma run_iter_complete : forall fuel i s0 d0 us s j res,
    iterates p s0 i us s j -> (forall k, k < length us -> pre (Nat.iter k on d0) = false) ->
    stop_outcome us s j (Nat.iter (length us) on d0) res -> length us + 2 <= fuel ->
    run_iter fuel (vec_collector U) i s0 p d0 hint pre on fin = res.
  Proof.
    intros fuel i s0 d0 us s j res Hi Hk Ho Hf.
    set (it1 := mkIter (ESIncomplete 1) s j (Nat.iter (length us) on d0) : iter St I E D).
    assert (Hy : yields (iter_next p pre on) (mkIter (ESIncomplete 1) s0 i d0) us it1)
      by (apply iter_yields; simpl; auto).
    unfold run_iter. cbn [cinit vec_collector].
    destruct Ho as [(Hp & ->)|[(Hp & b & e & Hpe & ->)|[(Hp & n & Hpn & ->)|(Hp & Hpp & ->)]]].
    - erewrite (proj2 (from_iter_vec_done _ _ _ _ _ us it1)); [reflexivity|].
      exists us, it1. repeat split; auto. unfold iter_next, it1; simpl. rewrite Hp. reflexivity.
    - destruct (p s j) as [r s'] eqn:Hps. simpl in Hpe. subst r.
      erewrite (proj2 (from_iter_vec_done _ _ _ _ _ us (mkIter (ESError b e) s' j (Nat.iter (length us) on d0)))); [reflexivity|].
      exists us, it1. repeat split; auto. unfold iter_next, it1; simpl. rewrite Hp, Hps. reflexivity.
    - destruct (p s j) as [r s'] eqn:Hps. simpl in Hpn. subst r.
      erewrite (proj2 (from_iter_vec_done _ _ _ _ _ us (mkIter (ESIncomplete n) s' j (Nat.iter (length us) on d0)))); [reflexivity|].
      exists us, it1. repeat split; auto. unfold iter_next, it1; simpl. rewrite Hp, Hps. reflexivity.
    - destruct (p s j) as [r s'] eqn:Hps. simpl in Hpp. subst r.
      rewrite (proj2 (from_iter_vec_panic _ _ _ _ _)); [reflexivity|].
      exists us, it1. repeat split; auto. unfold iter_next, it1; simpl. rewrite Hp, Hps. reflexivity. lia.
  Qed.
End RunIter.
