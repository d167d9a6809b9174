(** [skip_many] against [many] into a [Vec], in lock step. *)
From Coq Require Import List Bool Arith Lia.
From Verif Require Import Base Parsers Combinators SpecIter.
Import ListNotations.

Set Implicit Arguments.

Section Lockstep.
  Context {S I U E D : Type}.
  Variable p : sparser S I U E.
  Variable hint : D -> nat * option nat.
  Variable pre : D -> bool.
  Variable on : D -> D.
  Variable fin : list U -> input I -> D -> end_state I E -> pres I (list U) E.
  Variable skip : nat -> D -> S -> input I -> pres I unit E.
  Variable Inv : D -> Prop.

  Hypothesis Hon : forall d, Inv d -> pre d = false -> Inv (on d).
  Hypothesis Hskip0 : forall d s j, skip 0 d s j = NoFuel.
  Hypothesis HskipS : forall f d s j, Inv d -> skip (Datatypes.S f) d s j =
    if pre d then ret tt j
    else match p s j with
         | (Data b _, s') => skip f (on d) s' b
         | (Error b e, _) => map (fun _ => tt) (fin [] j d (ESError b e))
         | (Incomplete n, _) => map (fun _ => tt) (fin [] j d (ESIncomplete n))
         | (Panic, _) => Panic
         | (NoFuel, _) => NoFuel
         end.
  Hypothesis Hpre : forall t j d st, Inv d -> pre d = true -> fin t j d st = Data j t.
  Hypothesis Hdrop : forall t t' j d st, map (fun _ => tt) (fin t j d st) = map (fun _ => tt) (fin t' j d st).

  (** The arms after [run_from_iter!], the value dropped. *)
  Let drop (x : fres (list U) (iter S I E D)) : pres I unit E :=
    map (fun _ => tt) (match x with
                       | FDone t it => fin t (it_buf it) (it_data it) (it_state it)
                       | FPanic => Panic
                       | FNoFuel => NoFuel
                       end).

  Let drive fuel c it := drop (from_iter fuel (iter_next p pre on) (fun it => hint (it_data it)) (cact (vec_collector U)) c it).

  Lemma drive_eq : forall fuel acc st s j d, Inv d ->
    (skip fuel d s j <> NoFuel -> drive (Datatypes.S fuel) (false, acc) (mkIter st s j d) = skip fuel d s j) /\
    (drive fuel (false, acc) (mkIter st s j d) <> NoFuel -> skip fuel d s j = drive fuel (false, acc) (mkIter st s j d)).
  Proof.
    induction fuel as [|fuel IH]; intros acc st s j d Hd.
    - split; intros H; exfalso; apply H; [apply Hskip0|reflexivity].
    - assert (Hstep : forall f, drive (Datatypes.S f) (false, acc) (mkIter st s j d) =
        match iter_next p pre on (mkIter st s j d) with
        | Yield u it => drive f (false, acc ++ [u]) it
        | Stop it => drive f (true, acc) it
        | StepPanic => Panic
        | StepNoFuel => NoFuel
        end).
      { intros f. unfold drive. cbn [from_iter cact vec_collector]. destruct (iter_next _ _ _ _); reflexivity. }
      assert (HfinS : forall f it t, drive (Datatypes.S f) (true, t) it = map (fun _ => tt) (fin t (it_buf it) (it_data it) (it_state it))) by reflexivity.
      assert (Hfin : forall f it t, drive f (true, t) it <> NoFuel -> drive f (true, t) it = map (fun _ => tt) (fin t (it_buf it) (it_data it) (it_state it))).
      { intros [|f] it t H; [exfalso; apply H; reflexivity|reflexivity]. }
      rewrite (HskipS fuel s j Hd). rewrite !Hstep. unfold iter_next. cbn [it_data it_ps it_buf it_state].
      destruct (pre d) eqn:Hp.
      + split; intros H; [rewrite HfinS|rewrite Hfin by exact H]; cbn [it_data it_ps it_buf it_state];
          rewrite Hpre by assumption; reflexivity.
      + pose proof (Hon Hd Hp) as Hd'. destruct (p s j) as [[j' u|j' e|n| |] s'].
        * split; intros H; apply (IH (acc ++ [u]) st s' j' (on d) Hd'); exact H.
        * split; intros H; [rewrite HfinS|rewrite Hfin by exact H]; cbn [it_data it_ps it_buf it_state]; apply Hdrop.
        * split; intros H; [rewrite HfinS|rewrite Hfin by exact H]; cbn [it_data it_ps it_buf it_state]; apply Hdrop.
        * auto.
        * auto.
  Qed.

  Lemma run_iter_skip : forall fuel s0 i d, Inv d ->
    (skip fuel d s0 i <> NoFuel ->
       map (fun _ => tt) (run_iter (Datatypes.S fuel) (vec_collector U) i s0 p d hint pre on fin) = skip fuel d s0 i) /\
    (run_iter fuel (vec_collector U) i s0 p d hint pre on fin <> NoFuel ->
       skip fuel d s0 i = map (fun _ => tt) (run_iter fuel (vec_collector U) i s0 p d hint pre on fin)).
  Proof.
    intros fuel s0 i d Hd. destruct (@drive_eq fuel [] (ESIncomplete 1) s0 i d Hd) as [H1 H2]. unfold run_iter. split; auto.
    intros H. apply H2. intros Hx. apply H. unfold drive, drop in Hx. cbn [cinit vec_collector] in *.
    destruct (from_iter _ _ _ _ _ _) as [t it| |]; try discriminate; auto. destruct (fin _ _ _ _); try discriminate. reflexivity.
  Qed.
End Lockstep.

(** [skip_many] does not follow [many] for [a..a] with [a > 0], nor for [n: usize] with a parser that reports [Incomplete 0]. *)
Definition skip_agrees {S I U E : Type} (r : range) (p : sparser S I U E) : Prop :=
  match r with
  | RRange a b => ~ (a = b /\ 0 < a)
  | RExact n => forall s i s', p s i <> (Incomplete 0, s')
  | _ => True
  end.

Lemma dec0_le : forall a b, a <= b -> b <> 0 -> dec0 a <= b - 1.
Proof. intros a b. unfold dec0. destruct (Nat.eqb_spec a 0); lia. Qed.

Lemma skip_many_lockstep : forall S I U E (p : sparser S I U E) r, skip_agrees r p -> forall fuel s0 i,
  (bskip_many fuel r s0 p i <> NoFuel ->
     map (fun _ => tt) (bmany (Datatypes.S fuel) (vec_collector U) r s0 p i) = bskip_many fuel r s0 p i) /\
  (bmany fuel (vec_collector U) r s0 p i <> NoFuel ->
     bskip_many fuel r s0 p i = map (fun _ => tt) (bmany fuel (vec_collector U) r s0 p i)).
Proof.
  intros S I U E p r Hr fuel s0 i. destruct r as [a b|a| |b|n]; cbn [bmany bskip_many].
  - unfold skip_many_range, parse_many_range. destruct (Nat.leb_spec a b) as [Hab|Hab]; cbn [negb]; [|split; reflexivity].
    simpl in Hr.
    apply run_iter_skip with (skip := fun f d s j => skip_loop_range p f (fst d) (snd d) s j) (d := (a, Nat.max b 1 - 1)) (Inv := fun d => fst d <= snd d).
    + intros [d1 d2] H Hp. apply Nat.eqb_neq in Hp. simpl in *. apply dec0_le; auto.
    + reflexivity.
    + intros f [d1 d2] s j H. cbn [skip_loop_range fst snd]. destruct (Nat.eqb_spec d2 0) as [H2|H2]; auto.
      simpl in H. destruct d2; [congruence|]. destruct (p s j) as [[b' u|b' e|n| |] s']; auto; destruct d1; auto.
      simpl. destruct (last j); reflexivity.
    + intros t j [d1 d2] st H Hp. apply Nat.eqb_eq in Hp. simpl in *. subst. assert (d1 = 0) by lia. subst. reflexivity.
    + intros t t' j [[|d1] [|d2]] [b' e|n]; auto. simpl. destruct (last j); reflexivity.
    + simpl. lia.
  - apply run_iter_skip with (skip := fun f d s j => skip_many_from p f s d j) (Inv := fun _ => True); auto.
    + intros f d s j _. cbn [skip_many_from]. destruct (p s j) as [[b' u|b' e|n| |] s']; auto; destruct d; auto.
      simpl. destruct (last j); reflexivity.
    + intros t j d st _ H. discriminate.
    + intros t t' j [|d] [b' e|n]; auto. simpl. destruct (last j); reflexivity.
  - apply run_iter_skip with (skip := fun f d s j => skip_many_full p f s j) (Inv := fun _ => True) (d := tt); auto.
    + intros f d s j _. cbn [skip_many_full]. destruct (p s j) as [[b' u|b' e|n| |] s']; auto. destruct (last j); reflexivity.
    + intros t j d st _ H. discriminate.
    + intros t t' j d [b' e|n]; auto. simpl. destruct (last j); reflexivity.
  - unfold skip_many_to. apply run_iter_skip with (skip := fun f d s j => skip_loop_to p f d s j) (Inv := fun _ => True); auto.
    + intros f d s j _. cbn [skip_loop_to]. destruct (Nat.eqb_spec d 0) as [H2|H2]; auto. destruct d; [congruence|].
      destruct (p s j) as [[b' u|b' e|n| |] s']; auto. destruct (last j); reflexivity.
    + intros t j d st _ H. apply Nat.eqb_eq in H. subst. reflexivity.
    + intros t t' j [|d] [b' e|n]; auto. simpl. destruct (last j); reflexivity.
  - apply run_iter_skip with (skip := fun f d s j => skip_many_exact p f s d j) (Inv := fun _ => True); auto.
    + intros f d s j _. cbn [skip_many_exact]. destruct (Nat.eqb_spec d 0) as [H2|H2]; auto. destruct d; [congruence|].
      destruct (p s j) as [[b' u|b' e|m| |] s'] eqn:Hp; auto. destruct (Nat.eqb_spec m 0); auto. subst. exfalso. eapply Hr; eauto.
    + intros t j d st _ H. apply Nat.eqb_eq in H. subst. reflexivity.
    + intros t t' j [|d] [b' e|m]; auto.
Qed.
