(** Proofs about programs over two item types. *)
From Coq Require Import List Bool Arith Lia.
From Verif Require Import Base Parsers Combinators Buffer Stream SpecBase SpecStream SpecOpaque SafeProofs.
Import ListNotations.

Set Implicit Arguments.

(** * Lists *)

Section Lists.
  Context {A B : Type}.
  Variable R : A -> B -> Prop.

  Lemma f2_length : forall l m, Forall2 R l m -> length l = length m.
  Proof. induction 1; simpl; congruence. Qed.
  Lemma f2_firstn : forall n l m, Forall2 R l m -> Forall2 R (firstn n l) (firstn n m).
  Proof. induction n as [|n IH]; intros l m H; simpl; [constructor|]. destruct H; constructor; auto. Qed.
  Lemma f2_skipn : forall n l m, Forall2 R l m -> Forall2 R (skipn n l) (skipn n m).
  Proof. induction n as [|n IH]; intros l m H; simpl; [exact H|]. destruct H; [constructor|auto]. Qed.
  Lemma f2_app : forall l m l' m', Forall2 R l m -> Forall2 R l' m' -> Forall2 R (l ++ l') (m ++ m').
  Proof. intros. apply Forall2_app; assumption. Qed.
  Lemma f2_repeat : forall n a b, R a b -> Forall2 R (repeat a n) (repeat b n).
  Proof. induction n; intros; simpl; constructor; auto. Qed.
  Lemma f2_position : forall f g, pred_rel R f g -> forall l m, Forall2 R l m -> position f l = position g m.
  Proof. intros f g Hf. induction 1 as [|a b l m Hab H IH]; simpl; auto. rewrite (Hf a b Hab), IH. reflexivity. Qed.
  Lemma f2_position_st : forall S S' (RS : S -> S' -> Prop) f g,
    (forall x y, RS x y -> forall a b, R a b -> fst (f x a) = fst (g y b) /\ RS (snd (f x a)) (snd (g y b))) ->
    forall l m, Forall2 R l m -> forall s s', RS s s' ->
      fst (position_st f s l) = fst (position_st g s' m) /\ RS (snd (position_st f s l)) (snd (position_st g s' m)).
  Proof.
    intros S S' RS f g Hf. induction 1 as [|a b l m Hab H IH]; intros s s' Hs; simpl; auto.
    destruct (Hf s s' Hs a b Hab) as [H1 H2]. destruct (f s a) as [x y], (g s' b) as [x' y']; simpl in *. subst x'. destruct x; simpl; auto.
    destruct (IH y y' H2) as [H3 H4]. destruct (position_st f y l), (position_st g y' m); simpl in *. subst. auto.
  Qed.
End Lists.

Lemma input_rel_replace : forall I J (RI : I -> J -> Prop) i j b c, input_rel RI i j -> Forall2 RI b c -> input_rel RI (replace i b) (replace j c).
Proof. intros I J RI i j b c [H _] Hb. split; simpl; auto. Qed.
Lemma f2_mismatch : forall I J (RI : I -> J -> Prop) e1 e2, eq_rel RI e1 e2 -> forall s t, Forall2 RI s t -> forall d d', Forall2 RI d d' ->
  forall k, string_mismatch e1 k s d = string_mismatch e2 k t d'.
Proof.
  intros I J RI e1 e2 He. induction 1 as [|a b s t Hab H IH]; intros d d' Hd k; simpl; auto. destruct Hd as [|x y d d' Hxy Hd]; auto.
  rewrite (He a b Hab x y Hxy), (IH d d' Hd). reflexivity.
Qed.

(** * Combinators *)

Section Two.
  Context {I J : Type}.
  Variable RI : I -> J -> Prop.

  Definition step_rel {X Y U V} (RU : U -> V -> Prop) (R : X -> Y -> Prop) (x : step X U) (y : step Y V) : Prop :=
    match x, y with
    | Yield u a, Yield w b => RU u w /\ R a b
    | Combinators.Stop a, Combinators.Stop b => R a b
    | StepPanic, StepPanic => True
    | StepNoFuel, StepNoFuel => True
    | _, _ => False
    end.

  Definition fres_rel {X Y T U} (RT : T -> U -> Prop) (R : X -> Y -> Prop) (x : fres T X) (y : fres U Y) : Prop :=
    match x, y with
    | FDone t a, FDone u b => RT t u /\ R a b
    | FPanic, FPanic => True
    | FNoFuel, FNoFuel => True
    | _, _ => False
    end.

  Lemma from_iter_rel : forall X Y U V T T' C C' (RU : U -> V -> Prop) (RT : T -> T' -> Prop) (RC : C -> C' -> Prop)
    (n1 : X -> step X U) (n2 : Y -> step Y V) h1 h2 (a1 : C -> caction U T C) (a2 : C' -> caction V T' C') (R : X -> Y -> Prop),
    (forall a b, R a b -> h1 a = h2 b) -> (forall a b, R a b -> step_rel RU R (n1 a) (n2 b)) ->
    (forall c d, RC c d -> act_rel RU RT RC (a1 c) (a2 d)) ->
    forall fuel c d a b, RC c d -> R a b -> fres_rel RT R (from_iter fuel n1 h1 a1 c a) (from_iter fuel n2 h2 a2 d b).
  Proof.
    intros X Y U V T T' C C' RU RT RC n1 n2 h1 h2 a1 a2 R Hh Hn Ha. induction fuel as [|fuel IH]; intros c d a b HC HR; [exact Logic.I|].
    simpl. specialize (Ha c d HC). destruct (a1 c) as [t|k|k|], (a2 d) as [t'|k'|k'|]; simpl in *; try contradiction; auto.
    - specialize (Hn a b HR). destruct (n1 a), (n2 b); simpl in *; try contradiction; auto.
      + destruct Hn as [Hu Hn]. apply IH; [apply Ha; exact Hu|exact Hn].
      + apply IH; [apply Ha; exact Logic.I|exact Hn].
    - rewrite (Hh a b HR). apply IH; auto.
  Qed.

  Definition es_rel {E F} (RE : E -> F -> Prop) (x : end_state I E) (y : end_state J F) : Prop :=
    match x, y with
    | ESError b e, ESError c f => Forall2 RI b c /\ RE e f
    | ESIncomplete n, ESIncomplete m => n = m
    | _, _ => False
    end.

  Section Iter.
    Context {S S' U V E F : Type}.
    Variable RS : S -> S' -> Prop.
    Variable RU : U -> V -> Prop.
    Variable RE : E -> F -> Prop.
    Variable p : sparser S I U E.
    Variable q : sparser S' J V F.
    Hypothesis Hpq : forall s s', RS s s' -> forall i j, input_rel RI i j -> pres_rel RI RU RE (fst (p s i)) (fst (q s' j)).
    Hypothesis Hs : forall s s', RS s s' -> forall i j, input_rel RI i j -> RS (snd (p s i)) (snd (q s' j)).

    Definition it_rel {D} (x : iter S I E D) (y : iter S' J F D) : Prop :=
      es_rel RE (it_state x) (it_state y) /\ RS (it_ps x) (it_ps y) /\ input_rel RI (it_buf x) (it_buf y) /\ it_data x = it_data y.

    Lemma run_iter_rel : forall T T' D C C' (RT : T -> T' -> Prop) (RC : C -> C' -> Prop) fuel (col : collector U T C) (col' : collector V T' C') i j s0 s0'
      (data : D) hint pre on fin fin', col_rel RU RT RC col col' -> input_rel RI i j -> RS s0 s0' ->
      (forall t u, RT t u -> forall k l, input_rel RI k l -> forall d x y, es_rel RE x y -> pres_rel RI RT RE (fin t k d x) (fin' u l d y)) ->
      pres_rel RI RT RE (run_iter fuel col i s0 p data hint pre on fin) (run_iter fuel col' j s0' q data hint pre on fin').
    Proof.
      intros T T' D C C' RT RC fuel col col' i j s0 s0' data hint pre on fin fin' [Hc0 Hc] Hij Hs0 Hfin. unfold run_iter.
      pose proof (@from_iter_rel (iter S I E D) (iter S' J F D) U V T T' C C' RU RT RC (iter_next p pre on) (iter_next q pre on)
        (fun it => hint (it_data it)) (fun it => hint (it_data it)) (cact col) (cact col') it_rel) as H.
      assert (H1 : forall a b, it_rel a b -> hint (it_data a) = hint (it_data b)) by (intros a b (_ & _ & _ & Hd); rewrite Hd; reflexivity).
      assert (H2 : forall a b, it_rel a b -> step_rel RU it_rel (iter_next p pre on a) (iter_next q pre on b)).
      { intros a b (Hst & Hps & Hb & Hd). unfold iter_next. rewrite Hd. destruct (pre (it_data b)); [simpl; repeat split; auto; apply Hb|].
        pose proof (Hpq Hps Hb) as Ha. pose proof (Hs Hps Hb) as Hss.
        destruct (p (it_ps a) (it_buf a)) as [[k v|c e|n| |] s], (q (it_ps b) (it_buf b)) as [[k' v'|c' e'|n'| |] s'];
          simpl in *; try contradiction; auto.
        - destruct Ha as [Hk Hv]. split; [exact Hv|]. split; [exact Hst|]. split; [exact Hss|]. split; [exact Hk|]. reflexivity.
        - split; [exact Ha|]. split; [exact Hss|]. split; [exact Hb|]. reflexivity.
        - split; [exact Ha|]. split; [exact Hss|]. split; [exact Hb|]. reflexivity. }
      specialize (H H1 H2 Hc fuel (cinit col) (cinit col') (mkIter (ESIncomplete 1) s0 i data) (mkIter (ESIncomplete 1) s0' j data) Hc0).
      assert (H3 : it_rel (mkIter (ESIncomplete 1 : end_state I E) s0 i data) (mkIter (ESIncomplete 1 : end_state J F) s0' j data)).
      { split; [reflexivity|]. split; [exact Hs0|]. split; [exact Hij|]. reflexivity. }
      specialize (H H3).
      destruct (from_iter fuel (iter_next p pre on) _ _ _ _) as [t a| |], (from_iter fuel (iter_next q pre on) _ _ _ _) as [u b| |];
        simpl in *; try contradiction; auto.
      destruct H as (Ht & Hst & _ & Hb & Hd). rewrite Hd. apply Hfin; auto.
    Qed.

    Ltac fin_rel := intros t u Htu k l Hkl d x y Hxy; try destruct d as [[|?] [|?]]; try destruct d as [|?]; destruct x, y; simpl in *; try contradiction; subst;
      auto; try (rewrite (proj1 Hkl)); try (match goal with |- context [last ?j] => destruct (last j) end); simpl; auto.

    Lemma bmany_rel : forall T T' C C' (RT : T -> T' -> Prop) (RC : C -> C' -> Prop) fuel (col : collector U T C) (col' : collector V T' C') r s0 s0' i j,
      col_rel RU RT RC col col' -> RS s0 s0' -> input_rel RI i j -> pres_rel RI RT RE (bmany fuel col r s0 p i) (bmany fuel col' r s0' q j).
    Proof.
      intros T T' C C' RT RC fuel col col' r s0 s0' i j Hc Hs0 Hij. destruct r as [a b|a| |b|n]; cbn [bmany].
      - unfold parse_many_range. destruct (negb (a <=? b)); [exact Logic.I|]. eapply run_iter_rel; eauto. fin_rel.
      - unfold parse_many_from. eapply run_iter_rel; eauto. fin_rel.
      - unfold parse_many_full. eapply run_iter_rel; eauto. fin_rel.
      - unfold parse_many_to. eapply run_iter_rel; eauto. fin_rel.
      - unfold parse_many_exact. eapply run_iter_rel; eauto. fin_rel.
    Qed.

    Ltac skip_step IH := intros; cbn; try (destruct (_ =? 0) eqn:?; [simpl; auto; fail|]);
      match goal with Hij : input_rel RI ?i ?j |- context [p ?s ?i] => match goal with Hss : RS s ?s' |- _ =>
        let H := fresh "Hh" in let G := fresh "Hg" in pose proof (Hpq Hss Hij) as H; pose proof (Hs Hss Hij) as G;
        destruct (p s i) as [[?k ?v|?b ?e|?k| |] ?s1], (q s' j) as [[?k ?v|?b ?e|?k| |] ?s1]; rewrite ?(proj1 Hij) end end;
      simpl in *; try contradiction; subst; auto; try (match goal with H : _ /\ _ |- _ => destruct H; solve [apply IH; auto] end);
      repeat match goal with |- context [if ?x then _ else _] => destruct x end; simpl; auto.

    Lemma skip_range_rel : forall fuel a b s s' i j, RS s s' -> input_rel RI i j ->
      pres_rel RI (fun _ _ => True) RE (skip_loop_range p fuel a b s i) (skip_loop_range q fuel a b s' j).
    Proof. induction fuel as [|fuel IH]; [simpl; auto|]. skip_step IH. Qed.
    Lemma skip_from_rel : forall fuel a s s' i j, RS s s' -> input_rel RI i j ->
      pres_rel RI (fun _ _ => True) RE (skip_many_from p fuel s a i) (skip_many_from q fuel s' a j).
    Proof. induction fuel as [|fuel IH]; [simpl; auto|]. skip_step IH. Qed.
    Lemma skip_full_rel : forall fuel s s' i j, RS s s' -> input_rel RI i j ->
      pres_rel RI (fun _ _ => True) RE (skip_many_full p fuel s i) (skip_many_full q fuel s' j).
    Proof. induction fuel as [|fuel IH]; [simpl; auto|]. skip_step IH. Qed.
    Lemma skip_to_rel : forall fuel b s s' i j, RS s s' -> input_rel RI i j ->
      pres_rel RI (fun _ _ => True) RE (skip_loop_to p fuel b s i) (skip_loop_to q fuel b s' j).
    Proof. induction fuel as [|fuel IH]; [simpl; auto|]. skip_step IH. Qed.
    Lemma skip_exact_rel : forall fuel n s s' i j, RS s s' -> input_rel RI i j ->
      pres_rel RI (fun _ _ => True) RE (skip_many_exact p fuel s n i) (skip_many_exact q fuel s' n j).
    Proof. induction fuel as [|fuel IH]; [simpl; auto|]. skip_step IH. Qed.

    Lemma bskip_rel : forall fuel r s s' i j, RS s s' -> input_rel RI i j ->
      pres_rel RI (fun _ _ => True) RE (bskip_many fuel r s p i) (bskip_many fuel r s' q j).
    Proof.
      intros fuel r s s' i j H0 Hij. destruct r as [a b|a| |b|n]; cbn [bskip_many]; unfold skip_many_range, skip_many_to.
      - destruct (negb _); [exact Logic.I|]. apply skip_range_rel; assumption.
      - apply skip_from_rel; assumption.
      - apply skip_full_rel; assumption.
      - apply skip_to_rel; assumption.
      - apply skip_exact_rel; assumption.
    Qed.
  End Iter.

  Definition ts_rel {E F} (RE : E -> F -> Prop) (x : end_state_till I E) (y : end_state_till J F) : Prop :=
    match x, y with
    | TError b e, TError c f => Forall2 RI b c /\ RE e f
    | TIncomplete n, TIncomplete m => n = m
    | TEndSuccess, TEndSuccess => True
    | _, _ => False
    end.

  Section Till.
    Context {S S' X X' U U' V V' E F N N' : Type}.
    Variable RS : S -> S' -> Prop.
    Variable RX : X -> X' -> Prop.
    Variable RU : U -> U' -> Prop.
    Variable RV : V -> V' -> Prop.
    Variable RE : E -> F -> Prop.
    Variable RN : N -> N' -> Prop.
    Variable p : sparser S I U E.
    Variable q : sparser S' J U' F.
    Variable end1 : sparser X I V N.
    Variable end2 : sparser X' J V' N'.
    Hypothesis Hpq : forall s s', RS s s' -> forall i j, input_rel RI i j -> pres_rel RI RU RE (fst (p s i)) (fst (q s' j)).
    Hypothesis Hs : forall s s', RS s s' -> forall i j, input_rel RI i j -> RS (snd (p s i)) (snd (q s' j)).
    Hypothesis He : forall s s', RX s s' -> forall i j, input_rel RI i j -> pres_rel RI RV RN (fst (end1 s i)) (fst (end2 s' j)).
    Hypothesis Hes : forall s s', RX s s' -> forall i j, input_rel RI i j -> RX (snd (end1 s i)) (snd (end2 s' j)).

    Definition tt_rel {D} (x : iter_till S X I E D) (y : iter_till S' X' J F D) : Prop :=
      ts_rel RE (tt_state x) (tt_state y) /\ RS (tt_ps x) (tt_ps y) /\ RX (tt_es x) (tt_es y) /\ input_rel RI (tt_buf x) (tt_buf y) /\ tt_data x = tt_data y.

    Definition pre_rel {D} (x : iter_till S X I E D -> pre_res (iter_till S X I E D)) (y : iter_till S' X' J F D -> pre_res (iter_till S' X' J F D)) : Prop :=
      forall a b, tt_rel a b ->
        match x a, y b with
        | PreGo a', PreGo b' => tt_rel a' b'
        | PreNone a', PreNone b' => tt_rel a' b'
        | PrePanic, PrePanic => True
        | PreNoFuel, PreNoFuel => True
        | _, _ => False
        end.

    Lemma end_test_rel : forall D, pre_rel (@end_test S X I V N E D end1) (@end_test S' X' J V' N' F D end2).
    Proof.
      intros D a b (H1 & H2 & H3 & H4 & H5). unfold end_test. pose proof (He H3 H4) as Ha. pose proof (Hes H3 H4) as Hss.
      destruct (end1 (tt_es a) (tt_buf a)) as [[j v|c e|n| |] s], (end2 (tt_es b) (tt_buf b)) as [[j' v'|c' e'|n'| |] s'];
        simpl in *; try contradiction; auto; (split; [simpl; auto|]); (split; [exact H2|]); (split; [exact Hss|]); (split; [|exact H5]);
        solve [exact H4|apply Ha].
    Qed.
    Lemma pre_seq_rel : forall D (a1 k1 : iter_till S X I E D -> pre_res (iter_till S X I E D)) (a2 k2 : iter_till S' X' J F D -> pre_res (iter_till S' X' J F D)),
      pre_rel a1 a2 -> pre_rel k1 k2 -> pre_rel (fun it => pre_seq (a1 it) k1) (fun it => pre_seq (a2 it) k2).
    Proof.
      intros D a1 k1 a2 k2 Ha Hk x y Hxy. specialize (Ha x y Hxy). unfold pre_seq. destruct (a1 x), (a2 y); try contradiction; auto.
      apply Hk. assumption.
    Qed.
    Lemma pre_if_rel : forall D (c : D -> bool) (a1 b1 : iter_till S X I E D -> pre_res (iter_till S X I E D)) (a2 b2 : iter_till S' X' J F D -> pre_res (iter_till S' X' J F D)),
      pre_rel a1 a2 -> pre_rel b1 b2 ->
      pre_rel (fun it => if c (tt_data it) then a1 it else b1 it) (fun it => if c (tt_data it) then a2 it else b2 it).
    Proof.
      intros D c a1 b1 a2 b2 Ha Hb x y Hxy. destruct (Hxy) as (_ & _ & _ & _ & Hd). rewrite Hd.
      destruct (c (tt_data y)); [apply Ha|apply Hb]; assumption.
    Qed.
    Lemma pre_go_rel : forall D, pre_rel (fun it : iter_till S X I E D => PreGo it) (fun it => PreGo it).
    Proof. intros D x y H. exact H. Qed.
    Lemma pre_none_rel : forall D, pre_rel (fun it : iter_till S X I E D => PreNone it) (fun it => PreNone it).
    Proof. intros D x y H. exact H. Qed.

    Lemma run_iter_till_rel : forall T T' D C C' (RT : T -> T' -> Prop) (RC : C -> C' -> Prop) fuel (col : collector U T C) (col' : collector U' T' C') i j s0 s0' x0 x0'
      (data : D) hint pre1 pre2 on fin fin', col_rel RU RT RC col col' -> input_rel RI i j -> RS s0 s0' -> RX x0 x0' -> pre_rel pre1 pre2 ->
      (forall t u, RT t u -> forall k l, input_rel RI k l -> forall d x y, ts_rel RE x y -> pres_rel RI RT RE (fin t k d x) (fin' u l d y)) ->
      pres_rel RI RT RE (run_iter_till fuel col i s0 x0 p data hint pre1 on fin) (run_iter_till fuel col' j s0' x0' q data hint pre2 on fin').
    Proof.
      intros T T' D C C' RT RC fuel col col' i j s0 s0' x0 x0' data hint pre1 pre2 on fin fin' [Hc0 Hc] Hij Hs0 Hx0 Hpre Hfin. unfold run_iter_till.
      pose proof (@from_iter_rel (iter_till S X I E D) (iter_till S' X' J F D) U U' T T' C C' RU RT RC (iter_till_next p pre1 on) (iter_till_next q pre2 on)
        (fun it => hint (tt_data it)) (fun it => hint (tt_data it)) (cact col) (cact col') tt_rel) as H.
      assert (H1 : forall a b, tt_rel a b -> hint (tt_data a) = hint (tt_data b)) by (intros a b (_ & _ & _ & _ & Hd); rewrite Hd; reflexivity).
      assert (H2 : forall a b, tt_rel a b -> step_rel RU tt_rel (iter_till_next p pre1 on a) (iter_till_next q pre2 on b)).
      { intros a b Hab. specialize (Hpre a b Hab). unfold iter_till_next.
        destruct (pre1 a) as [a'|a'| |], (pre2 b) as [b'|b'| |]; try contradiction; simpl; auto.
        destruct Hpre as (Hst & Hps & Hess & Hb & Hd). pose proof (Hpq Hps Hb) as Ha. pose proof (Hs Hps Hb) as Hss.
        destruct (p (tt_ps a') (tt_buf a')) as [[k v|c e|n| |] s], (q (tt_ps b') (tt_buf b')) as [[k' v'|c' e'|n'| |] s'];
          simpl in *; try contradiction; auto.
        - destruct Ha as [Hk Hv]. split; [exact Hv|]. split; [exact Hst|]. split; [exact Hss|]. split; [exact Hess|]. split; [exact Hk|]. simpl. congruence.
        - split; [exact Ha|]. split; [exact Hss|]. split; [exact Hess|]. split; [exact Hb|]. exact Hd.
        - split; [exact Ha|]. split; [exact Hss|]. split; [exact Hess|]. split; [exact Hb|]. exact Hd. }
      specialize (H H1 H2 Hc fuel (cinit col) (cinit col') (mkIterTill (TIncomplete 1) s0 x0 i data) (mkIterTill (TIncomplete 1) s0' x0' j data) Hc0).
      assert (H3 : tt_rel (mkIterTill (TIncomplete 1 : end_state_till I E) s0 x0 i data) (mkIterTill (TIncomplete 1 : end_state_till J F) s0' x0' j data)).
      { split; [reflexivity|]. split; [exact Hs0|]. split; [exact Hx0|]. split; [exact Hij|]. reflexivity. }
      specialize (H H3).
      destruct (from_iter fuel (iter_till_next p pre1 on) _ _ _ _) as [t a| |], (from_iter fuel (iter_till_next q pre2 on) _ _ _ _) as [u b| |];
        simpl in *; try contradiction; auto.
      destruct H as (Ht & Hst & _ & _ & Hb & Hd). rewrite Hd. apply Hfin; auto.
    Qed.

    Ltac fin_rel := intros t u Htu k l Hkl d x y Hxy; try destruct d as [[|?] [|?]]; try destruct d as [|?]; destruct x, y; simpl in *; try contradiction; subst;
      auto; try (rewrite (proj1 Hkl)); try (match goal with |- context [last ?j] => destruct (last j) end); simpl; auto.

    Lemma bmany_till_rel : forall T T' C C' (RT : T -> T' -> Prop) (RC : C -> C' -> Prop) fuel (col : collector U T C) (col' : collector U' T' C') r s0 s0' x0 x0' i j,
      col_rel RU RT RC col col' -> RS s0 s0' -> RX x0 x0' -> input_rel RI i j ->
      pres_rel RI RT RE (bmany_till fuel col r s0 x0 p end1 i) (bmany_till fuel col' r s0' x0' q end2 j).
    Proof.
      intros T T' C C' RT RC fuel col col' r s0 s0' x0 x0' i j Hc Hs0 Hx0 Hij. destruct r as [a b|a| |b|n]; cbn [bmany_till].
      - unfold many_till_range. destruct (negb (a <=? b)); [exact Logic.I|]. eapply run_iter_till_rel; eauto; [|fin_rel].
        apply pre_seq_rel with (a1 := fun it => if fst (tt_data it) =? 0 then end_test end1 it else PreGo it)
          (a2 := fun it => if fst (tt_data it) =? 0 then end_test end2 it else PreGo it).
        + apply (pre_if_rel (fun d => fst d =? 0)); [apply end_test_rel|apply pre_go_rel].
        + apply (pre_if_rel (fun d => snd d =? 0)); [|apply pre_go_rel].
          apply pre_seq_rel with (a1 := fun it => end_test end1 it) (a2 := fun it => end_test end2 it); [apply end_test_rel|apply pre_none_rel].
      - unfold many_till_from. eapply run_iter_till_rel; eauto; [|fin_rel]. apply (pre_if_rel (fun d => d =? 0)); [apply end_test_rel|apply pre_go_rel].
      - unfold many_till_full. eapply run_iter_till_rel; eauto; [apply end_test_rel|fin_rel].
      - unfold many_till_to. eapply run_iter_till_rel; eauto; [|fin_rel].
        apply pre_seq_rel with (a1 := fun it => end_test end1 it) (a2 := fun it => end_test end2 it); [apply end_test_rel|].
        apply (pre_if_rel (fun d => d =? 0)); [apply pre_none_rel|apply pre_go_rel].
      - unfold many_till_exact. eapply run_iter_till_rel; eauto; [|fin_rel].
        apply (pre_if_rel (fun d => d =? 0)); [|apply pre_go_rel].
        apply pre_seq_rel with (a1 := fun it => end_test end1 it) (a2 := fun it => end_test end2 it); [apply end_test_rel|apply pre_none_rel].
    Qed.

    (** [end1], [end2] now as separators. *)
    Variables (c : N -> E) (d : N' -> F).
    Hypothesis Hcd : forall e f, RN e f -> RE (c e) (d f).
    Definition sep_rel (x : bool * S * X) (y : bool * S' * X') : Prop :=
      fst (fst x) = fst (fst y) /\ RS (snd (fst x)) (snd (fst y)) /\ RX (snd x) (snd y).

    Lemma sep_item_rel : forall s s', sep_rel s s' -> forall i j, input_rel RI i j ->
      pres_rel RI RU RE (fst (sep_item c p end1 s i)) (fst (sep_item d q end2 s' j)) /\
      sep_rel (snd (sep_item c p end1 s i)) (snd (sep_item d q end2 s' j)).
    Proof.
      intros [[item sp] ss] [[item' sp'] ss'] (H1 & H2 & H3) i j Hij. simpl in H1, H2, H3. subst item'. unfold sep_item. destruct item.
      - pose proof (He H3 Hij) as Ha. pose proof (Hes H3 Hij) as Hb.
        destruct (end1 ss i) as [[k v|b e|n| |] s1], (end2 ss' j) as [[k' v'|b' e'|n'| |] s2]; simpl in *; try contradiction; unfold sep_rel; simpl; auto.
        + destruct Ha as [Hk _]. pose proof (Hpq H2 Hk) as Ha. pose proof (Hs H2 Hk) as Hc.
          destruct (p sp k) as [[l u|b e|n| |] s1'], (q sp' k') as [[l' u'|b' e'|n'| |] s2'']; simpl in *; try contradiction; auto.
        + destruct Ha as [Ha1 Ha2]. auto.
      - simpl. pose proof (Hpq H2 Hij) as Ha. pose proof (Hs H2 Hij) as Hb. unfold sep_rel.
        destruct (p sp i) as [[k u|b e|n| |] s1], (q sp' j) as [[k' u'|b' e'|n'| |] s2'']; simpl in *; try contradiction; auto.
    Qed.
  End Till.
End Two.

Lemma pres_rel_weaken : forall I J (RI : I -> J -> Prop) T U E F (RT RT' : T -> U -> Prop) (RE RE' : E -> F -> Prop) x y,
  pres_rel RI RT RE x y -> (forall t u, RT t u -> RT' t u) -> (forall e f, RE e f -> RE' e f) -> pres_rel RI RT' RE' x y.
Proof. intros I J RI T U E F RT RT' RE RE' x y H H1 H2. destruct x, y; simpl in *; try contradiction; auto; destruct H; auto. Qed.

Theorem linked_rel : forall I J (RI : I -> J -> Prop) v T U E F (RT : T -> U -> Prop) (RE : E -> F -> Prop) p q, linked RI v RT RE p q ->
  forall i j, input_rel RI i j -> pres_rel RI RT RE (p i) (q j).
Proof.
  intros I J RI v T U E F RT RE p q H. induction H; intros i j Hij.
  - rewrite <- H0, <- H1. eapply pres_rel_weaken; eauto.
  - exact Logic.I.
  - split; auto.
  - split; auto. apply Hij.
  - reflexivity.
  - destruct r, s; simpl in *; try contradiction; auto. split; auto. apply Hij.
  - specialize (IHlinked i j Hij). destruct (p i), (q j); simpl in *; try contradiction; auto. destruct IHlinked; auto.
  - specialize (IHlinked i j Hij). destruct (p i), (q j); simpl in *; try contradiction; auto. destruct IHlinked; auto.
  - specialize (IHlinked i j Hij). destruct (p i), (q j); simpl in *; try contradiction; auto.
  - specialize (IHlinked i j Hij). destruct (p i) as [k t| | | |], (q j) as [l u| | | |]; simpl in *; try contradiction; auto; destruct IHlinked as [Hk Ht]; auto.
    specialize (H2 t u Ht k l Hk). destruct (f k t), (g l u); simpl in *; auto.
  - specialize (IHlinked1 i j Hij). unfold then_. destruct (p i) as [k t| | | |], (q j) as [l u| | | |]; simpl in *; try contradiction; auto; destruct IHlinked1 as [Hk Ht]; auto.
    specialize (IHlinked2 k l Hk). destruct (f k), (g l); simpl in *; auto.
  - unfold any. destruct Hij as [Hl Hb]. destruct Hb; simpl; auto. repeat split; simpl; auto.
  - unfold satisfy. destruct i as [li bi], j as [lj bj], Hij as [Hl Hb]; simpl in *. destruct Hb as [|a b l m Hab Hb]; simpl; auto.
    rewrite (H a b Hab). destruct (g b); simpl; repeat split; simpl; auto. destruct v; exact Logic.I.
  - unfold satisfy_with. destruct i as [li bi], j as [lj bj], Hij as [Hl Hb]; simpl in *. destruct Hb as [|a b l k Hab Hb]; simpl; auto.
    rewrite (H0 _ _ (H a b Hab)). destruct (n (g b)); simpl; repeat split; simpl; auto. destruct v; exact Logic.I.
  - unfold token. destruct i as [li bi], j as [lj bj], Hij as [Hl Hb]; simpl in *. destruct Hb as [|a b l m Hab Hb]; simpl; auto.
    rewrite (H t u H0 a b Hab). destruct (e2 u b); simpl; repeat split; simpl; auto. destruct v; simpl; auto.
  - unfold not_token. destruct i as [li bi], j as [lj bj], Hij as [Hl Hb]; simpl in *. destruct Hb as [|a b l m Hab Hb]; simpl; auto.
    rewrite (H t u H0 a b Hab). destruct (negb (e2 u b)); simpl; repeat split; simpl; auto. destruct v; simpl; auto.
  - unfold peek. destruct i as [li bi], j as [lj bj], Hij as [Hl Hb]; simpl in *. repeat split; simpl; auto. destruct Hb; simpl; auto.
  - unfold peek_next. destruct i as [li bi], j as [lj bj], Hij as [Hl Hb]; simpl in *. destruct Hb; simpl; repeat split; simpl; auto.
  - unfold take. destruct Hij as [Hl Hb]. rewrite (f2_length Hb). dif; simpl; [|reflexivity].
    split; [split; simpl; [exact Hl|apply f2_skipn; exact Hb]|apply f2_firstn; exact Hb].
  - unfold take_while. destruct Hij as [Hl Hb].
    rewrite (@f2_position I J RI (fun c => Bool.eqb (f c) false) (fun c => Bool.eqb (g c) false)) with (m := buf j);
      [|intros a b Hab; rewrite (H a b Hab); reflexivity|exact Hb].
    destruct (position _ _); simpl.
    + split; [split; simpl; [exact Hl|apply f2_skipn; exact Hb]|apply f2_firstn; exact Hb].
    + rewrite Hl. dif; simpl; auto. split; [split; simpl; [congruence|constructor]|exact Hb].
  - unfold take_while1. destruct Hij as [Hl Hb].
    rewrite (@f2_position I J RI (fun c => Bool.eqb (f c) false) (fun c => Bool.eqb (g c) false)) with (m := buf j);
      [|intros a b Hab; rewrite (H a b Hab); reflexivity|exact Hb].
    destruct (position _ _) as [[|n]|].
    + split; [exact Hb|]. destruct v; exact Logic.I.
    + split; [split; simpl; [exact Hl|apply (f2_skipn (S n)); exact Hb]|apply f2_firstn; exact Hb].
    + rewrite Hl, (f2_length Hb). dif; simpl; auto. split; [split; simpl; [congruence|constructor]|exact Hb].
  - unfold take_till. destruct Hij as [Hl Hb]. rewrite (f2_position H Hb). destruct (position _ _); simpl; auto.
    split; [split; simpl; [exact Hl|apply f2_skipn; exact Hb]|apply f2_firstn; exact Hb].
  - unfold scan. destruct Hij as [Hl Hb].
    match goal with |- pres_rel _ _ _ (match position_st ?st1 _ _ with _ => _ end) (match position_st ?st2 _ _ with _ => _ end) =>
      pose proof (@f2_position_st I J RI _ _ (opt_rel (opt_rel RS)) st1 st2) as HP end.
    specialize (fun A => HP A _ _ Hb (Some (Some s)) (Some (Some s')) H).
    assert (HA : forall x y, opt_rel (opt_rel RS) x y -> forall a b, RI a b ->
      fst (match x with Some (Some s0) => (match f s0 a with None => true | Some _ => false end, Some (f s0 a)) | _ => (true, None) end) =
      fst (match y with Some (Some s0) => (match g s0 b with None => true | Some _ => false end, Some (g s0 b)) | _ => (true, None) end) /\
      opt_rel (opt_rel RS) (snd (match x with Some (Some s0) => (match f s0 a with None => true | Some _ => false end, Some (f s0 a)) | _ => (true, None) end))
        (snd (match y with Some (Some s0) => (match g s0 b with None => true | Some _ => false end, Some (g s0 b)) | _ => (true, None) end))).
    { intros [[x|]|] [[y|]|] Hxy a b Hab; simpl in *; try contradiction; auto. specialize (H0 x y Hxy a b Hab).
      destruct (f x a), (g y b); simpl in *; try contradiction; auto. }
    specialize (HP HA). clear HA.
    destruct (position_st _ _ _) as [n [x|]] eqn:?, (position_st _ _ (buf j)) as [n' [x'|]] eqn:?; simpl in HP; destruct HP as [-> HP]; try contradiction; simpl; auto;
      destruct n'; simpl; auto.
    split; [split; simpl; [exact Hl|apply f2_skipn; exact Hb]|apply f2_firstn; exact Hb].
  - unfold run_scanner. destruct Hij as [Hl Hb].
    match goal with |- pres_rel _ _ _ (match position_st ?st1 _ _ with _ => _ end) (match position_st ?st2 _ _ with _ => _ end) =>
      pose proof (@f2_position_st I J RI _ _ RS st1 st2) as HP end.
    specialize (fun A => HP A _ _ Hb s s' H).
    assert (HA : forall x y, RS x y -> forall a b, RI a b ->
      fst (match f x a with None => (true, x) | Some w => (false, w) end) = fst (match g y b with None => (true, y) | Some w => (false, w) end) /\
      RS (snd (match f x a with None => (true, x) | Some w => (false, w) end)) (snd (match g y b with None => (true, y) | Some w => (false, w) end))).
    { intros x y Hxy a b Hab. specialize (H0 x y Hxy a b Hab). destruct (f x a), (g y b); simpl in *; try contradiction; auto. }
    specialize (HP HA). clear HA.
    destruct (position_st _ s (buf i)) as [n x] eqn:?, (position_st _ s' (buf j)) as [n' x'] eqn:?; simpl in HP; destruct HP as [-> HP]; simpl; auto;
      destruct n'; simpl; auto.
    split; [split; simpl; [exact Hl|apply f2_skipn; exact Hb]|split; simpl; [apply f2_firstn; exact Hb|exact HP]].
  - unfold take_remainder. destruct Hij as [Hl Hb]. split; [split; simpl; [exact Hl|constructor]|exact Hb].
  - unfold string. destruct Hij as [Hl Hb]. rewrite (f2_length Hb), (f2_length H0). dif; [reflexivity|].
    rewrite (f2_mismatch H H0 (f2_firstn (length t) Hb)). destruct (string_mismatch _ _ _ _).
    + unfold err_string. destruct v; simpl; split; auto. apply f2_skipn; exact Hb.
    + split; [split; simpl; [exact Hl|apply f2_skipn; exact Hb]|apply f2_firstn; exact Hb].
  - unfold eof. destruct Hij as [Hl Hb]. rewrite (f2_length Hb), Hl. dif; simpl; [split; [split; auto|auto]|]. split; [exact Hb|]. destruct v; exact Logic.I.
  - eapply bmany_rel; eauto.
  - eapply bskip_rel; eauto.
  - eapply bmany_till_rel; eauto.
  - unfold sep_by. eapply bmany_rel with (RS := sep_rel RS RX); eauto.
    + intros x y Hxy k l Hkl. eapply (@sep_item_rel I J RI S S' X X' U U' V V' E F N N' RS RX RU RV RE RN); eauto.
    + intros x y Hxy k l Hkl. eapply (@sep_item_rel I J RI S S' X X' U U' V V' E F N N' RS RX RU RV RE RN); eauto.
    + repeat split; auto.
  - unfold sep_by1. eapply bmany_rel with (RS := sep_rel RS RX); eauto.
    + intros x y Hxy k l Hkl. eapply (@sep_item_rel I J RI S S' X X' U U' V V' E F N N' RS RX RU RV RE RN); eauto.
    + intros x y Hxy k l Hkl. eapply (@sep_item_rel I J RI S S' X X' U U' V V' E F N N' RS RX RU RV RE RN); eauto.
    + repeat split; auto.
  - specialize (IHlinked i j Hij). unfold option_. destruct (p i), (q j); simpl in *; try contradiction; auto. rewrite (proj1 Hij). dif; simpl; auto.
  - specialize (IHlinked1 i j Hij). specialize (IHlinked2 i j Hij). unfold or_. destruct (p i), (q j); simpl in *; try contradiction; auto.
    rewrite (proj1 Hij). dif; simpl; auto.
  - specialize (IHlinked i j Hij). unfold matched_by. destruct (p i) as [k t| | | |], (q j) as [l u| | | |]; simpl in *; try contradiction; auto.
    destruct IHlinked as [Hk Ht], Hij as [Hl Hb]. rewrite (f2_length Hb), (f2_length (proj2 Hk)). dif; simpl; auto.
    split; [exact Hk|]. split; simpl; [apply f2_firstn; exact Hb|exact Ht].
  - specialize (IHlinked i j Hij). unfold look_ahead. destruct (p i) as [k t| | | |], (q j) as [l u| | | |]; simpl in *; try contradiction; auto.
    destruct IHlinked. auto.
Qed.
