(** Proofs about programs compiled with and without the feature verbose_error. *)
From Coq Require Import List Bool Arith Lia.
From Verif Require Import Base Parsers Combinators Buffer Stream SpecBase SpecStream SpecFeature SafeProofs.
Import ListNotations.

Set Implicit Arguments.

Section Agree.
  Context {I : Type}.
  Variable at_ : list I -> list I -> Prop.
  Hypothesis at_refl : forall b, at_ b b.

  Lemma agree_refl : forall T E (r : pres I T E), agree at_ r r.
  Proof. intros T E r. destruct r; simpl; auto. Qed.

  Lemma agree_bind : forall T U E V (c1 c2 : E -> V) (r1 r2 : pres I T E) (f1 f2 : input I -> T -> pres I U V),
    agree at_ r1 r2 -> (forall i t, agree at_ (f1 i t) (f2 i t)) -> agree at_ (bind c1 r1 f1) (bind c2 r2 f2).
  Proof.
    intros T U E V c1 c2 r1 r2 f1 f2 Hr Hf. destruct r1 as [i t|b e|n| |], r2 as [j u|b' e'|n'| |]; simpl in *; try contradiction; auto.
    destruct Hr as [-> ->]. specialize (Hf j u). destruct (f1 j u), (f2 j u); simpl in *; auto.
  Qed.

  (** * from_iter in lock step *)

  Definition step_rel {A B U} (R : A -> B -> Prop) (x : step A U) (y : step B U) : Prop :=
    match x, y with
    | Yield u a, Yield w b => u = w /\ R a b
    | Combinators.Stop a, Combinators.Stop b => R a b
    | StepPanic, StepPanic => True
    | StepNoFuel, StepNoFuel => True
    | _, _ => False
    end.

  Definition fres_rel {A B T} (R : A -> B -> Prop) (x : fres T A) (y : fres T B) : Prop :=
    match x, y with
    | FDone t a, FDone u b => t = u /\ R a b
    | FPanic, FPanic => True
    | FNoFuel, FNoFuel => True
    | _, _ => False
    end.

  Lemma from_iter_rel : forall A B U T C (n1 : A -> step A U) (n2 : B -> step B U) h1 h2 (act : C -> caction U T C) (R : A -> B -> Prop),
    (forall a b, R a b -> h1 a = h2 b) -> (forall a b, R a b -> step_rel R (n1 a) (n2 b)) ->
    forall fuel c a b, R a b -> fres_rel R (from_iter fuel n1 h1 act c a) (from_iter fuel n2 h2 act c b).
  Proof.
    intros A B U T C n1 n2 h1 h2 act R Hh Hn. induction fuel as [|fuel IH]; intros c a b HR; [exact Logic.I|].
    simpl. destruct (act c) as [t|k|k|]; simpl; auto.
    - specialize (Hn a b HR). destruct (n1 a), (n2 b); simpl in *; try contradiction; auto.
      destruct Hn as [-> Hn]. apply IH. assumption.
    - rewrite (Hh a b HR). apply IH. assumption.
  Qed.

  Definition es_rel {E} (x y : end_state I E) : Prop :=
    match x, y with
    | ESError b _, ESError c _ => at_ b c
    | ESIncomplete n, ESIncomplete m => n = m
    | _, _ => False
    end.

  Section Iter.
    Context {S U E : Type}.
    Variables p q : sparser S I U E.
    Hypothesis Hpq : forall s i, agree at_ (fst (p s i)) (fst (q s i)).
    Hypothesis Hs : forall s i, snd (p s i) = snd (q s i).

    Definition it_rel {D} (x y : iter S I E D) : Prop :=
      es_rel (it_state x) (it_state y) /\ it_ps x = it_ps y /\ it_buf x = it_buf y /\ it_data x = it_data y.

    Lemma run_iter_agree : forall T D C fuel (col : collector U T C) i s0 (data : D) hint pre on fin,
      (forall t j d x y, es_rel x y -> agree at_ (fin t j d x) (fin t j d y)) ->
      agree at_ (run_iter fuel col i s0 p data hint pre on fin) (run_iter fuel col i s0 q data hint pre on fin).
    Proof.
      intros T D C fuel col i s0 data hint pre on fin Hfin. unfold run_iter.
      pose proof (@from_iter_rel (iter S I E D) (iter S I E D) U T C (iter_next p pre on) (iter_next q pre on)
        (fun it => hint (it_data it)) (fun it => hint (it_data it)) (cact col) it_rel) as H.
      assert (H1 : forall a b, it_rel a b -> hint (it_data a) = hint (it_data b)) by (intros a b (_ & _ & _ & Hd); rewrite Hd; reflexivity).
      assert (H2 : forall a b, it_rel a b -> step_rel it_rel (iter_next p pre on a) (iter_next q pre on b)).
      { intros a b (Hst & Hps & Hb & Hd). unfold iter_next. rewrite Hd, Hps, Hb. destruct (pre (it_data b)); [simpl; repeat split; auto|].
        pose proof (Hpq (it_ps b) (it_buf b)) as Ha. pose proof (Hs (it_ps b) (it_buf b)) as Hss.
        destruct (p (it_ps b) (it_buf b)) as [[j v|c e|n| |] s], (q (it_ps b) (it_buf b)) as [[j' v'|c' e'|n'| |] s'];
          simpl in *; try contradiction; subst; auto; try (destruct Ha; subst); repeat split; simpl; auto. }
      specialize (H H1 H2 fuel (cinit col) (mkIter (ESIncomplete 1) s0 i data) (mkIter (ESIncomplete 1) s0 i data)).
      assert (H3 : it_rel (mkIter (ESIncomplete 1 : end_state I E) s0 i data) (mkIter (ESIncomplete 1) s0 i data)) by (repeat split; simpl; auto).
      specialize (H H3).
      destruct (from_iter fuel (iter_next p pre on) _ _ _ _) as [t a| |], (from_iter fuel (iter_next q pre on) _ _ _ _) as [u b| |];
        simpl in *; try contradiction; auto.
      destruct H as (-> & Hst & _ & Hb & Hd). rewrite Hb, Hd. apply Hfin. assumption.
    Qed.

    Ltac fin_agree := intros ? ? d x y Hxy; try destruct d as [[|?] [|?]]; try destruct d as [|?]; destruct x, y; simpl in *; try contradiction; subst;
      auto; try (match goal with |- context [last ?j] => destruct (last j) end); simpl; auto.

    Lemma bmany_agree : forall T C fuel (col : collector U T C) r s0 i, agree at_ (bmany fuel col r s0 p i) (bmany fuel col r s0 q i).
    Proof.
      intros T C fuel col r s0 i. destruct r as [a b|a| |b|n]; cbn [bmany].
      - unfold parse_many_range. destruct (negb (a <=? b)); [exact Logic.I|]. apply run_iter_agree. fin_agree.
      - unfold parse_many_from. apply run_iter_agree. fin_agree.
      - unfold parse_many_full. apply run_iter_agree. fin_agree.
      - unfold parse_many_to. apply run_iter_agree. fin_agree.
      - unfold parse_many_exact. apply run_iter_agree. fin_agree.
    Qed.

    Ltac skip_step IH := intros; cbn; try (destruct (_ =? 0) eqn:?; [simpl; auto; fail|]);
      match goal with |- context [p ?s ?i] => let H := fresh "Hh" in let G := fresh "Hg" in pose proof (Hpq s i) as H; pose proof (Hs s i) as G;
        destruct (p s i) as [[?j ?v|?b ?e|?k| |] ?s'], (q s i) as [[?j ?v|?b ?e|?k| |] ?s'] end;
      simpl in *; try contradiction; subst; auto; try (match goal with H : _ /\ _ |- _ => destruct H; subst; apply IH end);
      repeat match goal with |- context [if ?x then _ else _] => destruct x end; simpl; auto.

    Lemma skip_range_agree : forall fuel a b s i, agree at_ (skip_loop_range p fuel a b s i) (skip_loop_range q fuel a b s i).
    Proof. induction fuel as [|fuel IH]; [simpl; auto|]. skip_step IH. Qed.
    Lemma skip_from_agree : forall fuel a s i, agree at_ (skip_many_from p fuel s a i) (skip_many_from q fuel s a i).
    Proof. induction fuel as [|fuel IH]; [simpl; auto|]. skip_step IH. Qed.
    Lemma skip_full_agree : forall fuel s i, agree at_ (skip_many_full p fuel s i) (skip_many_full q fuel s i).
    Proof. induction fuel as [|fuel IH]; [simpl; auto|]. skip_step IH. Qed.
    Lemma skip_to_agree : forall fuel b s i, agree at_ (skip_loop_to p fuel b s i) (skip_loop_to q fuel b s i).
    Proof. induction fuel as [|fuel IH]; [simpl; auto|]. skip_step IH. Qed.
    Lemma skip_exact_agree : forall fuel n s i, agree at_ (skip_many_exact p fuel s n i) (skip_many_exact q fuel s n i).
    Proof. induction fuel as [|fuel IH]; [simpl; auto|]. skip_step IH. Qed.

    Lemma bskip_agree : forall fuel r s0 i, agree at_ (bskip_many fuel r s0 p i) (bskip_many fuel r s0 q i).
    Proof.
      intros fuel r s0 i. destruct r as [a b|a| |b|n]; cbn [bskip_many]; unfold skip_many_range, skip_many_to.
      - destruct (negb _); [exact Logic.I|]. apply skip_range_agree.
      - apply skip_from_agree.
      - apply skip_full_agree.
      - apply skip_to_agree.
      - apply skip_exact_agree.
    Qed.
  End Iter.

  Definition ts_rel {E} (x y : end_state_till I E) : Prop :=
    match x, y with
    | TError b _, TError c _ => at_ b c
    | TIncomplete n, TIncomplete m => n = m
    | TEndSuccess, TEndSuccess => True
    | _, _ => False
    end.

  Section Till.
    Context {S SE U V E N : Type}.
    Variables p q : sparser S I U E.
    Variables end1 end2 : sparser SE I V N.
    Hypothesis Hpq : forall s i, agree at_ (fst (p s i)) (fst (q s i)).
    Hypothesis Hs : forall s i, snd (p s i) = snd (q s i).
    Hypothesis He : forall s i, agree at_ (fst (end1 s i)) (fst (end2 s i)).
    Hypothesis Hes : forall s i, snd (end1 s i) = snd (end2 s i).

    Definition tt_rel {D} (x y : iter_till S SE I E D) : Prop :=
      ts_rel (tt_state x) (tt_state y) /\ tt_ps x = tt_ps y /\ tt_es x = tt_es y /\ tt_buf x = tt_buf y /\ tt_data x = tt_data y.

    Definition pre_rel {D} (x y : iter_till S SE I E D -> pre_res (iter_till S SE I E D)) : Prop :=
      forall a b, tt_rel a b ->
        match x a, y b with
        | PreGo a', PreGo b' => tt_rel a' b'
        | PreNone a', PreNone b' => tt_rel a' b'
        | PrePanic, PrePanic => True
        | PreNoFuel, PreNoFuel => True
        | _, _ => False
        end.

    Lemma end_test_rel : forall D, pre_rel (@end_test S SE I V N E D end1) (@end_test S SE I V N E D end2).
    Proof.
      intros D a b (H1 & H2 & H3 & H4 & H5). unfold end_test. rewrite H3, H4.
      pose proof (He (tt_es b) (tt_buf b)) as Ha. pose proof (Hes (tt_es b) (tt_buf b)) as Hss.
      destruct (end1 (tt_es b) (tt_buf b)) as [[j v|c e|n| |] s], (end2 (tt_es b) (tt_buf b)) as [[j' v'|c' e'|n'| |] s'];
        simpl in *; try contradiction; subst; auto; try (destruct Ha; subst); repeat split; simpl; auto.
    Qed.
    Lemma pre_seq_rel : forall D (a1 a2 k1 k2 : iter_till S SE I E D -> pre_res (iter_till S SE I E D)),
      pre_rel a1 a2 -> pre_rel k1 k2 -> pre_rel (fun it => pre_seq (a1 it) k1) (fun it => pre_seq (a2 it) k2).
    Proof.
      intros D a1 a2 k1 k2 Ha Hk x y Hxy. specialize (Ha x y Hxy). unfold pre_seq. destruct (a1 x), (a2 y); try contradiction; auto.
      apply Hk. assumption.
    Qed.
    Lemma pre_if_rel : forall D (c : D -> bool) (a1 a2 b1 b2 : iter_till S SE I E D -> pre_res (iter_till S SE I E D)),
      pre_rel a1 a2 -> pre_rel b1 b2 ->
      pre_rel (fun it => if c (tt_data it) then a1 it else b1 it) (fun it => if c (tt_data it) then a2 it else b2 it).
    Proof.
      intros D c a1 a2 b1 b2 Ha Hb x y Hxy. destruct (Hxy) as (_ & _ & _ & _ & Hd). rewrite Hd.
      destruct (c (tt_data y)); [apply Ha|apply Hb]; assumption.
    Qed.
    Lemma pre_go_rel : forall D, pre_rel (fun it : iter_till S SE I E D => PreGo it) (fun it => PreGo it).
    Proof. intros D x y H. exact H. Qed.
    Lemma pre_none_rel : forall D, pre_rel (fun it : iter_till S SE I E D => PreNone it) (fun it => PreNone it).
    Proof. intros D x y H. exact H. Qed.

    Lemma run_iter_till_agree : forall T D C fuel (col : collector U T C) i s0 e0 (data : D) hint pre1 pre2 on fin,
      pre_rel pre1 pre2 ->
      (forall t j d x y, ts_rel x y -> agree at_ (fin t j d x) (fin t j d y)) ->
      agree at_ (run_iter_till fuel col i s0 e0 p data hint pre1 on fin) (run_iter_till fuel col i s0 e0 q data hint pre2 on fin).
    Proof.
      intros T D C fuel col i s0 e0 data hint pre1 pre2 on fin Hpre Hfin. unfold run_iter_till.
      pose proof (@from_iter_rel (iter_till S SE I E D) (iter_till S SE I E D) U T C (iter_till_next p pre1 on) (iter_till_next q pre2 on)
        (fun it => hint (tt_data it)) (fun it => hint (tt_data it)) (cact col) tt_rel) as H.
      assert (H1 : forall a b, tt_rel a b -> hint (tt_data a) = hint (tt_data b)) by (intros a b (_ & _ & _ & _ & Hd); rewrite Hd; reflexivity).
      assert (H2 : forall a b, tt_rel a b -> step_rel tt_rel (iter_till_next p pre1 on a) (iter_till_next q pre2 on b)).
      { intros a b Hab. specialize (Hpre a b Hab). unfold iter_till_next.
        destruct (pre1 a) as [a'|a'| |], (pre2 b) as [b'|b'| |]; try contradiction; simpl; auto.
        destruct Hpre as (Hst & Hps & Hess & Hb & Hd). rewrite Hps, Hb.
        pose proof (Hpq (tt_ps b') (tt_buf b')) as Ha. pose proof (Hs (tt_ps b') (tt_buf b')) as Hss.
        destruct (p (tt_ps b') (tt_buf b')) as [[j v|c e|n| |] s], (q (tt_ps b') (tt_buf b')) as [[j' v'|c' e'|n'| |] s'];
          simpl in *; try contradiction; subst; auto; try (destruct Ha; subst); repeat split; simpl; auto. rewrite Hd; reflexivity. }
      specialize (H H1 H2 fuel (cinit col) (mkIterTill (TIncomplete 1) s0 e0 i data) (mkIterTill (TIncomplete 1) s0 e0 i data)).
      assert (H3 : tt_rel (mkIterTill (TIncomplete 1 : end_state_till I E) s0 e0 i data) (mkIterTill (TIncomplete 1) s0 e0 i data)) by (repeat split; simpl; auto).
      specialize (H H3).
      destruct (from_iter fuel (iter_till_next p pre1 on) _ _ _ _) as [t a| |], (from_iter fuel (iter_till_next q pre2 on) _ _ _ _) as [u b| |];
        simpl in *; try contradiction; auto.
      destruct H as (-> & Hst & _ & _ & Hb & Hd). rewrite Hb, Hd. apply Hfin. assumption.
    Qed.

    Ltac fin_agree := intros ? ? d x y Hxy; try destruct d as [[|?] [|?]]; try destruct d as [|?]; destruct x, y; simpl in *; try contradiction; subst;
      auto; try (match goal with |- context [last ?j] => destruct (last j) end); simpl; auto.

    Lemma bmany_till_agree : forall T C fuel (col : collector U T C) r s0 e0 i,
      agree at_ (bmany_till fuel col r s0 e0 p end1 i) (bmany_till fuel col r s0 e0 q end2 i).
    Proof.
      intros T C fuel col r s0 e0 i. destruct r as [a b|a| |b|n]; cbn [bmany_till].
      - unfold many_till_range. destruct (negb (a <=? b)); [exact Logic.I|]. apply run_iter_till_agree; [|fin_agree].
        apply pre_seq_rel with (a1 := fun it => if fst (tt_data it) =? 0 then end_test end1 it else PreGo it)
          (a2 := fun it => if fst (tt_data it) =? 0 then end_test end2 it else PreGo it).
        + apply (pre_if_rel (fun d => fst d =? 0)); [apply end_test_rel|apply pre_go_rel].
        + apply (pre_if_rel (fun d => snd d =? 0)); [|apply pre_go_rel].
          apply pre_seq_rel with (a1 := fun it => end_test end1 it) (a2 := fun it => end_test end2 it); [apply end_test_rel|apply pre_none_rel].
      - unfold many_till_from. apply run_iter_till_agree; [|fin_agree]. apply (pre_if_rel (fun d => d =? 0)); [apply end_test_rel|apply pre_go_rel].
      - unfold many_till_full. apply run_iter_till_agree; [apply end_test_rel|fin_agree].
      - unfold many_till_to. apply run_iter_till_agree; [|fin_agree].
        apply pre_seq_rel with (a1 := fun it => end_test end1 it) (a2 := fun it => end_test end2 it); [apply end_test_rel|].
        apply (pre_if_rel (fun d => d =? 0)); [apply pre_none_rel|apply pre_go_rel].
      - unfold many_till_exact. apply run_iter_till_agree; [|fin_agree].
        apply (pre_if_rel (fun d => d =? 0)); [|apply pre_go_rel].
        apply pre_seq_rel with (a1 := fun it => end_test end1 it) (a2 := fun it => end_test end2 it); [apply end_test_rel|apply pre_none_rel].
    Qed.
  End Till.

  Section Sep.
    Context {SP SS U V E N : Type}.
    Variables c1 c2 : N -> E.
    Variables p q : sparser SP I U E.
    Variables sep1 sep2 : sparser SS I V N.
    Hypothesis Hpq : forall s i, agree at_ (fst (p s i)) (fst (q s i)).
    Hypothesis Hs : forall s i, snd (p s i) = snd (q s i).
    Hypothesis He : forall s i, agree at_ (fst (sep1 s i)) (fst (sep2 s i)).
    Hypothesis Hes : forall s i, snd (sep1 s i) = snd (sep2 s i).

    Lemma sep_item_agree : forall s i, agree at_ (fst (sep_item c1 p sep1 s i)) (fst (sep_item c2 q sep2 s i)) /\
      snd (sep_item c1 p sep1 s i) = snd (sep_item c2 q sep2 s i).
    Proof.
      intros [[item sp] ss] i. unfold sep_item. destruct item.
      - pose proof (He ss i) as Ha. pose proof (Hes ss i) as Hb.
        destruct (sep1 ss i) as [[j v|b e|n| |] s1], (sep2 ss i) as [[j' v'|b' e'|n'| |] s2]; simpl in *; try contradiction; subst; auto.
        destruct Ha as [-> ->]. pose proof (Hpq sp j') as Ha. pose proof (Hs sp j') as Hb.
        destruct (p sp j') as [[k u|b e|n| |] s1], (q sp j') as [[k' u'|b' e'|n'| |] s2'']; simpl in *; try contradiction; subst; auto.
      - simpl. pose proof (Hpq sp i) as Ha. pose proof (Hs sp i) as Hb.
        destruct (p sp i) as [[k u|b e|n| |] s1], (q sp i) as [[k' u'|b' e'|n'| |] s2'']; simpl in *; try contradiction; subst; auto.
    Qed.
  End Sep.
End Agree.

Lemma place_refl : forall I strings (b : list I), place strings b b.
Proof. intros I [|] b; unfold place; [apply suffix_refl|reflexivity]. Qed.

Theorem text_agree : forall I strings T E (p : bool -> parser I T E), text strings p -> forall i, agree (place strings) (p true i) (p false i).
Proof.
  intros I strings T E p H.
  pose proof (@place_refl I strings) as HR.
  induction H; intros i; try (apply agree_refl; exact HR).
  - rewrite <- !H0. apply IHtext.
  - simpl. apply HR.
  - specialize (IHtext i). destruct (p true i), (p false i); simpl in *; try contradiction; auto. destruct IHtext; subst; auto.
  - specialize (IHtext i). destruct (p true i), (p false i); simpl in *; try contradiction; auto.
  - specialize (IHtext i). destruct (p true i), (p false i); simpl in *; try contradiction; auto.
  - apply agree_bind; auto.
  - apply agree_bind; auto.
  - unfold satisfy. destruct (buf i) as [|c r] eqn:Hb; simpl; auto. destruct (f c); simpl; rewrite ?Hb; auto.
  - unfold satisfy_with. destruct (buf i) as [|c r] eqn:Hb; simpl; auto. destruct (g (f c)); simpl; rewrite ?Hb; auto.
  - unfold token. destruct (buf i) as [|c r] eqn:Hb; simpl; auto. destruct (eqb t c); simpl; rewrite ?Hb; auto.
  - unfold not_token. destruct (buf i) as [|c r] eqn:Hb; simpl; auto. destruct (eqb t c); simpl; rewrite ?Hb; auto.
  - unfold take_while1. destruct (position _ _) as [[|n]|]; simpl; auto. dif; simpl; auto.
  - subst strings. unfold string. dif; [simpl; auto|]. destruct (string_mismatch _ _ _ _); simpl; auto. apply suffix_skipn.
  - unfold eof. dif; simpl; auto.
  - apply bmany_agree; auto.
  - apply bskip_agree; auto.
  - apply bmany_till_agree; auto.
  - unfold sep_by.
    pose proof (@sep_item_agree I (place strings) SP SS U V E N (conv true) (conv false) (p true) (p false) (sep true) (sep false)) as HH.
    apply bmany_agree; auto; intros; apply HH; auto.
  - unfold sep_by1.
    pose proof (@sep_item_agree I (place strings) SP SS U V E N (conv true) (conv false) (p true) (p false) (sep true) (sep false)) as HH.
    apply bmany_agree; auto; intros; apply HH; auto.
  - specialize (IHtext i). unfold option_. destruct (p true i), (p false i); simpl in *; try contradiction; auto; try (destruct IHtext; subst; simpl; auto; fail).
    subst. destruct (last i); simpl; auto.
  - specialize (IHtext1 i). specialize (IHtext2 i). unfold or_. destruct (p true i), (p false i); simpl in *; try contradiction; auto.
    subst. destruct (last i); simpl; auto.
  - specialize (IHtext i). unfold matched_by. destruct (p true i), (p false i); simpl in *; try contradiction; auto.
    destruct IHtext; subst. dif; simpl; auto.
  - specialize (IHtext i). unfold look_ahead. destruct (p true i), (p false i); simpl in *; try contradiction; auto.
    destruct IHtext; subst; auto.
Qed.


(** * Streams *)

Section Streams.
  Context {I T E : Type}.
  Variables p q : parser I T E.

  Lemma same_answer_refl_nonerror : forall (r : stream_error I E), (forall b e, r <> SParseError b e) -> @same_answer I T E (inr r) (inr r).
  Proof. intros r H. destruct r; simpl; auto. Qed.

  Lemma slice_parse_agree : forall strings s s1 r1 s2 r2,
    (forall i, agree (place strings) (p i) (q i)) ->
    slice_parse p s = Done (s1, r1) -> slice_parse q s = Done (s2, r2) -> same_call strings (s1, r1) (s2, r2).
  Proof.
    intros strings s s1 r1 s2 r2 Ha H1 H2. unfold slice_parse in *. destruct (slice_is_empty s) as [[|]| | |]; simpl in *; try discriminate.
    - inversion H1; inversion H2; subst. left. simpl. auto.
    - set (i := mkInput true (skipn (ss_pos s) (ss_slice s))) in *. specialize (Ha i).
      destruct (p i) as [j v|b e|n| |], (q i) as [j' v'|b' e'|n'| |]; simpl in *; try contradiction; try discriminate;
        destruct (slice_len s) as [l| | |]; simpl in *; try discriminate.
      + destruct Ha as [-> ->]. destruct (usize_sub l _); simpl in *; try discriminate. inversion H1; inversion H2; subst. left. simpl. auto.
      + destruct (usize_sub l (length b)) eqn:Hb; simpl in *; try discriminate. destruct (usize_sub l (length b')) eqn:Hb'; simpl in *; try discriminate.
        inversion H1; inversion H2; subst. destruct strings; simpl in Ha.
        * right. split; [reflexivity|]. exists b, b'. repeat split; try (eexists; reflexivity). exact Ha.
        * subst b'. left. rewrite Hb in Hb'. inversion Hb'; subst. simpl. auto.
      + subst. inversion H1; inversion H2; subst. left. simpl. auto.
  Qed.

  Section Source.
    Context {St B : Type}.
    Variable ds : data_source St I.
    Variable ops : buffer_ops I B.

    Lemma src_parse_agree : forall strings st s1 r1 s2 r2,
      (forall i, agree (place strings) (p i) (q i)) ->
      src_parse ds ops p st = Done (s1, r1) -> src_parse ds ops q st = Done (s2, r2) -> same_call strings (s1, r1) (s2, r2).
    Proof.
      intros strings st s1 r1 s2 r2 Ha H1 H2. unfold src_parse in *.
      destruct (if src_incomplete st && src_auto st then _ else _) as [[st' [f|f]]| | |]; simpl in *; try discriminate;
        [|inversion H1; inversion H2; subst; left; simpl; auto].
      destruct (src_is_empty ops st') as [[|]| | |]; simpl in *; try discriminate; [inversion H1; inversion H2; subst; left; simpl; auto|].
      destruct (op_deref ops (src_buffer st')) as [d| | |]; simpl in *; try discriminate.
      set (i := mkInput (src_eoi st') d) in *. specialize (Ha i).
      destruct (p i) as [j v|b e|n| |], (q i) as [j' v'|b' e'|n'| |]; simpl in *; try contradiction; try discriminate;
        destruct (op_len ops (src_buffer st')) as [l| | |]; simpl in *; try discriminate.
      - destruct Ha as [-> ->]. destruct (usize_sub l _) as [m| | |]; simpl in *; try discriminate.
        destruct (op_consume _ _ m) as [b| | |]; simpl in *; try discriminate. inversion H1; inversion H2; subst. left. simpl. auto.
      - destruct strings; simpl in Ha.
        + destruct (usize_sub l (length b)) as [m| | |]; simpl in *; try discriminate.
          destruct (usize_sub l (length b')) as [m'| | |]; simpl in *; try discriminate.
          destruct (op_consume _ _ m) as [x| | |]; simpl in *; try discriminate. destruct (op_consume _ _ m') as [x'| | |]; simpl in *; try discriminate.
          inversion H1; inversion H2; subst. right. split; [reflexivity|]. exists b, b'. repeat split; try (eexists; reflexivity). exact Ha.
        + subst b'. destruct (usize_sub l (length b)) as [m| | |]; simpl in *; try discriminate.
          destruct (op_consume _ _ m) as [x| | |]; simpl in *; try discriminate. inversion H1; inversion H2; subst. left. simpl. auto.
      - subst n'. destruct (src_eoi st'); inversion H1; inversion H2; subst; left; simpl; auto.
    Qed.

    Lemma src_parse_same : forall st, (forall i, agree (place false) (p i) (q i)) ->
      same_run (same_call false) (src_parse ds ops p st) (src_parse ds ops q st).
    Proof.
      intros st Ha.
      assert (H : match src_parse ds ops p st, src_parse ds ops q st with
                  | Done _, Done _ | Panicked, Panicked | Undefined, Undefined | Stuck, Stuck => True | _, _ => False end).
      { unfold src_parse. destruct (if src_incomplete st && src_auto st then _ else _) as [[st' [f|f]]| | |]; simpl; auto.
        destruct (src_is_empty ops st') as [[|]| | |]; simpl; auto. destruct (op_deref ops (src_buffer st')) as [d| | |]; simpl; auto.
        specialize (Ha (mkInput (src_eoi st') d)).
        destruct (p _) as [j v|b e|n| |], (q _) as [j' v'|b' e'|n'| |]; simpl in *; try contradiction; auto.
        - destruct Ha as [-> ->]. destruct (op_len _ _); simpl; auto. destruct (usize_sub _ _); simpl; auto. destruct (op_consume _ _ _); simpl; auto.
        - subst. destruct (op_len _ _); simpl; auto. destruct (usize_sub _ _); simpl; auto. destruct (op_consume _ _ _); simpl; auto.
        - subst. destruct (op_len _ _); simpl; auto. destruct (src_eoi st'); simpl; auto. }
      destruct (src_parse ds ops p st) as [[s1 r1]| | |] eqn:H1, (src_parse ds ops q st) as [[s2 r2]| | |] eqn:H2; simpl; try contradiction; auto.
      eapply src_parse_agree; eauto.
    Qed.
  End Source.

  Lemma slice_parse_same : forall s, (forall i, agree (place false) (p i) (q i)) ->
    same_run (same_call false) (slice_parse p s) (slice_parse q s).
  Proof.
    intros s Ha.
    assert (H : match slice_parse p s, slice_parse q s with
                | Done _, Done _ | Panicked, Panicked | Undefined, Undefined | Stuck, Stuck => True | _, _ => False end).
    { unfold slice_parse. destruct (slice_is_empty s) as [[|]| | |]; simpl; auto.
      specialize (Ha (mkInput true (skipn (ss_pos s) (ss_slice s)))).
      destruct (p _) as [j v|b e|n| |], (q _) as [j' v'|b' e'|n'| |]; simpl in *; try contradiction; auto.
      - destruct Ha as [-> ->]. destruct (slice_len s); simpl; auto. destruct (usize_sub _ _); simpl; auto.
      - subst. destruct (slice_len s); simpl; auto. destruct (usize_sub _ _); simpl; auto.
      - subst. destruct (slice_len s); simpl; auto. }
    destruct (slice_parse p s) as [[s1 r1]| | |] eqn:H1, (slice_parse q s) as [[s2 r2]| | |] eqn:H2; simpl; try contradiction; auto.
    eapply slice_parse_agree; eauto.
  Qed.
End Streams.

Lemma same_answer_forget : forall I T E (r1 r2 : sres I T E), same_answer r1 r2 -> same_answer (forget r1) (forget r2).
Proof. intros I T E [t|[b e|n|n| |]] [u|[c f|m|m| |]]; simpl; auto. Qed.

Section Programs.
  Context {I T E : Type}.

  Lemma on_slice_same : forall c1 c2 : script I T E, script_text c1 c2 -> forall s,
    same_run (Forall2 same_answer) (on_slice c1 s) (on_slice c2 s).
  Proof.
    induction 1 as [|p k1 k2 Hp Hk IH]; intros s; simpl; [constructor|].
    pose proof (@slice_parse_same I T E (p true) (p false) s (text_agree Hp)) as H.
    destruct (slice_parse (p true) s) as [[s1 r1]| | |], (slice_parse (p false) s) as [[s2 r2]| | |]; simpl in *; try contradiction; auto.
    destruct H as [[Hs Hr]|[Hf _]]; [|discriminate]. simpl in Hs, Hr. subst s2. apply same_answer_forget in Hr.
    specialize (IH _ _ Hr s1). destruct (on_slice (k1 _) s1), (on_slice (k2 _) s1); simpl in *; try contradiction; auto.
  Qed.

  Context {St B : Type}.
  Variable ds : data_source St I.
  Variable ops : buffer_ops I B.

  Lemma insist_same : forall (p q : parser I T E), (forall i, agree (place false) (p i) (q i)) -> forall fuel st,
    same_run (same_call false) (insist ds ops fuel p st) (insist ds ops fuel q st).
  Proof.
    intros p q Ha. induction fuel as [|fuel IH]; intros st; simpl; auto.
    pose proof (@src_parse_same I T E p q St B ds ops st Ha) as H.
    destruct (src_parse ds ops p st) as [[s1 r1]| | |], (src_parse ds ops q st) as [[s2 r2]| | |]; simpl in *; try contradiction; auto.
    destruct H as [[Hs Hr]|[Hf _]]; [|discriminate]. simpl in Hs, Hr. subst s2.
    destruct r1 as [t|[b e|n|n| |]], r2 as [u|[c f|m|m| |]]; simpl in *; try contradiction; auto; left; simpl; auto.
  Qed.

  Lemma on_source_same : forall fuel (c1 c2 : script I T E), script_text c1 c2 -> forall st,
    same_run (Forall2 same_answer) (on_source ds ops fuel c1 st) (on_source ds ops fuel c2 st).
  Proof.
    intros fuel. induction 1 as [|p k1 k2 Hp Hk IH]; intros st; simpl; [constructor|].
    pose proof (@insist_same (p true) (p false) (text_agree Hp) fuel st) as H.
    destruct (insist ds ops fuel (p true) st) as [[s1 r1]| | |], (insist ds ops fuel (p false) st) as [[s2 r2]| | |]; simpl in *; try contradiction; auto.
    destruct H as [[Hs Hr]|[Hf _]]; [|discriminate]. simpl in Hs, Hr. subst s2. apply same_answer_forget in Hr.
    specialize (IH _ _ Hr s1). destruct (on_source ds ops fuel (k1 _) s1), (on_source ds ops fuel (k2 _) s1); simpl in *; try contradiction; auto.
  Qed.
End Programs.
