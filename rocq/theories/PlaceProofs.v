(** Lemmas for C82: the model with addresses beside the model without.  As OpaqueProofs.v, with the model of Place.v on the left. *)
From Coq Require Import List Bool Arith Lia ZArith.
From Coq.Init Require Import Byte.
From Verif Require Import Base Parsers Combinators Ascii SpecOpaque OpaqueProofs SafeProofs Place SpecPlace.
Import ListNotations.

Set Implicit Arguments.

Section Whole.
  Context {I : Type}.
  Variable mem : nat -> I.
  Variable Rel : slice -> slice -> Prop.
  (** The whole. *)
  Variable z0 : slice.

  Definition at_rel (i : l_input) (j : input I) : Prop := j = plain mem i /\ Rel (l_buf i) z0.

  Definition es_rel {E F} (RE : E -> F -> Prop) (x : l_end_state E) (y : end_state I F) : Prop :=
    match x, y with
    | LESError b e, ESError c f => (c = read mem b /\ Rel b z0) /\ RE e f
    | LESIncomplete n, ESIncomplete m => n = m
    | _, _ => False
    end.

  Section Iter.
    Context {S S' U V E F : Type}.
    Variable RS : S -> S' -> Prop.
    Variable RU : U -> V -> Prop.
    Variable RE : E -> F -> Prop.
    Variable p : l_sparser S U E.
    Variable q : sparser S' I V F.
    Hypothesis Hpq : forall s s', RS s s' -> forall i j, at_rel i j -> shows mem Rel z0 RU RE (fst (p s i)) (fst (q s' j)).
    Hypothesis Hs : forall s s', RS s s' -> forall i j, at_rel i j -> RS (snd (p s i)) (snd (q s' j)).

    Definition it_rel {D} (x : l_iter S E D) (y : iter S' I F D) : Prop :=
      es_rel RE (l_it_state x) (it_state y) /\ RS (l_it_ps x) (it_ps y) /\ at_rel (l_it_buf x) (it_buf y) /\ l_it_data x = it_data y.

    Lemma run_iter_rel : forall T T' D C C' (RT : T -> T' -> Prop) (RC : C -> C' -> Prop) fuel (col : collector U T C) (col' : collector V T' C') i j s0 s0'
      (data : D) hint pre on fin fin', col_rel RU RT RC col col' -> at_rel i j -> RS s0 s0' ->
      (forall t u, RT t u -> forall k l, at_rel k l -> forall d x y, es_rel RE x y -> shows mem Rel z0 RT RE (fin t k d x) (fin' u l d y)) ->
      shows mem Rel z0 RT RE (l_run_iter fuel col i s0 p data hint pre on fin) (run_iter fuel col' j s0' q data hint pre on fin').
    Proof.
      intros T T' D C C' RT RC fuel col col' i j s0 s0' data hint pre on fin fin' [Hc0 Hc] Hij Hs0 Hfin. unfold l_run_iter, run_iter.
      pose proof (@from_iter_rel (l_iter S E D) (iter S' I F D) U V T T' C C' RU RT RC (l_iter_next p pre on) (iter_next q pre on)
        (fun it => hint (l_it_data it)) (fun it => hint (it_data it)) (cact col) (cact col') it_rel) as H.
      assert (H1 : forall a b, it_rel a b -> hint (l_it_data a) = hint (it_data b)) by (intros a b (_ & _ & _ & Hd); rewrite Hd; reflexivity).
      assert (H2 : forall a b, it_rel a b -> step_rel RU it_rel (l_iter_next p pre on a) (iter_next q pre on b)).
      { intros a b (Hst & Hps & Hb & Hd). unfold l_iter_next, iter_next. rewrite Hd. destruct (pre (it_data b)); [simpl; repeat split; auto; apply Hb|].
        pose proof (Hpq Hps Hb) as Ha. pose proof (Hs Hps Hb) as Hss.
        destruct (p (l_it_ps a) (l_it_buf a)) as [[k v|c e|n| |] s], (q (it_ps b) (it_buf b)) as [[k' v'|c' e'|n'| |] s'];
          simpl in *; try contradiction; auto.
        - destruct Ha as [Hk Hv]. split; [exact Hv|]. split; [exact Hst|]. split; [exact Hss|]. split; [exact Hk|]. reflexivity.
        - split; [exact Ha|]. split; [exact Hss|]. split; [exact Hb|]. reflexivity.
        - split; [exact Ha|]. split; [exact Hss|]. split; [exact Hb|]. reflexivity. }
      specialize (H H1 H2 Hc fuel (cinit col) (cinit col') (mkLIter (LESIncomplete 1) s0 i data) (mkIter (ESIncomplete 1) s0' j data) Hc0).
      assert (H3 : it_rel (mkLIter (LESIncomplete 1 : l_end_state E) s0 i data) (mkIter (ESIncomplete 1 : end_state I F) s0' j data)).
      { split; [reflexivity|]. split; [exact Hs0|]. split; [exact Hij|]. reflexivity. }
      specialize (H H3).
      destruct (from_iter fuel (l_iter_next p pre on) _ _ _ _) as [t a| |], (from_iter fuel (iter_next q pre on) _ _ _ _) as [u b| |];
        simpl in *; try contradiction; auto.
      destruct H as (Ht & Hst & _ & Hb & Hd). rewrite Hd. apply Hfin; auto.
    Qed.

    Ltac fin_rel := intros t u Htu k l [-> Hkl] d x y Hxy; try destruct d as [[|?] [|?]]; try destruct d as [|?]; destruct x, y; simpl in *; try contradiction; subst;
      auto; try (match goal with |- context [l_last ?j] => destruct (l_last j) end); simpl; auto.

    Lemma bmany_rel : forall T T' C C' (RT : T -> T' -> Prop) (RC : C -> C' -> Prop) fuel (col : collector U T C) (col' : collector V T' C') r s0 s0' i j,
      col_rel RU RT RC col col' -> RS s0 s0' -> at_rel i j -> shows mem Rel z0 RT RE (l_bmany fuel col r s0 p i) (bmany fuel col' r s0' q j).
    Proof.
      intros T T' C C' RT RC fuel col col' r s0 s0' i j Hc Hs0 Hij. destruct r as [a b|a| |b|n]; cbn [l_bmany bmany].
      - unfold l_parse_many_range, parse_many_range. destruct (negb (a <=? b)); [exact Logic.I|]. eapply run_iter_rel; eauto. fin_rel.
      - unfold l_parse_many_from, parse_many_from. eapply run_iter_rel; eauto. fin_rel.
      - unfold l_parse_many_full, parse_many_full. eapply run_iter_rel; eauto. fin_rel.
      - unfold l_parse_many_to, parse_many_to. eapply run_iter_rel; eauto. fin_rel.
      - unfold l_parse_many_exact, parse_many_exact. eapply run_iter_rel; eauto. fin_rel.
    Qed.

    Ltac skip_step IH := intros;
      match goal with Hij : at_rel ?i ?j, Hss : RS ?s ?s' |- _ =>
        pose proof (Hpq Hss Hij) as Hh; pose proof (Hs Hss Hij) as Hg; destruct Hij as [-> Hr]; cbn;
        try (destruct (_ =? 0) eqn:?; [solve [simpl; auto]|]);
        destruct (p s i) as [[?k ?v|?b ?e|?k| |] ?s1], (q s' (plain mem i)) as [[?k ?v|?b ?e|?k| |] ?s1] end;
      cbn [fst snd shows] in *; try contradiction; auto; try (match goal with H : _ /\ _ |- _ => destruct H; solve [apply IH; auto] end); try (match goal with H : _ /\ _ |- _ => destruct H end); subst;
      repeat match goal with |- context [if ?x then _ else _] => destruct x end; simpl; auto.

    Lemma skip_range_rel : forall fuel a b s s' i j, RS s s' -> at_rel i j ->
      shows mem Rel z0 (fun _ _ => True) RE (l_skip_loop_range p fuel a b s i) (skip_loop_range q fuel a b s' j).
    Proof. induction fuel as [|fuel IH]; [simpl; auto|]. skip_step IH. Qed.
    Lemma skip_from_rel : forall fuel a s s' i j, RS s s' -> at_rel i j ->
      shows mem Rel z0 (fun _ _ => True) RE (l_skip_many_from p fuel s a i) (skip_many_from q fuel s' a j).
    Proof. induction fuel as [|fuel IH]; [simpl; auto|]. skip_step IH. Qed.
    Lemma skip_full_rel : forall fuel s s' i j, RS s s' -> at_rel i j ->
      shows mem Rel z0 (fun _ _ => True) RE (l_skip_many_full p fuel s i) (skip_many_full q fuel s' j).
    Proof. induction fuel as [|fuel IH]; [simpl; auto|]. skip_step IH. Qed.
    Lemma skip_to_rel : forall fuel b s s' i j, RS s s' -> at_rel i j ->
      shows mem Rel z0 (fun _ _ => True) RE (l_skip_loop_to p fuel b s i) (skip_loop_to q fuel b s' j).
    Proof. induction fuel as [|fuel IH]; [simpl; auto|]. skip_step IH. Qed.
    Lemma skip_exact_rel : forall fuel n s s' i j, RS s s' -> at_rel i j ->
      shows mem Rel z0 (fun _ _ => True) RE (l_skip_many_exact p fuel s n i) (skip_many_exact q fuel s' n j).
    Proof. induction fuel as [|fuel IH]; [simpl; auto|]. skip_step IH. Qed.

    Lemma bskip_rel : forall fuel r s s' i j, RS s s' -> at_rel i j ->
      shows mem Rel z0 (fun _ _ => True) RE (l_bskip_many fuel r s p i) (bskip_many fuel r s' q j).
    Proof.
      intros fuel r s s' i j H0 Hij. destruct r as [a b|a| |b|n]; cbn [l_bskip_many bskip_many]; unfold l_skip_many_range, l_skip_many_to, skip_many_range, skip_many_to.
      - destruct (negb _); [exact Logic.I|]. apply skip_range_rel; assumption.
      - apply skip_from_rel; assumption.
      - apply skip_full_rel; assumption.
      - apply skip_to_rel; assumption.
      - apply skip_exact_rel; assumption.
    Qed.
  End Iter.

  Definition ts_rel {E F} (RE : E -> F -> Prop) (x : l_end_state_till E) (y : end_state_till I F) : Prop :=
    match x, y with
    | LTError b e, TError c f => (c = read mem b /\ Rel b z0) /\ RE e f
    | LTIncomplete n, TIncomplete m => n = m
    | LTEndSuccess, TEndSuccess => True
    | _, _ => False
    end.

  Section Till.
    Context {S S' X X' U U' V V' E F N N' : Type}.
    Variable RS : S -> S' -> Prop.
    Variable RX : X -> X' -> Prop.
    Variable RU : U -> U' -> Prop.
    Variable RV : V -> V' -> Prop.
    Variable RE : E -> F -> Prop.
    Variable RN : N -> N' -> Prop.
    Variable p : l_sparser S U E.
    Variable q : sparser S' I U' F.
    Variable end1 : l_sparser X V N.
    Variable end2 : sparser X' I V' N'.
    Hypothesis Hpq : forall s s', RS s s' -> forall i j, at_rel i j -> shows mem Rel z0 RU RE (fst (p s i)) (fst (q s' j)).
    Hypothesis Hs : forall s s', RS s s' -> forall i j, at_rel i j -> RS (snd (p s i)) (snd (q s' j)).
    Hypothesis He : forall s s', RX s s' -> forall i j, at_rel i j -> shows mem Rel z0 RV RN (fst (end1 s i)) (fst (end2 s' j)).
    Hypothesis Hes : forall s s', RX s s' -> forall i j, at_rel i j -> RX (snd (end1 s i)) (snd (end2 s' j)).

    Definition tt_rel {D} (x : l_iter_till S X E D) (y : iter_till S' X' I F D) : Prop :=
      ts_rel RE (l_tt_state x) (tt_state y) /\ RS (l_tt_ps x) (tt_ps y) /\ RX (l_tt_es x) (tt_es y) /\ at_rel (l_tt_buf x) (tt_buf y) /\ l_tt_data x = tt_data y.

    Definition pre_rel {D} (x : l_iter_till S X E D -> pre_res (l_iter_till S X E D)) (y : iter_till S' X' I F D -> pre_res (iter_till S' X' I F D)) : Prop :=
      forall a b, tt_rel a b ->
        match x a, y b with
        | PreGo a', PreGo b' => tt_rel a' b'
        | PreNone a', PreNone b' => tt_rel a' b'
        | PrePanic, PrePanic => True
        | PreNoFuel, PreNoFuel => True
        | _, _ => False
        end.

    Lemma end_test_rel : forall D, pre_rel (@l_end_test S X V N E D end1) (@end_test S' X' I V' N' F D end2).
    Proof.
      intros D a b (H1 & H2 & H3 & H4 & H5). unfold l_end_test, end_test. pose proof (He H3 H4) as Ha. pose proof (Hes H3 H4) as Hss.
      destruct (end1 (l_tt_es a) (l_tt_buf a)) as [[j v|c e|n| |] s], (end2 (tt_es b) (tt_buf b)) as [[j' v'|c' e'|n'| |] s'];
        simpl in *; try contradiction; auto; (split; [simpl; auto|]); (split; [exact H2|]); (split; [exact Hss|]); (split; [|exact H5]);
        solve [exact H4|apply Ha].
    Qed.
    Lemma pre_seq_rel : forall D (a1 k1 : l_iter_till S X E D -> pre_res (l_iter_till S X E D)) (a2 k2 : iter_till S' X' I F D -> pre_res (iter_till S' X' I F D)),
      pre_rel a1 a2 -> pre_rel k1 k2 -> pre_rel (fun it => pre_seq (a1 it) k1) (fun it => pre_seq (a2 it) k2).
    Proof.
      intros D a1 k1 a2 k2 Ha Hk x y Hxy. specialize (Ha x y Hxy). unfold pre_seq. destruct (a1 x), (a2 y); try contradiction; auto.
      apply Hk. assumption.
    Qed.
    Lemma pre_if_rel : forall D (c : D -> bool) (a1 b1 : l_iter_till S X E D -> pre_res (l_iter_till S X E D)) (a2 b2 : iter_till S' X' I F D -> pre_res (iter_till S' X' I F D)),
      pre_rel a1 a2 -> pre_rel b1 b2 ->
      pre_rel (fun it => if c (l_tt_data it) then a1 it else b1 it) (fun it => if c (tt_data it) then a2 it else b2 it).
    Proof.
      intros D c a1 b1 a2 b2 Ha Hb x y Hxy. destruct (Hxy) as (_ & _ & _ & _ & Hd). rewrite Hd.
      destruct (c (tt_data y)); [apply Ha|apply Hb]; assumption.
    Qed.
    Lemma pre_go_rel : forall D, pre_rel (fun it : l_iter_till S X E D => PreGo it) (fun it => PreGo it).
    Proof. intros D x y H. exact H. Qed.
    Lemma pre_none_rel : forall D, pre_rel (fun it : l_iter_till S X E D => PreNone it) (fun it => PreNone it).
    Proof. intros D x y H. exact H. Qed.

    Lemma run_iter_till_rel : forall T T' D C C' (RT : T -> T' -> Prop) (RC : C -> C' -> Prop) fuel (col : collector U T C) (col' : collector U' T' C') i j s0 s0' x0 x0'
      (data : D) hint pre1 pre2 on fin fin', col_rel RU RT RC col col' -> at_rel i j -> RS s0 s0' -> RX x0 x0' -> pre_rel pre1 pre2 ->
      (forall t u, RT t u -> forall k l, at_rel k l -> forall d x y, ts_rel RE x y -> shows mem Rel z0 RT RE (fin t k d x) (fin' u l d y)) ->
      shows mem Rel z0 RT RE (l_run_iter_till fuel col i s0 x0 p data hint pre1 on fin) (run_iter_till fuel col' j s0' x0' q data hint pre2 on fin').
    Proof.
      intros T T' D C C' RT RC fuel col col' i j s0 s0' x0 x0' data hint pre1 pre2 on fin fin' [Hc0 Hc] Hij Hs0 Hx0 Hpre Hfin. unfold l_run_iter_till, run_iter_till.
      pose proof (@from_iter_rel (l_iter_till S X E D) (iter_till S' X' I F D) U U' T T' C C' RU RT RC (l_iter_till_next p pre1 on) (iter_till_next q pre2 on)
        (fun it => hint (l_tt_data it)) (fun it => hint (tt_data it)) (cact col) (cact col') tt_rel) as H.
      assert (H1 : forall a b, tt_rel a b -> hint (l_tt_data a) = hint (tt_data b)) by (intros a b (_ & _ & _ & _ & Hd); rewrite Hd; reflexivity).
      assert (H2 : forall a b, tt_rel a b -> step_rel RU tt_rel (l_iter_till_next p pre1 on a) (iter_till_next q pre2 on b)).
      { intros a b Hab. specialize (Hpre a b Hab). unfold l_iter_till_next, iter_till_next.
        destruct (pre1 a) as [a'|a'| |], (pre2 b) as [b'|b'| |]; try contradiction; simpl; auto.
        destruct Hpre as (Hst & Hps & Hess & Hb & Hd). pose proof (Hpq Hps Hb) as Ha. pose proof (Hs Hps Hb) as Hss.
        destruct (p (l_tt_ps a') (l_tt_buf a')) as [[k v|c e|n| |] s], (q (tt_ps b') (tt_buf b')) as [[k' v'|c' e'|n'| |] s'];
          simpl in *; try contradiction; auto.
        - destruct Ha as [Hk Hv]. split; [exact Hv|]. split; [exact Hst|]. split; [exact Hss|]. split; [exact Hess|]. split; [exact Hk|]. simpl. congruence.
        - split; [exact Ha|]. split; [exact Hss|]. split; [exact Hess|]. split; [exact Hb|]. exact Hd.
        - split; [exact Ha|]. split; [exact Hss|]. split; [exact Hess|]. split; [exact Hb|]. exact Hd. }
      specialize (H H1 H2 Hc fuel (cinit col) (cinit col') (mkLIterTill (LTIncomplete 1) s0 x0 i data) (mkIterTill (TIncomplete 1) s0' x0' j data) Hc0).
      assert (H3 : tt_rel (mkLIterTill (LTIncomplete 1 : l_end_state_till E) s0 x0 i data) (mkIterTill (TIncomplete 1 : end_state_till I F) s0' x0' j data)).
      { split; [reflexivity|]. split; [exact Hs0|]. split; [exact Hx0|]. split; [exact Hij|]. reflexivity. }
      specialize (H H3).
      destruct (from_iter fuel (l_iter_till_next p pre1 on) _ _ _ _) as [t a| |], (from_iter fuel (iter_till_next q pre2 on) _ _ _ _) as [u b| |];
        simpl in *; try contradiction; auto.
      destruct H as (Ht & Hst & _ & _ & Hb & Hd). rewrite Hd. apply Hfin; auto.
    Qed.

    Ltac fin_rel := intros t u Htu k l [-> Hkl] d x y Hxy; try destruct d as [[|?] [|?]]; try destruct d as [|?]; destruct x, y; simpl in *; try contradiction; subst;
      auto; try (match goal with |- context [l_last ?j] => destruct (l_last j) end); simpl; auto.

    Lemma bmany_till_rel : forall T T' C C' (RT : T -> T' -> Prop) (RC : C -> C' -> Prop) fuel (col : collector U T C) (col' : collector U' T' C') r s0 s0' x0 x0' i j,
      col_rel RU RT RC col col' -> RS s0 s0' -> RX x0 x0' -> at_rel i j ->
      shows mem Rel z0 RT RE (l_bmany_till fuel col r s0 x0 p end1 i) (bmany_till fuel col' r s0' x0' q end2 j).
    Proof.
      intros T T' C C' RT RC fuel col col' r s0 s0' x0 x0' i j Hc Hs0 Hx0 Hij. destruct r as [a b|a| |b|n]; cbn [l_bmany_till bmany_till].
      - unfold l_many_till_range, many_till_range. destruct (negb (a <=? b)); [exact Logic.I|]. eapply run_iter_till_rel; eauto; [|fin_rel].
        apply pre_seq_rel with (a1 := fun it => if fst (l_tt_data it) =? 0 then l_end_test end1 it else PreGo it)
          (a2 := fun it => if fst (tt_data it) =? 0 then end_test end2 it else PreGo it).
        + apply (pre_if_rel (fun d => fst d =? 0)); [apply end_test_rel|apply pre_go_rel].
        + apply (pre_if_rel (fun d => snd d =? 0)); [|apply pre_go_rel].
          apply pre_seq_rel with (a1 := fun it => l_end_test end1 it) (a2 := fun it => end_test end2 it); [apply end_test_rel|apply pre_none_rel].
      - unfold l_many_till_from, many_till_from. eapply run_iter_till_rel; eauto; [|fin_rel]. apply (pre_if_rel (fun d => d =? 0)); [apply end_test_rel|apply pre_go_rel].
      - unfold l_many_till_full, many_till_full. eapply run_iter_till_rel; eauto; [apply end_test_rel|fin_rel].
      - unfold l_many_till_to, many_till_to. eapply run_iter_till_rel; eauto; [|fin_rel].
        apply pre_seq_rel with (a1 := fun it => l_end_test end1 it) (a2 := fun it => end_test end2 it); [apply end_test_rel|].
        apply (pre_if_rel (fun d => d =? 0)); [apply pre_none_rel|apply pre_go_rel].
      - unfold l_many_till_exact, many_till_exact. eapply run_iter_till_rel; eauto; [|fin_rel].
        apply (pre_if_rel (fun d => d =? 0)); [|apply pre_go_rel].
        apply pre_seq_rel with (a1 := fun it => l_end_test end1 it) (a2 := fun it => end_test end2 it); [apply end_test_rel|apply pre_none_rel].
    Qed.

    (** [end1], [end2] now as separators. *)
    Variables (c : N -> E) (d : N' -> F).
    Hypothesis Hcd : forall e f, RN e f -> RE (c e) (d f).
    Definition sep_rel (x : bool * S * X) (y : bool * S' * X') : Prop :=
      fst (fst x) = fst (fst y) /\ RS (snd (fst x)) (snd (fst y)) /\ RX (snd x) (snd y).

    Lemma sep_item_rel : forall s s', sep_rel s s' -> forall i j, at_rel i j ->
      shows mem Rel z0 RU RE (fst (l_sep_item c p end1 s i)) (fst (sep_item d q end2 s' j)) /\
      sep_rel (snd (l_sep_item c p end1 s i)) (snd (sep_item d q end2 s' j)).
    Proof.
      intros [[item sp] ss] [[item' sp'] ss'] (H1 & H2 & H3) i j Hij. simpl in H1, H2, H3. subst item'. unfold l_sep_item, sep_item. destruct item.
      - pose proof (He H3 Hij) as Ha. pose proof (Hes H3 Hij) as Hb.
        destruct (end1 ss i) as [[k v|b e|n| |] s1], (end2 ss' j) as [[k' v'|b' e'|n'| |] s2]; simpl in *; try contradiction; unfold sep_rel; simpl; auto.
        + destruct Ha as [Hk _]. pose proof (Hpq H2 Hk) as Ha. pose proof (Hs H2 Hk) as Hc.
          destruct (p sp k) as [[l u|b e|n| |] s1'], (q sp' k') as [[l' u'|b' e'|n'| |] s2'']; simpl in *; try contradiction; auto.
        + destruct Ha as [Ha1 Ha2]. auto.
      - simpl. pose proof (Hpq H2 Hij) as Ha. pose proof (Hs H2 Hij) as Hb. unfold sep_rel.
        destruct (p sp i) as [[k u|b e|n| |] s1], (q sp' j) as [[k' u'|b' e'|n'| |] s2'']; simpl in *; try contradiction; auto.
    Qed.
  End Till.
End Whole.

(** * Slices *)

Lemma read_length : forall I (mem : nat -> I) s, length (read mem s) = s_len s.
Proof. intros. unfold read. rewrite map_length, seq_length. reflexivity. Qed.

Lemma skipn_map : forall A B (f : A -> B) n l, skipn n (List.map f l) = List.map f (skipn n l).
Proof. intros A B f n. induction n as [|n IH]; intros [|x l]; cbn; auto. Qed.
Lemma skipn_seq : forall k n a, skipn k (seq a n) = seq (a + k) (n - k).
Proof.
  induction k as [|k IH]; intros n a; [cbn [skipn]; rewrite Nat.add_0_r, Nat.sub_0_r; reflexivity|].
  destruct n as [|n]; [reflexivity|]. cbn [seq skipn]. rewrite IH. cbn [Nat.sub]. f_equal. lia.
Qed.
Lemma firstn_seq : forall k n a, k <= n -> firstn k (seq a n) = seq a k.
Proof. induction k as [|k IH]; intros n a Hk; [reflexivity|]. destruct n as [|n]; [lia|]. cbn [seq firstn]. rewrite IH by lia. reflexivity. Qed.

Lemma read_from : forall I (mem : nat -> I) a n k, read mem (mkSlice (a + k) (n - k)) = skipn k (read mem (mkSlice a n)).
Proof. intros. unfold read. cbn [s_at s_len]. rewrite skipn_map, skipn_seq. reflexivity. Qed.
Lemma read_to : forall I (mem : nat -> I) a n k, k <= n -> read mem (mkSlice a k) = firstn k (read mem (mkSlice a n)).
Proof. intros. unfold read. cbn [s_at s_len]. rewrite firstn_map, firstn_seq by assumption. reflexivity. Qed.

Lemma inside_refl : forall s, inside s s.
Proof. intros s. split; lia. Qed.
Lemma inside_trans : forall a b c, inside a b -> inside b c -> inside a c.
Proof. intros a b c [H1 H2] [H3 H4]. split; lia. Qed.

Lemma placing_inside : placing inside.
Proof. constructor; [apply inside_refl|apply inside_trans|auto]. Qed.
Lemma placing_rest : placing rest_of.
Proof.
  constructor.
  - intros s. split; [apply inside_refl|right; reflexivity].
  - intros a b c [H1 H2] [H3 H4]. split; [eapply inside_trans; eassumption|]. unfold inside in *. lia.
  - intros b s [H _]. exact H.
Qed.
Lemma placing_end : placing end_of.
Proof.
  constructor.
  - intros s. split; [apply inside_refl|reflexivity].
  - intros a b c [H1 H2] [H3 H4]. split; [eapply inside_trans; eassumption|lia].
  - intros b s [H _]. exact H.
Qed.
Lemma end_rest : forall b s, end_of b s -> rest_of b s.
Proof. intros b s [H1 H2]. split; [exact H1|right; exact H2]. Qed.

Lemma follows_weaker : forall I (mem : nat -> I) (Rel Rel' : slice -> slice -> Prop) T T' E E' (RT : slice -> T -> T' -> Prop) (RE : slice -> E -> E' -> Prop) z p,
  (forall b s, Rel b s -> Rel' b s) -> follows mem Rel RT RE z p -> follows mem Rel' RT RE z p.
Proof.
  intros I mem Rel Rel' T T' E E' RT RE z p H Hp i. specialize (Hp i).
  destruct (z i) as [j t|c e|n| |], (p (plain mem i)) as [j' t'|c' e'|n'| |]; cbn [shows] in *; try contradiction; auto; destruct Hp as [[H1 H2] H3]; auto.
Qed.

Lemma steady_none : forall Rel T, steady Rel (@no_slices T).
Proof. intros Rel T b s H t t' Ht. exact Ht. Qed.
Lemma steady_piece : forall I (mem : nat -> I) Rel, placing Rel -> steady Rel (piece mem).
Proof. intros I mem Rel HR b s H t l [H1 H2]. split; [eapply inside_trans; [exact H1|apply (pl_inside HR), H]|exact H2]. Qed.

(** * Results *)
Section Closed.
  Context {I : Type}.
  Variable mem : nat -> I.
  Variable Rel : slice -> slice -> Prop.
  Hypothesis HR : placing Rel.

  Lemma shows_up : forall T T' E E' (RT : slice -> T -> T' -> Prop) (RE : slice -> E -> E' -> Prop) b s z r, steady Rel RT -> steady Rel RE -> Rel b s ->
    shows mem Rel b (RT b) (RE b) z r -> shows mem Rel s (RT s) (RE s) z r.
  Proof.
    intros T T' E E' RT RE b s z r HT HE Hb H. destruct z as [i t|c e|n| |], r as [j u|d f|m| |]; cbn [shows] in *; try contradiction; auto.
    - destruct H as [[H1 H2] H3]. repeat split; [exact H1|exact (pl_trans HR _ _ _ H2 Hb)|exact (HT _ _ Hb _ _ H3)].
    - destruct H as [[H1 H2] H3]. repeat split; [exact H1|exact (pl_trans HR _ _ _ H2 Hb)|exact (HE _ _ Hb _ _ H3)].
  Qed.

  Lemma shows_bind : forall T T' U U' E E' F F' (RT : T -> T' -> Prop) (RU : U -> U' -> Prop) (RE : E -> E' -> Prop) (RF : F -> F' -> Prop) conv conv' s z r f f',
    (forall e e', RE e e' -> RF (conv e) (conv' e')) -> shows mem Rel s RT RE z r ->
    (forall i t t', Rel (l_buf i) s -> RT t t' -> shows mem Rel s RU RF (f i t) (f' (plain mem i) t')) ->
    shows mem Rel s RU RF (l_bind conv z f) (bind conv' r f').
  Proof.
    intros T T' U U' E E' F F' RT RU RE RF conv conv' s z r f f' Hc H Hf. destruct z as [i t|c e|n| |], r as [j u|d g|m| |]; cbn [shows l_bind bind] in *; try contradiction; auto.
    - destruct H as [[-> H2] H3]. specialize (Hf i t u H2 H3). destruct (f i t) as [i1 t1|c1 e1|n1| |], (f' (plain mem i) u) as [j1 u1|d1 f1|m1| |]; exact Hf.
    - destruct H as [[H1 H2] H3]. auto.
  Qed.
  Lemma shows_map : forall T T' U U' E E' (RT : T -> T' -> Prop) (RU : U -> U' -> Prop) (RE : E -> E' -> Prop) f f' s z r,
    (forall t t', RT t t' -> RU (f t) (f' t')) -> shows mem Rel s RT RE z r -> shows mem Rel s RU RE (l_map f z) (map f' r).
  Proof.
    intros T T' U U' E E' RT RU RE f f' s z r Hf H. destruct z as [i t|c e|n| |], r as [j u|d g|m| |]; cbn [shows l_map map] in *; try contradiction; auto.
    destruct H as [[H1 H2] H3]. auto.
  Qed.
  Lemma shows_map_err : forall T T' E E' F F' (RT : T -> T' -> Prop) (RE : E -> E' -> Prop) (RF : F -> F' -> Prop) f f' s z r,
    (forall t t', RE t t' -> RF (f t) (f' t')) -> shows mem Rel s RT RE z r -> shows mem Rel s RT RF (l_map_err f z) (map_err f' r).
  Proof.
    intros T T' E E' F F' RT RE RF f f' s z r Hf H. destruct z as [i t|c e|n| |], r as [j u|d g|m| |]; cbn [shows l_map_err map_err] in *; try contradiction; auto.
    destruct H as [[H1 H2] H3]. auto.
  Qed.
  Lemma shows_inspect : forall T T' E E' W W' (RT : T -> T' -> Prop) (RE : E -> E' -> Prop) (RW : W -> W' -> Prop) f f' s z r w w',
    (forall t t' w w', RT t t' -> RW w w' -> RW (f t w) (f' t' w')) -> RW w w' -> shows mem Rel s RT RE z r ->
    shows mem Rel s RT RE (fst (l_inspect f z w)) (fst (inspect f' r w')) /\ RW (snd (l_inspect f z w)) (snd (inspect f' r w')).
  Proof.
    intros T T' E E' W W' RT RE RW f f' s z r w w' Hf Hw H. destruct z as [i t|c e|n| |], r as [j u|d g|m| |]; cbn [shows l_inspect inspect fst snd] in *; try contradiction; auto.
    split; [exact H|]. apply Hf; [apply H|exact Hw].
  Qed.

  (** Parsers. *)
  Section Two.
    Context {T T' E E' : Type}.
    Variable RT : slice -> T -> T' -> Prop.
    Variable RE : slice -> E -> E' -> Prop.

    Lemma follows_ret : forall t t', (forall s, RT s t t') -> follows mem Rel RT RE (l_ret t) (ret t').
    Proof. intros t t' H i. cbn. repeat split; [apply (pl_refl HR)|apply H]. Qed.
    Lemma follows_err : forall e e', (forall s, RE s e e') -> follows mem Rel RT RE (l_err e) (err e').
    Proof. intros t t' H i. cbn. repeat split; [apply (pl_refl HR)|apply H]. Qed.
    Lemma follows_incomplete : forall n, follows mem Rel RT RE (l_incomplete n) (incomplete n).
    Proof. intros n i. reflexivity. Qed.
    Lemma follows_from_result : forall r r', match r, r' with inl t, inl t' => forall s, RT s t t' | inr e, inr e' => forall s, RE s e e' | _, _ => False end ->
      follows mem Rel RT RE (l_from_result r) (from_result r').
    Proof. intros [t|e] [t'|e'] H i; try contradiction; cbn; repeat split; try apply (pl_refl HR); apply H. Qed.

    Lemma follows_option : forall f f' d d', follows mem Rel RT RE f f' -> (forall s, RT s d d') -> follows mem Rel RT RE (l_option_ f d) (option_ f' d').
    Proof.
      intros f f' d d' Hf Hd i. unfold l_option_, option_. specialize (Hf i).
      destruct (f i) as [j t|c e|n| |], (f' (plain mem i)) as [j' t'|c' e'|n'| |]; cbn [shows] in *; try contradiction; auto.
      - cbn. repeat split; [apply (pl_refl HR)|apply Hd].
      - subst n'. cbn [plain last]. destruct (l_last i); cbn; [|reflexivity]. repeat split; [apply (pl_refl HR)|apply Hd].
    Qed.
    Lemma follows_or : forall f f' g g', follows mem Rel RT RE f f' -> follows mem Rel RT RE g g' -> follows mem Rel RT RE (l_or_ f g) (or_ f' g').
    Proof.
      intros f f' g g' Hf Hg i. unfold l_or_, or_. specialize (Hf i).
      destruct (f i) as [j t|c e|n| |], (f' (plain mem i)) as [j' t'|c' e'|n'| |]; cbn [shows] in *; try contradiction; auto.
      subst n'. cbn [plain last]. destruct (l_last i); [apply Hg|reflexivity].
    Qed.
    Lemma follows_look_ahead : forall f f', follows mem Rel RT RE f f' -> follows mem Rel RT RE (l_look_ahead f) (look_ahead f').
    Proof.
      intros f f' Hf i. unfold l_look_ahead, look_ahead. specialize (Hf i).
      destruct (f i) as [j t|c e|n| |], (f' (plain mem i)) as [j' t'|c' e'|n'| |]; cbn [shows] in *; try contradiction; auto.
      cbn. repeat split; [apply (pl_refl HR)|apply Hf].
    Qed.
    Lemma follows_matched_by : forall f f', follows mem Rel RT RE f f' ->
      follows mem Rel (fun s x y => piece mem s (fst x) (fst y) /\ RT s (snd x) (snd y)) RE (l_matched_by f) (matched_by f').
    Proof.
      intros f f' Hf i. unfold l_matched_by, matched_by. specialize (Hf i).
      destruct (f i) as [j t|c e|n| |], (f' (plain mem i)) as [j' t'|c' e'|n'| |]; cbn [shows] in *; try contradiction; auto.
      destruct Hf as [[-> Hr] Ht]. cbn [plain buf]. rewrite !read_length. destruct (Nat.ltb_spec (s_len (l_buf i)) (s_len (l_buf j))) as [Hl|Hl]; [exact Logic.I|].
      unfold to_index. destruct (Nat.leb_spec (s_len (l_buf i) - s_len (l_buf j)) (s_len (l_buf i))) as [Hn|Hn]; [|lia]. cbn. repeat split; [exact Hr|cbn; lia|cbn; lia| |exact Ht].
      destruct (l_buf i) as [a n]. cbn [s_at s_len] in *. apply read_to. exact Hn.
    Qed.
  End Two.

  Lemma s_up : forall S S' T T' E E' (RS : S -> S' -> Prop) (RT : slice -> T -> T' -> Prop) (RE : slice -> E -> E' -> Prop) z p s, steady Rel RT -> steady Rel RE ->
    s_follows mem Rel RS RT RE z p ->
    (forall st st', RS st st' -> forall i j, at_rel mem Rel s i j -> shows mem Rel s (RT s) (RE s) (fst (z st i)) (fst (p st' j))) /\
    (forall st st', RS st st' -> forall i j, at_rel mem Rel s i j -> RS (snd (z st i)) (snd (p st' j))).
  Proof.
    intros S S' T T' E E' RS RT RE z p s HT HE H. split; intros st st' Hst i j [-> Hi]; destruct (H st st' Hst i) as [H1 H2]; [|exact H2].
    eapply shows_up; eassumption.
  Qed.

  (** Loops. *)
  Section Loops.
    Context {S S' X X' U U' V V' T T' C C' E E' N N' : Type}.
    Variable RS : S -> S' -> Prop.
    Variable RX : X -> X' -> Prop.
    Variable RU : slice -> U -> U' -> Prop.
    Variable RV : slice -> V -> V' -> Prop.
    Variable RT : slice -> T -> T' -> Prop.
    Variable RC : slice -> C -> C' -> Prop.
    Variable RE : slice -> E -> E' -> Prop.
    Variable RN : slice -> N -> N' -> Prop.
    Variable p : l_sparser S U E.
    Variable q : sparser S' I U' E'.
    Variable end1 : l_sparser X V N.
    Variable end2 : sparser X' I V' N'.
    Variable col : collector U T C.
    Variable col' : collector U' T' C'.
    Hypothesis HU : steady Rel RU.
    Hypothesis HE : steady Rel RE.
    Hypothesis HV : steady Rel RV.
    Hypothesis HN : steady Rel RN.
    Hypothesis Hp : s_follows mem Rel RS RU RE p q.
    Hypothesis He : s_follows mem Rel RX RV RN end1 end2.
    Hypothesis Hc : forall s, col_rel (RU s) (RT s) (RC s) col col'.

    Lemma follows_many : forall fuel r s s', RS s s' -> follows mem Rel RT RE (l_bmany fuel col r s p) (bmany fuel col' r s' q).
    Proof.
      intros fuel r s s' Hs i. destruct (s_up (l_buf i) HU HE Hp) as [H1 H2]. eapply bmany_rel; [exact H1|exact H2|apply Hc|exact Hs|split; [reflexivity|apply (pl_refl HR)]].
    Qed.
    Lemma follows_skip : forall fuel r s s', RS s s' -> follows mem Rel (@no_slices unit) RE (l_bskip_many fuel r s p) (bskip_many fuel r s' q).
    Proof.
      intros fuel r s s' Hs i. destruct (s_up (l_buf i) HU HE Hp) as [H1 H2].
      pose proof (@bskip_rel _ mem Rel (l_buf i) _ _ _ _ _ _ _ _ _ _ _ H1 H2 fuel r s s' i (plain mem i) Hs (conj eq_refl (pl_refl HR _))) as H.
      destruct (l_bskip_many fuel r s p i) as [j t|c e|n| |], (bskip_many fuel r s' q (plain mem i)) as [j' t'|c' e'|n'| |]; cbn [shows] in *; try contradiction; auto.
      destruct t, t'. split; [apply H|reflexivity].
    Qed.
    Lemma follows_till : forall fuel r s s' x x', RS s s' -> RX x x' ->
      follows mem Rel RT RE (l_bmany_till fuel col r s x p end1) (bmany_till fuel col' r s' x' q end2).
    Proof.
      intros fuel r s s' x x' Hs Hx i. destruct (s_up (l_buf i) HU HE Hp) as [H1 H2]. destruct (s_up (l_buf i) HV HN He) as [H3 H4].
      eapply bmany_till_rel; [exact H1|exact H2|exact H3|exact H4|apply Hc|exact Hs|exact Hx|split; [reflexivity|apply (pl_refl HR)]].
    Qed.
  End Loops.
End Closed.

Section Sep.
  Context {I : Type}.
  Variable mem : nat -> I.
  Variable Rel : slice -> slice -> Prop.
  Hypothesis HR : placing Rel.
  Context {S S' X X' U U' V V' E E' N N' : Type}.
  Variable RS : S -> S' -> Prop.
  Variable RX : X -> X' -> Prop.
  Variable RU : slice -> U -> U' -> Prop.
  Variable RV : slice -> V -> V' -> Prop.
  Variable RE : slice -> E -> E' -> Prop.
  Variable RN : slice -> N -> N' -> Prop.
  Variable p : l_sparser S U E.
  Variable q : sparser S' I U' E'.
  Variable sep1 : l_sparser X V N.
  Variable sep2 : sparser X' I V' N'.
  Variable conv : N -> E.
  Variable conv' : N' -> E'.
  Hypothesis HU : steady Rel RU.
  Hypothesis HE : steady Rel RE.
  Hypothesis HV : steady Rel RV.
  Hypothesis HN : steady Rel RN.
  Hypothesis Hconv : forall s e e', RN s e e' -> RE s (conv e) (conv' e').
  Hypothesis Hp : s_follows mem Rel RS RU RE p q.
  Hypothesis He : s_follows mem Rel RX RV RN sep1 sep2.

  Lemma sep_follows : s_follows mem Rel (sep_rel RS RX) RU RE (l_sep_item conv p sep1) (sep_item conv' q sep2).
  Proof.
    intros s s' Hs i. destruct (s_up HR (l_buf i) HU HE Hp) as [H1 H2]. destruct (s_up HR (l_buf i) HV HN He) as [H3 H4].
    eapply sep_item_rel; [exact H1|exact H2|exact H3|exact H4|apply Hconv|exact Hs|split; [reflexivity|apply (pl_refl HR)]].
  Qed.
End Sep.

(** * Parsers *)
Section Prim.
  Context {I : Type}.
  Variable v : bool.
  Variable eqb : I -> I -> bool.
  Variable mem : nat -> I.

  Lemma cut_follows : forall T T' (RT : T -> T' -> Prop) (Rel : slice -> slice -> Prop) b n l (t : slice -> T) t', (forall m, m <= s_len b -> Rel (mkSlice (s_at b + m) (s_len b - m)) b) -> n <= s_len b ->
    (inside (mkSlice (s_at b) n) b -> read mem (mkSlice (s_at b) n) = firstn n (read mem b) -> RT (t (mkSlice (s_at b) n)) t') ->
    shows mem Rel b RT (@eq (error I)) (from_index b n (fun r => to_index b n (fun d => l_ret (t d) (mkLInput l r)))) (ret t' (mkInput l (skipn n (read mem b)))).
  Proof.
    intros T T' RT Rel b n l t t' HR Hn Ht. unfold from_index, to_index. destruct (Nat.leb_spec n (s_len b)) as [_|]; [|lia]. cbn [shows l_ret ret]. split; [split|].
    - unfold plain. cbn [l_last l_buf]. rewrite read_from. destruct b; reflexivity.
    - apply HR. exact Hn.
    - apply Ht; [split; cbn; lia|]. destruct b as [a m]. apply read_to. exact Hn.
  Qed.
  Lemma from_follows : forall T T' (RT : T -> T' -> Prop) (Rel : slice -> slice -> Prop) b n l t t', (forall m, m <= s_len b -> Rel (mkSlice (s_at b + m) (s_len b - m)) b) -> n <= s_len b -> RT t t' ->
    shows mem Rel b RT (@eq (error I)) (from_index b n (fun r => l_ret t (mkLInput l r))) (ret t' (mkInput l (skipn n (read mem b)))).
  Proof.
    intros T T' RT Rel b n l t t' HR Hn Ht. unfold from_index. destruct (Nat.leb_spec n (s_len b)) as [_|]; [|lia]. cbn [shows l_ret ret]. split; [split|exact Ht].
    - unfold plain. cbn [l_last l_buf]. rewrite read_from. destruct b; reflexivity.
    - apply HR. exact Hn.
  Qed.

  Lemma end_cut : forall b m, m <= s_len b -> end_of (mkSlice (s_at b + m) (s_len b - m)) b.
  Proof. intros b m Hm. split; [split|]; cbn; lia. Qed.
  Lemma end_refl : forall b, end_of b b.
  Proof. intros b. apply (pl_refl placing_end). Qed.

  Lemma first_none : forall b, first (read mem b) = None -> s_len b = 0.
  Proof. intros [a [|n]] H; [reflexivity|discriminate]. Qed.
  Lemma first_some : forall b c, first (read mem b) = Some c -> 1 <= s_len b.
  Proof. intros [a [|n]] c H; cbn in *; [discriminate|lia]. Qed.

  Ltac one := intros i; cbn [plain buf last]; cbv zeta; destruct (first (read mem (l_buf i))) as [c|] eqn:Ec; [apply first_some in Ec|reflexivity].
  Ltac cut := unfold replace, l_replace; apply from_follows; [apply end_cut|auto|try reflexivity].

  Lemma any_end : follows mem end_of (@no_slices I) (@no_slices (error I)) (l_any mem) (@any I).
  Proof. unfold l_any, any. one. cut. Qed.
  Lemma satisfy_end : forall f, follows mem end_of (@no_slices I) (@no_slices (error I)) (l_satisfy v mem f) (satisfy v f).
  Proof. intros f. unfold l_satisfy, satisfy. one. destruct (f c); [cut|]. cbn. repeat split; apply end_refl. Qed.
  Lemma satisfy_with_end : forall T (f : I -> T) p, follows mem end_of (@no_slices T) (@no_slices (error I)) (l_satisfy_with v mem f p) (satisfy_with v f p).
  Proof. intros T f p. unfold l_satisfy_with, satisfy_with. one. destruct (p (f c)); [cut|]. cbn. repeat split; apply end_refl. Qed.
  Lemma token_end : forall t, follows mem end_of (@no_slices I) (@no_slices (error I)) (l_token v eqb mem t) (token v eqb t).
  Proof. intros t. unfold l_token, token. one. destruct (eqb t c); [cut|]. cbn. repeat split; apply end_refl. Qed.
  Lemma not_token_end : forall t, follows mem end_of (@no_slices I) (@no_slices (error I)) (l_not_token v eqb mem t) (not_token v eqb t).
  Proof. intros t. unfold l_not_token, not_token. one. destruct (negb (eqb t c)); [cut|]. cbn. repeat split; apply end_refl. Qed.
  Lemma peek_end : follows mem end_of (@no_slices (option I)) (@no_slices (error I)) (l_peek mem) (@peek I).
  Proof. intros i. cbn. repeat split; apply end_refl. Qed.
  Lemma peek_next_end : follows mem end_of (@no_slices I) (@no_slices (error I)) (l_peek_next mem) (@peek_next I).
  Proof. unfold l_peek_next, peek_next. one. cbn. repeat split; apply end_refl. Qed.
  Lemma take_end : forall n, follows mem end_of (piece mem) (@no_slices (error I)) (@l_take I n) (@take I n).
  Proof.
    intros n i. unfold l_take, take. cbn [plain buf last]. rewrite read_length. destruct (Nat.leb_spec n (s_len (l_buf i))) as [H|H]; [|reflexivity].
    unfold replace, l_replace. apply (@cut_follows slice (list I) _ end_of _ _ _ (fun d => d)); [apply end_cut|exact H|]. intros H1 H2. split; assumption.
  Qed.

  Lemma position_bound : forall f b n, position f (read mem b) = Some n -> n < s_len b.
  Proof. intros f b n H. apply position_le in H. rewrite read_length in H. exact H. Qed.
  Lemma position_st_le : forall A S (f : S -> A -> bool * S) l s n s', position_st f s l = (Some n, s') -> n < length l.
  Proof.
    intros A S f. induction l as [|c l IH]; intros s n s' H; cbn [position_st] in H; [discriminate|].
    destruct (f s c) as [stop s1]. destruct stop; [inversion H; cbn; lia|]. destruct (position_st f s1 l) as [[m|] s2] eqn:Em; cbn [option_map] in H; [|discriminate].
    inversion H. subst. apply IH in Em. cbn. lia.
  Qed.
  Lemma mismatch_le : forall l d j n, string_mismatch eqb j l d = Some n -> n < j + length l.
  Proof.
    induction l as [|x l IH]; intros [|y d] j n H; cbn [string_mismatch] in H; try discriminate. destruct (negb (eqb x y)); [inversion H; cbn; lia|].
    apply IH in H. cbn. lia.
  Qed.
  Lemma rest_cut : forall b m, m <= s_len b -> rest_of (mkSlice (s_at b + m) (s_len b - m)) b.
  Proof. intros b m Hm. apply end_rest, end_cut, Hm. Qed.
  Lemma rest_start : forall b, rest_of (mkSlice (s_at b) 0) b.
  Proof. intros b. split; [split|left]; cbn; lia. Qed.

  Ltac cut_piece := unfold replace, l_replace; apply (@cut_follows slice (list I) _ _ _ _ _ (fun d => d)); [apply end_cut || apply rest_cut|lia|intros H1 H2; split; assumption].

  Lemma take_till_end : forall f, follows mem end_of (piece mem) (@no_slices (error I)) (l_take_till mem f) (take_till f).
  Proof.
    intros f i. unfold l_take_till, take_till. cbn [plain buf last]. cbv zeta. destruct (position f (read mem (l_buf i))) as [n|] eqn:En; [|reflexivity].
    apply position_bound in En. cut_piece.
  Qed.
  Lemma scan_end : forall S (s : S) f, follows mem end_of (piece mem) (@no_slices (error I)) (l_scan mem s f) (scan s f).
  Proof.
    intros S s f i. unfold l_scan, scan. cbn [plain buf last]. cbv zeta. destruct (position_st _ _ (read mem (l_buf i))) as [[n|] [st|]] eqn:En; try reflexivity.
    apply position_st_le in En. rewrite read_length in En. cut_piece.
  Qed.
  Lemma run_scanner_end : forall S (s : S) f, follows mem end_of (fun z x y => piece mem z (fst x) (fst y) /\ snd x = snd y) (@no_slices (error I)) (l_run_scanner mem s f) (run_scanner s f).
  Proof.
    intros S s f i. unfold l_run_scanner, run_scanner. cbn [plain buf last]. cbv zeta. destruct (position_st _ _ (read mem (l_buf i))) as [[n|] st] eqn:En; [|reflexivity].
    apply position_st_le in En. rewrite read_length in En. unfold replace, l_replace. apply (@cut_follows (slice * S) (list I * S) _ _ _ _ _ (fun d => (d, st))); [apply end_cut|lia|].
    intros H1 H2. split; [split; assumption|reflexivity].
  Qed.
  Lemma string_end : forall l, follows mem end_of (piece mem) (@no_slices (error I)) (l_string v eqb mem l) (string v eqb l).
  Proof.
    intros l i. unfold l_string, string. cbn [plain buf last]. cbv zeta. rewrite read_length. destruct (Nat.ltb_spec (s_len (l_buf i)) (length l)) as [Hl|Hl]; [reflexivity|].
    assert (Hr : read mem (mkSlice (s_at (l_buf i)) (length l)) = firstn (length l) (read mem (l_buf i))) by (destruct (l_buf i); apply read_to, Hl).
    unfold to_index. destruct (Nat.leb_spec (length l) (s_len (l_buf i))) as [_|]; [|lia]. rewrite <- Hr.
    destruct (string_mismatch eqb 0 l (read mem (mkSlice (s_at (l_buf i)) (length l)))) as [j|] eqn:Ej.
    - apply mismatch_le in Ej. cbn [Nat.add] in Ej. unfold l_err_string, err_string. destruct v; [cbn; repeat split; apply end_refl|].
      unfold from_index. destruct (Nat.leb_spec j (s_len (l_buf i))) as [_|]; [|lia]. cbn [shows l_err err l_replace replace l_buf buf plain]. split; [split; [|apply end_cut; lia]|reflexivity].
      rewrite read_from. destruct (l_buf i); reflexivity.
    - unfold replace, l_replace. apply from_follows; [apply end_cut|exact Hl|]. split; [split; cbn; lia|reflexivity].
  Qed.
  Lemma eof_end : follows mem end_of (@no_slices unit) (@no_slices (error I)) (@l_eof I v) (@eof I v).
  Proof.
    intros i. unfold l_eof, eof. cbn [plain buf last]. rewrite read_length. destruct ((s_len (l_buf i) =? 0) && l_last i); cbn; repeat split; apply end_refl.
  Qed.

  Lemma whole_follows : forall i, shows mem rest_of (l_buf i) (piece mem (l_buf i)) (@eq (error I)) (to_index (l_buf i) 0 (fun r => l_ret (l_buf i) (l_replace i r)))
    (ret (read mem (l_buf i)) (replace (plain mem i) (firstn 0 (read mem (l_buf i))))).
  Proof. intros i. unfold to_index. cbn [Nat.leb]. cbn [shows l_ret ret]. split; [split|]; [reflexivity|apply rest_start|split; [apply inside_refl|reflexivity]]. Qed.

  Lemma take_while_rest : forall f, follows mem rest_of (piece mem) (@no_slices (error I)) (l_take_while mem f) (take_while f).
  Proof.
    intros f i. unfold l_take_while, take_while. cbv zeta. change (buf (plain mem i)) with (read mem (l_buf i)). change (last (plain mem i)) with (l_last i).
    destruct (position _ (read mem (l_buf i))) as [n|] eqn:En; [apply position_bound in En; cut_piece|]. destruct (l_last i); [|reflexivity]. apply whole_follows.
  Qed.
  Lemma take_while1_rest : forall f, follows mem rest_of (piece mem) (@no_slices (error I)) (l_take_while1 v mem f) (take_while1 v f).
  Proof.
    intros f i. unfold l_take_while1, take_while1. cbv zeta. change (buf (plain mem i)) with (read mem (l_buf i)). change (last (plain mem i)) with (l_last i). rewrite read_length.
    destruct (position _ (read mem (l_buf i))) as [[|n]|] eqn:En; [cbn; repeat split; apply (pl_refl placing_rest)|apply position_bound in En; cut_piece|].
    destruct ((0 <? s_len (l_buf i)) && l_last i); [|reflexivity]. apply whole_follows.
  Qed.
  Lemma take_remainder_rest : follows mem rest_of (piece mem) (@no_slices (error I)) (@l_take_remainder I) (@take_remainder I).
  Proof. intros i. apply whole_follows. Qed.
End Prim.
