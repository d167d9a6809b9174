(** Library-built parsers ask for no more than the expressions they are built from. *)
From Coq Require Import List Bool Arith Lia.
From Verif Require Import Base Parsers Combinators Buffer Stream Word SpecBuffer SpecStream SpecWord SafeProofs.
Import ListNotations.

Set Implicit Arguments.

Section Few.
Variable N : nat.
Hypothesis HN : 1 <= N.

Definition few {I T E} (r : pres I T E) : Prop := match r with Incomplete n => n <= N | _ => True end.

Lemma few_bind : forall I T U E V (conv : E -> V) (r : pres I T E) (f : input I -> T -> pres I U V),
  few r -> (forall j t, few (f j t)) -> few (bind conv r f).
Proof.
  intros I T U E V conv r f Hr Hf. destruct r as [j t|b e|n| |]; simpl in *; auto.
  specialize (Hf j t). destruct (f j t); simpl in *; auto.
Qed.

Section Iter.
  Context {S I U E : Type}.
  Variable p : sparser S I U E.
  Hypothesis Hp : forall s i, few (fst (p s i)).

  Definition it_few {D} (it : iter S I E D) : Prop := match it_state it with ESIncomplete n => n <= N | _ => True end.

  Lemma run_iter_few : forall T D C fuel (col : collector U T C) i0 s0 (data : D) hint pre on fin,
    (forall t j d st, match st with ESIncomplete n => n <= N | _ => True end -> few (fin t j d st)) ->
    few (run_iter fuel col i0 s0 p data hint pre on fin).
  Proof.
    intros T D C fuel col i0 s0 data hint pre on fin Hfin. unfold run_iter.
    destruct (from_iter _ _ _ _ _ _) as [t it| |] eqn:Hf; simpl; auto.
    apply Hfin. change (it_few it).
    eapply from_iter_inv with (P := it_few); [|..|exact Hf].
    - intros it1 H1. unfold iter_next. destruct (pre (it_data it1)); auto.
      pose proof (Hp (it_ps it1) (it_buf it1)) as Hh. destruct (p (it_ps it1) (it_buf it1)) as [[j v|b e|n| |] s]; unfold it_few in *; simpl in *; auto.
    - exact HN.
  Qed.
End Iter.

Ltac fin_few :=
  intros ? ? d st Hst; unfold ret, err, incomplete, replace; match type of d with (_ * _)%type => destruct d | _ => idtac end;
  destruct st; repeat match goal with |- context [match ?x with _ => _ end] => destruct x eqn:? end; simpl; auto.

Lemma bmany_few : forall S I U T E C fuel (col : collector U T C) r s0 (p : sparser S I U E),
  (forall s i, few (fst (p s i))) -> forall i, few (bmany fuel col r s0 p i).
Proof.
  intros S I U T E C fuel col r s0 p Hp i. destruct r as [a b|a| |b|n]; cbn [bmany].
  - unfold parse_many_range. destruct (negb (a <=? b)); [exact Logic.I|]. apply run_iter_few; auto. fin_few.
  - unfold parse_many_from. apply run_iter_few; auto. fin_few.
  - unfold parse_many_full. apply run_iter_few; auto. fin_few.
  - unfold parse_many_to. apply run_iter_few; auto. fin_few.
  - unfold parse_many_exact. apply run_iter_few; auto. fin_few.
Qed.

Section Skip.
  Context {S I U E : Type}.
  Variable p : sparser S I U E.
  Hypothesis Hp : forall s i, few (fst (p s i)).

  Ltac skip_step IH := intros; cbn; try (destruct (_ =? 0) eqn:?; [simpl; auto|]);
    match goal with |- context [p ?s ?i] => let H := fresh "Hh" in pose proof (Hp s i) as H; destruct (p s i) as [[?j ?v|?b ?e|?k| |] ?s'] end;
    simpl in *; auto; unfold ret, err, incomplete, replace;
    repeat match goal with |- context [if ?x then _ else _] => destruct x end; simpl; auto.

  Lemma skip_range_few : forall fuel a b s i, few (skip_loop_range p fuel a b s i).
  Proof. induction fuel as [|fuel IH]; [simpl; auto|]. skip_step IH. Qed.
  Lemma skip_from_few : forall fuel a s i, few (skip_many_from p fuel s a i).
  Proof. induction fuel as [|fuel IH]; [simpl; auto|]. skip_step IH. Qed.
  Lemma skip_full_few : forall fuel s i, few (skip_many_full p fuel s i).
  Proof. induction fuel as [|fuel IH]; [simpl; auto|]. skip_step IH. Qed.
  Lemma skip_to_few : forall fuel b s i, few (skip_loop_to p fuel b s i).
  Proof. induction fuel as [|fuel IH]; [simpl; auto|]. skip_step IH. Qed.
  Lemma skip_exact_few : forall fuel n s i, few (skip_many_exact p fuel s n i).
  Proof. induction fuel as [|fuel IH]; [simpl; auto|]. skip_step IH. Qed.

  Lemma bskip_few : forall fuel r s0 i, few (bskip_many fuel r s0 p i).
  Proof.
    intros fuel r s0 i. destruct r as [a b|a| |b|n]; cbn [bskip_many]; unfold skip_many_range, skip_many_to.
    - destruct (negb _); [exact Logic.I|]. apply skip_range_few.
    - apply skip_from_few.
    - apply skip_full_few.
    - apply skip_to_few.
    - apply skip_exact_few.
  Qed.
End Skip.

Section Till.
  Context {S SE I U V E X : Type}.
  Variable p : sparser S I U E.
  Variable end_ : sparser SE I V X.
  Hypothesis Hp : forall s i, few (fst (p s i)).

  Definition tt_few {D} (it : iter_till S SE I E D) : Prop := match tt_state it with TIncomplete n => n <= N | _ => True end.

  Definition pre_few {D} (pre : iter_till S SE I E D -> pre_res (iter_till S SE I E D)) : Prop :=
    forall it, tt_few it -> match pre it with PreGo it' => tt_few it' | PreNone it' => tt_few it' | _ => True end.

  Lemma end_test_few : forall D, pre_few (@end_test S SE I V X E D end_).
  Proof.
    intros D it H. unfold end_test. destruct (end_ (tt_es it) (tt_buf it)) as [[j v|b e|n| |] s]; unfold tt_few in *; simpl in *; auto.
  Qed.

  Lemma pre_seq_few : forall D (a : iter_till S SE I E D -> pre_res (iter_till S SE I E D)) k,
    pre_few a -> pre_few k -> pre_few (fun it => pre_seq (a it) k).
  Proof. intros D a k Ha Hk it Hit. specialize (Ha it Hit). unfold pre_seq. destruct (a it); auto. apply Hk. assumption. Qed.
  Lemma pre_if_few : forall D (c : D -> bool) (a b : iter_till S SE I E D -> pre_res (iter_till S SE I E D)),
    pre_few a -> pre_few b -> pre_few (fun it => if c (tt_data it) then a it else b it).
  Proof. intros D c a b Ha Hb it Hit. destruct (c (tt_data it)); [apply Ha|apply Hb]; assumption. Qed.
  Lemma pre_go_few : forall D, pre_few (fun it : iter_till S SE I E D => PreGo it).
  Proof. intros D it H. exact H. Qed.
  Lemma pre_none_few : forall D, pre_few (fun it : iter_till S SE I E D => PreNone it).
  Proof. intros D it H. exact H. Qed.

  Lemma run_iter_till_few : forall T D C fuel (col : collector U T C) i0 s0 e0 (data : D) hint pre on fin,
    pre_few pre ->
    (forall t j d st, match st with TIncomplete n => n <= N | _ => True end -> few (fin t j d st)) ->
    few (run_iter_till fuel col i0 s0 e0 p data hint pre on fin).
  Proof.
    intros T D C fuel col i0 s0 e0 data hint pre on fin Hpre Hfin. unfold run_iter_till.
    destruct (from_iter _ _ _ _ _ _) as [t it| |] eqn:Hf; simpl; auto.
    apply Hfin. change (tt_few it).
    eapply from_iter_inv with (P := tt_few); [|..|exact Hf].
    - intros it1 Hit1. specialize (Hpre it1 Hit1). unfold iter_till_next. destruct (pre it1) as [it2|it2| |]; auto.
      pose proof (Hp (tt_ps it2) (tt_buf it2)) as Hh. destruct (p (tt_ps it2) (tt_buf it2)) as [[j v|b e|n| |] s]; unfold tt_few in *; simpl in *; auto.
    - exact HN.
  Qed.
End Till.

Lemma bmany_till_few : forall S SE I U V T E X C fuel (col : collector U T C) r s0 e0 (p : sparser S I U E) (end_ : sparser SE I V X),
  (forall s i, few (fst (p s i))) -> forall i, few (bmany_till fuel col r s0 e0 p end_ i).
Proof.
  intros S SE I U V T E X C fuel col r s0 e0 p end_ Hp i.
  pose proof (@end_test_few S SE I V E X end_) as Het.
  destruct r as [a b|a| |b|n]; cbn [bmany_till].
  - unfold many_till_range. destruct (negb (a <=? b)); [exact Logic.I|]. apply run_iter_till_few; auto; [|fin_few].
    apply pre_seq_few with (a := fun it => if fst (tt_data it) =? 0 then end_test end_ it else PreGo it).
    + apply (pre_if_few (fun d => fst d =? 0)); [apply Het|apply pre_go_few].
    + apply (pre_if_few (fun d => snd d =? 0)); [|apply pre_go_few]. apply pre_seq_few with (a := fun it => end_test end_ it); [apply Het|apply pre_none_few].
  - unfold many_till_from. apply run_iter_till_few; auto; [|fin_few]. apply (pre_if_few (fun d => d =? 0)); [apply Het|apply pre_go_few].
  - unfold many_till_full. apply run_iter_till_few; auto. fin_few.
  - unfold many_till_to. apply run_iter_till_few; auto; [|fin_few].
    apply pre_seq_few with (a := fun it => end_test end_ it); [apply Het|]. apply (pre_if_few (fun d => d =? 0)); [apply pre_none_few|apply pre_go_few].
  - unfold many_till_exact. apply run_iter_till_few; auto; [|fin_few].
    apply (pre_if_few (fun d => d =? 0)); [|apply pre_go_few]. apply pre_seq_few with (a := fun it => end_test end_ it); [apply Het|apply pre_none_few].
Qed.

Lemma sep_item_few : forall SP SS I U V E X (conv : X -> E) (p : sparser SP I U E) (sep : sparser SS I V X),
  (forall s i, few (fst (p s i))) -> (forall s i, few (fst (sep s i))) -> forall s i, few (fst (sep_item conv p sep s i)).
Proof.
  intros SP SS I U V E X conv p sep Hp Hs [[item sp] ss] i. unfold sep_item.
  assert (Hsep := Hs ss i).
  destruct item.
  - destruct (sep ss i) as [[j v|b e|n| |] ss']; cbn -[few]; auto.
    assert (Hpj := Hp sp j). destruct (p sp j) as [[k u|b e|n| |] sp']; cbn -[few]; auto.
  - cbn -[few]. assert (Hpi := Hp sp i). destruct (p sp i) as [[k u|b e|n| |] sp']; cbn -[few]; auto.
Qed.

Lemma frugal_few : forall I T E (p : parser I T E), frugal N p -> forall i, few (p i).
Proof.
  induction 1; intros i; unfold ret, err, incomplete, from_result; simpl; auto.
  - rewrite <- H0. apply IHfrugal.
  - destruct r; simpl; auto.
  - specialize (IHfrugal i). destruct (p i); simpl in *; auto.
  - specialize (IHfrugal i). destruct (p i); simpl in *; auto.
  - specialize (IHfrugal i). destruct (p i); simpl in *; auto.
  - apply few_bind; auto.
  - apply few_bind; auto.
  - unfold any. destruct (buf i) as [|c r]; simpl; auto.
  - unfold satisfy. destruct (buf i) as [|c r]; simpl; auto. destruct (f c); simpl; auto.
  - unfold satisfy_with. destruct (buf i) as [|c r]; simpl; auto. destruct (g (f c)); simpl; auto.
  - unfold token. destruct (buf i) as [|c r]; simpl; auto. destruct (eqb t c); simpl; auto.
  - unfold not_token. destruct (buf i) as [|c r]; simpl; auto. destruct (eqb t c); simpl; auto.
  - unfold peek_next. destruct (buf i) as [|c r]; simpl; auto.
  - unfold take. destruct (Nat.leb_spec n (length (buf i))); simpl; auto. lia.
  - unfold take_while. destruct (position _ _); simpl; auto. destruct (last i); simpl; auto.
  - unfold take_while1. destruct (position _ _) as [[|n]|]; simpl; auto. dif; simpl; auto.
  - unfold take_till. destruct (position _ _); simpl; auto.
  - unfold scan. destruct (position_st _ _ _) as [[n|] [st|]]; simpl; auto.
  - unfold run_scanner. destruct (position_st _ _ _) as [[n|] st]; simpl; auto.
  - unfold string. destruct (Nat.ltb_spec (length (buf i)) (length s)); [simpl; lia|].
    destruct (string_mismatch _ _ _ _); unfold err_string; [destruct v|]; simpl; auto.
  - unfold eof. dif; simpl; auto.
  - apply bmany_few. auto.
  - apply bskip_few. auto.
  - apply bmany_till_few; auto.
  - apply bmany_few. apply sep_item_few; auto.
  - apply bmany_few. apply sep_item_few; auto.
  - specialize (IHfrugal i). unfold option_. destruct (p i); simpl in *; auto. destruct (last i); simpl; auto.
  - specialize (IHfrugal1 i). specialize (IHfrugal2 i). unfold or_. destruct (p i); simpl in *; auto. destruct (last i); simpl; auto.
  - specialize (IHfrugal i). unfold matched_by. destruct (p i); simpl in *; auto. dif; simpl; auto.
  - specialize (IHfrugal i). unfold look_ahead. destruct (p i); simpl in *; auto.
Qed.
End Few.

Theorem frugal_asks : forall N I T E (p : parser I T E), 1 <= N -> frugal N p -> asks_at_most N p.
Proof. intros N I T E p HN Hp i n Hi. pose proof (frugal_few HN Hp i) as H. rewrite Hi in H. exact H. Qed.
