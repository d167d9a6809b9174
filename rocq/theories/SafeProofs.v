(** Proofs about library-built parsers. *)
From Coq Require Import List Bool Arith Lia.
From Verif Require Import Base Parsers Combinators SpecBase SpecSafe IterProofs.
Import ListNotations.

Set Implicit Arguments.

Lemma suffix_refl : forall A (b : list A), suffix b b.
Proof. intros. exists []. reflexivity. Qed.
Lemma suffix_trans : forall A (a b c : list A), suffix a b -> suffix b c -> suffix a c.
Proof. intros A a b c [x ->] [y ->]. exists (y ++ x). apply app_assoc. Qed.
Lemma suffix_skipn : forall A n (b : list A), suffix (skipn n b) b.
Proof. intros. exists (firstn n b). symmetry. apply firstn_skipn. Qed.
Lemma suffix_length : forall A (a b : list A), suffix a b -> length a <= length b.
Proof. intros A a b [x ->]. rewrite app_length. lia. Qed.
Lemma suffix_nil : forall A (b : list A), suffix [] b.
Proof. intros. exists b. symmetry. apply app_nil_r. Qed.
Lemma suffix_tail : forall A (x : A) b, suffix b (x :: b).
Proof. intros. exists [x]. reflexivity. Qed.
#[export] Hint Resolve suffix_refl suffix_skipn suffix_nil suffix_tail : safe.

(** * Well-behaved *)

Lemma honest_map_err_id : forall I T E (i : input I) (r : pres I T E), map_err (fun v => v) r = r.
Proof. intros. destruct r; reflexivity. Qed.

Lemma honest_from : forall I T E (i j : input I) (r : pres I T E), last j = last i -> suffix (buf j) (buf i) -> honest j r -> honest i r.
Proof.
  intros I T E i j r Hl Hs H. destruct r as [k v|b e|n| |]; simpl in *; auto.
  - destruct H. split; [congruence|eapply suffix_trans; eauto].
  - eapply suffix_trans; eauto.
Qed.

Lemma honest_bind : forall I T U E V (conv : E -> V) (i : input I) (r : pres I T E) (f : input I -> T -> pres I U V),
  honest i r -> (forall j t, honest j (f j t)) -> honest i (bind conv r f).
Proof.
  intros I T U E V conv i r f Hr Hf. destruct r as [j t|b e|n| |]; simpl in *; auto.
  destruct Hr as [Hl Hs]. rewrite honest_map_err_id by exact i. eapply honest_from; eauto.
Qed.

Lemma from_iter_inv : forall It U T C (next : It -> step It U) hint (act : C -> caction U T C) (P : It -> Prop),
  (forall it, P it -> match next it with Yield _ it' => P it' | Stop it' => P it' | _ => True end) ->
  forall fuel c it t it', P it -> from_iter fuel next hint act c it = FDone t it' -> P it'.
Proof.
  intros It U T C next hint act P Hn. induction fuel as [|fuel IH]; intros c it t it' HP H; [discriminate|].
  simpl in H. destruct (act c) as [t0|k|k|].
  - inversion H; subst; auto.
  - specialize (Hn it HP). destruct (next it) as [u it1|it1| |]; try discriminate; exact (IH _ _ _ _ Hn H).
  - exact (IH _ _ _ _ HP H).
  - discriminate.
Qed.

Section Iter.
  Context {S I U E : Type}.
  Variable p : sparser S I U E.
  Hypothesis Hp : forall s i, honest i (fst (p s i)).
  Variable i0 : input I.

  Definition it_ok {D} (it : iter S I E D) : Prop :=
    last (it_buf it) = last i0 /\ suffix (buf (it_buf it)) (buf i0) /\
    match it_state it with ESError b _ => suffix b (buf i0) | ESIncomplete n => 1 <= n end.

  Lemma run_iter_honest : forall T D C fuel (col : collector U T C) s0 (data : D) hint pre on fin,
    (forall t j d st, last j = last i0 -> suffix (buf j) (buf i0) ->
       match st with ESError b _ => suffix b (buf i0) | ESIncomplete n => 1 <= n end -> honest i0 (fin t j d st)) ->
    honest i0 (run_iter fuel col i0 s0 p data hint pre on fin).
  Proof.
    intros T D C fuel col s0 data hint pre on fin Hfin. unfold run_iter.
    destruct (from_iter _ _ _ _ _ _) as [t it| |] eqn:Hf; simpl; auto.
    assert (Hok : it_ok it).
    { eapply from_iter_inv with (P := it_ok); [|..|exact Hf].
      - intros it1 (H1 & H2 & H3). unfold iter_next. destruct (pre (it_data it1)); [repeat split; auto|].
        pose proof (Hp (it_ps it1) (it_buf it1)) as Hh. destruct (p (it_ps it1) (it_buf it1)) as [[j v|b e|n| |] s]; simpl in *; auto.
        + destruct Hh as [Hl Hs]. repeat split; simpl; auto; [congruence|eapply suffix_trans; eauto].
        + repeat split; simpl; auto. eapply suffix_trans; eauto.
        + repeat split; simpl; auto.
      - repeat split; simpl; auto with safe. }
    destruct Hok as (H1 & H2 & H3). apply Hfin; auto.
  Qed.
End Iter.

Ltac fin_honest :=
  intros ? ? d st Hl Hs Hst; unfold ret, err, incomplete, replace; match type of d with (_ * _)%type => destruct d | _ => idtac end;
  destruct st; repeat match goal with |- context [match ?x with _ => _ end] => destruct x eqn:? end; simpl; auto; split; congruence.

Lemma bmany_honest : forall S I U T E C fuel (col : collector U T C) r s0 (p : sparser S I U E),
  (forall s i, honest i (fst (p s i))) -> forall i, honest i (bmany fuel col r s0 p i).
Proof.
  intros S I U T E C fuel col r s0 p Hp i. destruct r as [a b|a| |b|n]; cbn [bmany].
  - unfold parse_many_range. destruct (negb (a <=? b)); [exact Logic.I|]. apply run_iter_honest; auto. fin_honest.
  - unfold parse_many_from. apply run_iter_honest; auto. fin_honest.
  - unfold parse_many_full. apply run_iter_honest; auto. fin_honest.
  - unfold parse_many_to. apply run_iter_honest; auto. fin_honest.
  - unfold parse_many_exact. apply run_iter_honest; auto. fin_honest.
Qed.

Section Skip.
  Context {S I U E : Type}.
  Variable p : sparser S I U E.
  Hypothesis Hp : forall s i, honest i (fst (p s i)).

  Ltac skip_step IH := intros; cbn; try (destruct (_ =? 0) eqn:?; [simpl; auto with safe|]);
    match goal with |- context [p ?s ?i] => let H := fresh "Hh" in pose proof (Hp s i) as H; destruct (p s i) as [[?j ?v|?b ?e|?k| |] ?s'] end;
    simpl in *; auto; unfold ret, err, incomplete, replace;
    repeat match goal with |- context [if ?x then _ else _] => destruct x end; simpl; auto with safe;
    match goal with H : _ /\ _ |- _ => destruct H; eapply honest_from; eauto end.

  Lemma skip_range_honest : forall fuel a b s i, honest i (skip_loop_range p fuel a b s i).
  Proof. induction fuel as [|fuel IH]; [simpl; auto|]. skip_step IH. Qed.
  Lemma skip_from_honest : forall fuel a s i, honest i (skip_many_from p fuel s a i).
  Proof. induction fuel as [|fuel IH]; [simpl; auto|]. skip_step IH. Qed.
  Lemma skip_full_honest : forall fuel s i, honest i (skip_many_full p fuel s i).
  Proof. induction fuel as [|fuel IH]; [simpl; auto|]. skip_step IH. Qed.
  Lemma skip_to_honest : forall fuel b s i, honest i (skip_loop_to p fuel b s i).
  Proof. induction fuel as [|fuel IH]; [simpl; auto|]. skip_step IH. Qed.
  Lemma skip_exact_honest : forall fuel n s i, honest i (skip_many_exact p fuel s n i).
  Proof. induction fuel as [|fuel IH]; [simpl; auto|]. skip_step IH. Qed.

  Lemma bskip_honest : forall fuel r s0 i, honest i (bskip_many fuel r s0 p i).
  Proof.
    intros fuel r s0 i. destruct r as [a b|a| |b|n]; cbn [bskip_many]; unfold skip_many_range, skip_many_to.
    - destruct (negb _); [exact Logic.I|]. apply skip_range_honest.
    - apply skip_from_honest.
    - apply skip_full_honest.
    - apply skip_to_honest.
    - apply skip_exact_honest.
  Qed.
End Skip.

Section Till.
  Context {S SE I U V E N : Type}.
  Variable p : sparser S I U E.
  Variable end_ : sparser SE I V N.
  Hypothesis Hp : forall s i, honest i (fst (p s i)).
  Hypothesis He : forall s i, honest i (fst (end_ s i)).
  Variable i0 : input I.

  Definition tt_ok {D} (it : iter_till S SE I E D) : Prop :=
    last (tt_buf it) = last i0 /\ suffix (buf (tt_buf it)) (buf i0) /\
    match tt_state it with TError b _ => suffix b (buf i0) | TIncomplete n => 1 <= n | TEndSuccess => True end.

  Definition pre_ok {D} (pre : iter_till S SE I E D -> pre_res (iter_till S SE I E D)) : Prop :=
    forall it, tt_ok it -> match pre it with PreGo it' => tt_ok it' | PreNone it' => tt_ok it' | _ => True end.

  Lemma end_test_ok : forall D, pre_ok (@end_test S SE I V N E D end_).
  Proof.
    intros D it (H1 & H2 & H3). unfold end_test. pose proof (He (tt_es it) (tt_buf it)) as Hh.
    destruct (end_ (tt_es it) (tt_buf it)) as [[j v|b e|n| |] s]; simpl in *; auto; try (repeat split; simpl; auto; fail).
    destruct Hh. repeat split; simpl; auto; [congruence|eapply suffix_trans; eauto].
  Qed.

  Lemma pre_seq_ok : forall D (a : iter_till S SE I E D -> pre_res (iter_till S SE I E D)) k,
    pre_ok a -> pre_ok k -> pre_ok (fun it => pre_seq (a it) k).
  Proof. intros D a k Ha Hk it Hit. specialize (Ha it Hit). unfold pre_seq. destruct (a it); auto. apply Hk. assumption. Qed.
  Lemma pre_if_ok : forall D (c : D -> bool) (a b : iter_till S SE I E D -> pre_res (iter_till S SE I E D)),
    pre_ok a -> pre_ok b -> pre_ok (fun it => if c (tt_data it) then a it else b it).
  Proof. intros D c a b Ha Hb it Hit. destruct (c (tt_data it)); [apply Ha|apply Hb]; assumption. Qed.
  Lemma pre_go_ok : forall D, pre_ok (fun it : iter_till S SE I E D => PreGo it).
  Proof. intros D it H. exact H. Qed.
  Lemma pre_none_ok : forall D, pre_ok (fun it : iter_till S SE I E D => PreNone it).
  Proof. intros D it H. exact H. Qed.

  Lemma run_iter_till_honest : forall T D C fuel (col : collector U T C) s0 e0 (data : D) hint pre on fin,
    pre_ok pre ->
    (forall t j d st, last j = last i0 -> suffix (buf j) (buf i0) ->
       match st with TError b _ => suffix b (buf i0) | TIncomplete n => 1 <= n | TEndSuccess => True end -> honest i0 (fin t j d st)) ->
    honest i0 (run_iter_till fuel col i0 s0 e0 p data hint pre on fin).
  Proof.
    intros T D C fuel col s0 e0 data hint pre on fin Hpre Hfin. unfold run_iter_till.
    destruct (from_iter _ _ _ _ _ _) as [t it| |] eqn:Hf; simpl; auto.
    assert (Hok : tt_ok it).
    { eapply from_iter_inv with (P := tt_ok); [|..|exact Hf].
      - intros it1 Hit1. specialize (Hpre it1 Hit1). unfold iter_till_next. destruct (pre it1) as [it2|it2| |]; auto.
        destruct Hpre as (H1 & H2 & H3).
        pose proof (Hp (tt_ps it2) (tt_buf it2)) as Hh. destruct (p (tt_ps it2) (tt_buf it2)) as [[j v|b e|n| |] s]; simpl in *; auto.
        + destruct Hh as [Hl Hs]. repeat split; simpl; auto; [congruence|eapply suffix_trans; eauto].
        + repeat split; simpl; auto. eapply suffix_trans; eauto.
        + repeat split; simpl; auto.
      - repeat split; simpl; auto with safe. }
    destruct Hok as (H1 & H2 & H3). apply Hfin; auto.
  Qed.
End Till.

Lemma bmany_till_honest : forall S SE I U V T E N C fuel (col : collector U T C) r s0 e0 (p : sparser S I U E) (end_ : sparser SE I V N),
  (forall s i, honest i (fst (p s i))) -> (forall s i, honest i (fst (end_ s i))) -> forall i, honest i (bmany_till fuel col r s0 e0 p end_ i).
Proof.
  intros S SE I U V T E N C fuel col r s0 e0 p end_ Hp He i.
  pose proof (@end_test_ok S SE I V E N end_ He i) as Het.
  destruct r as [a b|a| |b|n]; cbn [bmany_till].
  - unfold many_till_range. destruct (negb (a <=? b)); [exact Logic.I|]. apply run_iter_till_honest; auto; [|fin_honest].
    apply pre_seq_ok with (a := fun it => if fst (tt_data it) =? 0 then end_test end_ it else PreGo it).
    + apply (pre_if_ok (fun d => fst d =? 0)); [apply Het|apply pre_go_ok].
    + apply (pre_if_ok (fun d => snd d =? 0)); [|apply pre_go_ok]. apply pre_seq_ok with (a := fun it => end_test end_ it); [apply Het|apply pre_none_ok].
  - unfold many_till_from. apply run_iter_till_honest; auto; [|fin_honest]. apply (pre_if_ok (fun d => d =? 0)); [apply Het|apply pre_go_ok].
  - unfold many_till_full. apply run_iter_till_honest; auto. fin_honest.
  - unfold many_till_to. apply run_iter_till_honest; auto; [|fin_honest].
    apply pre_seq_ok with (a := fun it => end_test end_ it); [apply Het|]. apply (pre_if_ok (fun d => d =? 0)); [apply pre_none_ok|apply pre_go_ok].
  - unfold many_till_exact. apply run_iter_till_honest; auto; [|fin_honest].
    apply (pre_if_ok (fun d => d =? 0)); [|apply pre_go_ok]. apply pre_seq_ok with (a := fun it => end_test end_ it); [apply Het|apply pre_none_ok].
Qed.

Lemma sep_item_honest : forall SP SS I U V E N (conv : N -> E) (p : sparser SP I U E) (sep : sparser SS I V N),
  (forall s i, honest i (fst (p s i))) -> (forall s i, honest i (fst (sep s i))) ->
  forall s i, honest i (fst (sep_item conv p sep s i)).
Proof.
  intros SP SS I U V E N conv p sep Hp Hs [[item sp] ss] i. unfold sep_item.
  assert (Hsep := Hs ss i).
  destruct item.
  - destruct (sep ss i) as [[j v|b e|n| |] ss']; cbn -[honest]; auto.
    destruct Hsep as [Hl Hb]. assert (Hpj := Hp sp j). destruct (p sp j) as [[k u|b e|n| |] sp']; cbn -[honest]; auto;
      apply (@honest_from _ _ _ i j); auto.
  - cbn -[honest]. assert (Hpi := Hp sp i). destruct (p sp i) as [[k u|b e|n| |] sp']; cbn -[honest]; auto.
Qed.

Lemma position_le : forall A (f : A -> bool) b n, position f b = Some n -> n < length b.
Proof.
  induction b as [|c r IH]; intros n H; [discriminate|]. simpl in H. destruct (f c); [inversion H; simpl; lia|].
  destruct (position f r) as [m|]; [|discriminate]. inversion H; subst. specialize (IH m eq_refl). simpl. lia.
Qed.

Ltac dif := match goal with |- context [if ?x then _ else _] => destruct x eqn:? end.

Theorem built_well_behaved : forall I T E (p : parser I T E), built p -> well_behaved p.
Proof.
  unfold well_behaved. induction 1; intros i; unfold ret, err, incomplete, from_result; simpl; auto with safe.
  - rewrite <- H0. apply IHbuilt.
  - destruct r; simpl; auto with safe.
  - specialize (IHbuilt i). destruct (p i); simpl in *; auto.
  - specialize (IHbuilt i). destruct (p i); simpl in *; auto.
  - specialize (IHbuilt i). destruct (p i); simpl in *; auto.
  - apply honest_bind; auto.
  - apply honest_bind; auto.
  - unfold any. destruct (buf i) as [|c r] eqn:Hb; simpl; rewrite ?Hb; auto with safe.
  - unfold satisfy. destruct (buf i) as [|c r] eqn:Hb; simpl; auto. destruct (f c); simpl; rewrite ?Hb; auto with safe.
  - unfold satisfy_with. destruct (buf i) as [|c r] eqn:Hb; simpl; auto. destruct (g (f c)); simpl; rewrite ?Hb; auto with safe.
  - unfold token. destruct (buf i) as [|c r] eqn:Hb; simpl; auto. destruct (eqb t c); simpl; rewrite ?Hb; auto with safe.
  - unfold not_token. destruct (buf i) as [|c r] eqn:Hb; simpl; auto. destruct (eqb t c); simpl; rewrite ?Hb; auto with safe.
  - unfold peek_next. destruct (buf i) as [|c r] eqn:Hb; simpl; rewrite ?Hb; auto with safe.
  - unfold take. destruct (Nat.leb_spec n (length (buf i))); simpl; auto with safe. lia.
  - unfold take_while. destruct (position _ _); [simpl; auto with safe|]. destruct (last i) eqn:Hl; simpl; rewrite ?Hl; auto with safe.
  - unfold take_while1. destruct (position _ _) as [[|n]|]; [simpl; auto with safe|cbn [honest ret replace last buf]; auto with safe|]. dif; simpl; auto with safe.
  - unfold take_till. destruct (position _ _); simpl; auto with safe.
  - unfold scan. destruct (position_st _ _ _) as [[n|] [st|]]; simpl; auto with safe.
  - unfold run_scanner. destruct (position_st _ _ _) as [[n|] st]; simpl; auto with safe.
  - unfold string. destruct (Nat.ltb_spec (length (buf i)) (length s)); [simpl; lia|].
    destruct (string_mismatch _ _ _ _); unfold err_string; [destruct v|]; simpl; auto with safe.
  - unfold eof. dif; simpl; auto with safe.
  - apply bmany_honest. auto.
  - apply bskip_honest. auto.
  - apply bmany_till_honest; auto.
  - apply bmany_honest. apply sep_item_honest; auto.
  - apply bmany_honest. apply sep_item_honest; auto.
  - specialize (IHbuilt i). unfold option_. destruct (p i); simpl in *; auto with safe. destruct (last i) eqn:Hl; simpl; rewrite ?Hl; auto with safe.
  - specialize (IHbuilt1 i). specialize (IHbuilt2 i). unfold or_. destruct (p i); simpl in *; auto with safe. destruct (last i); simpl; auto with safe.
  - specialize (IHbuilt i). unfold matched_by. destruct (p i); simpl in *; auto with safe. dif; simpl; auto with safe.
  - specialize (IHbuilt i). unfold look_ahead. destruct (p i); simpl in *; auto with safe.
Qed.
