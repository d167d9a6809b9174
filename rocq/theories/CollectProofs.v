(** Arbitrary collectors: bounds, size hints, fuel. *)
From Coq Require Import List Bool Arith Lia.
From Verif Require Import Base Parsers Combinators SpecIter SpecCollect.
Import ListNotations.

Set Implicit Arguments.

Section Generic.
  Context {It U T C : Type}.
  Variable next : It -> step It U.
  Variable hint : It -> nat * option nat.
  (** [left it]: bound on the items still to come. *)
  Variable left : It -> nat.
  Hypothesis left_yield : forall it u it', next it = Yield u it' -> S (left it') <= left it.
  Hypothesis left_stop : forall it it', next it = Stop it' -> left it' <= left it.

  Lemma from_iter_beyond : forall fuel (col : collector U T C) alt m k c it,
    k + left it <= m ->
    from_iter fuel next hint (cact (beyond m col alt)) (k, c) it = from_iter fuel next hint (cact col) c it.
  Proof.
    induction fuel as [|fuel IH]; intros col alt m k c it Hm; auto.
    cbn [from_iter]. cbn [cact beyond]. destruct (Nat.leb_spec k m); [|lia].
    destruct (cact col c) as [t|f|f|]; auto.
    - destruct (next it) as [u it'|it'| |] eqn:Hn; auto.
      + apply left_yield in Hn. apply (IH col). lia.
      + apply left_stop in Hn. apply (IH col). lia.
    - apply (IH col). assumption.
  Qed.

  Hypothesis hint_upper : forall it h, snd (hint it) = Some h -> left it <= h.

  Lemma from_iter_overrun : forall fuel (col : collector U T C) alt q c it,
    match q with Some n => left it <= n | None => True end ->
    from_iter fuel next hint (cact (overrun col alt)) (Some q, c) it = from_iter fuel next hint (cact col) c it.
  Proof.
    induction fuel as [|fuel IH]; intros col alt q c it Hq; auto.
    cbn [from_iter]. cbn [cact overrun].
    destruct (cact col c) as [t|f|f|]; auto.
    - destruct (next it) as [u it'|it'| |] eqn:Hn; auto.
      + apply left_yield in Hn. destruct q as [[|q]|]; [lia| |]; apply (IH col); auto. lia.
      + apply left_stop in Hn. apply (IH col). destruct q; auto. lia.
    - apply (IH col). destruct (hint it) as [lo [h|]] eqn:Hh; cbn [snd]; auto.
      assert (left it <= h) by (apply hint_upper; rewrite Hh; reflexivity). destruct q; lia.
  Qed.
End Generic.

Section Trace.
  Context {It U T C : Type}.
  Variable next : It -> step It U.
  Variable hint : It -> nat * option nat.

  Lemma from_iter_tracing : forall fuel (col : collector U T C) c log it,
    from_iter fuel next hint (cact col) c it =
    match from_iter fuel next hint (cact (tracing col)) (c, log) it with
    | FDone (t, _) it' => FDone t it'
    | FPanic => FPanic
    | FNoFuel => FNoFuel
    end.
  Proof.
    induction fuel as [|fuel IH]; intros col c log it; auto.
    cbn [from_iter]. cbn [cact tracing]. destruct (cact col c) as [t|f|f|]; auto.
    - destruct (next it) as [u it'|it'| |]; auto; apply (IH col).
    - apply (IH col).
  Qed.

  (** [need it]: items still required for success; [left it]: items still permitted ([None]: no limit). *)
  Variable need : It -> nat.
  Variable left : It -> option nat.
  Hypothesis need_yield : forall it u it', next it = Yield u it' -> need it <= S (need it').
  Hypothesis need_stop : forall it it', next it = Stop it' -> need it' = need it.
  Hypothesis hint_lower : forall it, fst (hint it) <= need it.
  Hypothesis hint_upper : forall it h, snd (hint it) = Some h -> left it = Some h.
  Hypothesis left_yield : forall it u it' l, next it = Yield u it' -> left it = Some l -> exists l', left it' = Some l' /\ S l' <= l.
  Hypothesis left_stop : forall it it', next it = Stop it' -> left it' = left it.

  Lemma items_app : forall (a b : list (event U)), items (a ++ b) = items a + items b.
  Proof. induction a as [|[u| |lo hi] a IH]; intros b; simpl; auto. Qed.

  (** The events logged from a point on: the log only grows; from there, items cover the need and respect the limit. *)
  Lemma from_iter_log : forall fuel (col : collector U T C) c log it t log' it',
    from_iter fuel next hint (cact (tracing col)) (c, log) it = FDone (t, log') it' ->
    exists ext, log' = log ++ ext /\ need it <= items ext + need it' /\
      (forall l, left it = Some l -> items ext <= l) /\
      (forall l1 lo hi l2, ext = l1 ++ EvHint lo hi :: l2 ->
         lo <= items l2 + need it' /\ (forall h, hi = Some h -> items l2 <= h)).
  Proof.
    induction fuel as [|fuel IH]; intros col c log it t log' it' H; [discriminate|].
    cbn [from_iter] in H. cbn [cact tracing] in H. destruct (cact col c) as [t0|f|f|] eqn:Hc; try discriminate.
    - inversion H; subst. exists []. rewrite app_nil_r. split; [reflexivity|]. split; [simpl; lia|]. split; [simpl; intros; lia|].
      intros l1 lo hi l2 He. destruct l1; discriminate.
    - destruct (next it) as [u it1|it1| |] eqn:Hn; try discriminate.
      + apply (IH col) in H. destruct H as (ext & -> & Hne & Hl & Hh). exists (EvItem u :: ext).
        rewrite <- app_assoc. pose proof (need_yield Hn) as Hy. split; [reflexivity|]. split; [simpl; lia|]. split.
        * intros l Hit. destruct (left_yield Hn Hit) as (l' & Hl' & ?). apply Hl in Hl'. simpl. lia.
        * intros l1 lo hi l2 He. destruct l1 as [|e l1]; simpl in He; inversion He; subst. eapply Hh; eauto.
      + apply (IH col) in H. destruct H as (ext & -> & Hne & Hl & Hh). exists (EvEnd :: ext).
        rewrite <- app_assoc. pose proof (need_stop Hn) as Hy. split; [reflexivity|]. split; [simpl; lia|]. split.
        * intros l Hit. apply Hl. rewrite (left_stop Hn). assumption.
        * intros l1 lo hi l2 He. destruct l1 as [|e l1]; simpl in He; inversion He; subst. eapply Hh; eauto.
    - apply (IH col) in H. destruct H as (ext & -> & Hne & Hl & Hh). exists (EvHint (fst (hint it)) (snd (hint it)) :: ext).
      rewrite <- app_assoc. split; [reflexivity|]. split; [simpl; lia|]. split; [simpl; auto|].
      intros l1 lo hi l2 He. destruct l1 as [|e l1]; simpl in He; inversion He; subst; [|eapply Hh; eauto].
      split.
      + pose proof (hint_lower it). lia.
      + intros h Hx. apply Hl. apply hint_upper. assumption.
  Qed.
End Trace.

Section Run.
  Context {S I U T E D C : Type}.
  Variable p : sparser S I U E.

  Section Iter.
    Variable pre : D -> bool.
    Variable on : D -> D.

    Lemma iter_next_yield : forall it u it', iter_next p pre on it = Yield u it' ->
      pre (it_data it) = false /\ it_data it' = on (it_data it).
    Proof.
      intros it u it' H. unfold iter_next in H. destruct (pre (it_data it)); [discriminate|].
      destruct (p (it_ps it) (it_buf it)) as [[b v|b e|n| |] s]; inversion H; subst; auto.
    Qed.
    Lemma iter_next_stop : forall it it', iter_next p pre on it = Stop it' -> it_data it' = it_data it.
    Proof.
      intros it it' H. unfold iter_next in H. destruct (pre (it_data it)); [inversion H; subst; auto|].
      destruct (p (it_ps it) (it_buf it)) as [[b v|b e|n| |] s]; inversion H; subst; auto.
    Qed.

    Variable hint : D -> nat * option nat.
    Variable fin : T -> input I -> D -> end_state I E -> pres I T E.
    Variable L : D -> nat.
    Hypothesis HL : forall d, pre d = false -> Datatypes.S (L (on d)) <= L d.

    Lemma run_iter_beyond : forall fuel (col : collector U T C) alt m i s0 d0, L d0 <= m ->
      run_iter fuel (beyond m col alt) i s0 p d0 hint pre on fin = run_iter fuel col i s0 p d0 hint pre on fin.
    Proof.
      intros fuel col alt m i s0 d0 Hm. unfold run_iter. cbn [cinit beyond].
      rewrite (@from_iter_beyond _ _ _ _ _ _ (fun it => L (it_data it))); auto.
      - intros it u it' H. apply iter_next_yield in H. destruct H as [H1 ->]. auto.
      - intros it it' H. apply iter_next_stop in H. rewrite H. lia.
    Qed.

    Hypothesis Hhint : forall d h, snd (hint d) = Some h -> L d <= h.
    Lemma run_iter_overrun : forall fuel (col : collector U T C) alt i s0 d0,
      run_iter fuel (overrun col alt) i s0 p d0 hint pre on fin = run_iter fuel col i s0 p d0 hint pre on fin.
    Proof.
      intros fuel col alt i s0 d0. unfold run_iter. cbn [cinit overrun].
      rewrite (@from_iter_overrun _ _ _ _ _ _ (fun it => L (it_data it))); auto.
      - intros it u it' H. apply iter_next_yield in H. destruct H as [H1 ->]. auto.
      - intros it it' H. apply iter_next_stop in H. rewrite H. lia.
    Qed.
  End Iter.

  Section Till.
    Context {SE : Type}.
    Notation it_t := (iter_till S SE I E D).
    Variable pre : it_t -> pre_res it_t.
    Variable on : D -> D.
    Variable hint : D -> nat * option nat.
    Variable fin : T -> input I -> D -> end_state_till I E -> pres I T E.
    Variable L : D -> nat.
    Hypothesis pre_go : forall it it', pre it = PreGo it' -> tt_data it' = tt_data it /\ Datatypes.S (L (on (tt_data it))) <= L (tt_data it).
    Hypothesis pre_none : forall it it', pre it = PreNone it' -> tt_data it' = tt_data it.

    Lemma till_next_yield : forall it u it', iter_till_next p pre on it = Yield u it' ->
      Datatypes.S (L (tt_data it')) <= L (tt_data it).
    Proof.
      intros it u it' H. unfold iter_till_next in H. destruct (pre it) as [it0|it0| |] eqn:Hp; try discriminate.
      apply pre_go in Hp. destruct Hp as [Hd HL].
      destruct (p (tt_ps it0) (tt_buf it0)) as [[b v|b e|n| |] s]; inversion H; subst; simpl. rewrite Hd. assumption.
    Qed.
    Lemma till_next_stop : forall it it', iter_till_next p pre on it = Stop it' -> tt_data it' = tt_data it.
    Proof.
      intros it it' H. unfold iter_till_next in H. destruct (pre it) as [it0|it0| |] eqn:Hp; try discriminate.
      - apply pre_go in Hp. destruct Hp as [Hd HL].
        destruct (p (tt_ps it0) (tt_buf it0)) as [[b v|b e|n| |] s]; inversion H; subst; simpl; auto.
      - inversion H; subst. auto.
    Qed.

    Lemma run_till_beyond : forall fuel (col : collector U T C) alt m i s0 e0 d0, L d0 <= m ->
      run_iter_till fuel (beyond m col alt) i s0 e0 p d0 hint pre on fin = run_iter_till fuel col i s0 e0 p d0 hint pre on fin.
    Proof.
      intros fuel col alt m i s0 e0 d0 Hm. unfold run_iter_till. cbn [cinit beyond].
      rewrite (@from_iter_beyond _ _ _ _ _ _ (fun it => L (tt_data it))); auto.
      - intros it u it' H. apply till_next_yield in H. assumption.
      - intros it it' H. apply till_next_stop in H. rewrite H. lia.
    Qed.

    Hypothesis Hhint : forall d h, snd (hint d) = Some h -> L d <= h.
    Lemma run_till_overrun : forall fuel (col : collector U T C) alt i s0 e0 d0,
      run_iter_till fuel (overrun col alt) i s0 e0 p d0 hint pre on fin = run_iter_till fuel col i s0 e0 p d0 hint pre on fin.
    Proof.
      intros fuel col alt i s0 e0 d0. unfold run_iter_till. cbn [cinit overrun].
      rewrite (@from_iter_overrun _ _ _ _ _ _ (fun it => L (tt_data it))); auto.
      - intros it u it' H. apply till_next_yield in H. assumption.
      - intros it it' H. apply till_next_stop in H. rewrite H. lia.
    Qed.
  End Till.
End Run.

Lemma bmany_beyond : forall S I U T E C fuel (col : collector U T C) alt r m s0 (p : sparser S I U E) i,
  max_count r = Some m -> bmany fuel (beyond m col alt) r s0 p i = bmany fuel col r s0 p i.
Proof.
  intros S I U T E C fuel col alt r m s0 p i Hm. destruct r as [a b|a| |b|n]; simpl in Hm; inversion Hm; subst; simpl bmany.
  - unfold parse_many_range. destruct (negb (a <=? b)); auto.
    apply run_iter_beyond with (L := fun d => snd d); [|simpl; lia].
    intros [d1 d2] H. apply Nat.eqb_neq in H. simpl in *. lia.
  - unfold parse_many_to. apply run_iter_beyond with (L := fun d => d); [|simpl; lia].
    intros d H. apply Nat.eqb_neq in H. lia.
  - unfold parse_many_exact. apply run_iter_beyond with (L := fun d => d); [|simpl; lia].
    intros d H. apply Nat.eqb_neq in H. lia.
Qed.

Lemma end_test_data : forall S SE I V N E D (end_ : sparser SE I V N) (it it' : iter_till S SE I E D),
  (end_test end_ it = PreGo it' -> tt_data it' = tt_data it) /\ (end_test end_ it = PreNone it' -> tt_data it' = tt_data it).
Proof.
  intros. unfold end_test. destruct (end_ (tt_es it) (tt_buf it)) as [[b v|b e|n| |] s]; split; intros H; inversion H; reflexivity.
Qed.

Ltac till_pre := intros it it' H;
  repeat match goal with
  | H : context [pre_seq ?a ?k] |- _ => unfold pre_seq in H
  | H : context [if ?x then _ else _] |- _ => let Hx := fresh "Hx" in destruct x eqn:Hx; cbv iota beta in H
  | H : context [match end_test ?e ?i with _ => _ end] |- _ =>
      let Hx := fresh "He" in destruct (end_test e i) eqn:Hx; try discriminate; apply end_test_data in Hx
  | H : end_test _ _ = _ |- _ => apply end_test_data in H
  | H : PreGo _ = PreGo _ |- _ => inversion H; clear H; subst
  | H : PreNone _ = PreNone _ |- _ => inversion H; clear H; subst
  end; try discriminate.

Lemma bmany_till_beyond : forall S SE I U V T E N C fuel (col : collector U T C) alt r m s0 e0
  (p : sparser S I U E) (end_ : sparser SE I V N) i,
  max_count r = Some m -> bmany_till fuel (beyond m col alt) r s0 e0 p end_ i = bmany_till fuel col r s0 e0 p end_ i.
Proof.
  intros S SE I U V T E N C fuel col alt r m s0 e0 p end_ i Hm. destruct r as [a b|a| |b|n]; simpl in Hm; inversion Hm; subst; simpl bmany_till.
  - unfold many_till_range. destruct (negb (a <=? b)); auto.
    apply run_till_beyond with (L := fun d => snd d); [| |simpl; lia].
    + till_pre; simpl in *; (split; [congruence|]);
        repeat match goal with H : (_ =? _) = false |- _ => apply Nat.eqb_neq in H | H : tt_data ?a = tt_data ?b |- _ => rewrite H in * end; lia.
    + till_pre; congruence.
  - unfold many_till_to. apply run_till_beyond with (L := fun d => d); [| |simpl; lia].
    + till_pre; simpl in *; (split; [congruence|]);
        repeat match goal with H : (_ =? _) = false |- _ => apply Nat.eqb_neq in H | H : tt_data ?a = tt_data ?b |- _ => rewrite H in * end; lia.
    + till_pre; congruence.
  - unfold many_till_exact. apply run_till_beyond with (L := fun d => d); [| |simpl; lia].
    + till_pre; simpl in *; (split; [congruence|]);
        repeat match goal with H : (_ =? _) = false |- _ => apply Nat.eqb_neq in H | H : tt_data ?a = tt_data ?b |- _ => rewrite H in * end; lia.
    + till_pre; congruence.
Qed.

(** Ranges without a maximum give no upper hint. *)
Lemma from_iter_overrun_none : forall It U T C (next : It -> step It U) hint, (forall it, snd (hint it) = None) ->
  forall fuel (col : collector U T C) alt c it,
  from_iter fuel next hint (cact (overrun col alt)) (Some None, c) it = from_iter fuel next hint (cact col) c it.
Proof.
  intros It U T C next hint Hh. induction fuel as [|fuel IH]; intros col alt c it; auto.
  cbn [from_iter]. cbn [cact overrun]. destruct (cact col c) as [t|f|f|]; auto.
  - destruct (next it) as [u it'|it'| |] eqn:Hn; auto; apply (IH col).
  - rewrite Hh. apply (IH col).
Qed.

Lemma bmany_overrun : forall S I U T E C fuel (col : collector U T C) alt r s0 (p : sparser S I U E) i,
  bmany fuel (overrun col alt) r s0 p i = bmany fuel col r s0 p i.
Proof.
  intros S I U T E C fuel col alt r s0 p i. destruct r as [a b|a| |b|n]; simpl bmany.
  - unfold parse_many_range. destruct (negb (a <=? b)); auto. apply run_iter_overrun with (L := fun d => snd d).
    + intros [d1 d2] H. apply Nat.eqb_neq in H. simpl in *. lia.
    + intros [d1 d2] h H. simpl in *. inversion H; lia.
  - unfold parse_many_from, run_iter. cbn [cinit overrun]. rewrite from_iter_overrun_none; auto.
  - unfold parse_many_full, run_iter. cbn [cinit overrun]. rewrite from_iter_overrun_none; auto.
  - unfold parse_many_to. apply run_iter_overrun with (L := fun d => d).
    + intros d H. apply Nat.eqb_neq in H. lia.
    + intros d h H. simpl in *. inversion H; lia.
  - unfold parse_many_exact. apply run_iter_overrun with (L := fun d => d).
    + intros d H. apply Nat.eqb_neq in H. lia.
    + intros d h H. simpl in *. inversion H; lia.
Qed.

Lemma bmany_till_overrun : forall S SE I U V T E N C fuel (col : collector U T C) alt r s0 e0
  (p : sparser S I U E) (end_ : sparser SE I V N) i,
  bmany_till fuel (overrun col alt) r s0 e0 p end_ i = bmany_till fuel col r s0 e0 p end_ i.
Proof.
  intros S SE I U V T E N C fuel col alt r s0 e0 p end_ i. destruct r as [a b|a| |b|n]; simpl bmany_till.
  - unfold many_till_range. destruct (negb (a <=? b)); auto.
    apply run_till_overrun with (L := fun d => snd d).
    + till_pre; simpl in *; (split; [congruence|]);
        repeat match goal with H : (_ =? _) = false |- _ => apply Nat.eqb_neq in H | H : tt_data ?a = tt_data ?b |- _ => rewrite H in * end; lia.
    + till_pre; congruence.
    + intros [d1 d2] h H. simpl in *. inversion H; lia.
  - unfold many_till_from, run_iter_till. cbn [cinit overrun]. rewrite from_iter_overrun_none; auto.
  - unfold many_till_full, run_iter_till. cbn [cinit overrun]. rewrite from_iter_overrun_none; auto.
  - unfold many_till_to. apply run_till_overrun with (L := fun d => d).
    + till_pre; simpl in *; (split; [congruence|]);
        repeat match goal with H : (_ =? _) = false |- _ => apply Nat.eqb_neq in H | H : tt_data ?a = tt_data ?b |- _ => rewrite H in * end; lia.
    + till_pre; congruence.
    + intros d h H. simpl in *. inversion H; lia.
  - unfold many_till_exact. apply run_till_overrun with (L := fun d => d).
    + till_pre; simpl in *; (split; [congruence|]);
        repeat match goal with H : (_ =? _) = false |- _ => apply Nat.eqb_neq in H | H : tt_data ?a = tt_data ?b |- _ => rewrite H in * end; lia.
    + till_pre; congruence.
    + intros d h H. simpl in *. inversion H; lia.
Qed.

(** * Traces *)

(** Tracing changes nothing but the result's type. *)
Lemma bmany_tracing : forall S I U T E C fuel (col : collector U T C) r s0 (p : sparser S I U E) i,
  map fst (bmany fuel (tracing col) r s0 p i) = bmany fuel col r s0 p i.
Proof.
  intros S I U T E C fuel col r s0 p i.
  destruct r as [a b|a| |b|n]; simpl bmany;
    unfold parse_many_range, parse_many_from, parse_many_full, parse_many_to, parse_many_exact, run_iter; cbn [cinit tracing];
    try (destruct (negb (a <=? b)); [reflexivity|]);
    rewrite (@from_iter_tracing _ _ _ _ _ _ fuel col (cinit col) []);
    match goal with |- context [from_iter ?a ?b ?c ?d ?e ?f] => destruct (from_iter a b c d e f) as [[t log] it| |] end; auto.
  - destruct (it_data it) as [[|d1] [|d2]]; destruct (it_state it); try reflexivity; destruct (last (it_buf it)); reflexivity.
  - destruct (it_data it) as [|d1]; destruct (it_state it); try reflexivity; destruct (last (it_buf it)); reflexivity.
  - destruct (it_state it); try reflexivity; destruct (last (it_buf it)); reflexivity.
  - destruct (it_data it) as [|d1]; destruct (it_state it); try reflexivity; destruct (last (it_buf it)); reflexivity.
  - destruct (it_data it) as [|d1]; destruct (it_state it); reflexivity.
Qed.

Lemma bmany_till_tracing : forall S SE I U V T E N C fuel (col : collector U T C) r s0 e0 (p : sparser S I U E) (end_ : sparser SE I V N) i,
  map fst (bmany_till fuel (tracing col) r s0 e0 p end_ i) = bmany_till fuel col r s0 e0 p end_ i.
Proof.
  intros S SE I U V T E N C fuel col r s0 e0 p end_ i.
  destruct r as [a b|a| |b|n]; simpl bmany_till;
    unfold many_till_range, many_till_from, many_till_full, many_till_to, many_till_exact, run_iter_till; cbn [cinit tracing];
    try (destruct (negb (a <=? b)); [reflexivity|]);
    rewrite (@from_iter_tracing _ _ _ _ _ _ fuel col (cinit col) []);
    match goal with |- context [from_iter ?a ?b ?c ?d ?e ?f] => destruct (from_iter a b c d e f) as [[t log] it| |] end; auto.
  - destruct (tt_data it) as [[|d1] [|d2]]; destruct (tt_state it); reflexivity.
  - destruct (tt_data it) as [|d1]; destruct (tt_state it); reflexivity.
  - destruct (tt_state it); reflexivity.
  - destruct (tt_data it) as [|d1]; destruct (tt_state it); reflexivity.
  - destruct (tt_data it) as [|d1]; destruct (tt_state it); reflexivity.
Qed.

Section RunLog.
  Context {S I U T E D C : Type}.
  Variable p : sparser S I U E.
  Variable hint : D -> nat * option nat.
  Variable need : D -> nat.
  Variable left : D -> option nat.
  Variable on : D -> D.
  Hypothesis Hhl : forall d, fst (hint d) <= need d.
  Hypothesis Hhu : forall d h, snd (hint d) = Some h -> left d = Some h.
  Hypothesis Hon : forall d, need d <= Datatypes.S (need (on d)).

  Lemma run_iter_log : forall fuel (col : collector U T C) i s0 d0 pre fin j t log,
    (forall d l, pre d = false -> left d = Some l -> exists l', left (on d) = Some l' /\ Datatypes.S l' <= l) ->
    (forall t i d st j x, fin t i d st = Data j x -> need d = 0 /\ x = t) ->
    run_iter fuel (tracing col) i s0 p d0 hint pre on fin = Data j (t, log) ->
    need d0 <= items log /\ (forall l, left d0 = Some l -> items log <= l) /\
    (forall l1 lo hi l2, log = l1 ++ EvHint lo hi :: l2 -> lo <= items l2 /\ (forall h, hi = Some h -> items l2 <= h)).
  Proof.
    intros fuel col i s0 d0 pre fin j t log Hl Hfin H. unfold run_iter in H. cbn [cinit tracing] in H.
    destruct (from_iter _ _ _ _ _ _) as [[t' log'] it| |] eqn:Hf; try discriminate.
    apply Hfin in H. destruct H as [H0 Heq]. inversion Heq; subst t' log'. clear Heq.
    apply (@from_iter_log _ _ _ _ _ _ (fun it => need (it_data it)) (fun it => left (it_data it))) in Hf.
    - destruct Hf as (ext & -> & Hn & Hll & Hh). simpl in *. rewrite H0 in *. rewrite Nat.add_0_r in *.
      repeat split; auto. + apply Hh in H. lia. + intros h ->. apply Hh in H. apply H. reflexivity.
    - intros it0 u it' Hx. apply iter_next_yield in Hx. destruct Hx as [Hx ->]. auto.
    - intros it0 it' Hx. apply iter_next_stop in Hx. rewrite Hx. reflexivity.
    - auto.
    - auto.
    - intros it0 u it' l Hx Hlft. apply iter_next_yield in Hx. destruct Hx as [Hx ->]. auto.
    - intros it0 it' Hx. apply iter_next_stop in Hx. rewrite Hx. reflexivity.
  Qed.

  Lemma run_till_log : forall SE fuel (col : collector U T C) i s0 (e0 : SE) d0 pre fin j t log,
    (forall it it', pre it = PreGo it' -> tt_data it' = tt_data it /\
       forall l, left (tt_data it) = Some l -> exists l', left (on (tt_data it)) = Some l' /\ Datatypes.S l' <= l) ->
    (forall it it', pre it = PreNone it' -> tt_data it' = tt_data it) ->
    (forall t i d st j x, fin t i d st = Data j x -> need d = 0 /\ x = t) ->
    run_iter_till fuel (tracing col) i s0 e0 p d0 hint pre on fin = Data j (t, log) ->
    need d0 <= items log /\ (forall l, left d0 = Some l -> items log <= l) /\
    (forall l1 lo hi l2, log = l1 ++ EvHint lo hi :: l2 -> lo <= items l2 /\ (forall h, hi = Some h -> items l2 <= h)).
  Proof.
    intros SE fuel col i s0 e0 d0 pre fin j t log Hgo Hno Hfin H. unfold run_iter_till in H. cbn [cinit tracing] in H.
    assert (Hyd : forall it u it', iter_till_next p pre on it = Yield u it' ->
      tt_data it' = on (tt_data it) /\ forall l, left (tt_data it) = Some l -> exists l', left (on (tt_data it)) = Some l' /\ Datatypes.S l' <= l).
    { intros it u it' Hn. unfold iter_till_next in Hn. destruct (pre it) as [it0|it0| |] eqn:Hp; try discriminate.
      apply Hgo in Hp. destruct Hp as [Hd HL].
      destruct (p (tt_ps it0) (tt_buf it0)) as [[b v|b e|n| |] s]; inversion Hn; subst; simpl. rewrite Hd. auto. }
    assert (Hst : forall it it', iter_till_next p pre on it = Stop it' -> tt_data it' = tt_data it).
    { intros it it' Hn. unfold iter_till_next in Hn. destruct (pre it) as [it0|it0| |] eqn:Hp; try discriminate.
      - apply Hgo in Hp. destruct Hp as [Hd HL].
        destruct (p (tt_ps it0) (tt_buf it0)) as [[b v|b e|n| |] s]; inversion Hn; subst; simpl; auto.
      - inversion Hn; subst. auto. }
    destruct (from_iter _ _ _ _ _ _) as [[t' log'] it| |] eqn:Hf; try discriminate.
    apply Hfin in H. destruct H as [H0 Heq]. inversion Heq; subst t' log'. clear Heq.
    apply (@from_iter_log _ _ _ _ _ _ (fun it => need (tt_data it)) (fun it => left (tt_data it))) in Hf.
    - destruct Hf as (ext & -> & Hn & Hll & Hh). simpl in *. rewrite H0 in *. rewrite Nat.add_0_r in *.
      repeat split; auto. + apply Hh in H. lia. + intros h ->. apply Hh in H. apply H. reflexivity.
    - intros it0 u it' Hx. apply Hyd in Hx. destruct Hx as [-> _]. auto.
    - intros it0 it' Hx. apply Hst in Hx. rewrite Hx. reflexivity.
    - auto.
    - auto.
    - intros it0 u it' l Hx Hlft. apply Hyd in Hx. destruct Hx as [-> Hx]. auto.
    - intros it0 it' Hx. apply Hst in Hx. rewrite Hx. reflexivity.
  Qed.
End RunLog.

Lemma dec0_step : forall d, d <= Datatypes.S (dec0 d).
Proof. intros d. unfold dec0. destruct (Nat.eqb_spec d 0); lia. Qed.

Ltac fin_data := unfold ret, err, incomplete in *; 
  repeat match goal with
  | H : context [match ?x with _ => _ end] |- _ => destruct x; cbv iota beta in H
  end; try discriminate;
  match goal with H : Data _ _ = Data _ _ |- _ => inversion H; subst; auto end.

Ltac till_left := till_pre; simpl in *;
  repeat match goal with H : (_ =? _) = false |- _ => apply Nat.eqb_neq in H | H : tt_data ?a = tt_data ?b |- _ => rewrite H in * end;
  (split; [congruence|]);
  let l := fresh in let Hl := fresh in intros l Hl; inversion Hl; subst; eexists; split; [reflexivity|lia].

Ltac log_main :=
  match goal with H : _ /\ _ /\ _ |- log_ok _ _ =>
    let H1 := fresh in let H2 := fresh in let H3 := fresh in destruct H as (H1 & H2 & H3);
    unfold log_ok; cbn [min_count max_count fst snd] in *;
    split; [first [exact H1 | lia]|];
    split; [|exact H3];
    let m := fresh in let Hm := fresh in intros m Hm; first [discriminate Hm | inversion Hm; subst; specialize (H2 _ eq_refl); lia]
  end.

Ltac log_side :=
  cbn [fst snd];
  try match goal with H : _ = Data _ _ |- _ => clear H end;
  first
  [ solve [log_main]
  | solve [let d := fresh in intros d; try destruct d; simpl; first [lia | apply dec0_step]]
  | solve [let d := fresh in intros d; try destruct d; simpl; intros; congruence]
  | solve [let d := fresh in let l := fresh in let Hp := fresh in let Hl := fresh in
           intros d l Hp Hl; try discriminate; apply Nat.eqb_neq in Hp; cbn [fst snd] in *; inversion Hl; subst; eexists; split; [reflexivity|lia]]
  | solve [let t := fresh in let i := fresh in let d := fresh in let st := fresh in let j := fresh in let x := fresh in let Hx := fresh in
           intros t i d st j x Hx; fin_data]
  | solve [till_left]
  | solve [till_pre; (split; [congruence|intros; discriminate])]
  | solve [till_pre; congruence] ].

Lemma bmany_log : forall S I U T E C fuel (col : collector U T C) r s0 (p : sparser S I U E) i j t log,
  bmany fuel (tracing col) r s0 p i = Data j (t, log) -> log_ok r log.
Proof.
  intros S I U T E C fuel col r s0 p i j t log H. destruct r as [a b|a| |b|n]; simpl bmany in H.
  - unfold parse_many_range in H. destruct (negb (a <=? b)); [discriminate|].
    apply (@run_iter_log _ _ _ _ _ _ _ p _ fst (fun d => Some (snd d))) in H; log_side.
  - apply (@run_iter_log _ _ _ _ _ _ _ p _ (fun d => d) (fun d => None)) in H; log_side.
  - apply (@run_iter_log _ _ _ _ _ _ _ p _ (fun d => 0) (fun d => None)) in H; log_side.
  - apply (@run_iter_log _ _ _ _ _ _ _ p _ (fun d => 0) (fun d => Some d)) in H; log_side.
  - apply (@run_iter_log _ _ _ _ _ _ _ p _ (fun d => d) (fun d => Some d)) in H; log_side.
Qed.

Lemma bmany_till_log : forall S SE I U V T E N C fuel (col : collector U T C) r s0 e0 (p : sparser S I U E) (end_ : sparser SE I V N) i j t log,
  bmany_till fuel (tracing col) r s0 e0 p end_ i = Data j (t, log) -> log_ok r log.
Proof.
  intros S SE I U V T E N C fuel col r s0 e0 p end_ i j t log H. destruct r as [a b|a| |b|n]; simpl bmany_till in H.
  - unfold many_till_range in H. destruct (negb (a <=? b)); [discriminate|].
    apply (@run_till_log _ _ _ _ _ _ _ p _ fst (fun d => Some (snd d))) in H; log_side.
  - apply (@run_till_log _ _ _ _ _ _ _ p _ (fun d => d) (fun d => None)) in H; log_side.
  - apply (@run_till_log _ _ _ _ _ _ _ p _ (fun d => 0) (fun d => None)) in H; log_side.
  - apply (@run_till_log _ _ _ _ _ _ _ p _ (fun d => 0) (fun d => Some d)) in H; log_side.
  - apply (@run_till_log _ _ _ _ _ _ _ p _ (fun d => d) (fun d => Some d)) in H; log_side.
Qed.
