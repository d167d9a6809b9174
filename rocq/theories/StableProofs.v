(** Proofs: verdicts of stream-safe parsers are never revised. *)
From Coq Require Import List Bool Arith Lia.
From Verif Require Import Base Parsers Combinators SpecBase SpecSafe IterProofs SafeProofs.
Import ListNotations.

Set Implicit Arguments.

#[export] Hint Resolve b_panic b_ret b_err b_incomplete b_from_result b_map b_map_err b_inspect b_bind b_then b_any b_satisfy b_satisfy_with b_token b_not_token b_peek b_peek_next b_take b_take_while b_take_while1 b_take_till b_scan b_run_scanner b_take_remainder b_string b_eof b_bmany b_bskip_many b_bmany_till b_sep_by b_sep_by1 b_option b_or b_matched_by b_look_ahead : built.

Lemma safe_built : forall I T E (p : parser I T E), safe p -> built p.
Proof. induction 1; auto with built; eapply b_ext; eauto. Qed.

Lemma upholds_one : forall I T E (p : parser I T E) b l c, p (mkInput false b) = Incomplete 1 ->
  upholds l c (p (mkInput false b)) (p (mkInput l (b ++ c))).
Proof.
  intros I T E p b l c H. rewrite H. simpl. intros -> Hc. destruct c; [|simpl in Hc; lia]. rewrite app_nil_r. eauto.
Qed.

Lemma position_app : forall A (f : A -> bool) b c n, position f b = Some n -> position f (b ++ c) = Some n.
Proof.
  induction b as [|x r IH]; intros c n H; [discriminate|]. simpl in *. destruct (f x); auto.
  destruct (position f r) as [m|]; [|discriminate]. rewrite (IH c m eq_refl). assumption.
Qed.

Lemma position_st_app : forall A S (f : S -> A -> bool * S) b c s n s', position_st f s b = (Some n, s') ->
  position_st f s (b ++ c) = (Some n, s') /\ n < length b.
Proof.
  induction b as [|x r IH]; intros c s n s' H; [discriminate|]. simpl in *. destruct (f s x) as [stop s1]. destruct stop.
  - inversion H; subst. split; [reflexivity|lia].
  - destruct (position_st f s1 r) as [[m|] s2] eqn:Hr; [|discriminate]. simpl in H. inversion H; subst.
    destruct (IH c s1 m s' Hr) as [-> Hl]. split; [reflexivity|lia].
Qed.

Lemma scan_state : forall A S (f : S -> A -> option S) b s,
  let step (st : option (option S)) (c : A) :=
      match st with
      | Some (Some s0) => let st' := f s0 c in (match st' with None => true | Some _ => false end, Some st')
      | _ => (true, None)
      end in
  snd (position_st step (Some (Some s)) b) <> None.
Proof.
  intros A S f b s step. revert s. induction b as [|x r IH]; intros s; [discriminate|]. simpl. destruct (f s x) as [s1|]; simpl; [|discriminate].
  specialize (IH s1). destruct (position_st step (Some (Some s1)) r) as [m s2]. exact IH.
Qed.

Lemma firstn_app_le : forall A n (b c : list A), n <= length b -> firstn n (b ++ c) = firstn n b.
Proof. intros. rewrite firstn_app. replace (n - length b) with 0 by lia. simpl. apply app_nil_r. Qed.
Lemma skipn_app_le : forall A n (b c : list A), n <= length b -> skipn n (b ++ c) = skipn n b ++ c.
Proof. intros. rewrite skipn_app. replace (n - length b) with 0 by lia. reflexivity. Qed.

(** * Iteration *)

Lemma quiet_done : forall It U T C (next : It -> step It U) hint (act : C -> caction U T C) c, quiet act c ->
  forall fuel it, match from_iter fuel next hint act c it with FDone _ it' => it' = it | FPanic => False | FNoFuel => True end.
Proof.
  intros It U T C next hint act c Hq. induction Hq as [c t Hc|c k Hc Hk IH]; intros [|fuel] it; simpl; auto; rewrite Hc; auto. apply IH.
Qed.

Lemma quiet_same : forall It1 It2 U T C (next1 : It1 -> step It1 U) (next2 : It2 -> step It2 U) hint1 hint2 (act : C -> caction U T C) c, quiet act c ->
  forall fuel it1 it2 t, hint1 it1 = hint2 it2 -> from_iter fuel next1 hint1 act c it1 = FDone t it1 ->
  from_iter fuel next2 hint2 act c it2 = FDone t it2.
Proof.
  intros It1 It2 U T C next1 next2 hint1 hint2 act c Hq. induction Hq as [c t Hc|c k Hc Hk IH]; intros [|fuel] it1 it2 t0 Hh H; simpl in *; try discriminate; rewrite Hc in *.
  - inversion H; reflexivity.
  - rewrite <- Hh. eapply IH; eauto.
Qed.

Section Sim.
  Context {It1 It2 U T C : Type}.
  Variable next1 : It1 -> step It1 U.
  Variable next2 : It2 -> step It2 U.
  Variable hint1 : It1 -> nat * option nat.
  Variable hint2 : It2 -> nat * option nat.
  Variable col : collector U T C.
  Variable R Q : It1 -> It2 -> Prop.
  Variable W : It1 -> Prop.
  Hypothesis R_hint : forall a b, R a b -> hint1 a = hint2 b.
  Hypothesis Q_hint : forall a b, Q a b -> hint1 a = hint2 b.
  Hypothesis R_next : forall a b, R a b ->
    match next1 a with
    | Yield u a' => exists b', next2 b = Yield u b' /\ R a' b'
    | Stop a' => (exists b', next2 b = Stop b' /\ Q a' b') \/ W a'
    | StepPanic => next2 b = StepPanic
    | StepNoFuel => True
    end.
  Hypothesis Hcol : exhausts col.

  Lemma from_iter_sim : forall fuel a b, R a b ->
    match from_iter fuel next1 hint1 (cact col) (cinit col) a with
    | FDone t a' => (exists b', from_iter fuel next2 hint2 (cact col) (cinit col) b = FDone t b' /\ Q a' b') \/ W a'
    | FPanic => from_iter fuel next2 hint2 (cact col) (cinit col) b = FPanic
    | FNoFuel => True
    end.
  Proof.
    destruct Hcol as (P & HP & Hst). generalize (cinit col) HP. intros c Hc fuel. revert c Hc.
    induction fuel as [|fuel IH]; intros c Hc a b HR; [exact Logic.I|]. simpl. specialize (Hst c Hc).
    destruct (cact col c) as [t|k|k|].
    - contradiction.
    - destruct Hst as [Hsome Hnone]. pose proof (R_next HR) as Hn. destruct (next1 a) as [u a'|a'| |].
      + destruct Hn as (b' & -> & HR'). apply IH; auto.
      + pose proof (quiet_done next1 hint1 Hnone fuel a') as Hd.
        destruct (from_iter fuel next1 hint1 (cact col) (k None) a') as [t a''| |] eqn:Hf; [|contradiction|exact Logic.I]. subst a''.
        destruct Hn as [(b' & -> & HQ)|HW]; [|right; exact HW]. left. exists b'. split; [|exact HQ].
        eapply quiet_same; [exact Hnone|apply Q_hint; exact HQ|exact Hf].
      + rewrite Hn. reflexivity.
      + exact Logic.I.
    - rewrite <- (R_hint HR). apply IH; auto.
    - reflexivity.
  Qed.
End Sim.

Section Iter.
  Context {S I U E : Type}.
  Variable p : sparser S I U E.
  Hypothesis Hw : forall s i, honest i (fst (p s i)).
  Hypothesis Hs : forall s, stable (fun i => fst (p s i)).
  Hypothesis Hc : carries p.
  Variable l : bool.
  Variable c : list I.

  (** [j2] is [j1] with [c] behind it. *)
  Definition ext (j1 j2 : input I) : Prop := last j1 = false /\ j2 = mkInput l (buf j1 ++ c).

  Definition st_rel (pre : bool) (a b : end_state I E) : Prop :=
    match a, b with
    | ESError r e, ESError r' e' => r' = r ++ c /\ e' = e
    | ESIncomplete n, ESIncomplete m => (pre = true /\ n = 1 /\ m = 1) \/ (l = false /\ pre = false)
    | _, _ => False
    end.

  Lemma step_ext : forall s j1 j2, ext j1 j2 ->
    match p s j1 with
    | (Data k v, s') => p s j2 = (Data (mkInput l (buf k ++ c)) v, s') /\ last k = false
    | (Error b e, s') => p s j2 = (Error (b ++ c) e, s')
    | (Incomplete n, _) => 1 <= n /\ ((l = false -> length c < n -> exists m s'', p s j2 = (Incomplete m, s'')))
    | (Panic, _) => exists s'', p s j2 = (Panic, s'')
    | (NoFuel, _) => True
    end.
  Proof.
    intros s [l1 b1] j2 [Hl ->]. simpl in Hl. subst l1. cbn [buf].
    pose proof (Hw s (mkInput false b1)) as H1. pose proof (@Hs s b1 l c) as H2. cbn beta in H2. pose proof (@Hc s b1 l c) as H3.
    destruct (p s (mkInput false b1)) as [r1 s1]. destruct (p s (mkInput l (b1 ++ c))) as [r2 s2]. cbn [fst snd] in *.
    destruct r1 as [k v|b e|n| |]; simpl in *.
    - destruct H1 as [Hl _]. split; [|assumption]. rewrite H2, H3 by eauto. reflexivity.
    - rewrite H2, H3 by eauto. reflexivity.
    - split; [assumption|]. intros Hl Hn. destruct (H2 Hl Hn) as [m ->]. eauto.
    - rewrite H2. eauto.
    - exact Logic.I.
  Qed.

  Lemma run_iter_stable : forall T D C fuel (col : collector U T C) s0 (data : D) hint pre on fin b,
    exhausts col ->
    (forall t j1 j2 d st1 st2, ext j1 j2 -> st_rel (pre d) st1 st2 -> upholds l c (fin t j1 d st1) (fin t j2 d st2)) ->
    (forall t j1 d n r, last j1 = false -> pre d = false -> 1 <= n -> (l = false -> length c < n -> False) ->
        upholds l c (fin t j1 d (ESIncomplete n)) r) ->
    upholds l c (run_iter fuel col (mkInput false b) s0 p data hint pre on fin)
                (run_iter fuel col (mkInput l (b ++ c)) s0 p data hint pre on fin).
  Proof.
    intros T D C fuel col s0 data hint pre on fin b Hcol HQ HW. unfold run_iter.
    pose (R := fun a b : iter S I E D => it_state a = ESIncomplete 1 /\ it_state b = ESIncomplete 1 /\ it_ps a = it_ps b /\ it_data a = it_data b /\ ext (it_buf a) (it_buf b)).
    pose (Q := fun a b : iter S I E D => it_data a = it_data b /\ ext (it_buf a) (it_buf b) /\ st_rel (pre (it_data a)) (it_state a) (it_state b)).
    pose (W := fun a : iter S I E D => exists n, it_state a = ESIncomplete n /\ last (it_buf a) = false /\ pre (it_data a) = false /\ 1 <= n /\ (l = false -> length c < n -> False)).
    pose proof (@from_iter_sim _ _ U T C (iter_next p pre on) (iter_next p pre on) (fun it => hint (it_data it)) (fun it => hint (it_data it)) col R Q W) as Hsim.
    assert (Hfi := Hsim ltac:(intros x y (_ & _ & _ & H & _); rewrite H; reflexivity) ltac:(intros x y (H & _); rewrite H; reflexivity)).
    clear Hsim.
    match type of Hfi with ?A -> _ => assert (Hn : A) end.
    { intros x y (Hx1 & Hx2 & Hps & Hd & He). unfold iter_next. rewrite <- Hd, <- Hps. destruct (pre (it_data x)) eqn:Hpre.
      - left. eexists. split; [reflexivity|]. unfold Q. rewrite Hpre. rewrite Hx1, Hx2. simpl. auto 10.
      - pose proof (step_ext (it_ps x) He) as Hst. destruct (p (it_ps x) (it_buf x)) as [[k v|r e|n| |] s'].
        + destruct Hst as [-> Hk]. eexists. split; [reflexivity|]. unfold R, ext. simpl. rewrite Hd. auto 10.
        + rewrite Hst. left. eexists. split; [reflexivity|]. unfold Q. simpl. auto.
        + destruct Hst as [Hn1 Hst]. destruct (bool_dec l false) as [Hl|Hl]; [destruct (lt_dec (length c) n) as [Hlt|Hlt]|].
          * destruct (Hst Hl Hlt) as (m & s'' & ->). left. eexists. split; [reflexivity|]. unfold Q. simpl. rewrite Hpre. auto 10.
          * right. exists n. simpl. destruct He. auto 10.
          * right. exists n. simpl. destruct He. repeat split; auto; intros; congruence.
        + destruct Hst as [s'' ->]. reflexivity.
        + exact Logic.I. }
    specialize (Hfi Hn Hcol fuel (mkIter (ESIncomplete 1) s0 (mkInput false b) data) (mkIter (ESIncomplete 1) s0 (mkInput l (b ++ c)) data)).
    match type of Hfi with ?A -> _ => assert (HR : A) by (unfold R, ext; simpl; auto 10) end. specialize (Hfi HR). clear HR Hn.
    destruct (from_iter _ _ _ _ _ (mkIter (ESIncomplete 1) s0 (mkInput false b) data)) as [t x| |].
    - destruct Hfi as [(y & -> & Hd & He & Hst)|(n & Hx & Hlast & Hpre & Hn & Hlc)].
      + rewrite <- Hd. apply HQ; auto.
      + rewrite Hx. apply HW; auto.
    - rewrite Hfi. reflexivity.
    - exact Logic.I.
  Qed.
End Iter.

Ltac fin_q := intros t [l1 b1] j2 d st1 st2 [Hl1 ->] Hst; cbn [last buf] in *; subst;
  match type of d with (_ * _)%type => destruct d as [d1 d2] | _ => idtac end;
  destruct st1 as [r1 e1|n1], st2 as [r2 e2|n2]; cbn [st_rel] in Hst; try contradiction;
  [destruct Hst; subst|destruct Hst as [(Hpre & -> & ->)|(-> & Hpre)]];
  cbn [fst snd] in *; unfold ret, err, incomplete, replace; cbn [last buf];
  repeat match goal with |- context [match ?x with O => _ | S _ => _ end] => is_var x; destruct x; cbn [Nat.eqb] in * end;
  try discriminate; cbn [upholds]; eauto.
Ltac fin_w := intros t [l1 b1] d k0 r Hl1 Hpre Hn Hlc; cbn [last buf] in *; subst;
  match type of d with (_ * _)%type => destruct d as [d1 d2] | _ => idtac end;
  cbn [fst snd] in *; unfold ret, err, incomplete, replace; cbn [last buf];
  repeat match goal with |- context [match ?x with O => _ | S _ => _ end] => is_var x; destruct x; cbn [Nat.eqb] in * end;
  try discriminate; cbn [upholds]; intros; exfalso; auto.

Lemma bmany_stable : forall S I U T E C fuel (col : collector U T C) r s0 (p : sparser S I U E),
  exhausts col -> carries p -> (forall s i, honest i (fst (p s i))) -> (forall s, stable (fun i => fst (p s i))) ->
  stable (bmany fuel col r s0 p).
Proof.
  intros S I U T E C fuel col r s0 p Hcol Hc Hw Hs b l c. destruct r as [x y|x| |y|n]; cbn [bmany].
  - unfold parse_many_range. destruct (negb (x <=? y)); [reflexivity|]. apply run_iter_stable; auto; [fin_q|fin_w].
  - unfold parse_many_from. apply run_iter_stable; auto; [fin_q|fin_w].
  - unfold parse_many_full. apply run_iter_stable; auto; [fin_q|fin_w].
  - unfold parse_many_to. apply run_iter_stable; auto; [fin_q|fin_w].
  - unfold parse_many_exact. apply run_iter_stable; auto; [fin_q|fin_w].
Qed.

(** * skip_many *)
Section Skip.
  Context {S I U E : Type}.
  Variable p : sparser S I U E.
  Hypothesis Hw : forall s i, honest i (fst (p s i)).
  Hypothesis Hs : forall s, stable (fun i => fst (p s i)).
  Hypothesis Hc : carries p.
  Variable l : bool.
  Variable c : list I.

  Ltac skip_step IH :=
    match goal with |- context [p ?s (mkInput false ?b)] =>
      let H := fresh "Hst" in
      assert (H := step_ext Hw Hs Hc s (conj (eq_refl : last (mkInput false b) = false) (eq_refl : mkInput l (b ++ c) = mkInput l (buf (mkInput false b) ++ c))));
      destruct (p s (mkInput false b)) as [[[?kl ?kb] ?v|?r ?e|?m| |] ?s'];
      [destruct H as [-> ?Hk]; cbn [last buf] in *; subst; apply IH
      |rewrite H; unfold ret, err, incomplete, replace; cbn [last buf]; repeat dif; cbn [upholds]; auto
      |destruct H as [?Hm H]; unfold incomplete; cbn [last]; rewrite ?andb_false_r;
       try (match goal with |- context [?x =? 0] => destruct (Nat.eqb_spec x 0); [lia|] end);
       cbn [upholds]; intros -> ?Hl; destruct (H eq_refl Hl) as (?m2 & ?s2 & ?Heq); rewrite Heq; cbn [last]; rewrite ?andb_false_r
      |destruct H as [?s2 ->]; reflexivity
      |exact Logic.I]
    end.

  Lemma skip_full_stable : forall fuel s b, upholds l c (skip_many_full p fuel s (mkInput false b)) (skip_many_full p fuel s (mkInput l (b ++ c))).
  Proof. induction fuel as [|fuel IH]; intros s b; [exact Logic.I|]. cbn [skip_many_full]. skip_step IH. eauto. Qed.
  Lemma skip_from_stable : forall fuel a s b, upholds l c (skip_many_from p fuel s a (mkInput false b)) (skip_many_from p fuel s a (mkInput l (b ++ c))).
  Proof. induction fuel as [|fuel IH]; intros a s b; [exact Logic.I|]. cbn [skip_many_from]. skip_step IH. eauto. Qed.
  Lemma skip_to_stable : forall fuel a s b, upholds l c (skip_loop_to p fuel a s (mkInput false b)) (skip_loop_to p fuel a s (mkInput l (b ++ c))).
  Proof. induction fuel as [|fuel IH]; intros a s b; [exact Logic.I|]. cbn [skip_loop_to]. destruct (a =? 0); [reflexivity|]. skip_step IH. eauto. Qed.
  Lemma skip_range_stable : forall fuel a a' s b, upholds l c (skip_loop_range p fuel a a' s (mkInput false b)) (skip_loop_range p fuel a a' s (mkInput l (b ++ c))).
  Proof. induction fuel as [|fuel IH]; intros a a' s b; [exact Logic.I|]. cbn [skip_loop_range]. destruct (a' =? 0); [reflexivity|]. skip_step IH. eauto. Qed.
  Lemma skip_exact_stable : forall fuel a s b, upholds l c (skip_many_exact p fuel s a (mkInput false b)) (skip_many_exact p fuel s a (mkInput l (b ++ c))).
  Proof.
    induction fuel as [|fuel IH]; intros a s b; [exact Logic.I|]. cbn [skip_many_exact]. destruct (Nat.eqb_spec a 0); [reflexivity|].
    pose proof (Hw s (mkInput l (b ++ c))) as Hh. skip_step IH.
    rewrite Heq in Hh. cbn [fst honest] in Hh. destruct (Nat.eqb_spec m2 0); [lia|]. eauto.
  Qed.

  Lemma bskip_stable : forall fuel r s0 b, upholds l c (bskip_many fuel r s0 p (mkInput false b)) (bskip_many fuel r s0 p (mkInput l (b ++ c))).
  Proof.
    intros fuel r s0 b. destruct r as [x y|x| |y|n]; cbn [bskip_many]; unfold skip_many_range, skip_many_to.
    - destruct (negb _); [reflexivity|]. apply skip_range_stable.
    - apply skip_from_stable.
    - apply skip_full_stable.
    - apply skip_to_stable.
    - apply skip_exact_stable.
  Qed.
End Skip.

(** * many_till *)
Section Till.
  Context {S I U V E N : Type}.
  Variable p : sparser S I U E.
  Variable end_ : parser I V N.
  Hypothesis Hw : forall s i, honest i (fst (p s i)).
  Hypothesis Hs : forall s, stable (fun i => fst (p s i)).
  Hypothesis Hc : carries p.
  Hypothesis Ew : forall i, honest i (end_ i).
  Hypothesis Es : stable end_.
  Hypothesis Hd : decisive p end_.
  Variable l : bool.
  Variable c : list I.

  Definition tst_rel (a b : end_state_till I E) : Prop :=
    match a, b with
    | TError r e, TError r' e' => r' = r ++ c /\ e' = e
    | TIncomplete n, TIncomplete m => True
    | TEndSuccess, TEndSuccess => True
    | _, _ => False
    end.

  (** What the hooks and the parser do at an input and at its extension. *)
  Lemma end_ext : forall s j1 j2, ext l c j1 j2 ->
    match end_ j1 with
    | Data k v => end_ j2 = Data (mkInput l (buf k ++ c)) v /\ last k = false
    | Error r e => end_ j2 = Error (r ++ c) e
    | Incomplete n =>
        exists m s', p s j1 = (Incomplete m, s') /\ 1 <= m /\
          (l = false -> length c < m -> exists n' m' s'', end_ j2 = Incomplete n' /\ p s j2 = (Incomplete m', s''))
    | Panic => end_ j2 = Panic
    | NoFuel => True
    end.
  Proof.
    intros s [l1 b1] j2 He. pose proof (step_ext Hw Hs Hc s He) as Hst. destruct He as [Hl ->]. cbn [last buf] in *. subst l1.
    pose proof (Ew (mkInput false b1)) as H1. pose proof (@Es b1 l c) as H2. pose proof (@Hd s b1) as H3.
    destruct (end_ (mkInput false b1)) as [k v|r e|n| |]; cbn [honest upholds] in *; auto.
    - destruct H1. auto.
    - destruct (H3 n eq_refl) as (m & Hm & Hle). destruct (p s (mkInput false b1)) as [r1 s1]. cbn [fst] in Hm. subst r1.
      destruct Hst as [Hm1 Hst]. exists m, s1. repeat split; auto. intros Hl Hlt. destruct (Hst Hl Hlt) as (m' & s'' & Heq).
      destruct (H2 Hl ltac:(lia)) as [n' Hn']. exists n', m', s''. split; assumption.
  Qed.

  Lemma run_iter_till_stable : forall T D C fuel (col : collector U T C) s0 (data : D) hint
      (pre : iter_till S unit I E D -> pre_res (iter_till S unit I E D)) on fin b,
    exhausts col ->
    (forall x y, tt_state x = TIncomplete 1 -> tt_state y = TIncomplete 1 -> tt_ps x = tt_ps y -> tt_data x = tt_data y -> ext l c (tt_buf x) (tt_buf y) ->
       match iter_till_next p pre on x with
       | Yield u x' => exists y', iter_till_next p pre on y = Yield u y' /\
           tt_state x' = TIncomplete 1 /\ tt_state y' = TIncomplete 1 /\ tt_ps x' = tt_ps y' /\ tt_data x' = tt_data y' /\ ext l c (tt_buf x') (tt_buf y')
       | Stop x' =>
           (exists y', iter_till_next p pre on y = Stop y' /\ tt_data x' = tt_data y' /\ ext l c (tt_buf x') (tt_buf y') /\ tst_rel (tt_state x') (tt_state y')) \/
           (exists n, tt_state x' = TIncomplete n /\ (l = false -> length c < n -> False))
       | StepPanic => iter_till_next p pre on y = StepPanic
       | StepNoFuel => True
       end) ->
    (forall t j1 j2 d st1 st2, ext l c j1 j2 -> tst_rel st1 st2 -> upholds l c (fin t j1 d st1) (fin t j2 d st2)) ->
    (forall t j1 d n, fin t j1 d (TIncomplete n) = Incomplete n) ->
    upholds l c (run_iter_till fuel col (mkInput false b) s0 tt p data hint pre on fin)
                (run_iter_till fuel col (mkInput l (b ++ c)) s0 tt p data hint pre on fin).
  Proof.
    intros T D C fuel col s0 data hint pre on fin b Hcol Hn HQ HW. unfold run_iter_till.
    pose (R := fun x y : iter_till S unit I E D => tt_state x = TIncomplete 1 /\ tt_state y = TIncomplete 1 /\ tt_ps x = tt_ps y /\ tt_data x = tt_data y /\ ext l c (tt_buf x) (tt_buf y)).
    pose (Q := fun x y : iter_till S unit I E D => tt_data x = tt_data y /\ ext l c (tt_buf x) (tt_buf y) /\ tst_rel (tt_state x) (tt_state y)).
    pose (W := fun x : iter_till S unit I E D => exists n, tt_state x = TIncomplete n /\ (l = false -> length c < n -> False)).
    pose proof (@from_iter_sim _ _ U T C (iter_till_next p pre on) (iter_till_next p pre on) (fun it => hint (tt_data it)) (fun it => hint (tt_data it)) col R Q W) as Hsim.
    assert (Hfi := Hsim ltac:(intros x y (_ & _ & _ & H & _); rewrite H; reflexivity) ltac:(intros x y (H & _); rewrite H; reflexivity)).
    clear Hsim.
    specialize (Hfi ltac:(intros x y (H1 & H2 & H3 & H4 & H5); exact (Hn x y H1 H2 H3 H4 H5)) Hcol fuel
      (mkIterTill (TIncomplete 1) s0 tt (mkInput false b) data) (mkIterTill (TIncomplete 1) s0 tt (mkInput l (b ++ c)) data)).
    match type of Hfi with ?A -> _ => assert (HR : A) by (unfold R, ext; simpl; auto 10) end. specialize (Hfi HR). clear HR Hn.
    destruct (from_iter _ _ _ _ _ (mkIterTill (TIncomplete 1) s0 tt (mkInput false b) data)) as [t x| |].
    - destruct Hfi as [(y & -> & Hda & He & Hst)|(n & Hx & Hlc)].
      + rewrite <- Hda. apply HQ; auto.
      + rewrite Hx, HW. cbn [upholds]. intros; exfalso; auto.
    - rewrite Hfi. reflexivity.
    - exact Logic.I.
  Qed.
End Till.

Lemma bmany_till_stable : forall S I U V T E N C fuel (col : collector U T C) r s0 (p : sparser S I U E) (end_ : parser I V N),
  exhausts col -> carries p -> decisive p end_ -> (forall s i, honest i (fst (p s i))) -> (forall s, stable (fun i => fst (p s i))) ->
  (forall i, honest i (end_ i)) -> stable end_ -> stable (bmany_till fuel col r s0 tt p (pure end_)).
Proof.
  intros S I U V T E N C fuel col r s0 p end_ Hcol Hc Hd Hw Hs Ew Es b l c.
  assert (Hend := @end_ext S I U V E N p end_ Hw Hs Hc Ew Es Hd l c).
  assert (Hp := @step_ext S I U E p Hw Hs Hc l c).
  Ltac till_one Hend Hp :=
    intros [xs xps [] xb xd] [ys yps [] yb yd] Hx Hy Hps Hda He; cbn [tt_state tt_ps tt_data tt_buf tt_es] in *; subst;
    unfold iter_till_next, pre_seq, end_test, pure; cbn [tt_state tt_ps tt_data tt_buf tt_es];
    specialize (Hend yps _ _ He); specialize (Hp yps _ _ He);
    match type of Hend with match ?ee ?xx with _ => _ end =>
      let Hee := fresh "Hee" in destruct (ee xx) as [k v|r1 e1|n1| |] eqn:Hee;
      [destruct Hend as [Hend Hk]; rewrite ?Hend|rewrite ?Hend
      |destruct Hend as (m1 & s1 & Hm1 & Hm2 & Hend); rewrite Hm1 in Hp;
       match goal with l0 : bool, c0 : list _ |- _ =>
         let Hl := fresh "Hl" in let Hlt := fresh "Hlt" in
         destruct (bool_dec l0 false) as [Hl|Hl]; [destruct (lt_dec (length c0) m1) as [Hlt|Hlt];
           [destruct (Hend Hl Hlt) as (n2 & m2 & s2 & Hn2 & Hm3); rewrite ?Hn2|]|] end
      |rewrite ?Hend|]
    end.
  Ltac till_close Hp :=
    cbn [tt_state tt_ps tt_data tt_buf tt_es fst snd];
    repeat (match goal with
    | H : ?e ?i = Incomplete _ |- _ => rewrite H
    | H : ?e ?i = Error _ _ |- _ => rewrite H
    | H : ?e ?i = Data _ _ |- _ => rewrite H
    | H : ?e ?i = Panic |- _ => rewrite H
    | H : ?e ?i = NoFuel |- _ => rewrite H
    | H : ?q ?s ?i = (Incomplete _, _) |- _ => rewrite H
    | H : (_ =? 0) = _ |- _ => rewrite H
    end; cbn [tt_state tt_ps tt_data tt_buf tt_es fst snd]);
    first
    [ reflexivity
    | exact Logic.I
    | left; eexists; split; [reflexivity|]; cbn [tt_state tt_ps tt_data tt_buf tt_es tst_rel]; unfold ext in *; solve [intuition auto]
    | right; eexists; split; [reflexivity|]; intros; solve [lia|congruence]
    | match type of Hp with match ?x with _ => _ end =>
        destruct x as [[k2 v2|r2 e2|m4| |] s4];
        [ destruct Hp as [-> Hk2]; eexists; split; [reflexivity|]; cbn [tt_state tt_ps tt_data tt_buf tt_es]; unfold ext in *; solve [intuition auto]
        | rewrite Hp; left; eexists; split; [reflexivity|]; cbn [tt_state tt_ps tt_data tt_buf tt_es tst_rel]; unfold ext in *; solve [intuition auto]
        | destruct Hp as [Hm5 Hp];
          match goal with l0 : bool, c0 : list _ |- _ =>
            let Hl5 := fresh "Hl" in let Hlt5 := fresh "Hlt" in
            destruct (bool_dec l0 false) as [Hl5|Hl5]; [destruct (lt_dec (length c0) m4) as [Hlt5|Hlt5]|];
            [ destruct (Hp Hl5 Hlt5) as (m6 & s6 & ->); left; eexists; split; [reflexivity|]; cbn [tt_state tt_ps tt_data tt_buf tt_es tst_rel]; unfold ext in *; solve [intuition auto]
            | right; eexists; split; [reflexivity|]; intros; solve [lia|congruence]
            | right; eexists; split; [reflexivity|]; intros; solve [lia|congruence] ] end
        | destruct Hp as [s6 ->]; reflexivity
        | exact Logic.I ]
      end ].
  Ltac till_fin :=
    intros t [l1 b1] j2 d st1 st2 [Hl1 ->] Hst; cbn [last buf] in *; subst;
    match type of d with (_ * _)%type => destruct d as [d1 d2] | _ => idtac end;
    destruct st1 as [r1 e1|n1|], st2 as [r2 e2|n2|]; cbn [tst_rel] in Hst; try contradiction; try (destruct Hst; subst);
    unfold ret, err, incomplete, replace; cbn [last buf];
    repeat match goal with |- context [match ?x with O => _ | Datatypes.S _ => _ end] => is_var x; destruct x end; cbn [upholds]; eauto.
  Ltac till_inc := intros t j1 d k; match type of d with (_ * _)%type => destruct d as [d1 d2] | _ => idtac end; unfold incomplete;
    repeat match goal with |- context [match ?x with O => _ | Datatypes.S _ => _ end] => is_var x; destruct x end; reflexivity.
  destruct r as [a a'|a| |a'|n]; cbn [bmany_till].
  - unfold many_till_range. destruct (negb (a <=? a')); [reflexivity|].
    apply run_iter_till_stable; auto; [|till_fin|till_inc].
    till_one Hend Hp; destruct yd as [d1 d2]; cbn [fst snd]; destruct (d1 =? 0) eqn:?, (d2 =? 0) eqn:?; till_close Hp.
  - unfold many_till_from. apply run_iter_till_stable; auto; [|till_fin|till_inc].
    till_one Hend Hp; destruct (yd =? 0) eqn:?; till_close Hp.
  - unfold many_till_full. apply run_iter_till_stable; auto; [|till_fin].
    till_one Hend Hp; till_close Hp.
  - unfold many_till_to. apply run_iter_till_stable; auto; [|till_fin|till_inc].
    till_one Hend Hp; destruct (yd =? 0) eqn:?; till_close Hp.
  - unfold many_till_exact. apply run_iter_till_stable; auto; [|till_fin|till_inc].
    till_one Hend Hp; destruct (yd =? 0) eqn:?; till_close Hp.
Qed.

(** * sep_by *)
Lemma sep_item_stable : forall SP SS I U V E N (conv : N -> E) (p : sparser SP I U E) (sep : sparser SS I V N),
  carries p -> carries sep -> (forall s i, honest i (fst (p s i))) -> (forall s i, honest i (fst (sep s i))) ->
  (forall s, stable (fun i => fst (p s i))) -> (forall s, stable (fun i => fst (sep s i))) ->
  (forall s, stable (fun i => fst (sep_item conv p sep s i))) /\ carries (sep_item conv p sep).
Proof.
  intros SP SS I U V E N conv p sep Hc1 Hc2 Hw1 Hw2 Hs1 Hs2.
  assert (Hboth : forall s b l c,
    upholds l c (fst (sep_item conv p sep s (mkInput false b))) (fst (sep_item conv p sep s (mkInput l (b ++ c)))) /\
    ((exists j v, fst (sep_item conv p sep s (mkInput false b)) = Data j v) \/ (exists r e, fst (sep_item conv p sep s (mkInput false b)) = Error r e) ->
     snd (sep_item conv p sep s (mkInput l (b ++ c))) = snd (sep_item conv p sep s (mkInput false b)))).
  { intros [[item sp] ss] b l c. assert (He : ext l c (mkInput false b) (mkInput l (b ++ c))) by (split; reflexivity).
    destruct item; unfold sep_item.
    - pose proof (step_ext Hw2 Hs2 Hc2 ss He) as H. destruct (sep ss (mkInput false b)) as [[k v|r e|m| |] ss'].
      + destruct H as [-> Hk]. cbn -[upholds].
        assert (He2 : ext l c k (mkInput l (buf k ++ c))) by (split; auto).
        pose proof (step_ext Hw1 Hs1 Hc1 sp He2) as H. destruct (p sp k) as [[k2 v2|r e|m| |] sp'].
        * destruct H as [-> Hk2]. cbn. auto.
        * rewrite H. cbn. auto.
        * destruct H as [Hm H]. cbn -[upholds]. split.
          -- cbn [upholds]. intros Hl Hlt. destruct (H Hl Hlt) as (m2 & s2 & ->). cbn. eauto.
          -- intros [(? & ? & Hx)|(? & ? & Hx)]; discriminate Hx.
        * destruct H as [s2 ->]. cbn. split; auto. intros [(? & ? & Hx)|(? & ? & Hx)]; discriminate Hx.
        * cbn. split; auto. intros [(? & ? & Hx)|(? & ? & Hx)]; discriminate Hx.
      + rewrite H. cbn. auto.
      + destruct H as [Hm H]. cbn -[upholds]. split.
        -- cbn [upholds]. intros Hl Hlt. destruct (H Hl Hlt) as (m2 & s2 & ->). cbn. eauto.
        -- intros [(? & ? & Hx)|(? & ? & Hx)]; discriminate Hx.
      + destruct H as [s2 ->]. cbn. split; auto. intros [(? & ? & Hx)|(? & ? & Hx)]; discriminate Hx.
      + cbn. split; auto. intros [(? & ? & Hx)|(? & ? & Hx)]; discriminate Hx.
    - cbn -[upholds]. pose proof (step_ext Hw1 Hs1 Hc1 sp He) as H. destruct (p sp (mkInput false b)) as [[k2 v2|r e|m| |] sp'].
      + destruct H as [-> Hk2]. cbn. auto.
      + rewrite H. cbn. auto.
      + destruct H as [Hm H]. cbn -[upholds]. split.
        -- cbn [upholds]. intros Hl Hlt. destruct (H Hl Hlt) as (m2 & s2 & ->). cbn. eauto.
        -- intros [(? & ? & Hx)|(? & ? & Hx)]; discriminate Hx.
      + destruct H as [s2 ->]. cbn. split; auto. intros [(? & ? & Hx)|(? & ? & Hx)]; discriminate Hx.
      + cbn. split; auto. intros [(? & ? & Hx)|(? & ? & Hx)]; discriminate Hx. }
  split.
  - intros s b l c. apply Hboth.
  - intros s b l c. apply Hboth.
Qed.

(** * The theorem *)
Lemma honest_mode : forall I T E (b : list I) (r : pres I T E) j v, honest (mkInput false b) r -> r = Data j v -> j = mkInput false (buf j) /\ suffix (buf j) b.
Proof. intros I T E b r [lj bj] v Hh ->. simpl in *. destruct Hh as [-> ?]. auto. Qed.

Theorem safe_stable : forall I T E (p : parser I T E), safe p -> stable p.
Proof.
  intros I T E p Hp. induction Hp; intros b0 l c.
  - rewrite <- !H. apply IHHp.
  - reflexivity.
  - reflexivity.
  - reflexivity.
  - intros _ _. exists n. reflexivity.
  - destruct r; reflexivity.
  - specialize (IHHp b0 l c). destruct (p (mkInput false b0)); cbn in *; auto; try (rewrite IHHp; reflexivity).
    intros Hl Hn. destruct (IHHp Hl Hn) as [m ->]. exists m. reflexivity.
  - specialize (IHHp b0 l c). destruct (p (mkInput false b0)); cbn in *; auto; try (rewrite IHHp; reflexivity).
    intros Hl Hn. destruct (IHHp Hl Hn) as [m ->]. exists m. reflexivity.
  - specialize (IHHp b0 l c). destruct (p (mkInput false b0)); cbn in *; auto; try (rewrite IHHp; reflexivity).
    intros Hl Hn. destruct (IHHp Hl Hn) as [m ->]. exists m. reflexivity.
  - specialize (IHHp b0 l c). pose proof (built_well_behaved (safe_built Hp) (mkInput false b0)) as Hh.
    destruct (p (mkInput false b0)) as [j t|r e|n| |] eqn:Hpb; cbn [upholds bind] in *; auto; try (rewrite IHHp; reflexivity).
    + rewrite IHHp. cbn [bind]. rewrite !honest_map_err_id by exact j.
      destruct (@honest_mode _ _ _ _ _ _ _ Hh eq_refl) as [-> _]. cbn [buf]. apply H0.
    + intros Hl Hn. destruct (IHHp Hl Hn) as [m ->]. cbn. eauto.
  - specialize (IHHp1 b0 l c). pose proof (built_well_behaved (safe_built Hp1) (mkInput false b0)) as Hh. unfold then_.
    destruct (p (mkInput false b0)) as [j t|r e|n| |] eqn:Hpb; cbn [upholds bind] in *; auto; try (rewrite IHHp1; reflexivity).
    + rewrite IHHp1. cbn [bind]. rewrite !honest_map_err_id by exact j.
      destruct (@honest_mode _ _ _ _ _ _ _ Hh eq_refl) as [-> _]. cbn [buf]. apply IHHp2.
    + intros Hl Hn. destruct (IHHp1 Hl Hn) as [m ->]. cbn. eauto.
  - destruct b0 as [|x r]; [apply upholds_one; reflexivity|reflexivity].
  - destruct b0 as [|x r]; [apply upholds_one; reflexivity|]. unfold satisfy. cbn. destruct (f x); reflexivity.
  - destruct b0 as [|x r]; [apply upholds_one; reflexivity|]. unfold satisfy_with. cbn. destruct (g (f x)); reflexivity.
  - destruct b0 as [|x r]; [apply upholds_one; reflexivity|]. unfold token. cbn. destruct (eqb t x); reflexivity.
  - destruct b0 as [|x r]; [apply upholds_one; reflexivity|]. unfold not_token. cbn. destruct (eqb t x); reflexivity.
  - destruct b0 as [|x r]; [apply upholds_one; reflexivity|reflexivity].
  - unfold take. cbn [buf]. rewrite app_length. destruct (Nat.leb_spec n (length b0)).
    + destruct (Nat.leb_spec n (length b0 + length c)); [|lia]. unfold ret, replace. cbn [upholds buf last].
      rewrite firstn_app_le, skipn_app_le by lia. reflexivity.
    + cbn [upholds incomplete]. intros _ Hn. destruct (Nat.leb_spec n (length b0 + length c)); [lia|]. eexists. reflexivity.
  - destruct (position (fun x => Bool.eqb (f x) false) b0) as [n|] eqn:Hn.
    + unfold take_while. cbn [buf last]. rewrite (position_app _ _ _ Hn), Hn. apply position_le in Hn. unfold ret, replace. cbn [upholds buf last].
      rewrite firstn_app_le, skipn_app_le by lia. reflexivity.
    + apply upholds_one. unfold take_while. cbn [buf last]. rewrite Hn. reflexivity.
  - destruct (position (fun x => Bool.eqb (f x) false) b0) as [n|] eqn:Hn.
    + unfold take_while1. cbn [buf last]. rewrite (position_app _ _ _ Hn), Hn. apply position_le in Hn. destruct n as [|n]; [reflexivity|].
      unfold ret, replace. cbn [upholds buf last]. rewrite firstn_app_le, skipn_app_le by lia. reflexivity.
    + apply upholds_one. unfold take_while1. cbn [buf last]. rewrite Hn, andb_false_r. reflexivity.
  - destruct (position f b0) as [n|] eqn:Hn.
    + unfold take_till. cbn [buf last]. rewrite (position_app _ _ _ Hn), Hn. apply position_le in Hn. unfold ret, replace. cbn [upholds buf last].
      rewrite firstn_app_le, skipn_app_le by lia. reflexivity.
    + apply upholds_one. unfold take_till. cbn [buf last]. rewrite Hn. reflexivity.
  - pose proof (scan_state f b0 s) as Hst. cbn zeta in Hst.
    destruct (position_st _ _ b0) as [[n|] [st|]] eqn:Hn in Hst; try (exfalso; apply Hst; reflexivity).
    + unfold scan. cbn [buf last]. rewrite Hn. destruct (position_st_app _ _ c _ Hn) as [-> Hl]. unfold ret, replace. cbn [upholds buf last].
      rewrite firstn_app_le, skipn_app_le by lia. reflexivity.
    + apply upholds_one. unfold scan. cbn [buf last]. rewrite Hn. reflexivity.
  - destruct (position_st (fun (state : S) (c : I) => match f state c with None => (true, state) | Some v => (false, v) end) s b0) as [[n|] st] eqn:Hn.
    + unfold run_scanner. cbn [buf last]. rewrite Hn. destruct (position_st_app _ _ c _ Hn) as [-> Hl]. unfold ret, replace. cbn [upholds buf last].
      rewrite firstn_app_le, skipn_app_le by lia. reflexivity.
    + apply upholds_one. unfold run_scanner. cbn [buf last]. rewrite Hn. reflexivity.
  - unfold string. cbn [buf]. rewrite app_length. destruct (Nat.ltb_spec (length b0) (length s)).
    + cbn [upholds incomplete]. intros _ Hn. destruct (Nat.ltb_spec (length b0 + length c) (length s)); [|lia]. eexists. reflexivity.
    + destruct (Nat.ltb_spec (length b0 + length c) (length s)); [lia|]. rewrite firstn_app_le by lia.
      destruct (string_mismatch eqb 0 s (firstn (length s) b0)) as [j|] eqn:Hj.
      * assert (Hjl : forall s d k j, string_mismatch eqb k s d = Some j -> j < k + length s).
        { clear. induction s as [|x s IH]; intros [|y d] k j Hj; cbn in Hj; try discriminate.
          destruct (eqb x y); cbn in Hj; [apply IH in Hj; cbn [length]; lia|inversion Hj; cbn [length]; lia]. }
        apply Hjl in Hj. cbn in Hj. unfold err_string. destruct v; [reflexivity|]. unfold err, replace. cbn [upholds buf last].
        rewrite skipn_app_le by lia. reflexivity.
      * unfold ret, replace. cbn [upholds buf last]. rewrite skipn_app_le by lia. reflexivity.
  - apply bmany_stable; auto. intros s. apply (built_well_behaved (safe_built (H1 s))).
  - apply bskip_stable; auto. intros s. apply (built_well_behaved (safe_built (H0 s))).
  - apply bmany_till_stable; auto. intros s. apply (built_well_behaved (safe_built (H2 s))). apply (built_well_behaved (safe_built Hp)).
  - assert (W1 : forall s i, honest i (fst (p s i))) by (intros s; apply (built_well_behaved (safe_built (H2 s)))).
    assert (W2 : forall s i, honest i (fst (sep s i))) by (intros s; apply (built_well_behaved (safe_built (H4 s)))).
    destruct (sep_item_stable conv H0 H1 W1 W2 H3 H5). apply bmany_stable; auto. apply sep_item_honest; auto.
  - assert (W1 : forall s i, honest i (fst (p s i))) by (intros s; apply (built_well_behaved (safe_built (H2 s)))).
    assert (W2 : forall s i, honest i (fst (sep s i))) by (intros s; apply (built_well_behaved (safe_built (H4 s)))).
    destruct (sep_item_stable conv H0 H1 W1 W2 H3 H5). apply bmany_stable; auto. apply sep_item_honest; auto.
  - specialize (IHHp b0 l c). unfold option_. destruct (p (mkInput false b0)) as [j t|r e|n| |] eqn:Hpb; cbn [upholds] in *; auto; try (rewrite IHHp; reflexivity).
    cbn. intros Hl Hn. destruct (IHHp Hl Hn) as [m ->]. subst. exists m. reflexivity.
  - specialize (IHHp1 b0 l c). specialize (IHHp2 b0 l c). unfold or_. destruct (p (mkInput false b0)) as [j t|r e|n| |] eqn:Hpb; cbn [upholds] in *; auto; try (rewrite IHHp1; try reflexivity; assumption).
    cbn. intros Hl Hn. destruct (IHHp1 Hl Hn) as [m ->]. subst. exists m. reflexivity.
  - specialize (IHHp b0 l c). unfold matched_by. pose proof (built_well_behaved (safe_built Hp) (mkInput false b0)) as Hh.
    destruct (p (mkInput false b0)) as [j t|r e|n| |] eqn:Hpb; cbn [upholds buf] in *; auto; try (rewrite IHHp; reflexivity).
    + rewrite IHHp. cbn [buf]. destruct (@honest_mode _ _ _ _ _ _ _ Hh eq_refl) as [Hj Hsuf]. apply suffix_length in Hsuf. rewrite !app_length.
      destruct (Nat.ltb_spec (length b0) (length (buf j))); [lia|]. destruct (Nat.ltb_spec (length b0 + length c) (length (buf j) + length c)); [lia|].
      replace (length b0 + length c - (length (buf j) + length c)) with (length b0 - length (buf j)) by lia.
      unfold ret. cbn [upholds]. rewrite firstn_app_le by lia. reflexivity.
    + cbn. intros Hl Hn. destruct (IHHp Hl Hn) as [m ->]. exists m. reflexivity.
  - specialize (IHHp b0 l c). unfold look_ahead. destruct (p (mkInput false b0)) as [j t|r e|n| |] eqn:Hpb; cbn [upholds buf] in *; auto; try (rewrite IHHp; reflexivity).
    cbn. intros Hl Hn. destruct (IHHp Hl Hn) as [m ->]. exists m. reflexivity.
Qed.

(** * Derived: the other names of the library *)
Lemma pure_carries : forall I T E (p : parser I T E), carries (pure p).
Proof. intros I T E p s b l c _. reflexivity. Qed.

Lemma vec_exhausts : forall U, exhausts (vec_collector U).
Proof.
  intros U. exists (fun c => fst c = false). split; [reflexivity|]. intros [[|] acc] H; [discriminate|]. simpl. split; [reflexivity|].
  apply quiet_finish with acc. reflexivity.
Qed.

Lemma vec_reserving_exhausts : forall U m, exhausts (vec_reserving U m).
Proof.
  intros U m. exists (fun c => match c with VFinish _ => False | _ => True end). split; [exact Logic.I|].
  intros [|u|acc|acc|] H; simpl; auto.
  - split; [auto|]. apply quiet_finish with []. reflexivity.
  - intros h. destruct (fst h + 1 <=? m); exact Logic.I.
  - split; [auto|]. apply quiet_finish with acc. reflexivity.
Qed.

Section Derived.
  Context {S I U T E C : Type}.
  Variable fuel : nat.
  Variable col : collector U T C.
  Variable s0 : S.
  Variable p : sparser S I U E.

  Lemma built_count : forall n, (forall s, built (fun i => fst (p s i))) -> built (count fuel col n s0 p).
  Proof. intros. apply b_bmany. assumption. Qed.
  Lemma built_many : (forall s, built (fun i => fst (p s i))) -> built (many fuel col s0 p).
  Proof. intros. apply b_bmany. assumption. Qed.
  Lemma built_many1 : (forall s, built (fun i => fst (p s i))) -> built (many1 fuel col s0 p).
  Proof. intros. apply b_bmany. assumption. Qed.
  Lemma built_skip_many : (forall s, built (fun i => fst (p s i))) -> built (skip_many fuel s0 p).
  Proof. intros. apply b_bskip_many. assumption. Qed.
  Lemma built_skip_many1 : (forall s, built (fun i => fst (p s i))) -> built (skip_many1 fuel s0 p).
  Proof. intros. apply b_bskip_many. assumption. Qed.
  Lemma built_many_till : forall SE V N e0 (end_ : sparser SE I V N), (forall s, built (fun i => fst (p s i))) -> (forall s, built (fun i => fst (end_ s i))) ->
    built (many_till fuel col s0 e0 p end_).
  Proof. intros. apply b_bmany_till; assumption. Qed.

  Hypothesis Hcol : exhausts col.
  Hypothesis Hc : carries p.
  Hypothesis Hs : forall s, safe (fun i => fst (p s i)).
  Lemma safe_count : forall n, safe (count fuel col n s0 p).
  Proof. intros. apply s_bmany; assumption. Qed.
  Lemma safe_many : safe (many fuel col s0 p).
  Proof. intros. apply s_bmany; assumption. Qed.
  Lemma safe_many1 : safe (many1 fuel col s0 p).
  Proof. intros. apply s_bmany; assumption. Qed.
  Lemma safe_skip_many : safe (skip_many fuel s0 p).
  Proof. intros. apply s_bskip_many; assumption. Qed.
  Lemma safe_skip_many1 : safe (skip_many1 fuel s0 p).
  Proof. intros. apply s_bskip_many; assumption. Qed.
  Lemma safe_many_till : forall V N (end_ : parser I V N), decisive p end_ -> safe end_ -> safe (many_till fuel col s0 tt p (pure end_)).
  Proof. intros. apply s_bmany_till; assumption. Qed.
End Derived.
