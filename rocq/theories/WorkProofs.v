(** Proofs about the work done by all calls of a stream together. *)
From Coq Require Import List Bool Arith Lia.
From Verif Require Import Base Parsers Combinators Buffer Stream SpecBase SpecBuffer SpecSafe SpecStream Effects SpecEffects BufferProofs StreamProofs SimProofs
  EffectsStreamProofs SpecBnf SpecWork.
Import ListNotations.

Set Implicit Arguments.

(** * Parsers whose calls cost little *)

(** At most [A] for each item of the input; if more like it may follow, at most [A] for each item consumed. *)
Record cheap {I T E} (A : nat) (F : I -> Prop) (p : sparser nat I T E) : Prop := mkCheap {
  ch_behaved : forall w, well_behaved (fun i => fst (p w i));
  ch_asks : forall w i, fst (p w i) <> Incomplete 0;
  ch_cost : forall w i res w', p w i = (res, w') -> res <> NoFuel -> w' <= w + A * (length (buf i) + 1);
  ch_local : forall w i j t w', p w i = (Data j t, w') -> follows F (buf j) -> exists x, buf i = x ++ buf j /\ w' <= w + A * (length x + 1);
  ch_start : forall w i j t w', p w i = (Data j t, w') -> exists c x, buf i = c :: x ++ buf j /\ F c }.

Lemma in_vain_cons : forall I T E (o : sres I T E) outs, in_vain (o :: outs) = vain o + in_vain outs.
Proof. reflexivity. Qed.

(** * Slices *)

Section Slices.
  Context {I T E : Type}.
  Variables (A : nat) (F : I -> Prop) (p : sparser nat I T E).
  Hypothesis Hp : cheap A F p.

  Definition left_of (s : slice_stream I) : list I := skipn (ss_pos s) (ss_slice s).
  Definition proper (s : slice_stream I) : Prop := ss_pos s <= length (ss_slice s).

  Lemma slice_step : forall s w s' o w', proper s -> slice_parse_w p s w = (Done (s', o), w') ->
    (left_of s = [] /\ o = inr SEndOfInput /\ s' = s /\ w' = w) \/
    (proper s' /\ exists res, p w (mkInput true (left_of s)) = (res, w') /\
     match res with
     | Data j v => o = inl v /\ left_of s' = buf j
     | Error b e => o = inr (SParseError b e) /\ left_of s' = b
     | Incomplete n => (exists m, o = inr (SIncomplete m)) /\ s' = s
     | Panic => False
     | NoFuel => False
     end).
  Proof.
    intros s w s' o w' Hs H. unfold slice_parse_w in H.
    assert (Hlen : slice_len s = Done (length (left_of s))).
    { unfold slice_len, left_of. rewrite skipn_length. unfold usize_sub. destruct (Nat.leb_spec (ss_pos s) (length (ss_slice s))); [reflexivity|unfold proper in Hs; lia]. }
    unfold slice_is_empty in H. rewrite Hlen in H. cbn [run_bind] in H. destruct (left_of s) as [|c r] eqn:El; cbn [length Nat.eqb] in H.
    - inversion H; subst. left. auto.
    - right. rewrite <- El in *. fold (left_of s) in H. destruct (p w (mkInput true (left_of s))) as [res w1] eqn:Ep.
      pose proof (ch_behaved Hp w (mkInput true (left_of s))) as Hb. cbn in Hb. rewrite Ep in Hb. cbn [fst] in Hb.
      injection H as H Ew. subst w1. cbn [run_bind] in H. replace (S (length r)) with (length (left_of s)) in H by (rewrite El; reflexivity).
      destruct res as [j v|b x|n| |]; try discriminate H; cbn [honest last buf] in Hb.
      + destruct Hb as [_ Hsf]. destruct (suffix_skipn Hsf) as [K1 K2]. rewrite usize_sub_ok in H by lia. cbn [run_bind] in H. injection H as H Eo. subst s' o.
        split; [unfold proper, left_of in *; cbn; rewrite skipn_length in *; lia|]. eexists. split; [reflexivity|]. split; [reflexivity|].
        unfold left_of in *. cbn. rewrite <- K1 at 2. rewrite skipn_skipn. f_equal. lia.
      + destruct (suffix_skipn Hb) as [K1 K2]. rewrite usize_sub_ok in H by lia. cbn [run_bind] in H. injection H as H Eo. subst s' o.
        split; [unfold proper, left_of in *; cbn; rewrite skipn_length in *; lia|]. eexists. split; [reflexivity|]. split; [reflexivity|].
        unfold left_of in *. cbn. rewrite <- K1 at 2. rewrite skipn_skipn. f_equal. lia.
      + injection H as H Eo. subst s' o. split; [assumption|]. eexists. split; [reflexivity|]. split; [eexists; reflexivity|reflexivity].
  Qed.

  Lemma slice_work : forall N s w outs s' w', calls (slice_parse_w p) s w outs s' w' -> proper s -> length (left_of s) <= N ->
    w' <= w + 2 * A * length (left_of s) + A * (N + 1) * (1 + 2 * in_vain outs) /\
    (match outs with inl _ :: _ => False | _ => True end -> w' <= w + 2 * A * length (left_of s) + A * (N + 1) * (2 * in_vain outs)).
  Proof.
    intros N. induction 1 as [s w|s w s1 o w1 outs s2 w2 H Hc IH]; intros Hs HN; [split; [lia|lia]|].
    destruct (slice_step w Hs H) as [(El & -> & -> & ->)|(Hs1 & res & Ep & Hr)].
    { destruct (IH Hs HN) as [IH1 _]. rewrite in_vain_cons. cbn [vain]. split; [|intros _]; nia. }
    assert (Hl : suffix (left_of s1) (left_of s)).
    { pose proof (ch_behaved Hp w (mkInput true (left_of s))) as Hb. cbn in Hb. rewrite Ep in Hb. cbn [fst] in Hb.
      destruct res as [j v|b x|n| |]; cbn [honest last buf] in Hb; try contradiction.
      - destruct Hr as [_ ->]. apply Hb.
      - destruct Hr as [_ ->]. exact Hb.
      - destruct Hr as [_ ->]. exists []. reflexivity. }
    assert (Hle : length (left_of s1) <= length (left_of s)) by (destruct Hl as (x & ->); rewrite app_length; lia).
    destruct (IH Hs1 ltac:(lia)) as [IH1 IH2].
    assert (Hfail : vain o = 1 -> w2 <= w + 2 * A * length (left_of s) + A * (N + 1) * (2 * in_vain (o :: outs))).
    { intros Hv. rewrite in_vain_cons, Hv. assert (Hn : res <> NoFuel) by (intros ->; exact Hr). pose proof (ch_cost Hp _ _ Ep Hn) as C. cbn [buf] in C.
      assert (A * (length (left_of s) + 1) <= A * (N + 1)) by (apply Nat.mul_le_mono_l; lia).
      assert (2 * A * length (left_of s1) <= 2 * A * length (left_of s)) by (apply Nat.mul_le_mono_l; lia). nia. }
    destruct res as [j v|b x|n| |]; try contradiction.
    - destruct Hr as [-> El]. split; [|contradiction]. rewrite in_vain_cons. cbn [vain].
      pose proof (ch_cost Hp _ _ Ep ltac:(discriminate)) as C. cbn [buf] in C.
      assert (Hd : match outs with inl _ :: _ => True | _ => False end \/ match outs with inl _ :: _ => False | _ => True end) by (destruct outs as [|[?|?] ?]; auto).
      destruct Hd as [Hd|Hd].
      + assert (Hf : follows F (buf j)).
        { destruct outs as [|[v2|] outs]; try contradiction. inversion Hc; subst.
          match goal with H : slice_parse_w p s1 w1 = _ |- _ => destruct (slice_step _ Hs1 H) as [(_ & X & _)|(_ & res2 & Ep2 & Hr2)]; [discriminate X|] end.
          destruct res2 as [j2 v3|b2 x2|n2| |]; try contradiction.
          - destruct (ch_start Hp _ _ Ep2) as (c & y & Ec & HF). cbn [buf] in Ec. rewrite <- El, Ec. exact HF.
          - destruct Hr2 as [X _]. discriminate X.
          - destruct Hr2 as [(m & X) _]. discriminate X. }
        destruct (ch_local Hp _ _ Ep Hf) as (x & Ex & Cx). destruct (ch_start Hp _ _ Ep) as (c & y & Ey & _). cbn [buf] in *. rewrite <- El in *.
        assert (Hx : length (left_of s) = length x + length (left_of s1)) by (rewrite Ex, app_length; reflexivity).
        assert (1 <= length x) by (apply (f_equal (@length I)) in Ey; cbn in Ey; rewrite app_length in Ey; lia). nia.
      + specialize (IH2 Hd). assert (A * (length (left_of s) + 1) <= A * (N + 1)) by (apply Nat.mul_le_mono_l; lia).
        assert (2 * A * length (left_of s1) <= 2 * A * length (left_of s)) by (apply Nat.mul_le_mono_l; lia). nia.
    - destruct Hr as [-> _]. specialize (Hfail eq_refl). split; [nia|auto].
    - destruct Hr as [(m & ->) _]. specialize (Hfail eq_refl). split; [nia|auto].
  Qed.
End Slices.

(** * Sources *)

Section Sources.
  Context {St I B T E : Type}.
  Variable ds : data_source St I.
  Variable ops : buffer_ops I B.
  Variables (inv : B -> Prop) (view : B -> list I) (room : B -> nat) (fits : nat -> Prop).
  Hypothesis Q : queue_like ops inv view room fits.
  Hypothesis Ho : obeys ds.
  Variables (A : nat) (F : I -> Prop) (p : sparser nat I T E).
  Hypothesis Hp : cheap A F p.

  (** One call: an I/O error, or a run of the parser on the contents [data] of the buffer, perhaps after reading, or the end. *)
  Lemma source_step : forall st w st' o w', inv (src_buffer st) -> src_auto st = true -> src_parse_w ds ops p st w = (Done (st', o), w') ->
    exists new k en, reads ds (src_source st) (src_source st') new k en /\ inv (src_buffer st') /\ src_auto st' = true /\
      ((exists x, o = inr (SIoError x) /\ w' = w /\ view (src_buffer st') = view (src_buffer st) ++ new /\ src_request st' = src_request st /\
         src_incomplete st = true /\ src_incomplete st' = true /\ src_eoi st' = src_eoi st) \/
       (exists b1, inv b1 /\ view b1 = view (src_buffer st) ++ new /\
        (src_incomplete st = false -> new = [] /\ src_eoi st' = src_eoi st) /\
        (src_incomplete st = true -> src_eoi st' = true \/ Nat.max 1 (src_request st) <= length (view b1)) /\
        ((o = inr SEndOfInput /\ w' = w /\ view b1 = [] /\ view (src_buffer st') = [] /\ src_eoi st' = true /\ src_incomplete st' = false) \/
         exists res, p w (mkInput (src_eoi st') (view b1)) = (res, w') /\
         match res with
         | Data j v => o = inl v /\ view (src_buffer st') = buf j /\ src_incomplete st' = false
         | Error b e => o = inr (SParseError b e) /\ view (src_buffer st') = b /\ src_incomplete st' = false
         | Incomplete n => view (src_buffer st') = view b1 /\ src_request st' = length (view b1) + n /\
             if src_eoi st' then (exists m, o = inr (SIncomplete m)) /\ src_incomplete st' = false else o = inr SRetry /\ src_incomplete st' = true
         | Panic => False
         | NoFuel => False
         end))).
  Proof.
    intros st w st' o w' Hi Ha Hp0.
    assert (Hps : src_parse ds ops (fun i => fst (p w i)) st = Done (st', o)) by (rewrite <- src_parse_w_bridge, Hp0; reflexivity).
    pose proof (ch_behaved Hp w) as Hw.
    destruct (src_parse_spec Q Ho st Hi Hw) as [(st1 & x & H1 & H2 & H3 & H4)|(st1 & H1 & H2)].
    { rewrite Hps in H4. inversion H4; subst st1 o. destruct (src_fill_spec Q Ho st Hi) as (st2 & r & new & e & en & G1 & G2 & G3 & G4 & G5 & G6 & G7).
      rewrite H3 in G1. inversion G1; subst st2 r. exists new, e, en. destruct G7 as (G7 & G8 & G9 & G10).
      split; [assumption|]. split; [assumption|]. split; [congruence|]. left. exists x.
      unfold src_parse_w in Hp0. rewrite H1, H2 in Hp0. cbn [andb] in Hp0. rewrite H3 in Hp0. inversion Hp0; subst. repeat split; auto; congruence. }
    assert (Hst1 : exists new en, reads ds (src_source st) (src_source st1) new 0 en /\ inv (src_buffer st1) /\ view (src_buffer st1) = view (src_buffer st) ++ new /\
      src_auto st1 = true /\ src_incomplete st1 = false /\ (src_incomplete st = false -> new = [] /\ src_eoi st1 = src_eoi st) /\
      (src_incomplete st = true -> src_eoi st1 = true \/ Nat.max 1 (src_request st) <= length (view (src_buffer st1)))).
    { rewrite Ha, andb_true_r in H1. destruct (src_incomplete st) eqn:Hin.
      - destruct H1 as [m H1]. destruct (src_fill_spec Q Ho st Hi) as (st2 & r2 & new & e & en & G1 & G2 & G3 & G4 & G5 & G6 & G7).
        rewrite H1 in G1. inversion G1; subst st2 r2. destruct G7 as (-> & _ & G7 & G8 & _). exists new, en.
        split; [assumption|]. split; [assumption|]. split; [assumption|]. split; [congruence|]. split; [assumption|]. split; [discriminate|].
        intros _. destruct (src_eoi st1); [auto|right]. symmetry in G8. apply Nat.ltb_ge in G8. exact G8.
      - subst st1. exists [], false. split; [apply rd_none|]. split; [assumption|]. rewrite app_nil_r. repeat split; auto. discriminate. }
    destruct Hst1 as (new & en & G1 & G2 & G3 & G4 & G5 & G6 & G7). exists new, 0, en.
    assert (Hfill : exists m, (if src_incomplete st && src_auto st then src_fill ds ops st else Done (st, IoOk 0)) = Done (st1, IoOk m)).
    { destruct (src_incomplete st && src_auto st); [assumption|subst st1; eauto]. }
    destruct Hfill as (m & Hfill). unfold src_parse_w in Hp0. rewrite Hfill in Hp0. cbn zeta in H2.
    destruct H2 as [(H2 & H3 & H4)|[H2 [(H3 & H4)|[(H3 & H4)|(st2 & out2 & H3 & H4 & H5 & H6 & H7 & H8)]]]]; rewrite Hps in *; try discriminate.
    - inversion H4; subst st1 o. split; [assumption|]. split; [assumption|]. split; [assumption|]. right. exists (src_buffer st').
      split; [assumption|]. split; [assumption|]. split; [assumption|]. split; [assumption|]. left.
      unfold src_is_empty, src_len in Hp0. rewrite H2 in Hp0. rewrite (q_len Q _ G2), H3 in Hp0. cbn in Hp0. inversion Hp0; subst. repeat split; auto.
    - inversion H3; subst st2 out2. rewrite H5, H6. split; [assumption|]. split; [assumption|]. split; [congruence|]. right. exists (src_buffer st1).
      split; [assumption|]. split; [assumption|]. split; [assumption|]. split; [assumption|]. right.
      assert (He : src_is_empty ops st1 = Done false).
      { unfold src_is_empty, src_len. rewrite (q_len Q _ G2). cbn [run_bind]. destruct H2 as [->|H2]; [reflexivity|].
        destruct (view (src_buffer st1)); [contradiction|]. destruct (src_eoi st1); reflexivity. }
      rewrite He, (q_deref Q _ G2) in Hp0. destruct (p w (mkInput (src_eoi st1) (view (src_buffer st1)))) as [r w2] eqn:Ep. cbn [fst] in H8.
      assert (w2 = w') by (inversion Hp0; reflexivity). subst w2. exists r. split; [reflexivity|].
      destruct r as [j v|b x|n| |]; cbn [answer] in H8; try contradiction.
      + destruct H8 as (-> & -> & _ & ->). auto.
      + destruct H8 as (-> & -> & _ & ->). auto.
      + destruct H8 as (-> & -> & H8). split; [reflexivity|]. split; [reflexivity|]. destruct (src_eoi st1); destruct H8 as [-> ->]; eauto.
  Qed.

  Variable R : St -> list I -> nat -> Prop.
  Hypothesis HR : delivers ds R.
  (** What the buffer ever holds. *)
  Variables N Cap : nat.
  Hypothesis Hcap : forall b, inv b -> length (view b) <= N -> length (view b) <= Cap.

  Definition ahead (st : src St B) (d : list I) : nat := length (view (src_buffer st)) + length d.

  Lemma source_work : forall st w outs st' w', calls (src_parse_w ds ops p) st w outs st' w' -> inv (src_buffer st) -> src_auto st = true ->
    forall d e, R (src_source st) d e -> ahead st d <= N ->
    w' <= w + 2 * A * ahead st d + A * (Cap + 1) * (1 + 2 * in_vain outs) /\
    (src_incomplete st = false -> match outs with inl _ :: _ => False | _ => True end -> w' <= w + 2 * A * ahead st d + A * (Cap + 1) * (2 * in_vain outs)).
  Proof.
    induction 1 as [st w|st w st1 o w1 outs st2 w2 H Hc IH]; intros Hi Ha d e HRs HN; [split; [lia|lia]|].
    destruct (source_step _ _ Hi Ha H) as (new & k & en & Hrd & Hi1 & Ha1 & Hcase). destruct (reads_delivers HR Hrd _ _ HRs) as (d' & Ed & _ & HR1 & _).
    assert (Hd : length d = length new + length d') by (rewrite Ed, app_length; reflexivity).
    specialize (IH Hi1 Ha1 d' (e - k) HR1). unfold ahead in *.
    destruct Hcase as [(x & -> & -> & Hv & _ & Hin & _)|(b1 & Hb1 & Hv1 & Hstill & Hfilled & Hcase)].
    { rewrite Hv, app_length in IH. destruct (IH ltac:(lia)) as [IH1 _]. rewrite in_vain_cons. cbn [vain]. split; [nia|]. congruence. }
    assert (Hlv : length (view b1) = length (view (src_buffer st)) + length new) by (rewrite Hv1, app_length; reflexivity).
    assert (Hc1 : length (view b1) <= Cap) by (apply Hcap; [assumption|lia]).
    destruct Hcase as [(-> & -> & E1 & E2 & _)|(res & Ep & Hr)].
    { rewrite E2 in IH. cbn [length] in IH. destruct (IH ltac:(lia)) as [IH1 _]. rewrite in_vain_cons. cbn [vain].
      assert (2 * A * (0 + length d') <= 2 * A * (length (view (src_buffer st)) + length d)) by (apply Nat.mul_le_mono_l; lia). split; [nia|]. intros _ _. nia. }
    assert (Hle : length (view (src_buffer st1)) <= length (view b1)).
    { pose proof (ch_behaved Hp w (mkInput (src_eoi st1) (view b1))) as Hb. cbn beta in Hb. rewrite Ep in Hb. cbn [fst] in Hb.
      destruct res as [j v|b x|n| |]; cbn [honest last buf] in Hb; try contradiction.
      - destruct Hr as (_ & -> & _). destruct Hb as [_ (x & Ex)]. rewrite Ex, app_length. lia.
      - destruct Hr as (_ & -> & _). destruct Hb as (y & Ey). rewrite Ey, app_length. lia.
      - destruct Hr as (-> & _). lia. }
    destruct (IH ltac:(lia)) as [IH1 IH2]. set (L := length (view (src_buffer st)) + length d) in *. set (L1 := length (view (src_buffer st1)) + length d') in *.
    assert (HL : L1 <= L) by (unfold L, L1; lia). assert (HL2 : 2 * A * L1 <= 2 * A * L) by (apply Nat.mul_le_mono_l; lia).
    assert (Hn : res <> NoFuel) by (intros ->; exact Hr). pose proof (ch_cost Hp _ _ Ep Hn) as C. cbn [buf] in C.
    assert (HC : A * (length (view b1) + 1) <= A * (Cap + 1)) by (apply Nat.mul_le_mono_l; lia).
    assert (Hfail : vain o = 1 -> w2 <= w + 2 * A * L + A * (Cap + 1) * (2 * in_vain (o :: outs))) by (intros Hv; rewrite in_vain_cons, Hv; nia).
    destruct res as [j v|b x|n| |]; try contradiction.
    - destruct Hr as (-> & El & Hin1). split; [|intros _ []]. rewrite in_vain_cons. cbn [vain].
      assert (Hk : match outs with inl _ :: _ => True | _ => False end \/ match outs with inl _ :: _ => False | _ => True end) by (destruct outs as [|[?|?] ?]; auto).
      destruct Hk as [Hk|Hk]; [|specialize (IH2 Hin1 Hk); nia].
      assert (Hf : follows F (buf j)).
      { destruct outs as [|[v2|] outs]; try contradiction. inversion Hc; subst.
        match goal with H : src_parse_w ds ops p st1 w1 = _ |- _ => destruct (source_step _ _ Hi1 Ha1 H) as (new2 & k2 & en2 & _ & _ & _ & [(x & X & _)|(b2 & _ & Hv2 & Hstill2 & _ & [(X & _)|(res2 & Ep2 & Hr2)])]) end;
          try discriminate X.
        destruct res2 as [j2 v3|b3 x2|n2| |]; try contradiction.
        - destruct (ch_start Hp _ _ Ep2) as (c & y & Ec & HF). cbn [buf] in Ec. destruct (Hstill2 Hin1) as [-> _]. rewrite app_nil_r, El in Hv2. rewrite <- Hv2, Ec. exact HF.
        - destruct Hr2 as [X _]. discriminate X.
        - destruct Hr2 as (_ & _ & X). match type of X with if ?c then _ else _ => destruct c end; [destruct X as [(m & X) _]|destruct X as [X _]]; discriminate X. }
      destruct (ch_local Hp _ _ Ep Hf) as (x & Ex & Cx). destruct (ch_start Hp _ _ Ep) as (c & y & Ey & _). cbn [buf] in *. rewrite <- El in *.
      assert (Hx : length (view b1) = length x + length (view (src_buffer st1))) by (rewrite Ex, app_length; reflexivity).
      assert (1 <= length x) by (apply (f_equal (@length I)) in Ey; cbn in Ey; rewrite app_length in Ey; lia).
      assert (HLx : L = length x + L1) by (unfold L, L1; lia). nia.
    - destruct Hr as (-> & _). specialize (Hfail eq_refl). split; [nia|auto].
    - destruct Hr as (_ & _ & Hr). assert (Hv : vain o = 1) by (destruct (src_eoi st1); [destruct Hr as [(m & ->) _]|destruct Hr as [-> _]]; reflexivity).
      specialize (Hfail Hv). split; [nia|auto].
  Qed.

  (** * Retries *)

  Definition lacking (st : src St B) : bool := src_incomplete st && (length (view (src_buffer st)) <? Nat.max 1 (src_request st)).
  Definition chances (st : src St B) (d : list I) : nat := if src_eoi st then 0 else length d + (if lacking st then 0 else 1).

  Lemma retries : forall st w outs st' w', calls (src_parse_w ds ops p) st w outs st' w' -> inv (src_buffer st) -> src_auto st = true ->
    (src_eoi st = true -> src_incomplete st = false) -> Forall goes_on outs -> forall d e, R (src_source st) d e -> in_vain outs <= chances st d.
  Proof.
    induction 1 as [st w|st w st1 o w1 outs st2 w2 H Hc IH]; intros Hi Ha Hei Hg d e HRs; [apply Nat.le_0_l|].
    inversion Hg as [|o' outs' Hgo Hg' E1]; subst. destruct (source_step _ _ Hi Ha H) as (new & k & en & Hrd & Hi1 & Ha1 & Hcase).
    destruct (reads_delivers HR Hrd _ _ HRs) as (d' & Ed & _ & HR1 & _). assert (Hd : length d = length new + length d') by (rewrite Ed, app_length; reflexivity).
    specialize (fun H => IH Hi1 Ha1 H Hg' d' (e - k) HR1). rewrite in_vain_cons. unfold chances, lacking in *.
    destruct Hcase as [(x & -> & -> & Hv & Hrq & Hin & Hin1 & He1)|(b1 & Hb1 & Hv1 & Hstill & Hfilled & Hcase)].
    { cbn [vain]. specialize (IH ltac:(intros Hx; rewrite He1 in Hx; specialize (Hei Hx); congruence)). rewrite He1 in IH. rewrite Hin in *. destruct (src_eoi st); [exact IH|].
      rewrite Hin1, Hrq, Hv, app_length in IH. cbn [andb] in *.
      destruct (Nat.ltb_spec (length (view (src_buffer st)) + length new) (Nat.max 1 (src_request st)));
        destruct (Nat.ltb_spec (length (view (src_buffer st))) (Nat.max 1 (src_request st))); lia. }
    assert (Hlv : length (view b1) = length (view (src_buffer st)) + length new) by (rewrite Hv1, app_length; reflexivity).
    destruct Hcase as [(-> & _)|(res & Ep & Hr)]; [destruct Hgo|]. destruct res as [j v|b x|n| |]; try contradiction.
    - destruct Hr as (-> & El & Hin1). cbn [vain]. specialize (IH (fun _ => Hin1)). rewrite Hin1 in IH. cbn [andb] in IH.
      destruct (src_eoi st1) eqn:He1; [lia|]. destruct (src_incomplete st) eqn:Hin.
      + destruct (src_eoi st) eqn:He; [specialize (Hei eq_refl); discriminate|]. destruct (Hfilled eq_refl) as [X|X]; [discriminate|]. cbn [andb].
        destruct (Nat.ltb_spec (length (view (src_buffer st))) (Nat.max 1 (src_request st))); lia.
      + destruct (Hstill eq_refl) as [-> He]. rewrite <- He. cbn [andb length] in *. lia.
    - destruct Hr as (-> & _). destruct Hgo.
    - destruct Hr as (Hv & Hrq & Hr). destruct (src_eoi st1) eqn:He1; [destruct Hr as [(m & ->) _]; destruct Hgo|]. destruct Hr as [-> Hin1]. cbn [vain].
      specialize (IH ltac:(discriminate)). rewrite Hin1, Hv, Hrq in IH. cbn [andb] in IH.
      assert (Hn : n <> 0) by (intros ->; apply (ch_asks Hp w (mkInput false (view b1))); rewrite Ep; reflexivity).
      destruct (Nat.ltb_spec (length (view b1)) (Nat.max 1 (length (view b1) + n))); [|lia].
      destruct (src_incomplete st) eqn:Hin.
      + destruct (src_eoi st) eqn:He; [specialize (Hei eq_refl); discriminate|]. destruct (Hfilled eq_refl) as [X|X]; [discriminate|]. cbn [andb].
        destruct (Nat.ltb_spec (length (view (src_buffer st))) (Nat.max 1 (src_request st))); lia.
      + destruct (Hstill eq_refl) as [-> He]. rewrite <- He. cbn [andb length] in *. lia.
  Qed.
End Sources.

(** * The loop *)

Lemma calls_app : forall S O W (call : S -> W -> run (S * O) * W) st w outs st1 w1 o st2 w2, calls call st w outs st1 w1 -> call st1 w1 = (Done (st2, o), w2) ->
  calls call st w (outs ++ [o]) st2 w2.
Proof. intros S O W call st w outs st1 w1 o st2 w2 H Hc. induction H; cbn; [econstructor; [exact Hc|constructor]|econstructor; eauto]. Qed.

Lemma looping_calls : forall S I T E W (call : S -> W -> run (S * sres I T E) * W) fuel st w vs x st' w', looping call fuel st w = (Done (vs, x, st'), w') ->
  exists outs st1 w1, calls call st w outs st1 w1 /\ Forall goes_on outs /\ call st1 w1 = (Done (st', inr x), w') /\ ~ goes_on (inr x : sres I T E) /\
    vs = flat_map (fun o => match o with inl v => [v] | inr _ => [] end) outs.
Proof.
  intros S I T E W call. induction fuel as [|fuel IH]; intros st w vs x st' w' H; cbn [looping] in H; [discriminate|].
  destruct (call st w) as [[[st1 [v|y]]| | |] w1] eqn:E1; try discriminate.
  - destruct (looping call fuel st1 w1) as [[[[vs2 x2] st2]| | |] w2] eqn:E2; try discriminate. inversion H; subst.
    destruct (IH _ _ _ _ _ _ E2) as (outs & st3 & w3 & C & G & L & N & ->). exists (inl v :: outs), st3, w3. split; [econstructor; eassumption|].
    split; [constructor; [exact Logic.I|assumption]|]. repeat split; auto.
  - assert (Hgo : forall z, y = z -> goes_on (inr z : sres I T E) -> looping call fuel st1 w1 = (Done (vs, x, st'), w') ->
      exists outs st1 w1, calls call st w outs st1 w1 /\ Forall goes_on outs /\ call st1 w1 = (Done (st', inr x), w') /\ ~ goes_on (inr x : sres I T E) /\
        vs = flat_map (fun o => match o with inl v => [v] | inr _ => [] end) outs).
    { intros z -> Hz H2. destruct (IH _ _ _ _ _ _ H2) as (outs & st3 & w3 & C & G & L & N & ->). exists (inr z :: outs), st3, w3. split; [econstructor; eassumption|].
      split; [constructor; assumption|]. repeat split; auto. }
    destruct y as [b e|n|n| |]; try (exact (Hgo _ eq_refl Logic.I H)); inversion H; subst; exists [], st, w; (split; [constructor|]; split; [constructor|]; split; [assumption|]; split; [intros []|reflexivity]).
Qed.
