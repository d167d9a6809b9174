(** A Source gives the answers of a SliceStream over the whole data. *)
From Coq Require Import List Bool Arith Lia.
From Verif Require Import Base Buffer Stream SpecBase SpecBuffer SpecSafe SpecStream BufferProofs StreamProofs.
Import ListNotations.

Set Implicit Arguments.

(** * SliceStream *)
Section Slice.
  Context {I : Type}.
  Definition rest_of (s : slice_stream I) : list I := skipn (ss_pos s) (ss_slice s).

  Definition whole {T E} (rest : list I) (r : pres I T E) (rest' : list I) (out : sres I T E) : Prop :=
    match r with
    | Data j v => rest' = buf j /\ out = inl v
    | Error b e => rest' = b /\ out = inr (SParseError b e)
    | Incomplete n => rest' = rest /\ out = inr (SIncomplete (n + length rest))
    | Panic => False
    | NoFuel => False
    end.

  Lemma slice_parse_spec : forall T E (p : parser I T E) s, ss_pos s <= length (ss_slice s) -> well_behaved p ->
    (rest_of s = [] /\ slice_parse p s = Done (s, inr SEndOfInput)) \/
    (rest_of s <> [] /\
      ((p (mkInput true (rest_of s)) = Panic /\ slice_parse p s = Panicked) \/
       (p (mkInput true (rest_of s)) = NoFuel /\ slice_parse p s = Stuck) \/
       exists s' out, slice_parse p s = Done (s', out) /\ ss_slice s' = ss_slice s /\ ss_pos s' <= length (ss_slice s') /\
         whole (rest_of s) (p (mkInput true (rest_of s))) (rest_of s') out)).
  Proof.
    intros T E p s Hpos Hw. unfold slice_parse, slice_is_empty, slice_len. rewrite usize_sub_ok by lia. cbn [run_bind].
    assert (Hl : length (rest_of s) = length (ss_slice s) - ss_pos s) by (unfold rest_of; rewrite skipn_length; reflexivity).
    destruct (Nat.eqb_spec (length (ss_slice s) - ss_pos s) 0) as [H0|H0].
    - left. split; [apply length_zero_iff_nil; lia|reflexivity].
    - right. split; [intros H; rewrite H in Hl; cbn in Hl; lia|]. fold (rest_of s).
      pose proof (Hw (mkInput true (rest_of s))) as Hh. destruct (p (mkInput true (rest_of s))) as [j v|b e|n| |]; cbn [honest last buf] in Hh.
      + right. right. destruct Hh as [_ Hs]. destruct (suffix_skipn Hs) as [H1 H2]. rewrite usize_sub_ok by lia. cbn [run_bind]. eexists _, _. split; [reflexivity|].
        cbn [ss_slice ss_pos whole]. split; [reflexivity|]. split; [lia|]. split; [|reflexivity]. rewrite <- H1 at 2. rewrite Hl. unfold rest_of. cbn [ss_slice ss_pos].
        rewrite skipn_skipn. f_equal. lia.
      + right. right. destruct (suffix_skipn Hh) as [H1 H2]. rewrite usize_sub_ok by lia. cbn [run_bind]. eexists _, _. split; [reflexivity|].
        cbn [ss_slice ss_pos whole]. split; [reflexivity|]. split; [lia|]. split; [|reflexivity]. rewrite <- H1 at 2. rewrite Hl. unfold rest_of. cbn [ss_slice ss_pos].
        rewrite skipn_skipn. f_equal. lia.
      + right. right. eexists _, _. split; [reflexivity|]. split; [reflexivity|]. split; [assumption|]. cbn [whole]. split; [reflexivity|]. rewrite Hl. reflexivity.
      + auto.
      + auto.
  Qed.
End Slice.

(** * Source *)
Section Sim.
  Context {St I B : Type}.
  Variable ds : data_source St I.
  Variables (ops : buffer_ops I B) (inv : B -> Prop) (view : B -> list I) (room : B -> nat) (fits : nat -> Prop).
  Hypothesis Q : queue_like ops inv view room fits.
  Hypothesis Ho : obeys ds.
  Variable R : St -> list I -> nat -> Prop.
  Hypothesis HR : delivers ds R.

  Lemma reads_delivers : forall s s' new k en, reads ds s s' new k en -> forall d e, R s d e ->
    exists d', d = new ++ d' /\ k <= e /\ R s' d' (e - k) /\ (en = true -> d' = []).
  Proof.
    intros s s' new k en H. induction H as [s|s n s1 w k s2 l e b Hr H IH|s n s1 w x s2 l e b Hr H IH]; intros d e0 Hd.
    - exists d. rewrite Nat.sub_0_r. repeat split; auto; lia.
    - pose proof (HR Hd _ Hr) as H1. cbn in H1. destruct H1 as (H1 & c & d1 & H2 & H3 & H4 & H5 & H6).
      destruct (IH _ _ H5) as (d' & G1 & G2 & G3 & G4). subst k. rewrite (delivered_writes H4). exists d'. split; [rewrite H2, G1, app_assoc; reflexivity|].
      split; [assumption|]. split; [assumption|]. intros Hen. apply orb_true_iff in Hen. destruct Hen as [Hen|Hen]; [|auto].
      apply andb_true_iff in Hen. destruct Hen as [Hk Hn]. apply Nat.eqb_eq in Hk. apply Nat.ltb_lt in Hn. destruct (H6 Hk) as [H7|H7]; [lia|].
      rewrite H7 in H2. symmetry in H2. apply app_eq_nil in H2. destruct H2 as [_ H2]. rewrite H2 in G1. symmetry in G1. apply app_eq_nil in G1. apply G1.
    - pose proof (HR Hd _ Hr) as H1. cbn in H1. destruct H1 as (e' & He & H1). destruct (IH _ _ H1) as (d' & G1 & G2 & G3 & G4).
      exists d'. split; [assumption|]. split; [lia|]. split; [|assumption]. subst e0. exact G3.
  Qed.

  (** Source state [st] stands before [rest], of which [d] is still to be read; [e] errors may come. *)
  Definition stands (st : src St B) (rest d : list I) (e : nat) : Prop :=
    inv (src_buffer st) /\ R (src_source st) d e /\ rest = view (src_buffer st) ++ d /\ src_auto st = true /\
    (src_eoi st = true -> d = []) /\
    (src_incomplete st = true -> fits (Nat.min (Nat.max 1 (src_request st)) (length rest))).

  Definition measure (st : src St B) (d : list I) (e : nat) : nat :=
    2 * length d + e +
    (if src_incomplete st && (length (view (src_buffer st)) <? Nat.max 1 (src_request st)) then 0 else 1).

  (** The same answer; an error may show less of the data. *)
  Definition same {T E} (r1 r2 : sres I T E) : Prop :=
    match r1, r2 with
    | inr (SParseError b1 e1), inr (SParseError b2 e2) => e1 = e2 /\ exists c, b2 = b1 ++ c
    | _, _ => r1 = r2
    end.

  Lemma fill_stands : forall st rest d e, stands st rest d e -> src_incomplete st = true ->
    exists st1 r d1 e1, src_fill ds ops st = Done (st1, r) /\ stands st1 rest d1 e1 /\ length d1 <= length d /\ e1 <= e /\
      match r with
      | IoErr _ => measure st1 d1 e1 < measure st d e /\ e1 < e
      | IoOk _ => e1 = e /\ src_incomplete st1 = false /\
          (src_eoi st1 = true \/ (src_eoi st1 = false /\ (length d1 < length d \/ Nat.max 1 (src_request st) <= length (view (src_buffer st)))))
      end.
  Proof.
    intros st rest d e (Hi & Hd & Hrest & Ha & He & Hf) Hinc. destruct (src_fill_spec Q Ho st Hi) as (st1 & r & new & k & en & H1 & H2 & H3 & H4 & H5 & H6 & H7).
    destruct (reads_delivers H2 Hd) as (d1 & G1 & G2 & G3 & G4). exists st1, r, d1, (e - k). split; [assumption|].
    assert (Hrest1 : rest = view (src_buffer st1) ++ d1) by (rewrite H4, <- app_assoc, <- G1; assumption).
    assert (Hlen : length d = length new + length d1) by (rewrite G1, app_length; reflexivity).
    destruct r as [m|x].
    - destruct H7 as (-> & _ & H7 & H8 & H9). split; [|split; [lia|split; [lia|]]].
      + repeat split; auto; try congruence. intros Heoi. destruct H9 as [H9|[H9|H9]]; [congruence|auto|].
        destruct d1 as [|y d1]; [reflexivity|exfalso]. apply H9. rewrite Heoi in H8. symmetry in H8. apply Nat.ltb_lt in H8.
        eapply (q_fits Q); [|apply (Hf Hinc)]. rewrite Hrest1, app_length in *. cbn [length]. lia.
      + split; [lia|]. split; [assumption|]. destruct (src_eoi st1); [auto|right]. split; [reflexivity|]. symmetry in H8. apply Nat.ltb_ge in H8.
        rewrite H4, app_length in H8. destruct (length new) eqn:Hn; [right; lia|left; lia].
    - destruct H7 as (-> & H7 & H8 & H9). split; [|split; [lia|split; [lia|]]].
      + repeat split; auto; try congruence.
        * intros Heoi. rewrite H9 in Heoi. specialize (He Heoi). rewrite He in G1. symmetry in G1. apply app_eq_nil in G1. apply G1.
        * rewrite H5, H8. assumption.
      + split; [|lia]. unfold measure. rewrite H8, Hinc, H5. cbn [andb]. apply Nat.ltb_lt in H7. rewrite H7. destruct (length (view (src_buffer st)) <? Nat.max 1 (src_request st)); lia.
  Qed.

  (** One call of [parse]. *)
  Lemma parse_step : forall T E (p : parser I T E) st rest d e, stands st rest d e -> suits fits rest p ->
    (exists st' r d' e', src_parse ds ops p st = Done (st', r) /\ (r = inr SRetry \/ ((exists x, r = inr (SIoError x)) /\ e' < e)) /\
       stands st' rest d' e' /\ measure st' d' e' < measure st d e /\ length d' <= length d /\ e' <= e) \/
    (rest = [] /\ exists st' d', src_parse ds ops p st = Done (st', inr SEndOfInput) /\ stands st' rest d' e /\ length d' <= length d) \/
    (rest <> [] /\ p (mkInput true rest) = Panic /\ src_parse ds ops p st = Panicked) \/
    (rest <> [] /\ exists st' d' out rest' out', src_parse ds ops p st = Done (st', out) /\ stands st' rest' d' e /\ length d' <= length d /\
       whole rest (p (mkInput true rest)) rest' out' /\ same out out').
  Proof.
    intros T E p st rest d e Hst Hsu.
    assert (Hi : inv (src_buffer st)) by apply Hst.
    destruct (src_parse_spec Q Ho st Hi (su_well_behaved Hsu)) as [(st1 & x & H1 & H2 & H3 & H4)|(st1 & H1 & H2)].
    { left. destruct (fill_stands Hst H1) as (st2 & r & d1 & e1 & G1 & G2 & G4 & G5 & G3). rewrite H3 in G1. inversion G1; subst st2 r.
      destruct G3 as [G3 G6].
      exists st1, (inr (SIoError x)), d1, e1. split; [assumption|]. split; [right; eauto|]. auto. }
    (* state before the parser is run *)
    assert (Hst1 : exists d1, stands st1 rest d1 e /\ src_incomplete st1 = false /\ length d1 <= length d /\
      (src_eoi st1 = true \/ 2 * length d1 + e < measure st d e)).
    { destruct (src_incomplete st) eqn:Hinc.
      - assert (Hauto : src_auto st = true) by apply Hst. rewrite Hauto in H1. cbn [andb] in H1. destruct H1 as [m H1].
        destruct (fill_stands Hst Hinc) as (st2 & r & d1 & e1 & G1 & G2 & G3 & _ & G4). rewrite H1 in G1. inversion G1; subst st2 r. destruct G4 as (-> & G4 & G5).
        exists d1. split; [assumption|]. split; [assumption|]. split; [assumption|]. destruct G5 as [G5|[G5 G6]]; [auto|right]. unfold measure. rewrite Hinc. cbn [andb].
        destruct G6 as [G6|G6]; [lia|]. apply Nat.ltb_ge in G6. rewrite G6. lia.
      - cbn [andb] in H1. subst st1. exists d. split; [assumption|]. split; [assumption|]. split; [lia|]. right. unfold measure. rewrite Hinc. cbn [andb]. lia. }
    destruct Hst1 as (d1 & Hst1 & Hinc1 & Hd1 & Hm1). clear H1. pose proof Hst1 as (Hi1 & HR1 & Hrest1 & Ha1 & He1 & Hf1).
    cbn zeta in H2. set (data := view (src_buffer st1)) in *.
    destruct H2 as [(H2 & H3 & H4)|[H2 H3]].
    { right. left. rewrite (He1 H2), H3 in Hrest1. split; [assumption|]. exists st1, d1. auto. }
    destruct (src_eoi st1) eqn:Heoi.
    - (* last slice *)
      rewrite (He1 eq_refl), app_nil_r in Hrest1. rewrite <- Hrest1 in *. destruct H2 as [H2|H2]; [discriminate|]. right. right.
      destruct H3 as [(H3 & H4)|[(H3 & H4)|(st' & out & H3 & H4 & H5 & H6 & H7 & H8)]].
      + left. auto.
      + exfalso. exact (su_decides Hsu _ H3).
      + right. split; [assumption|]. pose proof (He1 eq_refl) as Hd0. subst d1.
        destruct (p (mkInput true rest)) as [j v|b x|n| |]; cbn [answer whole] in *; try contradiction.
        * destruct H8 as (-> & H8 & H9 & H10). exists st', [], (inl v), (buf j), (inl v). split; [assumption|]. split; [|split; [cbn [length]; lia|split; [auto|reflexivity]]].
          split; [assumption|]. rewrite H5. split; [assumption|]. rewrite H8, app_nil_r. split; [reflexivity|]. split; [congruence|]. split; [auto|]. congruence.
        * destruct H8 as (-> & H8 & H9 & H10). exists st', [], (inr (SParseError b x)), b, (inr (SParseError b x)). split; [assumption|]. split; [|split; [cbn [length]; lia|split; [auto|]]].
          { split; [assumption|]. rewrite H5. split; [assumption|]. rewrite H8, app_nil_r. split; [reflexivity|]. split; [congruence|]. split; [auto|]. congruence. }
          split; [reflexivity|]. exists []. rewrite app_nil_r. reflexivity.
        * destruct H8 as (H8 & H9 & H10). rewrite Heoi in H10. destruct H10 as [-> H10]. rewrite Nat.add_comm. eexists st', [], _, rest, _. split; [eassumption|]. split; [|split; [cbn [length]; lia|split; [auto|reflexivity]]].
          split; [assumption|]. rewrite H5. split; [assumption|]. rewrite H8, app_nil_r. split; [exact Hrest1|]. split; [congruence|]. split; [auto|]. congruence.
    - (* more may come *)
      destruct Hm1 as [Hm1|Hm1]; [discriminate|].
      assert (Hup := su_stable Hsu data true d1). rewrite <- Hrest1 in Hup.
      assert (Hne : (forall n, p (mkInput false data) <> Incomplete n) -> rest <> []).
      { intros Hp Hr. destruct (su_needs_input Hsu Hr) as [n Hn]. rewrite Hr in Hrest1. symmetry in Hrest1. apply app_eq_nil in Hrest1. destruct Hrest1 as [Hr1 _].
        rewrite Hr1 in Hp. exact (Hp _ Hn). }
      destruct H3 as [(H3 & H4)|[(H3 & H4)|(st' & out & H3 & H4 & H5 & H6 & H7 & H8)]].
      + right. right. left. rewrite H3 in Hup. cbn in Hup. split; [apply Hne; intros n Hn; congruence|]. auto.
      + exfalso. exact (su_decides Hsu _ H3).
      + pose proof (su_well_behaved Hsu (mkInput false data)) as Hw. destruct (p (mkInput false data)) as [j v|b x|n| |] eqn:Hp; cbn [answer upholds honest last buf] in *; try contradiction.
        * right. right. right. split; [apply Hne; congruence|]. destruct H8 as (-> & H8 & H9 & H10). rewrite Hup. cbn [whole buf].
          exists st', d1, (inl v), (buf j ++ d1), (inl v). split; [assumption|]. split; [|split; [cbn [length]; lia|split; [auto|reflexivity]]].
          split; [assumption|]. rewrite H5. split; [assumption|]. rewrite H8. split; [reflexivity|]. split; [congruence|]. split; congruence.
        * right. right. right. split; [apply Hne; congruence|]. destruct H8 as (-> & H8 & H9 & H10). rewrite Hup. cbn [whole buf].
          exists st', d1, (inr (SParseError b x)), (b ++ d1), (inr (SParseError (b ++ d1) x)). split; [assumption|]. split; [|split; [cbn [length]; lia|split; [auto|]]].
          { split; [assumption|]. rewrite H5. split; [assumption|]. rewrite H8. split; [reflexivity|]. split; [congruence|]. split; congruence. }
          split; [reflexivity|]. eauto.
        * left. destruct H8 as (H8 & H9 & H10). rewrite Heoi in H10. destruct H10 as [-> H10]. exists st', (inr SRetry), d1, e. split; [assumption|]. split; [auto|]. split.
          { split; [assumption|]. rewrite H5. split; [assumption|]. rewrite H8. split; [assumption|]. split; [congruence|]. split; [congruence|].
            intros _. rewrite H9. replace (Nat.max 1 (length data + n)) with (length data + n) by lia. eapply (su_fits Hsu); eauto. }
          { split; [|split; lia]. unfold measure at 1. rewrite H10, H9, H8. cbn [andb]. fold data. replace (length data <? Nat.max 1 (length data + n)) with true by (symmetry; apply Nat.ltb_lt; lia). lia. }
  Qed.

  Lemma insist_spec : forall T E (p : parser I T E) fuel st rest d e, stands st rest d e -> suits fits rest p -> measure st d e < fuel ->
    (rest = [] /\ exists st' d' e', insist ds ops fuel p st = Done (st', inr SEndOfInput) /\ stands st' rest d' e' /\ length d' <= length d /\ e' <= e) \/
    (rest <> [] /\ p (mkInput true rest) = Panic /\ insist ds ops fuel p st = Panicked) \/
    (rest <> [] /\ exists st' d' e' out rest' out', insist ds ops fuel p st = Done (st', out) /\ stands st' rest' d' e' /\ length d' <= length d /\ e' <= e /\
       whole rest (p (mkInput true rest)) rest' out' /\ same out out').
  Proof.
    intros T E p. induction fuel as [|fuel IH]; intros st rest d e Hst Hsu Hm; [lia|]. cbn [insist].
    destruct (parse_step Hst Hsu) as [(st' & r & d' & e' & H1 & H2 & H3 & H4 & H5 & H6)|[(H1 & st' & d' & H2 & H3 & H4)|[(H1 & H2 & H3)|(H1 & st' & d' & out & rest' & out' & H2 & H3 & H4 & H5 & H6)]]].
    - rewrite H1. cbn [run_bind]. assert (Hr : forall A (x y : A), match r with inr SRetry => x | inr (SIoError _) => x | _ => y end = x) by (intros; destruct H2 as [->|[[z ->] _]]; reflexivity).
      assert (Hins : match r with inr SRetry => insist ds ops fuel p st' | inr (SIoError _) => insist ds ops fuel p st' | _ => Done (st', r) end = insist ds ops fuel p st').
      { destruct H2 as [->|[[z ->] _]]; reflexivity. }
      rewrite Hins. destruct (IH _ _ _ _ H3 Hsu ltac:(lia)) as [(G1 & st2 & d2 & e2 & G2 & G3 & G4 & G5)|[G|(G1 & st2 & d2 & e2 & out & rest' & out' & G2 & G3 & G4 & G5 & G6 & G7)]].
      + left. split; [assumption|]. exists st2, d2, e2. repeat split; try assumption; try apply G3; lia.
      + auto.
      + right. right. split; [assumption|]. exists st2, d2, e2, out, rest', out'. repeat split; try assumption; try apply G3; lia.
    - rewrite H2. cbn [run_bind]. left. split; [assumption|]. exists st', d', e. repeat split; try assumption; try apply H3; lia.
    - rewrite H3. cbn [run_bind]. auto.
    - rewrite H2. cbn [run_bind]. right. right. split; [assumption|]. exists st', d', e, out, rest', out'.
      split; [|repeat split; try assumption; try apply H3; lia].
      destruct (p (mkInput true rest)); cbn [whole] in H5; try contradiction; destruct H5 as [_ ->]; destruct out as [|[]]; cbn [same] in H6; try reflexivity; discriminate.
  Qed.

  Lemma same_forget : forall T E (r1 r2 : sres I T E), same r1 r2 -> forget r1 = forget r2.
  Proof. intros T E [v|[]] [w|[]] H; cbn [same forget] in *; try congruence. destruct H as [-> _]. reflexivity. Qed.

  Lemma on_source_spec : forall T E (c : script I T E) fuel s st d e, ss_pos s <= length (ss_slice s) -> stands st (rest_of s) d e ->
    script_suits fits s c -> 2 * length d + e + 1 < fuel ->
    on_source ds ops fuel c st = on_slice c s.
  Proof.
    intros T E c fuel. induction c as [|p k IH]; intros s st d e Hpos Hst Hc Hf; [reflexivity|].
    inversion Hc as [|s1 p1 k1 Hsu Hk]; subst. fold (rest_of s) in Hsu. cbn [on_source on_slice].
    assert (Hm : measure st d e < fuel) by (unfold measure; destruct (_ && _); lia).
    destruct (insist_spec Hst Hsu Hm) as [(H1 & st' & d' & e' & H2 & H3 & H4 & H5)|[(H1 & H2 & H3)|(H1 & st' & d' & e' & out & rest' & out' & H2 & H3 & H4 & H5 & H6 & H7)]].
    - destruct (slice_parse_spec s Hpos (su_well_behaved Hsu)) as [[G1 G2]|[G1 _]]; [|contradiction].
      rewrite H2, G2. cbn [run_bind forget]. rewrite (IH _ s st' d' e'); auto; [|lia]. apply (Hk _ _ G2).
    - destruct (slice_parse_spec s Hpos (su_well_behaved Hsu)) as [[G1 G2]|[_ [[G1 G2]|[[G1 G2]|(s' & out & G1 & G2 & G3 & G4)]]]]; try congruence.
      + rewrite H3, G2. reflexivity.
      + rewrite H2 in G4. contradiction.
    - destruct (slice_parse_spec s Hpos (su_well_behaved Hsu)) as [[G1 G2]|[_ [[G1 G2]|[[G1 G2]|(s' & out2 & G1 & G2 & G3 & G4)]]]]; try congruence.
      + rewrite G1 in H6. contradiction.
      + rewrite G1 in H6. contradiction.
      + rewrite H2, G1. cbn [run_bind]. assert (Hw : rest_of s' = rest' /\ out2 = out').
        { destruct (p (mkInput true (rest_of s))); cbn [whole] in *; try contradiction; destruct H6, G4; split; congruence. }
        destruct Hw as [Hw1 Hw2]. subst out2. rewrite (same_forget _ _ H7). rewrite (IH _ s' st' d' e'); auto; [rewrite Hw1; assumption|lia].
  Qed.

  Lemma on_source_full_spec : forall T E (c : script I T E) fuel s st d e, ss_pos s <= length (ss_slice s) -> stands st (rest_of s) d e ->
    script_suits fits s c -> 2 * length d + e + 1 < fuel ->
    same_run (Forall2 shows_part_of) (on_source_full ds ops fuel c st) (on_slice_full c s).
  Proof.
    intros T E c fuel. induction c as [|p k IH]; intros s st d e Hpos Hst Hc Hf; [constructor|].
    inversion Hc as [|s1 p1 k1 Hsu Hk]; subst. fold (rest_of s) in Hsu. cbn [on_source_full on_slice_full].
    assert (Hm : measure st d e < fuel) by (unfold measure; destruct (_ && _); lia).
    assert (Hcons : forall r1 r2 (x y : run (list (sres I T E))), shows_part_of r1 r2 -> same_run (Forall2 shows_part_of) x y ->
      same_run (Forall2 shows_part_of) (run_bind x (fun rs => Done (r1 :: rs))) (run_bind y (fun rs => Done (r2 :: rs)))).
    { intros r1 r2 [x| | |] [y| | |] Hr Hxy; cbn [run_bind same_run] in *; try contradiction; auto. }
    destruct (insist_spec Hst Hsu Hm) as [(H1 & st' & d' & e' & H2 & H3 & H4 & H5)|[(H1 & H2 & H3)|(H1 & st' & d' & e' & out & rest' & out' & H2 & H3 & H4 & H5 & H6 & H7)]].
    - destruct (slice_parse_spec s Hpos (su_well_behaved Hsu)) as [[G1 G2]|[G1 _]]; [|contradiction].
      rewrite H2, G2. cbn [run_bind]. apply Hcons; [reflexivity|]. apply (IH _ s st' d' e' Hpos H3); [apply (Hk _ _ G2)|lia].
    - destruct (slice_parse_spec s Hpos (su_well_behaved Hsu)) as [[G1 G2]|[_ [[G1 G2]|[[G1 G2]|(s' & out & G1 & G2 & G3 & G4)]]]]; try congruence.
      + rewrite H3, G2. exact Logic.I.
      + rewrite H2 in G4. contradiction.
    - destruct (slice_parse_spec s Hpos (su_well_behaved Hsu)) as [[G1 G2]|[_ [[G1 G2]|[[G1 G2]|(s' & out2 & G1 & G2 & G3 & G4)]]]]; try congruence.
      + rewrite G1 in H6. contradiction.
      + rewrite G1 in H6. contradiction.
      + rewrite H2, G1. cbn [run_bind]. assert (Hw : rest_of s' = rest' /\ out2 = out').
        { destruct (p (mkInput true (rest_of s))); cbn [whole] in *; try contradiction; destruct H6, G4; split; congruence. }
        destruct Hw as [Hw1 Hw2]. subst out2. rewrite (same_forget _ _ H7). apply Hcons; [exact H7|]. apply (IH _ s' st' d' e'); [assumption|rewrite Hw1; assumption|apply (Hk _ _ G1)|lia].
  Qed.
End Sim.

(** * Concrete sources *)
Lemma chunk_obeys : forall I, obeys (read_data_source (@chunk_read I)).
Proof.
  intros I s n s' w k H. cbn [ds_read read_data_source] in H. destruct s as [|[c|] s]; cbn [chunk_read] in H; inversion H; subst.
  - split; [lia|]. exists []. split; reflexivity.
  - rewrite firstn_length. split; [lia|]. exists (firstn n c). split; [apply firstn_length|]. unfold writes. rewrite firstn_all2; [reflexivity|]. rewrite map_length. lia.
Qed.

Lemma chunk_delivers : forall I, delivers (read_data_source (@chunk_read I)) schedule.
Proof.
  intros I s d e (Hne & Hd & He) n s' w r H. cbn [ds_read read_data_source] in H. destruct s as [|[c|] s]; cbn [chunk_read] in H; inversion H; subst; clear H.
  - split; [lia|]. exists [], []. repeat split; auto.
  - rewrite firstn_length. split; [lia|]. exists (firstn n c), (skipn n c ++ chunks_data s). cbn [chunks_data flat_map].
    split; [rewrite app_assoc, firstn_skipn; reflexivity|]. split; [apply firstn_length|]. split; [unfold writes; rewrite firstn_all2; [reflexivity|rewrite map_length; lia]|].
    assert (Hc : c <> []) by (intros ->; apply Hne; left; reflexivity). split.
    + destruct (skipn n c) as [|y r] eqn:Hsk.
      * split; [intros Hin; apply Hne; right; assumption|]. split; reflexivity.
      * split; [|split; reflexivity]. intros [Hin|Hin]; [discriminate|]. apply Hne. right. assumption.
    + intros H0. left. destruct n; [reflexivity|]. destruct c; [contradiction|]. cbn in H0. lia.
  - exists (chunks_errors s'). split; [reflexivity|]. split; [intros Hin; apply Hne; right; assumption|]. split; reflexivity.
Qed.

Section Iter.
  Context {It I : Type}.
  Variable next : It -> option I * It.

  Lemma yields_app : forall a la b lb c, yields next a la b -> yields next b lb c -> yields next a (la ++ lb) c.
  Proof. intros a la b lb c H. revert lb c. induction H; intros; [assumption|]. cbn [app]. econstructor; eauto. Qed.

  Lemma iter_read_spec : forall k it it' w n, iter_read next k it = (it', w, n) ->
    n <= k /\ exists c it1, w = List.map Some c /\ length c = n /\ yields next it c it1 /\
      ((n = k /\ it' = it1) \/ (n < k /\ next it1 = (None, it'))).
  Proof.
    induction k as [|k IH]; intros it it' w n H; cbn [iter_read] in H.
    - inversion H; subst. split; [lia|]. exists [], it'. repeat split; auto. apply y_nil.
    - destruct (next it) as [[i|] it1] eqn:Hn.
      + destruct (iter_read next k it1) as [[it2 w2] n2] eqn:Hr. inversion H; subst. destruct (IH _ _ _ _ Hr) as (H1 & c & it3 & -> & H3 & H4 & H5).
        split; [lia|]. exists (i :: c), it3. cbn [List.map length]. repeat split; auto; [econstructor; eauto|]. destruct H5 as [[H5 H6]|[H5 H6]]; [left|right]; split; auto; lia.
      + inversion H; subst. split; [lia|]. exists [], it. repeat split; auto; [apply y_nil|]. right. split; [lia|assumption].
  Qed.

  Lemma iter_obeys : obeys (iter_data_source next).
  Proof.
    intros s n s' w k H. unfold iter_data_source in H. cbn [ds_read] in H. destruct (iter_read next n s) as [[s1 w1] k1] eqn:Hr. inversion H; subst.
    destruct (@iter_read_spec _ _ _ _ _ Hr) as (H1 & c & it1 & -> & H3 & _). split; [assumption|]. exists c. split; [assumption|]. unfold writes. rewrite firstn_all2; [reflexivity|]. rewrite map_length. lia.
  Qed.

  Lemma yields_split : forall it l it', yields next it l it' -> forall c it1, yields next it c it1 ->
    (exists x, next it' = (None, x)) -> exists d, l = c ++ d /\ yields next it1 d it'.
  Proof.
    intros it l it' H. induction H as [it|it i it1 l it2 Hn H IH]; intros c it3 Hc [x Hend].
    - destruct Hc as [it|it j it4 c it5 Hn _]; [exists []; split; [reflexivity|apply y_nil]|]. rewrite Hend in Hn. discriminate.
    - inversion Hc as [y|y j it4 c' it5 Hn2 Hc2]; subst.
      + exists (i :: l). split; [reflexivity|]. econstructor; eauto.
      + rewrite Hn in Hn2. inversion Hn2; subst. destruct (IH _ _ Hc2) as (d & -> & Hd); [eauto|]. exists d. split; [reflexivity|assumption].
  Qed.

  Lemma iter_delivers : delivers (iter_data_source next) (exactly next).
  Proof.
    intros s d e (it' & P & Hy & HP & Hend) n s' w r H. unfold iter_data_source in H. cbn [ds_read] in H. destruct (iter_read next n s) as [[s1 w1] k1] eqn:Hr. inversion H; subst.
    destruct (@iter_read_spec _ _ _ _ _ Hr) as (H1 & c & it1 & -> & H3 & H4 & H5). split; [assumption|].
    destruct (Hend _ HP) as (z & Hz & HPz).
    destruct (yields_split Hy H4) as (d' & -> & Hd'); [eauto|]. exists c, d'. split; [reflexivity|]. split; [assumption|]. split; [unfold writes; rewrite firstn_all2; [reflexivity|rewrite map_length; lia]|].
    destruct H5 as [[H5 H6]|[H5 H6]].
    - subst s'. split; [exists it', P; auto|]. intros H0. left. lia.
    - assert (Hd0 : d' = [] /\ it1 = it').
      { inversion Hd' as [y|y j it4 c' it5 Hn2 Hc2]; subst; [auto|]. rewrite H6 in Hn2. discriminate. }
      destruct Hd0 as [-> ->]. rewrite Hz in H6. inversion H6; subst. split; [exists s', P; repeat split; auto; apply y_nil|].
      intros H0. right. destruct c; [reflexivity|]. cbn in H0. lia.
  Qed.
End Iter.

(** * All histories keep the buffer sound *)
Section HistoryInv.
  Context {St I B : Type}.
  Variable ds : data_source St I.
  Variables (ops : buffer_ops I B) (inv : B -> Prop) (view : B -> list I) (room : B -> nat) (fits : nat -> Prop).
  Hypothesis Q : queue_like ops inv view room fits.
  Hypothesis Ho : obeys ds.
  Variable admits : forall T E, parser I T E -> Prop.

  Lemma history_inv : forall s0 b0 st out, inv b0 -> view b0 = [] -> history ds ops admits s0 b0 st out ->
    inv (src_buffer st) /\ exists new e en, reads ds s0 (src_source st) new e en /\ new = out ++ view (src_buffer st).
  Proof.
    intros s0 b0 st out Hi0 Hv0 H.
    induction H as [|st out T E p st' r H IH Hw _ Hp|st out st' r H IH Hp|st out n st' r H IH Hp|st out st' r H IH Hp|st out l n st' H IH Hv Hn Hp|st out H IH|st out v H IH].
    - cbn [src_with_buffer src_buffer src_source]. rewrite Hv0. split; [assumption|]. exists [], 0, false. split; [apply rd_none|reflexivity].
    - destruct IH as (Hi & n0 & e0 & en0 & IH1 & IH2). destruct (telling_step Q Ho st Hi Hw Hp) as (new & e & en & H1 & H2 & H3 & _). split; [assumption|].
      exists (n0 ++ new), (e0 + e), (en0 || en). split; [eapply reads_app; eauto|]. rewrite IH2, <- !app_assoc, H3. reflexivity.
    - destruct IH as (Hi & n0 & e0 & en0 & IH1 & IH2). destruct (src_fill_spec Q Ho st Hi) as (st2 & r2 & new & e & en & G1 & G2 & G3 & G4 & _). rewrite Hp in G1. inversion G1; subst st2 r2.
      split; [assumption|]. exists (n0 ++ new), (e0 + e), (en0 || en). split; [eapply reads_app; eauto|]. rewrite IH2, G4, app_assoc. reflexivity.
    - destruct IH as (Hi & n0 & e0 & en0 & IH1 & IH2). destruct (src_read_spec Q Ho n st Hi) as (b' & s' & new & e & en & r2 & G1 & G2 & G3 & G4). rewrite Hp in G3. inversion G3; subst st' r2.
      cbn [src_with src_buffer src_source]. split; [assumption|]. exists (n0 ++ new), (e0 + e), (en0 || en). split; [eapply reads_app; eauto|]. rewrite IH2. destruct r as [l|x].
      + destruct G4 as (_ & -> & -> & _). rewrite <- !app_assoc, firstn_skipn. reflexivity.
      + destruct G4 as (_ & -> & _). rewrite app_nil_r, app_assoc. reflexivity.
    - destruct IH as (Hi & n0 & e0 & en0 & IH1 & IH2). destruct (src_fill_buf_spec Q Ho st Hi) as (b' & s' & new & e & en & r2 & G1 & G2 & G3 & G4 & G5). rewrite Hp in G3. inversion G3; subst st' r2.
      cbn [src_with src_buffer src_source]. split; [assumption|]. exists (n0 ++ new), (e0 + e), (en0 || en). split; [eapply reads_app; eauto|]. rewrite IH2, G4, app_assoc. reflexivity.
    - destruct IH as (Hi & n0 & e0 & en0 & IH1 & IH2). unfold src_view in Hv. rewrite (q_deref Q _ Hi) in Hv. inversion Hv; subst l.
      destruct (src_consume_spec Q st Hi Hn) as (b' & G1 & G2 & G3). rewrite Hp in G1. inversion G1; subst st'.
      cbn [src_with src_buffer src_source]. split; [assumption|]. exists n0, e0, en0. split; [assumption|]. rewrite IH2, G3, <- app_assoc, firstn_skipn. reflexivity.
    - exact IH.
    - exact IH.
  Qed.
End HistoryInv.
