(** However a Source is driven, its answers are those over the slice. *)
From Coq Require Import List Bool Arith Lia.
From Verif Require Import Base Buffer Stream SpecBase SpecBuffer SpecSafe SpecStream SpecPaced BufferProofs StreamProofs SimProofs.
Import ListNotations.

Set Implicit Arguments.

Ltac conj := repeat match goal with |- _ /\ _ => split end; try assumption; try lia.

Section Paced.
  Context {St I B : Type}.
  Variable ds : data_source St I.
  Variables (ops : buffer_ops I B) (inv : B -> Prop) (view : B -> list I) (room : B -> nat) (fits : nat -> Prop).
  Hypothesis Q : queue_like ops inv view room fits.
  Hypothesis Ho : obeys ds.
  Variable R : St -> list I -> nat -> Prop.
  Hypothesis HR : delivers ds R.

  (** [st] stands before [rest], of which [d] is still to be read, whether or not it fills itself. *)
  Record ready (st : src St B) (rest d : list I) (e : nat) : Prop := mkReady {
    rd_inv : inv (src_buffer st);
    rd_source : R (src_source st) d e;
    rd_rest : rest = view (src_buffer st) ++ d;
    rd_eoi : src_eoi st = true -> d = [] /\ src_incomplete st = false;
    rd_incomplete : src_incomplete st = true -> fits (Nat.min (Nat.max 1 (src_request st)) (length rest));
    rd_fits : d = [] \/ fits (Nat.min (Nat.max 1 (src_request st)) (length rest)) }.

  Lemma ready_stands : forall st rest d e, ready st rest d e -> stands inv view fits R (src_set_autofill true st) rest d e.
  Proof. intros st rest d e [H1 H2 H3 H4 H5 H6]. unfold stands, src_set_autofill. cbn [src_buffer src_source src_auto src_eoi src_incomplete src_request]. repeat split; auto. intros H. apply (H4 H). Qed.

  Lemma ready_autofill : forall st rest d e v, ready st rest d e -> ready (src_set_autofill v st) rest d e.
  Proof. intros st rest d e v [H1 H2 H3 H4 H5 H6]. split; assumption. Qed.
  Lemma ready_reset : forall st rest d e, ready st rest d e -> ready (src_reset st) rest d e.
  Proof. intros st rest d e [H1 H2 H3 H4 H5 H6]. split; auto; cbn [src_reset src_eoi src_incomplete]; discriminate. Qed.

  Lemma ready_fill : forall st rest d e, ready st rest d e ->
    exists st1 r d1 e1, src_fill ds ops st = Done (st1, r) /\ ready st1 rest d1 e1 /\ length d1 <= length d /\ e1 <= e /\ src_auto st1 = src_auto st /\
      match r with
      | IoErr _ => e1 < e
      | IoOk _ => src_eoi st1 = true \/ length d1 < length d \/ Nat.max 1 (src_request st) <= length (view (src_buffer st))
      end.
  Proof.
    intros st rest d e [Hi Hd Hrest He Hinc Hf]. destruct (src_fill_spec Q Ho st Hi) as (st1 & r & new & k & en & H1 & H2 & H3 & H4 & H5 & H6 & H7).
    destruct (reads_delivers HR H2 _ _ Hd) as (d1 & G1 & G2 & G3 & G4). exists st1, r, d1, (e - k). split; [assumption|].
    assert (Hrest1 : rest = view (src_buffer st1) ++ d1) by (rewrite H4, <- app_assoc, <- G1; assumption).
    assert (Hlen : length d = length new + length d1) by (rewrite G1, app_length; reflexivity).
    assert (Hd0 : d = [] -> d1 = []) by (intros ->; symmetry in G1; apply app_eq_nil in G1; apply G1).
    assert (Hf1 : d1 = [] \/ fits (Nat.min (Nat.max 1 (src_request st1)) (length rest))) by (rewrite H5; destruct Hf; auto).
    destruct r as [m|x].
    - destruct H7 as (-> & _ & H7 & H8 & H9). split; [|split; [lia|split; [lia|split; [assumption|]]]].
      + split; auto; try congruence. intros Heoi. split; [|assumption]. destruct H9 as [H9|[H9|H9]]; [congruence|auto|].
        destruct d1 as [|y d1]; [reflexivity|exfalso]. destruct Hf1 as [Hf1|Hf1]; [discriminate|]. apply H9. rewrite Heoi in H8. symmetry in H8. apply Nat.ltb_lt in H8.
        eapply (q_fits Q); [|exact Hf1]. rewrite H5, Hrest1, app_length in *. cbn [length]. lia.
      + destruct (src_eoi st1); [auto|right]. symmetry in H8. apply Nat.ltb_ge in H8.
        rewrite H4, app_length in H8. destruct (length new) eqn:Hn; [right; lia|left; lia].
    - destruct H7 as (-> & H7 & H8 & H9). split; [|split; [lia|split; [lia|split; [assumption|lia]]]].
      split; auto; rewrite ?H5, ?H8, ?H9; auto. intros Heoi. destruct (He Heoi). auto.
  Qed.

  (** One call of [parse]. *)
  Lemma ready_parse : forall T E (p : parser I T E) st rest d e, ready st rest d e -> suits fits rest p ->
    (exists st' r d' e', src_parse ds ops p st = Done (st', r) /\ again r /\ ready st' rest d' e' /\ length d' <= length d /\ e' <= e /\ src_auto st' = src_auto st /\
       (r = inr SRetry -> length (view (src_buffer st')) < src_request st' /\ src_eoi st' = false /\ (src_incomplete st && src_auto st = false -> src_eoi st = false)) /\
       (r <> inr SRetry -> src_auto st = true)) \/
    (rest = [] /\ exists st' d', src_parse ds ops p st = Done (st', inr SEndOfInput) /\ ready st' rest d' e /\ length d' <= length d /\ src_auto st' = src_auto st) \/
    (rest <> [] /\ p (mkInput true rest) = Panic /\ src_parse ds ops p st = Panicked) \/
    (rest <> [] /\ exists st' d' out rest' out', src_parse ds ops p st = Done (st', out) /\ ready st' rest' d' e /\ length d' <= length d /\ src_auto st' = src_auto st /\
       whole rest (p (mkInput true rest)) rest' out' /\ same out out').
  Proof.
    intros T E p st rest d e Hst Hsu. pose proof (rd_inv Hst) as Hi.
    destruct (src_parse_spec Q Ho st Hi (su_well_behaved Hsu)) as [(st1 & x & H1 & H2 & H3 & H4)|(st1 & H1 & H2)].
    { left. destruct (ready_fill Hst) as (st2 & r & d1 & e1 & G1 & G2 & G4 & G5 & G6 & G3). rewrite H3 in G1. inversion G1; subst st2 r.
      exists st1, (inr (SIoError x)), d1, e1. split; [assumption|]. split; [right; eauto|]. repeat (split; [assumption|]). split; [discriminate|]. intros _. assumption. }
    (* state before the parser is run *)
    assert (Hst1 : exists d1 e1, ready st1 rest d1 e1 /\ length d1 <= length d /\ e1 <= e /\ src_auto st1 = src_auto st /\ (src_incomplete st && src_auto st = false -> st1 = st)).
    { destruct (src_incomplete st && src_auto st) eqn:Hinc.
      - destruct H1 as [m H1]. destruct (ready_fill Hst) as (st2 & r & d1 & e1 & G1 & G2 & G3 & G4 & G5 & _). rewrite H1 in G1. inversion G1; subst st2 r.
        exists d1, e1. repeat (split; [assumption|]). discriminate.
      - subst st1. exists d, e. auto. }
    assert (He1e : exists d1, ready st1 rest d1 e /\ length d1 <= length d /\ src_auto st1 = src_auto st /\ (src_incomplete st && src_auto st = false -> st1 = st)).
    { destruct (src_incomplete st && src_auto st) eqn:Hinc.
      - destruct H1 as [m H1]. destruct (src_fill_spec Q Ho st Hi) as (st2 & r & new & k & en & K1 & K2 & K3 & K4 & K5 & K6 & K7). rewrite H1 in K1. inversion K1; subst st2 r.
        destruct K7 as (-> & _). destruct Hst1 as (d1 & e1 & G1 & G2 & G3 & G4 & G5).
        destruct (ready_fill Hst) as (st2 & r & d2 & e2 & J1 & J2 & J3 & J4 & J5 & J6). rewrite H1 in J1. inversion J1; subst st2 r.
        destruct (reads_delivers HR K2 _ _ (rd_source Hst)) as (d3 & L1 & L2 & L3 & L4). rewrite Nat.sub_0_r in L3.
        assert (Hd3 : d3 = d2). { pose proof (rd_rest Hst) as A1. pose proof (rd_rest J2) as A2. rewrite K4 in A2. rewrite A1, L1, app_assoc in A2. apply app_inv_head in A2. assumption. }
        subst d3. exists d2. split; [|repeat split; auto; discriminate]. destruct J2 as [M1 M2 M3 M4 M5 M6]. split; assumption.
      - subst st1. exists d. auto. }
    clear Hst1. destruct He1e as (d1 & Hst1 & Hd1 & Hau & Hsame). clear H1. pose proof Hst1 as [Hi1 HR1 Hrest1 He1 Hinc1 Hf1].
    cbn zeta in H2. set (data := view (src_buffer st1)) in *.
    destruct H2 as [(H2 & H3 & H4)|[H2 H3]].
    { right. left. destruct (He1 H2) as [Hd0 _]. pose proof Hrest1 as Hr. rewrite Hd0, H3 in Hr. split; [assumption|]. exists st1, d1. auto. }
    assert (Hshrink : forall (rest' : list I) q, length rest' <= length rest -> src_request st1 = q -> d1 = [] \/ fits (Nat.min (Nat.max 1 q) (length rest'))).
    { intros rest' q Hl <-. destruct Hf1 as [Hf1|Hf1]; [auto|right]. eapply (q_fits Q); [|exact Hf1]. lia. }
    assert (Hshrink2 : forall (rest' : list I) q, length rest' <= length rest -> src_request st1 = q -> src_incomplete st1 = true -> fits (Nat.min (Nat.max 1 q) (length rest'))).
    { intros rest' q Hl <- Hin. eapply (q_fits Q); [|exact (Hinc1 Hin)]. lia. }
    destruct (src_eoi st1) eqn:Heoi.
    - (* last slice *)
      destruct (He1 eq_refl) as [Hd0 Hin0]. subst d1. rewrite app_nil_r in Hrest1. rewrite <- Hrest1 in *. destruct H2 as [H2|H2]; [discriminate|]. right. right.
      destruct H3 as [(H3 & H4)|[(H3 & H4)|(st' & out & H3 & H4 & H5 & H6 & H7 & H8)]].
      + left. auto.
      + exfalso. exact (su_decides Hsu _ H3).
      + right. split; [assumption|].
        destruct (p (mkInput true rest)) as [j v|b x|n| |]; cbn [answer whole] in *; try contradiction.
        * destruct H8 as (-> & H8 & H9 & H10). exists st', [], (inl v), (buf j), (inl v). split; [assumption|]. split; [|split; [cbn [length]; lia|split; [congruence|split; [auto|reflexivity]]]].
          split; auto; try congruence; [rewrite H8, app_nil_r; reflexivity|split; congruence].
        * destruct H8 as (-> & H8 & H9 & H10). exists st', [], (inr (SParseError b x)), b, (inr (SParseError b x)). split; [assumption|]. split; [|split; [cbn [length]; lia|split; [congruence|split; [auto|]]]].
          { split; auto; try congruence; [rewrite H8, app_nil_r; reflexivity|split; congruence]. }
          split; [reflexivity|]. exists []. rewrite app_nil_r. reflexivity.
        * destruct H8 as (H8 & H9 & H10). rewrite Heoi in H10. destruct H10 as [-> H10]. rewrite Nat.add_comm. eexists st', [], _, rest, _. split; [eassumption|]. split; [|split; [cbn [length]; lia|split; [congruence|split; [auto|reflexivity]]]].
          split; auto; try congruence; [rewrite H8, app_nil_r; exact Hrest1|split; congruence].
    - (* more may come *)
      assert (Hup := su_stable Hsu data true d1). rewrite <- Hrest1 in Hup.
      assert (Hne : (forall n, p (mkInput false data) <> Incomplete n) -> rest <> []).
      { intros Hp Hr. destruct (su_needs_input Hsu Hr) as [n Hn]. rewrite Hr in Hrest1. symmetry in Hrest1. apply app_eq_nil in Hrest1. destruct Hrest1 as [Hr1 _].
        rewrite Hr1 in Hp. exact (Hp _ Hn). }
      destruct H3 as [(H3 & H4)|[(H3 & H4)|(st' & out & H3 & H4 & H5 & H6 & H7 & H8)]].
      + right. right. left. rewrite H3 in Hup. cbn in Hup. split; [apply Hne; intros n Hn; congruence|]. auto.
      + exfalso. exact (su_decides Hsu _ H3).
      + pose proof (su_well_behaved Hsu (mkInput false data)) as Hw. destruct (p (mkInput false data)) as [j v|b x|n| |] eqn:Hp; cbn [answer upholds honest last buf] in *; try contradiction.
        * right. right. right. split; [apply Hne; congruence|]. destruct H8 as (-> & H8 & H9 & H10). rewrite Hup. cbn [whole buf]. destruct Hw as [_ Hw]. apply suffix_skipn in Hw. destruct Hw as [_ Hw].
          assert (Hl : length (buf j ++ d1) <= length rest) by (rewrite Hrest1, !app_length; lia).
          exists st', d1, (inl v), (buf j ++ d1), (inl v). split; [assumption|]. split; [|split; [assumption|split; [congruence|split; [auto|reflexivity]]]].
          split; auto; try congruence. rewrite H10. auto.
        * right. right. right. split; [apply Hne; congruence|]. destruct H8 as (-> & H8 & H9 & H10). rewrite Hup. cbn [whole buf]. apply suffix_skipn in Hw. destruct Hw as [_ Hw].
          assert (Hl : length (b ++ d1) <= length rest) by (rewrite Hrest1, !app_length; lia).
          exists st', d1, (inr (SParseError b x)), (b ++ d1), (inr (SParseError (b ++ d1) x)). split; [assumption|]. split; [|split; [assumption|split; [congruence|split; [auto|]]]].
          { split; auto; try congruence. rewrite H10. auto. }
          split; [reflexivity|]. eauto.
        * left. destruct H8 as (H8 & H9 & H10). rewrite Heoi in H10. destruct H10 as [-> H10]. exists st', (inr SRetry), d1, e. split; [assumption|]. split; [left; reflexivity|].
          assert (Hfit : fits (Nat.min (Nat.max 1 (src_request st')) (length rest))).
          { rewrite H9. replace (Nat.max 1 (length data + n)) with (length data + n) by lia. eapply (su_fits Hsu); eauto. }
          split; [|split; [assumption|split; [lia|split; [congruence|split; [|congruence]]]]].
          { split; auto; try congruence. rewrite H8. assumption. }
          { intros _. rewrite H8, H9. fold data. split; [lia|]. split; [congruence|]. intros Hq. rewrite <- (Hsame Hq). assumption. }
  Qed.

  Lemma not_again : forall T E rest (r : pres I T E) rest' out out', whole rest r rest' out' -> same out out' -> ~ again out.
  Proof.
    intros T E rest r rest' out out' Hw Hs [->|[x ->]]; destruct r; cbn [whole] in Hw; try contradiction; destruct Hw as [_ ->]; cbn [same] in Hs; discriminate.
  Qed.

  (** Any execution. *)
  Lemma paced_spec : forall T E (c c' : script I T E) st st' rs, paced ds ops c st rs c' st' -> forall s d e, ss_pos s <= length (ss_slice s) -> ready st (rest_of s) d e -> script_suits fits s c ->
    exists s' d' e', sliced c s rs c' s' /\ ss_pos s' <= length (ss_slice s') /\ ready st' (rest_of s') d' e' /\ script_suits fits s' c' /\ length d' <= length d /\ e' <= e.
  Proof.
    intros T E c c' st st' rs H. induction H as [c st|p k st st1 r rs c' st' H1 H2 H3 IH|p k st st1 r rs c' st' H1 H2 H3 IH|c st st1 r rs c' st' H1 H2 IH|c st v rs c' st' H1 IH|c st rs c' st' H1 IH];
      intros s d e Hpos Hst Hc.
    - exists s, d, e. conj. constructor.
    - inversion Hc as [|s1 p1 k1 Hsu Hk]; subst. fold (rest_of s) in Hsu.
      destruct (ready_parse Hst Hsu) as [(st2 & r2 & d' & e' & G1 & G2 & _)|[(G0 & st2 & d' & G1 & G2 & G3 & _)|[(G1 & G2 & G3)|(G0 & st2 & d' & out & rest' & out' & G1 & G2 & G3 & _ & G4 & G5)]]].
      + rewrite H1 in G1. inversion G1; subst. contradiction.
      + rewrite H1 in G1. inversion G1; subst st2 r. destruct (slice_parse_spec s Hpos (su_well_behaved Hsu)) as [[K1 K2]|[K1 _]]; [|contradiction].
        destruct (IH s d' e Hpos G2 (Hk _ _ K2)) as (s' & d2 & e2 & L1 & L2 & L3 & L4 & L5 & L6). exists s', d2, e2.
        split; [exact (sl_answer _ _ _ K2 L1)|]. conj.
      + congruence.
      + rewrite H1 in G1. inversion G1; subst st2 out.
        destruct (slice_parse_spec s Hpos (su_well_behaved Hsu)) as [[K1 K2]|[_ [[K1 K2]|[[K1 K2]|(s1 & out2 & K1 & K2 & K3 & K4)]]]].
        * contradiction.
        * rewrite K1 in G4. contradiction.
        * rewrite K1 in G4. contradiction.
        * assert (Hw : rest_of s1 = rest' /\ out2 = out').
          { destruct (p (mkInput true (rest_of s))); cbn [whole] in *; try contradiction; destruct G4, K4; split; congruence. }
          destruct Hw as [Hw1 Hw2]. subst out2. rewrite <- Hw1 in G2. pose proof (Hk _ _ K1) as Hk1. rewrite <- (same_forget _ _ G5) in Hk1.
          destruct (IH s1 d' e K3 G2 Hk1) as (s' & d2 & e2 & L1 & L2 & L3 & L4 & L5 & L6). exists s', d2, e2.
          split; [|conj]. rewrite (same_forget _ _ G5) in *. exact (sl_answer _ _ _ K1 L1).
    - inversion Hc as [|s1 p1 k1 Hsu Hk]; subst. fold (rest_of s) in Hsu.
      destruct (ready_parse Hst Hsu) as [(st2 & r2 & d' & e' & G1 & G2 & G3 & G4 & G5 & _)|[(G0 & st2 & d' & G1 & G2 & G3 & _)|[(G1 & G2 & G3)|(G0 & st2 & d' & out & rest' & out' & G1 & G2 & G3 & _ & G4 & G5)]]].
      + rewrite H1 in G1. inversion G1; subst st2 r2. destruct (IH s d' e' Hpos G3 Hc) as (s' & d2 & e2 & L1 & L2 & L3 & L4 & L5 & L6). exists s', d2, e2.
        conj.
      + rewrite H1 in G1. inversion G1; subst. destruct H2 as [H2|[x H2]]; discriminate.
      + congruence.
      + rewrite H1 in G1. inversion G1; subst. destruct (not_again _ _ _ _ G4 G5 H2).
    - destruct (ready_fill Hst) as (st2 & r2 & d1 & e1 & G1 & G2 & G3 & G4 & _). rewrite H1 in G1. inversion G1; subst st2 r2.
      destruct (IH s d1 e1 Hpos G2 Hc) as (s' & d2 & e2 & L1 & L2 & L3 & L4 & L5 & L6). exists s', d2, e2. conj.
    - apply (IH s d e Hpos); [apply ready_autofill; assumption|assumption].
    - apply (IH s d e Hpos); [apply ready_reset; assumption|assumption].
  Qed.

  Lemma sliced_run : forall T E (c c' : script I T E) s s' rs, sliced c s rs c' s' -> on_slice c s = (let! rs' := on_slice c' s' in Done (rs ++ rs')).
  Proof.
    intros T E c c' s s' rs H. induction H as [c s|p k s s1 r rs c' s' H1 H2 IH].
    - destruct (on_slice c s); reflexivity.
    - cbn [on_slice]. rewrite H1. cbn [run_bind]. rewrite IH. destruct (on_slice c' s'); reflexivity.
  Qed.

  (** By hand. *)
  Lemma by_hand_spec : forall T E (p : parser I T E) fuel st rest d e, ready st rest d e -> src_auto st = false -> suits fits rest p -> (if src_eoi st then 0 else length d + e + 1) < fuel ->
    (rest = [] /\ exists st' d' e', by_hand ds ops fuel p st = Done (st', inr SEndOfInput) /\ ready st' rest d' e' /\ src_auto st' = false /\ length d' <= length d /\ e' <= e) \/
    (rest <> [] /\ p (mkInput true rest) = Panic /\ by_hand ds ops fuel p st = Panicked) \/
    (rest <> [] /\ exists st' d' e' out rest' out', by_hand ds ops fuel p st = Done (st', out) /\ ready st' rest' d' e' /\ src_auto st' = false /\ length d' <= length d /\ e' <= e /\
       whole rest (p (mkInput true rest)) rest' out' /\ same out out').
  Proof.
    intros T E p. induction fuel as [|fuel IH]; intros st rest d e Hst Ha Hsu Hm; [lia|]. cbn [by_hand].
    destruct (ready_parse Hst Hsu) as [(st1 & r & d' & e' & G1 & G2 & G3 & G4 & G5 & G6 & G7 & G8)|[(G0 & st1 & d' & G1 & G2 & G3 & G4)|[(G1 & G2 & G3)|(G0 & st1 & d' & out & rest' & out' & G1 & G2 & G3 & G4 & G5 & G6)]]].
    - assert (Hr : r = inr SRetry).
      { destruct G2 as [G2|[x ->]]; [assumption|]. specialize (G8 ltac:(discriminate)). congruence. }
      subst r. rewrite G1. cbn [run_bind]. destruct (G7 eq_refl) as (K1 & K2 & K3). rewrite Ha, andb_false_r in K3. specialize (K3 eq_refl). rewrite K3 in Hm.
      destruct (ready_fill G3) as (st2 & r & d2 & e2 & J1 & J2 & J3 & J4 & J5 & J6). rewrite J1. cbn [run_bind].
      assert (Hm2 : (if src_eoi st2 then 0 else length d2 + e2 + 1) < fuel).
      { destruct (src_eoi st2); [lia|]. destruct r as [m|x]; [destruct J6 as [J6|[J6|J6]]; [discriminate|lia|lia]|lia]. }
      destruct (IH st2 rest d2 e2 J2 ltac:(congruence) Hsu Hm2) as [(L1 & st3 & d3 & e3 & L2 & L3 & L4 & L5 & L6)|[L|(L1 & st3 & d3 & e3 & out & rest' & out' & L2 & L3 & L4 & L5 & L6 & L7 & L8)]].
      + left. split; [assumption|]. exists st3, d3, e3. conj.
      + auto.
      + right. right. split; [assumption|]. exists st3, d3, e3, out, rest', out'. conj.
    - rewrite G1. cbn [run_bind]. left. split; [assumption|]. exists st1, d', e. split; [reflexivity|]. split; [assumption|]. split; [congruence|]. split; lia.
    - rewrite G3. cbn [run_bind]. auto.
    - rewrite G1. cbn [run_bind]. right. right. split; [assumption|]. exists st1, d', e, out, rest', out'.
      split; [|split; [assumption|split; [congruence|split; [lia|split; [lia|auto]]]]].
      destruct out as [v|[]]; try reflexivity. exfalso. apply (not_again _ _ _ _ G5 G6). left. reflexivity.
  Qed.

  Lemma on_source_by_hand_spec : forall T E (c : script I T E) fuel s st d e, ss_pos s <= length (ss_slice s) -> ready st (rest_of s) d e -> src_auto st = false ->
    script_suits fits s c -> length d + e + 1 < fuel -> on_source_by_hand ds ops fuel c st = on_slice c s.
  Proof.
    intros T E c fuel. induction c as [|p k IH]; intros s st d e Hpos Hst Ha Hc Hf; [reflexivity|].
    inversion Hc as [|s1 p1 k1 Hsu Hk]; subst. fold (rest_of s) in Hsu. cbn [on_source_by_hand on_slice].
    assert (Hm : (if src_eoi st then 0 else length d + e + 1) < fuel) by (destruct (src_eoi st); lia).
    destruct (@by_hand_spec _ _ p fuel st _ d e Hst Ha Hsu Hm) as [(H1 & st' & d' & e' & H2 & H3 & H4 & H5 & H6)|[(H1 & H2 & H3)|(H1 & st' & d' & e' & out & rest' & out' & H2 & H3 & H4 & H5 & H6 & H7 & H8)]].
    - destruct (slice_parse_spec s Hpos (su_well_behaved Hsu)) as [[G1 G2]|[G1 _]]; [|contradiction].
      rewrite H2, G2. cbn [run_bind forget]. rewrite (IH _ s st' d' e'); auto; [|lia]. apply (Hk _ _ G2).
    - destruct (slice_parse_spec s Hpos (su_well_behaved Hsu)) as [[G1 G2]|[_ [[G1 G2]|[[G1 G2]|(s' & out & G1 & G2 & G3 & G4)]]]]; try congruence.
      + rewrite H3, G2. reflexivity.
      + rewrite H2 in G4. contradiction.
    - destruct (slice_parse_spec s Hpos (su_well_behaved Hsu)) as [[G1 G2]|[_ [[G1 G2]|[[G1 G2]|(s' & out2 & G1 & G2 & G3 & G4)]]]]; try congruence.
      + rewrite G1 in H7. contradiction.
      + rewrite G1 in H7. contradiction.
      + rewrite H2, G1. cbn [run_bind]. assert (Hw : rest_of s' = rest' /\ out2 = out').
        { destruct (p (mkInput true (rest_of s))); cbn [whole] in *; try contradiction; destruct H7, G4; split; congruence. }
        destruct Hw as [Hw1 Hw2]. subst out2. rewrite (same_forget _ _ H8). rewrite (IH _ s' st' d' e'); auto; [rewrite Hw1; assumption|lia].
  Qed.
End Paced.
