(** Every call on a Source is explained by the data that remains. *)
From Coq Require Import List Bool Arith Lia.
From Verif Require Import Base Parsers Combinators Buffer Stream SpecBase SpecBuffer SpecSafe SpecStream SpecPaced BufferProofs StreamProofs SimProofs PacedProofs
  Effects SpecEffects SpecKeep KeepProofs SpecUse Word SpecWord WordProofs Unwind SpecUnwind UnwindProofs.
Import ListNotations.

Set Implicit Arguments.

Section Use.
  Context {W St I B : Type}.
  Variable ds : data_source St I.
  Variables (ops : buffer_ops I B) (inv : B -> Prop) (view : B -> list I) (room : B -> nat) (fits : nat -> Prop).
  Hypothesis Q : queue_like ops inv view room fits.
  Hypothesis Ho : obeys ds.
  Hypothesis Hone : fits 1.
  Variable R : St -> list I -> nat -> Prop.
  Hypothesis HR : delivers ds R.

  Notation ready := (ready inv view fits R).

  (** After a change of buffer and source only. *)
  Lemma ready_with : forall (st : src St B) rest d e b' s' rest' d1 e1, ready st rest d e -> inv b' -> R s' d1 e1 -> rest' = view b' ++ d1 ->
    length rest' <= length rest -> (d = [] -> d1 = []) -> ready (src_with st b' s') rest' d1 e1.
  Proof.
    intros st rest d e b' s' rest' d1 e1 [Hi Hd Hrest He Hinc Hf] Hi' Hd1 Hr Hle Hnil.
    assert (Hsh : fits (Nat.min (Nat.max 1 (src_request st)) (length rest)) -> fits (Nat.min (Nat.max 1 (src_request st)) (length rest')))
      by (apply (q_fits Q); lia).
    split; cbn [src_with src_buffer src_source src_auto src_eoi src_incomplete src_request]; auto.
    - intros Heoi. destruct (He Heoi). auto.
    - destruct Hf; auto.
  Qed.

  Lemma ready_read : forall n st rest d e, ready st rest d e -> exists st' r d1 e1, src_read ds ops n st = Done (st', r) /\ length d1 <= length d /\ e1 <= e /\
    match r with
    | IoErr _ => ready st' rest d1 e1 /\ e1 < e
    | IoOk out => exists rest', rest = out ++ rest' /\ ready st' rest' d1 e1 /\ length out <= n /\
        (fits (Nat.min n (length rest)) -> out = firstn n rest) /\ (out = [] -> n = 0 \/ rest = [])
    end.
  Proof.
    intros n st rest d e Hst. pose proof Hst as [Hi Hd Hrest _ _ _].
    destruct (src_read_spec Q Ho n st Hi) as (b' & s' & new & k & en & r & H1 & H2 & H3 & H4).
    destruct (reads_delivers HR H1 _ _ Hd) as (d1 & G1 & G2 & G3 & G4). exists (src_with st b' s'), r, d1, (e - k). split; [assumption|].
    assert (Hlen : length d = length new + length d1) by (rewrite G1, app_length; reflexivity).
    assert (Hnil : d = [] -> d1 = []) by (intros Hd0; rewrite Hd0 in G1; symmetry in G1; apply app_eq_nil in G1; apply G1).
    set (seen := view (src_buffer st) ++ new) in *. assert (Hrest1 : rest = seen ++ d1) by (unfold seen; rewrite <- app_assoc, <- G1; assumption).
    split; [lia|]. split; [lia|]. destruct r as [out|x].
    - destruct H4 as (-> & H4 & H5 & _ & H6). rewrite Nat.sub_0_r in *.
      assert (Hsplit : rest = out ++ view b' ++ d1) by (rewrite app_assoc, H4, H5, firstn_skipn; assumption).
      assert (Hle : length out <= n) by (rewrite H4, firstn_length; lia).
      assert (Hlr : length rest = length out + length (view b' ++ d1)) by (rewrite Hsplit at 1; apply app_length).
      exists (view b' ++ d1). split; [assumption|]. split; [eapply ready_with; eauto; lia|]. split; [assumption|].
      assert (Hshort : length out < n -> view b' ++ d1 <> [] -> ~ fits (S (length out))).
      { intros Hn Hr. destruct H6 as [H6|(_ & H6 & [H7|H7])]; [lia| |assumption]. exfalso. rewrite (G4 H7), app_nil_r in Hrest1.
        rewrite (G4 H7), app_nil_r in Hr. rewrite H5 in Hr. apply Hr. rewrite H4 in Hn. rewrite firstn_length in Hn. apply skipn_all2. lia. }
      split.
      + intros Hfit. rewrite Hsplit, firstn_app. destruct (Nat.eq_dec (length out) n) as [<-|Hn].
        { rewrite firstn_all, Nat.sub_diag, app_nil_r. reflexivity. }
        destruct (view b' ++ d1) as [|y l] eqn:Hl; [rewrite firstn_nil, app_nil_r, firstn_all2 by lia; reflexivity|].
        exfalso. apply Hshort; [lia|discriminate|]. eapply (q_fits Q); [|exact Hfit]. rewrite Hlr. cbn [length]. lia.
      + intros ->. destruct n as [|n]; [auto|right]. destruct (view b' ++ d1) as [|y l]; [assumption|]. exfalso. apply Hshort; [cbn; lia|discriminate|exact Hone].
    - destruct H4 as (-> & H4 & H5). assert (He : 1 <= e) by (destruct e; [exfalso|]; lia). split; [|lia]. eapply ready_with; eauto. rewrite H4. exact Hrest1.
  Qed.

  Lemma ready_fill_buf : forall st rest d e, ready st rest d e -> exists st' r d1 e1, src_fill_buf ds ops st = Done (st', r) /\ length d1 <= length d /\ e1 <= e /\ ready st' rest d1 e1 /\
    match r with
    | IoErr _ => e1 < e
    | IoOk out => out = view (src_buffer st') /\ (out = [] -> src_capacity ops st = 0 \/ rest = []) /\
        (fits (Nat.min (src_capacity ops st) (length rest)) -> Nat.min (src_capacity ops st) (length rest) <= length out)
    end.
  Proof.
    intros st rest d e Hst. pose proof Hst as [Hi Hd Hrest _ _ _].
    destruct (src_fill_buf_spec Q Ho st Hi) as (b' & s' & new & k & en & r & H1 & H2 & H3 & H4 & H5).
    destruct (reads_delivers HR H1 _ _ Hd) as (d1 & G1 & G2 & G3 & G4). exists (src_with st b' s'), r, d1, (e - k). split; [assumption|].
    assert (Hlen : length d = length new + length d1) by (rewrite G1, app_length; reflexivity).
    assert (Hrest1 : rest = view b' ++ d1) by (rewrite H4, <- app_assoc, <- G1; assumption).
    split; [lia|]. split; [lia|]. split.
    { eapply ready_with; eauto. intros Hd0; rewrite Hd0 in G1; symmetry in G1; apply app_eq_nil in G1; apply G1. }
    fold (src_capacity ops st) in H5. set (cap := src_capacity ops st) in *.
    destruct r as [out|x]; [|destruct H5; destruct e; lia]. destruct H5 as (-> & H5 & H6). cbn [src_with src_buffer]. split; [assumption|]. rewrite <- H5 in Hrest1.
    assert (Hlr : length rest = length out + length d1) by (rewrite Hrest1; apply app_length). split.
    - intros ->. cbn [length] in H6. destruct H6 as [H6|[H6|H6]]; [left; lia|right; rewrite Hrest1, (G4 H6); reflexivity|]. exfalso. apply H6. exact Hone.
    - intros Hfit. destruct H6 as [H6|[H6|H6]]; [lia|rewrite (G4 H6) in Hlr; cbn in Hlr; lia|].
      destruct (Nat.le_gt_cases (Nat.min cap (length rest)) (length out)) as [Hle|Hgt]; [assumption|]. exfalso. apply H6. eapply (q_fits Q); [|exact Hfit]. lia.
  Qed.

  Lemma ready_consume : forall k st rest d e, ready st rest d e -> k <= length (view (src_buffer st)) ->
    exists st' l rest', src_consume ops k st = Done st' /\ rest = l ++ rest' /\ length l = k /\ ready st' rest' d e.
  Proof.
    intros k st rest d e Hst Hk. pose proof Hst as [Hi Hd Hrest _ _ _]. destruct (src_consume_spec Q st Hi Hk) as (b' & H1 & H2 & H3).
    exists (src_with st b' (src_source st)), (firstn k (view (src_buffer st))), (view b' ++ d). split; [exact H1|].
    assert (Hs : rest = firstn k (view (src_buffer st)) ++ view b' ++ d) by (rewrite H3, app_assoc, firstn_skipn; assumption).
    split; [assumption|]. split; [rewrite firstn_length; lia|]. eapply ready_with; eauto. rewrite Hs, !app_length. lia.
  Qed.

  Lemma explained : forall T E (p : sparser W I T E) w rest rest' out out', suits_w fits rest w p -> rest <> [] -> whole rest (showing p w (mkInput true rest)) rest' out' -> same out out' ->
    explains fits (Asked p (plain out)) rest w rest' (shown w out).
  Proof.
    intros T E p w rest rest' out out' Hsw H0 H4 H5. unfold showing in H4.
    pose proof (sw_tentative Hsw (mkInput true rest)) as Ht.
    destruct (p w (mkInput true rest)) as [[j v|b x|n| |] w1] eqn:Hpw; cbn [whole] in H4; try contradiction; destruct H4 as [-> ->]; cbn [same] in H5.
    + destruct out as [[v2 w2]|[]]; try discriminate. injection H5 as -> ->. cbn [plain shown]. cbn. split; [assumption|]. exists j. auto.
    + destruct out as [|[b2 [x2 w2]| | | |]]; try discriminate. destruct H5 as [Hx [c Hc]]. injection Hx as -> ->. cbn [plain shown]. cbn. split; [assumption|]. split; [assumption|]. exists c. exact Hc.
    + destruct out as [[v2 w2]|[|m| | |]]; try discriminate. injection H5 as ->. cbn [plain shown fst snd] in *. rewrite (Ht n eq_refl) in Hpw. cbn. repeat (split; [solve [auto]|]). exists n. split; [assumption|lia].
  Qed.

  Lemma ready_asked : forall T E (p : sparser W I T E) st rest d e w, ready st rest d e -> suits_w fits rest w p ->
    (fst (src_parse_w ds ops p st w) = Panicked /\ rest <> [] /\ fst (p w (mkInput true rest)) = Panic) \/
    exists st' r w' rest' d' e', src_parse_w ds ops p st w = (Done (st', r), w') /\ explains fits (Asked p r) rest w rest' w' /\ ready st' rest' d' e' /\
      length d' <= length d /\ e' <= e.
  Proof.
    intros T E p st rest d e w Hst Hsw. pose proof (showing_suits Hsw) as Hsu. pose proof (src_agree ds ops st (sw_tentative Hsw)) as A.
    assert (Hp : showing p w (mkInput true rest) = showing p w (mkInput true rest)) by reflexivity. unfold showing at 1 in Hp.
    destruct (ready_parse Q Ho HR Hst Hsu) as [(st' & r & d' & e' & H1 & H2 & H3 & H4 & H5 & _)|[(H0 & st' & d' & H1 & H2 & H3 & _)|[(H0 & H1 & H2)|(H0 & st' & d' & out & rest' & out' & H1 & H2 & H3 & _ & H4 & H5)]]].
    - right. rewrite H1 in A. cbn [agree] in A. exists st', (plain r), (shown w r), rest, d', e'. split; [assumption|]. split; [|auto].
      destruct H2 as [->|[x ->]]; cbn; auto.
    - right. rewrite H1 in A. cbn [agree plain shown] in A. exists st', (inr SEndOfInput), w, rest, d', e. split; [assumption|]. split; [|auto]. cbn. auto.
    - left. rewrite H2 in A. cbn [agree] in A. split; [assumption|]. split; [assumption|]. rewrite H1 in Hp. destruct (p w (mkInput true rest)) as [[]]; try discriminate. reflexivity.
    - right. rewrite H1 in A. cbn [agree] in A. exists st', (plain out), (shown w out), rest', d', e. split; [assumption|]. split; [|auto].
      eapply explained; eauto.
  Qed.

  Lemma ready_crash : forall T E (p : sparser W I T E) st rest d e w st1 w1, ready st rest d e -> suits_w fits rest w p -> src_parse_crash ds ops p st w = Some (st1, w1) ->
    src_parse_w ds ops p st w = (Panicked, w1) /\ rest <> [] /\ p w (mkInput true rest) = (Panic, w1) /\
    exists d' e', ready st1 rest d' e' /\ length d' <= length d /\ e' <= e.
  Proof.
    intros T E p st rest d e w st1 w1 Hst Hsw H. unfold src_parse_crash in H. unfold src_parse_w.
    assert (Hf : forall st2 n, (if src_incomplete st && src_auto st then src_fill ds ops st else Done (st, IoOk 0)) = Done (st2, IoOk n) ->
      exists d' e', ready st2 rest d' e' /\ length d' <= length d /\ e' <= e).
    { intros st2 n Hc. destruct (src_incomplete st && src_auto st).
      - destruct (ready_fill Q Ho HR Hst) as (st3 & r & d' & e' & H1 & H2 & H3 & H4 & _). rewrite Hc in H1. injection H1 as <- <-. eauto.
      - injection Hc as <- <-. eauto. }
    destruct (if src_incomplete st && src_auto st then src_fill ds ops st else Done (st, IoOk 0)) as [[st2 [n|x]]| | |]; try discriminate H.
    destruct (Hf st2 n eq_refl) as (d' & e' & Hr & Hd & He). clear Hf. destruct (src_is_empty ops st2) as [[]| | |] eqn:Hem; try discriminate H.
    destruct (op_deref ops (src_buffer st2)) as [data| | |] eqn:Hde; try discriminate H. destruct (p w (mkInput (src_eoi st2) data)) as [r2 w2] eqn:Hp.
    destruct r2; try discriminate H. injection H as -> ->. split; [reflexivity|].
    pose proof Hr as [Hi1 _ Hrest1 He1 _ _]. rewrite (q_deref Q _ Hi1) in Hde. injection Hde as <-.
    assert (G : rest <> [] /\ p w (mkInput true rest) = (Panic, w1)); [|destruct G; eauto 8].
    destruct (src_eoi st1) eqn:Heoi.
    - destruct (He1 eq_refl) as [-> _]. rewrite app_nil_r in Hrest1. rewrite Hrest1. split; [|assumption]. unfold src_is_empty, src_len in Hem. rewrite Heoi, (q_len Q _ Hi1) in Hem.
      intros F. rewrite F in Hem. discriminate Hem.
    - pose proof (sw_firm Hsw (view (src_buffer st1)) true d') as Hfi. rewrite Hp in Hfi. cbn [upholds_w] in Hfi. rewrite <- Hrest1 in Hfi. split; [|assumption].
      intros F. destruct (sw_needs_input Hsw F) as [k Hk]. rewrite F in Hrest1. symmetry in Hrest1. apply app_eq_nil in Hrest1. destruct Hrest1 as [F1 _]. rewrite F1 in Hp. rewrite Hp in Hk. discriminate Hk.
  Qed.

  Lemma ready_crashes : forall T E (p : sparser W I T E) st rest d e w, ready st rest d e -> suits_w fits rest w p -> fst (src_parse_w ds ops p st w) = Panicked ->
    exists st1 w1, src_parse_crash ds ops p st w = Some (st1, w1).
  Proof.
    intros T E p st rest d e w Hst Hsw H. destruct (ready_asked Hst Hsw) as [(_ & Hne & Hall)|(st' & r & w' & _ & _ & _ & G & _)]; [|rewrite G in H; discriminate H].
    unfold src_parse_crash. unfold src_parse_w in H.
    assert (Hf : exists st2 r d', (if src_incomplete st && src_auto st then src_fill ds ops st else Done (st, IoOk 0)) = Done (st2, r) /\ exists e', ready st2 rest d' e').
    { destruct (src_incomplete st && src_auto st); [|eauto 8]. destruct (ready_fill Q Ho HR Hst) as (st3 & r & d' & e' & H1 & H2 & _). eauto 8. }
    destruct Hf as (st2 & r & d' & Hf & e' & Hr). rewrite Hf in *. destruct r as [n|x]; [|discriminate H].
    pose proof Hr as [Hi1 _ Hrest1 He1 _ _]. unfold src_is_empty, src_len in *. rewrite (q_len Q _ Hi1) in *. cbn [run_bind] in *.
    destruct (if src_eoi st2 then Done (length (view (src_buffer st2)) =? 0) else Done false) as [[]| | |] eqn:Hem; try discriminate H; [|destruct (src_eoi st2); discriminate Hem..].
    rewrite (q_deref Q _ Hi1) in *. destruct (p w (mkInput (src_eoi st2) (view (src_buffer st2)))) as [r2 w2] eqn:Hp.
    assert (Hu : r2 = Panic \/ exists k, r2 = Incomplete k).
    { destruct (src_eoi st2) eqn:Heoi.
      - destruct (He1 eq_refl) as [-> _]. rewrite app_nil_r in Hrest1. rewrite <- Hrest1 in Hp. rewrite Hp in Hall. auto.
      - pose proof (sw_firm Hsw (view (src_buffer st2)) true d') as Hfi. rewrite Hp in Hfi. rewrite <- Hrest1 in Hfi. destruct r2; eauto; cbn [upholds_w] in Hfi; try (rewrite Hfi in Hall; discriminate Hall).
        exfalso. eapply (sw_decides Hsw). rewrite Hp. reflexivity. }
    destruct Hu as [->|[k ->]]; [eauto|]. destruct (src_eoi st2); discriminate H.
  Qed.

  Lemma insist_asked : forall T E (p : sparser W I T E) st rest d e w fuel, ready st rest d e -> suits_w fits rest w p -> 2 * length d + e + 1 < fuel ->
    (exists st1 r w1 rest1, insist_w ds ops fuel p (src_set_autofill true st) w = (Done (st1, r), w1) /\ ~ again r /\ explains fits (Asked p r) rest w rest1 w1) \/
    (fst (insist_w ds ops fuel p (src_set_autofill true st) w) = Panicked /\ rest <> [] /\ fst (p w (mkInput true rest)) = Panic).
  Proof.
    intros T E p st rest d e w fuel Hr Hsw Hf. pose proof (showing_suits Hsw) as Hsu. pose proof (ready_stands Hr) as Hst. pose proof (insist_agree ds ops (sw_tentative Hsw) fuel (src_set_autofill true st)) as A.
    assert (Hm : measure view (src_set_autofill true st) d e < fuel) by (unfold measure; destruct (_ && _); lia).
    destruct (insist_spec Q Ho HR Hst Hsu Hm) as [(H1 & st' & d' & e' & H2 & _)|[(H1 & H2 & H3)|(H1 & st' & d' & e' & out & rest' & out' & H2 & H3 & H4 & H5 & H6 & H7)]].
    - left. rewrite H2 in A. cbn [agree plain shown] in A. exists st', (inr SEndOfInput), w, []. split; [assumption|]. split; [intros [F|[x F]]; discriminate|]. cbn. auto.
    - right. rewrite H3 in A. cbn [agree] in A. split; [assumption|]. split; [assumption|]. unfold showing in H2. destruct (p w (mkInput true rest)) as [[]]; try discriminate. reflexivity.
    - left. rewrite H2 in A. cbn [agree] in A. exists st', (plain out), (shown w out), rest'. split; [assumption|]. split; [|eapply explained; eauto].
      assert (N : ~ again out) by (eapply not_again; eauto). intros [F|[x F]]; destruct out as [[]|[? []| | | |]]; try discriminate F; apply N; unfold again; eauto.
  Qed.

  Lemma use_step : forall (ev : event W I) st w st' w' rest d e, ready st rest d e -> fair fits ev rest w -> happens ds ops ev st w st' w' ->
    exists rest' d' e', explains fits ev rest w rest' w' /\ ready st' rest' d' e' /\ length d' <= length d /\ e' <= e.
  Proof.
    intros ev st w st' w' rest d e Hst Hf H. pose proof Hst as [Hi Hd Hrest He _ _].
    assert (Hpre : begins (view (src_buffer st)) rest) by (exists d; assumption).
    destruct H as [T E p r st w st' w' H|T E p st w st' w' H|r st w st' H|n r st w st' H|r st w st' H|n l st w st' Hv Hn H|l n b st w Hv Hl Hb|st w|v st w|f st w]; cbn [fair] in Hf.
    - destruct (ready_asked Hst Hf) as [[H1 _]|(st2 & r2 & w2 & rest' & d' & e' & H1 & H2 & H3 & H4 & H5)]; [rewrite H in H1; discriminate|].
      rewrite H in H1. injection H1 as <- <- <-. eauto 8.
    - destruct (ready_crash Hst Hf H) as (_ & H1 & H2 & d' & e' & H3 & H4 & H5). exists rest, d', e'. split; [cbn; auto|auto].
    - destruct (ready_fill Q Ho HR Hst) as (st2 & r2 & d' & e' & H1 & H2 & H3 & H4 & _). rewrite H in H1. injection H1 as <- <-. exists rest, d', e'. split; [cbn; auto|auto].
    - destruct (ready_read n Hst) as (st2 & r2 & d' & e' & H1 & H2 & H3 & H4). rewrite H in H1. injection H1 as <- <-. destruct r as [out|x].
      + destruct H4 as (rest' & G1 & G2 & G3 & G4 & G5). exists rest', d', e'. clear Hrest Hpre; subst rest. split; [cbn; auto 8|auto].
      + exists rest, d', e'. split; [cbn; auto|]. destruct H4. auto.
    - destruct (ready_fill_buf Hst) as (st2 & r2 & d' & e' & H1 & H2 & H3 & H4 & H5). rewrite H in H1. injection H1 as <- <-. exists rest, d', e'. split; [|auto]. clear Hrest Hpre. destruct r as [out|x].
      + destruct H5 as (G1 & G2 & G3). cbn. repeat (split; [solve [auto]|]). split; [|auto]. subst out. exists d'. apply (rd_rest H4).
      + cbn. auto.
    - unfold src_view in Hv. rewrite (q_deref Q _ Hi) in Hv. injection Hv as <-. destruct (ready_consume Hst Hn) as (st2 & l & rest' & G1 & -> & <- & G4). rewrite H in G1. injection G1 as <-.
      exists rest', d, e. split; [|auto]. cbn. rewrite app_length, skipn_app, skipn_all, Nat.sub_diag. repeat split. lia.
    - unfold src_view in Hv. rewrite (q_deref Q _ Hi) in Hv. injection Hv as <-. unfold src_is_empty in Hb. unfold src_len in *. rewrite (q_len Q _ Hi) in *. injection Hl as <-.
      exists rest, d, e. split; [|auto]. cbn. repeat (split; [solve [auto]|]). intros ->. destruct (src_eoi st); [|discriminate]. destruct (He eq_refl) as [-> _]. cbn in Hb. injection Hb as Hb.
      apply Nat.eqb_eq in Hb. destruct (view (src_buffer st)); [assumption|discriminate].
    - exists rest, d, e. split; [cbn; auto|]. split; [apply ready_reset; assumption|auto].
    - exists rest, d, e. split; [cbn; auto|]. split; [apply ready_autofill; assumption|auto].
    - exists rest, d, e. split; [cbn; auto|auto].
  Qed.

  Lemma use_steps : forall (es : list (event W I)) st w st' w', happen ds ops es st w st' w' -> forall rest d e, ready st rest d e -> all_fair fits es rest w ->
    exists rest' d' e', explain fits es rest w rest' w' /\ ready st' rest' d' e' /\ length d' <= length d /\ e' <= e.
  Proof.
    intros es st w st' w' H. induction H as [st w|ev es st w st1 w1 st2 w2 H1 H IH]; intros rest d e Hst Hf.
    - exists rest, d, e. split; [apply exs_nil|auto].
    - destruct Hf as [Hf1 Hf2]. destruct (use_step Hst Hf1 H1) as (rest1 & d1 & e1 & G1 & G2 & G3 & G4).
      destruct (IH rest1 d1 e1 G2 (Hf2 _ _ G1)) as (rest2 & d2 & e2 & J1 & J2 & J3 & J4). exists rest2, d2, e2. split; [eapply exs_cons; eauto|]. split; [assumption|lia].
  Qed.
End Use.

(** The state left by a panic, as in the model of caught panics. *)
Lemma crash_caught : forall W St I B T E m (ds : data_source St I) (u : u_ops I B) (o o' : buffer_ops I B) inv small (p : sparser W I T E) st w st' w',
  same_ops u o -> ops_fit m o o' inv small -> inv (src_buffer st) -> small (src_buffer st') -> src_parse_crash ds o' p st w = Some (st', w') ->
  u_src_parse m (calm ds) u (fun i => fst (p w i)) st = Unwinds st'.
Proof.
  intros W St I B T E m ds u o o' inv small p st w st' w' S F Hi Hs H. unfold src_parse_crash in H. unfold u_src_parse.
  assert (Hf : forall st2 n, (if src_incomplete st && src_auto st then src_fill ds o' st else Done (st, IoOk 0)) = Done (st2, IoOk n) -> small (src_buffer st2) ->
    inv (src_buffer st2) /\ (if src_incomplete st && src_auto st then u_src_fill m (calm ds) u st else Returns st (IoOk 0)) = Returns st2 (IoOk n)).
  { intros st2 n Hc Hs2. destruct (src_incomplete st && src_auto st); [|injection Hc as <- <-; auto].
    destruct (fill_fit ds F st Hi Hc) as (Hi2 & _ & Hw). split; [exact Hi2|]. destruct (Hw Hs2) as [_ Hw2].
    pose proof (same_fill m ds S st) as Hu. rewrite Hw2 in Hu. destruct (u_src_fill m (calm ds) u st); try discriminate Hu. injection Hu as -> ->. reflexivity. }
  destruct (if src_incomplete st && src_auto st then src_fill ds o' st else Done (st, IoOk 0)) as [[st2 [n|x]]| | |]; try discriminate H.
  destruct (src_is_empty o' st2) as [[]| | |] eqn:Hem; try discriminate H. destruct (op_deref o' (src_buffer st2)) as [data| | |] eqn:Hde; try discriminate H.
  destruct (p w (mkInput (src_eoi st2) data)) as [r2 w2] eqn:Hp. destruct r2; try discriminate H. injection H as -> ->.
  destruct (Hf st' n eq_refl Hs) as [Hi2 ->]. cbn [on_part].
  assert (He : u_src_is_empty u st' = Done false).
  { rewrite (same_is_empty S). unfold src_is_empty, src_len in *. destruct (src_eoi st'); [|reflexivity]. apply bind_inv in Hem. destruct Hem as (l & Hl & Hem).
    destruct (of_len F _ Hi2 Hs Hl) as [-> _]. exact Hem. }
  rewrite He. cbn [at_state]. rewrite (so_deref S), (of_deref F), Hde. cbn [at_state]. rewrite Hp. reflexivity.
Qed.
