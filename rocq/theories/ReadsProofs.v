(** Proofs about the reads of a Source. *)
From Coq Require Import List Bool Arith Lia.
From Verif Require Import Base Buffer Stream SpecBase SpecBuffer SpecSafe SpecStream SpecReads BufferProofs StreamProofs SimProofs.
Import ListNotations.

Set Implicit Arguments.

Lemma traced_obeys : forall St I (ds : data_source St I), obeys ds -> obeys (traced ds).
Proof.
  intros St I ds H s n s' w k Hr. unfold traced in Hr. cbn [ds_read] in Hr. destruct (ds_read ds (tr_state s) n) as [[s1 w1] r1] eqn:E.
  inversion Hr; subst. eapply H. exact E.
Qed.

Section Reads.
  Context {St I B : Type}.
  Variable ds : data_source St I.
  Variables (ops : buffer_ops I B) (inv : B -> Prop) (view : B -> list I) (room : B -> nat) (fits : nat -> Prop).
  Hypothesis Q : queue_like ops inv view room fits.
  Hypothesis Ho : obeys ds.

  Let Ht : obeys (traced ds) := traced_obeys Ho.

  (** [cs]: calls, each made when the items [l] had been got, fewer than [request] being there. *)
  Definition short_calls (t : trace St I) (v : list I) (request : nat) (cs : list (list I * nat)) : Prop :=
    forall items n, In (items, n) cs -> exists l, items = tr_items t ++ l /\ length (v ++ l) < request /\ (fits (S (length (v ++ l))) -> 0 < n).

  Lemma short_calls_later : forall t v request cs t1 v1 new, short_calls t1 v1 request cs -> tr_items t1 = tr_items t ++ new -> v1 = v ++ new ->
    short_calls t v request cs.
  Proof.
    intros t v request cs t1 v1 new H Hi -> items n Hin. destruct (H _ _ Hin) as (l & H1 & H2 & H3). exists (new ++ l).
    rewrite (app_assoc v). split; [rewrite H1, Hi, app_assoc; reflexivity|]. split; assumption.
  Qed.

  Lemma fill_loop_calls : forall fuel request read b s b' s' r, inv b ->
    (forall j, length (view b) + j <= request -> fits (length (view b) + j) -> j <= room b) ->
    fill_loop (traced ds) ops fuel request read b s = Done (b', s', r) ->
    inv b' /\ exists new cs, called s s' cs /\ tr_items s' = tr_items s ++ new /\ view b' = view b ++ new /\ short_calls s (view b) request cs /\
      match r with IoErr _ => length (view b') < request | IoOk _ => True end.
  Proof.
    induction fuel as [|fuel IH]; intros request read b s b' s' r Hi Hroom H; cbn [fill_loop] in H; [discriminate|].
    rewrite (q_len Q b Hi) in H. cbn [run_bind] in H. destruct (Nat.ltb_spec (length (view b)) request) as [Hlt|Hge].
    - destruct (q_fill Q b Hi) as (q & Hq0 & Hq). destruct (ds_read (traced ds) s q) as [[s1 w] r1] eqn:Hr. destruct (Hq _ _ _ _ _ _ Ht Hr) as (b1 & Hfill & Hi1 & Hres).
      rewrite Hfill in H. cbn [run_bind] in H.
      assert (Hs1 : called s s1 [(tr_items s, q)] /\ tr_items s1 = tr_items s ++ match r1 with IoOk k => delivered w k | IoErr _ => [] end).
      { unfold traced in Hr. cbn [ds_read] in Hr. destruct (ds_read ds (tr_state s) q) as [[s2 w2] r2]. inversion Hr; subst. split; reflexivity. }
      destruct Hs1 as [Hc Hit].
      assert (Hone : short_calls s (view b) request [(tr_items s, q)]).
      { intros items n [Hin|[]]. inversion Hin; subst. exists []. rewrite !app_nil_r. split; [reflexivity|]. split; [assumption|]. intros Hf.
        apply Hq0, (Hroom 1); [lia|]. rewrite Nat.add_1_r. assumption. }
      destruct r1 as [k|e].
      + destruct Hres as [Hv Hro]. pose proof (delivered_length Ht _ _ Hr) as Hdl. destruct k as [|k].
        * inversion H; subst. split; [assumption|]. exists (delivered w 0), [(tr_items s, q)]. auto.
        * destruct (IH request (read + S k) b1 s1 b' s' r Hi1) as (Hi' & new & cs & H1 & H2 & H3 & H4 & H5).
          { intros j Hj Hf. rewrite Hv, app_length, Hdl in Hj, Hf. specialize (Hroom (S k + j)). rewrite Nat.add_assoc in Hroom. specialize (Hroom Hj Hf). lia. }
          { exact H. }
          split; [assumption|]. exists (delivered w (S k) ++ new), ((tr_items s, q) :: cs).
          split; [unfold called in *; rewrite H1, Hc, <- app_assoc; reflexivity|]. split; [rewrite H2, Hit, <- app_assoc; reflexivity|].
          split; [rewrite H3, Hv, <- app_assoc; reflexivity|]. split; [|assumption]. intros items n [Hin|Hin].
          { apply Hone. left. assumption. }
          { eapply short_calls_later; eauto. }
      + pose proof Hres as Hv. inversion H; subst. split; [assumption|]. exists [], [(tr_items s, q)]. rewrite app_nil_r in *. rewrite Hv, app_nil_r. auto.
    - inversion H; subst. split; [assumption|]. exists [], []. rewrite !app_nil_r. split; [unfold called; rewrite app_nil_r; reflexivity|]. split; [reflexivity|]. split; [reflexivity|].
      split; [intros items n []|exact Logic.I].
  Qed.

  Lemma fill_requested_calls : forall request st st' r, inv (src_buffer st) -> fill_requested (traced ds) ops request st = Done (st', r) ->
    inv (src_buffer st') /\ st' = src_with st (src_buffer st') (src_source st') /\
    exists new cs, called (src_source st) (src_source st') cs /\ tr_items (src_source st') = tr_items (src_source st) ++ new /\
      view (src_buffer st') = view (src_buffer st) ++ new /\ short_calls (src_source st) (view (src_buffer st)) request cs /\
      match r with IoErr _ => length (view (src_buffer st')) < request | IoOk _ => True end.
  Proof.
    intros request st st' r Hi H. unfold fill_requested in H. rewrite (q_len Q _ Hi) in H. cbn [run_bind] in H.
    destruct (Nat.ltb_spec (length (view (src_buffer st))) request) as [Hlt|Hge].
    - rewrite usize_sub_ok in H by lia. cbn [run_bind] in H.
      destruct (q_request Q _ (request - length (view (src_buffer st))) Hi) as (b1 & Hr & Hi1 & Hv1 & Hroom). rewrite Hr in H. cbn [run_bind] in H.
      destruct (fill_loop (traced ds) ops (S (request - length (view (src_buffer st)))) request 0 b1 (src_source st)) as [[[b' s'] r']| | |] eqn:Hl; try discriminate.
      cbn [run_bind] in H. inversion H; subst. cbn [src_with src_buffer src_source].
      destruct (@fill_loop_calls _ request 0 b1 _ _ _ _ Hi1 ltac:(rewrite Hv1; intros j Hj Hf; apply Hroom; [lia|assumption]) Hl) as (Hi' & new & cs & H1 & H2 & H3 & H4 & H5).
      split; [assumption|]. split; [reflexivity|]. exists new, cs. rewrite Hv1 in *. auto.
    - inversion H; subst. split; [assumption|]. split; [destruct st'; reflexivity|]. exists [], []. rewrite !app_nil_r. unfold called. rewrite app_nil_r.
      repeat split. intros items n [].
  Qed.

  Lemma src_fill_calls : forall st st' r, inv (src_buffer st) -> src_fill (traced ds) ops st = Done (st', r) ->
    let req := Nat.max 1 (src_request st) in
    inv (src_buffer st') /\ src_request st' = src_request st /\ src_auto st' = src_auto st /\
    exists new cs, called (src_source st) (src_source st') cs /\ tr_items (src_source st') = tr_items (src_source st) ++ new /\
      view (src_buffer st') = view (src_buffer st) ++ new /\ short_calls (src_source st) (view (src_buffer st)) req cs /\
      match r with
      | IoErr _ => length (view (src_buffer st')) < req /\ src_incomplete st' = src_incomplete st
      | IoOk _ => src_incomplete st' = false
      end.
  Proof.
    intros st st' r Hi H req. unfold src_fill in H. fold req in H. destruct (fill_requested (traced ds) ops req st) as [[st1 r1]| | |] eqn:Hf; try discriminate. cbn [run_bind] in H.
    destruct (fill_requested_calls _ _ Hi Hf) as (Hi1 & Hst1 & new & cs & H1 & H2 & H3 & H4 & H5).
    assert (Hkeep : src_request st1 = src_request st /\ src_auto st1 = src_auto st /\ src_incomplete st1 = src_incomplete st) by (rewrite Hst1; repeat split).
    destruct Hkeep as (K1 & K2 & K3). destruct r1 as [m|x].
    - rewrite (q_len Q _ Hi1) in H. cbn [run_bind] in H. inversion H; subst st' r. cbn [src_source src_buffer src_request src_incomplete src_auto].
      split; [assumption|]. split; [assumption|]. split; [assumption|]. exists new, cs. auto.
    - inversion H; subst st' r. split; [assumption|]. split; [assumption|]. split; [assumption|].
      exists new, cs. repeat split; assumption.
  Qed.

  (** [p] has been asked and waits for items (or the Source is new). *)
  Definition waits {T E} (p : parser I T E) (st : src (trace St I) B) : Prop :=
    (src_request st = 0 /\ view (src_buffer st) = [] /\ tr_items (src_source st) = []) \/
    exists d c m, view (src_buffer st) = d ++ c /\ p (mkInput false d) = Incomplete m /\ src_request st = length d + m.

  (** Every one of the calls was needed by [p], or was the first one. *)
  Definition needed {T E} (p : parser I T E) (t : trace St I) (v : list I) (cs : list (list I * nat)) : Prop :=
    forall items n, In (items, n) cs -> exists l, items = tr_items t ++ l /\ (items = [] \/ exists m, p (mkInput false (v ++ l)) = Incomplete m) /\
      (fits (S (length (v ++ l))) -> 0 < n).

  Lemma waits_needed : forall T E (p : parser I T E) st cs, stable p -> well_behaved p -> waits p st ->
    short_calls (src_source st) (view (src_buffer st)) (Nat.max 1 (src_request st)) cs -> needed p (src_source st) (view (src_buffer st)) cs.
  Proof.
    intros T E p st cs Hs Hw Hwait H items n Hin. destruct (H _ _ Hin) as (l & H1 & H2 & H3). exists l. split; [assumption|]. split; [|assumption].
    destruct Hwait as [(W1 & W2 & W3)|(d & c & m & W1 & W2 & W3)].
    - left. rewrite W1, W2 in H2. cbn [app Nat.max] in H2. rewrite H1, W3. destruct l; [reflexivity|cbn [length] in H2; lia].
    - right. rewrite W1, W3 in H2. rewrite W1, <- app_assoc. pose proof (Hs d false (c ++ l)) as Hu. rewrite W2 in Hu. cbn [upholds] in Hu. apply Hu; [reflexivity|].
      pose proof (Hw (mkInput false d)) as Hh. rewrite W2 in Hh. cbn [honest] in Hh. rewrite <- app_assoc, app_length in H2. lia.
  Qed.

  Definition ready {T E} (p : parser I T E) (st : src (trace St I) B) : Prop :=
    inv (src_buffer st) /\ src_auto st = true /\ (src_incomplete st = true -> waits p st).

  (** One call of [parse]. *)
  Lemma parse_calls : forall T E (p : parser I T E) st st' r, stable p -> well_behaved p -> ready p st -> src_parse (traced ds) ops p st = Done (st', r) ->
    ready p st' /\ (exists cs new, called (src_source st) (src_source st') cs /\ tr_items (src_source st') = tr_items (src_source st) ++ new /\
      needed p (src_source st) (view (src_buffer st)) cs /\
      match r with
      | inr SRetry | inr (SIoError _) => view (src_buffer st') = view (src_buffer st) ++ new
      | _ => src_incomplete st' = false
      end).
  Proof.
    intros T E p st st' r Hs Hw (Hi & Ha & Hwait) Hp.
    destruct (src_parse_spec Q Ht st Hi Hw) as [(st1 & x & H1 & H2 & H3 & H4)|(st1 & H1 & H2)].
    { rewrite Hp in H4. inversion H4; subst st1 r. clear H4. destruct (src_fill_calls _ Hi H3) as (G1 & G2 & G3 & new & cs & G4 & G5 & G6 & G7 & G8 & G9).
      specialize (Hwait H1). split.
      - split; [assumption|]. split; [congruence|]. intros _. destruct Hwait as [(W1 & W2 & W3)|(d & c & m & W1 & W2 & W3)].
        + left. rewrite G2. split; [assumption|]. rewrite W1 in G8. cbn [Nat.max] in G8. assert (Hn : new = []) by (rewrite G6, W2 in G8; destruct new; [reflexivity|cbn in G8; lia]).
          rewrite G6, G5, W2, W3, Hn. auto.
        + right. exists d, (c ++ new), m. rewrite G6, W1, app_assoc, G2. auto.
      - exists cs, new. split; [assumption|]. split; [assumption|]. split; [|assumption]. apply waits_needed; assumption. }
    assert (Hst1 : inv (src_buffer st1) /\ src_auto st1 = true /\ src_incomplete st1 = false /\ exists cs new, called (src_source st) (src_source st1) cs /\
      tr_items (src_source st1) = tr_items (src_source st) ++ new /\ view (src_buffer st1) = view (src_buffer st) ++ new /\ needed p (src_source st) (view (src_buffer st)) cs).
    { destruct (src_incomplete st) eqn:Hinc.
      - rewrite Ha in H1. cbn [andb] in H1. destruct H1 as [m H1]. destruct (src_fill_calls _ Hi H1) as (G1 & G2 & G3 & new & cs & G4 & G5 & G6 & G7 & G8).
        split; [assumption|]. split; [congruence|]. split; [assumption|]. exists cs, new. split; [assumption|]. split; [assumption|]. split; [assumption|]. apply waits_needed; auto.
      - cbn [andb] in H1. subst st1. split; [assumption|]. split; [assumption|]. split; [assumption|]. exists [], []. unfold called. rewrite !app_nil_r. repeat split. intros items n []. }
    destruct Hst1 as (Hi1 & Ha1 & Hinc1 & cs & new & C1 & C2 & C3 & C4). clear H1. cbn zeta in H2.
    destruct H2 as [(H2 & H3 & H4)|[_ [(H3 & H4)|[(H3 & H4)|(st2 & out & H3 & H4 & H5 & H6 & H7 & H8)]]]]; try congruence.
    - rewrite Hp in H4. inversion H4; subst st1 r. split; [|exists cs, new; auto]. split; [assumption|]. split; [assumption|]. congruence.
    - rewrite Hp in H3. inversion H3; subst st2 out. rewrite H5. destruct (p (mkInput (src_eoi st1) (view (src_buffer st1)))) as [j v|b e|m| |] eqn:Hr; cbn [answer] in H8; try contradiction.
      + destruct H8 as (-> & H8 & H9 & H10). split; [split; [assumption|]; split; congruence|]. exists cs, new. repeat split; auto; congruence.
      + destruct H8 as (-> & H8 & H9 & H10). split; [split; [assumption|]; split; congruence|]. exists cs, new. repeat split; auto; congruence.
      + destruct H8 as (H8 & H9 & H10). destruct (src_eoi st1).
        * destruct H10 as [-> H10]. split; [split; [assumption|]; split; congruence|]. exists cs, new. repeat split; auto; congruence.
        * destruct H10 as [-> H10]. split.
          { split; [assumption|]. split; [congruence|]. intros _. right. exists (view (src_buffer st1)), [], m. rewrite H8, app_nil_r. auto. }
          exists cs, new. repeat split; auto; congruence.
  Qed.

  Lemma needed_later : forall T E (p : parser I T E) t v cs t1 v1 new, needed p t1 v1 cs -> tr_items t1 = tr_items t ++ new -> v1 = v ++ new -> needed p t v cs.
  Proof.
    intros T E p t v cs t1 v1 new H Hi -> items n Hin. destruct (H _ _ Hin) as (l & H1 & H2 & H3). exists (new ++ l). rewrite (app_assoc v).
    split; [rewrite H1, Hi, app_assoc; reflexivity|]. auto.
  Qed.

  Lemma insist_calls : forall T E (p : parser I T E), stable p -> well_behaved p -> forall fuel st st' r, ready p st -> insist (traced ds) ops fuel p st = Done (st', r) ->
    inv (src_buffer st') /\ src_auto st' = true /\ src_incomplete st' = false /\
    exists cs new, called (src_source st) (src_source st') cs /\ tr_items (src_source st') = tr_items (src_source st) ++ new /\ needed p (src_source st) (view (src_buffer st)) cs.
  Proof.
    intros T E p Hs Hw. induction fuel as [|fuel IH]; intros st st' r Hr H; cbn [insist] in H; [discriminate|].
    destruct (src_parse (traced ds) ops p st) as [[st1 r1]| | |] eqn:Hp; try discriminate. cbn [run_bind] in H.
    destruct (parse_calls Hs Hw Hr Hp) as (Hr1 & cs & new & C1 & C2 & C3 & C4).
    assert (Hgo : insist (traced ds) ops fuel p st1 = Done (st', r) -> view (src_buffer st1) = view (src_buffer st) ++ new ->
      inv (src_buffer st') /\ src_auto st' = true /\ src_incomplete st' = false /\
      exists cs new, called (src_source st) (src_source st') cs /\ tr_items (src_source st') = tr_items (src_source st) ++ new /\ needed p (src_source st) (view (src_buffer st)) cs).
    { intros Hgo Hv. destruct (IH _ _ _ Hr1 Hgo) as (G1 & G2 & G3 & cs2 & new2 & G4 & G5 & G6). split; [assumption|]. split; [assumption|]. split; [assumption|].
      exists (cs ++ cs2), (new ++ new2). unfold called in *. split; [rewrite G4, C1, app_assoc; reflexivity|]. split; [rewrite G5, C2, app_assoc; reflexivity|].
      intros items n Hin. apply in_app_or in Hin. destruct Hin as [Hin|Hin]; [apply C3; assumption|]. eapply needed_later; eauto. }
    destruct r1 as [v|[b e|m|x| |]]; try (inversion H; subst st1 r; destruct Hr1 as (R1 & R2 & R3); split; [assumption|]; split; [assumption|]; split; [assumption|]; exists cs, new; auto); auto.
  Qed.

  Lemma polite_ready : forall s0 b0 st, inv b0 -> view b0 = [] -> polite ds ops s0 b0 st -> forall T E (p : parser I T E), ready p st.
  Proof.
    intros s0 b0 st Hi Hv H. induction H as [|st fuel T E p st' r H IH Hs Hw Hins]; intros T' E' q.
    - split; [assumption|]. split; [reflexivity|]. intros _. left. auto.
    - destruct (insist_calls Hs Hw _ (IH _ _ p) Hins) as (G1 & G2 & G3 & _). split; [assumption|]. split; [assumption|]. congruence.
  Qed.
End Reads.

(** * Calls without reading *)
Section Quiet.
  Context {St I B : Type}.
  Variable ds : data_source St I.
  Variable ops : buffer_ops I B.

  Lemma parse_quiet : forall T E (p : parser I T E) st st' r, src_incomplete st && src_auto st = false -> src_parse ds ops p st = Done (st', r) -> src_source st' = src_source st.
  Proof.
    intros T E p st st' r Hia H. unfold src_parse in H. rewrite Hia in H. cbn [run_bind] in H.
    destruct (src_is_empty ops st) as [[]| | |]; try discriminate; cbn [run_bind] in H; [inversion H; reflexivity|].
    destruct (op_deref ops (src_buffer st)) as [data| | |]; try discriminate. cbn [run_bind] in H.
    destruct (p (mkInput (src_eoi st) data)) as [j v|b e|n| |]; try discriminate; destruct (op_len ops (src_buffer st)) as [l| | |]; try discriminate; cbn [run_bind] in H.
    - destruct (usize_sub l (length (buf j))) as [k| | |]; try discriminate; cbn [run_bind] in H. destruct (op_consume ops (src_buffer st) k); try discriminate. inversion H; reflexivity.
    - destruct (usize_sub l (length b)) as [k| | |]; try discriminate; cbn [run_bind] in H. destruct (op_consume ops (src_buffer st) k); try discriminate. inversion H; reflexivity.
    - destruct (src_eoi st); inversion H; reflexivity.
  Qed.

  Lemma fill_flags : forall st st' r, src_fill ds ops st = Done (st', r) ->
    src_auto st' = src_auto st /\ match r with IoOk _ => src_incomplete st' = false | IoErr _ => src_incomplete st' = src_incomplete st /\ src_eoi st' = src_eoi st end.
  Proof.
    intros st st' r H. unfold src_fill in H. destruct (fill_requested ds ops (Nat.max 1 (src_request st)) st) as [[st1 r1]| | |] eqn:Hf; try discriminate. cbn [run_bind] in H.
    assert (Hk : src_auto st1 = src_auto st /\ src_incomplete st1 = src_incomplete st /\ src_eoi st1 = src_eoi st).
    { unfold fill_requested in Hf. destruct (op_len ops (src_buffer st)) as [l| | |]; try discriminate. cbn [run_bind] in Hf. destruct (l <? Nat.max 1 (src_request st)); [|inversion Hf; auto].
      destruct (usize_sub (Nat.max 1 (src_request st)) l) as [k| | |]; try discriminate. cbn [run_bind] in Hf. destruct (op_request_space ops (src_buffer st) k) as [b| | |]; try discriminate. cbn [run_bind] in Hf.
      destruct (fill_loop ds ops (S k) (Nat.max 1 (src_request st)) 0 b (src_source st)) as [[[b2 s2] r2]| | |]; try discriminate. inversion Hf; subst. auto. }
    destruct Hk as (K1 & K2 & K3). destruct r1 as [m|x].
    - destruct (op_len ops (src_buffer st1)) as [l| | |]; try discriminate. inversion H; subst. auto.
    - inversion H; subst. auto.
  Qed.

  (** The flags after [parse]. *)
  Lemma parse_flags : forall T E (p : parser I T E) st st' r, src_parse ds ops p st = Done (st', r) -> (src_eoi st = true -> src_incomplete st = false) ->
    src_auto st' = src_auto st /\ (src_eoi st' = true -> src_incomplete st' = false) /\ (answered r -> src_auto st = true -> src_incomplete st' = false) /\ (over r -> src_eoi st' = true).
  Proof.
    intros T E p st st' r H Hinv. unfold src_parse in H.
    destruct (if src_incomplete st && src_auto st then src_fill ds ops st else Done (st, IoOk 0)) as [[st1 r1]| | |] eqn:Hf; try discriminate. cbn [run_bind] in H.
    assert (H1 : src_auto st1 = src_auto st /\ match r1 with IoOk _ => (src_eoi st1 = true -> src_incomplete st1 = false) /\ (src_auto st = true -> src_incomplete st1 = false)
      | IoErr _ => src_eoi st1 = true -> src_incomplete st1 = false end).
    { destruct (src_incomplete st && src_auto st) eqn:Hia.
      - destruct (fill_flags _ Hf) as [G1 G2]. split; [assumption|]. destruct r1; [auto|]. destruct G2 as [-> ->]. assumption.
      - inversion Hf; subst. split; [reflexivity|]. split; [assumption|]. intros Ha. rewrite Ha, andb_true_r in Hia. assumption. }
    destruct H1 as [Ha H1]. destruct r1 as [m|x]; [|inversion H; subst; repeat split; auto; intros []]. destruct H1 as [H1 H2].
    destruct (src_is_empty ops st1) as [e| | |] eqn:Hem; try discriminate. cbn [run_bind] in H. destruct e.
    { inversion H; subst. repeat split; auto. intros _. unfold src_is_empty in Hem. destruct (src_eoi st'); [reflexivity|discriminate]. }
    destruct (op_deref ops (src_buffer st1)) as [data| | |]; try discriminate. cbn [run_bind] in H.
    destruct (p (mkInput (src_eoi st1) data)) as [j v|b e|n| |]; try discriminate; destruct (op_len ops (src_buffer st1)) as [l| | |]; try discriminate; cbn [run_bind] in H.
    - destruct (usize_sub l (length (buf j))) as [k| | |]; try discriminate; cbn [run_bind] in H. destruct (op_consume ops (src_buffer st1) k); try discriminate. inversion H; subst.
      cbn [src_with src_auto src_eoi src_incomplete]. repeat split; auto; intros [].
    - destruct (usize_sub l (length b)) as [k| | |]; try discriminate; cbn [run_bind] in H. destruct (op_consume ops (src_buffer st1) k); try discriminate. inversion H; subst.
      cbn [src_with src_auto src_eoi src_incomplete]. repeat split; auto; intros [].
    - destruct (src_eoi st1) eqn:He; inversion H; subst; cbn [src_auto src_eoi src_incomplete]; repeat split; auto; try discriminate; intros [].
  Qed.

  Lemma history_flags : forall admits s0 b0 st out, history ds ops admits s0 b0 st out -> src_eoi st = true -> src_incomplete st = false.
  Proof.
    intros admits s0 b0 st out H. induction H as [|st out T E p st' r H IH Hw Had Hp|st out st' r H IH Hf|st out n st' r H IH Hr|st out st' r H IH Hr|st out l n st' H IH Hv Hn Hc|st out H IH|st out v H IH]; auto; try discriminate.
    - apply (parse_flags _ _ Hp IH).
    - destruct (fill_flags _ Hf) as [_ G]. destruct r; [auto|]. destruct G as [-> ->]. assumption.
    - assert (Hk : src_incomplete st' = src_incomplete st /\ src_eoi st' = src_eoi st).
      { unfold src_read in Hr. destruct (src_len ops st) as [l| | |]; try discriminate. cbn [run_bind] in Hr.
        destruct (if l <? n then fill_requested ds ops n st else Done (st, IoOk 0)) as [[st1 r1]| | |] eqn:Hf; try discriminate. cbn [run_bind] in Hr.
        assert (Hk : src_incomplete st1 = src_incomplete st /\ src_eoi st1 = src_eoi st).
        { destruct (l <? n); [|inversion Hf; auto]. unfold fill_requested in Hf. destruct (op_len ops (src_buffer st)) as [l1| | |]; try discriminate. cbn [run_bind] in Hf.
          destruct (l1 <? n); [|inversion Hf; auto]. destruct (usize_sub n l1) as [k| | |]; try discriminate. cbn [run_bind] in Hf. destruct (op_request_space ops (src_buffer st) k) as [b| | |]; try discriminate. cbn [run_bind] in Hf.
          destruct (fill_loop ds ops (S k) n 0 b (src_source st)) as [[[b2 s2] r2]| | |]; try discriminate. inversion Hf; subst. auto. }
        destruct r1 as [m|x]; [|inversion Hr; subst; assumption]. destruct (op_deref ops (src_buffer st1)) as [data| | |]; try discriminate. cbn [run_bind] in Hr.
        destruct (op_consume ops (src_buffer st1) (length (firstn n data))); try discriminate. inversion Hr; subst. exact Hk. }
      destruct Hk as [-> ->]. assumption.
    - assert (Hk : src_incomplete st' = src_incomplete st /\ src_eoi st' = src_eoi st).
      { unfold src_fill_buf in Hr. destruct (fill_requested ds ops (src_capacity ops st) st) as [[st1 r1]| | |] eqn:Hf; try discriminate. cbn [run_bind] in Hr.
        assert (Hk : src_incomplete st1 = src_incomplete st /\ src_eoi st1 = src_eoi st).
        { unfold fill_requested in Hf. destruct (op_len ops (src_buffer st)) as [l1| | |]; try discriminate. cbn [run_bind] in Hf.
          destruct (l1 <? src_capacity ops st); [|inversion Hf; auto]. destruct (usize_sub (src_capacity ops st) l1) as [k| | |]; try discriminate. cbn [run_bind] in Hf. destruct (op_request_space ops (src_buffer st) k) as [b| | |]; try discriminate. cbn [run_bind] in Hf.
          destruct (fill_loop ds ops (S k) (src_capacity ops st) 0 b (src_source st)) as [[[b2 s2] r2]| | |]; try discriminate. inversion Hf; subst. auto. }
        destruct r1 as [m|x]; [|inversion Hr; subst; assumption]. destruct (src_view ops st1) as [data| | |]; try discriminate. inversion Hr; subst. exact Hk. }
      destruct Hk as [-> ->]. assumption.
    - unfold src_consume in Hc. destruct (op_consume ops (src_buffer st) n); try discriminate. inversion Hc; subst. exact IH.
  Qed.

  Lemma parses_quiet : forall st st', parses ds ops st st' -> src_eoi st = true -> src_incomplete st = false -> src_source st' = src_source st /\ src_eoi st' = true /\ src_incomplete st' = false.
  Proof.
    intros st st' H. induction H as [st|st T E p st1 r st2 Hp H IH]; intros He Hi; [auto|].
    pose proof (parse_quiet p st) as Hq. rewrite Hi in Hq. specialize (Hq _ _ eq_refl Hp).
    destruct (parse_flags p _ Hp ltac:(auto)) as (_ & G1 & _ & _).
    assert (He1 : src_eoi st1 = true).
    { unfold src_parse in Hp. rewrite Hi in Hp. cbn [andb run_bind] in Hp. destruct (src_is_empty ops st) as [[]| | |]; try discriminate; cbn [run_bind] in Hp; [inversion Hp; subst; assumption|].
      destruct (op_deref ops (src_buffer st)) as [data| | |]; try discriminate. cbn [run_bind] in Hp.
      destruct (p (mkInput (src_eoi st) data)) as [j v|b e|n| |]; try discriminate; destruct (op_len ops (src_buffer st)) as [l| | |]; try discriminate; cbn [run_bind] in Hp.
      - destruct (usize_sub l (length (buf j))) as [k| | |]; try discriminate; cbn [run_bind] in Hp. destruct (op_consume ops (src_buffer st) k); try discriminate. inversion Hp; subst. assumption.
      - destruct (usize_sub l (length b)) as [k| | |]; try discriminate; cbn [run_bind] in Hp. destruct (op_consume ops (src_buffer st) k); try discriminate. inversion Hp; subst. assumption.
      - rewrite He in Hp. inversion Hp; subst. reflexivity. }
    destruct (IH He1 (G1 He1)) as (H1 & H2 & H3). split; [congruence|]. auto.
  Qed.
End Quiet.

(** * Chunks *)
Section Chunks.
  Context {I : Type}.
  Notation chunks := (list (option (list I))).

  (** What the calls made from [t] on were: each came after a part of the data. *)
  Lemma chunk_reads : forall (t t' : trace chunks I) new e en, reads (traced (read_data_source chunk_read)) t t' new e en ->
    tr_items t ++ chunks_data (tr_state t) = tr_items t' ++ chunks_data (tr_state t') /\
    exists cs, called t t' cs /\ (forall items n, In (items, n) cs -> exists l d, items = tr_items t ++ l /\ chunks_data (tr_state t) = l ++ d) /\
      forall cs1 cs2, tr_state t = cs1 ++ cs2 -> (forall items n, In (items, n) cs -> length items < length (tr_items t) + length (chunks_data cs1)) ->
        exists cs1', tr_state t' = cs1' ++ cs2.
  Proof.
    intros t t' new e en H.
    assert (Hstep : forall (s s1 : trace chunks I) n w r, ds_read (traced (read_data_source chunk_read)) s n = (s1, w, r) ->
      (exists l, tr_items s1 = tr_items s ++ l /\ chunks_data (tr_state s) = l ++ chunks_data (tr_state s1)) /\ called s s1 [(tr_items s, n)] /\
      forall cs1 cs2, tr_state s = cs1 ++ cs2 -> 0 < length (chunks_data cs1) -> exists cs1' l, tr_state s1 = cs1' ++ cs2 /\ tr_items s1 = tr_items s ++ l /\ chunks_data cs1 = l ++ chunks_data cs1').
    { intros s s1 n w r Hr. unfold traced, read_data_source in Hr. cbn [ds_read] in Hr. destruct (chunk_read (tr_state s) n) as [[s2 w2] r2] eqn:Hc. inversion Hr; subst. clear Hr.
      cbn [tr_items tr_state called]. unfold called. cbn [tr_calls]. split; [|split; [reflexivity|]].
      - eexists. split; [reflexivity|]. destruct (tr_state s) as [|[c|] cs]; cbn [chunk_read] in Hc.
        + inversion Hc; subst. reflexivity.
        + inversion Hc; subst. rewrite delivered_writes by (unfold writes; rewrite firstn_all2 by (rewrite map_length; lia); reflexivity).
          cbn [chunks_data flat_map]. fold (chunks_data cs). destruct (skipn n c) as [|y r0] eqn:Hs.
          * rewrite firstn_all2; [reflexivity|]. pose proof (f_equal (@length _) Hs) as Hl. rewrite skipn_length in Hl. cbn [length] in Hl. lia.
          * change (chunks_data (Some (y :: r0) :: cs)) with ((y :: r0) ++ chunks_data cs). rewrite <- Hs, app_assoc, firstn_skipn. reflexivity.
        + inversion Hc; subst. reflexivity.
      - intros cs1 cs2 He Hl. destruct cs1 as [|c1 cs1]; [cbn in Hl; lia|]. rewrite He in Hc. cbn [app] in Hc. destruct c1 as [c|]; cbn [chunk_read] in Hc; inversion Hc; subst; clear Hc.
        + rewrite delivered_writes by (unfold writes; rewrite firstn_all2 by (rewrite map_length; lia); reflexivity).
          destruct (skipn n c) as [|y r0] eqn:Hs.
          * exists cs1, (firstn n c). split; [reflexivity|]. split; [reflexivity|]. change (chunks_data (Some c :: cs1)) with (c ++ chunks_data cs1).
            rewrite firstn_all2; [reflexivity|]. pose proof (f_equal (@length _) Hs) as Hl2. rewrite skipn_length in Hl2. cbn [length] in Hl2. lia.
          * exists (Some (y :: r0) :: cs1), (firstn n c). split; [reflexivity|]. split; [reflexivity|]. change (chunks_data (Some c :: cs1)) with (c ++ chunks_data cs1).
            change (chunks_data (Some (y :: r0) :: cs1)) with ((y :: r0) ++ chunks_data cs1). rewrite <- Hs, app_assoc, firstn_skipn. reflexivity.
        + exists cs1, []. split; [reflexivity|]. split; [reflexivity|]. reflexivity. }
    assert (Hcase : forall (s s1 s2 : trace chunks I) n w r, ds_read (traced (read_data_source chunk_read)) s n = (s1, w, r) ->
      (tr_items s1 ++ chunks_data (tr_state s1) = tr_items s2 ++ chunks_data (tr_state s2) /\
       exists cs, called s1 s2 cs /\ (forall items n, In (items, n) cs -> exists l d, items = tr_items s1 ++ l /\ chunks_data (tr_state s1) = l ++ d) /\
        forall cs1 cs2, tr_state s1 = cs1 ++ cs2 -> (forall items n, In (items, n) cs -> length items < length (tr_items s1) + length (chunks_data cs1)) ->
          exists cs1', tr_state s2 = cs1' ++ cs2) ->
      tr_items s ++ chunks_data (tr_state s) = tr_items s2 ++ chunks_data (tr_state s2) /\
       exists cs, called s s2 cs /\ (forall items n, In (items, n) cs -> exists l d, items = tr_items s ++ l /\ chunks_data (tr_state s) = l ++ d) /\
        forall cs1 cs2, tr_state s = cs1 ++ cs2 -> (forall items n, In (items, n) cs -> length items < length (tr_items s) + length (chunks_data cs1)) ->
          exists cs1', tr_state s2 = cs1' ++ cs2).
    { intros s s1 s2 n w r Hr (IH1 & cs & IH2 & IH3 & IH4). destruct (Hstep _ _ _ _ _ Hr) as ((l & G1 & G2) & G3 & G4).
      split; [rewrite G2, app_assoc, <- G1; assumption|]. exists ((tr_items s, n) :: cs). split; [unfold called in *; rewrite IH2, G3, <- app_assoc; reflexivity|]. split.
      - intros items m [Hin|Hin].
        + inversion Hin; subst. exists [], (chunks_data (tr_state s)). rewrite app_nil_r. auto.
        + destruct (IH3 _ _ Hin) as (l2 & d & K1 & K2). exists (l ++ l2), d. rewrite K1, G1, G2, K2, !app_assoc. auto.
      - intros cs1 cs2 He Hall. destruct (G4 _ _ He) as (cs1' & l2 & K1 & K2 & K3).
        { specialize (Hall _ _ (or_introl eq_refl)). lia. }
        apply (IH4 _ _ K1). intros items m Hin. specialize (Hall _ _ (or_intror Hin)). rewrite K2, app_length. rewrite K3, app_length in Hall. lia. }
    induction H as [s|s n s1 w k s2 l e b Hr H IH|s n s1 w x s2 l e b Hr H IH]; [|eapply Hcase; eauto|eapply Hcase; eauto].
    split; [reflexivity|]. exists []. unfold called. rewrite app_nil_r. split; [reflexivity|]. split; [intros items n []|]. intros cs1 cs2 He _. exists cs1. assumption.
  Qed.
End Chunks.

Section Insist.
  Context {St I B : Type}.
  Variable ds : data_source St I.
  Variables (ops : buffer_ops I B) (inv : B -> Prop) (view : B -> list I) (room : B -> nat) (fits : nat -> Prop).
  Hypothesis Q : queue_like ops inv view room fits.
  Hypothesis Ho : obeys ds.

  Lemma insist_reads : forall T E (p : parser I T E), well_behaved p -> forall fuel st st' r, inv (src_buffer st) -> insist ds ops fuel p st = Done (st', r) ->
    exists new e en, reads ds (src_source st) (src_source st') new e en.
  Proof.
    intros T E p Hw. induction fuel as [|fuel IH]; intros st st' r Hi H; cbn [insist] in H; [discriminate|].
    destruct (src_parse ds ops p st) as [[st1 r1]| | |] eqn:Hp; try discriminate. cbn [run_bind] in H.
    assert (H1 : inv (src_buffer st1) /\ exists new e en, reads ds (src_source st) (src_source st1) new e en).
    { destruct (src_parse_spec Q Ho st Hi Hw) as [(st2 & x & H1 & H2 & H3 & H4)|(st2 & H1 & H2)].
      - rewrite Hp in H4. inversion H4; subst. destruct (src_fill_spec Q Ho st Hi) as (st3 & r3 & new & e & en & G1 & G2 & G3 & _). rewrite H3 in G1. inversion G1; subst. eauto.
      - assert (H3 : inv (src_buffer st2) /\ exists new e en, reads ds (src_source st) (src_source st2) new e en).
        { destruct (src_incomplete st && src_auto st).
          - destruct H1 as [m H1]. destruct (src_fill_spec Q Ho st Hi) as (st3 & r3 & new & e & en & G1 & G2 & G3 & _). rewrite H1 in G1. inversion G1; subst. eauto.
          - subst st2. split; [assumption|]. exists [], 0, false. apply rd_none. }
        destruct H3 as [Hi2 H3]. cbn zeta in H2. destruct H2 as [(H2 & H4 & H5)|[_ [(H4 & H5)|[(H4 & H5)|(st3 & out & H4 & H5 & H6 & _)]]]]; try congruence.
        + rewrite Hp in H5. inversion H5; subst. auto.
        + rewrite Hp in H4. inversion H4; subst. rewrite H6. auto. }
    destruct H1 as (Hi1 & new & e & en & H1).
    assert (Hgo : insist ds ops fuel p st1 = Done (st', r) -> exists new e en, reads ds (src_source st) (src_source st') new e en).
    { intros Hgo. destruct (IH _ _ _ Hi1 Hgo) as (new2 & e2 & en2 & H2). do 3 eexists. eapply reads_app; eauto. }
    destruct r1 as [v|[]]; auto; inversion H; subst; eauto.
  Qed.
End Insist.
