(** Single calls in the histories of a Source. *)
From Coq Require Import List Bool Arith Lia.
From Verif Require Import Base Buffer Stream SpecBase SpecBuffer SpecSafe SpecStream BufferProofs StreamProofs SimProofs.
Import ListNotations.

Set Implicit Arguments.

Section Calls.
  Context {St I B : Type}.
  Variable ds : data_source St I.
  Variables (ops : buffer_ops I B) (inv : B -> Prop) (view : B -> list I) (room : B -> nat) (fits : nat -> Prop).
  Hypothesis Q : queue_like ops inv view room fits.
  Hypothesis Ho : obeys ds.

  (** Everything about one call of [parse]. *)
  Lemma call_ran : forall T E (p : parser I T E) st st' out, inv (src_buffer st) -> well_behaved p -> src_parse ds ops p st = Done (st', out) ->
    exists new e en, reads ds (src_source st) (src_source st') new e en /\ inv (src_buffer st') /\ src_auto st' = src_auto st /\
      (src_incomplete st && src_auto st = false -> new = []) /\
      ((exists x, out = inr (SIoError x) /\ view (src_buffer st') = view (src_buffer st) ++ new /\ e = 1 /\
         src_incomplete st = true /\ src_auto st = true /\ src_incomplete st' = true /\ src_request st' = src_request st /\
         length (view (src_buffer st')) < Nat.max 1 (src_request st)) \/
       (e = 0 /\ src_eoi st' = true /\ out = inr SEndOfInput /\ view (src_buffer st) ++ new = [] /\ view (src_buffer st') = []) \/
       (e = 0 /\ (src_eoi st' = false \/ view (src_buffer st) ++ new <> []) /\
        ran p (src_eoi st') (view (src_buffer st) ++ new) out (view (src_buffer st')) /\
        (forall n, p (mkInput (src_eoi st') (view (src_buffer st) ++ new)) = Incomplete n -> src_eoi st' = false ->
           src_incomplete st' = true /\ src_request st' = length (view (src_buffer st)) + length new + n) /\
        (src_incomplete st = true -> src_auto st = true ->
           src_eoi st' = true \/ Nat.max 1 (src_request st) <= length (view (src_buffer st)) + length new))).
  Proof.
    intros T E p st st' out Hi Hw Hp.
    destruct (src_parse_spec Q Ho st Hi Hw) as [(st1 & x & H1 & H2 & H3 & H4)|(st1 & H1 & H2)].
    { rewrite Hp in H4. inversion H4; subst st1 out. destruct (src_fill_spec Q Ho st Hi) as (st2 & r & new & e & en & G1 & G2 & G3 & G4 & G5 & G6 & G7).
      rewrite H3 in G1. inversion G1; subst st2 r. exists new, e, en. destruct G7 as (G7 & G8 & G9 & G10).
      split; [assumption|]. split; [assumption|]. split; [assumption|]. split; [rewrite H1, H2; discriminate|]. left. exists x. split; [reflexivity|].
      split; [assumption|]. repeat split; auto. congruence. }
    assert (Hst1 : exists new en, reads ds (src_source st) (src_source st1) new 0 en /\ inv (src_buffer st1) /\ view (src_buffer st1) = view (src_buffer st) ++ new /\
      src_auto st1 = src_auto st /\ (src_incomplete st && src_auto st = false -> new = []) /\
      (src_incomplete st = true -> src_auto st = true -> src_eoi st1 = true \/ Nat.max 1 (src_request st) <= length (view (src_buffer st)) + length new)).
    { destruct (src_incomplete st && src_auto st) eqn:Hia.
      - destruct H1 as [m H1]. destruct (src_fill_spec Q Ho st Hi) as (st2 & r2 & new & e & en & G1 & G2 & G3 & G4 & G5 & G6 & G7).
        rewrite H1 in G1. inversion G1; subst st2 r2. destruct G7 as (-> & _ & G7 & G8 & _). exists new, en.
        split; [assumption|]. split; [assumption|]. split; [assumption|]. split; [assumption|]. split; [discriminate|].
        intros _ _. destruct (src_eoi st1); [auto|right]. symmetry in G8. apply Nat.ltb_ge in G8. rewrite G4, app_length in G8. exact G8.
      - subst st1. exists [], false. split; [apply rd_none|]. split; [assumption|]. rewrite app_nil_r. repeat split; auto.
        intros Ha Hb. rewrite Ha, Hb in Hia. discriminate. }
    destruct Hst1 as (new & en & G1 & G2 & G3 & G4 & G5 & G6). exists new, 0, en. cbn zeta in H2. rewrite G3 in H2.
    destruct H2 as [(H2 & H3 & H4)|[H2 [(H3 & H4)|[(H3 & H4)|(st2 & out2 & H3 & H4 & H5 & H6 & H7 & H8)]]]]; rewrite Hp in *; try discriminate.
    - inversion H4; subst st1 out. split; [assumption|]. split; [assumption|]. split; [assumption|]. split; [assumption|]. right. left. rewrite G3. auto.
    - inversion H3; subst st2 out2. rewrite H5. split; [assumption|]. split; [assumption|]. split; [congruence|]. split; [assumption|]. right. right. split; [reflexivity|].
      rewrite H6. split; [assumption|]. unfold ran. destruct (p (mkInput (src_eoi st1) (view (src_buffer st) ++ new))) as [j v|b x|n| |] eqn:Ep; cbn [answer] in H8; try contradiction.
      + destruct H8 as (-> & -> & _). split; [auto|]. split; [congruence|assumption].
      + destruct H8 as (-> & -> & _). split; [auto|]. split; [congruence|assumption].
      + destruct H8 as (H8 & H9 & H10). rewrite H8, G3. split.
        * destruct (src_eoi st1); destruct H10 as [-> _]; auto.
        * split; [|assumption]. intros n' Hn He. inversion Hn; subst n'. rewrite He in H10. destruct H10 as [_ H10]. rewrite H9, app_length. auto.
  Qed.

  (** [telling] does not matter. *)
  Lemma telling_parse : forall T E (p : parser I T E) (st st' : src St B) r, src_parse ds ops p st = Done (st', r) ->
    exists r', src_parse ds ops (telling p) st = Done (st', r').
  Proof.
    intros T E p st st' r H. unfold src_parse in *. destruct (if src_incomplete st && src_auto st then src_fill ds ops st else Done (st, IoOk 0)) as [[st1 [m|x]]| | |]; cbn [run_bind] in *; try discriminate;
      [|inversion H; subst; eauto].
    destruct (src_is_empty ops st1) as [[|]| | |]; cbn [run_bind] in *; try discriminate; [inversion H; subst; eauto|].
    destruct (op_deref ops (src_buffer st1)) as [d| | |]; cbn [run_bind] in *; try discriminate.
    unfold telling. destruct (p (mkInput (src_eoi st1) d)) as [j v|b x|n| |]; try discriminate.
    - destruct (op_len ops (src_buffer st1)) as [l| | |]; cbn [run_bind] in *; try discriminate. destruct (usize_sub l (length (buf j))) as [k| | |]; cbn [run_bind] in *; try discriminate.
      destruct (op_consume ops (src_buffer st1) k) as [b'| | |]; cbn [run_bind] in *; try discriminate. inversion H; subst. eauto.
    - destruct (op_len ops (src_buffer st1)) as [l| | |]; cbn [run_bind] in *; try discriminate. destruct (usize_sub l (length b)) as [k| | |]; cbn [run_bind] in *; try discriminate.
      destruct (op_consume ops (src_buffer st1) k) as [b'| | |]; cbn [run_bind] in *; try discriminate. inversion H; subst. eauto.
    - destruct (op_len ops (src_buffer st1)) as [l| | |]; cbn [run_bind] in *; try discriminate. destruct (src_eoi st1); inversion H; subst; eauto.
  Qed.

  (** * Bounded retries *)
  Variable R : St -> list I -> nat -> Prop.
  Hypothesis HR : delivers ds R.

  Definition todo (st : src St B) (d : list I) (e : nat) : nat :=
    length d + e + (if src_incomplete st && (length (view (src_buffer st)) <? Nat.max 1 (src_request st)) then 0 else 1).

  Lemma insist_ends : forall T E (p : parser I T E) fuel st d e, inv (src_buffer st) -> well_behaved p -> asks p -> src_auto st = true -> R (src_source st) d e -> todo st d e < fuel ->
    exists st' out, insist ds ops fuel p st = Done (st', out).
  Proof.
    intros T E p. induction fuel as [|fuel IH]; intros st d e Hi Hw Hask Ha HRs Hm; [lia|]. cbn [insist].
    assert (Hdone : exists st' out, src_parse ds ops p st = Done (st', out)).
    { destruct (src_parse_spec Q Ho st Hi Hw) as [(st1 & x & H1 & H2 & H3 & H4)|(st1 & H1 & [(H2 & H3 & H4)|[H2 [(H3 & H4)|[(H3 & H4)|(st' & out & H3 & _)]]]])]; eauto.
      - exfalso. exact (proj1 (proj2 (Hask _ _)) H3).
      - exfalso. exact (proj2 (proj2 (Hask _ _)) H3). }
    destruct Hdone as (st' & out & Hp). rewrite Hp. cbn [run_bind].
    destruct (call_ran st Hi Hw Hp) as (new & k & en & H1 & H2 & H3 & H4 & H5). destruct (reads_delivers HR H1 _ _ HRs) as (d' & G1 & G2 & G3 & G4).
    assert (Hlen : length d = length new + length d') by (rewrite G1, app_length; reflexivity).
    destruct H5 as [(x & -> & H5 & -> & H6 & H7 & H8 & H9 & H10)|[(-> & H5 & -> & H6 & H7)|(-> & H5 & H6 & H7 & H8)]].
    - apply (IH _ d' (e - 1)); auto; [congruence|]. unfold todo. rewrite H8, H9. cbn [andb]. apply Nat.ltb_lt in H10. rewrite H10.
      unfold todo in Hm. destruct (src_incomplete st && (length (view (src_buffer st)) <? Nat.max 1 (src_request st))); lia.
    - eauto.
    - unfold ran in H6. destruct (p (mkInput (src_eoi st') (view (src_buffer st) ++ new))) as [j v|b x|n| |] eqn:Ep; try contradiction.
      + destruct H6 as [-> _]. eauto.
      + destruct H6 as [-> _]. eauto.
      + destruct H6 as [-> H6]. destruct (src_eoi st') eqn:He; [eauto|]. destruct (H7 n eq_refl eq_refl) as [H9 H10].
        assert (Hn : 0 < n) by (destruct n; [exfalso; exact (proj1 (Hask _ _) Ep)|lia]).
        apply (IH _ d' (e - 0)); auto; [congruence|]. unfold todo. rewrite H9, H10, H6, app_length. cbn [andb].
        replace (length (view (src_buffer st)) + length new <? Nat.max 1 (length (view (src_buffer st)) + length new + n)) with true by (symmetry; apply Nat.ltb_lt; lia).
        unfold todo in Hm. destruct (src_incomplete st) eqn:Hinc; cbn [andb] in Hm; [|lia].
        destruct (H8 eq_refl Ha) as [H11|H11]; [discriminate|]. destruct (Nat.ltb_spec (length (view (src_buffer st))) (Nat.max 1 (src_request st))); lia.
  Qed.

  (** * Where a history has got to *)
  Variable admits : forall T E, parser I T E -> Prop.

  Lemma history_delivers : forall s0 b0 st out data e0, inv b0 -> view b0 = [] -> history ds ops admits s0 b0 st out -> R s0 data e0 ->
    exists d e, R (src_source st) d e /\ e <= e0 /\ data = out ++ view (src_buffer st) ++ d /\ inv (src_buffer st).
  Proof.
    intros s0 b0 st out data e0 Hi Hv H Hr. destruct (history_inv Q Ho Hi Hv H) as (Hi' & new & e & en & H1 & H2).
    destruct (reads_delivers HR H1 _ _ Hr) as (d & G1 & G2 & G3 & G4). exists d, (e0 - e). split; [assumption|]. split; [lia|]. split; [|assumption].
    rewrite G1, H2, <- app_assoc. reflexivity.
  Qed.
End Calls.

(** Unlimited buffers: the end-of-input flag tells the truth. *)
Section Unlimited.
  Context {St I B : Type}.
  Variable ds : data_source St I.
  Variables (ops : buffer_ops I B) (inv : B -> Prop) (view : B -> list I) (room : B -> nat).
  Hypothesis Q : queue_like ops inv view room (fun _ => True).
  Hypothesis Ho : obeys ds.
  Variable R : St -> list I -> nat -> Prop.
  Hypothesis HR : delivers ds R.
  Variable admits : forall T E, parser I T E -> Prop.

  Lemma history_stands : forall s0 b0 st out data e0, inv b0 -> view b0 = [] -> history ds ops admits s0 b0 st out -> R s0 data e0 ->
    exists d e, R (src_source st) d e /\ e <= e0 /\ data = out ++ view (src_buffer st) ++ d /\ inv (src_buffer st) /\ (src_eoi st = true -> d = []).
  Proof.
    intros s0 b0 st out data e0 Hi0 Hv0 H Hr.
    assert (Hread : forall s s' new k en d e, reads ds s s' new k en -> R s d e -> exists d' e', R s' d' e' /\ e' <= e /\ d = new ++ d' /\ (en = true -> d' = []) /\ (d = [] -> d' = [])).
    { intros s s' new k en d e H1 H2. destruct (reads_delivers HR H1 _ _ H2) as (d' & G1 & G2 & G3 & G4). exists d', (e - k). repeat split; auto; [lia|].
      intros E0. rewrite E0 in G1. symmetry in G1. apply app_eq_nil in G1. apply G1. }
    induction H as [|st out T E p st' r H IH Hw _ Hp|st out st' r H IH Hp|st out n st' r H IH Hp|st out st' r H IH Hp|st out l n st' H IH Hv Hn Hp|st out H IH|st out v H IH].
    - exists data, e0. cbn. rewrite Hv0. repeat split; auto. discriminate.
    - destruct IH as (d & e & H1 & H2 & H3 & Hi & H4). destruct (telling_step Q Ho st Hi Hw Hp) as (new & k & en & G1 & G2 & G3 & _ & G5).
      destruct (Hread _ _ _ _ _ _ _ G1 H1) as (d' & e' & K1 & K2 & K3 & K4 & K5). exists d', e'. split; [assumption|]. split; [lia|]. split; [|split; [assumption|]].
      + rewrite H3, K3. replace (view (src_buffer st) ++ new ++ d') with ((view (src_buffer st) ++ new) ++ d') by (rewrite app_assoc; reflexivity). rewrite G3, <- !app_assoc. reflexivity.
      + intros Heoi. destruct (G5 Heoi) as [G6|[G6|(b' & _ & _ & G6)]]; [auto|auto|]. exfalso. apply G6. exact Logic.I.
    - destruct IH as (d & e & H1 & H2 & H3 & Hi & H4). destruct (src_fill_spec Q Ho st Hi) as (st2 & r2 & new & k & en & G1 & G2 & G3 & G4 & G5 & G6 & G7). rewrite Hp in G1. inversion G1; subst st2 r2.
      destruct (Hread _ _ _ _ _ _ _ G2 H1) as (d' & e' & K1 & K2 & K3 & K4 & K5). exists d', e'. split; [assumption|]. split; [lia|]. split; [|split; [assumption|]].
      + rewrite H3, K3, G4, <- !app_assoc. reflexivity.
      + intros Heoi. destruct r as [m|x]; [|destruct G7 as (_ & _ & _ & G7); rewrite G7 in Heoi; auto]. destruct G7 as (_ & _ & _ & _ & [G7|[G7|G7]]); [congruence|auto|]. exfalso. apply G7. exact Logic.I.
    - destruct IH as (d & e & H1 & H2 & H3 & Hi & H4). destruct (src_read_spec Q Ho n st Hi) as (b' & s' & new & k & en & r2 & G1 & G2 & G3 & G4). rewrite Hp in G3. inversion G3; subst st' r2.
      destruct (Hread _ _ _ _ _ _ _ G1 H1) as (d' & e' & K1 & K2 & K3 & K4 & K5). exists d', e'. cbn [src_with src_buffer src_source src_eoi]. split; [assumption|]. split; [lia|]. split; [|split; [assumption|auto]].
      rewrite H3, K3. destruct r as [l|x].
      + destruct G4 as (_ & -> & -> & _). rewrite <- !app_assoc. f_equal. rewrite (app_assoc (firstn _ _)), firstn_skipn, <- app_assoc. reflexivity.
      + destruct G4 as (_ & -> & _). rewrite app_nil_r, <- app_assoc. reflexivity.
    - destruct IH as (d & e & H1 & H2 & H3 & Hi & H4). destruct (src_fill_buf_spec Q Ho st Hi) as (b' & s' & new & k & en & r2 & G1 & G2 & G3 & G4 & G5). rewrite Hp in G3. inversion G3; subst st' r2.
      destruct (Hread _ _ _ _ _ _ _ G1 H1) as (d' & e' & K1 & K2 & K3 & K4 & K5). exists d', e'. cbn [src_with src_buffer src_source src_eoi]. split; [assumption|]. split; [lia|]. split; [|split; [assumption|auto]].
      rewrite H3, K3, G4, <- !app_assoc. reflexivity.
    - destruct IH as (d & e & H1 & H2 & H3 & Hi & H4). unfold src_view in Hv. rewrite (q_deref Q _ Hi) in Hv. inversion Hv; subst l.
      destruct (src_consume_spec Q st Hi Hn) as (b' & G1 & G2 & G3). rewrite Hp in G1. inversion G1; subst st'. exists d, e. cbn [src_with src_buffer src_source src_eoi].
      split; [assumption|]. split; [assumption|]. split; [|split; [assumption|assumption]]. rewrite H3, G3, <- app_assoc. f_equal. rewrite app_assoc, firstn_skipn. reflexivity.
    - destruct IH as (d & e & H1 & H2 & H3 & Hi & H4). exists d, e. cbn. repeat split; auto. discriminate.
    - exact IH.
  Qed.
End Unlimited.

(** Logging changes nothing. *)
Section Watch.
  Context {St I : Type}.
  Variable ds : data_source St I.

  Lemma reads_unlogged : forall l l' new e en, reads (logged ds) l l' new e en -> reads ds (log_state l) (log_state l') new e en.
  Proof.
    intros l l' new e en H. induction H as [s|s n s1 w k s2 l e b Hr H IH|s n s1 w x s2 l e b Hr H IH]; [apply rd_none| |];
      unfold logged in Hr; cbn [ds_read] in Hr; destruct (ds_read ds (log_state s) n) as [[s' w'] r] eqn:Er; inversion Hr; subst; cbn [log_state] in *.
    - eapply rd_ok; eassumption.
    - eapply rd_err; eassumption.
  Qed.
End Watch.
