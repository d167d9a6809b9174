(** Proofs about Source and SliceStream. *)
From Coq Require Import List Bool Arith Lia.
From Verif Require Import Base Buffer Stream SpecBase SpecBuffer SpecSafe SpecStream BufferProofs.
Import ListNotations.

Set Implicit Arguments.

Section Source.
  Context {St I B : Type}.
  Variable ds : data_source St I.
  Variables (ops : buffer_ops I B) (inv : B -> Prop) (view : B -> list I) (room : B -> nat) (fits : nat -> Prop).
  Hypothesis Q : queue_like ops inv view room fits.
  Hypothesis Ho : obeys ds.

  Lemma reads_app : forall s1 s2 l1 e1 b1, reads ds s1 s2 l1 e1 b1 -> forall s3 l2 e2 b2, reads ds s2 s3 l2 e2 b2 ->
    reads ds s1 s3 (l1 ++ l2) (e1 + e2) (b1 || b2).
  Proof.
    intros s1 s2 l1 e1 b1 H. induction H as [s|s n s1 w k s2 l e b Hr H IH|s n s1 w x s2 l e b Hr H IH]; intros s3 l2 e2 b2 H2.
    - exact H2.
    - rewrite <- app_assoc, <- orb_assoc. eapply rd_ok; eauto.
    - eapply rd_err; eauto.
  Qed.

  Definition read_outcome (request : nat) (b b' : B) (new : list I) (e : nat) (en : bool) (before : nat) (r : io nat) : Prop :=
    match r with
    | IoErr _ => e = 1 /\ length (view b') < request
    | IoOk m => e = 0 /\ m = before + length new /\ (request <= length (view b') \/ en = true \/ (length (view b') < request /\ room b <= length new))
    end.

  Lemma delivered_length : forall s n s' w k, ds_read ds s n = (s', w, IoOk k) -> length (delivered w k) = k.
  Proof. intros s n s' w k H. destruct (Ho _ _ H) as (_ & c & Hc & Hw). subst k. rewrite delivered_writes by assumption. reflexivity. Qed.

  Lemma fill_loop_spec : forall fuel request read b s, inv b -> request - length (view b) < fuel ->
    exists b' s' r new e en, fill_loop ds ops fuel request read b s = Done (b', s', r) /\ reads ds s s' new e en /\
      inv b' /\ view b' = view b ++ new /\ read_outcome request b b' new e en read r.
  Proof.
    induction fuel as [|fuel IH]; intros request read b s Hi Hf; [lia|].
    cbn [fill_loop]. rewrite (q_len Q b Hi). cbn [run_bind].
    destruct (Nat.ltb_spec (length (view b)) request) as [Hlt|Hge].
    - destruct (q_fill Q b Hi) as (q & Hq0 & Hq). destruct (ds_read ds s q) as [[s1 w] r] eqn:Hr. destruct (Hq _ _ _ _ _ _ Ho Hr) as (b1 & Hfill & Hi1 & Hres).
      rewrite Hfill. cbn [run_bind]. destruct r as [k|e].
      + destruct Hres as [Hv Hro]. pose proof (delivered_length _ _ Hr) as Hdl. destruct k as [|k].
        * exists b1, s1, (IoOk read), [], 0, ((0 =? 0) && (0 <? q) || false). split; [reflexivity|].
          unfold delivered in Hv. cbn [firstn somes] in Hv. rewrite app_nil_r in Hv. split.
          { change (@nil I) with (@delivered I w 0 ++ []). eapply rd_ok; [exact Hr|apply rd_none]. }
          split; [assumption|]. rewrite Hv. split; [rewrite app_nil_r; reflexivity|].
          cbn [read_outcome length Nat.eqb andb]. rewrite orb_false_r, Hv. split; [reflexivity|]. split; [lia|].
          destruct (Nat.ltb_spec 0 q); [auto|right; right; lia].
        * destruct (IH request (read + S k) b1 s1 Hi1) as (b' & s' & r & new & e & en & H1 & H2 & H3 & H4 & H6).
          { rewrite Hv, app_length, Hdl. lia. }
          exists b', s', r, (delivered w (S k) ++ new), e, (((S k =? 0) && (0 <? q)) || en). split; [exact H1|]. split; [eapply rd_ok; eauto|].
          split; [assumption|]. rewrite H4, Hv, app_assoc. split; [reflexivity|]. 
          unfold read_outcome in *. cbn [Nat.eqb andb orb]. rewrite app_length, Hdl. destruct r; [|assumption].
          destruct H6 as (H6 & H7 & H8). split; [assumption|]. split; [lia|]. destruct H8 as [H8|[H8|[H8 H9]]]; auto. right. right. split; [assumption|lia].
      + pose proof Hres as Hv. exists b1, s1, (IoErr e), [], 1, false. split; [reflexivity|]. split.
        { eapply rd_err; [exact Hr|apply rd_none]. }
        split; [assumption|]. rewrite Hv, app_nil_r. split; [reflexivity|]. split; [reflexivity|]. rewrite Hv. assumption.
    - exists b, s, (IoOk read), [], 0, false. split; [reflexivity|]. split; [apply rd_none|]. split; [assumption|].
      rewrite app_nil_r. split; [reflexivity|]. cbn [read_outcome length]. split; [reflexivity|]. split; [lia|]. auto.
  Qed.

  (** The state of a Source after reading [new]. *)
  Lemma fill_requested_spec : forall request st, inv (src_buffer st) ->
    exists b' s' r new e en, fill_requested ds ops request st = Done (src_with st b' s', r) /\ reads ds (src_source st) s' new e en /\
      inv b' /\ view b' = view (src_buffer st) ++ new /\
      match r with
      | IoErr _ => e = 1 /\ length (view b') < request
      | IoOk m => e = 0 /\ m = length new /\
          (request <= length (view b') \/ en = true \/ (length (view b') < request /\ ~ fits (S (length (view b')))))
      end.
  Proof.
    intros request st Hi. unfold fill_requested. rewrite (q_len Q _ Hi). cbn [run_bind].
    destruct (Nat.ltb_spec (length (view (src_buffer st))) request) as [Hlt|Hge].
    - rewrite usize_sub_ok by lia. cbn [run_bind].
      destruct (q_request Q _ (request - length (view (src_buffer st))) Hi) as (b1 & Hr & Hi1 & Hv1 & Hroom). rewrite Hr. cbn [run_bind].
      destruct (@fill_loop_spec (S (request - length (view (src_buffer st)))) request 0 b1 (src_source st) Hi1) as (b' & s' & r & new & e & en & H1 & H2 & H3 & H4 & H6).
      { rewrite Hv1. lia. }
      rewrite H1. cbn [run_bind]. exists b', s', r, new, e, en. split; [reflexivity|]. split; [assumption|]. split; [assumption|].
      rewrite H4, Hv1. split; [reflexivity|]. unfold read_outcome in H6. rewrite H4, Hv1 in H6. destruct r; [|assumption].
      destruct H6 as (H6 & H7 & H8). split; [assumption|]. split; [assumption|]. destruct H8 as [H8|[H8|[H8 H9]]]; auto. right. right. split; [assumption|].
      intros Hf. rewrite app_length in Hf, H8. specialize (Hroom (S (length new))). rewrite <- plus_n_Sm in Hroom.
      specialize (Hroom ltac:(lia) Hf). lia.
    - exists (src_buffer st), (src_source st), (IoOk 0), [], 0, false. split; [destruct st; reflexivity|]. split; [apply rd_none|].
      split; [assumption|]. rewrite app_nil_r. split; [reflexivity|]. split; [reflexivity|]. split; [reflexivity|]. auto.
  Qed.

  Lemma src_fill_spec : forall st, inv (src_buffer st) ->
    let req := Nat.max 1 (src_request st) in
    exists st' r new e en, src_fill ds ops st = Done (st', r) /\ reads ds (src_source st) (src_source st') new e en /\
      inv (src_buffer st') /\ view (src_buffer st') = view (src_buffer st) ++ new /\ src_request st' = src_request st /\ src_auto st' = src_auto st /\
      match r with
      | IoErr _ => e = 1 /\ length (view (src_buffer st')) < req /\ src_incomplete st' = src_incomplete st /\ src_eoi st' = src_eoi st
      | IoOk m => e = 0 /\ m = length new /\ src_incomplete st' = false /\
          src_eoi st' = (length (view (src_buffer st')) <? req) /\
          (src_eoi st' = false \/ en = true \/ ~ fits (S (length (view (src_buffer st')))))
      end.
  Proof.
    intros st Hi req. unfold src_fill. fold req.
    destruct (@fill_requested_spec req st Hi) as (b' & s' & r & new & e & en & H1 & H2 & H3 & H4 & H5). rewrite H1. cbn [run_bind].
    destruct r as [m|x].
    - cbn [src_with src_buffer]. rewrite (q_len Q _ H3). cbn [run_bind]. destruct H5 as (He & Hm & H5).
      eexists _, (IoOk m), new, e, en. split; [reflexivity|]. cbn [src_with src_source src_buffer src_request src_incomplete src_eoi src_auto].
      split; [assumption|]. split; [assumption|]. split; [assumption|]. split; [reflexivity|]. split; [reflexivity|]. split; [assumption|]. split; [assumption|].
      split; [reflexivity|]. destruct (Nat.leb_spec req (length (view b'))) as [Hle|Hlt]; destruct (Nat.ltb_spec (length (view b')) req); try (exfalso; lia);
        cbn [negb]; (split; [reflexivity|]).
      + auto.
      + right. destruct H5 as [H5|[H5|[_ H5]]]; [lia|auto|auto].
    - eexists _, (IoErr x), new, e, en. split; [reflexivity|]. cbn [src_with src_source src_buffer src_request src_incomplete src_eoi src_auto].
      split; [assumption|]. split; [assumption|]. split; [assumption|]. split; [reflexivity|]. split; [reflexivity|]. destruct H5. auto.
  Qed.

  Lemma suffix_skipn : forall (a b : list I), suffix a b -> skipn (length b - length a) b = a /\ length a <= length b.
  Proof.
    intros a b [c ->]. rewrite app_length. split; [|lia]. replace (length c + length a - length a) with (length c) by lia.
    rewrite skipn_app, skipn_all, Nat.sub_diag. reflexivity.
  Qed.

  (** What [parse] answers when the parser has said [r] about [data]. *)
  Definition answer {T E} (st : src St B) (data : list I) (r : pres I T E) (st' : src St B) (out : sres I T E) : Prop :=
    match r with
    | Data j v => out = inl v /\ view (src_buffer st') = buf j /\ src_request st' = src_request st /\ src_incomplete st' = src_incomplete st
    | Error b e => out = inr (SParseError b e) /\ view (src_buffer st') = b /\ src_request st' = src_request st /\ src_incomplete st' = src_incomplete st
    | Incomplete n =>
        src_buffer st' = src_buffer st /\ src_request st' = length data + n /\
        if src_eoi st then out = inr (SIncomplete (length data + n)) /\ src_incomplete st' = src_incomplete st
        else out = inr SRetry /\ src_incomplete st' = true
    | Panic => False
    | NoFuel => False
    end.

  (** [parse] in terms of [fill] and the parser. *)
  Lemma src_parse_spec : forall T E (p : parser I T E) st, inv (src_buffer st) -> well_behaved p ->
    (exists st1 x, src_incomplete st = true /\ src_auto st = true /\ src_fill ds ops st = Done (st1, IoErr x) /\
       src_parse ds ops p st = Done (st1, inr (SIoError x))) \/
    (exists st1, (if src_incomplete st && src_auto st then exists m, src_fill ds ops st = Done (st1, IoOk m) else st1 = st) /\
       let data := view (src_buffer st1) in
       ((src_eoi st1 = true /\ data = [] /\ src_parse ds ops p st = Done (st1, inr SEndOfInput)) \/
        ((src_eoi st1 = false \/ data <> []) /\
         ((p (mkInput (src_eoi st1) data) = Panic /\ src_parse ds ops p st = Panicked) \/
          (p (mkInput (src_eoi st1) data) = NoFuel /\ src_parse ds ops p st = Stuck) \/
          exists st' out, src_parse ds ops p st = Done (st', out) /\ inv (src_buffer st') /\ src_source st' = src_source st1 /\ src_eoi st' = src_eoi st1 /\
            src_auto st' = src_auto st1 /\ answer st1 data (p (mkInput (src_eoi st1) data)) st' out)))).
  Proof.
    intros T E p st Hi Hw.
    assert (Hsplit : (exists st1 x, src_incomplete st = true /\ src_auto st = true /\ src_fill ds ops st = Done (st1, IoErr x)) \/
      exists st1 m, (if src_incomplete st && src_auto st then src_fill ds ops st else Done (st, IoOk 0)) = Done (st1, IoOk m) /\ inv (src_buffer st1)).
    { destruct (src_incomplete st && src_auto st) eqn:Hia.
      - apply andb_true_iff in Hia. destruct Hia as [H1 H2]. destruct (@src_fill_spec st Hi) as (st1 & r & new & e & en & H3 & _ & H4 & _).
        destruct r as [m|x]; [right; exists st1, m; auto|left; exists st1, x; auto].
      - right. exists st, 0. auto. }
    destruct Hsplit as [(st1 & x & H1 & H2 & H3)|(st1 & m & H1 & Hi1)].
    { left. exists st1, x. repeat split; auto. unfold src_parse. rewrite H1, H2. cbn [andb]. rewrite H3. reflexivity. }
    right. exists st1. split. { destruct (src_incomplete st && src_auto st); [eauto|inversion H1; auto]. }
    unfold src_parse. rewrite H1. cbn [run_bind]. clear H1. cbn zeta. set (data := view (src_buffer st1)).
    assert (Hemp : src_is_empty ops st1 = Done (src_eoi st1 && (length data =? 0))).
    { unfold src_is_empty, src_len. rewrite (q_len Q _ Hi1). destruct (src_eoi st1); reflexivity. }
    rewrite Hemp. cbn [run_bind]. clear Hemp. destruct (src_eoi st1 && (length data =? 0)) eqn:Hem.
    { left. apply andb_true_iff in Hem. destruct Hem as [H1 H2]. apply Nat.eqb_eq, length_zero_iff_nil in H2. auto. }
    right. split. { destruct (src_eoi st1); auto. right. intros H. rewrite H in Hem. discriminate. }
    rewrite (q_deref Q _ Hi1). cbn [run_bind]. fold data.
    pose proof (Hw (mkInput (src_eoi st1) data)) as Hh. destruct (p (mkInput (src_eoi st1) data)) as [j v|b e|n| |]; cbn [honest last buf] in Hh.
    - right. right. destruct Hh as [Hl Hs]. destruct (suffix_skipn Hs) as [Hs1 Hs2]. rewrite (q_len Q _ Hi1). cbn [run_bind]. fold data.
      rewrite usize_sub_ok by lia. cbn [run_bind]. destruct (q_consume Q _ (k := length data - length (buf j)) Hi1) as (b' & Hc & Hi' & Hv'); [fold data; lia|].
      rewrite Hc. cbn [run_bind]. eexists _, _. split; [reflexivity|]. cbn [src_with src_source src_buffer src_request src_incomplete src_eoi src_auto answer].
      fold data in Hv'. rewrite Hv', Hs1. repeat split; auto.
    - right. right. destruct (suffix_skipn Hh) as [Hs1 Hs2]. rewrite (q_len Q _ Hi1). cbn [run_bind]. fold data.
      rewrite usize_sub_ok by lia. cbn [run_bind]. destruct (q_consume Q _ (k := length data - length b) Hi1) as (b' & Hc & Hi' & Hv'); [fold data; lia|].
      rewrite Hc. cbn [run_bind]. eexists _, _. split; [reflexivity|]. cbn [src_with src_source src_buffer src_request src_incomplete src_eoi src_auto answer].
      fold data in Hv'. rewrite Hv', Hs1. repeat split; auto.
    - right. right. rewrite (q_len Q _ Hi1). cbn [run_bind]. fold data. cbn [answer]. destruct (src_eoi st1) eqn:He; eexists _, _; (split; [reflexivity|]);
        cbn [src_source src_buffer src_request src_incomplete src_eoi src_auto]; rewrite ?He; repeat split; auto.
    - left. split; reflexivity.
    - right. left. split; reflexivity.
  Qed.

  Lemma src_read_spec : forall n st, inv (src_buffer st) ->
    exists b' s' new e en r, reads ds (src_source st) s' new e en /\ inv b' /\ src_read ds ops n st = Done (src_with st b' s', r) /\
      match r with
      | IoErr _ => e = 1 /\ view b' = view (src_buffer st) ++ new /\ length (view b') < n
      | IoOk out => e = 0 /\ out = firstn n (view (src_buffer st) ++ new) /\ view b' = skipn n (view (src_buffer st) ++ new) /\
          (n <= length (view (src_buffer st)) -> new = []) /\
          (length out = n \/ (length out < n /\ out = view (src_buffer st) ++ new /\ (en = true \/ ~ fits (S (length out)))))
      end.
  Proof.
    intros n st Hi. unfold src_read, src_len. rewrite (q_len Q _ Hi). cbn [run_bind].
    assert (H : exists b' s' r new e en, (if length (view (src_buffer st)) <? n then fill_requested ds ops n st else Done (st, IoOk 0)) = Done (src_with st b' s', r) /\
      reads ds (src_source st) s' new e en /\ inv b' /\ view b' = view (src_buffer st) ++ new /\ (n <= length (view (src_buffer st)) -> new = []) /\
      match r with
      | IoErr _ => e = 1 /\ length (view b') < n
      | IoOk m => e = 0 /\ (n <= length (view b') \/ en = true \/ (length (view b') < n /\ ~ fits (S (length (view b')))))
      end).
    { destruct (Nat.ltb_spec (length (view (src_buffer st))) n) as [Hlt|Hge].
      - destruct (@fill_requested_spec n st Hi) as (b' & s' & r & new & e & en & H1 & H2 & H3 & H4 & H5). exists b', s', r, new, e, en.
        split; [assumption|]. split; [assumption|]. split; [assumption|]. split; [assumption|]. split; [lia|]. destruct r; [|assumption]. destruct H5 as (H5 & _ & H6). auto.
      - exists (src_buffer st), (src_source st), (IoOk 0), [], 0, false. split; [destruct st; reflexivity|]. split; [apply rd_none|]. split; [assumption|].
        rewrite app_nil_r. auto. }
    destruct H as (b' & s' & r & new & e & en & H1 & H2 & H3 & H4 & H5 & H6). rewrite H1. cbn [run_bind]. destruct r as [m|x].
    - cbn [src_with src_buffer]. rewrite (q_deref Q _ H3). cbn [run_bind].
      destruct (q_consume Q _ (k := length (firstn n (view b'))) H3) as (b2 & Hc & Hi2 & Hv2); [rewrite firstn_length; lia|]. rewrite Hc. cbn [run_bind].
      exists b2, s', new, e, en, (IoOk (firstn n (view b'))). split; [assumption|]. split; [assumption|]. split; [reflexivity|].
      destruct H6 as [He H6]. split; [assumption|]. split; [rewrite H4; reflexivity|]. split.
      { rewrite Hv2, H4, firstn_length. destruct (Nat.le_ge_cases n (length (view (src_buffer st) ++ new))).
        - rewrite Nat.min_l by assumption. reflexivity.
        - rewrite Nat.min_r by assumption. rewrite skipn_all. rewrite skipn_all2 by assumption. reflexivity. }
      split; [assumption|]. rewrite firstn_length. destruct (Nat.le_gt_cases n (length (view b'))) as [Hle|Hgt].
      + left. lia.
      + right. rewrite Nat.min_r by lia. split; [assumption|]. split; [rewrite firstn_all2 by lia; assumption|]. destruct H6 as [H6|[H6|[_ H6]]]; [lia|auto|auto].
    - exists b', s', new, e, en, (IoErr x). split; [assumption|]. split; [assumption|]. split; [reflexivity|]. destruct H6. auto.
  Qed.

  Lemma src_fill_buf_spec : forall st, inv (src_buffer st) ->
    let cap := op_capacity ops (src_buffer st) in
    exists b' s' new e en r, reads ds (src_source st) s' new e en /\ inv b' /\ src_fill_buf ds ops st = Done (src_with st b' s', r) /\
      view b' = view (src_buffer st) ++ new /\
      match r with
      | IoErr _ => e = 1 /\ length (view b') < cap
      | IoOk out => e = 0 /\ out = view b' /\ (cap <= length out \/ en = true \/ ~ fits (S (length out)))
      end.
  Proof.
    intros st Hi cap. unfold src_fill_buf, src_capacity. fold cap.
    destruct (@fill_requested_spec cap st Hi) as (b' & s' & r & new & e & en & H1 & H2 & H3 & H4 & H5). rewrite H1. cbn [run_bind]. destruct r as [m|x].
    - unfold src_view. cbn [src_with src_buffer]. rewrite (q_deref Q _ H3). cbn [run_bind]. exists b', s', new, e, en, (IoOk (view b')).
      split; [assumption|]. split; [assumption|]. split; [reflexivity|]. split; [assumption|]. destruct H5 as (H5 & _ & H6). split; [assumption|]. split; [reflexivity|].
      destruct H6 as [H6|[H6|[_ H6]]]; auto.
    - exists b', s', new, e, en, (IoErr x). split; [assumption|]. split; [assumption|]. split; [reflexivity|]. auto.
  Qed.

  Lemma src_consume_spec : forall n (st : src St B), inv (src_buffer st) -> n <= length (view (src_buffer st)) ->
    exists b', src_consume ops n st = Done (src_with st b' (src_source st)) /\ inv b' /\ view b' = skipn n (view (src_buffer st)).
  Proof.
    intros n st Hi Hn. unfold src_consume. destruct (q_consume Q _ Hi Hn) as (b' & Hc & Hi' & Hv). rewrite Hc. cbn [run_bind]. eauto.
  Qed.
End Source.

(** * Histories *)
Section History.
  Context {St I B : Type}.
  Variable ds : data_source St I.
  Variables (ops : buffer_ops I B) (inv : B -> Prop) (view : B -> list I) (room : B -> nat) (fits : nat -> Prop).
  Hypothesis Q : queue_like ops inv view room fits.
  Hypothesis Ho : obeys ds.

  Lemma reads_logged : forall l l' new e en, reads (logged ds) l l' new e en ->
    log_items l' = log_items l ++ new /\ log_ended l' = log_ended l || en.
  Proof.
    intros l l' new e en H. induction H as [s|s n s1 w k s2 l e b Hr H IH|s n s1 w x s2 l e b Hr H IH].
    - rewrite app_nil_r, orb_false_r. auto.
    - destruct IH as [IH1 IH2]. unfold logged in Hr. cbn [ds_read] in Hr. destruct (ds_read ds (log_state s) n) as [[s' w'] r]. inversion Hr; subst.
      cbn [log_items log_ended] in *. rewrite IH1, IH2, app_assoc, orb_assoc. auto.
    - destruct IH as [IH1 IH2]. unfold logged in Hr. cbn [ds_read] in Hr. destruct (ds_read ds (log_state s) n) as [[s' w'] r]. inversion Hr; subst.
      cbn [log_items log_ended] in *. auto.
  Qed.

  Lemma telling_well_behaved : forall T E (p : parser I T E), well_behaved p -> well_behaved (telling p).
  Proof. intros T E p H i. specialize (H i). unfold telling. destruct (p i); exact H. Qed.

  Lemma suffix_firstn : forall (a b : list I), suffix a b -> firstn (length b - length a) b ++ a = b.
  Proof. intros a b H. destruct (suffix_skipn H) as [H1 H2]. rewrite <- H1 at 2. apply firstn_skipn. Qed.

  (** One call of [parse] with a telling parser: what was consumed, what remains, what was read. *)
  Lemma telling_step : forall T E (p : parser I T E) st st' r, inv (src_buffer st) -> well_behaved p ->
    src_parse ds ops (telling p) st = Done (st', r) ->
    exists new e en, reads ds (src_source st) (src_source st') new e en /\ inv (src_buffer st') /\
      view (src_buffer st) ++ new = told r ++ view (src_buffer st') /\
      (src_request st' = src_request st \/ exists l data n, p (mkInput l data) = Incomplete n /\ src_request st' = length data + n /\ view (src_buffer st') = data) /\
      (src_eoi st' = true -> src_eoi st = true \/ (en = true \/ exists b', inv b' /\ length (view b') < Nat.max 1 (src_request st) /\ ~ fits (S (length (view b'))))).
  Proof.
    intros T E p st st' r Hi Hw Hp.
    destruct (src_parse_spec Q Ho st Hi (telling_well_behaved Hw)) as [(st1 & x & H1 & H2 & H3 & H4)|(st1 & H1 & H2)].
    { rewrite Hp in H4. inversion H4; subst st1 r. destruct (src_fill_spec Q Ho st Hi) as (st2 & r & new & e & en & G1 & G2 & G3 & G4 & G5 & G6 & G7).
      rewrite H3 in G1. inversion G1; subst st2 r. exists new, e, en. split; [assumption|]. split; [assumption|]. cbn [told app]. split; [auto|].
      split; [auto|]. destruct G7 as (_ & _ & _ & G7). rewrite G7. auto. }
    assert (Hst1 : exists new e en, reads ds (src_source st) (src_source st1) new e en /\ inv (src_buffer st1) /\ view (src_buffer st1) = view (src_buffer st) ++ new /\
      src_request st1 = src_request st /\
      (src_eoi st1 = true -> src_eoi st = true \/ (en = true \/ exists b', inv b' /\ length (view b') < Nat.max 1 (src_request st) /\ ~ fits (S (length (view b')))))).
    { destruct (src_incomplete st && src_auto st).
      - destruct H1 as [m H1]. destruct (src_fill_spec Q Ho st Hi) as (st2 & r2 & new & e & en & G1 & G2 & G3 & G4 & G5 & G6 & G7).
        rewrite H1 in G1. inversion G1; subst st2 r2. exists new, e, en. split; [assumption|]. split; [assumption|]. split; [assumption|]. split; [assumption|].
        intros Heoi. right. destruct G7 as (_ & _ & _ & G7 & G8). destruct G8 as [G8|[G8|G8]]; [congruence|auto|]. right. exists (src_buffer st1). split; [assumption|].
        split; [|assumption]. rewrite Heoi in G7. symmetry in G7. apply Nat.ltb_lt in G7. assumption.
      - subst st1. exists [], 0, false. split; [apply rd_none|]. split; [assumption|]. rewrite app_nil_r. auto. }
    destruct Hst1 as (new & e & en & G1 & G2 & G3 & G4 & G5). exists new, e, en. rewrite <- G3.
    destruct H2 as [(H2 & H3 & H4)|[H2 [(H3 & H4)|[(H3 & H4)|(st2 & out & H3 & H4 & H5 & H6 & H7 & H8)]]]]; rewrite Hp in *; try discriminate.
    - inversion H4; subst st1 r. split; [assumption|]. split; [assumption|]. cbn [told app]. rewrite G4. auto.
    - inversion H3; subst st2 out. rewrite H5, H6. split; [assumption|]. split; [assumption|].
      pose proof (Hw (mkInput (src_eoi st1) (view (src_buffer st1)))) as Hh. unfold telling in H8.
      destruct (p (mkInput (src_eoi st1) (view (src_buffer st1)))) as [j v|b x|n| |] eqn:Hpe; cbn [answer honest last buf] in *; try contradiction.
      + destruct H8 as (-> & -> & -> & _). cbn [told]. rewrite suffix_firstn by apply Hh. auto.
      + destruct H8 as (-> & -> & -> & _). cbn [told]. rewrite suffix_firstn by apply Hh. auto.
      + destruct H8 as (-> & -> & H8). assert (told r = []) as -> by (destruct (src_eoi st1); destruct H8 as [-> _]; reflexivity). split; [reflexivity|].
        split; [|assumption]. right. eauto 6.
  Qed.
End History.

Section LoggedHistory.
  Context {St I B : Type}.
  Variable ds : data_source St I.
  Variables (ops : buffer_ops I B) (inv : B -> Prop) (view : B -> list I) (room : B -> nat) (fits : nat -> Prop).
  Hypothesis Q : queue_like ops inv view room fits.
  Hypothesis Ho : obeys ds.
  Variable admits : forall T E, parser I T E -> Prop.

  Lemma src_with_fields : forall (st : src St B) b s, src_buffer (src_with st b s) = b /\ src_source (src_with st b s) = s.
  Proof. auto. Qed.

  Lemma history_sound : forall s0 b0 st out, inv b0 -> view b0 = [] ->
    history (logged ds) ops admits (mkLog s0 [] false) b0 st out ->
    inv (src_buffer st) /\ log_items (src_source st) = out ++ view (src_buffer st).
  Proof.
    intros s0 b0 st out Hi0 Hv0 H. pose proof (obeys_logged Ho) as Hol.
    induction H as [|st out T E p st' r H IH Hw _ Hp|st out st' r H IH Hp|st out n st' r H IH Hp|st out st' r H IH Hp|st out l n st' H IH Hv Hn Hp|st out H IH|st out v H IH].
    - cbn [src_with_buffer src_buffer src_source log_items]. rewrite Hv0. auto.
    - destruct IH as [Hi IH]. destruct (telling_step Q Hol st Hi Hw Hp) as (new & e & en & H1 & H2 & H3 & _). split; [assumption|].
      destruct (reads_logged H1) as [H4 _]. rewrite H4, IH, <- !app_assoc, H3. reflexivity.
    - destruct IH as [Hi IH]. destruct (src_fill_spec Q Hol st Hi) as (st2 & r2 & new & e & en & G1 & G2 & G3 & G4 & _). rewrite Hp in G1. inversion G1; subst st2 r2.
      split; [assumption|]. destruct (reads_logged G2) as [H4 _]. rewrite H4, IH, G4, app_assoc. reflexivity.
    - destruct IH as [Hi IH]. destruct (src_read_spec Q Hol n st Hi) as (b' & s' & new & e & en & r2 & G1 & G2 & G3 & G4). rewrite Hp in G3. inversion G3; subst st' r2.
      cbn [src_with src_buffer src_source]. split; [assumption|]. destruct (reads_logged G1) as [H4 _]. rewrite H4, IH. destruct r as [l|x].
      + destruct G4 as (_ & -> & -> & _). rewrite <- !app_assoc, firstn_skipn. reflexivity.
      + destruct G4 as (_ & -> & _). rewrite app_nil_r, app_assoc. reflexivity.
    - destruct IH as [Hi IH]. destruct (src_fill_buf_spec Q Hol st Hi) as (b' & s' & new & e & en & r2 & G1 & G2 & G3 & G4 & G5). rewrite Hp in G3. inversion G3; subst st' r2.
      cbn [src_with src_buffer src_source]. split; [assumption|]. destruct (reads_logged G1) as [H4 _]. rewrite H4, IH, G4, app_assoc. reflexivity.
    - destruct IH as [Hi IH]. unfold src_view in Hv. rewrite (q_deref Q _ Hi) in Hv. inversion Hv; subst l.
      destruct (src_consume_spec Q st Hi Hn) as (b' & G1 & G2 & G3). rewrite Hp in G1. inversion G1; subst st'.
      cbn [src_with src_buffer src_source]. split; [assumption|]. rewrite IH, G3, <- app_assoc, firstn_skipn. reflexivity.
    - exact IH.
    - exact IH.
  Qed.

  (** End of input is reported truthfully where requests fit. *)
  Hypothesis Hfull : forall b, inv b -> fits (length (view b)).
  Hypothesis Hone : fits 1.
  Hypothesis Hadmits : forall T E (p : parser I T E), @admits T E p -> forall l b n, p (mkInput l b) = Incomplete n -> fits (length b) -> fits (length b + n).

  Lemma history_ended : forall s0 b0 st out, inv b0 -> view b0 = [] ->
    history (logged ds) ops admits (mkLog s0 [] false) b0 st out ->
    inv (src_buffer st) /\ fits (Nat.max 1 (src_request st)) /\ (src_eoi st = true -> log_ended (src_source st) = true).
  Proof.
    intros s0 b0 st out Hi0 Hv0 H. pose proof (obeys_logged Ho) as Hol.
    induction H as [|st out T E p st' r H IH Hw Had Hp|st out st' r H IH Hp|st out n st' r H IH Hp|st out st' r H IH Hp|st out l n st' H IH Hv Hn Hp|st out H IH|st out v H IH].
    - cbn. split; [assumption|]. split; [assumption|discriminate].
    - destruct IH as (Hi & Hf & He). destruct (telling_step Q Hol st Hi Hw Hp) as (new & e & en & H1 & H2 & H3 & H4 & H5). split; [assumption|]. split.
      + destruct H4 as [H4|(l & data & n & H4 & H6 & H7)]; [rewrite H4; assumption|]. rewrite H6.
        assert (fits (length data + n)) by (eapply Hadmits; eauto; rewrite <- H7; apply Hfull; assumption).
        destruct (Nat.max_spec 1 (length data + n)) as [[_ ->]|[_ ->]]; assumption.
      + intros Heoi. destruct (reads_logged H1) as [_ H6]. rewrite H6. destruct (H5 Heoi) as [G|[G|(b' & G1 & G2 & G3)]].
        * rewrite (He G). reflexivity.
        * rewrite G. apply orb_true_r.
        * exfalso. apply G3. eapply (q_fits Q); [|exact Hf]. lia.
    - destruct IH as (Hi & Hf & He). destruct (src_fill_spec Q Hol st Hi) as (st2 & r2 & new & e & en & G1 & G2 & G3 & G4 & G5 & G6 & G7). rewrite Hp in G1. inversion G1; subst st2 r2.
      split; [assumption|]. rewrite G5. split; [assumption|]. destruct (reads_logged G2) as [_ H4]. rewrite H4. intros Heoi. destruct r as [m|x].
      + destruct G7 as (_ & _ & _ & G7 & G8). rewrite Heoi in G7. symmetry in G7. apply Nat.ltb_lt in G7. destruct G8 as [G8|[G8|G8]]; [congruence|rewrite G8; apply orb_true_r|].
        exfalso. apply G8. eapply (q_fits Q); [|exact Hf]. lia.
      + destruct G7 as (_ & _ & _ & G7). rewrite G7 in Heoi. rewrite (He Heoi). reflexivity.
    - destruct IH as (Hi & Hf & He). destruct (src_read_spec Q Hol n st Hi) as (b' & s' & new & e & en & r2 & G1 & G2 & G3 & G4). rewrite Hp in G3. inversion G3; subst st' r2.
      cbn [src_with src_buffer src_source src_request src_eoi]. split; [assumption|]. split; [assumption|]. intros Heoi. destruct (reads_logged G1) as [_ H4]. rewrite H4, (He Heoi). reflexivity.
    - destruct IH as (Hi & Hf & He). destruct (src_fill_buf_spec Q Hol st Hi) as (b' & s' & new & e & en & r2 & G1 & G2 & G3 & G4 & G5). rewrite Hp in G3. inversion G3; subst st' r2.
      cbn [src_with src_buffer src_source src_request src_eoi]. split; [assumption|]. split; [assumption|]. intros Heoi. destruct (reads_logged G1) as [_ H4]. rewrite H4, (He Heoi). reflexivity.
    - destruct IH as (Hi & Hf & He). unfold src_view in Hv. rewrite (q_deref Q _ Hi) in Hv. inversion Hv; subst l.
      destruct (src_consume_spec Q st Hi Hn) as (b' & G1 & G2 & G3). rewrite Hp in G1. inversion G1; subst st'.
      cbn [src_with src_buffer src_source src_request src_eoi]. auto.
    - destruct IH as (Hi & Hf & He). cbn. split; [assumption|]. split; [assumption|discriminate].
    - exact IH.
  Qed.
End LoggedHistory.
