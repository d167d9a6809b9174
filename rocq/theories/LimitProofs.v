(** Proofs about the limit of a GrowingBuffer. *)
From Coq Require Import List Bool Arith Lia.
From Verif Require Import Base Buffer Stream SpecBase SpecSafe SpecBuffer SpecStream SpecWord SpecLimit BufferProofs StreamProofs SimProofs WordProofs.
Import ListNotations.

Set Implicit Arguments.

(** * The limit is not noticed *)
Section Unnoticed.
  Context {St I : Type}.
  Variable ds : data_source St I.
  Variable L : nat.

  Definition within (b : growing I) : Prop := g_limit b = 0 /\ g_cap b <= L.

  Lemma deref_limited : forall b : growing I, growing_deref (limited L b) = growing_deref b.
  Proof. reflexivity. Qed.
  Lemma len_limited : forall b : growing I, growing_len (limited L b) = growing_len b.
  Proof. reflexivity. Qed.
  Lemma fill_limited : forall (b : growing I) s, growing_fill ds (limited L b) s = (let! (b, s, r) := growing_fill ds b s in Done (limited L b, s, r)).
  Proof.
    intros b s. unfold growing_fill. cbn [limited g_mem g_cap g_populated g_limit g_used g_alloc g_count]. destruct (assert _); try reflexivity. cbn [run_bind].
    destruct (ds_read _ _ _) as [[s1 w] [k|e]]; [|reflexivity]. destruct (assert _); reflexivity.
  Qed.
  Lemma consume_limited : forall (b : growing I) k, growing_consume (limited L b) k = (let! b := growing_consume b k in Done (limited L b)).
  Proof. intros b k. unfold growing_consume. cbn [limited g_mem g_cap g_populated g_limit g_used g_alloc g_count]. destruct (assert _); reflexivity. Qed.
  Lemma request_limited : forall (b : growing I) k, within b -> growing_request_space (limited L b) k = (let! b := growing_request_space b k in Done (limited L b)).
  Proof.
    intros b k [H1 H2]. unfold growing_request_space. cbn [limited g_mem g_cap g_populated g_limit g_used g_alloc g_count]. rewrite H1. cbn [Nat.eqb negb andb].
    replace (negb (L =? 0) && (L <? g_cap b)) with false by (symmetry; destruct (Nat.ltb_spec L (g_cap b)); [lia|apply andb_false_r]).
    rewrite len_limited. destruct (growing_len b) as [l| | |]; try reflexivity. cbn [run_bind].
    set (b1 := if g_cap b <? k + l then growing_set_len (growing_reserve b k) else b).
    replace (if g_cap b <? k + l then growing_set_len (growing_reserve (limited L b) k) else limited L b) with (limited L b1)
      by (unfold b1; destruct (_ <? _); [unfold growing_reserve, growing_set_len; cbn [limited g_mem g_cap g_populated g_limit g_used g_alloc g_count]; destruct (_ <=? _); reflexivity|reflexivity]).
    cbn [limited g_mem g_cap g_populated g_limit g_used g_alloc g_count]. destruct (usize_sub _ _) as [room| | |]; try reflexivity. cbn [run_bind].
    destruct (room <? k); [|reflexivity]. destruct (usize_sub _ _) as [n| | |]; try reflexivity. cbn [run_bind]. destruct (copy_down _ _ _); reflexivity.
  Qed.

  Lemma loop_limited : forall fuel q n b s, fill_loop ds (growing_ops I) fuel q n (limited L b) s =
    (let! (b, s, r) := fill_loop ds (growing_ops I) fuel q n b s in Done (limited L b, s, r)).
  Proof.
    induction fuel as [|fuel IH]; intros q n b s; [reflexivity|]. cbn [fill_loop growing_ops op_len op_fill]. rewrite len_limited.
    destruct (growing_len b) as [l| | |]; try reflexivity. cbn [run_bind]. destruct (l <? q); [|reflexivity]. rewrite fill_limited.
    destruct (growing_fill ds b s) as [[[b1 s1] r]| | |]; try reflexivity. cbn [run_bind]. destruct r as [[|k]|e]; try reflexivity. apply IH.
  Qed.

  Lemma requested_limited : forall q (st : src St (growing I)), within (src_buffer st) ->
    fill_requested ds (growing_ops I) q (src_limited L st) = ending (src_limited L) (fill_requested ds (growing_ops I) q st).
  Proof.
    intros q st Hw. unfold fill_requested, ending. cbn [growing_ops op_len op_request_space src_limited src_buffer src_source]. rewrite len_limited.
    destruct (growing_len _) as [l| | |]; try reflexivity. cbn [run_bind]. destruct (l <? q); [|reflexivity]. destruct (usize_sub q l) as [k| | |]; try reflexivity. cbn [run_bind].
    rewrite request_limited by assumption. destruct (growing_request_space _ _) as [b| | |]; try reflexivity. cbn [run_bind]. fold (growing_ops I). rewrite loop_limited.
    destruct (fill_loop _ _ _ _ _ _ _) as [[[b1 s1] r]| | |]; reflexivity.
  Qed.

  Lemma srcfill_limited : forall st : src St (growing I), within (src_buffer st) ->
    src_fill ds (growing_ops I) (src_limited L st) = ending (src_limited L) (src_fill ds (growing_ops I) st).
  Proof.
    intros st Hw. unfold src_fill. rewrite requested_limited by assumption. cbn [src_limited src_request]. unfold ending.
    destruct (fill_requested _ _ _ _) as [[st1 [n|e]]| | |]; try reflexivity. cbn [run_bind src_limited src_buffer growing_ops op_len]. rewrite len_limited.
    destruct (growing_len _); reflexivity.
  Qed.

  Lemma unnoticed : forall st : src St (growing I), within (src_buffer st) -> limit_unnoticed ds L st.
  Proof.
    intros st Hw. split; try reflexivity.
    - intros T E p. unfold src_parse. cbn [src_limited src_incomplete src_auto].
      set (f := if src_incomplete st && src_auto st then src_fill ds (growing_ops I) st else Done (st, IoOk 0)).
      replace (if src_incomplete st && src_auto st then src_fill ds (growing_ops I) (src_limited L st) else Done (src_limited L st, IoOk 0)) with (ending (src_limited L) f)
        by (unfold f; destruct (_ && _); [symmetry; apply srcfill_limited; assumption|reflexivity]).
      destruct f as [[st1 [n|e]]| | |]; try reflexivity. unfold ending. cbn [run_bind].
      replace (src_is_empty (growing_ops I) (src_limited L st1)) with (src_is_empty (growing_ops I) st1) by reflexivity.
      destruct (src_is_empty (growing_ops I) st1) as [[|]| | |]; try reflexivity. cbn [run_bind growing_ops op_deref op_len op_consume src_limited src_buffer src_eoi].
      rewrite deref_limited. destruct (growing_deref _) as [d| | |]; try reflexivity. cbn [run_bind].
      destruct (p _) as [j v|b x|k| |]; try reflexivity; rewrite len_limited; destruct (growing_len _) as [l| | |]; try reflexivity; cbn [run_bind].
      + destruct (usize_sub _ _) as [k| | |]; try reflexivity. cbn [run_bind]. rewrite consume_limited. destruct (growing_consume _ _); reflexivity.
      + destruct (usize_sub _ _) as [k| | |]; try reflexivity. cbn [run_bind]. rewrite consume_limited. destruct (growing_consume _ _); reflexivity.
      + destruct (src_eoi st1); reflexivity.
    - apply srcfill_limited; assumption.
    - intros n. unfold src_read. replace (src_len (growing_ops I) (src_limited L st)) with (src_len (growing_ops I) st) by reflexivity.
      unfold ending. destruct (src_len (growing_ops I) st) as [l| | |]; try reflexivity. cbn [run_bind].
      set (f := if l <? n then fill_requested ds (growing_ops I) n st else Done (st, IoOk 0)).
      replace (if l <? n then fill_requested ds (growing_ops I) n (src_limited L st) else Done (src_limited L st, IoOk 0)) with (ending (src_limited L) f)
        by (unfold f; destruct (_ <? _); [symmetry; apply requested_limited; assumption|reflexivity]).
      destruct f as [[st1 [k|e]]| | |]; try reflexivity. unfold ending. cbn [run_bind growing_ops op_deref op_consume src_limited src_buffer]. rewrite deref_limited.
      destruct (growing_deref _) as [d| | |]; try reflexivity. cbn [run_bind]. rewrite consume_limited. destruct (growing_consume _ _); reflexivity.
    - unfold src_fill_buf. replace (src_capacity (growing_ops I) (src_limited L st)) with (src_capacity (growing_ops I) st) by reflexivity.
      rewrite requested_limited by assumption. unfold ending. destruct (fill_requested _ _ _ _) as [[st1 [k|e]]| | |]; try reflexivity. cbn [run_bind].
      replace (src_view (growing_ops I) (src_limited L st1)) with (src_view (growing_ops I) st1) by reflexivity. destruct (src_view _ _); reflexivity.
    - intros n. unfold src_consume. cbn [growing_ops op_consume src_limited src_buffer]. rewrite consume_limited. destruct (growing_consume _ _); reflexivity.
  Qed.
End Unnoticed.

(** * Capacity *)
Section Capacity.
  Context {St I : Type}.
  Variable ds : data_source St I.
  Variables M A K : nat.
  Hypothesis HK : 2 * M - 1 + A <= K.
  Hypothesis HM : 1 <= M.

  (** No limit; capacity at most [K]; the allocator gives at most [A] more than asked. *)
  Definition lean (b : growing I) : Prop := growing_ok b /\ g_limit b = 0 /\ g_cap b <= K /\ forall k, g_alloc b k <= A.

  Lemma lean_fill : forall b s b' s' r, lean b -> growing_fill ds b s = Done (b', s', r) -> lean b'.
  Proof.
    intros b s b' s' r ((Hu & Hp & Hc) & Hl & Hk & Ha) H. unfold growing_fill in H. unbind. destruct (ds_read ds s _) as [[s1 w] [n|e]]; unbind; inversion H; subst; clear H;
      unfold lean, growing_ok; cbn [g_mem g_cap g_populated g_limit g_used g_alloc]; rewrite ?mem_length in *; repeat split; auto; lia.
  Qed.
  Lemma lean_consume : forall b n b', lean b -> growing_consume b n = Done b' -> lean b'.
  Proof.
    intros b n b' ((Hu & Hp & Hc) & Hl & Hk & Ha) H. unfold growing_consume in H. unbind. inversion H; subst; clear H.
    unfold lean, growing_ok; cbn [g_mem g_cap g_populated g_limit g_used g_alloc]; repeat split; auto; lia.
  Qed.
  Lemma lean_request : forall b n b' l, lean b -> growing_len b = Done l -> n + l <= Nat.max M (length (g_mem b)) -> growing_request_space b n = Done b' -> lean b'.
  Proof.
    intros b n b' l ((Hu & Hp & Hc) & Hl & Hk & Ha) Hlen Hn H. unfold growing_request_space in H. rewrite Hl in H. cbn [Nat.eqb negb andb] in H. rewrite Hlen in H. cbn [run_bind] in H.
    set (b1 := if g_cap b <? n + l then growing_set_len (growing_reserve b n) else b) in *.
    assert (Hb1 : lean b1).
    { unfold b1. destruct (Nat.ltb_spec (g_cap b) (n + l)); [|repeat split; assumption]. unfold growing_reserve, growing_set_len.
      destruct (Nat.leb_spec n (g_cap b - length (g_mem b))); unfold lean, growing_ok; cbn [g_mem g_cap g_populated g_limit g_used g_alloc];
        rewrite ?app_length, ?repeat_length; repeat split; auto; try lia. specialize (Ha (g_count b)). lia. }
    destruct Hb1 as ((Hu1 & Hp1 & Hc1) & Hl1 & Hk1 & Ha1). clearbody b1. unbind.
    destruct (_ <? n); unbind; inversion H; subst; clear H; [|repeat split; assumption].
    match goal with Hm : copy_down _ _ _ = Done _ |- _ => pose proof (copy_length _ _ _ Hm) end.
    unfold lean, growing_ok; cbn [g_mem g_cap g_populated g_limit g_used g_alloc]; repeat split; auto; lia.
  Qed.

  Lemma lean_loop : forall fuel q n b s b' s' r, lean b -> fill_loop ds (growing_ops I) fuel q n b s = Done (b', s', r) -> lean b'.
  Proof.
    induction fuel as [|fuel IH]; intros q n b s b' s' r Hb H; [discriminate|]. cbn [fill_loop growing_ops op_len op_fill] in H. apply bind_inv in H. destruct H as (l & Hl & H).
    destruct (l <? q); [|inversion H; subst; assumption]. apply bind_inv in H. destruct H as ([[b1 s1] x] & Hx & H). assert (Hb1 : lean b1) by (eapply lean_fill; eassumption).
    destruct x as [[|k]|e]; try (inversion H; subst; assumption). eapply IH; eassumption.
  Qed.

  (** What a call leaves alone. *)
  Lemma lean_requested : forall q (st st' : src St (growing I)) r, lean (src_buffer st) -> q <= Nat.max M (length (g_mem (src_buffer st))) ->
    fill_requested ds (growing_ops I) q st = Done (st', r) ->
    lean (src_buffer st') /\ src_request st' = src_request st /\ src_incomplete st' = src_incomplete st /\ src_auto st' = src_auto st.
  Proof.
    intros q st st' r Hb Hq H. unfold fill_requested in H. cbn [growing_ops op_len op_request_space] in H. apply bind_inv in H. destruct H as (l & Hl & H).
    destruct (Nat.ltb_spec l q); [|inversion H; subst; auto]. apply bind_inv in H. destruct H as (k & Hk & H). apply usize_sub_inv in Hk. destruct Hk as [_ Hk].
    apply bind_inv in H. destruct H as (b & Hr & H). apply bind_inv in H. destruct H as ([[b1 s1] x] & Hx & H). inversion H; subst; clear H.
    cbn [src_with src_buffer src_request src_incomplete src_auto]. split; [|auto].
    assert (lean b) by (eapply lean_request; [exact Hb|exact Hl| |exact Hr]; lia).
    eapply lean_loop; eassumption.
  Qed.
  Lemma lean_srcfill : forall (st st' : src St (growing I)) r, lean (src_buffer st) -> src_request st <= M -> src_fill ds (growing_ops I) st = Done (st', r) ->
    lean (src_buffer st') /\ src_request st' = src_request st /\ src_auto st' = src_auto st /\
    match r with IoOk _ => src_incomplete st' = false | IoErr _ => src_incomplete st' = src_incomplete st end.
  Proof.
    intros st st' r Hb Hq H. unfold src_fill in H. apply bind_inv in H. destruct H as ([st1 x] & Hx & H). apply lean_requested in Hx; [|assumption|lia].
    destruct Hx as (H1 & H2 & H3 & H4). destruct x; unbind; inversion H; subst; clear H; cbn [src_with src_buffer src_request src_incomplete src_auto]; auto.
  Qed.
  Lemma lean_parse : forall T E (p : parser I T E) (st st' : src St (growing I)) r, lean (src_buffer st) -> (src_incomplete st = true -> src_request st <= M) ->
    src_parse ds (growing_ops I) p st = Done (st', r) ->
    lean (src_buffer st') /\ src_auto st' = src_auto st /\
    ((src_request st' = src_request st /\ (src_incomplete st' = true -> src_incomplete st = true)) \/
     exists v n, growing_deref (src_buffer st') = Done v /\ growing_len (src_buffer st') = Done (src_request st' - n) /\ n <= src_request st' /\ p (mkInput (src_eoi st') v) = Incomplete n /\
       (src_auto st = true -> src_eoi st' = true -> src_incomplete st' = false) /\
       (src_eoi st' = false -> r = inr SRetry)).
  Proof.
    intros T E p st st' r Hb Hq H. unfold src_parse in H. apply bind_inv in H. destruct H as ([st1 x] & Hx & H).
    assert (H1 : lean (src_buffer st1) /\ src_request st1 = src_request st /\ src_auto st1 = src_auto st /\ (src_incomplete st1 = true -> src_incomplete st = true) /\
      (src_auto st = true -> match x with IoOk _ => src_incomplete st1 = false | IoErr _ => True end)).
    { destruct (src_incomplete st && src_auto st) eqn:Eia.
      - apply andb_true_iff in Eia. destruct Eia as [E1 E2]. apply lean_srcfill in Hx; auto. destruct Hx as (G1 & G2 & G3 & G4). do 4 (split; [auto|]). destruct x; auto.
      - inversion Hx; subst. do 4 (split; [auto|]). intros Ha. rewrite Ha, andb_true_r in Eia. assumption. }
    destruct H1 as (G1 & G2 & G3 & G4 & G5).
    destruct x; [|inversion H; subst; auto]. apply bind_inv in H. destruct H as (em & _ & H). destruct em; [inversion H; subst; auto|].
    cbn [growing_ops op_deref op_len op_consume] in H. apply bind_inv in H. destruct H as (d & Hd & H).
    destruct (p _) as [j v|b e|k| |] eqn:Ep; try discriminate; apply bind_inv in H; destruct H as (l & Hl & H).
    - apply bind_inv in H. destruct H as (c & _ & H). apply bind_inv in H. destruct H as (b1 & Hb1 & H). inversion H; subst; clear H.
      cbn [src_with src_buffer src_request src_incomplete src_auto]. split; [eapply lean_consume; [exact G1|exact Hb1]|auto].
    - apply bind_inv in H. destruct H as (c & _ & H). apply bind_inv in H. destruct H as (b1 & Hb1 & H). inversion H; subst; clear H.
      cbn [src_with src_buffer src_request src_incomplete src_auto]. split; [eapply lean_consume; [exact G1|exact Hb1]|auto].
    - destruct (src_eoi st1) eqn:Ee; inversion H; subst; clear H; cbn [src_with src_buffer src_request src_incomplete src_auto src_eoi]; split; auto; split; auto; right; exists d, k;
        rewrite ?Ee; (split; [assumption|]); (split; [rewrite Hl; f_equal; lia|]); (split; [lia|]); (split; [assumption|]); split; auto; discriminate.
  Qed.
  Lemma lean_read : forall n (st st' : src St (growing I)) r, lean (src_buffer st) -> n <= M -> src_read ds (growing_ops I) n st = Done (st', r) ->
    lean (src_buffer st') /\ src_request st' = src_request st.
  Proof.
    intros n st st' r Hb Hn H. unfold src_read in H. apply bind_inv in H. destruct H as (l & _ & H). apply bind_inv in H. destruct H as ([st1 x] & Hx & H).
    assert (H1 : lean (src_buffer st1) /\ src_request st1 = src_request st).
    { destruct (l <? n); [|inversion Hx; subst; auto]. apply lean_requested in Hx; [|assumption|lia]. tauto. }
    destruct H1 as [G1 G2]. destruct x; [|inversion H; subst; auto]. apply bind_inv in H. destruct H as (d & _ & H). apply bind_inv in H. destruct H as (b1 & Hb1 & H).
    inversion H; subst; clear H. cbn [src_with src_buffer src_request]. split; [eapply lean_consume; [exact G1|exact Hb1]|assumption].
  Qed.
  Lemma lean_fill_buf : forall (st st' : src St (growing I)) r, lean (src_buffer st) -> src_fill_buf ds (growing_ops I) st = Done (st', r) ->
    lean (src_buffer st') /\ src_request st' = src_request st.
  Proof.
    intros st st' r Hb H. unfold src_fill_buf in H. apply bind_inv in H. destruct H as ([st1 x] & Hx & H).
    apply lean_requested in Hx; [|assumption|unfold src_capacity; cbn [growing_ops op_capacity]; unfold growing_capacity; lia]. destruct Hx as (G1 & G2 & _).
    destruct x; [|inversion H; subst; auto]. apply bind_inv in H. destruct H as (d & _ & H). inversion H; subst. auto.
  Qed.
End Capacity.

(** * Histories *)
Section History.
  Context {St I : Type}.
  Variable ds : data_source St I.
  Variables M A K L : nat.
  Hypothesis HK : 2 * M - 1 + A <= K.
  Hypothesis HL : K <= L.
  Hypothesis HM : 1 <= M.
  Variable alloc : nat -> nat.
  Hypothesis HA : forall k, alloc k <= A.

  Lemma limited_new : forall s0 : St, src_with_buffer s0 (growing_with_limit 0 alloc L) = src_limited L (src_with_buffer s0 (growing_with_limit (I := I) 0 alloc 0)).
  Proof. reflexivity. Qed.
  Lemma lean_new : forall s0 : St, lean A K (src_buffer (src_with_buffer s0 (growing_with_limit (I := I) 0 alloc 0))).
  Proof. intros s0. unfold lean, growing_ok. cbn. repeat split; auto; lia. Qed.
  Lemma lean_within : forall b : growing I, lean A K b -> within L b.
  Proof. intros b (_ & H1 & H2 & _). split; [assumption|exact (Nat.le_trans _ _ _ H2 HL)]. Qed.

  Lemma ending_inv : forall X Y R (f : X -> Y) (r : run (X * R)) y x, ending f r = Done (y, x) -> exists a, r = Done (a, x) /\ y = f a.
  Proof. intros X Y R f r y x H. unfold ending in H. destruct r as [[a z]| | |]; inversion H; subst. eauto. Qed.

  Lemma modest_limited : forall s0 st out, modest_history ds (growing_ops I) M s0 (growing_with_limit 0 alloc L) st out ->
    exists st0, modest_history ds (growing_ops I) M s0 (growing_with_limit 0 alloc 0) st0 out /\ st = src_limited L st0 /\ lean A K (src_buffer st0) /\ src_request st0 <= M.
  Proof.
    intros s0 st out H. induction H as [|st out T E p st' r H IH Hw Hp Hq|st out st' r H IH Hp|st out n st' r H IH Hn Hp|st out st' r H IH Hp|st out l n st' H IH Hv Hn Hp|st out H IH|st out v H IH].
    - exists (src_with_buffer s0 (growing_with_limit 0 alloc 0)). split; [constructor|]. split; [reflexivity|]. split; [apply lean_new|cbn; lia].
    - destruct IH as (st0 & G1 & -> & G2 & G3). rewrite (lu_parse (unnoticed ds _ (lean_within G2))) in Hp. apply ending_inv in Hp. destruct Hp as (st1 & Hp & ->).
      exists st1. cbn [src_limited src_request] in Hq. split; [eapply mh_parse; eauto|]. split; [reflexivity|]. split; [|assumption]. eapply lean_parse; eauto.
    - destruct IH as (st0 & G1 & -> & G2 & G3). rewrite (lu_fill (unnoticed ds _ (lean_within G2))) in Hp. apply ending_inv in Hp. destruct Hp as (st1 & Hp & ->).
      exists st1. split; [eapply mh_fill; eauto|]. split; [reflexivity|]. destruct (lean_srcfill ds HK HM st0 G2 G3 Hp) as (G4 & G5 & _). split; [assumption|lia].
    - destruct IH as (st0 & G1 & -> & G2 & G3). rewrite (lu_read (unnoticed ds _ (lean_within G2))) in Hp. apply ending_inv in Hp. destruct Hp as (st1 & Hp & ->).
      exists st1. split; [exact (mh_read G1 Hn Hp)|]. split; [reflexivity|]. destruct (@lean_read St I ds M A K HK HM n st0 st1 r G2 Hn Hp) as (G4 & G5). split; [assumption|lia].
    - destruct IH as (st0 & G1 & -> & G2 & G3). rewrite (lu_fill_buf (unnoticed ds _ (lean_within G2))) in Hp. apply ending_inv in Hp. destruct Hp as (st1 & Hp & ->).
      exists st1. split; [eapply mh_fill_buf; eauto|]. split; [reflexivity|]. destruct (lean_fill_buf ds HK HM st0 G2 Hp) as (G4 & G5). split; [assumption|lia].
    - destruct IH as (st0 & G1 & -> & G2 & G3). rewrite (lu_consume (unnoticed ds _ (lean_within G2))) in Hp. apply bind_inv in Hp. destruct Hp as (st1 & Hp & Ep). inversion Ep; subst st'.
      exists st1. rewrite (lu_view (unnoticed ds _ (lean_within G2))) in Hv. split; [eapply mh_consume; eauto|]. split; [reflexivity|].
      unfold src_consume in Hp. apply bind_inv in Hp. destruct Hp as (b & Hb & Hp). inversion Hp; subst. cbn [src_with src_buffer src_request]. split; [eapply lean_consume; [exact G2|exact Hb]|assumption].
    - destruct IH as (st0 & G1 & -> & G2 & G3). exists (src_reset st0). split; [apply mh_reset; assumption|]. auto.
    - destruct IH as (st0 & G1 & -> & G2 & G3). exists (src_set_autofill v st0). split; [apply mh_autofill; assumption|]. auto.
  Qed.
End History.

Lemma modest_is_history : forall St I B (ds : data_source St I) (ops : buffer_ops I B) M s0 b0 st out,
  modest_history ds ops M s0 b0 st out -> history ds ops (fun _ _ _ => True) s0 b0 st out.
Proof.
  intros St I B ds ops M s0 b0 st out H. induction H.
  - constructor.
  - eapply h_parse; eauto.
  - eapply h_fill; eauto.
  - eapply h_read; eauto.
  - eapply h_fill_buf; eauto.
  - eapply h_consume; eauto.
  - apply h_reset; assumption.
  - apply h_autofill; assumption.
Qed.

(** * Programs *)
Section Program.
  Context {St I : Type}.
  Variable ds : data_source St I.
  Hypothesis Ho : obeys ds.
  Variable R : St -> list I -> nat -> Prop.
  Hypothesis HR : delivers ds R.
  Variables M A L : nat.
  Hypothesis HL : 2 * M - 1 + A <= L.
  Hypothesis HM : 1 <= M.

  Notation stands0 := (stands (@growing_inv0 I) (@growing_view I) (fun _ => True) R).
  Definition ready (st : src St (growing I)) : Prop := lean A L (src_buffer st) /\ (src_incomplete st = true -> src_request st <= M).

  Lemma parse_ready : forall T E (p : parser I T E) st st' r rest d e, stands0 st rest d e -> suits (fun _ => True) rest p -> asks_within M rest p -> ready st ->
    src_parse ds (growing_ops I) p st = Done (st', r) -> ready st'.
  Proof.
    intros T E p st st' r rest d e Hst Hsu Ha [H1 H2] Hp. destruct (lean_parse ds HL HM p st H1 H2 Hp) as (G1 & G2 & G3). split; [assumption|].
    intros Hinc. destruct G3 as [[G3 G4]|(v & n & G3 & G4 & G5 & G6 & G7 & G9)]; [rewrite G3; auto|].
    assert (Hauto : src_auto st = true) by apply Hst. specialize (G7 Hauto). destruct (src_eoi st') eqn:Ee; [rewrite G7 in Hinc by reflexivity; discriminate|].
    assert (Hv : exists d', rest = v ++ d' /\ growing_len (src_buffer st') = Done (length v)).
    { destruct (parse_step growing_queue0 Ho HR Hst Hsu) as [(st2 & r2 & d' & e' & E1 & E2 & E3 & _)|[(E0 & st2 & d' & E1 & E3 & _)|[(_ & _ & E1)|(_ & st2 & d' & o & rest' & o' & E1 & E3 & E4 & E5 & E6)]]]; try congruence.
      - rewrite Hp in E1. inversion E1; subst st2 r2. destruct E3 as (E3 & _ & E4 & _). exists d'.
        pose proof (q_deref growing_queue0 _ E3) as E5. pose proof (q_len growing_queue0 _ E3) as E6. cbn [growing_ops op_deref op_len] in E5, E6. rewrite E5 in G3. inversion G3; subst v. auto.
      - rewrite Hp in E1. inversion E1; subst st2 r. destruct E3 as (E3 & _ & E4 & _). exists d'.
        pose proof (q_deref growing_queue0 _ E3) as E5. pose proof (q_len growing_queue0 _ E3) as E6. cbn [growing_ops op_deref op_len] in E5, E6. rewrite E5 in G3. inversion G3; subst v. auto.
      - exfalso. rewrite Hp in E1. inversion E1; subst st2 r. destruct E3 as (E3 & _ & E7 & _ & _ & _).
        pose proof (q_deref growing_queue0 _ E3) as E8. cbn [growing_ops op_deref] in E8. rewrite E8 in G3. inversion G3; subst v.
        rewrite (G9 eq_refl) in E6. destruct (p (mkInput true rest)) as [j w|b x'|k| |]; cbn [whole same] in *; try contradiction; destruct E5; subst o'; discriminate. }
    destruct Hv as (d' & Hv & Hlen). rewrite Hlen in G4. inversion G4 as [G8]. pose proof (Ha _ _ _ Hv G6). lia.
  Qed.

  Lemma insist_limited : forall T E (p : parser I T E) fuel st rest d e, stands0 st rest d e -> suits (fun _ => True) rest p -> asks_within M rest p -> ready st ->
    insist ds (growing_ops I) fuel p (src_limited L st) = ending (src_limited L) (insist ds (growing_ops I) fuel p st) /\
    forall st' r, insist ds (growing_ops I) fuel p st = Done (st', r) -> ready st'.
  Proof.
    intros T E p. induction fuel as [|fuel IH]; intros st rest d e Hst Hsu Ha Hr; [split; [reflexivity|discriminate]|]. cbn [insist].
    assert (Hw : within L (src_buffer st)) by (eapply lean_within; [apply Nat.le_refl|apply Hr]). rewrite (lu_parse (unnoticed ds _ Hw)).
    destruct (src_parse ds (growing_ops I) p st) as [[st1 r]| | |] eqn:Ep; try (split; [reflexivity|discriminate]). unfold ending at 1. cbn [run_bind].
    pose proof (parse_ready Hst Hsu Ha Hr Ep) as Hr1.
    assert (Hend : forall z, z = Done (st1, r) -> ending (src_limited L) z = Done (src_limited L st1, r)) by (intros z ->; reflexivity).
    assert (Hstop : Done (src_limited L st1, r) = ending (src_limited L) (Done (st1, r)) /\ forall st' r', Done (st1, r) = Done (st', r') -> ready st')
      by (split; [reflexivity|intros st' r' Eq; inversion Eq; subst; assumption]).
    assert (Hgo : r = inr SRetry \/ (exists x, r = inr (SIoError x)) ->
      insist ds (growing_ops I) fuel p (src_limited L st1) = ending (src_limited L) (insist ds (growing_ops I) fuel p st1) /\
      forall st' r', insist ds (growing_ops I) fuel p st1 = Done (st', r') -> ready st').
    { intros Hc. destruct (parse_step growing_queue0 Ho HR Hst Hsu) as [(st2 & r2 & d' & e' & E1 & E2 & E3 & _)|[(E0 & st2 & d' & E1 & E3 & _)|[(_ & _ & E1)|(_ & st2 & d' & o & rest' & o' & E1 & E3 & E4 & E5 & E6)]]]; rewrite Ep in E1; inversion E1; subst.
      - exact (IH _ _ _ _ E3 Hsu Ha Hr1).
      - destruct Hc as [Hc|[x Hc]]; discriminate.
      - exfalso. destruct (p (mkInput true rest)) as [j w|b x'|k| |]; cbn [whole] in E5; try contradiction; destruct E5 as [_ ->]; destruct Hc as [->|[x ->]]; discriminate. }
    destruct r as [v|[b x|n|x| |]]; auto; apply Hgo; eauto.
  Qed.

  Lemma on_source_limited : forall T E (c : script I T E) fuel s st d e, ss_pos s <= length (ss_slice s) -> stands0 st (rest_of s) d e ->
    script_suits (fun _ => True) s c -> script_within M s c -> 2 * length d + e + 1 < fuel -> ready st ->
    on_source_full ds (growing_ops I) fuel c (src_limited L st) = on_source_full ds (growing_ops I) fuel c st /\
    on_source ds (growing_ops I) fuel c (src_limited L st) = on_source ds (growing_ops I) fuel c st.
  Proof.
    intros T E c fuel. induction c as [|p k IH]; intros s st d e Hpos Hst Hc Ha Hf Hr; [split; reflexivity|].
    inversion Hc as [|s1 p1 k1 Hsu Hk]; subst. inversion Ha as [|s2 p2 k2 Hask Hka]; subst. cbn [on_source_full on_source].
    destruct (insist_limited fuel Hst Hsu Hask Hr) as [H1 H2]. rewrite H1.
    destruct (insist ds (growing_ops I) fuel p st) as [[st1 r]| | |] eqn:Ei; try (split; reflexivity). unfold ending. cbn [run_bind]. specialize (H2 _ _ eq_refl).
    assert (Hm : measure (@growing_view I) st d e < fuel) by (unfold measure; destruct (_ && _); lia). fold (rest_of s) in Hsu.
    assert (Hnext : exists s' r' d' e', slice_parse p s = Done (s', r') /\ forget r = forget r' /\ ss_pos s' <= length (ss_slice s') /\ stands0 st1 (rest_of s') d' e' /\ length d' <= length d /\ e' <= e).
    { destruct (insist_spec growing_queue0 Ho HR Hst Hsu Hm) as [(E1 & st' & d' & e' & E2 & E3 & E4 & E5)|[(E1 & E2 & E3)|(E1 & st' & d' & e' & out & rest' & out' & E2 & E3 & E4 & E5 & E6 & E7)]].
      - destruct (slice_parse_spec s Hpos (su_well_behaved Hsu)) as [[G1 G2]|[G1 _]]; [|contradiction]. rewrite Ei in E2. inversion E2; subst.
        exists s, (inr SEndOfInput), d', e'. auto 10.
      - congruence.
      - rewrite Ei in E2. inversion E2; subst st' out.
        destruct (slice_parse_spec s Hpos (su_well_behaved Hsu)) as [[G1 G2]|[_ [[G1 G2]|[[G1 G2]|(s' & out2 & G1 & G2 & G3 & G4)]]]]; try congruence.
        + rewrite G1 in E6. contradiction.
        + rewrite G1 in E6. contradiction.
        + assert (Hw : rest_of s' = rest' /\ out2 = out').
          { destruct (p (mkInput true (rest_of s))); cbn [whole] in *; try contradiction; destruct E6, G4; split; congruence. }
          destruct Hw as [Hw1 Hw2]. subst out2. exists s', out', d', e'. rewrite Hw1. split; [assumption|]. split; [apply (same_forget _ _ E7)|]. auto 10. }
    destruct Hnext as (s' & r' & d' & e' & G1 & G2 & G3 & G4 & G5 & G6). rewrite G2.
    destruct (IH (forget r') s' st1 d' e' G3 G4) as [I1 I2]; [apply (Hk _ _ G1)|apply (Hka _ _ G1)|lia|assumption|]. rewrite I1, I2. auto.
  Qed.
End Program.

(** * Beyond the limit *)
Section Kept.
  Context {St I B : Type}.
  Variable ds : data_source St I.
  Variable ops : buffer_ops I B.
  Variable J : B -> Prop.
  Hypothesis Jfill : forall b (s : St) b' s' r, J b -> op_fill ops ds b s = Done (b', s', r) -> J b'.
  Hypothesis Jconsume : forall b n b', J b -> op_consume ops b n = Done b' -> J b'.
  Hypothesis Jrequest : forall b n b', J b -> op_request_space ops b n = Done b' -> J b'.

  Lemma kept_loop : forall fuel q n b s b' s' r, J b -> fill_loop ds ops fuel q n b s = Done (b', s', r) -> J b'.
  Proof.
    induction fuel as [|fuel IH]; intros q n b s b' s' r Hb H; [discriminate|]. cbn [fill_loop] in H. apply bind_inv in H. destruct H as (l & Hl & H).
    destruct (l <? q); [|inversion H; subst; assumption]. apply bind_inv in H. destruct H as ([[b1 s1] x] & Hx & H). assert (Hb1 : J b1) by (eapply Jfill; eassumption).
    destruct x as [[|k]|e]; try (inversion H; subst; assumption). eapply IH; eassumption.
  Qed.
  Lemma kept_requested : forall q (st st' : src St B) r, J (src_buffer st) -> fill_requested ds ops q st = Done (st', r) -> J (src_buffer st').
  Proof.
    intros q st st' r Hb H. unfold fill_requested in H. apply bind_inv in H. destruct H as (l & Hl & H). destruct (l <? q); [|inversion H; subst; auto].
    apply bind_inv in H. destruct H as (k & Hk & H). apply bind_inv in H. destruct H as (b & Hr & H). apply bind_inv in H. destruct H as ([[b1 s1] x] & Hx & H). inversion H; subst; clear H.
    cbn [src_with src_buffer]. eapply kept_loop; [|exact Hx]. eapply Jrequest; [exact Hb|exact Hr].
  Qed.
  Lemma kept_fill : forall (st st' : src St B) r, J (src_buffer st) -> src_fill ds ops st = Done (st', r) -> J (src_buffer st').
  Proof.
    intros st st' r Hb H. unfold src_fill in H. apply bind_inv in H. destruct H as ([st1 x] & Hx & H). apply kept_requested in Hx; [|assumption].
    destruct x; [apply bind_inv in H; destruct H as (l & _ & H)|]; inversion H; subst; exact Hx.
  Qed.
  Lemma kept_parse : forall T E (p : parser I T E) (st st' : src St B) r, J (src_buffer st) -> src_parse ds ops p st = Done (st', r) -> J (src_buffer st').
  Proof.
    intros T E p st st' r Hb H. unfold src_parse in H. apply bind_inv in H. destruct H as ([st1 x] & Hx & H).
    assert (H1 : J (src_buffer st1)) by (destruct (_ && _); [eapply kept_fill; eassumption|inversion Hx; subst; assumption]).
    destruct x; [|inversion H; subst; auto]. apply bind_inv in H. destruct H as (em & _ & H). destruct em; [inversion H; subst; auto|].
    apply bind_inv in H. destruct H as (d & Hd & H). destruct (p _); try discriminate; apply bind_inv in H; destruct H as (l & Hl & H).
    - apply bind_inv in H. destruct H as (c & _ & H). apply bind_inv in H. destruct H as (b1 & Hb1 & H). inversion H; subst. eapply Jconsume; [exact H1|exact Hb1].
    - apply bind_inv in H. destruct H as (c & _ & H). apply bind_inv in H. destruct H as (b1 & Hb1 & H). inversion H; subst. eapply Jconsume; [exact H1|exact Hb1].
    - destruct (src_eoi st1); inversion H; subst; exact H1.
  Qed.
  Lemma kept_consume : forall n (st st' : src St B), J (src_buffer st) -> src_consume ops n st = Done st' -> J (src_buffer st').
  Proof. intros n st st' Hb H. unfold src_consume in H. apply bind_inv in H. destruct H as (b1 & Hb1 & H). inversion H; subst. eapply Jconsume; [exact Hb|exact Hb1]. Qed.
  Lemma kept_read : forall n (st st' : src St B) r, J (src_buffer st) -> src_read ds ops n st = Done (st', r) -> J (src_buffer st').
  Proof.
    intros n st st' r Hb H. unfold src_read in H. apply bind_inv in H. destruct H as (l & _ & H). apply bind_inv in H. destruct H as ([st1 x] & Hx & H).
    assert (H1 : J (src_buffer st1)) by (destruct (l <? n); [eapply kept_requested; eassumption|inversion Hx; subst; assumption]).
    destruct x; [|inversion H; subst; auto]. apply bind_inv in H. destruct H as (d & _ & H). apply bind_inv in H. destruct H as (b1 & Hb1 & H). inversion H; subst.
    eapply Jconsume; [exact H1|exact Hb1].
  Qed.
  Lemma kept_fill_buf : forall (st st' : src St B) r, J (src_buffer st) -> src_fill_buf ds ops st = Done (st', r) -> J (src_buffer st').
  Proof.
    intros st st' r Hb H. unfold src_fill_buf in H. apply bind_inv in H. destruct H as ([st1 x] & Hx & H). apply kept_requested in Hx; [|assumption].
    destruct x; [apply bind_inv in H; destruct H as (l & _ & H)|]; inversion H; subst; exact Hx.
  Qed.

  Lemma kept_later : forall (st st' : src St B), later ds ops st st' -> J (src_buffer st) -> J (src_buffer st').
  Proof.
    intros st st' H Hb. induction H; auto.
    - eapply kept_parse; eauto.
    - eapply kept_fill; eauto.
    - eapply kept_read; eauto.
    - eapply kept_fill_buf; eauto.
    - eapply kept_consume; eauto.
  Qed.
End Kept.

(** Beyond its limit: this limit, this much memory. *)
Definition beyond {I} (limit cap size : nat) (b : growing I) : Prop := g_limit b = limit /\ g_cap b = cap /\ length (g_mem b) = size.

Lemma beyond_later : forall St I (ds : data_source St I) limit cap size st st', limit <> 0 -> limit < cap -> later ds (growing_ops I) st st' ->
  beyond limit cap size (src_buffer st) -> beyond limit cap size (src_buffer st').
Proof.
  intros St I ds limit cap size st st' H0 Hc H Hb. eapply kept_later; [| | |exact H|exact Hb]; clear - H0 Hc; cbn [growing_ops op_fill op_consume op_request_space]; unfold beyond.
  - intros b s b' s' r (H1 & H2 & H3) H. unfold growing_fill in H. unbind. destruct (ds_read ds s _) as [[s1 w] [n|e]]; unbind; inversion H; subst; clear H;
      cbn [g_mem g_cap g_limit]; rewrite mem_length; auto.
  - intros b n b' (H1 & H2 & H3) H. unfold growing_consume in H. unbind. inversion H; subst; auto.
  - intros b n b' (H1 & H2 & H3) H. unfold growing_request_space in H. rewrite H1, H2 in H. apply Nat.eqb_neq in H0. apply Nat.ltb_lt in Hc. rewrite H0, Hc in H. inversion H; subst; auto.
Qed.

(** Growth happens within the limit only. *)
Lemma request_growth : forall I (b : growing I) k b' l, length (g_mem b) <= g_cap b -> growing_len b = Done l -> growing_request_space b k = Done b' ->
  g_cap b' = g_cap b \/ ((g_limit b = 0 \/ g_cap b <= g_limit b) /\ g_cap b < k + l /\ g_cap b' <= g_cap b + k + g_alloc b (g_count b)).
Proof.
  intros I b k b' l Hc Hl H. unfold growing_request_space in H. destruct (negb (g_limit b =? 0) && (g_limit b <? g_cap b)) eqn:E; [inversion H; subst; auto|].
  assert (Hlim : g_limit b = 0 \/ g_cap b <= g_limit b).
  { apply andb_false_iff in E. destruct E as [E|E]; [left; apply negb_false_iff, Nat.eqb_eq in E; assumption|right; apply Nat.ltb_ge in E; assumption]. }
  rewrite Hl in H. cbn [run_bind] in H. set (b1 := if g_cap b <? k + l then growing_set_len (growing_reserve b k) else b) in *.
  assert (Hb1 : g_cap b1 = g_cap b \/ (g_cap b < k + l /\ g_cap b1 <= g_cap b + k + g_alloc b (g_count b))).
  { unfold b1. destruct (Nat.ltb_spec (g_cap b) (k + l)); [|auto]. unfold growing_reserve, growing_set_len. destruct (_ <=? _); cbn [g_cap]; [auto|right]. split; [assumption|lia]. }
  clearbody b1. unbind. destruct (_ <? k); unbind; inversion H; subst; cbn [g_cap]; destruct Hb1 as [Hb1|[Hb1 Hb2]]; auto.
Qed.
