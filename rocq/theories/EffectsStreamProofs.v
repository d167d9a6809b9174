(** Proofs about streams and callbacks that act on an outside world (C53): a call runs the parser at most once; how often the retries
    can repeat its work. *)
From Coq Require Import List Bool Arith Lia.
From Verif Require Import Base Parsers Combinators Buffer Stream SpecBase SpecSafe SpecBuffer SpecStream SpecIter Effects SpecEffects
  BufferProofs StreamProofs SimProofs HistoryProofs EffectsProofs.
Import ListNotations.

Set Implicit Arguments.

(** * One call *)

Lemma slice_parse_w_bridge : forall W I T E (p : sparser W I T E) s w,
  fst (slice_parse_w p s w) = slice_parse (fun i => fst (p w i)) s.
Proof.
  intros W I T E p s w. unfold slice_parse_w, slice_parse. destruct (slice_is_empty s) as [[]| | |]; cbn [run_bind]; auto.
  destruct (p w (mkInput true (skipn (ss_pos s) (ss_slice s)))) as [r w1]. reflexivity.
Qed.

Lemma slice_parse_w_world : forall W I T E (p : sparser W I T E) s w,
  snd (slice_parse_w p s w) =
    match slice_is_empty s with Done false => snd (p w (mkInput true (skipn (ss_pos s) (ss_slice s)))) | _ => w end.
Proof.
  intros W I T E p s w. unfold slice_parse_w. destruct (slice_is_empty s) as [[]| | |]; auto.
  destruct (p w (mkInput true (skipn (ss_pos s) (ss_slice s)))) as [r w1]. reflexivity.
Qed.

Section Source.
  Context {W St I B : Type}.
  Variable ds : data_source St I.
  Variable ops : buffer_ops I B.

  Lemma src_parse_w_bridge : forall T E (p : sparser W I T E) st w,
    fst (src_parse_w ds ops p st w) = src_parse ds ops (fun i => fst (p w i)) st.
  Proof.
    intros T E p st w. unfold src_parse_w, src_parse.
    destruct (if src_incomplete st && src_auto st then src_fill ds ops st else Done (st, IoOk 0)) as [[st1 [n|e]]| | |]; cbn [run_bind]; auto.
    destruct (src_is_empty ops st1) as [[]| | |]; cbn [run_bind]; auto.
    destruct (op_deref ops (src_buffer st1)) as [data| | |]; cbn [run_bind]; auto.
    destruct (p w (mkInput (src_eoi st1) data)) as [r w1]. reflexivity.
  Qed.

  (** The parser is run on [i], or not at all; the latter goes for all parsers alike. *)
  Lemma src_parse_w_once : forall T E (p : sparser W I T E) st w,
    (snd (src_parse_w ds ops p st w) = w /\
     forall (q : sparser W I T E) w', src_parse_w ds ops q st w' = (fst (src_parse_w ds ops p st w), w')) \/
    (exists i, forall (q : sparser W I T E) w', snd (src_parse_w ds ops q st w') = snd (q w' i)).
  Proof.
    intros T E p st w. unfold src_parse_w.
    destruct (if src_incomplete st && src_auto st then src_fill ds ops st else Done (st, IoOk 0)) as [[st1 [n|e]]| | |]; auto.
    destruct (src_is_empty ops st1) as [[]| | |]; auto.
    destruct (op_deref ops (src_buffer st1)) as [data| | |]; auto.
    right. exists (mkInput (src_eoi st1) data). intros q w'. destruct (q w' (mkInput (src_eoi st1) data)) as [r w1]. reflexivity.
  Qed.

  Lemma src_parse_w_moves : forall (R : W -> W -> Prop) T E (p : sparser W I T E) st, preorder R -> moves R p ->
    forall w, R w (snd (src_parse_w ds ops p st w)).
  Proof.
    intros R T E p st HR Hp w. destruct (src_parse_w_once p st w) as [[H _]|[i H]]; [rewrite H; apply HR|]. rewrite H. apply Hp.
  Qed.

  Lemma insist_w_bridge : forall T E (p : sparser W I T E) q fuel st w, parses_as p q ->
    fst (insist_w ds ops fuel p st w) = insist ds ops fuel q st.
  Proof.
    intros T E p q fuel st w Hp. revert st w. induction fuel as [|fuel IH]; intros st w; auto. cbn [insist_w insist].
    assert (Hs : fst (src_parse_w ds ops p st w) = src_parse ds ops q st).
    { rewrite src_parse_w_bridge. unfold src_parse.
      destruct (if src_incomplete st && src_auto st then src_fill ds ops st else Done (st, IoOk 0)) as [[st1 [n|e]]| | |]; cbn [run_bind]; auto.
      destruct (src_is_empty ops st1) as [[]| | |]; cbn [run_bind]; auto.
      destruct (op_deref ops (src_buffer st1)) as [data| | |]; cbn [run_bind]; auto. rewrite Hp. reflexivity. }
    destruct (src_parse_w ds ops p st w) as [r w1]. cbn [fst] in Hs. rewrite <- Hs.
    destruct r as [[st1 [t|[| | | |]]]| | |]; cbn [run_bind fst]; auto.
  Qed.

  Lemma insist_w_moves : forall (R : W -> W -> Prop) T E (p : sparser W I T E), preorder R -> moves R p ->
    forall fuel st w, R w (snd (insist_w ds ops fuel p st w)).
  Proof.
    intros R T E p HR Hp. induction fuel as [|fuel IH]; intros st w; [apply HR|]. cbn [insist_w].
    pose proof (src_parse_w_moves st HR Hp w) as H. destruct (src_parse_w ds ops p st w) as [r w1]. cbn [snd] in H.
    destruct r as [[st1 [t|[| | | |]]]| | |]; cbn [snd]; auto; eapply HR; eauto.
  Qed.
End Source.

(** * The cost of retrying *)

(** [g l + ... + g n]. *)
Fixpoint sum_from (g : nat -> nat) (l m : nat) : nat := match m with 0 => 0 | S m => g l + sum_from g (S l) m end.

Lemma sum_from_skip : forall g m k l, sum_from g (l + k) m <= sum_from g l (k + m).
Proof.
  intros g m. induction k as [|k IH]; intros l; [rewrite Nat.add_0_r; auto|].
  specialize (IH (S l)). replace (l + S k) with (S l + k) by lia. change (sum_from g l (S k + m)) with (g l + sum_from g (S l) (k + m)). lia.
Qed.

Lemma sum_from_last : forall g m l, sum_from g l (S m) = sum_from g l m + g (l + m).
Proof.
  intros g m. induction m as [|m IH]; intros l; [simpl; rewrite !Nat.add_0_r; lia|].
  change (sum_from g l (S (S m))) with (g l + sum_from g (S l) (S m)). rewrite IH.
  change (sum_from g l (S m)) with (g l + sum_from g (S l) m). replace (S l + m) with (l + S m) by lia. lia.
Qed.

Lemma sum_from_to : forall g n, sum_from g 0 (S n) = sum_to g n.
Proof. intros g. induction n as [|n IH]; [simpl; lia|]. rewrite sum_from_last, IH. reflexivity. Qed.

Section Cost.
  Context {W St I B : Type}.
  Variable ds : data_source St I.
  Variable ops : buffer_ops I B.
  Variable inv : B -> Prop.
  Variable view : B -> list I.
  Variable room : B -> nat.
  Variable fits : nat -> Prop.
  Hypothesis Q : queue_like ops inv view room fits.
  Variable R : St -> list I -> nat -> Prop.
  Hypothesis HR : delivers ds R.
  Variable cost : W -> nat.
  Variable g : nat -> nat.
  Hypothesis Hmono : forall m n, m <= n -> g m <= g n.

  Hypothesis Ho : obeys ds.

  (** Everything about one call, as [call_ran] of HistoryProofs.v, with the world. *)
  Lemma call_ran_w : forall T E (p : sparser W I T E) st st' out w w', inv (src_buffer st) -> well_behaved (fun i => fst (p w i)) ->
    src_parse_w ds ops p st w = (Done (st', out), w') ->
    exists new e en, reads ds (src_source st) (src_source st') new e en /\ inv (src_buffer st') /\ src_auto st' = src_auto st /\
      ((exists x, out = inr (SIoError x) /\ view (src_buffer st') = view (src_buffer st) ++ new /\ w' = w /\
         src_incomplete st' = true /\ src_request st' = src_request st /\ src_incomplete st = true) \/
       (out = inr SEndOfInput /\ w' = w) \/
       (w' = snd (p w (mkInput (src_eoi st') (view (src_buffer st) ++ new))) /\
        ran (fun i => fst (p w i)) (src_eoi st') (view (src_buffer st) ++ new) out (view (src_buffer st')) /\
        (forall n, fst (p w (mkInput (src_eoi st') (view (src_buffer st) ++ new))) = Incomplete n -> src_eoi st' = false ->
           src_incomplete st' = true /\ src_request st' = length (view (src_buffer st)) + length new + n) /\
        (src_incomplete st = true -> src_auto st = true ->
           src_eoi st' = true \/ Nat.max 1 (src_request st) <= length (view (src_buffer st)) + length new))).
  Proof.
    intros T E p st st' out w w' Hi Hw Hp0.
    assert (Hp : src_parse ds ops (fun i => fst (p w i)) st = Done (st', out)) by (rewrite <- src_parse_w_bridge, Hp0; reflexivity).
    destruct (call_ran Q Ho st Hi Hw Hp) as (new0 & e0 & en0 & A1 & A2 & A3 & A4 & _).
    destruct (src_parse_spec Q Ho st Hi Hw) as [(st1 & x & H1 & H2 & H3 & H4)|(st1 & H1 & H2)].
    { rewrite Hp in H4. inversion H4; subst st1 out. destruct (src_fill_spec Q Ho st Hi) as (st2 & r & new & e & en & G1 & G2 & G3 & G4 & G5 & G6 & G7).
      rewrite H3 in G1. inversion G1; subst st2 r. exists new, e, en. destruct G7 as (G7 & G8 & G9 & G10).
      split; [assumption|]. split; [assumption|]. split; [assumption|]. left. exists x. split; [reflexivity|].
      split; [assumption|]. split; [|repeat split; auto; congruence].
      unfold src_parse_w in Hp0. rewrite H1, H2 in Hp0. cbn [andb] in Hp0. rewrite H3 in Hp0. inversion Hp0; reflexivity. }
    assert (Hst1 : exists new en, reads ds (src_source st) (src_source st1) new 0 en /\ inv (src_buffer st1) /\ view (src_buffer st1) = view (src_buffer st) ++ new /\
      src_auto st1 = src_auto st /\
      (src_incomplete st = true -> src_auto st = true -> src_eoi st1 = true \/ Nat.max 1 (src_request st) <= length (view (src_buffer st)) + length new)).
    { destruct (src_incomplete st && src_auto st) eqn:Hia.
      - destruct H1 as [m H1]. destruct (src_fill_spec Q Ho st Hi) as (st2 & r2 & new & e & en & G1 & G2 & G3 & G4 & G5 & G6 & G7).
        rewrite H1 in G1. inversion G1; subst st2 r2. destruct G7 as (-> & _ & G7 & G8 & _). exists new, en.
        split; [assumption|]. split; [assumption|]. split; [assumption|]. split; [assumption|].
        intros _ _. destruct (src_eoi st1); [auto|right]. symmetry in G8. apply Nat.ltb_ge in G8. rewrite G4, app_length in G8. exact G8.
      - subst st1. exists [], false. split; [apply rd_none|]. split; [assumption|]. rewrite app_nil_r. repeat split; auto.
        intros Ha Hb. rewrite Ha, Hb in Hia. discriminate. }
    destruct Hst1 as (new & en & G1 & G2 & G3 & G4 & G6). exists new, 0, en.
    assert (Hfill : exists m, (if src_incomplete st && src_auto st then src_fill ds ops st else Done (st, IoOk 0)) = Done (st1, IoOk m)).
    { destruct (src_incomplete st && src_auto st); [assumption|subst st1; eauto]. }
    destruct Hfill as (m & Hfill). unfold src_parse_w in Hp0. rewrite Hfill in Hp0.
    cbn zeta in H2. rewrite G3 in H2.
    destruct H2 as [(H2 & H3 & H4)|[H2 [(H3 & H4)|[(H3 & H4)|(st2 & out2 & H3 & H4 & H5 & H6 & H7 & H8)]]]]; rewrite Hp in *; try discriminate.
    - inversion H4; subst st1 out. split; [assumption|]. split; [assumption|]. split; [assumption|]. right. left. split; [reflexivity|].
      unfold src_is_empty, src_len in Hp0. rewrite H2 in Hp0. rewrite (q_len Q _ G2), G3, H3 in Hp0. cbn in Hp0. inversion Hp0; reflexivity.
    - inversion H3; subst st2 out2. rewrite H5. split; [assumption|]. split; [assumption|]. split; [congruence|]. right. right.
      rewrite H6. split.
      { assert (He : src_is_empty ops st1 = Done false).
        { unfold src_is_empty, src_len. rewrite (q_len Q _ G2), G3. cbn [run_bind]. destruct H2 as [->|H2]; [reflexivity|].
          destruct (view (src_buffer st) ++ new); [contradiction|]. destruct (src_eoi st1); reflexivity. }
        rewrite He, (q_deref Q _ G2), G3 in Hp0. destruct (p w (mkInput (src_eoi st1) (view (src_buffer st) ++ new))) as [r w2]. inversion Hp0; reflexivity. }
      unfold ran. destruct (fst (p w (mkInput (src_eoi st1) (view (src_buffer st) ++ new)))) as [j v|b x|n| |] eqn:Ep; cbn [answer] in H8; try contradiction.
      + destruct H8 as (-> & -> & _). split; [auto|]. split; [congruence|assumption].
      + destruct H8 as (-> & -> & _). split; [auto|]. split; [congruence|assumption].
      + destruct H8 as (H8 & H9 & H10). rewrite H8, G3. split.
        * destruct (src_eoi st1); destruct H10 as [-> _]; auto.
        * split; [|assumption]. intros n' Hn He. inversion Hn; subst n'. rewrite He in H10. destruct H10 as [_ H10]. rewrite H9, app_length. auto.
  Qed.

  (** The sizes on which the parser can still be run, before the end of input, are at least [l]. *)
  Definition from_size (st : src St B) (l : nat) : Prop :=
    l <= length (view (src_buffer st)) \/ (src_incomplete st = true /\ l <= Nat.max 1 (src_request st)).

  Lemma insist_w_cost_from : forall T E (p : sparser W I T E),
    (forall w, well_behaved (fun i => fst (p w i))) -> (forall w i, fst (p w i) <> Incomplete 0) ->
    (forall w i, cost (snd (p w i)) <= cost w + g (length (buf i))) ->
    forall fuel st w d e st' out w' l, inv (src_buffer st) -> src_auto st = true -> R (src_source st) d e ->
    from_size st l ->
    insist_w ds ops fuel p st w = (Done (st', out), w') ->
    let N := length (view (src_buffer st)) + length d in
    cost w' <= cost w + sum_from g l (S N - l) + g N.
  Proof.
    intros T E p Hw Hask Hc. induction fuel as [|fuel IH]; intros st w d e st' out w' l Hi Ha HRs Hl H N; cbn [insist_w] in H; [discriminate|].
    destruct (src_parse_w ds ops p st w) as [r0 w1] eqn:Hp. destruct r0 as [[st1 out1]| | |]; try discriminate.
    destruct (call_ran_w p st w Hi (Hw w) Hp) as (new & k & en & H1 & H2 & H3 & H5). destruct (reads_delivers HR H1 _ _ HRs) as (d' & G1 & G2 & G3 & G4).
    assert (Hlen : length d = length new + length d') by (rewrite G1, app_length; reflexivity).
    destruct H5 as [(x & -> & H5 & -> & H6 & H7 & H8)|[(-> & ->)|(-> & H6 & H7 & H8)]].
    - specialize (IH st1 w d' (e - k) st' out w' l H2 ltac:(congruence) G3).
      assert (Hl1 : from_size st1 l).
      { unfold from_size in *. rewrite H5, app_length, H6, H7. destruct Hl as [Hl|[_ Hl]]; [left; lia|right; auto]. }
      specialize (IH Hl1 H). cbn zeta in IH. rewrite H5, app_length in IH. replace (length (view (src_buffer st)) + length new + length d') with N in IH by (unfold N; lia). exact IH.
    - inversion H; subst. lia.
    - set (s := length (view (src_buffer st)) + length new) in *. assert (HsN : s <= N) by (unfold s, N; lia).
      pose proof (Hc w (mkInput (src_eoi st1) (view (src_buffer st) ++ new))) as Hc1. cbn [buf] in Hc1. rewrite app_length in Hc1. fold s in Hc1.
      set (w1 := snd (p w (mkInput (src_eoi st1) (view (src_buffer st) ++ new)))) in *.
      pose proof (Hmono HsN) as HgN. unfold ran in H6.
      destruct (fst (p w (mkInput (src_eoi st1) (view (src_buffer st) ++ new)))) as [j v|b x|n| |] eqn:Ep; try contradiction; destruct H6 as [-> H6].
      1,2: inversion H; subst w'; lia.
      destruct (src_eoi st1) eqn:Heoi; [inversion H; subst w'; lia|]. destruct (H7 n eq_refl eq_refl) as [H9 H10].
      assert (Hn : 0 < n) by (destruct n; [exfalso; exact (Hask _ _ Ep)|lia]).
      assert (HlS : l <= s).
      { destruct Hl as [Hl|[Hinc Hl]]; [unfold s; lia|]. destruct (H8 Hinc Ha) as [?|?]; [discriminate|lia]. }
      assert (Hf : from_size st1 (S s)) by (right; split; [assumption|lia]).
      specialize (IH st1 w1 d' (e - k) st' out w' (S s) H2 ltac:(congruence) G3 Hf H). cbn zeta in IH. rewrite H6, app_length in IH.
      fold s in IH. replace (s + length d') with N in IH by (unfold N, s; lia).
      pose proof (sum_from_skip g (S N - s) (s - l) l) as Hsk. replace (l + (s - l)) with s in Hsk by lia.
      replace (s - l + (S N - s)) with (S N - l) in Hsk by lia. replace (S N - s) with (S (S N - S s)) in Hsk by lia. cbn [sum_from] in Hsk. lia.
  Qed.

  Lemma insist_w_cost : forall T E (p : sparser W I T E),
    (forall w, well_behaved (fun i => fst (p w i))) -> (forall w i, fst (p w i) <> Incomplete 0) ->
    (forall w i, cost (snd (p w i)) <= cost w + g (length (buf i))) ->
    forall fuel st w d e st' out w', inv (src_buffer st) -> src_auto st = true -> R (src_source st) d e ->
    insist_w ds ops fuel p st w = (Done (st', out), w') ->
    cost w' <= cost w + sum_to g (length (view (src_buffer st)) + length d) + g (length (view (src_buffer st)) + length d).
  Proof.
    intros T E p Hw Hask Hc fuel st w d e st' out w' Hi Ha HRs H.
    assert (Hl : from_size st 0) by (left; lia).
    pose proof (@insist_w_cost_from T E p Hw Hask Hc fuel st w d e st' out w' 0 Hi Ha HRs Hl H) as Hb. cbn zeta in Hb. rewrite Nat.sub_0_r, sum_from_to in Hb. exact Hb.
  Qed.
End Cost.

(** * The cost of one run *)

Section RunCost.
  Context {W I : Type}.
  Variable cost : W -> nat.

  Lemma called_cost : forall A B (f : callback W A B), (forall a w, cost (snd (f a w)) <= S (cost w)) ->
    forall w cs bs w', called f w cs bs w' -> cost w' <= cost w + length cs.
  Proof.
    intros A B f Hf w cs bs w' H. induction H as [w|w c cs b bs w1 w2 H1 H2 IH]; simpl; [lia|].
    specialize (Hf c w). rewrite H1 in Hf. simpl in Hf. lia.
  Qed.

  Lemma search_cost : forall A (f : callback W A bool), (forall a w, cost (snd (f a w)) <= S (cost w)) ->
    forall go w b v w', search f go w b v w' -> cost w' <= cost w + length b.
  Proof.
    intros A f Hf go w b v w' H. destruct H as [w' H|cs c rest w1 w' -> H H1|cs c rest w1 w' -> H H1].
    - eapply called_cost; eauto.
    - pose proof (called_cost Hf H). specialize (Hf c w1). rewrite H1 in Hf. simpl in Hf. rewrite app_length. simpl. lia.
    - pose proof (called_cost Hf H). specialize (Hf c w1). rewrite H1 in Hf. simpl in Hf. rewrite app_length. simpl. lia.
  Qed.

  Lemma scanned_cost : forall A S (f : callback W (S * A) (option S)), (forall a w, cost (snd (f a w)) <= Datatypes.S (cost w)) ->
    forall s w cs s' w', scanned f s w cs s' w' -> cost w' <= cost w + length cs.
  Proof.
    intros A S f Hf s w cs s' w' H. induction H as [s w|s w c cs s1 w1 s2 w2 H1 H2 IH]; simpl; [lia|].
    specialize (Hf (s, c) w). rewrite H1 in Hf. simpl in Hf. lia.
  Qed.

  Lemma scan_search_cost : forall A S (f : callback W (S * A) (option S)), (forall a w, cost (snd (f a w)) <= Datatypes.S (cost w)) ->
    forall s w b v s' w', scan_search f s w b v s' w' -> cost w' <= cost w + length b.
  Proof.
    intros A S f Hf s w b v s' w' H. destruct H as [s' w' H|cs c rest s' w1 w' -> H H1|cs c rest s' w1 w' -> H H1].
    - eapply scanned_cost; eauto.
    - pose proof (scanned_cost Hf H). specialize (Hf (s', c) w1). rewrite H1 in Hf. simpl in Hf. rewrite app_length. simpl. lia.
    - pose proof (scanned_cost Hf H). specialize (Hf (s', c) w1). rewrite H1 in Hf. simpl in Hf. rewrite app_length. simpl. lia.
  Qed.
End RunCost.

(** The retries of the searching parsers are well behaved whatever their callbacks do. *)
Section Behaved.
  Context {W I : Type}.

  Lemma took_honest : forall (i : input I) cs rest T E (t : T), buf i = cs ++ rest -> honest i (@Data I T E (mkInput (last i) rest) t).
  Proof. intros i cs rest T E t H. simpl. split; [reflexivity|]. exists cs. assumption. Qed.

  Lemma take_while_w_behaved : forall (f : callback W I bool) w, well_behaved (fun i => fst (take_while_w f w i)).
  Proof.
    intros f w i. destruct (take_while_w f w i) as [res w'] eqn:H. apply take_while_w_char in H. destruct H as (v & Hs & ->). simpl.
    destruct v as [|cs c rest|]; simpl; auto.
    - destruct (last i) eqn:Hl; simpl; auto. rewrite Hl. split; [reflexivity|]. exists (buf i). rewrite app_nil_r. reflexivity.
    - split; [reflexivity|]. exists cs. apply search_split in Hs. apply Hs.
  Qed.
End Behaved.

(** * The bound on the cost is met: items read one by one *)
Section Tight.
  Context {W I B : Type}.
  Variables (ops : buffer_ops I B) (inv : B -> Prop) (view : B -> list I) (room : B -> nat).
  Variable Q : queue_like ops inv view room (fun _ => True).
  Variable cost : W -> nat.
  Variable f : callback W I bool.
  Hypothesis Hf : forall c w, fst (f c w) = Some true /\ cost (snd (f c w)) = S (cost w).

  Definition one_by_one (data : list I) : list (option (list I)) := List.map (fun c => Some [c]) data.

  Lemma position_all : forall b w, exists w', position_w (is_false f) b w = (Some None, w') /\ cost w' = cost w + length b.
  Proof.
    induction b as [|c b IH]; intros w; cbn [position_w length]; [exists w; split; auto|].
    unfold is_false. destruct (Hf c w) as [H1 H2]. destruct (f c w) as [x w1]. cbn [fst snd] in H1, H2. subst x. cbn [negb].
    destruct (IH w1) as (w' & H3 & H4). exists w'. fold (is_false f). rewrite H3. split; [reflexivity|lia].
  Qed.

  Lemma fill_one : forall c cs b req en, inv b -> Nat.max 1 req = S (length (view b)) -> exists b',
    src_fill (read_data_source chunk_read) ops (mkSrc (Some [c] :: cs) b req true en true) = Done (mkSrc cs b' req false false true, IoOk 1) /\ inv b' /\ view b' = view b ++ [c].
  Proof.
    intros c cs b req en Hi Hr. unfold src_fill, fill_requested. cbn [src_request src_buffer src_source]. rewrite Hr, (q_len Q _ Hi). cbn [run_bind].
    rewrite (proj2 (Nat.ltb_lt _ _)) by lia. unfold usize_sub. rewrite (proj2 (Nat.leb_le _ _)) by lia. cbn [run_bind].
    replace (S (length (view b)) - length (view b)) with 1 by lia.
    destruct (q_request Q b 1 Hi) as (b1 & E1 & Hi1 & V1 & R1). rewrite E1. cbn [run_bind]. specialize (R1 1 ltac:(lia) Logic.I).
    cbn [fill_loop]. rewrite (q_len Q _ Hi1), V1. cbn [run_bind]. rewrite (proj2 (Nat.ltb_lt _ _)) by lia.
    destruct (q_fill Q _ Hi1) as (q & Hq0 & Hq).
    assert (Hread : ds_read (read_data_source chunk_read) (Some [c] :: cs) q = (cs, [Some c], IoOk 1)).
    { cbn [ds_read read_data_source]. unfold chunk_read. destruct q as [|n]; [lia|]. cbn [skipn firstn]. rewrite skipn_nil, firstn_nil. reflexivity. }
    destruct (Hq _ _ _ _ _ _ (@chunk_obeys I) Hread) as (b2 & E2 & Hi2 & V2 & _). rewrite V1 in V2. cbn in V2. rewrite E2. cbn [run_bind fill_loop].
    rewrite (q_len Q _ Hi2), V2. cbn [run_bind]. rewrite app_length. cbn [length]. rewrite (proj2 (Nat.ltb_ge _ _)) by lia. cbn [run_bind src_with].
    exists b2. unfold src_with. cbn [src_source src_buffer src_request src_incomplete src_eoi src_auto]. rewrite (q_len Q _ Hi2), V2. cbn [run_bind]. rewrite app_length. cbn [length].
    rewrite (proj2 (Nat.leb_le _ _)) by lia. cbn [negb Nat.add]. repeat split; auto.
  Qed.
  Lemma fill_none : forall b req en, inv b -> Nat.max 1 req = S (length (view b)) -> exists b',
    src_fill (read_data_source (@chunk_read I)) ops (mkSrc [] b req true en true) = Done (mkSrc [] b' req false true true, IoOk 0) /\ inv b' /\ view b' = view b.
  Proof.
    intros b req en Hi Hr. unfold src_fill, fill_requested. cbn [src_request src_buffer src_source]. rewrite Hr, (q_len Q _ Hi). cbn [run_bind].
    rewrite (proj2 (Nat.ltb_lt _ _)) by lia. unfold usize_sub. rewrite (proj2 (Nat.leb_le _ _)) by lia. cbn [run_bind].
    replace (S (length (view b)) - length (view b)) with 1 by lia.
    destruct (q_request Q b 1 Hi) as (b1 & E1 & Hi1 & V1 & R1). rewrite E1. cbn [run_bind].
    cbn [fill_loop]. rewrite (q_len Q _ Hi1), V1. cbn [run_bind]. rewrite (proj2 (Nat.ltb_lt _ _)) by lia.
    destruct (q_fill Q _ Hi1) as (q & Hq0 & Hq).
    assert (Hread : ds_read (read_data_source (@chunk_read I)) [] q = ([], [], IoOk 0)) by reflexivity.
    destruct (Hq _ _ _ _ _ _ (@chunk_obeys I) Hread) as (b2 & E2 & Hi2 & V2 & _). rewrite V1 in V2. cbn in V2. rewrite app_nil_r in V2. rewrite E2. cbn [run_bind src_with].
    exists b2. unfold src_with. cbn [src_source src_buffer src_request src_incomplete src_eoi src_auto]. rewrite (q_len Q _ Hi2), V2. cbn [run_bind].
    rewrite (proj2 (Nat.leb_gt _ _)) by lia. cbn [negb]. repeat split; auto.
  Qed.

  Lemma retries_tight : forall data fuel b req en w, length data < fuel -> inv b -> Nat.max 1 req = S (length (view b)) -> exists st' w',
    insist_w (read_data_source chunk_read) ops fuel (take_while_w f) (mkSrc (one_by_one data) b req true en true) w =
      (Done (st', match view b ++ data with [] => inr SEndOfInput | v => inl v end), w') /\
    cost w' = cost w + sum_from (fun k => k) (S (length (view b))) (length data) + (length (view b) + length data).
  Proof.
    induction data as [|c data IH]; intros [|fuel] b req en w Hfu Hi Hr; cbn [length] in Hfu; try lia; cbn [one_by_one List.map length]; cbn [insist_w]; unfold src_parse_w; cbn [src_incomplete src_auto andb].
    - destruct (@fill_none b req en Hi Hr) as (b' & E & Hi' & V'). rewrite E. unfold src_is_empty, src_len. cbn [src_eoi src_buffer]. rewrite (q_len Q _ Hi'), V'. cbn [run_bind].
      destruct (view b) as [|x v] eqn:Ev; cbn [length Nat.eqb app].
      + eexists _, w. split; [reflexivity|]. cbn [sum_from]. lia.
      + rewrite (q_deref Q _ Hi'), V'. unfold take_while_w at 1. cbn [buf last]. destruct (position_all (x :: v) w) as (w' & H1 & H2). rewrite H1. cbn [ret buf replace firstn length].
        cbn [run_bind]. unfold usize_sub. cbn [Nat.leb run_bind Nat.sub].
        destruct (q_consume Q b' (k := length (x :: v)) Hi' ltac:(rewrite V'; lia)) as (b2 & E2 & _). cbn [length] in E2. rewrite E2. cbn [run_bind].
        eexists _, w'. rewrite app_nil_r. split; [reflexivity|]. cbn [sum_from]. rewrite H2. cbn [length]. lia.
    - destruct (@fill_one c (one_by_one data) b req en Hi Hr) as (b' & E & Hi' & V'). unfold one_by_one in E. rewrite E. unfold src_is_empty. cbn [src_eoi src_buffer].
      rewrite (q_deref Q _ Hi'), V'. unfold take_while_w at 1. cbn [buf last]. destruct (position_all (view b ++ [c]) w) as (w1 & H1 & H2). rewrite H1. cbn [incomplete].
      rewrite (q_len Q _ Hi'), V'. cbn [run_bind]. cbn [src_source src_auto src_buffer].
      destruct (IH fuel b' (length (view b ++ [c]) + 1) false w1 ltac:(lia) Hi') as (st' & w' & H3 & H4). { rewrite V'. rewrite app_length. cbn [length]. lia. }
      unfold one_by_one in H3. rewrite H3. exists st', w'. rewrite V', <- app_assoc. cbn [app]. split; [reflexivity|].
      rewrite H4, H2, V', !app_length. cbn [sum_from length]. rewrite Nat.add_1_r. lia.
  Qed.
End Tight.
