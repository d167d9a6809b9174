(** Parsing and reading the same Source. *)
From Coq Require Import List Bool Arith Lia.
From Verif Require Import Base Buffer Stream StdIo SpecBase SpecBuffer SpecSafe SpecStream SpecMixed BufferProofs StreamProofs SimProofs.
Import ListNotations.

Set Implicit Arguments.

Lemma firstn_length_app : forall A (n : nat) (l : list A), firstn (length (firstn n l)) l = firstn n l.
Proof. intros A n l. rewrite firstn_length. destruct (Nat.le_ge_cases n (length l)); [rewrite Nat.min_l by assumption; reflexivity|rewrite Nat.min_r by assumption]. rewrite firstn_all, firstn_all2 by assumption. reflexivity. Qed.

Lemma skipn_length_app : forall A (n : nat) (l : list A), skipn (length (firstn n l)) l = skipn n l.
Proof. intros A n l. rewrite firstn_length. destruct (Nat.le_ge_cases n (length l)); [rewrite Nat.min_l by assumption; reflexivity|rewrite Nat.min_r by assumption]. rewrite skipn_all, skipn_all2 by assumption. reflexivity. Qed.

(** [through] and [cut] say the same. *)
Lemma through_some : forall I (stop : I -> bool) l n, through stop l = Some n -> 0 < n /\ n <= length l /\ forall c, cut stop (l ++ c) = (firstn n l, skipn n l ++ c).
Proof.
  intros I stop. induction l as [|x l IH]; intros n H; cbn [through] in H; [discriminate|]. destruct (stop x) eqn:Hx.
  - inversion H; subst n. split; [lia|]. split; [cbn [length]; lia|]. intros c. cbn [app cut firstn skipn]. rewrite Hx. reflexivity.
  - destruct (through stop l) as [m|]; [|discriminate]. cbn [option_map] in H. inversion H; subst n. destruct (IH m eq_refl) as (H1 & H2 & H3).
    split; [lia|]. split; [cbn [length]; lia|]. intros c. cbn [app cut firstn skipn]. rewrite Hx, H3. reflexivity.
Qed.

Lemma through_none : forall I (stop : I -> bool) l, through stop l = None -> forall c, cut stop (l ++ c) = (l ++ fst (cut stop c), snd (cut stop c)).
Proof.
  intros I stop. induction l as [|x l IH]; intros H c; cbn [through] in H; [cbn [app]; destruct (cut stop c); reflexivity|]. destruct (stop x) eqn:Hx; [discriminate|].
  destruct (through stop l) as [m|]; [discriminate|]. cbn [app cut]. rewrite Hx, (IH eq_refl). reflexivity.
Qed.

Section Mixed.
  Context {St I B : Type}.
  Variable ds : data_source St I.
  Variables (ops : buffer_ops I B) (inv : B -> Prop) (view : B -> list I) (room : B -> nat) (fits : nat -> Prop).
  Hypothesis Q : queue_like ops inv view room fits.
  Hypothesis Ho : obeys ds.
  Hypothesis Hone : fits 1.
  Variable R : St -> list I -> nat -> Prop.
  Hypothesis HR : delivers ds R.

  Notation stands := (stands inv view fits R).

  (** After a change of buffer and source only. *)
  Lemma stands_with : forall (st : src St B) rest d e b' s' k d1 e1, stands st rest d e -> inv b' -> R s' d1 e1 -> skipn k rest = view b' ++ d1 -> (d = [] -> d1 = []) ->
    stands (src_with st b' s') (skipn k rest) d1 e1.
  Proof.
    intros st rest d e b' s' k d1 e1 (Hi & Hd & Hrest & Ha & He & Hf) Hi' Hd1 Hr Hnil. unfold SimProofs.stands, src_with. cbn [src_buffer src_source src_auto src_eoi src_incomplete src_request].
    split; [assumption|]. split; [assumption|]. split; [assumption|]. split; [assumption|]. split; [auto|]. intros Hinc.
    eapply (q_fits Q); [|apply (Hf Hinc)]. rewrite skipn_length. lia.
  Qed.

  Lemma read_stands : forall n st rest d e, stands st rest d e -> exists st' r d1 e1, src_read ds ops n st = Done (st', r) /\ length d1 <= length d /\
    match r with
    | IoErr _ => stands st' rest d1 e1 /\ e1 < e
    | IoOk out => out = firstn (length out) rest /\ stands st' (skipn (length out) rest) d1 e1 /\ e1 = e /\ length out <= n /\
        (fits (Nat.min n (length rest)) -> out = firstn n rest) /\ (out = [] -> n = 0 \/ rest = [])
    end.
  Proof.
    intros n st rest d e Hst. pose proof Hst as (Hi & Hd & Hrest & Ha & He & Hf).
    destruct (src_read_spec Q Ho n st Hi) as (b' & s' & new & k & en & r & H1 & H2 & H3 & H4).
    destruct (reads_delivers HR H1 _ _ Hd) as (d1 & G1 & G2 & G3 & G4). exists (src_with st b' s'), r, d1, (e - k). split; [assumption|].
    assert (Hlen : length d = length new + length d1) by (rewrite G1, app_length; reflexivity).
    assert (Hnil : d = [] -> d1 = []) by (intros Hd0; rewrite Hd0 in G1; symmetry in G1; apply app_eq_nil in G1; apply G1).
    set (seen := view (src_buffer st) ++ new) in *. assert (Hrest1 : rest = seen ++ d1) by (unfold seen; rewrite <- app_assoc, <- G1; assumption).
    split; [lia|]. destruct r as [out|x].
    - destruct H4 as (-> & H4 & H5 & _ & H6).
      assert (Hout : out = firstn (length out) rest).
      { rewrite Hrest1, firstn_app. replace (length out - length seen) with 0 by (rewrite H4, firstn_length; lia). rewrite firstn_O, app_nil_r, H4, firstn_length_app. reflexivity. }
      assert (Hskip : skipn (length out) rest = view b' ++ d1).
      { rewrite Hrest1, skipn_app. replace (length out - length seen) with 0 by (rewrite H4, firstn_length; lia). rewrite H5, H4, skipn_length_app. reflexivity. }
      assert (Hle : length out <= n) by (rewrite H4, firstn_length; lia).
      assert (Hshort : length out < n -> length out < length rest -> ~ fits (S (length out))).
      { intros Hn Hr. destruct H6 as [H6|(_ & H6 & [H7|H7])]; [lia| |assumption]. exfalso. rewrite (G4 H7), app_nil_r in Hrest1. rewrite H6, Hrest1 in Hr. lia. }
      split; [assumption|]. split; [eapply stands_with; eauto; rewrite Nat.sub_0_r in G3; exact G3|]. split; [lia|]. split; [assumption|]. split.
      + intros Hfit. destruct (Nat.eq_dec (length out) n) as [Hn|Hn]; [rewrite Hn in Hout; exact Hout|].
        destruct (Nat.lt_ge_cases (length out) (length rest)) as [Hr|Hr].
        * exfalso. apply (Hshort ltac:(lia) Hr). eapply (q_fits Q); [|exact Hfit]. lia.
        * rewrite Hout, !firstn_all2 by lia. reflexivity.
      + intros Hnl. destruct n as [|n]; [auto|right]. destruct rest as [|y rest]; [reflexivity|exfalso]. rewrite Hnl in Hshort. cbn [length] in Hshort.
        apply Hshort; [lia|lia|exact Hone].
    - destruct H4 as (-> & H4 & H5). split; [|lia]. replace rest with (skipn 0 rest) by reflexivity. eapply stands_with; eauto. cbn [skipn]. rewrite H4. exact Hrest1.
  Qed.

  Lemma again_read_spec : forall n fuel st rest d e, stands st rest d e -> fits (Nat.min n (length rest)) -> e < fuel ->
    exists st' d' e', again_read ds ops fuel n st = Done (st', firstn n rest) /\ stands st' (skipn n rest) d' e' /\ length d' <= length d /\ e' <= e.
  Proof.
    intros n. induction fuel as [|fuel IH]; intros st rest d e Hst Hfit Hf; [lia|]. cbn [again_read].
    destruct (read_stands n Hst) as (st' & r & d1 & e1 & H1 & H2 & H3). rewrite H1. cbn [run_bind]. destruct r as [out|x].
    - destruct H3 as (H3 & H4 & -> & H5 & H6 & H7). specialize (H6 Hfit). subst out. exists st', d1, e. split; [reflexivity|]. rewrite skipn_length_app in H4. auto.
    - destruct H3 as [H3 H4]. destruct (IH st' rest d1 e1 H3 Hfit ltac:(lia)) as (st2 & d2 & e2 & G1 & G2 & G3 & G4). exists st2, d2, e2. split; [assumption|]. split; [assumption|]. lia.
  Qed.

  Lemma read_exact_spec : forall fuel got n st rest d e, stands st rest d e -> length rest + e + 1 < fuel ->
    exists st' d' e', read_exact ds ops fuel got n st = Done (st', if n <=? length rest then Some (got ++ firstn n rest) else None) /\
      stands st' (skipn n rest) d' e' /\ length d' <= length d /\ e' <= e.
  Proof.
    induction fuel as [|fuel IH]; intros got n st rest d e Hst Hf; [lia|]. cbn [read_exact]. destruct (Nat.eqb_spec n 0) as [->|Hn].
    { exists st, d, e. cbn [firstn skipn Nat.leb]. rewrite app_nil_r. auto. }
    destruct (read_stands n Hst) as (st' & r & d1 & e1 & H1 & H2 & H3). rewrite H1. cbn [run_bind]. destruct r as [out|x].
    - destruct H3 as (H3 & H4 & -> & H5 & _ & H6). destruct out as [|y out].
      + destruct (H6 eq_refl) as [H7| ->]; [lia|]. exists st', d1, e. destruct n; [lia|]. cbn [length Nat.leb]. rewrite skipn_nil. cbn [length skipn] in H4. auto.
      + set (l := y :: out) in *. assert (Hl : length l <= length rest) by (rewrite H3, firstn_length; lia). assert (Hl0 : 0 < length l) by (cbn; lia).
        destruct (IH (got ++ l) (n - length l) st' (skipn (length l) rest) d1 e H4) as (st2 & d2 & e2 & G1 & G2 & G3 & G4); [rewrite skipn_length; lia|].
        exists st2, d2, e2. rewrite G1. rewrite skipn_length in *. split; [|split; [|lia]].
        * do 2 f_equal. replace (n - length l <=? length rest - length l) with (n <=? length rest) by (destruct (Nat.leb_spec n (length rest)); destruct (Nat.leb_spec (n - length l) (length rest - length l)); auto; lia).
          destruct (n <=? length rest) eqn:Hle; [|reflexivity]. rewrite <- app_assoc. do 2 f_equal.
          rewrite H3 at 1. rewrite <- (firstn_skipn (length l) rest) at 3. rewrite firstn_app. rewrite firstn_length, (Nat.min_l _ _ Hl), (firstn_all2 (n := n)) by (rewrite firstn_length; lia). reflexivity.
        * rewrite BufferProofs.skipn_skipn in G2. replace (n - length l + length l) with n in G2 by lia. exact G2.
    - destruct H3 as [H3 H4]. destruct (IH got n st' rest d1 e1 H3 ltac:(lia)) as (st2 & d2 & e2 & G1 & G2 & G3 & G4). exists st2, d2, e2. split; [assumption|]. split; [assumption|]. lia.
  Qed.

  Lemma read_to_end_spec : forall sizes fuel got st rest d e, stands st rest d e -> length rest + e + 1 < fuel ->
    exists st' d' e', read_to_end ds ops fuel sizes got st = Done (st', got ++ rest) /\ stands st' [] d' e' /\ length d' <= length d /\ e' <= e.
  Proof.
    intros sizes. induction fuel as [|fuel IH]; intros got st rest d e Hst Hf; [lia|]. cbn [read_to_end].
    destruct (read_stands (S (sizes (length got))) Hst) as (st' & r & d1 & e1 & H1 & H2 & H3). rewrite H1. cbn [run_bind]. destruct r as [out|x].
    - destruct H3 as (H3 & H4 & -> & H5 & _ & H6). destruct out as [|y out].
      + destruct (H6 eq_refl) as [H7| ->]; [lia|]. exists st', d1, e. rewrite app_nil_r. cbn [length skipn] in H4. auto.
      + set (l := y :: out) in *. assert (Hl : length l <= length rest) by (rewrite H3, firstn_length; lia). assert (Hl0 : 0 < length l) by (cbn; lia).
        destruct (IH (got ++ l) st' (skipn (length l) rest) d1 e H4) as (st2 & d2 & e2 & G1 & G2 & G3 & G4); [rewrite skipn_length; lia|].
        exists st2, d2, e2. rewrite G1, <- app_assoc. rewrite H3 at 1. rewrite firstn_skipn. split; [reflexivity|]. split; [assumption|]. lia.
    - destruct H3 as [H3 H4]. destruct (IH got st' rest d1 e1 H3 ltac:(lia)) as (st2 & d2 & e2 & G1 & G2 & G3 & G4). exists st2, d2, e2. split; [assumption|]. split; [assumption|]. lia.
  Qed.

  (** [fill_buf]. *)
  Lemma fill_buf_stands : (forall b, inv b -> 0 < op_capacity ops b) -> forall st rest d e, stands st rest d e -> exists st' r d1 e1, src_fill_buf ds ops st = Done (st', r) /\ length d1 <= length d /\ stands st' rest d1 e1 /\
    match r with
    | IoErr _ => e1 < e
    | IoOk out => out = view (src_buffer st') /\ e1 = e /\ (out = [] -> rest = [])
    end.
  Proof.
    intros Hcap st rest d e Hst. pose proof Hst as (Hi & Hd & Hrest & Ha & He & Hf).
    destruct (src_fill_buf_spec Q Ho st Hi) as (b' & s' & new & k & en & r & H1 & H2 & H3 & H4 & H5).
    destruct (reads_delivers HR H1 _ _ Hd) as (d1 & G1 & G2 & G3 & G4). exists (src_with st b' s'), r, d1, (e - k). split; [assumption|].
    assert (Hlen : length d = length new + length d1) by (rewrite G1, app_length; reflexivity).
    assert (Hrest1 : rest = view b' ++ d1) by (rewrite H4, <- app_assoc, <- G1; assumption).
    split; [lia|]. split.
    { replace rest with (skipn 0 rest) by reflexivity. eapply stands_with; eauto. intros Hd0; rewrite Hd0 in G1; symmetry in G1; apply app_eq_nil in G1; apply G1. }
    destruct r as [out|x]; [|destruct H5; lia]. destruct H5 as (-> & H5 & H6). cbn [src_with src_buffer]. split; [assumption|]. split; [lia|]. intros Hnil.
    pose proof (Hcap _ Hi) as Hc. rewrite <- H5, Hnil in Hrest1. cbn [app] in Hrest1. rewrite Hnil in H6. cbn [length] in H6. destruct H6 as [H6|[H6|H6]]; [lia| |].
    - rewrite Hrest1. auto.
    - exfalso. apply H6. exact Hone.
  Qed.

  Lemma consume_stands : forall k st rest d e, stands st rest d e -> k <= length (view (src_buffer st)) ->
    exists st', src_consume ops k st = Done st' /\ stands st' (skipn k rest) d e.
  Proof.
    intros k st rest d e Hst Hk. pose proof Hst as (Hi & Hd & Hrest & _). destruct (src_consume_spec Q st Hi Hk) as (b' & H1 & H2 & H3). eexists. split; [exact H1|].
    eapply stands_with; eauto. rewrite H3, Hrest, skipn_app. replace (k - length (view (src_buffer st))) with 0 by lia. reflexivity.
  Qed.

  Lemma read_until_spec : (forall b, inv b -> 0 < op_capacity ops b) -> forall stop fuel got st rest d e, stands st rest d e -> length rest + e + 1 < fuel ->
    exists st' d' e', read_until ds ops fuel stop got st = Done (st', got ++ fst (cut stop rest)) /\ stands st' (snd (cut stop rest)) d' e' /\ length d' <= length d /\ e' <= e.
  Proof.
    intros Hcap stop. induction fuel as [|fuel IH]; intros got st rest d e Hst Hf; [lia|]. cbn [read_until].
    destruct (fill_buf_stands Hcap Hst) as (st' & r & d1 & e1 & H1 & H2 & H3 & H4). rewrite H1. cbn [run_bind]. destruct r as [out|x].
    - destruct H4 as (H4 & -> & H5). assert (Hrest : rest = out ++ d1) by (rewrite H4; apply H3). destruct (through stop out) as [used|] eqn:Ht.
      + destruct (through_some _ _ Ht) as (T1 & T2 & T3). destruct (consume_stands (k := used) H3 ltac:(rewrite <- H4; assumption)) as (st2 & G1 & G2). rewrite G1. cbn [run_bind].
        exists st2, d1, e. rewrite Hrest, T3. cbn [fst snd]. split; [reflexivity|]. rewrite Hrest, skipn_app in G2. replace (used - length out) with 0 in G2 by lia. auto.
      + destruct (consume_stands (k := length out) H3 ltac:(rewrite <- H4; lia)) as (st2 & G1 & G2). rewrite G1. cbn [run_bind]. destruct out as [|y out].
        * rewrite (H5 eq_refl) in *. exists st2, d1, e. cbn [cut fst snd skipn length] in *. rewrite app_nil_r. auto.
        * set (l := y :: out) in *. assert (Hl0 : 0 < length l) by (cbn; lia). assert (Hsk : skipn (length l) rest = d1) by (rewrite Hrest, skipn_app, skipn_all, Nat.sub_diag; reflexivity).
          rewrite Hsk in G2. destruct (IH (got ++ l) st2 d1 d1 e G2) as (st3 & d3 & e3 & K1 & K2 & K3 & K4); [rewrite Hrest, app_length in Hf; lia|].
          exists st3, d3, e3. rewrite K1, Hrest, (through_none _ _ Ht). cbn [fst snd]. rewrite <- app_assoc. split; [reflexivity|]. split; [assumption|]. lia.
    - destruct (IH got st' rest d1 e1 H3 ltac:(lia)) as (st2 & d2 & e2 & G1 & G2 & G3 & G4). exists st2, d2, e2. split; [assumption|]. split; [assumption|]. lia.
  Qed.

  (** One call. *)
  Lemma serve_spec : forall T E (lines : Prop) (q : request I T E) fuel st rest d e, (lines -> forall b, inv b -> 0 < op_capacity ops b) -> stands st rest d e ->
    proper fits lines q rest -> 2 * length d + e + 1 < fuel -> length rest + e + 1 < fuel ->
    (meaning q rest = Panicked /\ serve ds ops fuel q st = Panicked) \/
    exists st' d' e' rest' a, serve ds ops fuel q st = Done (st', a) /\ meaning q rest = Done (a, rest') /\ stands st' rest' d' e' /\
      length d' <= length d /\ e' <= e /\ length rest' <= length rest.
  Proof.
    intros T E lines q fuel st rest d e Hcap Hst Hq Hf1 Hf2. destruct q as [p|n|n|stop|sizes]; cbn [proper serve meaning] in *.
    - assert (Hm : measure view st d e < fuel) by (unfold measure; destruct (_ && _); lia).
      destruct (insist_spec Q Ho HR Hst Hq Hm) as [(H1 & st' & d' & e' & H2 & H3 & H4 & H5)|[(H1 & H2 & H3)|(H1 & st' & d' & e' & out & rest' & out' & H2 & H3 & H4 & H5 & H6 & H7)]].
      + right. subst rest. rewrite H2. cbn [run_bind forget]. exists st', d', e', [], (Parsed (inr SEndOfInput)). repeat split; auto; apply H3.
      + left. destruct rest; [contradiction|]. rewrite H2, H3. auto.
      + right. rewrite H2. cbn [run_bind]. rewrite (same_forget _ _ H7). pose proof (su_well_behaved Hq (mkInput true rest)) as Hh. destruct rest as [|y rest]; [contradiction|].
        destruct (p (mkInput true (y :: rest))) as [j v|b x|n| |]; cbn [whole honest last buf] in *; try contradiction; destruct H6 as [-> ->]; cbn [forget].
        * destruct Hh as [_ Hh]. destruct (suffix_skipn Hh) as [_ Hh1]. eexists st', d', e', _, _. do 2 (split; [reflexivity|]). auto.
        * destruct (suffix_skipn Hh) as [_ Hh1]. eexists st', d', e', _, _. do 2 (split; [reflexivity|]). auto.
        * eexists st', d', e', _, _. do 2 (split; [reflexivity|]). auto.
    - right. destruct (again_read_spec n (fuel := fuel) Hst Hq ltac:(lia)) as (st' & d' & e' & H1 & H2 & H3 & H4). rewrite H1. cbn [run_bind].
      exists st', d', e', (skipn n rest), (Items (firstn n rest)). rewrite skipn_length. repeat (split; [first [reflexivity|assumption]|]). lia.
    - right. destruct (read_exact_spec [] n Hst Hf2) as (st' & d' & e' & H1 & H2 & H3 & H4). rewrite H1. cbn [run_bind app].
      eexists st', d', e', (skipn n rest), _. rewrite skipn_length. repeat (split; [first [reflexivity|assumption]|]). lia.
    - right. destruct (read_until_spec (Hcap Hq) stop [] Hst Hf2) as (st' & d' & e' & H1 & H2 & H3 & H4). rewrite H1. cbn [run_bind app].
      destruct (cut stop rest) as [a b] eqn:Hc. cbn [fst snd] in *. exists st', d', e', b, (Items a). repeat (split; [first [reflexivity|assumption]|]).
      clear - Hc. revert a b Hc. induction rest as [|y rest IH]; intros a b Hc; cbn [cut] in Hc; [inversion Hc; auto|]. destruct (stop y); [inversion Hc; cbn [length]; lia|].
      destruct (cut stop rest) as [a1 b1]. inversion Hc; subst. cbn [length]. specialize (IH _ _ eq_refl). lia.
    - right. destruct (read_to_end_spec sizes [] Hst Hf2) as (st' & d' & e' & H1 & H2 & H3 & H4). rewrite H1. cbn [run_bind app].
      exists st', d', e', [], (Items rest). repeat (split; [first [reflexivity|assumption]|]). cbn [length]. lia.
  Qed.

  Lemma executed_spec : forall T E (lines : Prop) (c : program I T E) fuel st rest d e, (lines -> forall b, inv b -> 0 < op_capacity ops b) -> stands st rest d e ->
    proper_program fits lines c rest -> 2 * length d + e + 1 < fuel -> length rest + e + 1 < fuel ->
    executed ds ops fuel c st = meant c rest.
  Proof.
    intros T E lines c fuel. induction c as [|q k IH]; intros st rest d e Hcap Hst Hc Hf1 Hf2; [reflexivity|]. inversion Hc as [|q1 k1 rest1 Hq Hk]; subst. cbn [executed meant].
    destruct (serve_spec q Hcap Hst Hq Hf1 Hf2) as [[H1 H2]|(st' & d' & e' & rest' & a & H1 & H2 & H3 & H4 & H5 & H6)].
    - rewrite H1, H2. reflexivity.
    - rewrite H1, H2. cbn [run_bind]. rewrite (IH a st' rest' d' e' Hcap H3 (Hk _ _ H2)); [reflexivity|lia|lia].
  Qed.
End Mixed.
