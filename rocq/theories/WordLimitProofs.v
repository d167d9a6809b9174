(** Proofs: programs over streams on machines, panics of parsers included. *)
From Coq Require Import List Bool Arith Lia.
From Verif Require Import Base Parsers Buffer Stream Word SpecBase SpecSafe SpecBuffer SpecStream SpecWord SpecLimit BufferProofs StreamProofs SimProofs WordProofs WordSafeProofs PropsBuffer PropsStream LimitProofs.
Import ListNotations.

Set Implicit Arguments.

(** * Any buffer *)
Section Machine.
  Variable m : machine.
  Context {St I B T E : Type}.
  Variable ds : data_source St I.
  Hypothesis Ho : obeys ds.
  Variables (o o' : buffer_ops I B) (inv small qinv : B -> Prop) (view : B -> list I) (room : B -> nat) (qfits fits : nat -> Prop).
  Hypothesis F : ops_fit m o o' inv small.
  Hypothesis Q : queue_like o' qinv view room qfits.
  Variable good : list I -> parser I T E -> Prop.
  Variable scr : slice_stream I -> script I T E -> Prop.
  Hypothesis scr_next : forall s p k, scr s (Next p k) -> good (rest_of s) p /\ forall s' r, slice_parse p s = Done (s', r) -> scr s' (k (forget r)).
  Variable K : list I -> list I -> nat -> src St B -> Prop.
  Hypothesis K_ok : forall rest d e st, K rest d e st -> inv (src_buffer st) /\ qinv (src_buffer st) /\ small (src_buffer st) /\
    forall st1 x, src_incomplete st = true -> src_fill ds o' st = Done (st1, x) -> small (src_buffer st1).
  Hypothesis K_parse : forall rest d e st (p : parser I T E) st' r, K rest d e st -> suits fits rest p -> good rest p -> src_parse ds o' p st = Done (st', r) ->
    src_request st' < w_size m /\ small (src_buffer st') /\
    (r = inr SRetry \/ (exists x, r = inr (SIoError x)) -> exists d' e', K rest d' e' st').
  Hypothesis K_insist : forall s d e st (p : parser I T E) fuel st1 r, K (rest_of s) d e st -> ss_pos s <= length (ss_slice s) -> suits fits (rest_of s) p -> good (rest_of s) p ->
    2 * length d + e + 1 < fuel -> insist ds o' fuel p st = Done (st1, r) ->
    exists s' r' d' e', slice_parse p s = Done (s', r') /\ forget r = forget r' /\ ss_pos s' <= length (ss_slice s') /\ K (rest_of s') d' e' st1 /\ length d' <= length d /\ e' <= e.

  Lemma machine_parse : forall rest d e st (p : parser I T E), K rest d e st -> suits fits rest p -> good rest p ->
    w_src_parse m ds o p st = src_parse ds o' p st.
  Proof.
    intros rest d e st p HK Hsu Hg. destruct (K_ok HK) as (Hi & Hq & Hsm & Hfill).
    assert (Hdone : forall st' r, src_parse ds o' p st = Done (st', r) -> w_src_parse m ds o p st = src_parse ds o' p st).
    { intros st' r H. destruct (K_parse HK Hsu Hg H) as (H1 & H2 & _). destruct (parse_fit ds F p st Hi H) as [_ G]. rewrite H. apply G; assumption. }
    destruct (src_parse_spec Q Ho st Hq (su_well_behaved Hsu)) as [(st1 & x & _ & _ & _ & H)|(st1 & H1 & H2)]; [eapply Hdone, H|].
    destruct H2 as [(_ & _ & H)|[Hne [[Hp H]|[[Hp _]|(st' & out & H & _)]]]]; [eapply Hdone, H| |exfalso; apply (su_decides Hsu _ Hp)|eapply Hdone, H].
    rewrite H. unfold w_src_parse.
    assert (Hw : (if src_incomplete st && src_auto st then w_src_fill m ds o st else Done (st, IoOk 0)) = Done (st1, IoOk 0) \/
      exists n, (if src_incomplete st && src_auto st then w_src_fill m ds o st else Done (st, IoOk 0)) = Done (st1, IoOk n)).
    { destruct (src_incomplete st && src_auto st) eqn:Eia; [|subst st1; auto]. destruct H1 as [n H1]. right. exists n.
      apply andb_true_iff in Eia. destruct (fill_fit ds F st Hi H1) as (_ & _ & G). apply G. apply (Hfill _ _ (proj1 Eia) H1). }
    assert (Hst1 : inv (src_buffer st1) /\ small (src_buffer st1)).
    { destruct (src_incomplete st && src_auto st) eqn:Eia; [|subst st1; auto]. destruct H1 as [n H1]. apply andb_true_iff in Eia.
      destruct (fill_fit ds F st Hi H1) as (G & _ & _). split; [exact G|apply (Hfill _ _ (proj1 Eia) H1)]. }
    assert (Hq1 : qinv (src_buffer st1)).
    { destruct (src_incomplete st && src_auto st) eqn:Eia; [|subst st1; auto]. destruct H1 as [n H1].
      destruct (src_fill_spec Q Ho st Hq) as (st2 & r2 & new & e2 & en & G3 & _ & G4 & _). rewrite H1 in G3. inversion G3; subst. exact G4. }
    assert (Hrest : forall n, (let! (st2, filled) := Done (st1, IoOk n : io nat) in
       match filled with
       | IoErr e0 => Done (st2, inr (SIoError e0))
       | IoOk _ =>
        let! empty := src_is_empty o st2 in
        if empty then Done (st2, inr SEndOfInput)
        else
          let! data := op_deref o (src_buffer st2) in
          match p (mkInput (src_eoi st2) data) with
          | Data remainder v =>
              let! l := op_len o (src_buffer st2) in
              let! n := w_sub m l (length (buf remainder)) in
              let! b := op_consume o (src_buffer st2) n in
              Done (src_with st2 b (src_source st2), inl v)
          | Error remainder e =>
              let! l := op_len o (src_buffer st2) in
              let! n := w_sub m l (length remainder) in
              let! b := op_consume o (src_buffer st2) n in
              Done (src_with st2 b (src_source st2), inr (SParseError remainder e))
          | Incomplete n =>
              let! l := op_len o (src_buffer st2) in
              let! request := w_add m l n in
              if src_eoi st2 then
                Done (mkSrc (src_source st2) (src_buffer st2) request (src_incomplete st2) (src_eoi st2) (src_auto st2), inr (SIncomplete request))
              else
                Done (mkSrc (src_source st2) (src_buffer st2) request true (src_eoi st2) (src_auto st2), inr SRetry)
          | Panic => Panicked
          | NoFuel => Stuck
          end
       end) = Panicked).
    { intros n. cbn [run_bind]. destruct Hst1 as [Hi1 Hs1].
      assert (He : src_is_empty o st1 = Done false).
      { unfold src_is_empty, src_len. destruct (src_eoi st1) eqn:Ee; [|reflexivity]. pose proof (q_len Q _ Hq1) as Hl. rewrite (proj1 (of_len F _ Hi1 Hs1 Hl)). cbn [run_bind].
        destruct Hne as [Hne|Hne]; [discriminate|]. destruct (view (src_buffer st1)); [congruence|reflexivity]. }
      rewrite He. cbn [run_bind]. rewrite (of_deref F), (q_deref Q _ Hq1). cbn [run_bind]. rewrite Hp. reflexivity. }
    destruct Hw as [Hw|[n Hw]]; rewrite Hw; apply Hrest.
  Qed.

  Lemma machine_insist : forall (p : parser I T E) fuel rest d e st, K rest d e st -> suits fits rest p -> good rest p ->
    w_insist m ds o fuel p st = insist ds o' fuel p st.
  Proof.
    intros p. induction fuel as [|fuel IH]; intros rest d e st HK Hsu Hg; [reflexivity|]. cbn [insist w_insist]. rewrite (machine_parse HK Hsu Hg).
    destruct (src_parse ds o' p st) as [[st1 r]| | |] eqn:Ep; try reflexivity. cbn [run_bind]. destruct (K_parse HK Hsu Hg Ep) as (_ & _ & H).
    destruct r as [v|[b x|n|x| |]]; auto; destruct H as (d' & e' & H); eauto.
  Qed.

  Lemma machine_script : forall (c : script I T E) fuel s d e st, K (rest_of s) d e st -> ss_pos s <= length (ss_slice s) -> script_suits fits s c -> scr s c ->
    2 * length d + e + 1 < fuel -> w_on_source m ds o fuel c st = on_source ds o' fuel c st.
  Proof.
    intros c fuel. induction c as [|p k IH]; intros s d e st HK Hpos Hc Hs Hf; [reflexivity|]. inversion Hc as [|s1 p1 k1 Hsu Hk]; subst. fold (rest_of s) in Hsu.
    destruct (scr_next Hs) as [Hg Hsk]. cbn [on_source w_on_source]. rewrite (machine_insist fuel HK Hsu Hg).
    destruct (insist ds o' fuel p st) as [[st1 r]| | |] eqn:Ei; try reflexivity. cbn [run_bind].
    destruct (K_insist s HK Hpos Hsu Hg Hf Ei) as (s' & r' & d' & e' & G1 & G2 & G3 & G4 & G5 & G6). rewrite G2.
    rewrite (IH (forget r') s' d' e' st1 G4 G3 (Hk _ _ G1) (Hsk _ _ G1)) by lia. reflexivity.
  Qed.
End Machine.

(** * FixedSizeBuffer *)
Section Fixed.
  Variable m : machine.
  Hypothesis P : platform m.
  Context {St I : Type}.
  Variable ds : data_source St I.
  Hypothesis Ho : obeys ds.
  Variable R : St -> list I -> nat -> Prop.
  Hypothesis HR : delivers ds R.
  Variable size : nat.
  Hypothesis Hsize : size <= w_alloc m.

  Notation standsf := (stands (@fixed_inv I size) (@fixed_view I) (fun k => k <= size) R).
  Definition fixed_at (rest d : list I) (e : nat) (st : src St (fixed I)) : Prop := standsf st rest d e /\ st_ok m size st.

  Lemma fixed_machine : forall T E (c : script I T E) fuel s d e st, fixed_at (rest_of s) d e st -> ss_pos s <= length (ss_slice s) ->
    script_suits (fun k => k <= size) s c -> modest_script (w_size m) size c -> 2 * length d + e + 1 < fuel ->
    w_on_source m ds (w_fixed_ops I m) fuel c st = on_source ds (fixed_ops I) fuel c st.
  Proof.
    intros T E c fuel s d e st HK Hpos Hc Hm Hf.
    apply (@machine_script m St I (fixed I) T E ds Ho (w_fixed_ops I m) (fixed_ops I) fixed_ok (fun b => length (f_mem b) <= w_alloc m) (fixed_inv size) fixed_view fixed_room
      (fun k => k <= size) (fun k => k <= size) (fixed_fit P I) (fixed_queue size) (fun _ p => modest (w_size m) size p) (fun _ c => modest_script (w_size m) size c)) with (K := fixed_at) (s := s) (d := d) (e := e); auto.
    - intros s0 p k H. inversion H; subst. split; auto.
    - intros rest d0 e0 st0 [H1 [H2 H3]]. split; [apply H2|]. split; [apply H1|]. split; [destruct H2 as [_ ->]; exact Hsize|].
      intros st1 x _ Hx. destruct (@ok_src_fill m St I ds size Hsize st0 st1 x (conj H2 H3) Hx) as [[_ ->] _]. exact Hsize.
    - intros rest d0 e0 st0 p st' r [H1 H2] Hsu Hg Hp. pose proof (@ok_src_parse m St I ds size Hsize T E p st0 st' r Hg H2 Hp) as H3. split; [apply H3|]. split; [destruct H3 as [[_ ->] _]; exact Hsize|].
      intros Hr. destruct (parse_step (fixed_queue size) Ho HR H1 Hsu) as [(st2 & r2 & d' & e' & E1 & E2 & E3 & _)|[(E0 & st2 & d' & E1 & E3 & _)|[(_ & _ & E1)|(_ & st2 & d' & o & rest' & o' & E1 & E3 & E4 & E5 & E6)]]];
        rewrite Hp in E1; inversion E1; subst.
      + exists d', e'. split; assumption.
      + destruct Hr as [Hr|[x Hr]]; discriminate.
      + exfalso. destruct (p (mkInput true rest)) as [j w|b x'|k| |]; cbn [whole] in E5; try contradiction; destruct E5 as [_ ->]; destruct Hr as [->|[x ->]]; discriminate.
    - intros s0 d0 e0 st0 p fuel0 st1 r [H1 H2] Hpos0 Hsu Hg Hf0 Hi.
      assert (Hm0 : measure (@fixed_view I) st0 d0 e0 < fuel0) by (unfold measure; destruct (_ && _); lia).
      destruct (@fixed_insist_same m P St I ds size Hsize T E p fuel0 st0 st1 r Hg H2 Hi) as [H3 _].
      destruct (insist_spec (fixed_queue size) Ho HR H1 Hsu Hm0) as [(E1 & st' & d' & e' & E2 & E3 & E4 & E5)|[(E1 & E2 & E3)|(E1 & st' & d' & e' & out & rest' & out' & E2 & E3 & E4 & E5 & E6 & E7)]].
      + destruct (slice_parse_spec s0 Hpos0 (su_well_behaved Hsu)) as [[G1 G2]|[G1 _]]; [|contradiction]. rewrite Hi in E2. inversion E2; subst.
        exists s0, (inr SEndOfInput), d', e'. repeat split; auto; apply H3 || apply E3.
      + congruence.
      + rewrite Hi in E2. inversion E2; subst st' out.
        destruct (slice_parse_spec s0 Hpos0 (su_well_behaved Hsu)) as [[G1 G2]|[_ [[G1 G2]|[[G1 G2]|(s' & out2 & G1 & G2 & G3 & G4)]]]]; try congruence.
        * rewrite G1 in E6. contradiction.
        * rewrite G1 in E6. contradiction.
        * assert (Hw : rest_of s' = rest' /\ out2 = out').
          { destruct (p (mkInput true (rest_of s0))); cbn [whole] in *; try contradiction; destruct E6, G4; split; congruence. }
          destruct Hw as [Hw1 Hw2]. subst out2. exists s', out', d', e'. rewrite Hw1. split; [assumption|]. split; [apply (same_forget _ _ E7)|]. split; [assumption|]. split; [split; assumption|auto].
  Qed.
End Fixed.

(** * GrowingBuffer *)
Section Growing.
  Variable m : machine.
  Hypothesis P : platform m.
  Context {St I : Type}.
  Variable ds : data_source St I.
  Hypothesis Ho : obeys ds.
  Variable R : St -> list I -> nat -> Prop.
  Hypothesis HR : delivers ds R.
  Variables M A L : nat.
  Hypothesis HM : 1 <= M.
  Hypothesis HL : L = 0 \/ 2 * M - 1 + A <= L.
  Hypothesis HW : 2 * M - 1 + A <= w_alloc m.

  Notation K0 := (2 * M - 1 + A).
  Notation stands0 := (stands (@growing_inv0 I) (@growing_view I) (fun _ => True) R).
  Definition growing_at (rest d : list I) (e : nat) (st : src St (growing I)) : Prop :=
    exists st0, st = src_limited L st0 /\ stands0 st0 rest d e /\ ready M A K0 st0 /\ src_request st0 < w_size m.

  Lemma unlimited_same : forall st : src St (growing I), g_limit (src_buffer st) = 0 -> src_limited 0 st = st.
  Proof. intros [s [mem cap pop lim us al co] q i eo au] H. cbn in H. subst lim. reflexivity. Qed.
  Lemma ending_same : forall X (st : src St (growing I)) (r : run (src St (growing I) * X)), (forall st' x, r = Done (st', x) -> g_limit (src_buffer st') = 0) ->
    ending (src_limited 0) r = r.
  Proof. intros X st [[st' x]| | |] H; try reflexivity. unfold ending. cbn [run_bind]. rewrite unlimited_same by (eapply H; reflexivity). reflexivity. Qed.

  Lemma lim_parse : forall T E (p : parser I T E) st0, ready M A K0 st0 ->
    src_parse ds (growing_ops I) p (src_limited L st0) = ending (src_limited L) (src_parse ds (growing_ops I) p st0).
  Proof.
    intros T E p st0 Hr. destruct HL as [->|HL'].
    - rewrite unlimited_same by apply Hr. rewrite ending_same; [reflexivity|exact st0|]. intros st' x H. destruct Hr as [H1 H2].
      destruct (lean_parse ds (Nat.le_refl K0) HM p st0 H1 H2 H) as [G _]. apply G.
    - apply (lu_parse (unnoticed ds _ (lean_within HL' (proj1 Hr)))).
  Qed.
  Lemma lim_fill : forall st0, ready M A K0 st0 -> src_incomplete st0 = true ->
    src_fill ds (growing_ops I) (src_limited L st0) = ending (src_limited L) (src_fill ds (growing_ops I) st0).
  Proof.
    intros st0 Hr Hinc. destruct HL as [->|HL'].
    - rewrite unlimited_same by apply Hr. rewrite ending_same; [reflexivity|exact st0|]. intros st' x H. destruct Hr as [H1 H2].
      destruct (lean_srcfill ds (Nat.le_refl K0) HM st0 H1 (H2 Hinc) H) as [G _]. apply G.
    - apply (lu_fill (unnoticed ds _ (lean_within HL' (proj1 Hr)))).
  Qed.
  Lemma ready_more : forall st0 : src St (growing I), K0 <= L -> ready M A K0 st0 -> ready M A L st0.
  Proof. intros st0 H [(H1 & H2 & H3 & H4) H5]. split; [|exact H5]. split; [assumption|]. split; [assumption|]. split; [lia|assumption]. Qed.
  Lemma lim_insist : forall T E (p : parser I T E) fuel st0 rest d e, stands0 st0 rest d e -> suits (fun _ => True) rest p -> asks_within M rest p -> ready M A K0 st0 ->
    insist ds (growing_ops I) fuel p (src_limited L st0) = ending (src_limited L) (insist ds (growing_ops I) fuel p st0) /\
    forall st' r, insist ds (growing_ops I) fuel p st0 = Done (st', r) -> ready M A K0 st'.
  Proof.
    intros T E p fuel st0 rest d e Hst Hsu Ha Hr. destruct (insist_limited Ho HR (Nat.le_refl K0) HM fuel Hst Hsu Ha Hr) as [_ G]. split; [|exact G].
    destruct HL as [->|HL'].
    - rewrite unlimited_same by apply Hr. rewrite ending_same; [reflexivity|exact st0|]. intros st' x H. apply (G _ _ H).
    - apply (insist_limited Ho HR HL' HM fuel Hst Hsu Ha (ready_more HL' Hr)).
  Qed.

  Lemma growing_deref_len : forall (b : growing I) v, growing_ok b -> growing_deref b = Done v -> growing_len b = Done (length v) /\ length v <= g_cap b.
  Proof.
    unfold growing_ok. intros b v (Hu & Hp & Hc) H. unfold growing_deref, growing_len in *. unbind. rewrite usize_sub_ok by assumption.
    assert (G : forall (x : memory I) (y : list I), expose x = Done y -> length y = length x).
    { induction x as [|[x0|] x IH]; intros y Hy; cbn [expose] in Hy; [inversion Hy; reflexivity| |discriminate]. apply bind_inv in Hy. destruct Hy as (z & Hz & Hy).
      inversion Hy; subst. cbn [length]. f_equal. auto. }
    rewrite (G _ _ H), firstn_length, skipn_length. split; [f_equal|]; lia.
  Qed.

  Lemma growing_request_small : forall T E (p : parser I T E) st0 st' r, ready M A K0 st0 -> src_request st0 < w_size m -> modest (w_size m) K0 p ->
    src_parse ds (growing_ops I) p st0 = Done (st', r) -> src_request st' < w_size m.
  Proof.
    intros T E p st0 st' r [H1 H2] Hq Hm H. destruct (lean_parse ds (Nat.le_refl K0) HM p st0 H1 H2 H) as (G1 & _ & [[G2 _]|(v & n & G2 & G3 & G4 & G5 & _)]); [lia|].
    destruct (growing_deref_len (proj1 G1) G2) as [G6 G7]. rewrite G6 in G3. inversion G3 as [G8].
    assert (Hv : length v <= K0) by (destruct G1 as (_ & _ & G1 & _); lia). pose proof (Hm _ _ _ Hv G5). lia.
  Qed.

  Definition grow_script {T E} (s : slice_stream I) (c : script I T E) : Prop := script_within M s c /\ modest_script (w_size m) K0 c.

  Lemma insist_request : forall T E (p : parser I T E) fuel st0 st' r rest d e, stands0 st0 rest d e -> suits (fun _ => True) rest p -> asks_within M rest p ->
    ready M A K0 st0 -> src_request st0 < w_size m -> modest (w_size m) K0 p ->
    insist ds (growing_ops I) fuel p st0 = Done (st', r) -> src_request st' < w_size m.
  Proof.
    intros T E p. induction fuel as [|fuel IH]; intros st0 st' r rest d e Hst Hsu Ha Hr Hq Hm H; [discriminate|]. cbn [insist] in H.
    apply bind_inv in H. destruct H as ([st1 x] & Hx & H). pose proof (growing_request_small Hr Hq Hm Hx) as Hq1.
    pose proof (parse_ready Ho HR (Nat.le_refl K0) HM Hst Hsu Ha Hr Hx) as Hr1.
    assert (Hgo : x = inr SRetry \/ (exists y, x = inr (SIoError y)) -> insist ds (growing_ops I) fuel p st1 = Done (st', r) -> src_request st' < w_size m).
    { intros Hc Hi. destruct (parse_step growing_queue0 Ho HR Hst Hsu) as [(st2 & r2 & d' & e' & E1 & E2 & E3 & _)|[(E0 & st2 & d' & E1 & E3 & _)|[(_ & _ & E1)|(_ & st2 & d' & o & rest' & o' & E1 & E3 & E4 & E5 & E6)]]];
        rewrite Hx in E1; inversion E1; subst.
      - eapply IH; eassumption.
      - destruct Hc as [Hc|[y Hc]]; discriminate.
      - exfalso. destruct (p (mkInput true rest)) as [j w|b x'|k| |]; cbn [whole] in E5; try contradiction; destruct E5 as [_ ->]; destruct Hc as [->|[y ->]]; discriminate. }
    destruct x as [v|[b y|n|y| |]]; try (inversion H; subst; assumption); apply Hgo; eauto.
  Qed.

  Lemma growing_machine : forall T E (c : script I T E) fuel s d e st, growing_at (rest_of s) d e st -> ss_pos s <= length (ss_slice s) ->
    script_suits (fun _ => True) s c -> grow_script s c -> 2 * length d + e + 1 < fuel ->
    w_on_source m ds (w_growing_ops I m) fuel c st = on_source ds (growing_ops I) fuel c st.
  Proof.
    intros T E c fuel s d e st HK Hpos Hc Hm Hf.
    apply (@machine_script m St I (growing I) T E ds Ho (w_growing_ops I m) (growing_ops I) growing_ok (fun b => g_cap b <= w_alloc m) growing_inv growing_view growing_room
      (fun _ => False) (fun _ => True) (growing_fit P I) growing_queue (fun rest p => asks_within M rest p /\ modest (w_size m) K0 p) grow_script) with (K := growing_at) (s := s) (d := d) (e := e); auto.
    - intros s0 p k [H1 H2]. inversion H1; subst. inversion H2; subst. split; [split; assumption|]. intros s' r Hs. split; auto.
    - intros rest d0 e0 st1 (st0 & -> & H1 & H2 & H3). pose proof (proj1 H2) as (G1 & G2 & G3 & G4). split; [exact G1|]. split; [|split].
      + destruct H1 as (H1 & _). apply H1.
      + cbn [src_limited src_buffer limited g_cap]. lia.
      + intros st2 x Hinc Hx. cbn [src_limited src_incomplete] in Hinc. rewrite lim_fill in Hx by assumption. apply ending_inv in Hx. destruct Hx as (a & Ha & ->).
        destruct (lean_srcfill ds (Nat.le_refl K0) HM st0 (proj1 H2) (proj2 H2 Hinc) Ha) as [(_ & _ & G & _) _]. cbn [src_limited src_buffer limited g_cap]. lia.
    - intros rest d0 e0 st1 p st' r (st0 & -> & H1 & H2 & H3) Hsu [Ha Hmo] Hp. rewrite lim_parse in Hp by assumption. apply ending_inv in Hp. destruct Hp as (st2 & Hp & ->).
      pose proof (growing_request_small H2 H3 Hmo Hp) as G1. pose proof (parse_ready Ho HR (Nat.le_refl K0) HM H1 Hsu Ha H2 Hp) as G2.
      split; [exact G1|]. split; [destruct G2 as [(_ & _ & G2 & _) _]; cbn [src_limited src_buffer limited g_cap]; lia|].
      intros Hr. destruct (parse_step growing_queue0 Ho HR H1 Hsu) as [(st3 & r2 & d' & e' & E1 & E2 & E3 & _)|[(E0 & st3 & d' & E1 & E3 & _)|[(_ & _ & E1)|(_ & st3 & d' & o & rest' & o' & E1 & E3 & E4 & E5 & E6)]]];
        rewrite Hp in E1; inversion E1; subst.
      + exists d', e', st3. auto.
      + destruct Hr as [Hr|[x Hr]]; discriminate.
      + exfalso. destruct (p (mkInput true rest)) as [j w|b x'|k| |]; cbn [whole] in E5; try contradiction; destruct E5 as [_ ->]; destruct Hr as [->|[x ->]]; discriminate.
    - intros s0 d0 e0 st1 p fuel0 st2 r (st0 & -> & H1 & H2 & H3) Hpos0 Hsu [Ha Hmo] Hf0 Hi.
      assert (Hm0 : measure (@growing_view I) st0 d0 e0 < fuel0) by (unfold measure; destruct (_ && _); lia).
      destruct (lim_insist fuel0 H1 Hsu Ha H2) as [G1 G2]. rewrite G1 in Hi. apply ending_inv in Hi. destruct Hi as (st3 & Hi & ->).
      pose proof (G2 _ _ Hi) as Hr3. pose proof (insist_request fuel0 H1 Hsu Ha H2 H3 Hmo Hi) as Hq3.
      destruct (insist_spec growing_queue0 Ho HR H1 Hsu Hm0) as [(E1 & st' & d' & e' & E2 & E3 & E4 & E5)|[(E1 & E2 & E3)|(E1 & st' & d' & e' & out & rest' & out' & E2 & E3 & E4 & E5 & E6 & E7)]].
      + destruct (slice_parse_spec s0 Hpos0 (su_well_behaved Hsu)) as [[F1 F2]|[F1 _]]; [|contradiction]. rewrite Hi in E2. inversion E2; subst.
        exists s0, (inr SEndOfInput), d', e'. do 3 (split; [auto|]). split; [exists st'; auto|auto].
      + congruence.
      + rewrite Hi in E2. inversion E2; subst st' out.
        destruct (slice_parse_spec s0 Hpos0 (su_well_behaved Hsu)) as [[F1 F2]|[_ [[F1 F2]|[[F1 F2]|(s' & out2 & F1 & F2 & F3 & F4)]]]]; try congruence.
        * rewrite F1 in E6. contradiction.
        * rewrite F1 in E6. contradiction.
        * assert (Hw : rest_of s' = rest' /\ out2 = out').
          { destruct (p (mkInput true (rest_of s0))); cbn [whole] in *; try contradiction; destruct E6, F4; split; congruence. }
          destruct Hw as [Hw1 Hw2]. subst out2. exists s', out', d', e'. rewrite Hw1. split; [assumption|]. split; [apply (same_forget _ _ E7)|]. split; [assumption|]. split; [exists st3; auto|auto].
  Qed.
End Growing.
