(** Property theorems C51: when a Source reads. *)
From Coq Require Import List Bool Arith Lia.
From Verif Require Import Base Parsers Combinators Buffer Stream SpecBase SpecBuffer SpecSafe SpecStream SpecReads
  SafeProofs StableProofs BufferProofs StreamProofs SimProofs HistoryProofs PropsSafe PropsBuffer PropsStream ReadsProofs.
Import ListNotations.

(** Every call of [read] while waiting for the answer of [p] is made because [p] cannot answer on what is there, except for the
    very first one; and with room for at least one item. *)
Theorem C51_needed_growing : forall St I (ds : data_source St I) alloc s0 st v T E (p : parser I T E) fuel st' r, obeys ds ->
  polite ds (growing_ops I) s0 (growing_with_limit 0 alloc 0) st -> src_view (growing_ops I) st = Done v -> stable p -> well_behaved p ->
  insist (traced ds) (growing_ops I) fuel p st = Done (st', r) ->
  exists cs, called (src_source st) (src_source st') cs /\ forall items n, In (items, n) cs ->
    0 < n /\ exists l, items = tr_items (src_source st) ++ l /\ (items = [] \/ exists m, p (mkInput false (v ++ l)) = Incomplete m).
Proof.
  intros St I ds alloc s0 st v T E p fuel st' r Ho Hst Hv Hs Hw H. destruct (growing_fresh I alloc) as [Hi0 Hv0].
  pose proof (polite_ready growing_queue0 Ho Hi0 Hv0 Hst p) as Hr.
  assert (Hview : v = growing_view (src_buffer st)) by (unfold src_view in Hv; rewrite (q_deref growing_queue0 _ (proj1 Hr)) in Hv; congruence). subst v.
  destruct (insist_calls growing_queue0 Ho Hs Hw _ Hr H) as (_ & _ & _ & cs & new & H1 & _ & H2). exists cs. split; [assumption|]. intros items n Hin.
  destruct (H2 _ _ Hin) as (l & G1 & G2 & G3). split; [auto|]. exists l. auto.
Qed.
Theorem C51_needed_fixed : forall St I (ds : data_source St I) size b0 s0 st v T E (p : parser I T E) fuel st' r, obeys ds -> fixed_with_size size = Done b0 ->
  polite ds (fixed_ops I) s0 b0 st -> src_view (fixed_ops I) st = Done v -> stable p -> well_behaved p ->
  insist (traced ds) (fixed_ops I) fuel p st = Done (st', r) ->
  exists cs, called (src_source st) (src_source st') cs /\ forall items n, In (items, n) cs ->
    exists l, items = tr_items (src_source st) ++ l /\ (items = [] \/ exists m, p (mkInput false (v ++ l)) = Incomplete m) /\ (length (v ++ l) < size -> 0 < n).
Proof.
  intros St I ds size b0 s0 st v T E p fuel st' r Ho Hb Hst Hv Hs Hw H. destruct (fixed_fresh _ _ _ Hb) as (H0 & Hi0 & Hv0).
  pose proof (polite_ready (fixed_queue size) Ho Hi0 Hv0 Hst p) as Hr.
  assert (Hview : v = fixed_view (src_buffer st)) by (unfold src_view in Hv; rewrite (q_deref (fixed_queue size) _ (proj1 Hr)) in Hv; congruence). subst v.
  destruct (insist_calls (fixed_queue size) Ho Hs Hw _ Hr H) as (_ & _ & _ & cs & new & H1 & _ & H2). exists cs. split; [assumption|]. intros items n Hin.
  destruct (H2 _ _ Hin) as (l & G1 & G2 & G3). exists l. auto.
Qed.
Print Assumptions C51_needed_growing.
Print Assumptions C51_needed_fixed.

(** In a dialogue: as soon as what has been received and the next chunks [cs1] settle the answer, nothing further is read. *)
Theorem C51_dialogue : forall I alloc s0 st v T E (p : parser I T E) fuel st' r cs1 cs2,
  polite (read_data_source chunk_read) (growing_ops I) s0 (growing_with_limit 0 alloc 0) st -> src_view (growing_ops I) st = Done v -> stable p -> well_behaved p ->
  tr_state (src_source st) = cs1 ++ cs2 -> tr_items (src_source st) ++ chunks_data cs1 <> [] -> decided (p (mkInput false (v ++ chunks_data cs1))) ->
  insist (traced (read_data_source chunk_read)) (growing_ops I) fuel p st = Done (st', r) ->
  exists cs1', tr_state (src_source st') = cs1' ++ cs2.
Proof.
  intros I alloc s0 st v T E p fuel st' r cs1 cs2 Hst Hv Hs Hw Hcs Hne Hd H. destruct (growing_fresh I alloc) as [Hi0 Hv0].
  pose proof (chunk_obeys (I := I)) as Ho. pose proof (polite_ready growing_queue0 Ho Hi0 Hv0 Hst p) as Hr.
  destruct (insist_reads growing_queue0 (traced_obeys Ho) Hw _ _ (proj1 Hr) H) as (new & e & en & Hrd).
  destruct (chunk_reads Hrd) as (_ & cs & H1 & H2 & H3). apply (H3 _ _ Hcs). intros items n Hin.
  destruct (C51_needed_growing _ _ _ _ _ _ _ _ _ p _ _ _ Ho Hst Hv Hs Hw H) as (cs' & H4 & H5).
  assert (cs' = cs) by (unfold called in *; rewrite H1 in H4; apply app_inv_head in H4; auto). subst cs'.
  destruct (H5 _ _ Hin) as (_ & l & G1 & G2). destruct (H2 _ _ Hin) as (l' & d & G3 & G4). rewrite G1 in G3. apply app_inv_head in G3. subst l'.
  destruct G2 as [G2|[m G2]].
  - rewrite G2 in *. symmetry in G1. apply app_eq_nil in G1. destruct G1 as [G1 G1']. rewrite G1 in *. cbn [length app] in *. destruct (chunks_data cs1); [contradiction|cbn [length]; lia].
  - rewrite G1, app_length. apply Nat.add_lt_mono_l. destruct (Nat.lt_ge_cases (length l) (length (chunks_data cs1))) as [|Hge]; [assumption|exfalso].
    rewrite Hcs in G4. unfold chunks_data in G4. rewrite flat_map_app in G4. fold (chunks_data cs1) in G4. apply app_eq_app in G4. destruct G4 as (x & [[G4 _]|[G4 _]]).
    + rewrite G4, app_length in Hge. assert (x = []) by (destruct x; [reflexivity|cbn [length] in Hge; lia]). subst x. rewrite app_nil_r in G4. rewrite G4, G2 in Hd. exact Hd.
    + subst l. pose proof (Hs (v ++ chunks_data cs1) false x) as Hu. rewrite <- app_assoc in Hu. rewrite G2 in Hu.
      destruct (p (mkInput false (v ++ chunks_data cs1))); cbn [decided upholds] in *; try contradiction; discriminate.
Qed.
(** From the start, with the answer. *)
Theorem C51_prompt : forall I alloc T E (p : parser I T E) cs1 cs2 j x, ~ In (Some []) (cs1 ++ cs2) -> stable p -> well_behaved p -> (forall i, p i <> NoFuel) ->
  chunks_data cs1 <> [] -> p (mkInput false (chunks_data cs1)) = Data j x ->
  exists fuel st' cs1', insist (traced (read_data_source chunk_read)) (growing_ops I) fuel p (src_with_buffer (mkTrace (cs1 ++ cs2) [] []) (growing_with_limit 0 alloc 0)) =
      Done (st', inl x) /\ tr_state (src_source st') = cs1' ++ cs2.
Proof.
  intros I alloc T E p cs1 cs2 j x Hne Hs Hw Hnf Hd Hp. destruct (growing_fresh I alloc) as [Hi0 Hv0]. set (st := src_with_buffer (mkTrace (cs1 ++ cs2) [] []) (growing_with_limit 0 alloc 0)).
  set (data := chunks_data (cs1 ++ cs2)). set (e := chunks_errors (cs1 ++ cs2)). pose proof (chunk_obeys (I := I)) as Ho.
  assert (HR : delivers (traced (read_data_source chunk_read)) (fun (t : trace (list (option (list I))) I) d e => schedule (tr_state t) d e)).
  { intros t d e1 Ht n t' w r Hr. unfold traced in Hr. cbn [ds_read] in Hr. destruct (ds_read (read_data_source chunk_read) (tr_state t) n) as [[s' w'] r'] eqn:Hc. inversion Hr; subst. cbn [tr_state].
    exact (chunk_delivers Ht _ Hc). }
  assert (Hdata : data = chunks_data cs1 ++ chunks_data cs2) by (unfold data, chunks_data; apply flat_map_app).
  assert (Hst : stands growing_inv0 (growing_view (I := I)) (fun _ => True) (fun t d e => schedule (tr_state t) d e) st data data e).
  { split; [assumption|]. split; [repeat split; auto|]. split; [change (src_buffer st) with (growing_with_limit (I := I) 0 alloc 0); rewrite Hv0; reflexivity|]. repeat split. discriminate. }
  assert (Hsu : suits (fun _ => True) data p).
  { split; auto. intros Hn. exfalso. apply Hd. rewrite Hdata in Hn. apply app_eq_nil in Hn. apply Hn. }
  assert (Hpd : p (mkInput true data) = Data (mkInput true (buf j ++ chunks_data cs2)) x).
  { pose proof (Hs (chunks_data cs1) true (chunks_data cs2)) as Hu. rewrite Hp, <- Hdata in Hu. exact Hu. }
  destruct (insist_spec growing_queue0 (traced_obeys Ho) HR (fuel := S (measure (growing_view (I := I)) st data e)) Hst Hsu ltac:(lia)) as [(H1 & _)|[(H1 & H2 & _)|(H1 & st' & d' & e' & out & rest' & out' & H2 & _ & _ & _ & H3 & H4)]].
  - exfalso. apply Hd. rewrite Hdata in H1. apply app_eq_nil in H1. apply H1.
  - congruence.
  - rewrite Hpd in H3. cbn [whole] in H3. destruct H3 as [_ ->]. destruct out as [y|[]]; cbn [same] in H4; try discriminate. inversion H4; subst y.
    destruct (C51_dialogue I alloc (cs1 ++ cs2) st [] T E p (S (measure (growing_view (I := I)) st data e)) st' (inl x) cs1 cs2) as (cs1' & H5); auto.
    + apply po_new.
    + cbn [app]. rewrite Hp. exact Logic.I.
    + eauto.
Qed.
Print Assumptions C51_dialogue.
Print Assumptions C51_prompt.

(** After an answer the next call of [parse] does not read; over any source and buffer. *)
Theorem C51_quiet : forall St I B (ds : data_source St I) (ops : buffer_ops I B) s0 b0 st out T E (p : parser I T E) st1 r U F (q : parser I U F) st2 r2,
  any_history ds ops s0 b0 st out -> src_auto st = true -> src_parse (traced ds) ops p st = Done (st1, r) -> answered r ->
  src_parse (traced ds) ops q st1 = Done (st2, r2) -> tr_calls (src_source st2) = tr_calls (src_source st1).
Proof.
  intros St I B ds ops s0 b0 st out T E p st1 r U F q st2 r2 Hst Ha Hp Hr Hq.
  destruct (parse_flags _ _ p _ Hp (history_flags Hst)) as (H1 & H2 & H3 & H4). f_equal. eapply parse_quiet; [|exact Hq]. rewrite (H3 Hr Ha). reflexivity.
Qed.
(** Once the stream is over, [parse] does not read any more. *)
Theorem C51_over : forall St I B (ds : data_source St I) (ops : buffer_ops I B) s0 b0 st out T E (p : parser I T E) st1 r st2,
  any_history ds ops s0 b0 st out -> src_parse (traced ds) ops p st = Done (st1, r) -> over r -> parses (traced ds) ops st1 st2 ->
  tr_calls (src_source st2) = tr_calls (src_source st1).
Proof.
  intros St I B ds ops s0 b0 st out T E p st1 r st2 Hst Hp Hr Hps.
  destruct (parse_flags _ _ p _ Hp (history_flags Hst)) as (H1 & H2 & H3 & H4). f_equal. eapply parses_quiet; eauto.
Qed.
Print Assumptions C51_quiet.
Print Assumptions C51_over.

(** [io::Read::read] and [BufRead::fill_buf]. *)
Section Read.
  Context {St I B : Type}.
  Variable ds : data_source St I.
  Variables (ops : buffer_ops I B) (inv : B -> Prop) (view : B -> list I) (room : B -> nat) (fits : nat -> Prop).
  Hypothesis Q : queue_like ops inv view room fits.
  Hypothesis Ho : obeys ds.

  Lemma read_calls : forall n st st' r, inv (src_buffer st) -> src_read (traced ds) ops n st = Done (st', r) ->
    exists cs, called (src_source st) (src_source st') cs /\ forall items m, In (items, m) cs ->
      exists l, items = tr_items (src_source st) ++ l /\ length (view (src_buffer st) ++ l) < n.
  Proof.
    intros n st st' r Hi H. unfold src_read in H. destruct (src_len ops st) as [l| | |]; try discriminate. cbn [run_bind] in H.
    destruct (if l <? n then fill_requested (traced ds) ops n st else Done (st, IoOk 0)) as [[st1 r1]| | |] eqn:Hf; try discriminate. cbn [run_bind] in H.
    assert (Hs : src_source st' = src_source st1).
    { destruct r1 as [m|x]; [|inversion H; reflexivity]. destruct (op_deref ops (src_buffer st1)) as [data| | |]; try discriminate. cbn [run_bind] in H.
      destruct (op_consume ops (src_buffer st1) (length (firstn n data))); try discriminate. inversion H; reflexivity. }
    rewrite Hs. destruct (l <? n).
    - destruct (fill_requested_calls Q Ho _ _ Hi Hf) as (_ & _ & new & cs & H1 & _ & _ & H2 & _). exists cs. split; [assumption|]. intros items m Hin.
      destruct (H2 _ _ Hin) as (l' & G1 & G2 & _). eauto.
    - inversion Hf; subst. exists []. split; [unfold called; rewrite app_nil_r; reflexivity|intros items m []].
  Qed.
  Lemma fill_buf_calls : forall st st' r, inv (src_buffer st) -> src_fill_buf (traced ds) ops st = Done (st', r) ->
    exists cs, called (src_source st) (src_source st') cs /\ forall items m, In (items, m) cs ->
      exists l, items = tr_items (src_source st) ++ l /\ length (view (src_buffer st) ++ l) < src_capacity ops st.
  Proof.
    intros st st' r Hi H. unfold src_fill_buf in H.
    destruct (fill_requested (traced ds) ops (src_capacity ops st) st) as [[st1 r1]| | |] eqn:Hf; try discriminate. cbn [run_bind] in H.
    assert (Hs : src_source st' = src_source st1).
    { destruct r1 as [m|x]; [|inversion H; reflexivity]. destruct (src_view ops st1) as [data| | |]; try discriminate. inversion H; reflexivity. }
    rewrite Hs. destruct (fill_requested_calls Q Ho _ _ Hi Hf) as (_ & _ & new & cs & H1 & _ & _ & H2 & _). exists cs. split; [assumption|]. intros items m Hin.
    destruct (H2 _ _ Hin) as (l' & G1 & G2 & _). eauto.
  Qed.
End Read.

(** [read] into [n] places calls the source only while fewer than [n] items are there, [fill_buf] only while there are fewer than the capacity. *)
Theorem C51_read_fixed : forall St I (ds : data_source St I) size b0 s0 st out v, obeys ds -> fixed_with_size size = Done b0 ->
  any_history ds (fixed_ops I) s0 b0 st out -> src_view (fixed_ops I) st = Done v ->
  (forall n st' r, src_read (traced ds) (fixed_ops I) n st = Done (st', r) -> exists cs, called (src_source st) (src_source st') cs /\
    forall items m, In (items, m) cs -> exists l, items = tr_items (src_source st) ++ l /\ length (v ++ l) < n) /\
  (forall st' r, src_fill_buf (traced ds) (fixed_ops I) st = Done (st', r) -> exists cs, called (src_source st) (src_source st') cs /\
    forall items m, In (items, m) cs -> exists l, items = tr_items (src_source st) ++ l /\ length (v ++ l) < size).
Proof.
  intros St I ds size b0 s0 st out v Ho Hb H Hv. destruct (fixed_fresh _ _ _ Hb) as (H0 & Hi0 & Hv0).
  destruct (history_inv (fixed_queue size) (traced_obeys Ho) Hi0 Hv0 H) as [Hi _].
  assert (v = fixed_view (src_buffer st)) by (unfold src_view in Hv; rewrite (q_deref (fixed_queue size) _ Hi) in Hv; congruence). subst v.
  split; [intros n st' r; apply (read_calls _ _ _ _ _ _ (fixed_queue size) Ho); assumption|]. intros st' r Hr.
  pose proof (fill_buf_calls _ _ _ _ _ _ (fixed_queue size) Ho _ _ _ Hi Hr) as G. unfold src_capacity in G. cbn [fixed_ops op_capacity] in G. unfold fixed_capacity in G. rewrite (proj2 Hi) in G. exact G.
Qed.
Theorem C51_read_growing : forall St I (ds : data_source St I) cap0 alloc limit s0 st out v, obeys ds ->
  any_history ds (growing_ops I) s0 (growing_with_limit cap0 alloc limit) st out -> src_view (growing_ops I) st = Done v ->
  (forall n st' r, src_read (traced ds) (growing_ops I) n st = Done (st', r) -> exists cs, called (src_source st) (src_source st') cs /\
    forall items m, In (items, m) cs -> exists l, items = tr_items (src_source st) ++ l /\ length (v ++ l) < n) /\
  (forall st' r, src_fill_buf (traced ds) (growing_ops I) st = Done (st', r) -> exists cs, called (src_source st) (src_source st') cs /\
    forall items m, In (items, m) cs -> exists l, items = tr_items (src_source st) ++ l /\ length (v ++ l) < src_capacity (growing_ops I) st).
Proof.
  intros St I ds cap0 alloc limit s0 st out v Ho H Hv. destruct (@growing_new I cap0 alloc limit) as (Hi0 & Hv0 & _).
  destruct (history_inv growing_queue (traced_obeys Ho) Hi0 Hv0 H) as [Hi _].
  assert (v = growing_view (src_buffer st)) by (unfold src_view in Hv; rewrite (q_deref growing_queue _ Hi) in Hv; congruence). subst v.
  split; [intros n st' r; apply (read_calls _ _ _ _ _ _ growing_queue Ho); assumption|]. intros st' r; apply (fill_buf_calls _ _ _ _ _ _ growing_queue Ho); assumption.
Qed.
Print Assumptions C51_read_fixed.
Print Assumptions C51_read_growing.

(** The first read is made even for a parser that needs no input. *)
Theorem C51_first_refuted : exists st', insist (traced demo_source) (growing_ops nat) 1 (ret 7 : parser nat nat (error nat))
  (src_with_buffer (mkTrace [Some [1]] [] []) (growing_with_limit 0 (fun _ => 0) 0)) = Done (st', inl 7) /\ tr_calls (src_source st') = [([], 1)].
Proof. eexists. split; vm_compute; reflexivity. Qed.
(** A full FixedSizeBuffer makes the Source call [read] with an empty slice. *)
Theorem C51_full_refuted : exists b0 st', fixed_with_size 2 = Done b0 /\ insist (traced demo_source) (fixed_ops nat) 9 item
  (src_with_buffer (mkTrace [Some [1; 2]; Some [0]] [] []) b0) = Done (st', inr (SIncomplete 3)) /\ tr_calls (src_source st') = [([], 2); ([1; 2], 0)].
Proof. eexists _, _. split; [reflexivity|]. split; vm_compute; reflexivity. Qed.
Print Assumptions C51_first_refuted.
Print Assumptions C51_full_refuted.

(** A dialogue: the first item is answered before the second chunk is asked for, and the second from the rest of the first chunk. *)
Definition talk : list (option (list nat)) := [Some [3]; None; Some [4; 0; 5; 0]; Some [6]; Some [0]].
Example C51_case : exists st1 st2, stable item /\ well_behaved item /\ (forall i, item i <> NoFuel) /\ ~ In (Some []) talk /\
  item (mkInput false (chunks_data [Some [3]; None; Some [4; 0; 5; 0]])) = Data (mkInput false [5; 0]) [3; 4] /\
  insist (traced demo_source) (growing_ops nat) 9 item (src_with_buffer (mkTrace talk [] []) (growing_with_limit 0 (fun _ => 0) 0)) = Done (st1, inl [3; 4]) /\
  polite demo_source (growing_ops nat) talk (growing_with_limit 0 (fun _ => 0) 0) st1 /\
  insist (traced demo_source) (growing_ops nat) 9 item st1 = Done (st2, inl [5]) /\
  src_source st2 = mkTrace [Some [6]; Some [0]] [3; 4; 0; 5; 0] [([], 1); ([3], 1); ([3], 1); ([3; 4], 1); ([3; 4; 0], 3)].
Proof.
  eexists _, _. split; [apply safe_stable, item_safe|]. split; [apply built_well_behaved, safe_built, item_safe|]. split; [exact item_total|].
  split; [cbn; intros H; repeat (destruct H as [H|H]; [discriminate|]); exact H|]. split; [reflexivity|]. split; [vm_compute; reflexivity|].
  split; [eapply po_insist with (fuel := 9) (p := item); [apply po_new|apply safe_stable, item_safe|apply built_well_behaved, safe_built, item_safe|vm_compute; reflexivity]|].
  split; vm_compute; reflexivity.
Qed.
(** An answer, and then the end. *)
Example C51_case_over : exists b0 st1 st2 st3 st4 st5, let s0 := [Some [3; 0; 4]] in fixed_with_size 8 = Done b0 /\
  any_history demo_source (fixed_ops nat) s0 b0 (src_with_buffer (mkTrace s0 [] []) b0) [] /\
  src_parse (traced demo_source) (fixed_ops nat) item (src_with_buffer (mkTrace s0 [] []) b0) = Done (st1, inl [3]) /\
  src_parse (traced demo_source) (fixed_ops nat) item st1 = Done (st2, inr SRetry) /\
  any_history demo_source (fixed_ops nat) s0 b0 st2 [3; 0] /\
  src_parse (traced demo_source) (fixed_ops nat) item st2 = Done (st3, inr (SIncomplete 2)) /\
  src_parse (traced demo_source) (fixed_ops nat) any st3 = Done (st4, inl 4) /\
  src_parse (traced demo_source) (fixed_ops nat) any st4 = Done (st5, inr SEndOfInput) /\ parses (traced demo_source) (fixed_ops nat) st3 st5 /\
  tr_calls (src_source st2) = [([], 8)] /\ tr_calls (src_source st3) = [([], 8); ([3; 0; 4], 5)] /\ tr_calls (src_source st5) = [([], 8); ([3; 0; 4], 5)].
Proof.
  pose proof (built_well_behaved (safe_built item_safe)) as Hw.
  eexists _, _, _, _, _, _. cbn zeta. split; [reflexivity|]. split; [apply h_new|]. split; [vm_compute; reflexivity|]. split; [vm_compute; reflexivity|]. split.
  { change [3; 0] with (([] ++ told (inl ([3; 0], [3]) : sres nat (list nat * list nat) (list nat * error nat))) ++ told (inr SRetry : sres nat (list nat * list nat) (list nat * error nat))).
    eapply h_parse with (p := item); [eapply h_parse with (p := item); [apply h_new|exact Hw|exact Logic.I|vm_compute; reflexivity]|exact Hw|exact Logic.I|vm_compute; reflexivity]. }
  split; [vm_compute; reflexivity|]. split; [vm_compute; reflexivity|]. split; [vm_compute; reflexivity|].
  split; [eapply ps_parse with (p := any); [vm_compute; reflexivity|]; eapply ps_parse with (p := any); [vm_compute; reflexivity|apply ps_none]|].
  repeat split; vm_compute; reflexivity.
Qed.
