(** Property C47. *)
From Coq Require Import List Bool Arith Lia.
From Verif Require Import Base Parsers Buffer Stream SpecBase SpecSafe SpecBuffer SpecStream SpecWord SpecLimit BufferProofs StreamProofs SimProofs WordProofs PropsBuffer PropsStream LimitProofs LimitTightProofs.
Import ListNotations.

Set Implicit Arguments.

(** * C47 *)

(** As long as the capacity is within the limit, no call shows that there is one. *)
Theorem C47_unnoticed : forall St I (ds : data_source St I) limit (st : src St (growing I)), g_limit (src_buffer st) = 0 -> g_cap (src_buffer st) <= limit ->
  limit_unnoticed ds limit st.
Proof. intros St I ds limit st H1 H2. apply unnoticed. split; assumption. Qed.

(** Who never asks for more than [M] items at a time stays within any limit of [2 * M - 1] and what the allocator may give on top, and
    so has the very history that there would be without a limit. *)
Theorem C47_history : forall St I (ds : data_source St I) M A limit alloc s0 st out, 1 <= M -> 2 * M - 1 + A <= limit -> (forall k, alloc k <= A) ->
  modest_history ds (growing_ops I) M s0 (growing_with_limit 0 alloc limit) st out ->
  g_cap (src_buffer st) <= 2 * M - 1 + A /\
  exists st0, modest_history ds (growing_ops I) M s0 (growing_with_limit 0 alloc 0) st0 out /\ st = src_limited limit st0 /\ limit_unnoticed ds limit st0.
Proof.
  intros St I ds M A limit alloc s0 st out HM HL HA H.
  destruct (modest_limited (Nat.le_refl (2 * M - 1 + A)) HL HM HA H) as (st0 & H1 & H2 & H3 & _). split.
  - rewrite H2. apply H3.
  - exists st0. split; [assumption|]. split; [assumption|]. apply unnoticed. apply (lean_within HL H3).
Qed.
(** In particular C33 and C35 hold for it, *)
Theorem C47_ends : forall St I (ds : data_source St I) M A limit alloc s0 st out, obeys ds -> 1 <= M -> 2 * M - 1 + A <= limit -> (forall k, alloc k <= A) ->
  modest_history (logged ds) (growing_ops I) M (mkLog s0 [] false) (growing_with_limit 0 alloc limit) st out -> ends_truly ds (growing_ops I) anything st.
Proof.
  intros St I ds M A limit alloc s0 st out Ho HM HL HA H. destruct (C47_history HM HL HA H) as (_ & st0 & H1 & -> & H3).
  destruct (C33_growing_partial _ _ _ _ _ _ _ Ho (modest_is_history H1)) as (E1 & E2 & E3). split; [|split].
  - intros T E p st' Hw Hp Hr. rewrite (lu_parse H3) in Hr. apply ending_inv in Hr. destruct Hr as (st1 & Hr & ->). exact (E1 _ _ _ _ Hw Hp Hr).
  - intros Hp st' d Hr. rewrite (lu_parse H3) in Hr. apply ending_inv in Hr. destruct Hr as (st1 & Hr & ->). exact (E2 Hp _ _ Hr).
  - intros T E p st' n Hw Hp Hr. rewrite (lu_parse H3) in Hr. apply ending_inv in Hr. destruct Hr as (st1 & Hr & ->). exact (E3 _ _ _ _ _ Hw Hp Hr).
Qed.
Theorem C47_reads : forall St I (ds : data_source St I) M A limit alloc s0 st out, obeys ds -> 1 <= M -> 2 * M - 1 + A <= limit -> (forall k, alloc k <= A) ->
  modest_history ds (growing_ops I) M s0 (growing_with_limit 0 alloc limit) st out ->
  reads_right ds (growing_ops I) (fun _ => False) st /\ shows_right ds (growing_ops I) (fun _ => src_capacity (growing_ops I) st = 0) st.
Proof.
  intros St I ds M A limit alloc s0 st out Ho HM HL HA H. destruct (modest_limited (Nat.le_refl (2 * M - 1 + A)) HL HM HA H) as (st0 & H1 & -> & H3 & _).
  assert (H4 : limit_unnoticed (logged ds) limit (watch st0)) by (apply unnoticed, (lean_within HL H3)).
  destruct (C35_growing_partial _ _ _ _ _ _ _ Ho (modest_is_history H1)) as (E1 & E2). split.
  - intros n v Hv. destruct (E1 n v Hv) as (st' & r & v' & G1 & G2 & G3). exists (src_limited limit st'), r, v'. split; [|split; assumption].
    exact (eq_trans (lu_read H4 n) (f_equal (ending (src_limited limit)) G1)).
  - intros v Hv. destruct (E2 v Hv) as (st' & r & v' & G1 & G2 & G3). exists (src_limited limit st'), r, v'. split; [|split; assumption].
    exact (eq_trans (lu_fill_buf H4) (f_equal (ending (src_limited limit)) G1)).
Qed.
(** and so does C31. *)
Theorem C47_program : forall St I T E (ds : data_source St I) R M A limit alloc s data e (c : script I T E) fuel, obeys ds -> delivers ds R -> R s data e ->
  1 <= M -> 2 * M - 1 + A <= limit -> (forall k, alloc k <= A) ->
  script_suits (fun _ => True) (slice_new data) c -> script_within M (slice_new data) c -> 2 * length data + e + 2 <= fuel ->
  on_source ds (growing_ops I) fuel c (src_with_buffer s (growing_with_limit 0 alloc limit)) = on_slice c (slice_new data) /\
  same_run (Forall2 shows_part_of) (on_source_full ds (growing_ops I) fuel c (src_with_buffer s (growing_with_limit 0 alloc limit)))
    (on_slice_full c (slice_new data)).
Proof.
  intros St I T E ds R M A limit alloc s data e c fuel Ho HR Hs HM HL HA Hc Hw Hf.
  pose proof (C31_growing _ _ _ _ ds R alloc s data e c fuel Ho HR Hs Hc Hf) as H1. pose proof (C31_slices _ _ _ _ ds R alloc s data e c fuel Ho HR Hs Hc Hf) as H2.
  destruct (growing_fresh I alloc) as [Hi Hv].
  assert (G : on_source_full ds (growing_ops I) fuel c (src_limited limit (src_with_buffer s (growing_with_limit 0 alloc 0))) =
      on_source_full ds (growing_ops I) fuel c (src_with_buffer s (growing_with_limit 0 alloc 0)) /\
    on_source ds (growing_ops I) fuel c (src_limited limit (src_with_buffer s (growing_with_limit 0 alloc 0))) =
      on_source ds (growing_ops I) fuel c (src_with_buffer s (growing_with_limit 0 alloc 0))).
  { eapply (on_source_limited Ho HR HL HM) with (s := slice_new data) (d := data) (e := e); auto.
    - cbn. lia.
    - unfold stands. cbn [src_with_buffer src_buffer src_source src_auto src_eoi src_incomplete src_request slice_new]. rewrite Hv. repeat split; auto; try apply Hi. discriminate.
    - lia.
    - split; [unfold lean, growing_ok; cbn; repeat split; auto; lia|]. cbn. lia. }
  destruct G as [G1 G2]. rewrite limited_new, G1, G2. split; assumption.
Qed.

(** What the limit does: memory is allocated only while the capacity is within it, so that it is exceeded by one allocation at most *)
Theorem C47_growth : forall I cap0 alloc limit b (got : list I) gone k b', reached (growing_ops I) (growing_with_limit cap0 alloc limit) b got gone ->
  growing_request_space b k = Done b' -> g_cap b' <> g_cap b ->
  (limit = 0 \/ g_cap b <= limit) /\ g_cap b < k + (length got - gone) /\ g_cap b' <= g_cap b + k + g_alloc b (g_count b).
Proof.
  intros I cap0 alloc limit b got gone k b' H Hr Hne. destruct (C27_growing _ _ _ _ _ _ _ H) as (_ & _ & H3 & _ & H5 & _).
  assert (Hl : g_limit b = limit).
  { destruct (@growing_new I cap0 alloc limit) as (Hi & Hv & _).
    assert (Q : queue_like (growing_ops I) (fun b => growing_inv b /\ g_limit b = limit) growing_view growing_room (fun _ => False)).
    { apply growing_queue_gen; try tauto. intros b1 b2 [G1 G2] G3 G4 _. split; [assumption|congruence]. }
    destruct (reached_view Q (conj Hi eq_refl) Hv H) as ((_ & G) & _). assumption. }
  destruct (request_growth _ _ H3 H5 Hr) as [G|G]; [contradiction|]. rewrite Hl in G. exact G.
Qed.
(** and never again, whatever is called. *)
Theorem C47_beyond : forall St I (ds : data_source St I) st st', g_limit (src_buffer st) <> 0 -> g_limit (src_buffer st) < g_cap (src_buffer st) -> later ds (growing_ops I) st st' ->
  g_cap (src_buffer st') = g_cap (src_buffer st) /\ src_capacity (growing_ops I) st' = src_capacity (growing_ops I) st.
Proof.
  intros St I ds st st' H0 H1 H. destruct (beyond_later H0 H1 H (conj eq_refl (conj eq_refl eq_refl))) as (_ & G1 & G2). split; [assumption|exact G2].
Qed.
Print Assumptions C47_unnoticed.
Print Assumptions C47_history.
Print Assumptions C47_ends.
Print Assumptions C47_reads.
Print Assumptions C47_program.
Print Assumptions C47_growth.
Print Assumptions C47_beyond.

(** Fields of given lengths, one call each. *)
Fixpoint fields {I} (ns : list nat) : script I (list I) (error I) :=
  match ns with
  | [] => Stop
  | n :: ns => Next (take n) (fun _ => fields ns)
  end.
Lemma fields_suit : forall I ns (s : slice_stream I), ~ In 0 ns -> script_suits (fun _ => True) s (fields ns).
Proof.
  intros I. induction ns as [|n ns IH]; intros s H; [apply ss_stop|]. cbn [fields]. apply ss_next; [|intros; apply IH; intros G; apply H; right; exact G].
  apply C31_safe_suits; auto; [apply s_take|intros [l b]; unfold take; cbn [buf]; destruct (_ <=? _); discriminate|].
  exists n. destruct n; [exfalso; apply H; left; reflexivity|reflexivity].
Qed.
Lemma fields_within : forall I M ns (s : slice_stream I), Forall (fun n => n <= M) ns -> script_within M s (fields ns).
Proof.
  intros I M ns. induction ns as [|n ns IH]; intros s H; [apply sw_stop|]. inversion H; subst. cbn [fields]. apply sw_next; [|intros; apply IH; assumption].
  intros b c k _ Hp. unfold take in Hp. cbn [buf] in Hp. destruct (Nat.leb_spec n (length b)); [discriminate|]. inversion Hp; subst. lia.
Qed.
(** Any fields of at most [M] items, over any chunks and faults, under a limit of [2 * M - 1]. *)
Example C47_case_program : forall M ns cs, 1 <= M -> Forall (fun n => n <= M) ns -> ~ In 0 ns -> ~ In (Some []) cs -> exists fuel,
  on_source demo_source (growing_ops nat) fuel (fields ns) (src_with_buffer cs (growing_with_limit 0 (fun _ => 0) (2 * M - 1))) = on_slice (fields ns) (slice_new (chunks_data cs)).
Proof.
  intros M ns cs HM Hns H0 Hcs. exists (2 * length (chunks_data cs) + chunks_errors cs + 2).
  refine (proj1 (@C47_program _ nat _ _ demo_source schedule M 0 (2 * M - 1) (fun _ => 0) cs (chunks_data cs) (chunks_errors cs) (fields ns) _ _ _ _ HM _ _ _ _ _));
    auto using chunk_obeys, chunk_delivers, fields_suit, fields_within; [apply chunk_obeys|apply chunk_delivers|repeat split; auto|lia].
Qed.
Example C47_case : on_source demo_source (growing_ops nat) 99 (fields [1; 2; 1; 2; 2]) (src_with_buffer [Some [1; 2; 3; 4]; None; Some [5; 6; 7; 8]] (growing_with_limit 0 (fun _ => 0) 3)) =
    Done [inl [1]; inl [2; 3]; inl [4]; inl [5; 6]; inl [7; 8]] /\
  exists st, modest_history demo_source (growing_ops nat) 2 [Some [1; 2; 3; 4]; None; Some [5; 6; 7; 8]] (growing_with_limit 0 (fun _ => 0) 3) st [1; 2; 3; 4] /\ g_cap (src_buffer st) = 3.
Proof.
  split; [vm_compute; reflexivity|].
  pose proof (mh_new demo_source (growing_ops nat) 2 [Some [1; 2; 3; 4]; None; Some [5; 6; 7; 8]] (growing_with_limit 0 (fun _ => 0) 3)) as H.
  eapply (fun s o st' r h => @mh_parse _ _ _ _ _ _ _ _ s o _ _ (take 1) st' r h (take_well_behaved _ 1)) in H; [|vm_compute; reflexivity|vm_compute; lia].
  eapply (fun s o st' r h => @mh_parse _ _ _ _ _ _ _ _ s o _ _ (take 2) st' r h (take_well_behaved _ 2)) in H; [|vm_compute; reflexivity|vm_compute; lia].
  eapply (fun s o st' r h => @mh_parse _ _ _ _ _ _ _ _ s o _ _ (take 2) st' r h (take_well_behaved _ 2)) in H; [|vm_compute; reflexivity|vm_compute; lia].
  eapply mh_read with (n := 1) in H; [|lia|vm_compute; reflexivity].
  eexists. split; [exact H|]. reflexivity.
Qed.
(** One item less of a limit is not enough, for any [M] from two on: fields of [M - 1], [M] and one item under a limit of [2 * M - 2], the
    bytes all there at once, whatever they are.  The capacity becomes [2 * M - 1], nothing is moved any more, and the third call
    reports the end in the middle of the data. *)
Theorem C47_tight_refuted : forall I M (data : list I) fuel, 2 <= M -> 2 * M <= length data -> 2 <= fuel ->
  on_source (read_data_source chunk_read) (growing_ops I) fuel (fields [M - 1; M; 1]) (src_with_buffer [Some data] (growing_with_limit 0 (fun _ => 0) (2 * M - 2))) =
    Done [inl (firstn (M - 1) data); inl (firstn M (skipn (M - 1) data)); inr SEndOfInput] /\
  on_slice (fields [M - 1; M; 1]) (slice_new data) =
    Done [inl (firstn (M - 1) data); inl (firstn M (skipn (M - 1) data)); inl (firstn 1 (skipn (2 * M - 1) data))].
Proof. intros I M data fuel HM Hd Hf. split; [exact (tight_source _ HM Hd Hf)|exact (tight_slice _ HM Hd)]. Qed.
Print Assumptions C47_tight_refuted.
Example C47_tight_case :
  on_source demo_source (growing_ops nat) 99 (fields [1; 2; 1]) (src_with_buffer [Some [1; 2; 3; 4; 5; 6]] (growing_with_limit 0 (fun _ => 0) 2)) =
    Done [inl [1]; inl [2; 3]; inr SEndOfInput] /\
  on_slice (fields [1; 2; 1]) (slice_new [1; 2; 3; 4; 5; 6]) = Done [inl [1]; inl [2; 3]; inl [4]].
Proof. exact (@C47_tight_refuted nat 2 [1; 2; 3; 4; 5; 6] 99 ltac:(lia) ltac:(cbn; lia) ltac:(lia)). Qed.
