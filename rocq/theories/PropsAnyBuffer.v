(** C63: a Source over any buffer that keeps the contract. *)
From Coq Require Import List Bool Arith Lia.
From Verif Require Import Base Parsers Combinators Buffer Stream StdIo SpecBase SpecBuffer SpecSafe SpecStream SpecMixed SpecAnyBuffer
  SafeProofs StableProofs BufferProofs StreamProofs SimProofs HistoryProofs MixedProofs PropsSafe PropsBuffer PropsStream PropsMixed.
Import ListNotations.

Set Implicit Arguments.

(** * Buffers that keep it *)

(** The crate's, *)
Theorem C63_fixed : forall I size (b0 : fixed I), fixed_with_size size = Done b0 ->
  lawful_tight (fixed_ops I) (fun m => m <= size) b0 /\ lawful_open (fixed_ops I) (fun m => m <= size) b0.
Proof.
  intros I size b0 Hb. destruct (fixed_fresh _ _ _ Hb) as (Hs & Hi & Hv). split; exists (fixed_inv size), fixed_view, (@fixed_room I); (split; [apply fixed_queue|]; split; [assumption|]; split; [assumption|]).
  - intros b [Hib Hl]. unfold fixed_view. rewrite sview_length by assumption. destruct Hib as (Hu & Hp & _). lia.
  - intros b Hib. rewrite (fixed_cap _ _ _ Hib). assumption.
Qed.
Theorem C63_growing : forall I alloc, lawful_tight (growing_ops I) (fun _ => True) (growing_with_limit 0 alloc 0).
Proof.
  intros I alloc. destruct (growing_fresh I alloc) as [Hi Hv]. exists growing_inv0, growing_view, growing_room. split; [apply growing_queue0|]. auto.
Qed.
Theorem C63_limited : forall I cap0 alloc limit, lawful (growing_ops I) (fun _ => False) (growing_with_limit cap0 alloc limit).
Proof.
  intros I cap0 alloc limit. destruct (@growing_new I cap0 alloc limit) as (Hi & Hv & _). exists growing_inv, growing_view, growing_room. split; [apply growing_queue|]. auto.
Qed.

(** and one that never gives the source more than [page] places, of any size. *)
Theorem C63_paged : forall I page size, 0 < page ->
  lawful_tight (paged_ops I page size) (fun m => m <= size) paged_new /\ (0 < size -> lawful_open (paged_ops I page size) (fun m => m <= size) paged_new).
Proof.
  intros I page size Hp.
  assert (Q : queue_like (paged_ops I page size) (fun b => length (pg_items b) + pg_spare b <= size) (@pg_items I) (@pg_spare I) (fun m => m <= size)).
  { split; cbn [paged_ops op_deref op_len op_consume op_request_space op_fill].
    - reflexivity.
    - reflexivity.
    - intros b k Hb Hk. unfold paged_consume. rewrite (proj2 (Nat.leb_le _ _) Hk). cbn [assert run_bind]. eexists. split; [reflexivity|]. cbn [pg_items pg_spare]. rewrite skipn_length. split; [lia|reflexivity].
    - intros b k Hb. unfold paged_request. eexists. split; [reflexivity|]. cbn [pg_items pg_spare]. split; [lia|]. split; [reflexivity|]. intros j Hj Hf. lia.
    - intros b Hb. exists (Nat.min page (pg_spare b)). split; [lia|]. intros St ds s s' w r Ho Hr. unfold paged_fill. rewrite Hr. destruct r as [k|e].
      + destruct (Ho _ _ _ _ _ Hr) as (Hk & c & Hc & Hw). rewrite (proj2 (Nat.leb_le _ _) Hk). cbn [assert run_bind]. eexists. split; [reflexivity|]. cbn [pg_items pg_spare].
        rewrite app_length. pose proof (delivered_length Ho _ _ Hr) as Hd. rewrite Hd. split; [lia|]. split; [reflexivity|lia].
      + eexists. split; [reflexivity|]. auto.
    - intros. lia. }
  split; [|intros Hs]; exists (fun b => length (pg_items b) + pg_spare b <= size), (@pg_items I), (@pg_spare I); (split; [exact Q|]; split; [cbn; lia|]; split; [reflexivity|]).
  - intros b Hb. lia.
  - intros b _. exact Hs.
Qed.
Print Assumptions C63_fixed.
Print Assumptions C63_growing.
Print Assumptions C63_limited.
Print Assumptions C63_paged.

Lemma tight_lawful : forall I B (ops : buffer_ops I B) fits b0, lawful_tight ops fits b0 -> lawful ops fits b0.
Proof. intros I B ops fits b0 (inv & view & room & Q & Hi & Hv & _). exists inv, view, room. auto. Qed.

(** * What holds over all of them *)

(** No call panics or is undefined behaviour (C28). *)
Theorem C63_safe : forall St I B (ds : data_source St I) (ops : buffer_ops I B) fits b0 s0 st out, obeys ds -> lawful ops fits b0 ->
  history ds ops anything s0 b0 st out -> all_calls_fine ds ops st.
Proof.
  intros St I B ds ops fits b0 s0 st out Ho (inv & view & room & Q & Hi & Hv) H. destruct (history_inv Q Ho Hi Hv H) as [Hist _]. exact (calls_fine ds _ _ _ _ _ Q Ho st Hist).
Qed.
(** Nothing is lost, repeated or reordered (C30). *)
Theorem C63_conserves : forall St I B (ds : data_source St I) (ops : buffer_ops I B) fits b0 s0 st out, obeys ds -> lawful ops fits b0 ->
  history (logged ds) ops anything (mkLog s0 [] false) b0 st out -> exists v, src_view ops st = Done v /\ log_items (src_source st) = out ++ v.
Proof.
  intros St I B ds ops fits b0 s0 st out Ho (inv & view & room & Q & Hi & Hv) H. destruct (history_sound Q Ho Hi Hv H) as [H1 H2]. exists (view (src_buffer st)). split; [apply (q_deref Q _ H1)|assumption].
Qed.
(** The answers are those over the data as a slice (C31), with the slices of the errors. *)
Theorem C63_answers : forall St I B T E (ds : data_source St I) (ops : buffer_ops I B) fits b0 R s data e (c : script I T E) fuel, obeys ds -> delivers ds R -> R s data e ->
  lawful ops fits b0 -> fits 1 -> script_suits fits (slice_new data) c -> 2 * length data + e + 2 <= fuel ->
  on_source ds ops fuel c (src_with_buffer s b0) = on_slice c (slice_new data) /\
  same_run (Forall2 shows_part_of) (on_source_full ds ops fuel c (src_with_buffer s b0)) (on_slice_full c (slice_new data)).
Proof.
  intros St I B T E ds ops fits b0 R s data e c fuel Ho HR Hs (inv & view & room & Q & Hi & Hv) Hone Hc Hf. split.
  - eapply (sim_fresh ds _ _ _ _ _ Q Ho Hone R HR); eauto.
  - eapply (sim_fresh_full ds _ _ _ _ _ Q Ho Hone R HR); eauto.
Qed.
(** So it makes no difference which buffer, and how the data comes. *)
Theorem C63_interchangeable : forall St1 St2 I B1 B2 T E (ds1 : data_source St1 I) (ds2 : data_source St2 I) (ops1 : buffer_ops I B1) (ops2 : buffer_ops I B2) fits1 fits2 b1 b2
    R1 R2 s1 s2 data e1 e2 (c : script I T E) fuel1 fuel2,
  obeys ds1 -> obeys ds2 -> delivers ds1 R1 -> delivers ds2 R2 -> R1 s1 data e1 -> R2 s2 data e2 -> lawful ops1 fits1 b1 -> lawful ops2 fits2 b2 -> fits1 1 -> fits2 1 ->
  script_suits fits1 (slice_new data) c -> script_suits fits2 (slice_new data) c -> 2 * length data + e1 + 2 <= fuel1 -> 2 * length data + e2 + 2 <= fuel2 ->
  on_source ds1 ops1 fuel1 c (src_with_buffer s1 b1) = on_source ds2 ops2 fuel2 c (src_with_buffer s2 b2).
Proof.
  intros St1 St2 I B1 B2 T E ds1 ds2 ops1 ops2 fits1 fits2 b1 b2 R1 R2 s1 s2 data e1 e2 c fuel1 fuel2 Ho1 Ho2 HR1 HR2 Hs1 Hs2 L1 L2 F1 F2 C1 C2 Hf1 Hf2.
  rewrite (proj1 (@C63_answers _ _ _ _ _ ds1 ops1 fits1 b1 R1 s1 data e1 c fuel1 Ho1 HR1 Hs1 L1 F1 C1 Hf1)). symmetry.
  exact (proj1 (@C63_answers _ _ _ _ _ ds2 ops2 fits2 b2 R2 s2 data e2 c fuel2 Ho2 HR2 Hs2 L2 F2 C2 Hf2)).
Qed.
(** After [Retry] there is more data, or the end has come (C32); and calls are repeated a bounded number of times. *)
Theorem C63_progress : forall St I B (ds : data_source St I) (ops : buffer_ops I B) fits b0 s0 st out, obeys ds -> lawful ops fits b0 ->
  history ds ops anything s0 b0 st out -> progresses ds ops st.
Proof.
  intros St I B ds ops fits b0 s0 st out Ho (inv & view & room & Q & Hi & Hv) H. destruct (history_inv Q Ho Hi Hv H) as [Hist _]. exact (retry_progresses ds _ _ _ _ _ Q Ho st Hist).
Qed.
Theorem C63_bounded : forall St I B T E (ds : data_source St I) (ops : buffer_ops I B) fits b0 R s0 data e st out (p : parser I T E), obeys ds -> delivers ds R -> R s0 data e ->
  lawful ops fits b0 -> history ds ops anything s0 b0 st out -> src_auto st = true -> well_behaved p -> asks p ->
  exists st' r, insist ds ops (length data + e + 2) p st = Done (st', r).
Proof.
  intros St I B T E ds ops fits b0 R s0 data e st out p Ho HR Hs (inv & view & room & Q & Hi & Hv) Hh Ha Hw Hask.
  destruct (history_delivers Q Ho HR _ _ Hi Hv Hh Hs) as (d & e1 & H1 & H2 & H3 & H4).
  eapply (insist_ends Q Ho HR _ _ _ H4 Hw Hask Ha H1). unfold todo. rewrite H3, !app_length. destruct (_ && _); lia.
Qed.
(** The end is reported only when the source has reported it, as long as the buffer can hold what is asked for (C33). *)
Theorem C63_ends : forall St I B (ds : data_source St I) (ops : buffer_ops I B) fits b0 (admits : forall T E, parser I T E -> Prop) s0 st out, obeys ds -> lawful_tight ops fits b0 -> fits 1 ->
  (forall T E (p : parser I T E), admits T E p -> forall l b n, p (mkInput l b) = Incomplete n -> fits (length b) -> fits (length b + n)) ->
  history (logged ds) ops admits (mkLog s0 [] false) b0 st out -> ends_truly ds ops admits st.
Proof.
  intros St I B ds ops fits b0 admits s0 st out Ho (inv & view & room & Q & Hi & Hv & Hfull) Hone Had H.
  exact (history_ends_truly ds _ _ _ _ _ Q Ho admits Hfull Hone Had _ _ _ _ Hi Hv H).
Qed.
(** Each call leaves the Source where the parser stopped (C34). *)
Theorem C63_position : forall St I B (ds : data_source St I) (ops : buffer_ops I B) fits b0 s0 st out, obeys ds -> lawful ops fits b0 ->
  history ds ops anything s0 b0 st out -> stands_right ds ops st.
Proof.
  intros St I B ds ops fits b0 s0 st out Ho (inv & view & room & Q & Hi & Hv) H. destruct (history_inv Q Ho Hi Hv H) as [Hist _]. exact (call_stands_right ds _ _ _ _ _ Q Ho st Hist).
Qed.
(** [read] and [fill_buf] as readers (C35): [read] stops short only at the end, or with as many items as the buffer can hold. *)
Theorem C63_reads : forall St I B (ds : data_source St I) (ops : buffer_ops I B) fits b0 s0 st out, obeys ds -> lawful ops fits b0 ->
  history ds ops anything s0 b0 st out ->
  reads_right ds ops (fun k => ~ fits (S k)) st /\ shows_right ds ops (fun k => ~ fits (S k) \/ op_capacity ops (src_buffer st) = 0) st.
Proof.
  intros St I B ds ops fits b0 s0 st out Ho (inv & view & room & Q & Hi & Hv) H. destruct (history_inv Q Ho Hi Hv H) as [Hist _]. split.
  - apply (call_reads_right ds _ _ _ _ _ Q Ho st _ Hist). auto.
  - apply (call_shows_right ds _ _ _ _ _ Q Ho st _ Hist); auto.
Qed.
(** Parsing and reading in any order (C59). *)
Theorem C63_programs : forall St I B T E (ds : data_source St I) (ops : buffer_ops I B) fits b0 R s data e (c : program I T E) fuel, obeys ds -> delivers ds R -> R s data e ->
  lawful_open ops fits b0 -> fits 1 -> proper_program fits True c data -> 2 * length data + e + 2 <= fuel ->
  executed ds ops fuel c (src_with_buffer s b0) = meant c data.
Proof.
  intros St I B T E ds ops fits b0 R s data e c fuel Ho HR Hs (inv & view & room & Q & Hi & Hv & Hcap) Hone Hc Hf.
  eapply (mixed_fresh Q Ho Hone HR) with (lines := True); eauto.
Qed.
Print Assumptions C63_safe.
Print Assumptions C63_conserves.
Print Assumptions C63_answers.
Print Assumptions C63_interchangeable.
Print Assumptions C63_progress.
Print Assumptions C63_bounded.
Print Assumptions C63_ends.
Print Assumptions C63_position.
Print Assumptions C63_reads.
Print Assumptions C63_programs.

(** A program over pages of two items, in a buffer for four, and over the two of the crate. *)
Example C63_case : let cs := [Some [3; 4]; None; Some [0]; Some [5; 0; 6]; None; None; Some [7; 8; 0]; Some [1]] in
  schedule cs [3; 4; 0; 5; 0; 6; 7; 8; 0; 1] 3 /\
  on_source demo_source (paged_ops nat 2 4) 27 (items 9) (src_with_buffer cs paged_new) = Done [inl [3; 4]; inl [5]; inl [6; 7; 8]; inr (SIncomplete 2)] /\
  exists b0, fixed_with_size 4 = Done b0 /\
  on_source demo_source (fixed_ops nat) 27 (items 9) (src_with_buffer cs b0) = Done [inl [3; 4]; inl [5]; inl [6; 7; 8]; inr (SIncomplete 2)] /\
  on_source demo_source (growing_ops nat) 27 (items 9) (src_with_buffer cs (growing_with_limit 0 (fun _ => 0) 0)) = Done [inl [3; 4]; inl [5]; inl [6; 7; 8]; inr (SIncomplete 2)].
Proof.
  split; [|split; [vm_compute; reflexivity|eexists; split; [reflexivity|]; split; vm_compute; reflexivity]]. split; [|split; reflexivity].
  cbn. intros H. repeat (destruct H as [H|H]; [discriminate|]). exact H.
Qed.
(** Its hypotheses: [any], over pages of any size in a buffer of any size. *)
Example C63_case_any : forall n page size cs, 0 < page -> 0 < size -> ~ In (Some []) cs ->
  on_source demo_source (paged_ops nat page size) (2 * length (chunks_data cs) + chunks_errors cs + 2) (forever (any : parser nat nat (error nat)) n) (src_with_buffer cs paged_new) =
  on_slice (forever (any : parser nat nat (error nat)) n) (slice_new (chunks_data cs)).
Proof.
  intros n page size cs Hp Hs Hcs. destruct (@C63_paged nat page size Hp) as [L _].
  refine (proj1 (@C63_answers _ _ _ _ _ _ _ _ _ schedule cs _ _ _ _ _ _ _ (tight_lawful L) _ _ (le_n _))); [apply chunk_obeys|apply chunk_delivers|repeat split; auto|exact Hs|].
  generalize (slice_new (chunks_data cs)). induction n as [|n IH]; intros s; [apply ss_stop|]. apply ss_next; [|intros; apply IH].
  apply C31_safe_suits; [apply s_any|intros [l [|x b]]; discriminate|exists 1; reflexivity|].
  intros [|x b] c m E H; inversion H; subst. cbn [length Nat.add]. lia.
Qed.

(** Parsing and reading by turns, *)
Example C63_case_programs : forall page size cs, 0 < page -> 2 <= size -> ~ In (Some []) cs ->
  executed demo_source (paged_ops nat page size) (2 * length (chunks_data cs) + chunks_errors cs + 2) message (src_with_buffer cs paged_new) = meant message (chunks_data cs).
Proof.
  intros page size cs Hp Hs Hcs. destruct (@C63_paged nat page size Hp) as [_ L].
  eapply (@C63_programs _ _ _ _ _ demo_source (paged_ops nat page size) (fun m => m <= size) paged_new schedule cs _ (chunks_errors cs) message);
    [apply chunk_obeys|apply chunk_delivers|repeat split; auto|apply L; lia|lia|apply message_is_proper; assumption|lia].
Qed.
(** and a true end, of [take 2] over pages of one item. *)
Example C63_case_ends : exists st st', history (logged demo_source) (paged_ops nat 1 4) (needs_at_most 4) (mkLog [Some [1; 2]; Some [3]] [] false) paged_new st [1; 2] /\
  src_parse (logged demo_source) (paged_ops nat 1 4) (take 2) st = Done (st', inr SRetry) /\ log_ended (src_source st') = false /\
  exists st'', src_parse (logged demo_source) (paged_ops nat 1 4) (take 2) st' = Done (st'', inr (SIncomplete 2)) /\ log_ended (src_source st'') = true.
Proof.
  assert (Hn : needs_at_most 4 _ _ (take 2 : parser nat _ (error nat))).
  { intros l b n H Hb. unfold take in H. cbn [buf] in H. destruct b as [|x [|y b]]; [injection H as <-|injection H as <-|discriminate]; cbn; lia. }
  pose proof (h_new (logged demo_source) (paged_ops nat 1 4) (needs_at_most 4) (mkLog [Some [1; 2]; Some [3]] [] false) paged_new) as H.
  eapply (fun s o st' r h => @h_parse _ _ _ _ _ _ _ _ s o _ _ (take 2) st' r h (take_well_behaved _ 2) Hn) in H; [|vm_compute; reflexivity].
  eapply (fun s o st' r h => @h_parse _ _ _ _ _ _ _ _ s o _ _ (take 2) st' r h (take_well_behaved _ 2) Hn) in H; [|vm_compute; reflexivity].
  eexists _, _. split; [exact H|]. split; [vm_compute; reflexivity|]. split; [reflexivity|]. eexists. split; [vm_compute; reflexivity|reflexivity].
Qed.

(** * What happens over buffers that do not keep it *)

(** Each of them breaks one clause, and gives wrong answers: two at a time, where the data has five items. *)
Definition twos : script nat (list nat) (error nat) := forever (take 2) 2.
Definition fives : script nat (list nat) (error nat) := forever (take 5) 2.
Definition five : list (option (list nat)) := [Some [1; 2; 3]; Some [4; 5]].

Theorem C63_contract_refuted :
  on_slice twos (slice_new (chunks_data five)) = Done [inl [1; 2]; inl [3; 4]] /\
  on_source demo_source (paged_ops nat 4 9) 99 twos (src_with_buffer five paged_new) = Done [inl [1; 2]; inl [3; 4]] /\
  on_source demo_source (forgetful_ops nat) 99 twos (src_with_buffer five paged_new) = Done [inr (SIncomplete 2); inr (SIncomplete 2)] /\
  on_source demo_source (cramped_ops nat) 99 twos (src_with_buffer five paged_new) = Done [inr SEndOfInput; inr SEndOfInput] /\
  on_source demo_source (hoarding_ops nat) 99 twos (src_with_buffer five paged_new) = Done [inl [1; 2]; inl [1; 2]] /\
  on_source demo_source (stack_ops nat) 99 twos (src_with_buffer five paged_new) = Done [inl [2; 1]; inl [4; 3]] /\
  on_source demo_source (boastful_ops nat) 99 twos (src_with_buffer five paged_new) = Done [inl [1; 2]; inr SEndOfInput] /\
  on_slice fives (slice_new (chunks_data five)) = Done [inl [1; 2; 3; 4; 5]; inr SEndOfInput] /\
  on_source demo_source (paged_ops nat 4 9) 99 fives (src_with_buffer five paged_new) = Done [inl [1; 2; 3; 4; 5]; inr SEndOfInput] /\
  on_source demo_source (shy_ops nat) 99 fives (src_with_buffer five paged_new) = Done [inr (SIncomplete 6); inr (SIncomplete 6)].
Proof. repeat split; vm_compute; reflexivity. Qed.
Print Assumptions C63_contract_refuted.

(** So none of them keeps the contract for a buffer of nine items. *)
Theorem C63_contract_broken : forall ops, In ops [forgetful_ops nat; cramped_ops nat; hoarding_ops nat; stack_ops nat; boastful_ops nat; shy_ops nat] -> ~ lawful ops (fun m => m <= 9) paged_new.
Proof.
  assert (S : forall n k, k <= 9 -> script_suits (fun m => m <= 9) (slice_new (chunks_data five)) (forever (take k : parser nat _ (error nat)) n) ->
    forall ops : buffer_ops nat (paged nat), lawful ops (fun m => m <= 9) paged_new -> on_source demo_source ops 99 (forever (take k : parser nat _ (error nat)) n) (src_with_buffer five paged_new) =
      on_slice (forever (take k : parser nat _ (error nat)) n) (slice_new (chunks_data five))).
  { intros n k Hk Hc ops L. refine (proj1 (@C63_answers _ _ _ _ _ _ _ _ _ schedule five _ 0 _ _ _ _ _ L _ Hc _)); [apply chunk_obeys|apply chunk_delivers| |lia|cbn; lia].
    split; [|split; reflexivity]. cbn. intros H. repeat (destruct H as [H|H]; [discriminate|]). exact H. }
  assert (Hs : forall n k s, 0 < k <= 9 -> script_suits (fun m => m <= 9) s (forever (take k : parser nat _ (error nat)) n)).
  { induction n as [|n IH]; intros k s Hk; [apply ss_stop|]. apply ss_next; [|intros; apply IH; assumption].
    apply C31_safe_suits; [apply s_take|intros [l b]; unfold take; destruct (_ <=? _); discriminate| |].
    - intros _. destruct k as [|k]; [lia|]. eexists. reflexivity.
    - intros b c m _ H. unfold take in H. cbn [buf] in H. destruct (Nat.leb_spec k (length b)); [discriminate|]. inversion H; subst. lia. }
  destruct C63_contract_refuted as (A1 & _ & A2 & A3 & A4 & A5 & A6 & B1 & _ & B2).
  intros ops Hin L. pose proof (S 2 2 ltac:(lia) (Hs 2 2 _ ltac:(lia)) ops L) as G2. pose proof (S 2 5 ltac:(lia) (Hs 2 5 _ ltac:(lia)) ops L) as G5.
  fold twos in G2. fold fives in G5. rewrite A1 in G2. rewrite B1 in G5. cbn [In] in Hin. repeat (destruct Hin as [<-|Hin]; [congruence|]). exact Hin.
Qed.
Print Assumptions C63_contract_broken.
