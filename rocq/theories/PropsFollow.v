(** Property theorems C86: data that comes after the end was reported. *)
From Coq Require Import List Bool Arith Lia.
From Verif Require Import Base Parsers Combinators Buffer Stream SpecBase SpecBuffer SpecSafe SpecStream SpecIter SpecFollow.
From Verif Require Import BufferProofs StreamProofs SimProofs SafeProofs StableProofs PropsBuffer PropsStream FollowProofs WaitProofs.
Import ListNotations.

Set Implicit Arguments.

(** * Programs *)
Theorem C86_fixed : forall St I T E (ds : data_source St I) R size b0 s data z e (c : script I T E) fuel, obeys ds -> pausing ds R -> R s data z e ->
  fixed_with_size size = Done b0 -> script_follows (fun m => m <= size) (slice_new data) c -> 3 * z + 2 * length data + e + 3 <= fuel ->
  following ds (fixed_ops I) fuel c (src_with_buffer s b0) = on_open c (slice_new data).
Proof.
  intros St I T E ds R size b0 s data z e c fuel Ho HR Hs Hb Hc Hf. destruct (fixed_fresh _ _ _ Hb) as (Hsz & Hi & Hv).
  eapply (following_spec (fixed_queue size) Ho HR) with (d := data) (z := z) (e := e); auto; [cbn; lia| |lia].
  split; [assumption|]. split; [assumption|]. cbn [src_with_buffer src_buffer src_auto src_incomplete src_request rest_of slice_new ss_pos ss_slice skipn].
  rewrite Hv. split; [reflexivity|]. split; [reflexivity|]. intros _. cbn [Nat.max]. lia.
Qed.
Theorem C86_growing : forall St I T E (ds : data_source St I) R alloc s data z e (c : script I T E) fuel, obeys ds -> pausing ds R -> R s data z e ->
  script_follows (fun _ => True) (slice_new data) c -> 3 * z + 2 * length data + e + 3 <= fuel ->
  following ds (growing_ops I) fuel c (src_with_buffer s (growing_with_limit 0 alloc 0)) = on_open c (slice_new data).
Proof.
  intros St I T E ds R alloc s data z e c fuel Ho HR Hs Hc Hf. destruct (growing_fresh I alloc) as [Hi Hv].
  eapply (following_spec growing_queue0 Ho HR) with (d := data) (z := z) (e := e); auto; [cbn; lia| |lia].
  split; [assumption|]. split; [assumption|]. cbn [src_with_buffer src_buffer src_auto src_incomplete src_request rest_of slice_new ss_pos ss_slice skipn].
  rewrite Hv. auto.
Qed.

(** From any state of a Source on, whatever was done with it before, the end already reported or not. *)
Theorem C86_later_fixed : forall St I T E (ds : data_source St I) R size b0 s0 data z e st out (c : script I T E) fuel, obeys ds -> pausing ds R -> R s0 data z e ->
  fixed_with_size size = Done b0 -> history ds (fixed_ops I) anything s0 b0 st out -> script_follows (fun m => m <= size) (slice_new (skipn (length out) data)) c ->
  3 * z + 2 * length data + e + 3 <= fuel ->
  following ds (fixed_ops I) fuel c (src_set_autofill true (src_reset st)) = on_open c (slice_new (skipn (length out) data)).
Proof.
  intros St I T E ds R size b0 s0 data z e st out c fuel Ho HR Hs Hb Hh Hc Hf. destruct (fixed_fresh _ _ _ Hb) as (Hsz & Hi & Hv).
  eapply (following_later (fixed_queue size) Ho HR); eauto.
Qed.
Theorem C86_later_growing : forall St I T E (ds : data_source St I) R alloc s0 data z e st out (c : script I T E) fuel, obeys ds -> pausing ds R -> R s0 data z e ->
  history ds (growing_ops I) anything s0 (growing_with_limit 0 alloc 0) st out -> script_follows (fun _ => True) (slice_new (skipn (length out) data)) c ->
  3 * z + 2 * length data + e + 3 <= fuel ->
  following ds (growing_ops I) fuel c (src_set_autofill true (src_reset st)) = on_open c (slice_new (skipn (length out) data)).
Proof.
  intros St I T E ds R alloc s0 data z e st out c fuel Ho HR Hs Hh Hc Hf. destruct (growing_fresh I alloc) as [Hi Hv].
  eapply (following_later growing_queue0 Ho HR); eauto.
Qed.

(** * Parsers *)
(** Which parsers are fit for it. *)
Theorem C86_waiting : forall I T E (p : parser I T E), waiting p -> stable p /\ well_behaved p /\ ((forall i, p i <> NoFuel) -> patient p).
Proof.
  intros I T E p H. split; [apply safe_stable, waiting_safe; assumption|]. split; [apply built_well_behaved, safe_built, waiting_safe; assumption|].
  apply waiting_patient. assumption.
Qed.

(** A record built from such parsers is read again and again, wherever the source pauses. *)
Theorem C86_records : forall St I T E (ds : data_source St I) R alloc s data z e (p : parser I T E) n fuel, obeys ds -> pausing ds R -> R s data z e ->
  waiting p -> (forall i, p i <> NoFuel) -> (exists k, p (mkInput false []) = Incomplete k) -> 3 * z + 2 * length data + e + 3 <= fuel ->
  following ds (growing_ops I) fuel (records p n) (src_with_buffer s (growing_with_limit 0 alloc 0)) = on_open (records p n) (slice_new data).
Proof.
  intros St I T E ds R alloc s data z e p n fuel Ho HR Hs Hp Hd He Hf. eapply C86_growing; eauto. destruct (C86_waiting Hp) as (H1 & H2 & H3).
  generalize (slice_new data). induction n as [|n IH]; intros ss; constructor.
  - constructor; auto.
  - intros b c k _ _ Hk. exact (H3 Hd _ _ Hk).
  - intros ss' r _. apply IH.
Qed.

(** * Without [reset] *)
Lemma at_the_end_gen : forall St I B (ds : data_source St I) (ops : buffer_ops I B) inv view room fits, queue_like ops inv view room fits -> obeys ds ->
  forall T E (p : parser I T E) st st', inv (src_buffer st) -> well_behaved p -> src_auto st = true -> src_parse ds ops p st = Done (st', inr SEndOfInput) -> at_the_end ds ops st'.
Proof.
  intros St I B ds ops inv view room fits Q Ho T E p st st' Hi Hw Ha H T' E' p'.
  destruct (src_parse_spec Q Ho st Hi Hw) as [(st1 & x & _ & _ & _ & H4)|(st1 & H1 & H2)]; [congruence|].
  assert (Hinv : inv (src_buffer st1) /\ src_incomplete st1 = false).
  { rewrite Ha in H1. destruct (src_incomplete st) eqn:Hinc; cbn [andb] in H1; [|subst; auto]. destruct H1 as [m H1].
    destruct (src_fill_spec Q Ho st Hi) as (st2 & r & new & k & en & G1 & _ & G3 & _ & _ & _ & G7). rewrite H1 in G1. inversion G1; subst. destruct G7 as (_ & _ & G7 & _). auto. }
  destruct Hinv as [Hi1 Hinc1]. cbn zeta in H2. destruct H2 as [(H2 & H3 & H4)|[_ [(_ & H4)|[(_ & H4)|(st2 & out & H4 & _ & _ & H5 & _ & H6)]]]]; try congruence.
  - rewrite H4 in H. inversion H; subst st'. unfold src_parse. rewrite Hinc1. cbn [andb run_bind]. unfold src_is_empty. rewrite H2. unfold src_len. rewrite (q_len Q _ Hi1), H3. reflexivity.
  - rewrite H4 in H. inversion H; subst st' out. exfalso. destruct (p _); cbn [answer] in H6.
    + destruct H6 as [H6 _]. discriminate.
    + destruct H6 as [H6 _]. discriminate.
    + destruct H6 as (_ & _ & H6). destruct (src_eoi st1); destruct H6; discriminate.
    + contradiction.
    + contradiction.
Qed.
Theorem C86_end_fixed : forall St I (ds : data_source St I) size b0 s0 st out T E (p : parser I T E) st', obeys ds -> fixed_with_size size = Done b0 ->
  history ds (fixed_ops I) anything s0 b0 st out -> well_behaved p -> src_auto st = true -> src_parse ds (fixed_ops I) p st = Done (st', inr SEndOfInput) ->
  at_the_end ds (fixed_ops I) st'.
Proof.
  intros St I ds size b0 s0 st out T E p st' Ho Hb Hh Hw Ha H. destruct (fixed_fresh _ _ _ Hb) as (Hsz & Hi & Hv).
  destruct (history_inv (fixed_queue size) Ho Hi Hv Hh) as [Hist _]. eapply (at_the_end_gen (fixed_queue size)); eauto.
Qed.
Theorem C86_end_growing : forall St I (ds : data_source St I) alloc s0 st out T E (p : parser I T E) st', obeys ds ->
  history ds (growing_ops I) anything s0 (growing_with_limit 0 alloc 0) st out -> well_behaved p -> src_auto st = true ->
  src_parse ds (growing_ops I) p st = Done (st', inr SEndOfInput) -> at_the_end ds (growing_ops I) st'.
Proof.
  intros St I ds alloc s0 st out T E p st' Ho Hh Hw Ha H. destruct (growing_fresh I alloc) as [Hi Hv].
  destruct (history_inv growing_queue0 Ho Hi Hv Hh) as [Hist _]. eapply (at_the_end_gen growing_queue0); eauto.
Qed.

(** * Parsers that take the end for an answer *)
(** A number is split in two by a pause. *)
Theorem C86_take_while_refuted : let p := take_while1 true (fun x => x =? 7) in
  timetable [Some [7]; Some []; Some [7; 1]] [7; 7; 1] 1 0 /\
  on_open (records p 1) (slice_new [7; 7; 1]) = Done [inl [7; 7]] /\
  following demo_source (growing_ops nat) 20 (records p 2) (src_with_buffer [Some [7]; Some []; Some [7; 1]] (growing_with_limit 0 (fun _ => 0) 0)) = Done [inl [7]; inl [7]].
Proof. intros p. split; [repeat split|]. split; vm_compute; reflexivity. Qed.
(** One of two keywords is refused if there is a pause within the first one: [or] then tries the other one. *)
Theorem C86_or_refuted : let p := or_ (string true Nat.eqb [1; 2; 3]) (string true Nat.eqb [4; 5]) in
  timetable [Some [1; 2]; Some []; Some [3]] [1; 2; 3] 1 0 /\
  on_open (records p 1) (slice_new [1; 2; 3]) = Done [inl [1; 2; 3]] /\
  exists e, following demo_source (growing_ops nat) 20 (records p 1) (src_with_buffer [Some [1; 2]; Some []; Some [3]] (growing_with_limit 0 (fun _ => 0) 0)) = Done [inr (SParseError [] e)].
Proof. intros p. split; [repeat split|]. split; [vm_compute; reflexivity|]. eexists. vm_compute. reflexivity. Qed.

Print Assumptions C86_fixed.
Print Assumptions C86_growing.
Print Assumptions C86_later_fixed.
Print Assumptions C86_later_growing.
Print Assumptions C86_waiting.
Print Assumptions C86_records.
Print Assumptions C86_end_fixed.
Print Assumptions C86_end_growing.
Print Assumptions C86_take_while_refuted.
Print Assumptions C86_or_refuted.

(** Lines ended by 0, with a pause within a line, an I/O error, and two pauses between lines. *)
Definition line_of : parser nat (list nat) (error nat) := fun i => bind (fun e => e) (take_till (fun x => x =? 0) i) (fun j l => then_ (fun e => e) (any j) (fun k => ret l k)).
Lemma line_of_waiting : waiting line_of.
Proof. apply w_bind; [apply w_take_till|]. intros l. apply w_then; [apply w_any|]. apply w_ret. Qed.
Lemma line_of_decides : forall i, line_of i <> NoFuel.
Proof.
  intros [l b]. unfold line_of, take_till. cbn [buf]. destruct (position _ b) as [n|]; [|discriminate]. cbn. unfold any. cbn [buf replace].
  destruct (skipn n b); cbn; discriminate.
Qed.
Definition line_times : list (option (list nat)) := [Some [5; 6]; Some []; None; Some [7; 0; 8]; Some [0]; Some []; Some []; Some [9; 0]].
Example C86_case_lines : obeys demo_source /\ pausing demo_source timetable /\ timetable line_times [5; 6; 7; 0; 8; 0; 9; 0] 3 1 /\
  waiting line_of /\ (forall i, line_of i <> NoFuel) /\ line_of (mkInput false []) = Incomplete 1 /\
  on_open (records line_of 3) (slice_new [5; 6; 7; 0; 8; 0; 9; 0]) = Done [inl [5; 6; 7]; inl [8]; inl [9]] /\
  following demo_source (growing_ops nat) 29 (records line_of 3) (src_with_buffer line_times (growing_with_limit 0 (fun _ => 0) 0)) = Done [inl [5; 6; 7]; inl [8]; inl [9]].
Proof.
  split; [exact demo_obeys|]. split; [apply chunk_pausing|]. split; [repeat split|]. split; [exact line_of_waiting|]. split; [exact line_of_decides|]. split; [reflexivity|].
  split; vm_compute; reflexivity.
Qed.
(** A fourth line is waited for. *)
Example C86_case_waits : following demo_source (growing_ops nat) 29 (records line_of 4) (src_with_buffer line_times (growing_with_limit 0 (fun _ => 0) 0)) = Stuck.
Proof.
  assert (H : following demo_source (growing_ops nat) 29 (records line_of 4) (src_with_buffer line_times (growing_with_limit 0 (fun _ => 0) 0)) = on_open (records line_of 4) (slice_new [5; 6; 7; 0; 8; 0; 9; 0])).
  { eapply C86_records with (z := 3) (e := 1); [exact demo_obeys|apply chunk_pausing|repeat split|exact line_of_waiting|exact line_of_decides|eexists; reflexivity|cbn; lia]. }
  rewrite H. vm_compute. reflexivity.
Qed.
(** Pairs, through a buffer of two items. *)
Example C86_case_fixed : exists b0, fixed_with_size 2 = Done b0 /\ script_follows (fun m => m <= 2) (slice_new [1; 2; 3; 4]) (records (take 2) 2) /\
  timetable [Some [1]; Some []; Some [2; 3]; Some []; Some [4]] [1; 2; 3; 4] 2 0 /\
  following demo_source (fixed_ops nat) 17 (records (take 2) 2) (src_with_buffer [Some [1]; Some []; Some [2; 3]; Some []; Some [4]] b0) = Done [inl [1; 2]; inl [3; 4]].
Proof.
  eexists. split; [reflexivity|]. split; [|split; [repeat split|vm_compute; reflexivity]].
  assert (Hs : forall rest : list nat, suits (fun m => m <= 2) rest (take 2)).
  { intros rest. constructor; [apply safe_stable, s_take|apply take_well_behaved| | |].
    - intros [l b]. unfold take. destruct (_ <=? _); discriminate.
    - intros _. eexists. reflexivity.
    - intros b c n _ H. unfold take in H. cbn [buf] in H. destruct (Nat.leb_spec 2 (length b)); [discriminate|]. assert (n = 2 - length b) by (unfold incomplete in H; congruence). lia. }
  assert (Hp : forall rest : list nat, patient_in rest (take 2)).
  { intros rest b c n _ _ H. unfold take in *. cbn [buf] in *. destruct (2 <=? length b); [discriminate|]. eexists. reflexivity. }
  constructor; auto. intros s' r _. constructor; auto. intros s2 r2 _. constructor.
Qed.
(** The end of the first line is the end for good, if [reset] is not called. *)
Example C86_case_end : let st := src_with_buffer [Some [5; 0]; Some []; Some [7; 0]] (growing_with_limit 0 (fun _ => 0) 0) in
  exists st1 st2, src_parse demo_source (growing_ops nat) line_of st = Done (st1, inr SRetry) /\ src_parse demo_source (growing_ops nat) (take 2) st1 = Done (st2, inl [5; 0]) /\
    exists st3 st4, src_parse demo_source (growing_ops nat) line_of st2 = Done (st3, inr SRetry) /\ src_parse demo_source (growing_ops nat) line_of st3 = Done (st4, inr SEndOfInput) /\
    src_parse demo_source (growing_ops nat) line_of st4 = Done (st4, inr SEndOfInput) /\ src_source st4 = [Some [7; 0]].
Proof. intros st. eexists _, _. split; [vm_compute; reflexivity|]. split; [vm_compute; reflexivity|]. eexists _, _. split; [vm_compute; reflexivity|]. split; [vm_compute; reflexivity|]. split; vm_compute; reflexivity. Qed.
(** Blocks of two lines; items up to a mark; one of two marks. *)
Example C86_case_waiting : waiting (count 9 (vec_collector _) 2 tt (pure line_of)) /\
  waiting (bmany_till 9 (vec_collector _) RFull tt tt (pure (@any nat)) (pure (token true Nat.eqb 0))) /\
  waiting (or_ (token true Nat.eqb 1) (token true Nat.eqb 2)).
Proof.
  split; [apply w_count; [exact line_of_waiting|exact line_of_decides]|]. split.
  - apply w_many_till; [exists 0; exact Logic.I|apply w_any|apply w_token| | |].
    + intros [l [|x b]]; discriminate.
    + intros [l [|x b]]; unfold token; cbn; [discriminate|]. destruct x; discriminate.
    + intros s [|x b] n H; [exists 1; split; [reflexivity|]|unfold token in H; cbn in H; destruct x; discriminate]. unfold token in H. cbn in H. inversion H. lia.
  - apply w_or; [apply w_token|apply w_token|]. intros [|x b] n H; [eexists; reflexivity|]. unfold token in H. cbn [buf first] in H. destruct (1 =? x); discriminate.
Qed.
(** Two items are read as bytes, then a pause is met; from then on, pairs. *)
Example C86_case_later : let cs := [Some [9; 8]; Some [1]; Some []; Some [2; 3]; Some []; Some [4]] in
  exists b0 st st', fixed_with_size 2 = Done b0 /\ timetable cs [9; 8; 1; 2; 3; 4] 2 0 /\ history demo_source (fixed_ops nat) anything cs b0 st [9; 8] /\
  src_parse demo_source (fixed_ops nat) (take 2) st = Done (st', inr (SIncomplete 2)) /\ src_source st' = [Some [2; 3]; Some []; Some [4]] /\
  following demo_source (fixed_ops nat) 21 (records (take 2) 2) (src_set_autofill true (src_reset st')) = Done [inl [1; 2]; inl [3; 4]].
Proof.
  intros cs. destruct (fixed_with_size 2 : run (fixed nat)) as [b0| | |] eqn:Hb; [|vm_compute in Hb; discriminate..].
  pose proof (h_new demo_source (fixed_ops nat) anything cs b0) as H. vm_compute in Hb. inversion Hb; subst b0; clear Hb.
  eapply (fun s o st' r h => @h_read _ _ _ _ _ _ _ _ s o 2 st' r h) in H; [|vm_compute; reflexivity].
  eapply (fun s o st' r h => @h_parse _ _ _ _ _ _ _ _ s o _ _ (take 2) st' r h (@take_well_behaved _ _) Logic.I) in H; [|vm_compute; reflexivity].
  eexists _, _, _. split; [reflexivity|]. split; [repeat split|]. split; [exact H|]. split; [vm_compute; reflexivity|]. split; vm_compute; reflexivity.
Qed.
