(** Property theorems C85: a reader that panics is a reader that fails. *)
From Coq Require Import List Bool Arith Lia.
From Verif Require Import Base Parsers Buffer Stream Word Unwind SpecBase SpecBuffer SpecStream SpecWord SpecLimit SpecUnwind SpecCatch.
From Verif Require Import SimProofs  PropsBuffer PropsStream PropsWord PropsUnwind UnwindProofs CatchProofs.
Import ListNotations.

Set Implicit Arguments.

(** * Single calls *)
(** In every state, on every machine, for every source and parser: a call during which the source panics leaves the Source as it would be had the read failed. *)
Theorem C85_calls_fixed : forall m St I (ds : panicky_source St I) st, panics_are_errors m ds (u_fixed_ops I m) st.
Proof. intros m St I ds st. apply catch_calls. apply catch_fixed. Qed.
Theorem C85_calls_growing : forall m St I (ds : panicky_source St I) st, panics_are_errors m ds (u_growing_ops I m) st.
Proof. intros m St I ds st. apply catch_calls. apply catch_growing. Qed.
Print Assumptions C85_calls_fixed.
Print Assumptions C85_calls_growing.

(** * Programs *)
(** If panicking reads lose nothing, a program that calls again after panics, errors and [Retry] gets the answers of the SliceStream. *)
Theorem C85_fixed_program : forall m St I T E (ds : panicky_source St I) R size b0 s data e (c : script I T E) fuel out, platform m -> p_obeys ds -> p_delivers ds R -> R s data e ->
  w_fixed_with_size m size = Done b0 -> script_suits (fun k => k <= size) (slice_new data) c -> modest_script (w_size m) size c -> 2 * length data + e + 2 <= fuel ->
  on_slice c (slice_new data) = Done out -> u_on_source m ds (u_fixed_ops I m) fuel c (src_with_buffer s b0) = Done out.
Proof.
  intros m St I T E ds R size b0 s data e c fuel out P Ho HR Hs Hb Hc Hm Hf Hout. apply (@catch_script St I (fixed I) m ds (u_fixed_ops I m) (@catch_fixed m St I ds) _ (same_fixed I m)).
  rewrite <- Hout. eapply C43_fixed_program; eauto using failing_obeys, failing_delivers.
Qed.
Theorem C85_growing_program : forall m St I T E (ds : panicky_source St I) R M A limit alloc s data e (c : script I T E) fuel out, platform m -> p_obeys ds -> p_delivers ds R -> R s data e ->
  1 <= M -> 2 * M - 1 + A <= w_alloc m -> (limit = 0 \/ 2 * M - 1 + A <= limit) -> (forall k, alloc k <= A) ->
  script_suits (fun _ => True) (slice_new data) c -> script_within M (slice_new data) c -> modest_script (w_size m) (2 * M - 1 + A) c -> 2 * length data + e + 2 <= fuel ->
  on_slice c (slice_new data) = Done out -> u_on_source m ds (u_growing_ops I m) fuel c (src_with_buffer s (growing_with_limit 0 alloc limit)) = Done out.
Proof.
  intros m St I T E ds R M A limit alloc s data e c fuel out P Ho HR Hs HM HW HL HA Hc Hw Hm Hf Hout.
  apply (@catch_script St I (growing I) m ds (u_growing_ops I m) (@catch_growing m St I ds) _ (same_growing I m)).
  rewrite <- Hout. eapply C43_growing_program with (M := M) (A := A); eauto using failing_obeys, failing_delivers.
Qed.
Print Assumptions C85_fixed_program.
Print Assumptions C85_growing_program.

(** * Iterators *)
(** An IteratorDataSource loses the items taken before the panic within one read ([C50_iterator_refuted]); asked for one item at a time it loses nothing,
    so the program gets all items of the iterator, in spite of panics in [next]. *)
Theorem C85_iterator_fixed : forall m It I T E (next : It -> option (option I) * It) R size b0 it data e (c : script I T E) fuel out, platform m -> hands_out next R -> R it data e ->
  w_fixed_with_size m size = Done b0 -> script_suits (fun k => k <= size) (slice_new data) c -> modest_script (w_size m) size c -> 2 * length data + e + 2 <= fuel ->
  on_slice c (slice_new data) = Done out -> u_on_source m (singly (iter_source_p next)) (u_fixed_ops I m) fuel c (src_with_buffer it b0) = Done out.
Proof. intros. eapply C85_fixed_program; eauto using singly_obeys, singly_delivers. Qed.
Theorem C85_iterator_growing : forall m It I T E (next : It -> option (option I) * It) R M A limit alloc it data e (c : script I T E) fuel out, platform m -> hands_out next R -> R it data e ->
  1 <= M -> 2 * M - 1 + A <= w_alloc m -> (limit = 0 \/ 2 * M - 1 + A <= limit) -> (forall k, alloc k <= A) ->
  script_suits (fun _ => True) (slice_new data) c -> script_within M (slice_new data) c -> modest_script (w_size m) (2 * M - 1 + A) c -> 2 * length data + e + 2 <= fuel ->
  on_slice c (slice_new data) = Done out ->
  u_on_source m (singly (iter_source_p next)) (u_growing_ops I m) fuel c (src_with_buffer it (growing_with_limit 0 alloc limit)) = Done out.
Proof. intros. eapply C85_growing_program with (M := M) (A := A); eauto using singly_obeys, singly_delivers. Qed.
Print Assumptions C85_iterator_fixed.
Print Assumptions C85_iterator_growing.

(** The condition on the source is needed: over an IteratorDataSource as it is, the program may miss items. *)
Theorem C85_iterator_refuted : exists (m : machine) (b0 : fixed nat) fuel, platform m /\ w_fixed_with_size m 4 = Done b0 /\
  on_slice (word_script 2) (slice_new [1; 2; 3]) = Done [inl 1; inl 2] /\
  u_on_source m (singly (iter_source_p list_next)) (u_fixed_ops nat m) fuel (word_script 2) (src_with_buffer [Some 1; Some 2; None; Some 3] b0) = Done [inl 1; inl 2] /\
  u_on_source m (iter_source_p list_next) (u_fixed_ops nat m) fuel (word_script 2) (src_with_buffer [Some 1; Some 2; None; Some 3] b0) = Done [inl 3; inr SEndOfInput].
Proof. exists (debug_build 16 8). eexists. exists 9. split; [split; cbn; lia|]. split; [reflexivity|]. split; [reflexivity|]. split; vm_compute; reflexivity. Qed.
Print Assumptions C85_iterator_refuted.

(** * Beside the theorems *)
(** A call that panics after half of the data has arrived, and what it leaves. *)
Example C85_case_call : let m := debug_build 16 8 in let o := u_fixed_ops nat m in let st := src_with_buffer [Some [1; 2]; None; Some [3]] (mkFixed [None; None; None; None] 0 0) in exists st1 st2,
  u_src_parse m shaky o (fun i => Parsers.take 3 i) st = Returns st1 (inr SRetry) /\
  u_src_parse m shaky o (fun i => Parsers.take 3 i) st1 = Unwinds st2 /\ u_src_parse m (calm (failing shaky)) o (fun i => Parsers.take 3 i) st1 = Returns st2 (inr (SIoError 0)) /\
  exists st3, u_src_parse m shaky o (fun i => Parsers.take 3 i) st2 = Returns st3 (inl [1; 2; 3]).
Proof. eexists. eexists. split; [vm_compute; reflexivity|]. split; [vm_compute; reflexivity|]. split; [vm_compute; reflexivity|]. eexists. vm_compute. reflexivity. Qed.

(** A source that hands out chunks and panics in between, having written into the slice it was given. *)
Definition jumpy : panicky_source (list (option (list nat))) nat :=
  mkPanickySource (fun s n => let '(s, w, r) := ds_read demo_source s n in match r with IoErr _ => (s, [Some 9], None) | IoOk k => (s, w, Some (IoOk k)) end).
Lemma jumpy_obeys : p_obeys jumpy.
Proof.
  intros s n s' w k H. cbn [jumpy ps_read] in H. destruct (ds_read demo_source s n) as [[s1 w1] [j|e]] eqn:Hr; [|discriminate H]. injection H as -> -> ->.
  exact (chunk_obeys _ _ Hr).
Qed.
Lemma jumpy_delivers : p_delivers jumpy schedule.
Proof.
  intros s d e HR n s' w r H. cbn [jumpy ps_read] in H. destruct (ds_read demo_source s n) as [[s1 w1] r1] eqn:Hr. pose proof (@chunk_delivers nat _ _ _ HR _ _ _ _ Hr) as G.
  destruct r1 as [j|x]; injection H as -> <- <-; exact G.
Qed.
Example C85_case_fixed : forall b n cs, ~ In (Some []) cs -> exists b0 fuel out, w_fixed_with_size (mkMachine 16 b 8) 4 = Done b0 /\ on_slice (word_script n) (slice_new (chunks_data cs)) = Done out /\
  u_on_source (mkMachine 16 b 8) jumpy (u_fixed_ops nat (mkMachine 16 b 8)) fuel (word_script n) (src_with_buffer cs b0) = Done out.
Proof.
  intros b n cs Hcs. destruct (word_slice n (chunks_data cs)) as [out Hout]. eexists. exists (2 * length (chunks_data cs) + chunks_errors cs + 2), out. split; [reflexivity|]. split; [exact Hout|].
  eapply C85_fixed_program with (size := 4) (R := schedule);
    [split; cbn; lia|apply jumpy_obeys|apply jumpy_delivers|repeat split; auto|reflexivity|apply word_suits; lia|apply word_modest; cbn; lia|apply le_n|exact Hout].
Qed.
Example C85_case_growing : forall b limit n cs, ~ In (Some []) cs -> exists fuel out, on_slice (word_script n) (slice_new (chunks_data cs)) = Done out /\
  u_on_source (mkMachine 4 b 1) jumpy (u_growing_ops nat (mkMachine 4 b 1)) fuel (word_script n) (src_with_buffer cs (growing_with_limit 0 (fun _ => 0) limit)) = Done out.
Proof.
  intros b limit n cs Hcs. destruct (word_slice n (chunks_data cs)) as [out Hout]. exists (2 * length (chunks_data cs) + chunks_errors cs + 2), out. split; [exact Hout|].
  eapply C85_growing_program with (R := schedule) (M := 1) (A := 0);
    [split; cbn; lia|apply jumpy_obeys|apply jumpy_delivers|repeat split; auto|lia|cbn; lia|cbn; lia|lia|apply word_suits_any|apply word_within|apply word_modest; cbn; lia|apply le_n|exact Hout].
Qed.

(** An iterator over a list, panicking at each [None]. *)
Definition listed (l : list (option nat)) (d : list nat) (e : nat) : Prop :=
  d = List.flat_map (fun o => match o with Some x => [x] | None => [] end) l /\ e = length (List.filter (fun o => match o with None => true | Some _ => false end) l).
Lemma listed_hands_out : hands_out list_next listed.
Proof.
  intros l d e (-> & ->). destruct l as [|[x|] l]; cbn [list_next flat_map filter length app].
  - split; [reflexivity|]. split; reflexivity.
  - eexists. split; [reflexivity|]. split; reflexivity.
  - eexists. split; [reflexivity|]. split; reflexivity.
Qed.
Example C85_case_iterator : forall b n l, exists b0 fuel d e out, w_fixed_with_size (mkMachine 16 b 8) 4 = Done b0 /\ listed l d e /\ on_slice (word_script n) (slice_new d) = Done out /\
  u_on_source (mkMachine 16 b 8) (singly (iter_source_p list_next)) (u_fixed_ops nat (mkMachine 16 b 8)) fuel (word_script n) (src_with_buffer l b0) = Done out.
Proof.
  intros b n l. eexists. eexists. eexists. eexists. destruct (word_slice n (List.flat_map (fun o => match o with Some x => [x] | None => [] end) l)) as [out Hout]. exists out.
  split; [reflexivity|]. split; [split; reflexivity|]. split; [exact Hout|].
  eapply C85_iterator_fixed with (size := 4) (R := listed);
    [split; cbn; lia|apply listed_hands_out|split; reflexivity|reflexivity|apply word_suits; lia|apply word_modest; cbn; lia|apply le_n|exact Hout].
Qed.
Example C85_case_iterator_growing : forall b limit n l, exists fuel d e out, listed l d e /\ on_slice (word_script n) (slice_new d) = Done out /\
  u_on_source (mkMachine 4 b 1) (singly (iter_source_p list_next)) (u_growing_ops nat (mkMachine 4 b 1)) fuel (word_script n) (src_with_buffer l (growing_with_limit 0 (fun _ => 0) limit)) = Done out.
Proof.
  intros b limit n l. eexists. eexists. eexists. destruct (word_slice n (List.flat_map (fun o => match o with Some x => [x] | None => [] end) l)) as [out Hout]. exists out.
  split; [split; reflexivity|]. split; [exact Hout|].
  eapply C85_iterator_growing with (R := listed) (M := 1) (A := 0);
    [split; cbn; lia|apply listed_hands_out|split; reflexivity|lia|cbn; lia|cbn; lia|lia|apply word_suits_any|apply word_within|apply word_modest; cbn; lia|apply le_n|exact Hout].
Qed.
