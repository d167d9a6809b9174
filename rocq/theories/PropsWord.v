(** Properties C43 to C45: machine words and build modes. *)
From Coq Require Import List Bool Arith Lia.
From Verif Require Import Base Parsers Combinators Buffer Stream Word SpecBase SpecBuffer SpecStream SpecSafe SpecWord.
From Verif Require Import BufferProofs StableProofs SimProofs PropsSafe PropsBuffer PropsStream WordProofs WordSafeProofs FrugalProofs SpecLimit LimitProofs PropsLimit WordLimitProofs.
Import ListNotations.

Set Implicit Arguments.

(** * C43 *)
(** A release build does what a debug build does, unless that panics: for every state, source, parser. *)
Theorem C43_release_fixed : forall W A St I (ds : data_source St I) st,
  builds_agree (debug_build W A) (release_build W A) ds (w_fixed_ops I (debug_build W A)) (w_fixed_ops I (release_build W A)) st.
Proof.
  intros W A St I ds st. pose proof (fixed_builds W A I) as L. split; intros.
  - apply parse_builds, L.
  - apply fill_builds, L.
  - apply read_builds, L.
  - apply fill_buf_builds, L.
  - apply (consume_builds L).
  - apply (ol_len L).
  - apply (is_empty_builds L).
  - apply (ol_deref L).
Qed.
Theorem C43_release_growing : forall W A St I (ds : data_source St I) st,
  builds_agree (debug_build W A) (release_build W A) ds (w_growing_ops I (debug_build W A)) (w_growing_ops I (release_build W A)) st.
Proof.
  intros W A St I ds st. pose proof (growing_builds W A I) as L. split; intros.
  - apply parse_builds, L.
  - apply fill_builds, L.
  - apply read_builds, L.
  - apply fill_buf_builds, L.
  - apply (consume_builds L).
  - apply (ol_len L).
  - apply (is_empty_builds L).
  - apply (ol_deref L).
Qed.
Theorem C43_release_slice : forall W A I T E (p : parser I T E) s, panics_or (w_slice_parse (debug_build W A) p s) (w_slice_parse (release_build W A) p s).
Proof. intros. apply slice_builds. Qed.
(** Whole programs. *)
Theorem C43_release_program : forall W A St I T E (ds : data_source St I) (c : script I T E) fuel,
  (forall st, panics_or (w_on_source (debug_build W A) ds (w_fixed_ops I (debug_build W A)) fuel c st)
                        (w_on_source (release_build W A) ds (w_fixed_ops I (release_build W A)) fuel c st)) /\
  (forall st, panics_or (w_on_source (debug_build W A) ds (w_growing_ops I (debug_build W A)) fuel c st)
                        (w_on_source (release_build W A) ds (w_growing_ops I (release_build W A)) fuel c st)).
Proof. intros. split; intros; apply script_builds; auto using fixed_builds, growing_builds. Qed.

(** A debug build does what the model with unbounded numbers does, unless it panics. *)
Theorem C43_debug_fixed : forall W A St I (ds : data_source St I) st,
  numbers_agree (debug_build W A) ds (w_fixed_ops I (debug_build W A)) (fixed_ops I) st.
Proof.
  intros W A St I ds st. pose proof (fixed_nat W A I) as L. split; intros.
  - apply parse_nat, L.
  - apply fill_nat, L.
  - apply read_nat, L.
  - apply fill_buf_nat, L.
  - apply (consume_builds L).
  - apply (ol_len L).
  - apply (is_empty_builds L).
  - apply (ol_deref L).
Qed.
Theorem C43_debug_growing : forall W A St I (ds : data_source St I) st,
  numbers_agree (debug_build W A) ds (w_growing_ops I (debug_build W A)) (growing_ops I) st.
Proof.
  intros W A St I ds st. pose proof (growing_nat W A I) as L. split; intros.
  - apply parse_nat, L.
  - apply fill_nat, L.
  - apply read_nat, L.
  - apply fill_buf_nat, L.
  - apply (consume_builds L).
  - apply (ol_len L).
  - apply (is_empty_builds L).
  - apply (ol_deref L).
Qed.

(** As long as the numbers fit, word size and build make no difference. *)
Theorem C43_fits_fixed : forall m St I (ds : data_source St I) st, platform m ->
  f_used (src_buffer st) <= f_populated (src_buffer st) <= length (f_mem (src_buffer st)) ->
  machine_agrees m ds (w_fixed_ops I m) (fixed_ops I) (fun st' => length (f_mem (src_buffer st')) <= w_alloc m) st.
Proof.
  intros m St I ds st P Hi. pose proof (fixed_fit P I) as F. assert (Hst : st_inv (@fixed_ok I) st) by exact Hi. split; intros.
  - apply (parse_fit ds F p st Hst H); assumption.
  - apply (fill_fit ds F st Hst H); assumption.
  - apply (read_fit ds F n st Hst H); assumption.
  - apply (fill_buf_fit ds F st Hst H); assumption.
  - apply (consume_fit F n st Hst H); assumption.
Qed.
Theorem C43_fits_growing : forall m St I (ds : data_source St I) st, platform m ->
  g_used (src_buffer st) <= g_populated (src_buffer st) <= length (g_mem (src_buffer st)) -> length (g_mem (src_buffer st)) <= g_cap (src_buffer st) ->
  machine_agrees m ds (w_growing_ops I m) (growing_ops I) (fun st' => g_cap (src_buffer st') <= w_alloc m) st.
Proof.
  intros m St I ds st P [H1 H2] H3. pose proof (growing_fit P I) as F. assert (Hst : st_inv (@growing_ok I) st) by (repeat split; assumption). split; intros.
  - apply (parse_fit ds F p st Hst H); assumption.
  - apply (fill_fit ds F st Hst H); assumption.
  - apply (read_fit ds F n st Hst H); assumption.
  - apply (fill_buf_fit ds F st Hst H); assumption.
  - apply (consume_fit F n st Hst H); assumption.
Qed.
Theorem C43_fits_slice : forall m I T E (p : parser I T E) s N s' r, length (ss_slice s) + N < w_size m -> asks_at_most N p ->
  slice_parse p s = Done (s', r) -> w_slice_parse m p s = Done (s', r).
Proof.
  intros m I T E p s N s' r Hm Hp H. unfold slice_parse, w_slice_parse, slice_is_empty, slice_len, w_slice_len in *. unfold usize_sub in H.
  destruct (Nat.leb_spec (ss_pos s) (length (ss_slice s))) as [Hle|Hgt]; [|discriminate]. rewrite sub_fits by assumption. cbn [run_bind] in *.
  destruct (_ =? 0); [exact H|]. cbn [assert run_bind].
  destruct (p _) as [j v|b e|n| |] eqn:Ep; try discriminate.
  - destruct (Nat.leb_spec (length (buf j)) (length (ss_slice s) - ss_pos s)); [|discriminate]. rewrite sub_fits by lia. cbn [run_bind] in *. rewrite add_fits by lia. exact H.
  - destruct (Nat.leb_spec (length b) (length (ss_slice s) - ss_pos s)); [|discriminate]. rewrite sub_fits by lia. cbn [run_bind] in *. rewrite add_fits by lia. exact H.
  - specialize (Hp _ _ Ep). rewrite add_fits by lia. exact H.
Qed.

(** A program over a FixedSizeBuffer whose requests can be represented gives, on every machine and in every build, the answers of the
    SliceStream. *)
Theorem C43_fixed_program : forall m St I T E (ds : data_source St I) R size b0 s data e (c : script I T E) fuel, platform m -> obeys ds -> delivers ds R -> R s data e ->
  w_fixed_with_size m size = Done b0 -> script_suits (fun k => k <= size) (slice_new data) c -> modest_script (w_size m) size c -> 2 * length data + e + 2 <= fuel ->
  w_on_source m ds (w_fixed_ops I m) fuel c (src_with_buffer s b0) = on_slice c (slice_new data).
Proof.
  intros m St I T E ds R size b0 s data e c fuel P Ho HR Hs Hb Hc Hm Hf. unfold w_fixed_with_size in Hb. unbind. inversion Hb; subst b0; clear Hb.
  assert (Hb : fixed_with_size size = Done (mkFixed (repeat (@None I) size) 0 0)) by (unfold fixed_with_size; rewrite assert_true by (apply Nat.ltb_lt; assumption); reflexivity).
  rewrite <- (@C31_fixed St I T E ds R size _ s data e c fuel Ho HR Hs Hb Hc Hf). destruct (fixed_fresh _ _ _ Hb) as (Hsz & Hi & Hv).
  refine (@fixed_machine m P St I ds Ho R HR size _ T E c fuel (slice_new data) data e _ _ _ Hc Hm _); [assumption| |cbn; lia|lia].
  split; [|split; [|cbn; unfold platform in P; lia]].
  - unfold stands. cbn [src_with_buffer src_buffer src_source src_auto src_eoi src_incomplete src_request]. rewrite Hv. repeat split; auto; try apply Hi; try discriminate. intros _. apply Nat.le_trans with 1; [|exact Hsz]. apply Nat.le_trans with (1 := Nat.le_min_l _ _). reflexivity.
  - split; cbn [src_with_buffer src_buffer f_mem f_populated f_used]; [split|]; rewrite ?repeat_length; cbn; lia.
Qed.
(** So does one over a GrowingBuffer, with no limit or a large enough one, if it never asks for more than [M] items at a time and the
    memory for [2 * M - 1] items, and what the allocator gives on top, can be allocated. *)
Theorem C43_growing_program : forall m St I T E (ds : data_source St I) R M A limit alloc s data e (c : script I T E) fuel, platform m -> obeys ds -> delivers ds R -> R s data e ->
  1 <= M -> 2 * M - 1 + A <= w_alloc m -> (limit = 0 \/ 2 * M - 1 + A <= limit) -> (forall k, alloc k <= A) ->
  script_suits (fun _ => True) (slice_new data) c -> script_within M (slice_new data) c -> modest_script (w_size m) (2 * M - 1 + A) c -> 2 * length data + e + 2 <= fuel ->
  w_on_source m ds (w_growing_ops I m) fuel c (src_with_buffer s (growing_with_limit 0 alloc limit)) = on_slice c (slice_new data).
Proof.
  intros m St I T E ds R M A limit alloc s data e c fuel P Ho HR Hs HM HW HL HA Hc Hw Hm Hf.
  assert (G : on_source ds (growing_ops I) fuel c (src_with_buffer s (growing_with_limit 0 alloc limit)) = on_slice c (slice_new data)).
  { destruct HL as [->|HL]; [eapply C31_growing; eauto|eapply C47_program; eauto]. }
  rewrite <- G. destruct (growing_fresh I alloc) as [Hi Hv].
  apply (@growing_machine m P St I ds Ho R HR M A limit HM HL HW) with (s := slice_new data) (d := data) (e := e); [|cbn; lia|assumption|split; assumption|lia].
  exists (src_with_buffer s (growing_with_limit 0 alloc 0)). split; [reflexivity|]. split; [|split].
  - unfold stands. cbn [src_with_buffer src_buffer src_source src_auto src_eoi src_incomplete src_request]. rewrite Hv. repeat split; auto; try apply Hi. discriminate.
  - split; [unfold lean, growing_ok; cbn; repeat split; auto; lia|]. cbn. lia.
  - cbn. unfold platform in P. lia.
Qed.
(** Whatever is asked for, over a GrowingBuffer without limit a debug build gives them or panics; by [C43_release_program] the release build then gives them too. *)
Theorem C43_growing_debug : forall W A St I T E (ds : data_source St I) R alloc s data e (c : script I T E) fuel, obeys ds -> delivers ds R -> R s data e ->
  script_suits (fun _ => True) (slice_new data) c -> 2 * length data + e + 2 <= fuel -> on_slice c (slice_new data) <> Stuck ->
  panics_or (w_on_source (debug_build W A) ds (w_growing_ops I (debug_build W A)) fuel c (src_with_buffer s (growing_with_limit 0 alloc 0))) (on_slice c (slice_new data)).
Proof.
  intros W A St I T E ds R alloc s data e c fuel Ho HR Hs Hc Hf Hn.
  destruct (script_nat W A ds (growing_nat W A I) c fuel (src_with_buffer s (growing_with_limit 0 alloc 0))) as [H|[H|H]]; [left; exact H|right|exfalso];
    rewrite (@C31_growing St I T E ds R alloc s data e c fuel Ho HR Hs Hc Hf) in H; auto.
Qed.
Print Assumptions C43_release_fixed.
Print Assumptions C43_release_growing.
Print Assumptions C43_release_slice.
Print Assumptions C43_release_program.
Print Assumptions C43_debug_fixed.
Print Assumptions C43_debug_growing.
Print Assumptions C43_fits_fixed.
Print Assumptions C43_fits_growing.
Print Assumptions C43_fits_slice.
Print Assumptions C43_fixed_program.
Print Assumptions C43_growing_program.
Print Assumptions C43_growing_debug.

(** Beside the theorems: a debug build panics where a release build goes on, with wrong numbers, *)
Example C43_case_release : let p : parser nat unit unit := incomplete 15 in
  exists b, w_fixed_with_size (release_build 16 8) 4 = Done b /\
    w_src_parse (debug_build 16 8) demo_source (w_fixed_ops nat (debug_build 16 8)) p (src_with_buffer [Some [1; 2; 3]] b) = Panicked /\
    w_src_parse (release_build 16 8) demo_source (w_fixed_ops nat (release_build 16 8)) p (src_with_buffer [Some [1; 2; 3]] b) =
      Done (mkSrc [] (mkFixed [Some 1; Some 2; Some 3; None] 3 0) 2 true false true, inr SRetry).
Proof. eexists. split; [reflexivity|]. split; vm_compute; reflexivity. Qed.
(** and a program that fits on a machine with four bit words runs as it does on the slice. *)
Lemma modest_asks : forall I T E W size N (p : parser I T E), size + N < W -> asks_at_most N p -> modest W size p.
Proof. intros I T E W size N p Hs Hp l b n Hb Hi. specialize (Hp _ _ Hi). lia. Qed.
Definition word_script (n : nat) : script nat nat (error nat) := nat_rect (fun _ => script nat nat (error nat)) Stop (fun _ c => Next any (fun _ => c)) n.
Lemma word_modest : forall W size n, size + 1 < W -> modest_script W size (word_script n).
Proof.
  intros W size n H. induction n as [|n IH]; [constructor|]. cbn [word_script nat_rect]. constructor; [|intros; exact IH].
  eapply modest_asks; [exact H|]. intros [l [|x b]] k Hk; cbn in Hk; inversion Hk; lia.
Qed.
Lemma word_suits : forall n size s, 1 <= size -> script_suits (fun k => k <= size) s (word_script n).
Proof.
  intros n size s Hs. revert s. induction n as [|n IH]; intros s; [constructor|]. cbn [word_script nat_rect]. constructor; [|intros; apply IH].
  apply C31_safe_suits; [apply s_any|intros [l [|x b]]; discriminate|exists 1; reflexivity|].
  intros b c k Hb Hk. destruct b as [|x b]; cbn in Hk; inversion Hk; subst; cbn [length app]. lia.
Qed.
Lemma word_slice : forall n d, exists rs, on_slice (word_script n) (slice_new d) = Done rs.
Proof.
  assert (G : forall n s, ss_pos s <= length (ss_slice s) -> exists rs, on_slice (word_script n) s = Done rs).
  { induction n as [|n IH]; intros s Hs; [eexists; reflexivity|]. cbn [word_script nat_rect on_slice]. unfold slice_parse, slice_is_empty, slice_len.
    rewrite usize_sub_ok by assumption. cbn [run_bind]. destruct (Nat.eqb_spec (length (ss_slice s) - ss_pos s) 0) as [He|He].
    - cbn [run_bind]. destruct (IH s Hs) as [rs Hr]. unfold word_script in Hr. rewrite Hr. eexists; reflexivity.
    - destruct (skipn (ss_pos s) (ss_slice s)) as [|x b] eqn:E; [pose proof (skipn_length (ss_pos s) (ss_slice s)) as Hl; rewrite E in Hl; cbn in Hl; lia|].
      change (any (mkInput true (x :: b))) with (@Data nat nat (error nat) (mkInput true b) x). cbn [buf]. pose proof (skipn_length (ss_pos s) (ss_slice s)) as Hl; rewrite E in Hl; cbn [length] in Hl.
      rewrite usize_sub_ok by lia. cbn [run_bind]. match goal with |- context [on_slice _ ?s'] => destruct (IH s') as [rs Hr]; [cbn [ss_pos ss_slice]; lia|] end.
      unfold word_script in Hr. rewrite Hr. eexists; reflexivity. }
  intros n d. apply G. cbn. lia.
Qed.
Example C43_case_program : forall b n cs, ~ In (Some []) cs -> exists b0 fuel, w_fixed_with_size (mkMachine 16 b 8) 4 = Done b0 /\
  w_on_source (mkMachine 16 b 8) demo_source (w_fixed_ops nat (mkMachine 16 b 8)) fuel (word_script n) (src_with_buffer cs b0) = on_slice (word_script n) (slice_new (chunks_data cs)).
Proof.
  intros b n cs Hcs. eexists. exists (2 * length (chunks_data cs) + chunks_errors cs + 2). split; [reflexivity|].
  eapply C43_fixed_program with (size := 4) (R := schedule); [|apply chunk_obeys|apply chunk_delivers|repeat split; auto|reflexivity| | |apply le_n].
  - split; cbn; lia.
  - apply word_suits. lia.
  - apply word_modest. cbn. lia.
Qed.
(** The same over a GrowingBuffer, on a machine that can allocate no more than one item; *)
Lemma word_within : forall n s, script_within 1 s (word_script n).
Proof.
  induction n as [|n IH]; intros s; [apply sw_stop|]. cbn [word_script nat_rect]. apply sw_next; [|intros; apply IH].
  intros b c k _ Hk. destruct b as [|x b]; cbn in Hk; inversion Hk; subst. cbn. lia.
Qed.
Lemma word_suits_any : forall n s, script_suits (fun _ => True) s (word_script n).
Proof.
  induction n as [|n IH]; intros s; [constructor|]. cbn [word_script nat_rect]. constructor; [|intros; apply IH].
  apply C31_safe_suits; [apply s_any|intros [l [|x b]]; discriminate|exists 1; reflexivity|auto].
Qed.
Example C43_case_growing : forall b limit n cs, ~ In (Some []) cs -> exists fuel,
  w_on_source (mkMachine 4 b 1) demo_source (w_growing_ops nat (mkMachine 4 b 1)) fuel (word_script n) (src_with_buffer cs (growing_with_limit 0 (fun _ => 0) limit)) =
    on_slice (word_script n) (slice_new (chunks_data cs)).
Proof.
  intros b limit n cs Hcs. exists (2 * length (chunks_data cs) + chunks_errors cs + 2).
  eapply C43_growing_program with (R := schedule) (M := 1) (A := 0);
    [split; cbn; lia|apply chunk_obeys|apply chunk_delivers|repeat split; auto|lia|cbn; lia|cbn; lia|lia|apply word_suits_any|apply word_within|apply word_modest; cbn; lia|apply le_n].
Qed.
(** with more than it can allocate to be asked for, it panics. *)
Example C43_case_growing_debug : forall n cs, ~ In (Some []) cs -> exists fuel,
  panics_or (w_on_source (debug_build 16 8) demo_source (w_growing_ops nat (debug_build 16 8)) fuel (word_script n) (src_with_buffer cs (growing_with_limit 0 (fun _ => 0) 0)))
    (on_slice (word_script n) (slice_new (chunks_data cs))).
Proof.
  intros n cs Hcs. exists (2 * length (chunks_data cs) + chunks_errors cs + 2).
  eapply C43_growing_debug with (R := schedule); [apply chunk_obeys|apply chunk_delivers|repeat split; auto| |apply le_n|].
  - pose proof (@word_suits n 1 (slice_new (chunks_data cs)) (le_n 1)) as H. clear Hcs. revert H. generalize (slice_new (chunks_data cs)). unfold word_script.
    induction n as [|n IH]; intros s H; [constructor|]. inversion H; subst. constructor; [|intros; apply IH; eauto].
    match goal with H : suits _ _ _ |- _ => destruct H; split; auto end.
  - destruct (word_slice n (chunks_data cs)) as [rs H]. rewrite H. discriminate.
Qed.
Example C43_case_fits : let st := src_with_buffer [Some [1; 2; 3]] (mkFixed [None; None; None; None] 0 0) in forall b, exists st' r,
  src_parse demo_source (fixed_ops nat) any st = Done (st', r) /\ length (f_mem (src_buffer st')) <= 8 /\ src_request st' < 16 /\
  w_src_parse (mkMachine 16 b 8) demo_source (w_fixed_ops nat (mkMachine 16 b 8)) any st = Done (st', r) /\ r = inl 1.
Proof.
  intros st b. eexists. eexists. split; [vm_compute; reflexivity|]. split; [vm_compute; lia|]. split; [vm_compute; lia|]. split; [|reflexivity].
  eapply (ma_parse (@C43_fits_fixed (mkMachine 16 b 8) _ nat demo_source st ltac:(split; cbn; lia) ltac:(cbn; lia))); [vm_compute; reflexivity|vm_compute; lia|vm_compute; lia].
Qed.

(** * C44 *)
(** Whatever is done with a Source over a FixedSizeBuffer, with whatever parsers, on whatever platform, in either build: no undefined
    behaviour, and every call ends. *)
(** Missing in the four theorems: data sources that break their contract, and (GrowingBuffer used directly) consuming more than is held; false there ([C44_lying_refuted], [C44_growing_buffer_refuted]). *)
Theorem C44_fixed_partial : forall m St I (ds : data_source St I) s0 size b0 st, platform m -> obeys ds -> w_fixed_with_size m size = Done b0 ->
  w_history m ds (w_fixed_ops I m) s0 b0 st -> all_defined m ds (w_fixed_ops I m) st.
Proof.
  intros m St I ds s0 size b0 st P Ho Hb H. eapply (history_defined P Ho (fixed_safe P I)); [|exact H].
  unfold w_fixed_with_size in Hb. unbind. inversion Hb; subst. repeat split; cbn [f_mem f_populated]; rewrite ?repeat_length; try lia. constructor.
Qed.
(** The same over a GrowingBuffer, with any limit. *)
Theorem C44_growing_partial : forall m St I (ds : data_source St I) s0 alloc limit st, platform m -> obeys ds ->
  w_history m ds (w_growing_ops I m) s0 (growing_with_limit 0 alloc limit) st -> all_defined m ds (w_growing_ops I m) st.
Proof.
  intros m St I ds s0 alloc limit st P Ho H. eapply (history_defined P Ho (growing_safe P I)); [|exact H].
  repeat split; cbn; try lia; [|constructor]. unfold platform in P. lia.
Qed.
(** A FixedSizeBuffer by itself, told to consume and to make room for anything. *)
Theorem C44_fixed_buffer_partial : forall m I size (b0 b : fixed I), platform m -> w_fixed_with_size m size = Done b0 ->
  w_reached m (w_fixed_ops I m) any_amount b0 b -> buffer_defined m (w_fixed_ops I m) b.
Proof.
  intros m I size b0 b P Hb H. eapply (fixed_buffer_defined P); [|exact H].
  unfold w_fixed_with_size in Hb. unbind. inversion Hb; subst. repeat split; cbn [f_mem f_populated]; rewrite ?repeat_length; try lia. constructor.
Qed.
(** A GrowingBuffer by itself, if no more is consumed than it holds. *)
Theorem C44_growing_buffer_partial : forall m I alloc limit (b : growing I), platform m ->
  w_reached m (w_growing_ops I m) (held (w_growing_ops I m)) (growing_with_limit 0 alloc limit) b -> buffer_defined m (w_growing_ops I m) b.
Proof.
  intros m I alloc limit b P H. eapply (growing_buffer_defined P); [|exact H].
  repeat split; cbn; try lia; [|constructor]. unfold platform in P. lia.
Qed.
(** Without that condition it is undefined behaviour, in a release build: consuming from a new buffer, then asking for as much room. *)
Theorem C44_growing_buffer_refuted : forall W A I alloc limit n, 0 < n < W -> exists b : growing I,
  w_growing_consume (release_build W A) (growing_with_limit 0 alloc limit) n = Done b /\ w_growing_request_space (release_build W A) b n = Undefined.
Proof.
  intros W A I alloc limit n Hn. unfold w_growing_consume, w_debug_assert_sum. cbn [release_build w_debug run_bind growing_with_limit g_used g_populated g_mem g_cap g_limit g_alloc g_count].
  rewrite add_fits by (cbn; lia). cbn [run_bind]. eexists. split; [reflexivity|].
  unfold w_growing_request_space, w_growing_len. cbn [g_used g_populated g_mem g_cap g_limit g_alloc g_count].
  replace (negb (limit =? 0) && (limit <? 0)) with false by (symmetry; apply andb_false_r).
  unfold w_sub at 1. cbn [plus release_build w_size w_debug]. destruct (Nat.leb_spec n 0); [lia|]. cbn [run_bind].
  unfold w_add. cbn [release_build w_size w_debug]. replace (n + (W - n)) with W by lia. rewrite Nat.ltb_irrefl. rewrite Nat.mod_same by lia. cbn [run_bind Nat.ltb Nat.leb].
  rewrite sub_fits by (cbn; lia). cbn [run_bind g_used g_populated g_mem g_cap g_limit g_alloc g_count length minus]. destruct (Nat.ltb_spec 0 n); [|lia].
  unfold w_sub. cbn [plus release_build w_size w_debug]. destruct (Nat.leb_spec n 0); [lia|]. cbn [run_bind].
  unfold copy_down. cbn [length]. replace (n + (W - n)) with W by lia. destruct (Nat.leb_spec W 0); [lia|]. destruct n; [lia|reflexivity].
Qed.
(** A source that claims to have written more than there was room for makes a FixedSizeBuffer read and write out of bounds, in a release build. *)
Theorem C44_fixed_buffer_refuted : forall W A I size, 0 < size <= A -> size + 2 < W -> exists b0 b : fixed I,
  w_fixed_with_size (release_build W A) size = Done b0 /\
  w_fixed_fill (release_build W A) (mkDataSource (fun (u : unit) _ => (u, [], IoOk (size + 2)))) b0 tt = Done (b, tt, IoOk (size + 2)) /\
  w_fixed_request_space (release_build W A) b (W - 1) = Undefined.
Proof.
  intros W A I size Hs HW. unfold w_fixed_with_size. cbn [release_build w_alloc]. rewrite !assert_true by (first [apply Nat.ltb_lt|apply Nat.leb_le]; lia). cbn [run_bind].
  eexists. eexists. split; [reflexivity|]. split.
  - unfold w_fixed_fill, w_debug_assert_sum. cbn [f_populated f_mem Nat.leb assert run_bind ds_read release_build w_debug]. rewrite add_fits by (cbn; lia). cbn [run_bind f_used]. reflexivity.
  - unfold w_fixed_request_space. cbn [f_populated f_mem f_used Nat.leb assert run_bind]. unfold w_sub at 1. cbn [firstn skipn app overwrite plus].
    rewrite repeat_length. destruct (Nat.leb_spec (size + 2) size); [lia|]. cbn [release_build w_debug w_size run_bind]. destruct (Nat.ltb_spec (size + W - (size + 2)) (W - 1)); [|lia].
    rewrite sub_fits by lia. cbn [run_bind]. unfold copy_down. rewrite repeat_length. destruct (Nat.leb_spec (0 + (size + 2 - 0)) size); [lia|]. reflexivity.
Qed.
Print Assumptions C44_fixed_partial.
Print Assumptions C44_growing_partial.
Print Assumptions C44_fixed_buffer_partial.
Print Assumptions C44_growing_buffer_partial.
Print Assumptions C44_growing_buffer_refuted.
Print Assumptions C44_fixed_buffer_refuted.

(** The same through a Source: the source lies in its second read, and the rest is calls of safe functions. *)
Definition liar (claim : nat) : data_source bool nat :=
  mkDataSource (fun (honest : bool) (_ : nat) => if honest then (false, [Some 7], IoOk 1) else (false, [], IoOk claim)).
Theorem C44_lying_refuted : let m := release_build 16 8 in exists b0 st,
  w_fixed_with_size m 4 = Done b0 /\ w_history m (liar 14) (w_fixed_ops nat m) true b0 st /\ w_src_fill m (liar 14) (w_fixed_ops nat m) st = Undefined.
Proof.
  intros m. pose proof (wh_new m (liar 14) (w_fixed_ops nat m) true (mkFixed [None; None; None; None] 0 0)) as H.
  eapply wh_parse with (p := incomplete 14 : parser nat unit unit) in H; [|vm_compute; reflexivity].
  eapply wh_fill in H; [|vm_compute; reflexivity].
  eapply wh_consume with (n := 14) in H; [|vm_compute; lia|vm_compute; reflexivity].
  eexists. eexists. split; [reflexivity|]. split; [exact H|]. vm_compute. reflexivity.
Qed.
Print Assumptions C44_lying_refuted.
(** Beside the theorems: a release build, a parser that returns more than it was given, and a consume beyond the end. *)
Example C44_case_fixed : let m := release_build 16 8 in exists b0 st,
  w_fixed_with_size m 4 = Done b0 /\ w_history m demo_source (w_fixed_ops nat m) [Some [1; 2; 3]; None; Some [4; 5]] b0 st /\
  f_used (src_buffer st) = 13 /\ f_populated (src_buffer st) = 3 /\ all_defined m demo_source (w_fixed_ops nat m) st.
Proof.
  intros m. pose proof (wh_new m demo_source (w_fixed_ops nat m) [Some [1; 2; 3]; None; Some [4; 5]] (mkFixed [None; None; None; None] 0 0)) as H.
  eapply wh_parse with (p := (fun i => Data (mkInput false [7; 7; 7; 7; 7]) tt) : parser nat unit unit) in H; [|vm_compute; reflexivity].
  eapply wh_consume with (n := 15) in H; [|vm_compute; lia|vm_compute; reflexivity].
  eexists. eexists. split; [reflexivity|]. split; [exact H|]. split; [reflexivity|]. split; [reflexivity|].
  eapply C44_fixed_partial with (size := 4); [|apply demo_obeys| |exact H]; [split; cbn; lia|reflexivity].
Qed.
Example C44_case_growing : let m := release_build 16 8 in exists st,
  w_history m demo_source (w_growing_ops nat m) [Some [1; 2; 3]; None; Some [4; 5]] (growing_with_limit 0 (fun _ => 1) 3) st /\
  g_used (src_buffer st) = 12 /\ g_populated (src_buffer st) = 2 /\ all_defined m demo_source (w_growing_ops nat m) st.
Proof.
  intros m. pose proof (wh_new m demo_source (w_growing_ops nat m) [Some [1; 2; 3]; None; Some [4; 5]] (growing_with_limit 0 (fun _ => 1) 3)) as H.
  eapply wh_parse with (p := (fun i => Data (mkInput false [7; 7; 7; 7; 7]) tt) : parser nat unit unit) in H; [|vm_compute; reflexivity].
  eapply wh_consume with (n := 15) in H; [|vm_compute; lia|vm_compute; reflexivity].
  eexists. split; [exact H|]. split; [reflexivity|]. split; [reflexivity|].
  eapply C44_growing_partial; [|apply demo_obeys|exact H]. split; cbn; lia.
Qed.
Example C44_case_buffer : let m := release_build 16 8 in exists b0 b,
  w_fixed_with_size m 4 = Done b0 /\ w_reached m (w_fixed_ops nat m) any_amount b0 b /\ f_used b = 5 /\ f_populated b = 3 /\ buffer_defined m (w_fixed_ops nat m) b.
Proof.
  intros m. pose proof (wr_new m (w_fixed_ops nat m) any_amount (mkFixed [None; None; None; None] 0 0)) as H.
  eapply wr_fill with (ds := demo_source) (s := [Some [1; 2; 3]]) in H; [|apply demo_obeys|vm_compute; reflexivity].
  eapply wr_request with (n := 15) in H; [|vm_compute; lia|vm_compute; reflexivity].
  eapply wr_consume with (n := 5) in H; [|vm_compute; lia|exact Logic.I|vm_compute; reflexivity].
  eexists. eexists. split; [reflexivity|]. split; [exact H|]. split; [reflexivity|]. split; [reflexivity|].
  eapply C44_fixed_buffer_partial with (size := 4); [| |exact H]; [split; cbn; lia|reflexivity].
Qed.
Example C44_case_growing_buffer : let m := release_build 16 8 in exists b,
  w_reached m (w_growing_ops nat m) (held (w_growing_ops nat m)) (growing_with_limit 0 (fun _ => 0) 0) b /\ growing_deref b = Done [3] /\ buffer_defined m (w_growing_ops nat m) b.
Proof.
  intros m. pose proof (wr_new m (w_growing_ops nat m) (held (w_growing_ops nat m)) (growing_with_limit 0 (fun _ => 0) 0)) as H.
  eapply wr_request with (n := 5) in H; [|vm_compute; lia|vm_compute; reflexivity].
  eapply wr_fill with (ds := demo_source) (s := [Some [1; 2; 3]]) in H; [|apply demo_obeys|vm_compute; reflexivity].
  assert (G : held (w_growing_ops nat m) (mkGrowing [Some 1; Some 2; Some 3; None; None] 5 3 0 0 (fun _ => 0) 1) 2) by (exists [1; 2; 3]; split; [reflexivity|cbn; lia]).
  assert (L : 2 < w_size m) by (cbn; lia). pose proof (@wr_consume _ _ _ _ _ _ _ 2 _ H L G eq_refl) as H2. clear G L H. rename H2 into H. cbn in H.
  eapply wr_request with (n := 15) in H; [|vm_compute; lia|vm_compute; reflexivity].
  eexists. split; [exact H|]. split; [reflexivity|].
  eapply C44_growing_buffer_partial; [|exact H]. split; cbn; lia.
Qed.

(** * C45 *)
(** Expressions over the library ask for no more than the greatest number, length of a string, or explicit request in them, *)
(** Missing in the four theorems: numbers taken from the data, without a bound; false there ([C45_retry_refuted], [C45_panic_refuted], [C45_slice_refuted], [C45_growing_refuted]). *)
Theorem C45_requests_partial : forall N I T E (p : parser I T E), 1 <= N -> frugal N p -> asks_at_most N p.
Proof. intros. apply frugal_asks; assumption. Qed.
(** so that a program of them over a FixedSizeBuffer gives, on every machine with room for the sum and in every build, the answers of the
    SliceStream. *)
Inductive frugal_script {I T E} (N : nat) : script I T E -> Prop :=
| fs_stop : frugal_script N SpecStream.Stop
| fs_next : forall p k, frugal N p -> (forall r, frugal_script N (k r)) -> frugal_script N (Next p k).
Theorem C45_program_partial : forall m N St I T E (ds : data_source St I) R size b0 s data e (c : script I T E) fuel, platform m -> obeys ds -> delivers ds R -> R s data e ->
  w_fixed_with_size m size = Done b0 -> script_suits (fun k => k <= size) (slice_new data) c -> 1 <= N -> size + N < w_size m -> frugal_script N c ->
  2 * length data + e + 2 <= fuel ->
  w_on_source m ds (w_fixed_ops I m) fuel c (src_with_buffer s b0) = on_slice c (slice_new data).
Proof.
  intros m N St I T E ds R size b0 s data e c fuel P Ho HR Hs Hb Hc HN Hm Hq Hf. eapply C43_fixed_program; eauto.
  clear - HN Hm Hq. induction Hq as [|p k Hp Hk IH]; constructor; auto. eapply modest_asks; [exact Hm|]. apply frugal_asks; assumption.
Qed.
(** The same over a GrowingBuffer, if no more than [M] items are asked for at a time. *)
Theorem C45_growing_program_partial : forall m N St I T E (ds : data_source St I) R M A limit alloc s data e (c : script I T E) fuel, platform m -> obeys ds -> delivers ds R -> R s data e ->
  1 <= M -> 2 * M - 1 + A <= w_alloc m -> (limit = 0 \/ 2 * M - 1 + A <= limit) -> (forall k, alloc k <= A) ->
  script_suits (fun _ => True) (slice_new data) c -> script_within M (slice_new data) c -> 1 <= N -> 2 * M - 1 + A + N < w_size m -> frugal_script N c ->
  2 * length data + e + 2 <= fuel ->
  w_on_source m ds (w_growing_ops I m) fuel c (src_with_buffer s (growing_with_limit 0 alloc limit)) = on_slice c (slice_new data).
Proof.
  intros m N St I T E ds R M A limit alloc s data e c fuel P Ho HR Hs HM HW HL HA Hc Hw HN Hm Hq Hf. eapply C43_growing_program with (M := M) (A := A) (R := R); eauto.
  clear - HN Hm Hq. induction Hq as [|p k Hp Hk IH]; constructor; auto. eapply modest_asks; [exact Hm|]. apply frugal_asks; assumption.
Qed.
Theorem C45_slice_partial : forall m N I T E (p : parser I T E) s s' r, 1 <= N -> frugal N p -> length (ss_slice s) + N < w_size m ->
  slice_parse p s = Done (s', r) -> w_slice_parse m p s = Done (s', r).
Proof. intros m N I T E p s s' r HN Hp Hm H. eapply C43_fits_slice; [exact Hm|apply frugal_asks; assumption|exact H]. Qed.
(** A record that begins with its length, if that is the greatest [usize]: a release build asks for the record again and again without
    reading any further, *)
Theorem C45_retry_refuted : forall W A I (value : I -> nat) x cs k, 1 < W -> S k <= A -> value x = W - 1 ->
  exists b0 st, w_fixed_with_size (release_build W A) (S k) = Done b0 /\
    w_src_parse (release_build W A) (read_data_source chunk_read) (w_fixed_ops I (release_build W A)) (prefixed value) (src_with_buffer (Some [x] :: cs) b0) = Done (st, inr SRetry) /\
    w_src_parse (release_build W A) (read_data_source chunk_read) (w_fixed_ops I (release_build W A)) (prefixed value) st = Done (st, inr SRetry) /\
    src_source st = cs /\
    forall fuel, w_insist (release_build W A) (read_data_source chunk_read) (w_fixed_ops I (release_build W A)) fuel (prefixed value) st = Stuck.
Proof.
  intros W A I value x cs k HW HA Hx. destruct W as [|[|w]]; [lia|lia|]. set (m := release_build (S (S w)) A).
  assert (Hp : prefixed value (mkInput false [x]) = Incomplete (S w)).
  { unfold prefixed, any, bind. cbn -[take]. rewrite Hx. reflexivity. }
  assert (Hadd : w_add m 1 (S w) = Done 0).
  { unfold w_add. cbn [m release_build w_size w_debug]. replace (1 + S w) with (S (S w)) by lia. rewrite Nat.ltb_irrefl, Nat.mod_same by lia. reflexivity. }
  set (st := mkSrc cs (mkFixed (Some x :: repeat None k) 1 0) 0 true false true).
  assert (Hd : fixed_deref (mkFixed (Some x :: repeat (@None I) k) 1 0) = Done [x]) by reflexivity.
  assert (H2 : w_src_parse m (read_data_source chunk_read) (w_fixed_ops I m) (prefixed value) st = Done (st, inr SRetry)).
  { unfold w_src_parse, w_src_fill, w_fill_requested. cbn -[w_add fixed_deref prefixed]. rewrite Hd. cbn -[w_add prefixed]. rewrite Hp. cbn -[w_add]. rewrite Hadd. reflexivity. }
  exists (mkFixed (repeat None (S k)) 0 0), st. split; [|split; [|split; [exact H2|split; [reflexivity|]]]].
  - unfold w_fixed_with_size. rewrite !assert_true by (first [apply Nat.ltb_lt|apply Nat.leb_le]; cbn; lia). reflexivity.
  - unfold w_src_parse, w_src_fill, w_fill_requested. cbn -[w_add fixed_deref prefixed]. 
    rewrite firstn_nil, skipn_nil. cbn -[w_add fixed_deref prefixed]. do 2 (change (w_add m 0 1) with (Done 1); cbn -[w_add fixed_deref prefixed]).
    rewrite Hd. cbn -[w_add prefixed]. rewrite Hp. cbn -[w_add]. rewrite Hadd. reflexivity.
  - induction fuel as [|fuel IH]; [reflexivity|]. cbn [w_insist]. rewrite H2. exact IH.
Qed.
(** a debug build panics, *)
Theorem C45_panic_refuted : forall W A I (value : I -> nat) x cs k, 1 < W -> S k <= A < W -> value x = W - 1 ->
  exists b0, w_fixed_with_size (debug_build W A) (S k) = Done b0 /\
    w_src_parse (debug_build W A) (read_data_source chunk_read) (w_fixed_ops I (debug_build W A)) (prefixed value) (src_with_buffer (Some [x] :: cs) b0) = Panicked.
Proof.
  intros W A I value x cs k HW HA Hx. destruct W as [|[|w]]; [lia|lia|]. set (m := debug_build (S (S w)) A).
  assert (Hp : prefixed value (mkInput false [x]) = Incomplete (S w)).
  { unfold prefixed, any, bind. cbn -[take]. rewrite Hx. reflexivity. }
  assert (Hadd : w_add m 1 (S w) = Panicked).
  { unfold w_add. cbn [m debug_build w_size w_debug]. replace (1 + S w) with (S (S w)) by lia. rewrite Nat.ltb_irrefl. reflexivity. }
  assert (Hd : fixed_deref (mkFixed (Some x :: repeat (@None I) k) 1 0) = Done [x]) by reflexivity.
  exists (mkFixed (repeat None (S k)) 0 0). split.
  - unfold w_fixed_with_size. rewrite !assert_true by (first [apply Nat.ltb_lt|apply Nat.leb_le]; cbn; lia). reflexivity.
  - unfold w_src_parse, w_src_fill, w_fill_requested. cbn -[w_add fixed_deref prefixed w_debug_assert_sum].
    rewrite firstn_nil, skipn_nil. cbn -[w_add fixed_deref prefixed w_debug_assert_sum]. rewrite sum_assert with (c := S (length (repeat (@None I) k))) by (cbn; try lia; rewrite repeat_length; lia).
    cbn -[w_add fixed_deref prefixed]. do 2 (change (w_add m 0 1) with (Done 1); cbn -[w_add fixed_deref prefixed]).
    rewrite Hd. cbn -[w_add prefixed]. rewrite Hp. cbn -[w_add]. rewrite Hadd. reflexivity.
Qed.
(** and a SliceStream answers, in a release build, that nothing is missing. *)
Theorem C45_slice_refuted : forall W A I (value : I -> nat) x, 1 < W -> value x = W - 1 ->
  w_slice_parse (release_build W A) (prefixed value) (slice_new [x]) = Done (slice_new [x], inr (SIncomplete 0)) /\
  w_slice_parse (debug_build W A) (prefixed value) (slice_new [x]) = Panicked /\
  slice_parse (prefixed value) (slice_new [x]) = Done (slice_new [x], inr (SIncomplete W)).
Proof.
  intros W A I value x HW Hx.
  assert (Hp : prefixed value (mkInput true [x]) = Incomplete (W - 1)).
  { unfold prefixed, any, bind. cbn -[take minus]. rewrite Hx. destruct W as [|[|w]]; [lia|lia|reflexivity]. }
  unfold w_slice_parse, slice_parse, w_slice_len. rewrite !sub_fits by (cbn; lia). cbn -[w_add prefixed]. rewrite Hp. unfold w_add. cbn [release_build debug_build w_size w_debug].
  replace (W - 1 + 1) with W by lia. rewrite Nat.ltb_irrefl, Nat.mod_same by lia. repeat split.
Qed.
(** A length that no vector can have makes a GrowingBuffer panic in every build, whatever its limit. *)
Theorem C45_growing_refuted : forall m I (value : I -> nat) x cs alloc limit, platform m -> 1 + alloc 0 <= w_alloc m -> limit = 0 \/ 1 + alloc 0 <= limit ->
  w_alloc m <= value x -> 1 + value x < w_size m ->
  exists st, w_src_parse m (read_data_source chunk_read) (w_growing_ops I m) (prefixed value) (src_with_buffer (Some [x] :: cs) (growing_with_limit 0 alloc limit)) = Done (st, inr SRetry) /\
    w_src_parse m (read_data_source chunk_read) (w_growing_ops I m) (prefixed value) st = Panicked.
Proof.
  intros m I value x cs alloc limit P Ha Hl Hv HW. unfold platform in P. remember (value x) as v eqn:Ev. destruct v as [|v]; [lia|].
  assert (Hp : prefixed value (mkInput false [x]) = Incomplete (S v)).
  { unfold prefixed, any, bind. cbn -[take]. rewrite <- Ev. reflexivity. }
  remember (mkGrowing (Some x :: repeat None (alloc 0)) (1 + alloc 0) 1 limit 0 alloc 1) as b eqn:Eb.
  assert (Hd : growing_deref b = Done [x]) by (subst b; reflexivity).
  exists (mkSrc cs b (2 + v) true false true). split.
  - assert (H1 : src_parse (read_data_source chunk_read) (growing_ops I) (prefixed value) (src_with_buffer (Some [x] :: cs) (growing_with_limit 0 alloc limit)) =
      Done (mkSrc cs b (2 + v) true false true, inr SRetry)).
    { unfold src_parse, src_fill. cbn [src_with_buffer src_incomplete src_auto andb src_request Nat.max]. unfold fill_requested at 1.
      cbn -[growing_deref prefixed growing_request_space growing_fill]. unfold growing_request_space at 1. cbn [growing_with_limit g_limit g_cap].
      replace (negb (limit =? 0) && (limit <? 0)) with false by (symmetry; apply andb_false_r). cbn -[growing_deref prefixed]. rewrite firstn_nil, skipn_nil.
      cbn -[growing_deref prefixed]. cbn [plus] in Eb. rewrite <- Eb, Hd. cbn -[prefixed]. rewrite Hp. reflexivity. }
    eapply (ma_parse (@C43_fits_growing m _ I (read_data_source chunk_read) (src_with_buffer (Some [x] :: cs) (growing_with_limit 0 alloc limit)) ltac:(split; lia) ltac:(cbn; lia) ltac:(cbn; lia))); [exact H1| |];
      subst b; cbn; lia.
  - unfold w_src_parse, w_src_fill. cbn [src_incomplete src_auto andb src_request]. unfold w_fill_requested. cbn [src_buffer w_growing_ops op_len op_request_space].
    subst b. unfold w_growing_request_space, w_growing_len. cbn [g_populated g_used g_limit g_cap g_mem]. rewrite sub_fits by lia. cbn [run_bind minus].
    replace (1 <? Nat.max 1 (2 + v)) with true by (symmetry; apply Nat.ltb_lt; lia). rewrite sub_fits by lia. cbn [run_bind].
    replace (negb (limit =? 0) && (limit <? 1 + alloc 0)) with false.
    2:{ symmetry. destruct Hl as [->|Hl]; [reflexivity|]. replace (limit <? 1 + alloc 0) with false by (symmetry; apply Nat.ltb_ge; lia). apply andb_false_r. }
    replace (Nat.max 1 (2 + v) - 1) with (S v) by lia. rewrite add_fits by lia. cbn [run_bind].
    replace (1 + alloc 0 <? S v + 1) with true by (symmetry; apply Nat.ltb_lt; lia). unfold w_growing_reserve, growing_reserve. cbn [g_mem g_cap length]. rewrite repeat_length.
    replace (S v <=? 1 + alloc 0 - S (alloc 0)) with false by (symmetry; apply Nat.leb_gt; lia). cbn [g_cap].
    replace (S (alloc 0) + S v + g_alloc _ _ <=? w_alloc m) with false by (symmetry; apply Nat.leb_gt; lia). reflexivity.
Qed.
Print Assumptions C45_requests_partial.
Print Assumptions C45_program_partial.
Print Assumptions C45_growing_program_partial.
Print Assumptions C45_slice_partial.
Print Assumptions C45_retry_refuted.
Print Assumptions C45_panic_refuted.
Print Assumptions C45_slice_refuted.
Print Assumptions C45_growing_refuted.

(** Beside the theorems: records whose length is cut off at three, on a machine with four bit words, in either build. *)
Definition record_parser : parser nat (list nat) (error nat) := prefixed (fun x => Nat.min x 3).
Lemma record_frugal : frugal 3 record_parser.
Proof. apply f_bind; [apply f_any|]. intros x. apply f_take. lia. Qed.
Lemma record_asks : forall l b n, record_parser (mkInput l b) = Incomplete n -> length b + n <= 4.
Proof.
  intros l [|x b] n H; unfold record_parser, prefixed, any, bind in H; cbn -[take Nat.min] in H; [inversion H; cbn; lia|].
  unfold take in H. cbn [buf ret] in H. cbn -[Nat.min minus Nat.leb] in H. destruct (Nat.leb_spec (Nat.min x 3) (length b)); [discriminate|]. injection H as <-. cbn [length]. lia.
Qed.
Definition record_script (n : nat) : script nat (list nat) (error nat) :=
  nat_rect (fun _ => script nat (list nat) (error nat)) SpecStream.Stop (fun _ c => Next record_parser (fun _ => c)) n.
Lemma record_suits : forall n s, script_suits (fun k => k <= 4) s (record_script n).
Proof.
  induction n as [|n IH]; intros s; [constructor|]. cbn [record_script nat_rect]. constructor; [|intros; apply IH].
  apply C31_safe_suits.
  - apply s_bind; [apply s_any|intros x; apply s_take].
  - intros [l [|x b]]; unfold record_parser, prefixed, any, bind; cbn -[take Nat.min]; [discriminate|]. unfold take. destruct (_ <=? _); discriminate.
  - exists 1. reflexivity.
  - intros b c k _ Hk. apply record_asks in Hk. lia.
Qed.
Lemma record_suits_any : forall n s, script_suits (fun _ => True) s (record_script n).
Proof.
  intros n s. generalize (record_suits n s). revert s. induction n as [|n IH]; intros s H; [constructor|]. cbn [record_script nat_rect] in *. inversion H; subst.
  constructor; [|intros; apply IH; eauto]. match goal with H : suits _ _ _ |- _ => destruct H; split; auto end.
Qed.
Lemma record_within : forall n s, script_within 4 s (record_script n).
Proof.
  induction n as [|n IH]; intros s; [apply sw_stop|]. cbn [record_script nat_rect]. apply sw_next; [|intros; apply IH]. intros b c k _ Hk. apply record_asks in Hk. lia.
Qed.
Example C45_case_program : forall b cs, ~ In (Some []) cs -> chunks_data cs = [2; 8; 9; 7; 1; 2; 3; 0; 5; 6] -> exists b0, w_fixed_with_size (mkMachine 16 b 8) 4 = Done b0 /\
  w_on_source (mkMachine 16 b 8) demo_source (w_fixed_ops nat (mkMachine 16 b 8)) (22 + chunks_errors cs) (record_script 5) (src_with_buffer cs b0) =
    Done [inl [8; 9]; inl [1; 2; 3]; inl []; inr (SIncomplete 4); inr (SIncomplete 4)].
Proof.
  intros b cs Hcs Hd. eexists. split; [reflexivity|]. transitivity (on_slice (record_script 5) (slice_new (chunks_data cs))); [|rewrite Hd; vm_compute; reflexivity].
  eapply C45_program_partial with (size := 4) (N := 3) (R := schedule); [|apply chunk_obeys|apply chunk_delivers|repeat split; auto|reflexivity|apply record_suits|lia|cbn; lia| |].
  - split; cbn; lia.
  - cbn [record_script nat_rect]. repeat (constructor; [apply record_frugal|intros _]). constructor.
  - rewrite Hd. cbn [length]. lia.
Qed.
Example C45_case_growing_program : forall b cs, ~ In (Some []) cs -> chunks_data cs = [2; 8; 9; 7; 1; 2; 3; 0; 5; 6] ->
  w_on_source (mkMachine 16 b 8) demo_source (w_growing_ops nat (mkMachine 16 b 8)) (22 + chunks_errors cs) (record_script 5) (src_with_buffer cs (growing_with_limit 0 (fun _ => 1) 8)) =
    Done [inl [8; 9]; inl [1; 2; 3]; inl []; inr (SIncomplete 4); inr (SIncomplete 4)].
Proof.
  intros b cs Hcs Hd. transitivity (on_slice (record_script 5) (slice_new (chunks_data cs))); [|rewrite Hd; vm_compute; reflexivity].
  eapply C45_growing_program_partial with (M := 4) (A := 1) (N := 3) (R := schedule);
    [split; cbn; lia|apply chunk_obeys|apply chunk_delivers|repeat split; auto|lia|cbn; lia|lia|lia| | |lia|cbn; lia| |rewrite Hd; cbn [length]; lia].
  - apply record_suits_any.
  - apply record_within.
  - cbn [record_script nat_rect]. repeat (constructor; [apply record_frugal|intros _]). constructor.
Qed.
Example C45_case_slice : forall b, exists s', w_slice_parse (mkMachine 16 b 8) record_parser (slice_new [3; 5; 6]) = Done (s', inr (SIncomplete 4)).
Proof.
  intros b. eexists. eapply C45_slice_partial with (N := 3); [lia|apply record_frugal|cbn; lia|vm_compute; reflexivity].
Qed.
(** The wrap-around: an eight bit machine, one byte of length, and the rest of the input is never looked at. *)
Example C45_case_retry : exists b0, w_fixed_with_size (release_build 256 100) 10 = Done b0 /\
  forall fuel, w_insist (release_build 256 100) demo_source (w_fixed_ops nat (release_build 256 100)) fuel (prefixed (fun x => x)) (src_with_buffer [Some [255]; Some [1; 2; 3]] b0) = Stuck.
Proof.
  destruct (@C45_retry_refuted 256 100 nat (fun x => x) 255 [Some [1; 2; 3]] 9) as (b0 & st & Hb & H1 & H2 & _ & H3); [lia|lia|reflexivity|].
  exists b0. split; [exact Hb|]. intros [|fuel]; [reflexivity|]. cbn [w_insist]. unfold demo_source. rewrite H1. apply H3.
Qed.
Example C45_case_growing : exists st, w_src_parse (release_build 256 100) demo_source (w_growing_ops nat (release_build 256 100)) (prefixed (fun x => x))
    (src_with_buffer [Some [200]; Some [1; 2; 3]] (growing_with_limit 0 (fun _ => 7) 50)) = Done (st, inr SRetry) /\
  w_src_parse (release_build 256 100) demo_source (w_growing_ops nat (release_build 256 100)) (prefixed (fun x => x)) st = Panicked.
Proof. apply C45_growing_refuted; [split; cbn; lia|cbn; lia|right; lia|cbn; lia|cbn; lia]. Qed.
