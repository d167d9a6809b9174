(** Property theorems C75: the work of all calls of a stream together, for records of an LL(1) grammar. *)
From Coq Require Import List Bool Arith Lia.
From Verif Require Import Base Parsers Combinators Buffer Stream SpecBase SpecBuffer SpecSafe SpecStream SpecAnyBuffer BaseProofs StableProofs BufferProofs StreamProofs SimProofs Effects SpecEffects
  EffectsStreamProofs SafeProofs PropsStream PropsAnyBuffer SpecPeg Peg PegProofs PegTotal PropsPeg SpecBnf BnfProofs PropsBnf PegMeter TimeProofs Ll1Linear PropsTime SpecWork WorkProofs.
Import ListNotations.

Set Implicit Arguments.

(** What is used of the grammar: C73 and C74. *)
Lemma peg_cheap : forall I eqb nul rank follow k (g : nat -> peg I) N e, ll1_grammar eqb nul rank follow k g -> (forall n, N <= n -> g n = Empty) ->
  ll1 eqb g nul follow (starts eqb g nul e) e -> good nul rank None e -> may_empty nul e = false ->
  exists A, forall v fuel, cheap A (starts eqb g nul e) (peg_meter v eqb g fuel e).
Proof.
  intros I eqb nul rank follow k g N e Hg HN HF He Hm. destruct (C74_linear _ _ Hg HN HF He) as (A & HA). exists A. intros v fuel.
  assert (Hb : forall w i, honest i (fst (peg_meter v eqb g fuel e w i))).
  { intros w i. rewrite C74_undisturbed. apply (built_well_behaved (safe_built (comp_safe v eqb g fuel e))). }
  split.
  - exact Hb.
  - intros w i H. specialize (Hb w i). rewrite H in Hb. cbn in Hb. lia.
  - intros w [l s] res w' H Hn. exact (proj1 (HA v fuel w l s res w' H Hn)).
  - intros w [l s] j t w' H Hf. exact (proj2 (HA v fuel w l s _ w' H ltac:(discriminate)) j t eq_refl Hf).
  - intros w [l s] j t w' H. pose proof (C74_undisturbed v eqb g fuel e w (mkInput l s)) as U. rewrite H in U. symmetry in U. cbn [fst] in U.
    destruct (@C73_phrases I v eqb g e (fun n => ll1_context_free _ _ _ _ _ _ (lg_ll1 Hg n)) (ll1_context_free _ _ _ _ _ _ HF) fuel l s j t U) as (x & Ex & M).
    destruct x as [|c x].
    + rewrite (proj1 (matches_empty Hg) _ _ _ M eq_refl) in Hm. discriminate.
    + exists c, x. split; [exact Ex|]. apply (proj1 (matches_starts Hg) _ _ _ M c x eq_refl).
Qed.

(** * Slices *)

(** The calls of [parse] on a slice one after the other, whatever it contains: each of them but the last of a row of values costs no more than in proportion
    to what it consumes, the others no more than in proportion to the slice. *)
Theorem C75_slice : forall I eqb nul rank follow k (g : nat -> peg I) N e, ll1_grammar eqb nul rank follow k g -> (forall n, N <= n -> g n = Empty) ->
  ll1 eqb g nul follow (starts eqb g nul e) e -> good nul rank None e -> may_empty nul e = false ->
  exists A, forall v f data n outs st' n', calls (slice_parse_w (peg_meter v eqb g f e)) (slice_new data) n outs st' n' ->
    n' <= n + A * (length data + 1) * (1 + in_vain outs).
Proof.
  intros I eqb nul rank follow k g N e Hg HN HF He Hm. destruct (peg_cheap _ Hg HN HF He Hm) as (A & HA). exists (4 * A). intros v f data n outs st' n' H.
  destruct (@slice_work _ _ _ A _ _ (HA v f) (length data) _ _ _ _ _ H) as [W _]; [unfold proper; cbn; lia|unfold left_of; cbn; lia|]. unfold left_of in W. cbn [slice_new ss_pos ss_slice skipn] in W. nia.
Qed.
Print Assumptions C75_slice.

(** So a loop over a slice is linear in the slice, however many records there are in it. *)
Theorem C75_slice_loop : forall I eqb nul rank follow k (g : nat -> peg I) N e, ll1_grammar eqb nul rank follow k g -> (forall n, N <= n -> g n = Empty) ->
  ll1 eqb g nul follow (starts eqb g nul e) e -> good nul rank None e -> may_empty nul e = false ->
  exists A, forall v f data fuel n vs x st' n', looping (slice_parse_w (peg_meter v eqb g f e)) fuel (slice_new data) n = (Done (vs, x, st'), n') ->
    n' <= n + A * (length data + 1).
Proof.
  intros I eqb nul rank follow k g N e Hg HN HF He Hm. destruct (peg_cheap _ Hg HN HF He Hm) as (A & HA). exists (6 * A). intros v f data fuel n vs x st' n' H.
  destruct (looping_calls _ _ _ _ H) as (outs & st1 & n1 & C & G & L & _ & _).
  assert (Hin : forall st n outs st' n', calls (slice_parse_w (peg_meter v eqb g f e)) st n outs st' n' -> proper st -> Forall goes_on outs -> in_vain outs = 0).
  { clear H outs st1 n1 C G L st' n' n. induction 1 as [|st n st1 o n1 outs st2 n2 Hs Hc IH]; intros Hpr Hgo; [reflexivity|]. inversion Hgo as [|? ? G1 G2]; subst.
    destruct (slice_step (HA v f) n Hpr Hs) as [(_ & -> & _)|(Hpr' & res & _ & Hr)]; [destruct G1|].
    rewrite in_vain_cons, (IH Hpr' G2). destruct res as [j t|b y|m| |]; try contradiction.
    - destruct Hr as [-> _]. reflexivity.
    - destruct Hr as [-> _]. destruct G1.
    - destruct Hr as [(q & ->) _]. destruct G1. }
  pose proof (Hin _ _ _ _ _ C ltac:(unfold proper; cbn; lia) G) as Hv. pose proof (calls_app C L) as C'.
  destruct (@slice_work _ _ _ A _ _ (HA v f) (length data) _ _ _ _ _ C') as [W _]; [unfold proper; cbn; lia|unfold left_of; cbn; lia|].
  assert (Ho : in_vain (outs ++ [inr x : sres I (tree I) (error I)]) <= 1).
  { unfold in_vain in *. rewrite map_app, list_sum_app, Hv. destruct x; cbn; lia. }
  unfold left_of in W. cbn [slice_new ss_pos ss_slice skipn] in W. nia.
Qed.
Print Assumptions C75_slice_loop.

(** * Sources *)

(** The same for a Source with any buffer. *)
Theorem C75_source : forall I eqb nul rank follow k (g : nat -> peg I) N e, ll1_grammar eqb nul rank follow k g -> (forall n, N <= n -> g n = Empty) ->
  ll1 eqb g nul follow (starts eqb g nul e) e -> good nul rank None e -> may_empty nul e = false ->
  exists A, forall St B v f (ds : data_source St I) (ops : buffer_ops I B) fits b0 R s data errs n outs st' n',
    obeys ds -> delivers ds R -> R s data errs -> lawful ops fits b0 ->
    calls (src_parse_w ds ops (peg_meter v eqb g f e)) (src_with_buffer s b0) n outs st' n' ->
    n' <= n + A * (length data + 1) * (1 + in_vain outs).
Proof.
  intros I eqb nul rank follow k g N e Hg HN HF He Hm. destruct (peg_cheap _ Hg HN HF He Hm) as (A & HA). exists (4 * A).
  intros St B v f ds ops fits b0 R s data errs n outs st' n' Ho HR Hs (inv & view & room & Q & Hi & Hv) H.
  destruct (@source_work _ _ _ _ _ ds ops inv view room fits Q Ho A _ _ (HA v f) R HR (length data) (length data) ltac:(auto) _ _ _ _ _ H Hi eq_refl data errs Hs) as [W _].
  { unfold ahead. cbn [src_with_buffer src_buffer]. rewrite Hv. cbn. lia. }
  unfold ahead in W. cbn [src_with_buffer src_buffer] in W. rewrite Hv in W. cbn [length] in W. nia.
Qed.
Print Assumptions C75_source.

(** With a buffer which holds at most [size] items a loop which goes on after [Retry] and I/O errors is linear in the input, however this arrives. *)
Theorem C75_bounded : forall I eqb nul rank follow k (g : nat -> peg I) N e, ll1_grammar eqb nul rank follow k g -> (forall n, N <= n -> g n = Empty) ->
  ll1 eqb g nul follow (starts eqb g nul e) e -> good nul rank None e -> may_empty nul e = false ->
  exists A, forall St B v f (ds : data_source St I) (ops : buffer_ops I B) size b0 R s data errs fuel n vs x st' n',
    obeys ds -> delivers ds R -> R s data errs -> lawful_tight ops (fun m => m <= size) b0 ->
    looping (src_parse_w ds ops (peg_meter v eqb g f e)) fuel (src_with_buffer s b0) n = (Done (vs, x, st'), n') ->
    n' <= n + A * (size + 1) * (length data + 1).
Proof.
  intros I eqb nul rank follow k g N e Hg HN HF He Hm. destruct (peg_cheap _ Hg HN HF He Hm) as (A & HA). exists (7 * A).
  intros St B v f ds ops size b0 R s data errs fuel n vs x st' n' Ho HR Hs (inv & view & room & Q & Hi & Hv & Hsize) H.
  destruct (looping_calls _ _ _ _ H) as (outs & st1 & n1 & C & G & L & _ & _).
  pose proof (@retries _ _ _ _ _ ds ops inv view room _ Q Ho A _ _ (HA v f) R HR _ _ _ _ _ C Hi eq_refl ltac:(discriminate) G data errs Hs) as Hin.
  unfold chances in Hin. cbn [src_with_buffer src_eoi] in Hin.
  assert (Hin2 : in_vain (outs ++ [inr x : sres I (tree I) (error I)]) <= length data + 2).
  { unfold in_vain in *. rewrite map_app, list_sum_app. cbn [List.map list_sum fold_right]. assert (vain (inr x : sres I (tree I) (error I)) <= 1) by (destruct x; cbn; lia).
    destruct (lacking view (src_with_buffer s b0)); lia. }
  destruct (@source_work _ _ _ _ _ ds ops inv view room _ Q Ho A _ _ (HA v f) R HR (length data) size ltac:(auto) _ _ _ _ _ (calls_app C L) Hi eq_refl data errs Hs) as [W _].
  { unfold ahead. cbn [src_with_buffer src_buffer]. rewrite Hv. cbn. lia. }
  unfold ahead in W. cbn [src_with_buffer src_buffer] in W. rewrite Hv in W. cbn [length] in W.
  set (c := A * (size + 1)) in *. assert (A <= c) by (unfold c; nia). replace (7 * A * (size + 1)) with (7 * c) by (unfold c; lia). nia.
Qed.
Print Assumptions C75_bounded.

Theorem C75_fixed : forall I eqb nul rank follow k (g : nat -> peg I) N e, ll1_grammar eqb nul rank follow k g -> (forall n, N <= n -> g n = Empty) ->
  ll1 eqb g nul follow (starts eqb g nul e) e -> good nul rank None e -> may_empty nul e = false ->
  exists A, forall v f size b0 cs fuel n vs x st' n', fixed_with_size size = Done b0 -> ~ In (Some []) cs ->
    looping (src_parse_w (read_data_source chunk_read) (fixed_ops I) (peg_meter v eqb g f e)) fuel (src_with_buffer cs b0) n = (Done (vs, x, st'), n') ->
    n' <= n + A * (size + 1) * (length (chunks_data cs) + 1).
Proof.
  intros I eqb nul rank follow k g N e Hg HN HF He Hm. destruct (C75_bounded _ Hg HN HF He Hm) as (A & HA). exists A.
  intros v f size b0 cs fuel n vs x st' n' Hb Hcs H.
  eapply (HA _ _ v f (read_data_source chunk_read) (fixed_ops I) size b0 schedule cs (chunks_data cs) (chunks_errors cs)); [apply chunk_obeys|apply chunk_delivers|repeat split; auto|apply C63_fixed; assumption|exact H].
Qed.
Print Assumptions C75_fixed.

(** * A growing buffer *)

(** Not so with a GrowingBuffer: a long record which arrives item by item is read anew with each of them. *)
Definition line : peg nat := Then (Run (fun c => c <? 10)) (Lit [10]).

Lemma position_zeros : forall m n, position_w (is_false (tick (fun c => c <? 10))) (repeat 0 m) n = (Some None, n + m).
Proof. induction m as [|m IH]; intros n; cbn; [rewrite Nat.add_0_r; reflexivity|]. unfold is_false, tick in *. cbn. rewrite IH. f_equal. lia. Qed.
Lemma position_end : forall m n, position_w (is_false (tick (fun c => c <? 10))) (repeat 0 m ++ [10]) n = (Some (Some m), S (n + m)).
Proof. induction m as [|m IH]; intros n; cbn; [rewrite Nat.add_0_r; reflexivity|]. unfold is_false, tick in *. cbn. rewrite IH. cbn. f_equal. lia. Qed.

Lemma line_asks : forall v f m n, peg_meter v Nat.eqb (fun _ => Empty) f line n (mkInput false (repeat 0 m)) = (Incomplete 1, S (S n) + m).
Proof. intros v f m n. unfold line. rewrite meter_eq, meter_eq. unfold take_while_w. cbn [buf last]. rewrite position_zeros. reflexivity. Qed.
Lemma line_ends : forall v f m n, exists n', peg_meter v Nat.eqb (fun _ => Empty) f line n (mkInput false (repeat 0 m ++ [10])) = (Data (mkInput false []) (Span [10]), n') /\ n <= n'.
Proof.
  intros v f m n. unfold line. rewrite meter_eq, meter_eq. unfold take_while_w. cbn [buf last]. rewrite position_end. cbn [ret map]. unfold then_w, bind_w. cbn [replace last].
  rewrite skipn_app, repeat_length, Nat.sub_diag. rewrite skipn_all2 by (rewrite repeat_length; lia). cbn [app skipn].
  rewrite meter_eq. unfold string_w, replace. cbn. eexists. split; [reflexivity|lia].
Qed.

Section Growing.
  Context {B : Type}.
  Variables (ops : buffer_ops nat B) (inv : B -> Prop) (view : B -> list nat) (room : B -> nat).
  Hypothesis Q : queue_like ops inv view room (fun _ => True).

  Lemma line_cost : forall v f r m b req en n fuel, inv b -> view b = repeat 0 m -> Nat.max 1 req = S m -> r + 3 <= fuel -> exists st' n',
    looping (src_parse_w (read_data_source chunk_read) ops (peg_meter v Nat.eqb (fun _ => Empty) f line)) fuel (mkSrc (one_by_one (repeat 0 r ++ [10])) b req true en true) n =
      (Done ([Span [10]], SEndOfInput, st'), n') /\
    2 * n + 2 * r * m + r * r <= 2 * n'.
  Proof.
    intros v f. induction r as [|r IH]; intros m b req en n fuel Hi Hv Hr Hf; (destruct fuel as [|fuel]; [lia|]); cbn [repeat app one_by_one List.map]; cbn [looping];
      unfold src_parse_w at 1; cbn [src_incomplete src_auto andb].
    - destruct (@fill_one _ _ ops inv view room Q 10 [] b req en Hi ltac:(rewrite Hv, repeat_length; exact Hr)) as (b1 & E1 & Hi1 & V1). rewrite E1.
      unfold src_is_empty. cbn [src_eoi src_buffer]. rewrite (q_deref Q _ Hi1), V1, Hv. destruct (line_ends v f m n) as (n1 & P1 & L1). rewrite P1.
      rewrite (q_len Q _ Hi1). cbn [run_bind buf length]. unfold usize_sub. cbn [Nat.leb run_bind]. rewrite Nat.sub_0_r.
      destruct (q_consume Q b1 (k := length (view b1)) Hi1 (le_n _)) as (b2 & E2 & Hi2 & V2). rewrite E2. cbn [run_bind]. rewrite skipn_all in V2.
      unfold src_with. cbn [src_source src_request src_incomplete src_eoi src_auto].
      destruct fuel as [|fuel]; [lia|]. cbn [looping]. unfold src_parse_w at 1. cbn [src_incomplete src_auto andb]. unfold src_is_empty. cbn [src_eoi src_buffer].
      rewrite (q_deref Q _ Hi2), V2. pose proof (line_asks v f 0 n1) as P2. cbn [repeat] in P2. rewrite P2. rewrite (q_len Q _ Hi2), V2. cbn [run_bind length src_source src_auto src_buffer Nat.add].
      destruct fuel as [|fuel]; [lia|]. cbn [looping]. unfold src_parse_w at 1. cbn [src_incomplete src_auto andb].
      destruct (@fill_none _ _ ops inv view room Q b2 1 false Hi2 ltac:(rewrite V2; reflexivity)) as (b3 & E3 & Hi3 & V3). rewrite E3.
      unfold src_is_empty, src_len. cbn [src_eoi src_buffer]. rewrite (q_len Q _ Hi3), V3, V2. cbn [run_bind length Nat.eqb]. eexists _, _. split; [reflexivity|lia].
    - destruct (@fill_one _ _ ops inv view room Q 0 (one_by_one (repeat 0 r ++ [10])) b req en Hi ltac:(rewrite Hv, repeat_length; exact Hr)) as (b1 & E1 & Hi1 & V1).
      unfold one_by_one in E1. rewrite E1. unfold src_is_empty. cbn [src_eoi src_buffer]. rewrite (q_deref Q _ Hi1), V1, Hv.
      assert (Hz : repeat 0 m ++ [0] = repeat 0 (S m)) by (symmetry; apply repeat_cons). rewrite Hz in *. rewrite line_asks. rewrite (q_len Q _ Hi1). cbn [run_bind src_source src_auto src_buffer].
      destruct (IH (S m) b1 (length (view b1) + 1) false (S (S n) + S m) fuel Hi1 ltac:(rewrite V1, Hv; exact Hz) ltac:(rewrite V1, Hv, Hz, repeat_length; lia) ltac:(lia)) as (st' & n' & H1 & H2).
      unfold one_by_one in H1. exists st', n'. rewrite H1. split; [reflexivity|]. nia.
  Qed.
End Growing.

Theorem C75_growing_refuted : ll1_grammar Nat.eqb (fun _ => true) (fun _ => 0) (fun _ _ => False) 1 (fun _ => Empty) /\
  ll1 Nat.eqb (fun _ => Empty) (fun _ => true) (fun _ _ => False) (starts Nat.eqb (fun _ => Empty) (fun _ => true) line) line /\ good (fun _ => true) (fun _ => 0) None line /\
  may_empty (fun _ => true) line = false /\
  forall v f alloc A, exists cs, ~ In (Some []) cs /\ forall fuel n, length (chunks_data cs) + 2 <= fuel -> exists st' n',
    looping (src_parse_w (read_data_source chunk_read) (growing_ops nat) (peg_meter v Nat.eqb (fun _ => Empty) f line)) fuel (src_with_buffer cs (growing_with_limit 0 alloc 0)) n =
      (Done ([Span [10]], SEndOfInput, st'), n') /\ n + A * (length (chunks_data cs) + 1) < n'.
Proof.
  split; [|split; [|split; [repeat split|split; [reflexivity|]]]].
  - split; [intros n; cbn; auto..|lia].
  - cbn. split; [|exact Logic.I]. intros c [H|[H _]]; [|discriminate]. inversion H; subst. match goal with H : Nat.eqb _ _ = true |- _ => apply Nat.eqb_eq in H; subst end. reflexivity.
  - intros v f alloc A. exists (one_by_one (repeat 0 (2 * A + 4) ++ [10])). split.
    + unfold one_by_one. rewrite in_map_iff. intros (c & H & _). discriminate.
    + assert (Hl : length (chunks_data (one_by_one (repeat 0 (2 * A + 4) ++ [10]))) = 2 * A + 5).
      { assert (forall l : list nat, chunks_data (one_by_one l) = l) as -> by (induction l as [|c l IHl]; cbn; [reflexivity|f_equal; exact IHl]). rewrite app_length, repeat_length. cbn. lia. }
      rewrite Hl. intros fuel n Hf. destruct (growing_fresh nat alloc) as [Hi Hv].
      destruct (@line_cost _ _ _ _ _ growing_queue0 v f (2 * A + 4) 0 _ 0 false n fuel Hi Hv eq_refl ltac:(lia)) as (st' & n' & H1 & H2). exists st', n'. split; [exact H1|]. nia.
Qed.
Print Assumptions C75_growing_refuted.

(** * Cases *)

(** The records of C73. *)
Example C75_case : exists A, forall v f size b0 cs fuel n vs x st' n', fixed_with_size size = Done b0 -> ~ In (Some []) cs ->
  looping (src_parse_w (read_data_source chunk_read) (fixed_ops nat) (peg_meter v Nat.eqb lists f list_record)) fuel (src_with_buffer cs b0) n = (Done (vs, x, st'), n') ->
  n' <= n + A * (size + 1) * (length (chunks_data cs) + 1).
Proof.
  destruct C73_case as (Hg & HF & He & _ & Hm & _). apply (@C75_fixed _ _ _ _ _ _ lists 1 list_record Hg); auto. intros [|n] Hn; [lia|reflexivity].
Qed.
(** Three records in pieces and with faults in between: the values, the end and the number of calls; and on a slice of [7 * m] items. *)
Example C75_case_counts : let cs := [Some [10; 10; 1; 12]; None; Some [2; 3; 11]; Some [12; 10; 11; 11; 13; 5]; Some [13; 10]; None; Some [11; 13]] in
  match fixed_with_size 16 with
  | Done b0 => match looping (src_parse_w (read_data_source chunk_read) (fixed_ops nat) (peg_meter true Nat.eqb lists 40 list_record)) 60 (src_with_buffer cs b0) 0 with
               | (Done (vs, x, _), n) => (length vs, x, n) = (3, SEndOfInput, 241)
               | _ => False
               end
  | _ => False
  end /\
  List.map (fun m => snd (looping (slice_parse_w (peg_meter true Nat.eqb lists 60 list_record)) 60 (slice_new (concat (repeat [10; 1; 12; 2; 3; 11; 13] m))) 0)) [1; 2; 10] = [36; 72; 360].
Proof. vm_compute. repeat split. Qed.
