(** C59: parsing and reading the same Source. *)
From Coq Require Import List Bool Arith Lia.
From Verif Require Import Base Buffer Stream StdIo Combinators Parsers SpecBase SpecBuffer SpecSafe SpecStream SpecMixed BufferProofs StreamProofs SimProofs HistoryProofs MeterProofs MixedProofs PropsBuffer PropsStream.
Import ListNotations.

Set Implicit Arguments.

(** * GrowingBuffer once it has some capacity *)
Definition growing_warm {I} (b : growing I) : Prop := growing_inv0 b /\ 0 < op_capacity (growing_ops I) b.

Lemma growing_queue_warm : forall I, queue_like (growing_ops I) (@growing_warm I) growing_view growing_room (fun _ => True).
Proof.
  intros I. pose proof (@growing_queue0 I) as Q. split.
  - intros b [Hb _]. apply (q_deref Q _ Hb).
  - intros b [Hb _]. apply (q_len Q _ Hb).
  - intros b k [Hb Hc] Hk. destruct (q_consume Q _ Hb Hk) as (b' & H1 & H2 & H3). exists b'. split; [assumption|]. split; [|assumption]. split; [assumption|].
    cbn [growing_ops op_consume op_capacity] in *. unfold growing_consume in H1. destruct (assert _); [|discriminate..]. cbn [run_bind] in H1. inversion H1; subst b'. exact Hc.
  - intros b k [Hb Hc]. destruct (q_request Q _ k Hb) as (b' & H1 & H2 & H3). exists b'. split; [assumption|]. split; [|assumption]. split; [assumption|].
    cbn [growing_ops op_request_space op_capacity] in *. unfold growing_request_space, growing_capacity in *. destruct (negb (g_limit b =? 0) && (g_limit b <? g_cap b)); [inversion H1; subst; assumption|].
    destruct (growing_len b) as [l| | |]; try discriminate. cbn [run_bind] in H1. set (b1 := if g_cap b <? k + l then _ else b) in H1.
    assert (Hb1 : 0 < length (g_mem b1)).
    { unfold b1. destruct (g_cap b <? k + l); [|assumption]. unfold growing_set_len, growing_reserve. destruct (k <=? g_cap b - length (g_mem b)); cbn [g_mem]; rewrite app_length; lia. }
    destruct (usize_sub (length (g_mem b1)) (g_populated b1)) as [r| | |]; try discriminate. cbn [run_bind] in H1. destruct (r <? k); [|inversion H1; subst; assumption].
    destruct (usize_sub (g_populated b1) (g_used b1)) as [n| | |]; try discriminate. cbn [run_bind] in H1. destruct (copy_down _ _ _) as [m| | |] eqn:Ec; try discriminate. cbn [run_bind] in H1. inversion H1; subst b'.
    cbn [g_mem]. apply copy_down_done in Ec. destruct Ec as [_ ->]. assumption.
  - intros b [Hb Hc]. destruct (q_fill Q _ Hb) as (q & Hq0 & Hq). exists q. split; [assumption|]. intros St ds s s' w r Ho Hr. destruct (Hq _ _ _ _ _ _ Ho Hr) as (b' & H1 & H2 & H3). clear Hq Hr. exists b'. split; [assumption|]. split; [|assumption]. split; [assumption|].
    cbn [growing_ops op_fill op_capacity] in *. unfold growing_fill, growing_capacity in *. destruct (assert _); [|discriminate..]. cbn [run_bind] in H1. destruct (ds_read ds s _) as [[s1 w1] r1].
    assert (Hm : length (firstn (g_populated b) (g_mem b) ++ overwrite w1 (skipn (g_populated b) (g_mem b))) = length (g_mem b)) by (rewrite app_length, overwrite_length, <- app_length, firstn_skipn; reflexivity).
    destruct r1 as [n|x]; [destruct (assert _); [|discriminate..]; cbn [run_bind] in H1|]; inversion H1; subst b'; cbn [g_mem]; rewrite Hm; assumption.
  - auto.
Qed.

Section Init.
  Context {St I B : Type}.
  Variable ds : data_source St I.
  Variables (ops : buffer_ops I B) (inv : B -> Prop) (view : B -> list I) (room : B -> nat) (fits : nat -> Prop).
  Hypothesis Q : queue_like ops inv view room fits.
  Hypothesis Ho : obeys ds.
  Hypothesis Hone : fits 1.
  Variable R : St -> list I -> nat -> Prop.
  Hypothesis HR : delivers ds R.

  Lemma mixed_fresh : forall T E (lines : Prop) (c : program I T E) s b0 data e fuel, (lines -> forall b, inv b -> 0 < op_capacity ops b) -> inv b0 -> view b0 = [] -> R s data e ->
    proper_program fits lines c data -> 2 * length data + e + 2 <= fuel ->
    executed ds ops fuel c (src_with_buffer s b0) = meant c data.
  Proof.
    intros T E lines c s b0 data e fuel Hcap Hi Hv Hr Hc Hf. eapply (executed_spec Q Ho Hone HR) with (d := data) (e := e); eauto; [|lia|lia].
    unfold stands. cbn [src_with_buffer src_buffer src_source src_auto src_eoi src_incomplete src_request].
    split; [assumption|]. split; [assumption|]. split; [rewrite Hv; reflexivity|]. split; [reflexivity|]. split; [discriminate|]. intros _.
    eapply (q_fits Q); [|exact Hone]. cbn [Nat.max]. apply Nat.le_min_l.
  Qed.
End Init.

(** * C59 *)

(** FixedSizeBuffer: all calls, in any order. *)
Theorem C59_fixed : forall St I T E (ds : data_source St I) R size b0 s data e (c : program I T E) fuel, obeys ds -> delivers ds R -> R s data e ->
  fixed_with_size size = Done b0 -> proper_program (fun m => m <= size) True c data -> 2 * length data + e + 2 <= fuel ->
  executed ds (fixed_ops I) fuel c (src_with_buffer s b0) = meant c data.
Proof.
  intros St I T E ds R size b0 s data e c fuel Ho HR Hs Hb Hc Hf. destruct (fixed_fresh _ _ _ Hb) as (Hsz & Hi & Hv).
  eapply (mixed_fresh (fixed_queue size) Ho Hsz HR) with (lines := True); eauto.
  intros _ b Hib. rewrite (fixed_cap _ _ _ Hib). exact Hsz.
Qed.

(** GrowingBuffer without limit, fresh: all but [read_until]. *)
Theorem C59_growing : forall St I T E (ds : data_source St I) R alloc s data e (c : program I T E) fuel, obeys ds -> delivers ds R -> R s data e ->
  proper_program (fun _ => True) False c data -> 2 * length data + e + 2 <= fuel ->
  executed ds (growing_ops I) fuel c (src_with_buffer s (growing_with_limit 0 alloc 0)) = meant c data.
Proof.
  intros St I T E ds R alloc s data e c fuel Ho HR Hs Hc Hf. destruct (growing_fresh I alloc) as [Hi Hv].
  eapply (mixed_fresh growing_queue0 Ho Logic.I HR) with (lines := False); eauto. intros [].
Qed.

(** At any later time, however the Source has been used before, once its buffer has some capacity: all calls. *)
Theorem C59_growing_later : forall St I T E (ds : data_source St I) R alloc s0 data e st out (c : program I T E) fuel, obeys ds -> delivers ds R -> R s0 data e ->
  history ds (growing_ops I) anything s0 (growing_with_limit 0 alloc 0) st out -> src_auto st = true -> 0 < src_capacity (growing_ops I) st ->
  proper_program (fun _ => True) True c (skipn (length out) data) -> 2 * length data + e + 2 <= fuel ->
  executed ds (growing_ops I) fuel c st = meant c (skipn (length out) data).
Proof.
  intros St I T E ds R alloc s0 data e st out c fuel Ho HR Hs Hh Ha Hcap Hc Hf. destruct (growing_fresh I alloc) as [Hi Hv].
  destruct (history_stands growing_queue0 Ho HR _ _ Hi Hv Hh Hs) as (d & e1 & H1 & H2 & H3 & H4 & H5).
  assert (Hsk : skipn (length out) data = growing_view (src_buffer st) ++ d) by (rewrite H3, skipn_app, skipn_all, Nat.sub_diag; reflexivity).
  eapply (executed_spec (growing_queue_warm I) Ho Logic.I HR) with (lines := True) (d := d) (e := e1); auto.
  - intros _ b [_ Hb]. exact Hb.
  - split; [split; assumption|]. split; [assumption|]. split; [assumption|]. auto.
  - rewrite H3, !app_length in Hf. lia.
  - rewrite skipn_length. lia.
Qed.

(** In particular: a parser takes the head of the data, and whoever reads the Source then gets exactly what the parser left. *)
Theorem C59_handover : forall St I T E (ds : data_source St I) R size b0 s data e (p : parser I T E) j v sizes fuel, obeys ds -> delivers ds R -> R s data e ->
  fixed_with_size size = Done b0 -> suits (fun m => m <= size) data p -> data <> [] -> p (mkInput true data) = Data j v -> 2 * length data + e + 2 <= fuel ->
  exists st st', insist ds (fixed_ops I) fuel p (src_with_buffer s b0) = Done (st, inl v) /\ read_to_end ds (fixed_ops I) fuel sizes [] st = Done (st', buf j).
Proof.
  intros St I T E ds R size b0 s data e p j v sizes fuel Ho HR Hs Hb Hp Hne Hd Hf. 
  assert (Hex : executed ds (fixed_ops I) fuel (Call (Parse p) (fun _ => Call (Read_to_end sizes) (fun _ => Finish))) (src_with_buffer s b0) = Done [Parsed (inl v); Items (buf j)]).
  { rewrite (@C59_fixed _ _ _ _ ds R size b0 s data e _ fuel Ho HR Hs Hb); [|constructor; [exact Hp|]|exact Hf].
    - cbn [meant meaning]. destruct data; [contradiction|]. rewrite Hd. reflexivity.
    - intros a rest' _. constructor; [exact Logic.I|]. intros a2 r2 _. constructor. }
  cbn [executed serve] in Hex. destruct (insist ds (fixed_ops I) fuel p (src_with_buffer s b0)) as [[st r]| | |]; try discriminate. cbn [run_bind] in Hex.
  destruct (read_to_end ds (fixed_ops I) fuel sizes [] st) as [[st' l]| | |] eqn:El; try discriminate. cbn [run_bind] in Hex. inversion Hex as [[H1 H2]]. exists st, st'.
  destruct r as [w|[]]; cbn [forget] in H1; try discriminate. inversion H1. rewrite El, H2. auto.
Qed.

(** The conditions are needed.  Over a fresh GrowingBuffer [read_until] finds nothing, whatever there is to read; *)
Theorem C59_until_refuted : forall St I T E (ds : data_source St I) alloc s stop fuel, 0 < fuel ->
  executed ds (growing_ops I) fuel (Call (Read_until stop) (fun _ => Finish) : program I T E) (src_with_buffer s (growing_with_limit 0 alloc 0)) = Done [Items []].
Proof. intros St I T E ds alloc s stop [|fuel] Hf; [lia|]. reflexivity. Qed.

(** and a single [read] never gets more than a FixedSizeBuffer holds, even if more data is there. *)
Lemma fixed_reads_little : forall St I (ds : data_source St I) size n st st' l, obeys ds -> fixed_inv size (src_buffer st) -> size < n ->
  src_read ds (fixed_ops I) n st = Done (st', IoOk l) -> length l <= size.
Proof.
  intros St I ds size n st st' l Ho Hi Hn Hr.
  assert (Hle : forall b : fixed I, fixed_inv size b -> length (fixed_view b) <= size).
  { intros b [Hs Hl]. unfold fixed_view. rewrite sview_length by exact Hs. destruct Hs as (_ & Hp & _). lia. }
  unfold src_read, src_len in Hr. rewrite (q_len (fixed_queue size) _ Hi) in Hr. cbn [run_bind] in Hr. pose proof (Hle _ Hi) as Hv. replace (length (fixed_view (src_buffer st)) <? n) with true in Hr by (symmetry; apply Nat.ltb_lt; lia).
  destruct (fill_requested_spec (fixed_queue size) Ho n st Hi) as (b' & s' & r & new & e & en & H1 & _ & H3 & _). rewrite H1 in Hr. cbn [run_bind] in Hr. destruct r; [|discriminate].
  cbn [src_with src_buffer src_source] in Hr. rewrite (q_deref (fixed_queue size) _ H3) in Hr. cbn [run_bind] in Hr.
  destruct (op_consume (fixed_ops I) b' _) as [b2| | |]; try discriminate. cbn [run_bind] in Hr. inversion Hr. rewrite firstn_length. specialize (Hle _ H3). lia.
Qed.
Theorem C59_read_refuted : forall St I T E (ds : data_source St I) size b0 s data n fuel, obeys ds ->
  fixed_with_size size = Done b0 -> size < n -> size < length data ->
  executed ds (fixed_ops I) fuel (Call (Read n) (fun _ => Finish) : program I T E) (src_with_buffer s b0) <> meant (Call (Read n) (fun _ => Finish) : program I T E) data.
Proof.
  intros St I T E ds size b0 s data n fuel Ho Hb Hn Hd H. destruct (fixed_fresh _ _ _ Hb) as (Hsz & Hi & Hv).
  assert (Hr : forall st, fixed_inv size (src_buffer st) -> forall st' l, again_read ds (fixed_ops I) fuel n st = Done (st', l) -> length l <= size).
  { clear - Ho Hn. induction fuel as [|fuel IH]; intros st Hi st' l H; [discriminate|]. cbn [again_read] in H.
    destruct (src_read ds (fixed_ops I) n st) as [[st1 r]| | |] eqn:Er; try discriminate. cbn [run_bind] in H. destruct r as [l1|x].
    - inversion H; subst. eapply fixed_reads_little; eauto.
    - destruct (src_read_spec (fixed_queue size) Ho n st Hi) as (b' & s' & new & e & en & r & _ & H2 & H3 & _). rewrite H3 in Er. inversion Er; subst. eapply IH; [|exact H]. exact H2. }
  cbn [executed serve meant meaning] in H. destruct (again_read ds (fixed_ops I) fuel n (src_with_buffer s b0)) as [[st' l]| | |] eqn:Er; cbn [run_bind] in H; try discriminate.
  apply Hr in Er; [|exact Hi]. inversion H; subst l. rewrite firstn_length in Er. lia.
Qed.

(** A program of all five calls: a message of a length, a body, a line and the rest, over a buffer of two items. *)
Definition message : program nat nat (error nat) :=
  Call (Parse any) (fun a =>
  Call (Read_exact (match a with Parsed (inl n) => n | _ => 0 end)) (fun _ =>
  Call (Read_until (Nat.eqb 0)) (fun _ =>
  Call (Read 2) (fun _ =>
  Call (Read_to_end (fun n => n)) (fun _ =>
  Call (Parse any) (fun _ => Finish)))))).
Lemma any_proper : forall size rest, 0 < size -> suits (fun m => m <= size) rest (any : parser nat nat (error nat)).
Proof.
  intros size rest Hs. apply C31_safe_suits; [apply s_any|intros [l [|x b]]; discriminate|exists 1; reflexivity|].
  intros [|x b] c m E H; inversion H; subst. cbn [length Nat.add]. lia.
Qed.
Lemma message_is_proper : forall size data, 2 <= size -> proper_program (fun m => m <= size) True message data.
Proof.
  intros size data Hs. unfold message.
  repeat (constructor; [first [apply any_proper; lia|exact Logic.I|cbn [proper]; lia]|intros ? ? _]). constructor.
Qed.
Example C59_case : let cs := [Some [3; 7]; None; Some [8; 9; 5]; None; Some [6; 0; 1]; Some [2; 3]; None; Some [4; 5]] in
  schedule cs [3; 7; 8; 9; 5; 6; 0; 1; 2; 3; 4; 5] 3 /\
  exists b0, fixed_with_size 2 = Done b0 /\
  executed demo_source (fixed_ops nat) 40 message (src_with_buffer cs b0) =
    Done [Parsed (inl 3); Exactly (Some [7; 8; 9]); Items [5; 6; 0]; Items [1; 2]; Items [3; 4; 5]; Parsed (inr SEndOfInput)] /\
  meant message [3; 7; 8; 9; 5; 6; 0; 1; 2; 3; 4; 5] =
    Done [Parsed (inl 3); Exactly (Some [7; 8; 9]); Items [5; 6; 0]; Items [1; 2]; Items [3; 4; 5]; Parsed (inr SEndOfInput)].
Proof.
  cbn zeta. split; [split; [|split; reflexivity]|].
  - cbn. intros H. repeat (destruct H as [H|H]; [discriminate|]). exact H.
  - eexists. split; [reflexivity|]. split; vm_compute; reflexivity.
Qed.
(** The body is cut short: [UnexpectedEof]. *)
Example C59_case_short : exists b0, fixed_with_size 2 = Done b0 /\
  executed demo_source (fixed_ops nat) 40 message (src_with_buffer [Some [5; 1]; None; Some [2]] b0) =
    Done [Parsed (inl 5); Exactly None; Items []; Items []; Items []; Parsed (inr SEndOfInput)].
Proof. eexists. split; [reflexivity|]. vm_compute. reflexivity. Qed.
(** A GrowingBuffer after one item has been parsed. *)
Example C59_case_later : exists st, history demo_source (growing_ops nat) anything [Some [9; 3; 7]; None; Some [8; 9; 0]; Some [4]] (growing_with_limit 0 (fun _ => 0) 0) st [9] /\
  src_auto st = true /\ 0 < src_capacity (growing_ops nat) st /\
  executed demo_source (growing_ops nat) 40 (Call (Read_until (Nat.eqb 0)) (fun _ => message)) st =
    Done [Items [3; 7; 8; 9; 0]; Parsed (inl 4); Exactly None; Items []; Items []; Items []; Parsed (inr SEndOfInput)].
Proof.
  pose proof (h_new demo_source (growing_ops nat) anything [Some [9; 3; 7]; None; Some [8; 9; 0]; Some [4]] (growing_with_limit 0 (fun _ => 0) 0)) as H.
  eapply (fun s o st' r h => @h_parse _ _ _ _ _ _ _ _ s o _ _ any st' r h (any_well_behaved _) Logic.I) in H; [|vm_compute; reflexivity].
  eexists. split; [exact H|]. split; [reflexivity|]. split; [cbn; lia|]. vm_compute. reflexivity.
Qed.
Print Assumptions C59_fixed.
Print Assumptions C59_growing.
Print Assumptions C59_growing_later.
Print Assumptions C59_handover.
Print Assumptions C59_until_refuted.
Print Assumptions C59_read_refuted.
