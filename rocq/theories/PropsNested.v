(** Property theorems C77: a Source reading from a Source. *)
From Coq Require Import List Bool Arith Lia.
From Verif Require Import Base Parsers Buffer Stream StdIo SpecBase SpecBuffer SpecSafe SpecStream SpecMixed SpecAnyBuffer BaseProofs BufferProofs StreamProofs SimProofs SafeProofs HistoryProofs
  PropsBuffer PropsStream PropsMixed PropsAnyBuffer Nested.
Import ListNotations.

Set Implicit Arguments.

(** The inner Source has [rest] still to give: what is in its buffer and what its own source delivers. *)
Definition gives {St I B} (inv : B -> Prop) (view : B -> list I) (R : St -> list I -> nat -> Prop) (st : src St B) (rest : list I) (e : nat) : Prop :=
  inv (src_buffer st) /\ exists d, R (src_source st) d e /\ rest = view (src_buffer st) ++ d.

Section Nested.
  Context {St I B : Type}.
  Variable ds : data_source St I.
  Variables (ops : buffer_ops I B) (inv : B -> Prop) (view : B -> list I) (room : B -> nat) (fits : nat -> Prop).
  Hypothesis Q : queue_like ops inv view room fits.
  Hypothesis Ho : obeys ds.
  Hypothesis Hone : fits 1.
  Variable R : St -> list I -> nat -> Prop.
  Hypothesis HR : delivers ds R.

  Lemma nested_delivers : delivers (nested ds ops) (gives inv view R).
  Proof.
    intros st rest e (Hi & d & Hd & ->) n st' w r H. cbn [nested read_data_source ds_read] in H. unfold src_reader in H.
    destruct (src_read_spec Q Ho n st Hi) as (b' & s' & new & k & en & r' & H1 & H2 & H3 & H4). rewrite H3 in H.
    destruct (reads_delivers HR H1 _ _ Hd) as (d1 & -> & G2 & G3 & G4). destruct r' as [out|x]; inversion H; subst; clear H.
    - destruct H4 as (-> & -> & H5 & _ & H6). rewrite Nat.sub_0_r in G3. set (l := view (src_buffer st) ++ new) in *.
      split; [rewrite firstn_length; lia|]. exists (firstn n l), (skipn n l ++ d1). rewrite !app_assoc, firstn_skipn. split; [reflexivity|]. split; [reflexivity|].
      split; [unfold writes; rewrite <- (map_length Some (firstn n l)), firstn_all; reflexivity|]. split.
      + split; [exact H2|]. exists d1. split; [exact G3|]. cbn [src_with src_buffer]. rewrite H5. reflexivity.
      + intros Hz. destruct n as [|n]; [auto|right]. apply length_zero_iff_nil in Hz. destruct H6 as [H6|(_ & H6 & [->|H7])].
        * rewrite Hz in H6. discriminate.
        * rewrite Hz in H6. rewrite (G4 eq_refl), app_nil_r. symmetry. exact H6.
        * rewrite Hz in H7. exfalso. apply H7. exact Hone.
    - destruct H4 as (-> & H4 & _). exists (e - 1). split; [lia|]. split; [exact H2|]. exists d1. split; [exact G3|]. cbn [src_with src_buffer]. rewrite H4, <- app_assoc. reflexivity.
  Qed.
End Nested.

Lemma nested_obeys : forall St I B (ds : data_source St I) (ops : buffer_ops I B), obeys (nested ds ops).
Proof.
  intros St I B ds ops st n st' w k H. cbn [nested read_data_source ds_read] in H. unfold src_reader in H. destruct (src_read ds ops n st) as [[st1 [l|x]]| | |] eqn:Er; inversion H; subst.
  split.
  - unfold src_read in Er. destruct (src_len ops st) as [m| | |]; try discriminate. cbn [run_bind] in Er.
    destruct (if m <? n then fill_requested ds ops n st else Done (st, IoOk 0)) as [[st2 [y|y]]| | |]; cbn [run_bind] in Er; try discriminate.
    destruct (op_deref ops (src_buffer st2)) as [data| | |]; cbn [run_bind] in Er; try discriminate. destruct (op_consume ops (src_buffer st2) _) as [b2| | |]; cbn [run_bind] in Er; try discriminate.
    inversion Er; subst. rewrite firstn_length. lia.
  - exists l. split; [reflexivity|]. unfold writes. rewrite <- (map_length Some l), firstn_all. reflexivity.
Qed.

(** * What the inner Source is *)

(** Over any buffer that behaves as a queue and holds at least one item, a Source is a proper reader of what it has not yet handed out: at the start, and after any use. *)
Theorem C77_reader : forall St I B (ds : data_source St I) (ops : buffer_ops I B) fits b0 R, obeys ds -> delivers ds R -> lawful ops fits b0 -> fits 1 ->
  obeys (nested ds ops) /\ exists R', delivers (nested ds ops) R' /\
    (forall s data e, R s data e -> R' (src_with_buffer s b0) data e) /\
    (forall s data e st out, R s data e -> history ds ops anything s b0 st out -> exists rest e', data = out ++ rest /\ e' <= e /\ R' st rest e').
Proof.
  intros St I B ds ops fits b0 R Ho HR (inv & view & room & Q & Hi & Hv) Hone. split; [apply nested_obeys|]. exists (gives inv view R). split; [eapply nested_delivers; eauto|]. split.
  - intros s data e Hs. split; [exact Hi|]. exists data. split; [exact Hs|]. cbn [src_with_buffer src_buffer]. rewrite Hv. reflexivity.
  - intros s data e st out Hs H. destruct (history_inv Q Ho Hi Hv H) as (Hi' & new & k & en & H1 & H2). destruct (reads_delivers HR H1 _ _ Hs) as (d & -> & G2 & G3 & _).
    exists (view (src_buffer st) ++ d), (e - k). rewrite H2, <- app_assoc. split; [reflexivity|]. split; [lia|]. split; [exact Hi'|]. eauto.
Qed.
Print Assumptions C77_reader.

(** Reading it never panics, and touches no uninitialised memory. *)
Theorem C77_returns : forall St I B (ds : data_source St I) (ops : buffer_ops I B) fits b0 s st out n, obeys ds -> lawful ops fits b0 -> history ds ops anything s b0 st out ->
  exists st' r, src_read ds ops n st = Done (st', r) /\
    ds_read (nested ds ops) st n = (st', match r with IoOk l => List.map Some l | IoErr _ => [] end, match r with IoOk l => IoOk (length l) | IoErr e => IoErr e end).
Proof.
  intros St I B ds ops fits b0 s st out n Ho (inv & view & room & Q & Hi & Hv) H. destruct (history_inv Q Ho Hi Hv H) as (Hi' & _).
  destruct (src_read_spec Q Ho n st Hi') as (b' & s' & new & k & en & r & _ & _ & H3 & _). exists (src_with st b' s'), r. split; [exact H3|].
  cbn [nested read_data_source ds_read]. unfold src_reader. rewrite H3. destruct r; reflexivity.
Qed.
Print Assumptions C77_returns.

(** * What the outer one answers *)

(** Programs over a Source which reads from a Source get the answers they would get on the data as one slice. *)
Theorem C77_answers : forall St I B1 B2 T E (ds : data_source St I) (ops1 : buffer_ops I B1) (ops2 : buffer_ops I B2) fits1 fits2 b1 b2 R s data e (c : script I T E) fuel,
  obeys ds -> delivers ds R -> R s data e -> lawful ops1 fits1 b1 -> fits1 1 -> lawful ops2 fits2 b2 -> fits2 1 ->
  script_suits fits2 (slice_new data) c -> 2 * length data + e + 2 <= fuel ->
  on_source (nested ds ops1) ops2 fuel c (src_with_buffer (src_with_buffer s b1) b2) = on_slice c (slice_new data).
Proof.
  intros St I B1 B2 T E ds ops1 ops2 fits1 fits2 b1 b2 R s data e c fuel Ho HR Hs L1 H1 L2 H2 Hc Hf.
  destruct (C77_reader Ho HR L1 H1) as (Ho' & R' & HR' & HR0 & _). exact (proj1 (@C63_answers _ _ _ _ _ _ ops2 fits2 b2 R' _ data e c fuel Ho' HR' (HR0 _ _ _ Hs) L2 H2 Hc Hf)).
Qed.
Print Assumptions C77_answers.

(** The inner one may have been used before in any way: the outer one goes on where it stands, with what was already read into the inner buffer. *)
Theorem C77_handover : forall St I B1 B2 T E (ds : data_source St I) (ops1 : buffer_ops I B1) (ops2 : buffer_ops I B2) fits1 fits2 b1 b2 R s data e st out (c : script I T E) fuel,
  obeys ds -> delivers ds R -> R s data e -> lawful ops1 fits1 b1 -> fits1 1 -> history ds ops1 anything s b1 st out -> lawful ops2 fits2 b2 -> fits2 1 ->
  script_suits fits2 (slice_new (skipn (length out) data)) c -> 2 * length data + e + 2 <= fuel ->
  on_source (nested ds ops1) ops2 fuel c (src_with_buffer st b2) = on_slice c (slice_new (skipn (length out) data)).
Proof.
  intros St I B1 B2 T E ds ops1 ops2 fits1 fits2 b1 b2 R s data e st out c fuel Ho HR Hs L1 H1 Hh L2 H2 Hc Hf.
  destruct (C77_reader Ho HR L1 H1) as (Ho' & R' & HR' & _ & HR0). destruct (HR0 _ _ _ _ _ Hs Hh) as (rest & e' & -> & He & Hr).
  rewrite skipn_app, skipn_all, Nat.sub_diag in *. cbn [skipn app] in *. rewrite app_length in Hf.
  exact (proj1 (@C63_answers _ _ _ _ _ _ ops2 fits2 b2 R' _ rest e' c fuel Ho' HR' Hr L2 H2 Hc ltac:(lia))).
Qed.
Print Assumptions C77_handover.

(** Parsing and reading by turns on the outer one. *)
Theorem C77_programs : forall St I B1 B2 T E (ds : data_source St I) (ops1 : buffer_ops I B1) (ops2 : buffer_ops I B2) fits1 fits2 b1 b2 R s data e (c : program I T E) fuel,
  obeys ds -> delivers ds R -> R s data e -> lawful ops1 fits1 b1 -> fits1 1 -> lawful_open ops2 fits2 b2 -> fits2 1 ->
  proper_program fits2 True c data -> 2 * length data + e + 2 <= fuel ->
  executed (nested ds ops1) ops2 fuel c (src_with_buffer (src_with_buffer s b1) b2) = meant c data.
Proof.
  intros St I B1 B2 T E ds ops1 ops2 fits1 fits2 b1 b2 R s data e c fuel Ho HR Hs L1 H1 L2 H2 Hc Hf.
  destruct (C77_reader Ho HR L1 H1) as (Ho' & R' & HR' & HR0 & _). exact (@C63_programs _ _ _ _ _ _ ops2 fits2 b2 R' _ data e c fuel Ho' HR' (HR0 _ _ _ Hs) L2 H2 Hc Hf).
Qed.
Print Assumptions C77_programs.

(** * The condition is needed *)

(** Over a GrowingBuffer which has reached its limit the inner Source reports an end where there is none; the outer one takes it for the end of the data. *)
Theorem C77_limit_refuted : exists st, history demo_source (growing_ops nat) anything [Some [1; 2; 3; 4]; Some [5]] (growing_with_limit 0 (fun _ => 0) 2) st [1; 2; 3; 4] /\
  on_source (nested demo_source (growing_ops nat)) (growing_ops nat) 20 (forever (any : parser nat nat (error nat)) 2) (src_with_buffer st (growing_with_limit 0 (fun _ => 0) 0)) = Done [inr SEndOfInput; inr SEndOfInput] /\
  on_slice (forever (any : parser nat nat (error nat)) 2) (slice_new (skipn 4 [1; 2; 3; 4; 5])) = Done [inl 5; inr SEndOfInput].
Proof.
  pose proof (h_new demo_source (growing_ops nat) anything [Some [1; 2; 3; 4]; Some [5]] (growing_with_limit 0 (fun _ => 0) 2)) as H.
  eapply h_read with (n := 4) in H; [|vm_compute; reflexivity]. eexists. split; [exact H|]. split; vm_compute; reflexivity.
Qed.
Print Assumptions C77_limit_refuted.

(** * Cases *)

(** Any parser for single items through three Sources with buffers of any sizes; the data comes in any pieces. *)
Example C77_case_any : forall n size alloc page size3 b1 cs, fixed_with_size size = Done b1 -> 0 < page -> 0 < size3 -> ~ In (Some []) cs ->
  on_source (nested (nested demo_source (fixed_ops nat)) (growing_ops nat)) (paged_ops nat page size3) (2 * length (chunks_data cs) + chunks_errors cs + 2)
    (forever (any : parser nat nat (error nat)) n) (src_with_buffer (src_with_buffer (src_with_buffer cs b1) (growing_with_limit 0 alloc 0)) paged_new) =
  on_slice (forever (any : parser nat nat (error nat)) n) (slice_new (chunks_data cs)).
Proof.
  intros n size alloc page size3 b1 cs Hb Hp Hs Hcs. destruct (fixed_fresh _ _ _ Hb) as (Hsz & _). destruct (C63_fixed _ Hb) as [L1 _]. destruct (@C63_paged nat page size3 Hp) as [L3 _].
  destruct (@C77_reader _ _ _ demo_source (fixed_ops nat) _ b1 schedule (@chunk_obeys nat) (@chunk_delivers nat) (tight_lawful L1) Hsz) as (Ho & R & HR & HR0 & _).
  eapply (@C77_answers _ _ _ _ _ _ _ (growing_ops nat) (paged_ops nat page size3) (fun _ => True) _ _ _ R _ _ (chunks_errors cs) _ _ Ho HR);
    [apply HR0; repeat split; auto|apply tight_lawful, C63_growing|exact Logic.I|apply tight_lawful; exact L3|exact Hs| |apply le_n].
  generalize (slice_new (chunks_data cs)). induction n as [|n IH]; intros s; [apply ss_stop|]. apply ss_next; [|intros; apply IH].
  apply C31_safe_suits; [apply s_any|intros [l [|x b]]; discriminate|exists 1; reflexivity|].
  intros [|x b] c m E H; inversion H; subst. cbn [length Nat.add]. lia.
Qed.
(** A length is read from the inner Source, with items behind it in its buffer; the outer one reads on from there. *)
Example C77_case_handover : let cs := [Some [2; 7; 8]; None; Some [9]; Some [3]] in
  match fixed_with_size 4, fixed_with_size 2 with
  | Done b1, Done b2 =>
      match insist demo_source (fixed_ops nat) 20 (any : parser nat nat (error nat)) (src_with_buffer cs b1) with
      | Done (st, inl n) => n = 2 /\ src_len (fixed_ops nat) st = Done 2 /\
          on_source (nested demo_source (fixed_ops nat)) (fixed_ops nat) 20 (forever (take n : parser nat (list nat) (error nat)) 3) (src_with_buffer st b2) = Done [inl [7; 8]; inl [9; 3]; inr SEndOfInput]
      | _ => False
      end
  | _, _ => False
  end.
Proof. vm_compute. repeat split. Qed.
