(** Property theorems C28 (Source), C30 to C38. *)
From Coq Require Import List Bool Arith Lia.
From Verif Require Import Base Parsers Combinators Buffer Stream SpecBase SpecBuffer SpecSafe SpecStream
  SafeProofs StableProofs BufferProofs StreamProofs SimProofs HistoryProofs PropsSafe PropsBuffer.
Import ListNotations.

(** Any parser may be used. *)
Definition anything {I : Type} : forall T E : Type, parser I T E -> Prop := fun _ _ _ => True.

Lemma fixed_fresh : forall I size (b0 : fixed I), fixed_with_size size = Done b0 -> 0 < size /\ fixed_inv size b0 /\ fixed_view b0 = [].
Proof.
  intros I size b0 H. pose proof H as H0. unfold fixed_with_size in H. destruct (Nat.ltb_spec 0 size) as [Hs|Hs]; cbn in H; [|discriminate].
  destruct (@fixed_new I size Hs) as (b1 & E & Hi & Hv & _). rewrite H0 in E. inversion E; subst. auto.
Qed.
Lemma growing_fresh : forall I alloc, growing_inv0 (growing_with_limit (I := I) 0 alloc 0) /\ growing_view (growing_with_limit (I := I) 0 alloc 0) = [].
Proof. intros I alloc. destruct (@growing_new I 0 alloc 0) as (Hi & Hv & _). repeat split; auto; try apply Hi. Qed.

(** * C28, for Source *)
Section Safety.
  Context {St I B : Type}.
  Variable ds : data_source St I.
  Variables (ops : buffer_ops I B) (inv : B -> Prop) (view : B -> list I) (room : B -> nat) (fits : nat -> Prop).
  Hypothesis Q : queue_like ops inv view room fits.
  Hypothesis Ho : obeys ds.

  Definition all_calls_fine (st : src St B) : Prop :=
    (exists l, src_view ops st = Done l) /\
    (exists st' r, src_fill ds ops st = Done (st', r)) /\
    (forall n, exists st' r, src_read ds ops n st = Done (st', r)) /\
    (exists st' r, src_fill_buf ds ops st = Done (st', r)) /\
    (forall l n, src_view ops st = Done l -> n <= length l -> exists st', src_consume ops n st = Done st') /\
    (forall T E (p : parser I T E), well_behaved p -> (forall i, p i <> Panic) -> (forall i, p i <> NoFuel) -> exists st' r, src_parse ds ops p st = Done (st', r)) /\
    (forall T E (p : parser I T E), well_behaved p -> src_parse ds ops p st <> Undefined).

  Lemma calls_fine : forall st, inv (src_buffer st) -> all_calls_fine st.
  Proof.
    intros st Hi. split; [exists (view (src_buffer st)); apply (q_deref Q _ Hi)|].
    split; [destruct (src_fill_spec Q Ho st Hi) as (st' & r & ? & ? & ? & H & _); eauto|].
    split; [intros n; destruct (src_read_spec Q Ho n st Hi) as (b' & s' & ? & ? & ? & r & _ & _ & H & _); eauto|].
    split; [destruct (src_fill_buf_spec Q Ho st Hi) as (b' & s' & ? & ? & ? & r & _ & _ & H & _); eauto|].
    split; [intros l n Hl Hn; unfold src_view in Hl; rewrite (q_deref Q _ Hi) in Hl; inversion Hl; subst; destruct (src_consume_spec Q st Hi Hn) as (b' & H & _); eauto|].
    split.
    - intros T E p Hw Hp Hf. destruct (src_parse_spec Q Ho st Hi Hw) as [(st1 & x & H1 & H2 & H3 & H4)|(st1 & H1 & [(H2 & H3 & H4)|[H2 [(H3 & H4)|[(H3 & H4)|(st' & out & H3 & _)]]]])]; eauto.
      + exfalso. exact (Hp _ H3).
      + exfalso. exact (Hf _ H3).
    - intros T E p Hw. destruct (src_parse_spec Q Ho st Hi Hw) as [(st1 & x & H1 & H2 & H3 & H4)|(st1 & H1 & [(H2 & H3 & H4)|[H2 [(H3 & H4)|[(H3 & H4)|(st' & out & H3 & _)]]]])]; congruence.
  Qed.
End Safety.

Theorem C28_source_fixed : forall St I (ds : data_source St I) size b0 s0 st out, obeys ds -> fixed_with_size size = Done b0 ->
  history ds (fixed_ops I) anything s0 b0 st out -> all_calls_fine ds (fixed_ops I) st.
Proof.
  intros St I ds size b0 s0 st out Ho Hb H. destruct (fixed_fresh _ _ _ Hb) as (Hs & Hi & Hv).
  destruct (history_inv (fixed_queue size) Ho Hi Hv H) as [Hist _]. exact (calls_fine ds _ _ _ _ _ (fixed_queue size) Ho st Hist).
Qed.
Theorem C28_source_growing : forall St I (ds : data_source St I) cap0 alloc limit s0 st out, obeys ds ->
  history ds (growing_ops I) anything s0 (growing_with_limit cap0 alloc limit) st out -> all_calls_fine ds (growing_ops I) st.
Proof.
  intros St I ds cap0 alloc limit s0 st out Ho H. destruct (@growing_new I cap0 alloc limit) as (Hi & Hv & _).
  destruct (history_inv growing_queue Ho Hi Hv H) as [Hist _]. exact (calls_fine ds _ _ _ _ _ growing_queue Ho st Hist).
Qed.
Print Assumptions C28_source_fixed.
Print Assumptions C28_source_growing.

(** * C30 *)
Theorem C30_fixed : forall St I (ds : data_source St I) size b0 s0 st out, obeys ds -> fixed_with_size size = Done b0 ->
  history (logged ds) (fixed_ops I) anything (mkLog s0 [] false) b0 st out ->
  exists v, src_view (fixed_ops I) st = Done v /\ log_items (src_source st) = out ++ v.
Proof.
  intros St I ds size b0 s0 st out Ho Hb H. destruct (fixed_fresh _ _ _ Hb) as (Hs & Hi & Hv).
  destruct (history_sound (fixed_queue size) Ho Hi Hv H) as [H1 H2]. exists (fixed_view (src_buffer st)). split; [apply (q_deref (fixed_queue size) _ H1)|assumption].
Qed.
Theorem C30_growing : forall St I (ds : data_source St I) cap0 alloc limit s0 st out, obeys ds ->
  history (logged ds) (growing_ops I) anything (mkLog s0 [] false) (growing_with_limit cap0 alloc limit) st out ->
  exists v, src_view (growing_ops I) st = Done v /\ log_items (src_source st) = out ++ v.
Proof.
  intros St I ds cap0 alloc limit s0 st out Ho H. destruct (@growing_new I cap0 alloc limit) as (Hi & Hv & _).
  destruct (history_sound growing_queue Ho Hi Hv H) as [H1 H2]. exists (growing_view (src_buffer st)). split; [apply (q_deref growing_queue _ H1)|assumption].
Qed.
Print Assumptions C30_fixed.
Print Assumptions C30_growing.

Lemma any_well_behaved : forall I, well_behaved (@any I).
Proof. intros I. apply built_well_behaved. apply b_any. Qed.
Lemma take_well_behaved : forall I n, well_behaved (@take I n).
Proof. intros I n. apply built_well_behaved. apply b_take. Qed.

(** A history: parse, an I/O error, parse, read, fill_buf, consume, over reads of various sizes. *)
Example C30_case : exists b0 st, fixed_with_size 3 = Done b0 /\
  history (logged demo_source) (fixed_ops nat) anything (mkLog [Some [1; 2]; None; Some [3]; Some [4; 5; 6; 7]] [] false) b0 st [1; 2; 3; 4; 5] /\
  src_view (fixed_ops nat) st = Done [6; 7] /\ log_items (src_source st) = [1; 2; 3; 4; 5; 6; 7].
Proof.
  destruct (@fixed_new nat 3) as (b0 & E & _); [lia|]. exists b0. vm_compute in E. inversion E; subst b0.
  pose proof (h_new (logged demo_source) (fixed_ops nat) anything (mkLog [Some [1; 2]; None; Some [3]; Some [4; 5; 6; 7]] [] false) (mkFixed [None; None; None] 0 0)) as H.
  eapply (fun s o st' r h => @h_parse _ _ _ _ _ _ _ _ s o _ _ any st' r h (any_well_behaved _) Logic.I) in H; [|vm_compute; reflexivity].
  eapply (fun s o st' r h => @h_parse _ _ _ _ _ _ _ _ s o _ _ (take 2) st' r h (take_well_behaved _ 2) Logic.I) in H; [|vm_compute; reflexivity].
  eapply (fun s o st' r h => @h_parse _ _ _ _ _ _ _ _ s o _ _ (take 2) st' r h (take_well_behaved _ 2) Logic.I) in H; [|vm_compute; reflexivity].
  eapply (fun s o st' r h => @h_parse _ _ _ _ _ _ _ _ s o _ _ (take 2) st' r h (take_well_behaved _ 2) Logic.I) in H; [|vm_compute; reflexivity].
  eapply h_read with (n := 1) in H; [|vm_compute; reflexivity].
  eapply h_fill_buf in H; [|vm_compute; reflexivity].
  eapply h_consume with (n := 1) in H; [|vm_compute; reflexivity|cbn; lia|vm_compute; reflexivity].
  eexists. split; [reflexivity|]. split; [exact H|]. split; reflexivity.
Qed.

(** * C31 *)
Section SimInit.
  Context {St I B : Type}.
  Variable ds : data_source St I.
  Variables (ops : buffer_ops I B) (inv : B -> Prop) (view : B -> list I) (room : B -> nat) (fits : nat -> Prop).
  Hypothesis Q : queue_like ops inv view room fits.
  Hypothesis Ho : obeys ds.
  Hypothesis Hone : fits 1.
  Variable R : St -> list I -> nat -> Prop.
  Hypothesis HR : delivers ds R.

  Lemma sim_fresh : forall T E (c : script I T E) s b0 data e fuel, inv b0 -> view b0 = [] -> R s data e ->
    script_suits fits (slice_new data) c -> 2 * length data + e + 2 <= fuel ->
    on_source ds ops fuel c (src_with_buffer s b0) = on_slice c (slice_new data).
  Proof.
    intros T E c s b0 data e fuel Hi Hv Hr Hc Hf. eapply on_source_spec with (d := data) (e := e); eauto; [cbn; lia| |lia].
    unfold stands. cbn [src_with_buffer src_buffer src_source src_auto src_eoi src_incomplete src_request slice_new].
    split; [assumption|]. split; [assumption|]. split; [rewrite Hv; reflexivity|]. split; [reflexivity|]. split; [discriminate|]. intros _.
    eapply (q_fits Q); [|exact Hone]. cbn [Nat.max]. apply Nat.le_min_l.
  Qed.

  Lemma sim_fresh_full : forall T E (c : script I T E) s b0 data e fuel, inv b0 -> view b0 = [] -> R s data e ->
    script_suits fits (slice_new data) c -> 2 * length data + e + 2 <= fuel ->
    same_run (Forall2 shows_part_of) (on_source_full ds ops fuel c (src_with_buffer s b0)) (on_slice_full c (slice_new data)).
  Proof.
    intros T E c s b0 data e fuel Hi Hv Hr Hc Hf. eapply on_source_full_spec with (d := data) (e := e); eauto; [cbn; lia| |lia].
    unfold stands. cbn [src_with_buffer src_buffer src_source src_auto src_eoi src_incomplete src_request slice_new].
    split; [assumption|]. split; [assumption|]. split; [rewrite Hv; reflexivity|]. split; [reflexivity|]. split; [discriminate|]. intros _.
    eapply (q_fits Q); [|exact Hone]. cbn [Nat.max]. apply Nat.le_min_l.
  Qed.
End SimInit.

Theorem C31_growing : forall St I T E (ds : data_source St I) R alloc s data e (c : script I T E) fuel, obeys ds -> delivers ds R -> R s data e ->
  script_suits (fun _ => True) (slice_new data) c -> 2 * length data + e + 2 <= fuel ->
  on_source ds (growing_ops I) fuel c (src_with_buffer s (growing_with_limit 0 alloc 0)) = on_slice c (slice_new data).
Proof.
  intros St I T E ds R alloc s data e c fuel Ho HR Hs Hc Hf. destruct (growing_fresh I alloc) as [Hi Hv].
  eapply (sim_fresh ds _ _ _ _ _ growing_queue0 Ho Logic.I R HR); eauto.
Qed.
Theorem C31_fixed : forall St I T E (ds : data_source St I) R size b0 s data e (c : script I T E) fuel, obeys ds -> delivers ds R -> R s data e ->
  fixed_with_size size = Done b0 -> script_suits (fun m => m <= size) (slice_new data) c -> 2 * length data + e + 2 <= fuel ->
  on_source ds (fixed_ops I) fuel c (src_with_buffer s b0) = on_slice c (slice_new data).
Proof.
  intros St I T E ds R size b0 s data e c fuel Ho HR Hs Hb Hc Hf. destruct (fixed_fresh _ _ _ Hb) as (Hsz & Hi & Hv).
  eapply (sim_fresh ds _ _ _ _ _ (fixed_queue size) Ho Hsz R HR); eauto.
Qed.
(** The answers with the slices of the errors: on the Source an error shows the part of the remaining data which has been read. *)
Theorem C31_slices : forall St I T E (ds : data_source St I) R alloc s data e (c : script I T E) fuel, obeys ds -> delivers ds R -> R s data e ->
  script_suits (fun _ => True) (slice_new data) c -> 2 * length data + e + 2 <= fuel ->
  same_run (Forall2 shows_part_of) (on_source_full ds (growing_ops I) fuel c (src_with_buffer s (growing_with_limit 0 alloc 0)))
    (on_slice_full c (slice_new data)).
Proof.
  intros St I T E ds R alloc s data e c fuel Ho HR Hs Hc Hf. destruct (growing_fresh I alloc) as [Hi Hv].
  eapply (sim_fresh_full ds _ _ _ _ _ growing_queue0 Ho Logic.I R HR); eauto.
Qed.
Theorem C31_slices_fixed : forall St I T E (ds : data_source St I) R size b0 s data e (c : script I T E) fuel, obeys ds -> delivers ds R -> R s data e ->
  fixed_with_size size = Done b0 -> script_suits (fun m => m <= size) (slice_new data) c -> 2 * length data + e + 2 <= fuel ->
  same_run (Forall2 shows_part_of) (on_source_full ds (fixed_ops I) fuel c (src_with_buffer s b0)) (on_slice_full c (slice_new data)).
Proof.
  intros St I T E ds R size b0 s data e c fuel Ho HR Hs Hb Hc Hf. destruct (fixed_fresh _ _ _ Hb) as (Hsz & Hi & Hv).
  eapply (sim_fresh_full ds _ _ _ _ _ (fixed_queue size) Ho Hsz R HR); eauto.
Qed.
Print Assumptions C31_slices.
Print Assumptions C31_slices_fixed.
(** Any chunking and fault schedule of a reader. *)
Theorem C31_chunks : forall I T E alloc cs (c : script I T E), ~ In (Some []) cs -> script_suits (fun _ => True) (slice_new (chunks_data cs)) c ->
  exists fuel, on_source (read_data_source chunk_read) (growing_ops I) fuel c (src_with_buffer cs (growing_with_limit 0 alloc 0)) = on_slice c (slice_new (chunks_data cs)).
Proof.
  intros I T E alloc cs c Hne Hc. exists (2 * length (chunks_data cs) + chunks_errors cs + 2).
  eapply C31_growing; eauto using chunk_obeys, chunk_delivers. repeat split; auto.
Qed.
(** Any iterator that ends for good. *)
Theorem C31_iterator : forall It I T E (next : It -> option I * It) alloc it data (c : script I T E), exactly next it data 0 -> script_suits (fun _ => True) (slice_new data) c ->
  on_source (iter_data_source next) (growing_ops I) (2 * length data + 2) c (src_with_buffer it (growing_with_limit 0 alloc 0)) = on_slice c (slice_new data).
Proof. intros It I T E next alloc it data c Hd Hc. eapply C31_growing; eauto using iter_obeys, iter_delivers. lia. Qed.
(** Stream-safe parsers suit, provided they do not answer without any input at the very end. *)
Theorem C31_safe_suits : forall I T E (fits : nat -> Prop) rest (p : parser I T E), safe p -> (forall i, p i <> NoFuel) ->
  (rest = [] -> exists n, p (mkInput false []) = Incomplete n) ->
  (forall b c n, rest = b ++ c -> p (mkInput false b) = Incomplete n -> fits (Nat.min (length b + n) (length rest))) ->
  suits fits rest p.
Proof.
  intros I T E fits rest p Hs Hn Hr Hf. split; auto.
  - apply safe_stable. assumption.
  - apply built_well_behaved, safe_built. assumption.
Qed.
(** For programs over an unlimited buffer made of stream-safe parsers that want input: no further condition. *)
Inductive safe_script {I T E} : script I T E -> Prop :=
| safe_stop : safe_script Stop
| safe_next : forall p k, safe p -> (forall i, p i <> NoFuel) -> (exists n, p (mkInput false []) = Incomplete n) ->
    (forall r, safe_script (k r)) -> safe_script (Next p k).
Theorem C31_safe : forall St I T E (ds : data_source St I) R alloc s data e (c : script I T E) fuel, obeys ds -> delivers ds R -> R s data e ->
  safe_script c -> 2 * length data + e + 2 <= fuel ->
  on_source ds (growing_ops I) fuel c (src_with_buffer s (growing_with_limit 0 alloc 0)) = on_slice c (slice_new data).
Proof.
  intros St I T E ds R alloc s data e c fuel Ho HR Hs Hc Hf. eapply C31_growing; eauto.
  generalize (slice_new data). clear Hs Hf. induction Hc as [|p k Hp Hn Hi Hk IH]; intros ss; [apply ss_stop|]. apply ss_next; [|intros; apply IH].
  apply C31_safe_suits; auto.
Qed.
Print Assumptions C31_growing.
Print Assumptions C31_fixed.
Print Assumptions C31_chunks.
Print Assumptions C31_iterator.
Print Assumptions C31_safe_suits.
Print Assumptions C31_safe.

(** A program: numbers separated by zeros, one call each, until the first non-answer. *)
Definition item : parser nat (list nat) (error nat) :=
  fun i => bind (fun e => e) (take_while1 true (fun c => 0 <? c) i) (fun i w => bind (fun e => e) (token true Nat.eqb 0 i) (fun i _ => ret w i)).
Lemma item_safe : safe item.
Proof. apply s_bind with (f := fun i w => bind (fun e => e) (token true Nat.eqb 0 i) (fun i _ => ret w i)); [apply s_take_while1|]. intros w. apply s_bind with (f := fun i _ => ret w i); [apply s_token|intros; apply s_ret]. Qed.
Lemma item_total : forall i, item i <> NoFuel.
Proof.
  assert (H : forall (w : list nat) i, bind (fun e : error nat => e) (token true Nat.eqb 0 i) (fun i _ => ret w i) <> NoFuel).
  { intros w [l [|x b]]; unfold token; cbn; [discriminate|]. destruct x; cbn; discriminate. }
  intros i. unfold item, take_while1. destruct (position _ _) as [[|n]|]; cbn; try discriminate.
  - match goal with |- map_err _ ?x <> _ => pose proof (H (firstn (S n) (buf i)) (replace i (skipn (S n) (buf i)))) as G; destruct x eqn:Ex; try discriminate; contradiction end.
  - destruct (_ && _); cbn; try discriminate. 
Qed.
Fixpoint items (n : nat) : script nat (list nat) (error nat) :=
  match n with
  | 0 => Stop
  | S n => Next item (fun r => match r with inl _ => items n | inr (SParseError _ _) => items n | _ => Stop end)
  end.
Lemma items_safe : forall n, safe_script (items n).
Proof.
  induction n as [|n IH]; cbn [items]; constructor; auto using item_safe, item_total; [exists 1; reflexivity|].
  intros [v|[]]; auto using safe_stop.
Qed.
Example C31_case : let cs := [Some [3; 4]; None; Some [0]; Some [5; 0; 6]; None; None; Some [7; 8; 9; 0]; Some [1]] in
  safe_script (items 9) /\ schedule cs [3; 4; 0; 5; 0; 6; 7; 8; 9; 0; 1] 3 /\
  on_source demo_source (growing_ops nat) 27 (items 9) (src_with_buffer cs (growing_with_limit 0 (fun _ => 0) 0)) =
    Done [inl [3; 4]; inl [5]; inl [6; 7; 8; 9]; inr (SIncomplete 2)] /\
  on_slice (items 9) (slice_new [3; 4; 0; 5; 0; 6; 7; 8; 9; 0; 1]) = Done [inl [3; 4]; inl [5]; inl [6; 7; 8; 9]; inr (SIncomplete 2)].
Proof.
  split; [apply items_safe|]. split; [|split; vm_compute; reflexivity]. split; [|split; reflexivity].
  cbn. intros H. repeat (destruct H as [H|H]; [discriminate|]). exact H.
Qed.
Example C31_case_slices :
  on_source_full demo_source (growing_ops nat) 27 (items 2) (src_with_buffer [Some [0; 4]; Some [0; 5]] (growing_with_limit 0 (fun _ => 0) 0)) =
    Done [inr (SParseError [0] Unexpected); inr (SParseError [0] Unexpected)] /\
  on_slice_full (items 2) (slice_new [0; 4; 0; 5]) = Done [inr (SParseError [0; 4; 0; 5] Unexpected); inr (SParseError [0; 4; 0; 5] Unexpected)].
Proof. split; vm_compute; reflexivity. Qed.
(** A FixedSizeBuffer of one item is enough for [any]. *)
Example C31_case_fixed : forall n cs, ~ In (Some []) cs -> exists b0 fuel, fixed_with_size 1 = Done b0 /\
  on_source demo_source (fixed_ops nat) fuel (nat_rect (fun _ => script nat nat (error nat)) Stop (fun _ c => Next any (fun _ => c)) n) (src_with_buffer cs b0) =
  on_slice (nat_rect (fun _ => script nat nat (error nat)) Stop (fun _ c => Next any (fun _ => c)) n) (slice_new (chunks_data cs)).
Proof.
  intros n cs Hcs. eexists. exists (2 * length (chunks_data cs) + chunks_errors cs + 2). split; [reflexivity|].
  eapply C31_fixed with (size := 1) (R := schedule); [apply chunk_obeys|apply chunk_delivers|repeat split; auto|reflexivity| |apply le_n].
  generalize (slice_new (chunks_data cs)). induction n as [|n IH]; intros s; [apply ss_stop|]. apply ss_next; [|intros; apply IH].
  apply C31_safe_suits; [apply s_any|intros [l [|x b]]; discriminate|exists 1; reflexivity|].
  intros [|x b] c m E H; inversion H; subst. apply Nat.le_min_l.
Qed.
(** The conditions are needed: a FixedSizeBuffer which is too small reports the end in the middle of the data, *)
Theorem C31_fixed_full_refuted : exists b0, fixed_with_size 2 = Done b0 /\
  on_source demo_source (fixed_ops nat) 99 (items 9) (src_with_buffer [Some [3; 4]; Some [5; 0; 6; 0]] b0) = Done [inr (SIncomplete 3)] /\
  on_slice (items 9) (slice_new [3; 4; 5; 0; 6; 0]) = Done [inl [3; 4; 5]; inl [6]; inr SEndOfInput].
Proof. eexists. split; [reflexivity|]. split; vm_compute; reflexivity. Qed.
(** a GrowingBuffer with a limit does so as soon as its capacity exceeds the limit, whether it has data or not, *)
Theorem C31_limit_refuted : 
  on_source demo_source (growing_ops nat) 99 (items 9) (src_with_buffer [Some [3; 0]; Some [4; 0]; Some [5; 0]] (growing_with_limit 0 (fun _ => 3) 2)) =
    Done [inl [3]; inl [4]; inr SEndOfInput] /\
  on_slice (items 9) (slice_new [3; 0; 4; 0; 5; 0]) = Done [inl [3]; inl [4]; inl [5]; inr SEndOfInput].
Proof. split; vm_compute; reflexivity. Qed.
(** and a parser which succeeds without input never meets the end of input on a Source. *)
Fixpoint forever {T E} (p : parser nat T E) (n : nat) : script nat T E :=
  match n with
  | 0 => Stop
  | S n => Next p (fun _ => forever p n)
  end.
Theorem C31_no_input_refuted : forall n,
  on_source demo_source (growing_ops nat) 9 (Next any (fun _ => forever (ret 0) n)) (src_with_buffer [Some [1]] (growing_with_limit 0 (fun _ => 0) 0)) =
    Done (inl 1 :: repeat (inl 0) n) /\
  on_slice (Next any (fun _ => forever (ret 0) n)) (slice_new [1]) = Done (inl 1 :: repeat (inr (SEndOfInput : stream_error nat (error nat))) n).
Proof.
  intros n. cbn [on_source on_slice]. split.
  - match goal with |- context [insist ?a ?b ?c ?d ?e] => destruct (insist a b c d e) as [[st r]| | |] eqn:E end; vm_compute in E; inversion E. cbn [run_bind].
    match goal with |- context [on_source _ _ _ _ ?x] => set (st1 := x) end.
    assert (H : on_source demo_source (growing_ops nat) 9 (forever (ret 0) n) st1 = Done (repeat (inl 0 : sres nat nat (error nat)) n)).
    { clear E H0 H1. clear st r. induction n as [|n IH]; [reflexivity|]. cbn [forever on_source]. 
      assert (E1 : insist demo_source (growing_ops nat) 9 (ret 0 : parser nat nat (error nat)) st1 = Done (st1, inl 0)) by (vm_compute; reflexivity). rewrite E1. cbn [run_bind]. rewrite IH. reflexivity. }
    rewrite H. reflexivity.
  - cbn. assert (H : on_slice (forever (ret 0 : parser nat nat (error nat)) n) (mkSliceStream 1 [1]) = Done (repeat (inr SEndOfInput) n)).
    { induction n as [|n IH]; [reflexivity|]. cbn [forever on_slice]. cbn. rewrite IH. reflexivity. }
    rewrite H. reflexivity.
Qed.
(** Over an unlimited buffer the program may start at any point of a history. *)
Theorem C31_resume : forall St I T E (ds : data_source St I) R alloc s0 data e st out (c : script I T E) fuel, obeys ds -> delivers ds R -> R s0 data e ->
  history ds (growing_ops I) anything s0 (growing_with_limit 0 alloc 0) st out -> src_auto st = true ->
  script_suits (fun _ => True) (slice_new (skipn (length out) data)) c -> 2 * length data + e + 2 <= fuel ->
  on_source ds (growing_ops I) fuel c st = on_slice c (slice_new (skipn (length out) data)).
Proof.
  intros St I T E ds R alloc s0 data e st out c fuel Ho HR Hs Hh Ha Hc Hf. destruct (growing_fresh I alloc) as [Hi Hv].
  destruct (history_stands growing_queue0 Ho HR _ _ Hi Hv Hh Hs) as (d & e1 & H1 & H2 & H3 & H4 & H5).
  assert (Hsk : skipn (length out) data = growing_view (src_buffer st) ++ d) by (rewrite H3, skipn_app, skipn_all, Nat.sub_diag; reflexivity).
  eapply (on_source_spec growing_queue0 Ho HR) with (d := d) (e := e1); auto; [cbn; lia| |].
  - split; [assumption|]. split; [assumption|]. cbn [rest_of slice_new ss_pos ss_slice skipn]. split; [assumption|]. auto.
  - rewrite H3, !app_length in Hf. lia.
Qed.
Print Assumptions C31_fixed_full_refuted.
Print Assumptions C31_limit_refuted.
Print Assumptions C31_no_input_refuted.
Print Assumptions C31_resume.

(** * C32 *)
Section Retry.
  Context {St I B : Type}.
  Variable ds : data_source St I.
  Variables (ops : buffer_ops I B) (inv : B -> Prop) (view : B -> list I) (room : B -> nat) (fits : nat -> Prop).
  Hypothesis Q : queue_like ops inv view room fits.
  Hypothesis Ho : obeys ds.

  (** After [Retry]: what the next call, with any parser, does. *)
  Definition progresses (st : src St B) : Prop :=
    forall T E (p : parser I T E) st' T' E' (q : parser I T' E') v st2 out, well_behaved p -> asks p -> well_behaved q ->
      src_parse ds ops p st = Done (st', inr SRetry) -> src_auto st = true -> src_view ops st' = Done v -> src_parse ds ops q st' = Done (st2, out) ->
      (exists x, out = inr (SIoError x)) \/ out = inr SEndOfInput \/
      exists l new rest, src_view ops st2 = Done rest /\ ran q l (v ++ new) out rest /\ (l = true \/ new <> []).

  Lemma retry_progresses : forall st, inv (src_buffer st) -> progresses st.
  Proof.
    intros st Hi T E p st' T' E' q v st2 out Hw Ha Hw' Hp Hauto Hv Hq. destruct (call_ran Q Ho st Hi Hw Hp) as (new & e & en & H1 & H2 & H3 & _ & H4).
    assert (Hv' : v = view (src_buffer st')) by (unfold src_view in Hv; rewrite (q_deref Q _ H2) in Hv; congruence). subst v.
    assert (Hr : src_incomplete st' = true /\ length (view (src_buffer st')) < src_request st').
    { destruct H4 as [(x & H4 & _)|[(_ & _ & H4 & _)|(_ & _ & H4 & H5 & _)]]; try discriminate. unfold ran in H4.
      destruct (p (mkInput (src_eoi st') (view (src_buffer st) ++ new))) as [j x|b x|n| |] eqn:Ep; try contradiction; destruct H4 as [H4 H6]; try discriminate.
      destruct (src_eoi st'); [discriminate|]. destruct (H5 n eq_refl eq_refl) as [H7 H8]. split; [assumption|]. rewrite H8, H6, app_length.
      destruct n; [exfalso; exact (proj1 (Ha _ _) Ep)|lia]. }
    destruct Hr as [Hinc Hreq]. destruct (call_ran Q Ho st' H2 Hw' Hq) as (new2 & e2 & en2 & G1 & G2 & G3 & _ & G4).
    destruct G4 as [(x & G4 & _)|[(_ & _ & G4 & _)|(_ & _ & G4 & _ & G5)]]; [eauto|auto|]. right. right.
    exists (src_eoi st2), new2, (view (src_buffer st2)). split; [apply (q_deref Q _ G2)|]. split; [assumption|].
    destruct (G5 Hinc ltac:(congruence)) as [G6|G6]; [auto|right]. intros ->. cbn [length] in G6. lia.
  Qed.
End Retry.
Theorem C32_fixed : forall St I (ds : data_source St I) size b0 s0 st out, obeys ds -> fixed_with_size size = Done b0 ->
  history ds (fixed_ops I) anything s0 b0 st out -> progresses ds (fixed_ops I) st.
Proof.
  intros St I ds size b0 s0 st out Ho Hb H. destruct (fixed_fresh _ _ _ Hb) as (Hs & Hi & Hv).
  destruct (history_inv (fixed_queue size) Ho Hi Hv H) as [Hist _]. exact (retry_progresses ds _ _ _ _ _ (fixed_queue size) Ho st Hist).
Qed.
Theorem C32_growing : forall St I (ds : data_source St I) cap0 alloc limit s0 st out, obeys ds ->
  history ds (growing_ops I) anything s0 (growing_with_limit cap0 alloc limit) st out -> progresses ds (growing_ops I) st.
Proof.
  intros St I ds cap0 alloc limit s0 st out Ho H. destruct (@growing_new I cap0 alloc limit) as (Hi & Hv & _).
  destruct (history_inv growing_queue Ho Hi Hv H) as [Hist _]. exact (retry_progresses ds _ _ _ _ _ growing_queue Ho st Hist).
Qed.
(** At most one call per item and per error left, and two more. *)
Theorem C32_bounded_fixed : forall St I T E (ds : data_source St I) R size b0 s0 data e st out (p : parser I T E), obeys ds -> delivers ds R -> R s0 data e ->
  fixed_with_size size = Done b0 -> history ds (fixed_ops I) anything s0 b0 st out -> src_auto st = true -> well_behaved p -> asks p ->
  exists st' r, insist ds (fixed_ops I) (length data + e + 2) p st = Done (st', r).
Proof.
  intros St I T E ds R size b0 s0 data e st out p Ho HR Hs Hb Hh Ha Hw Hask. destruct (fixed_fresh _ _ _ Hb) as (Hsz & Hi & Hv).
  destruct (history_delivers (fixed_queue size) Ho HR _ _ Hi Hv Hh Hs) as (d & e1 & H1 & H2 & H3 & H4).
  eapply (insist_ends (fixed_queue size) Ho HR _ _ _ H4 Hw Hask Ha H1). unfold todo. rewrite H3, !app_length. destruct (_ && _); lia.
Qed.
Theorem C32_bounded_growing : forall St I T E (ds : data_source St I) R cap0 alloc limit s0 data e st out (p : parser I T E), obeys ds -> delivers ds R -> R s0 data e ->
  history ds (growing_ops I) anything s0 (growing_with_limit cap0 alloc limit) st out -> src_auto st = true -> well_behaved p -> asks p ->
  exists st' r, insist ds (growing_ops I) (length data + e + 2) p st = Done (st', r).
Proof.
  intros St I T E ds R cap0 alloc limit s0 data e st out p Ho HR Hs Hh Ha Hw Hask. destruct (@growing_new I cap0 alloc limit) as (Hi & Hv & _).
  destruct (history_delivers growing_queue Ho HR _ _ Hi Hv Hh Hs) as (d & e1 & H1 & H2 & H3 & H4).
  eapply (insist_ends growing_queue Ho HR _ _ _ H4 Hw Hask Ha H1). unfold todo. rewrite H3, !app_length. destruct (_ && _); lia.
Qed.
(** A parser asking for no further items is retried without end. *)
Theorem C32_asks_nothing_refuted : forall fuel,
  insist demo_source (growing_ops nat) fuel (fun _ => Incomplete 0 : pres nat unit unit) (src_with_buffer [Some [1]] (growing_with_limit 0 (fun _ => 0) 0)) = Stuck.
Proof.
  intros [|fuel]; [reflexivity|]. cbn [insist].
  match goal with |- context [src_parse ?a ?b ?c ?d] => destruct (src_parse a b c d) as [[st r]| | |] eqn:E end; vm_compute in E; inversion E. cbn [run_bind].
  match goal with |- insist _ _ _ _ ?x = _ => set (st1 := x) end. clear. induction fuel as [|fuel IH]; [reflexivity|]. cbn [insist].
  assert (E1 : src_parse demo_source (growing_ops nat) (fun _ => Incomplete 0 : pres nat unit unit) st1 = Done (st1, inr SRetry)) by (vm_compute; reflexivity).
  rewrite E1. cbn [run_bind]. exact IH.
Qed.
Print Assumptions C32_fixed.
Print Assumptions C32_growing.
Print Assumptions C32_bounded_fixed.
Print Assumptions C32_bounded_growing.
Print Assumptions C32_asks_nothing_refuted.
Lemma item_asks : asks item.
Proof.
  intros l b. repeat split; [| |apply item_total]; unfold item, take_while1; cbn [buf last];
  (destruct (position _ _) as [[|n]|] eqn:Ep; cbn; try discriminate;
   [match goal with |- context [token _ _ _ ?i] => destruct i as [l' [|x r]] end; unfold token; cbn; try discriminate; destruct x; cbn; discriminate
   |destruct (_ && _); cbn; try discriminate]).
Qed.
Example C32_case : asks item /\ well_behaved item /\
  exists st', src_parse demo_source (growing_ops nat) item (src_with_buffer [Some [3; 4]; None; Some [0; 1]] (growing_with_limit 0 (fun _ => 0) 0)) = Done (st', inr SRetry).
Proof. split; [apply item_asks|]. split; [apply built_well_behaved, safe_built, item_safe|]. eexists. vm_compute. reflexivity. Qed.

(** * C33 *)
Section Ended.
  Context {St I B : Type}.
  Variable ds : data_source St I.
  Variables (ops : buffer_ops I B) (inv : B -> Prop) (view : B -> list I) (room : B -> nat) (fits : nat -> Prop).
  Hypothesis Q : queue_like ops inv view room fits.
  Hypothesis Ho : obeys ds.
  Variable admits : forall T E, parser I T E -> Prop.
  Hypothesis Hfull : forall b, inv b -> fits (length (view b)).
  Hypothesis Hone : fits 1.
  Hypothesis Hadmits : forall T E (p : parser I T E), @admits T E p -> forall l b n, p (mkInput l b) = Incomplete n -> fits (length b) -> fits (length b + n).

  (** Where the end is reported, or a slice marked as last is given to a parser, the source has reported its end. *)
  Definition ends_truly (st : src (log St I) B) : Prop :=
    (forall T E (p : parser I T E) st', well_behaved p -> admits T E p -> src_parse (logged ds) ops p st = Done (st', inr SEndOfInput) -> log_ended (src_source st') = true) /\
    (admits _ _ spy -> forall st' d, src_parse (logged ds) ops spy st = Done (st', inl (true, d)) -> log_ended (src_source st') = true) /\
    (forall T E (p : parser I T E) st' n, well_behaved p -> admits T E p -> src_parse (logged ds) ops p st = Done (st', inr (SIncomplete n)) -> log_ended (src_source st') = true).

  Lemma history_ends_truly : forall s0 b0 st out, inv b0 -> view b0 = [] -> history (logged ds) ops admits (mkLog s0 [] false) b0 st out -> ends_truly st.
  Proof.
    intros s0 b0 st out Hi0 Hv0 H. pose proof (obeys_logged Ho) as Hol. destruct (history_ended Q Ho Hfull Hone Hadmits Hi0 Hv0 H) as [Hi _].
    assert (Hend : forall T E (p : parser I T E) st' r, well_behaved p -> admits T E p -> src_parse (logged ds) ops p st = Done (st', r) -> src_eoi st' = true -> log_ended (src_source st') = true).
    { intros T E p st' r Hw Ha Hp He. destruct (telling_parse (logged ds) ops p st Hp) as [r' Hp']. pose proof (h_parse H Hw Ha Hp') as H1.
      destruct (history_ended Q Ho Hfull Hone Hadmits Hi0 Hv0 H1) as (_ & _ & H2). auto. }
    split; [|split].
    - intros T E p st' Hw Ha Hp. eapply Hend; eauto. destruct (call_ran Q Hol st Hi Hw Hp) as (new & e & en & _ & _ & _ & _ & [(x & G & _)|[(_ & G & _)|(_ & _ & G & _)]]); [discriminate|assumption|].
      unfold ran in G. destruct (p _); try contradiction; destruct G as [G _]; try discriminate. destruct (src_eoi st'); discriminate.
    - intros Ha st' d Hp. assert (Hw : well_behaved (@spy I)) by (intros i; cbn; split; [reflexivity|exists []; reflexivity]). eapply Hend; eauto.
      destruct (call_ran Q Hol st Hi Hw Hp) as (new & e & en & _ & _ & _ & _ & [(x & G & _)|[(_ & G & _)|(_ & _ & G & _)]]); [discriminate|assumption|].
      cbn in G. destruct G as [G _]. congruence.
    - intros T E p st' n Hw Ha Hp. eapply Hend; eauto. destruct (call_ran Q Hol st Hi Hw Hp) as (new & e & en & _ & _ & _ & _ & [(x & G & _)|[(_ & G & _)|(_ & _ & G & _)]]); [discriminate|assumption|].
      unfold ran in G. destruct (p _); try contradiction; destruct G as [G _]; try discriminate. destruct (src_eoi st'); [reflexivity|discriminate].
  Qed.
End Ended.
(** Parsers which never need more than [size] items. *)
Definition needs_at_most {I} (size : nat) : forall T E : Type, parser I T E -> Prop :=
  fun T E p => forall l b n, p (mkInput l b) = Incomplete n -> length b <= size -> length b + n <= size.

(** Missing: parsers that need more than the buffer holds; there the claim is false ([C33_fixed_full_refuted]). *)
Theorem C33_fixed_partial : forall St I (ds : data_source St I) size b0 s0 st out, obeys ds -> fixed_with_size size = Done b0 ->
  history (logged ds) (fixed_ops I) (needs_at_most size) (mkLog s0 [] false) b0 st out -> ends_truly ds (fixed_ops I) (needs_at_most size) st.
Proof.
  intros St I ds size b0 s0 st out Ho Hb H. destruct (fixed_fresh _ _ _ Hb) as (Hs & Hi & Hv).
  refine (history_ends_truly ds _ _ _ _ _ (fixed_queue size) Ho _ _ Hs _ _ _ _ _ Hi Hv H); [|intros T E p Hp; exact Hp].
  intros b [Hib Hl]. unfold fixed_view. rewrite sview_length by assumption. destruct Hib as (Hu & Hp & _). lia.
Qed.
(** Missing: buffers with a limit; there the claim is false ([C33_limit_refuted]). *)
Theorem C33_growing_partial : forall St I (ds : data_source St I) alloc s0 st out, obeys ds ->
  history (logged ds) (growing_ops I) anything (mkLog s0 [] false) (growing_with_limit 0 alloc 0) st out -> ends_truly ds (growing_ops I) anything st.
Proof.
  intros St I ds alloc s0 st out Ho H. destruct (growing_fresh I alloc) as [Hi Hv].
  refine (history_ends_truly ds _ _ _ _ _ growing_queue0 Ho _ _ Logic.I _ _ _ _ _ Hi Hv H); auto.
Qed.
Print Assumptions C33_fixed_partial.
Print Assumptions C33_growing_partial.
Example C33_case : exists st st', history (logged demo_source) (growing_ops nat) anything (mkLog [Some [1; 2]; Some [3]] [] false) (growing_with_limit 0 (fun _ => 0) 0) st [1; 2] /\
  src_parse (logged demo_source) (growing_ops nat) (take 2) st = Done (st', inr SRetry) /\ log_ended (src_source st') = false /\
  exists st'', src_parse (logged demo_source) (growing_ops nat) (take 2) st' = Done (st'', inr (SIncomplete 2)) /\ log_ended (src_source st'') = true.
Proof.
  pose proof (h_new (logged demo_source) (growing_ops nat) anything (mkLog [Some [1; 2]; Some [3]] [] false) (growing_with_limit 0 (fun _ => 0) 0)) as H.
  eapply (fun s o st' r h => @h_parse _ _ _ _ _ _ _ _ s o _ _ (take 2) st' r h (take_well_behaved _ 2) Logic.I) in H; [|vm_compute; reflexivity].
  eapply (fun s o st' r h => @h_parse _ _ _ _ _ _ _ _ s o _ _ (take 2) st' r h (take_well_behaved _ 2) Logic.I) in H; [|vm_compute; reflexivity].
  eexists _, _. split; [exact H|]. split; [vm_compute; reflexivity|]. split; [reflexivity|]. eexists. split; [vm_compute; reflexivity|reflexivity].
Qed.
(** A full FixedSizeBuffer, and a GrowingBuffer over its limit, report the end though more would come. *)
Theorem C33_fixed_full_refuted : exists b0 st st', fixed_with_size 2 = Done b0 /\
  history (logged demo_source) (fixed_ops nat) anything (mkLog [Some [3; 4; 5]] [] false) b0 st [] /\
  src_parse (logged demo_source) (fixed_ops nat) spy st = Done (st', inl (true, [3; 4])) /\ log_ended (src_source st') = false /\
  exists st'', src_parse (logged demo_source) (fixed_ops nat) any (src_set_autofill true (src_reset st')) = Done (st'', inl 3).
Proof.
  eexists. 
  pose proof (h_new (logged demo_source) (fixed_ops nat) anything (mkLog [Some [3; 4; 5]] [] false) (mkFixed [None; None] 0 0)) as H.
  eapply (fun s o st' r h => @h_parse _ _ _ _ _ _ _ _ s o _ _ (take 3) st' r h (take_well_behaved _ 3) Logic.I) in H; [|vm_compute; reflexivity].
  eapply (fun s o st' r h => @h_parse _ _ _ _ _ _ _ _ s o _ _ (take 3) st' r h (take_well_behaved _ 3) Logic.I) in H; [|vm_compute; reflexivity].
  eexists _, _. split; [reflexivity|]. split; [exact H|]. split; [vm_compute; reflexivity|]. split; [reflexivity|]. eexists. vm_compute. reflexivity.
Qed.
Theorem C33_limit_refuted : exists st st', history (logged demo_source) (growing_ops nat) anything (mkLog [Some [3; 4; 5; 6]; Some [7]] [] false) (growing_with_limit 0 (fun _ => 3) 2) st [3; 4; 5; 6] /\
  src_parse (logged demo_source) (growing_ops nat) (take 1) st = Done (st', inr SEndOfInput) /\ log_ended (src_source st') = false.
Proof.
  pose proof (h_new (logged demo_source) (growing_ops nat) anything (mkLog [Some [3; 4; 5; 6]; Some [7]] [] false) (growing_with_limit 0 (fun _ => 3) 2)) as H.
  eapply (fun s o st' r h => @h_parse _ _ _ _ _ _ _ _ s o _ _ (take 4) st' r h (take_well_behaved _ 4) Logic.I) in H; [|vm_compute; reflexivity].
  eapply (fun s o st' r h => @h_parse _ _ _ _ _ _ _ _ s o _ _ (take 1) st' r h (take_well_behaved _ 1) Logic.I) in H; [|vm_compute; reflexivity].
  eexists _, _. split; [exact H|]. split; [vm_compute; reflexivity|reflexivity].
Qed.
Print Assumptions C33_fixed_full_refuted.
Print Assumptions C33_limit_refuted.

(** * C34 *)
Section Position.
  Context {St I B : Type}.
  Variable ds : data_source St I.
  Variables (ops : buffer_ops I B) (inv : B -> Prop) (view : B -> list I) (room : B -> nat) (fits : nat -> Prop).
  Hypothesis Q : queue_like ops inv view room fits.
  Hypothesis Ho : obeys ds.

  (** [v]: unconsumed before the call; [v']: after it; what the call read is in the log. *)
  Definition stands_right (st : src St B) : Prop :=
    forall T E (p : parser I T E) v st' out, well_behaved p -> src_view ops st = Done v -> src_parse (logged ds) ops p (watch st) = Done (st', out) ->
    exists v', src_view ops st' = Done v' /\
      let d := v ++ log_items (src_source st') in
      match out with
      | inl x => exists l j, p (mkInput l d) = Data j x /\ v' = buf j
      | inr (SParseError b e) => exists l, p (mkInput l d) = Error b e /\ v' = b
      | inr (SIncomplete n) => exists m, p (mkInput true d) = Incomplete m /\ n = length d + m /\ v' = d
      | inr SRetry => exists m, p (mkInput false d) = Incomplete m /\ v' = d
      | inr SEndOfInput => d = [] /\ v' = []
      | inr (SIoError _) => v' = d
      end.

  Lemma call_stands_right : forall st, inv (src_buffer st) -> stands_right st.
  Proof.
    intros st Hi T E p v st' out Hw Hv Hp. pose proof (obeys_logged Ho) as Hol. unfold src_view in Hv. rewrite (q_deref Q _ Hi) in Hv. inversion Hv; subst v. clear Hv.
    destruct (call_ran Q Hol (watch st) Hi Hw Hp) as (new & e & en & H1 & H2 & _ & _ & H3). destruct (reads_logged H1) as [H4 _].
    cbn [watch src_source log_items app] in H4. cbn [watch src_buffer] in H3. exists (view (src_buffer st')). split; [apply (q_deref Q _ H2)|]. cbn zeta. rewrite H4.
    destruct H3 as [(x & -> & H3 & _)|[(_ & _ & -> & H3 & H5)|(_ & _ & H3 & _)]]; [assumption|auto|].
    unfold ran in H3. destruct (p _) as [j x|b x|n| |] eqn:Ep in H3; try contradiction; destruct H3 as [-> ->]; eauto.
    destruct (src_eoi st'); eauto.
  Qed.
End Position.
Theorem C34_fixed : forall St I (ds : data_source St I) size b0 s0 st out, obeys ds -> fixed_with_size size = Done b0 ->
  history ds (fixed_ops I) anything s0 b0 st out -> stands_right ds (fixed_ops I) st.
Proof.
  intros St I ds size b0 s0 st out Ho Hb H. destruct (fixed_fresh _ _ _ Hb) as (Hs & Hi & Hv).
  destruct (history_inv (fixed_queue size) Ho Hi Hv H) as [Hist _]. exact (call_stands_right ds _ _ _ _ _ (fixed_queue size) Ho st Hist).
Qed.
Theorem C34_growing : forall St I (ds : data_source St I) cap0 alloc limit s0 st out, obeys ds ->
  history ds (growing_ops I) anything s0 (growing_with_limit cap0 alloc limit) st out -> stands_right ds (growing_ops I) st.
Proof.
  intros St I ds cap0 alloc limit s0 st out Ho H. destruct (@growing_new I cap0 alloc limit) as (Hi & Hv & _).
  destruct (history_inv growing_queue Ho Hi Hv H) as [Hist _]. exact (call_stands_right ds _ _ _ _ _ growing_queue Ho st Hist).
Qed.
(** The states of a SliceStream over [data]. *)
Inductive slice_reached {I} (data : list I) : slice_stream I -> Prop :=
| sl_new : slice_reached data (slice_new data)
| sl_parse : forall s T E (p : parser I T E) s' out, slice_reached data s -> well_behaved p -> slice_parse p s = Done (s', out) -> slice_reached data s'.
Lemma slice_inv : forall I (data : list I) s, slice_reached data s -> ss_slice s = data /\ ss_pos s <= length data.
Proof.
  intros I data s H. induction H as [|s T E p s' out H IH Hw Hp]; [cbn; split; auto; lia|]. destruct IH as (H1 & H2).
  destruct (slice_parse_spec s ltac:(rewrite H1; exact H2) Hw) as [[G1 G2]|[_ [[_ G2]|[[_ G2]|(s1 & out1 & G2 & G3 & G4 & _)]]]]; rewrite Hp in G2; try discriminate; inversion G2; subst; auto.
  rewrite G3 in *. split; [reflexivity|assumption].
Qed.
(** A SliceStream stands at [skipn (ss_pos s) data], where the parser has left it, and answers what the parser has. *)
Theorem C34_slice : forall I T E (data : list I) s (p : parser I T E) s' out, slice_reached data s -> well_behaved p -> slice_parse p s = Done (s', out) ->
  let rest := skipn (ss_pos s) data in let rest' := skipn (ss_pos s') data in
  ss_slice s' = data /\ ss_pos s <= length data /\ ss_pos s' <= length data /\
  (rest = [] /\ out = inr SEndOfInput /\ s' = s \/ rest <> [] /\ ran p true rest out rest').
Proof.
  intros I T E data s p s' out H Hw Hp rest rest'. destruct (slice_inv _ _ _ H) as (H1 & H2).
  destruct (slice_inv _ _ _ (sl_parse _ _ _ _ _ _ _ H Hw Hp)) as (H3 & H4). split; [assumption|]. split; [assumption|]. split; [assumption|].
  assert (R1 : rest_of s = rest) by (unfold rest_of; rewrite H1; reflexivity). assert (R2 : rest_of s' = rest') by (unfold rest_of; rewrite H3; reflexivity).
  destruct (slice_parse_spec s ltac:(rewrite H1; exact H2) Hw) as [[G1 G2]|[G0 [[_ G2]|[[_ G2]|(s1 & out1 & G2 & G3 & G4 & G5)]]]]; rewrite Hp in G2; try discriminate; inversion G2.
  - left. rewrite <- R1. auto.
  - right. subst s1 out1. rewrite R1, R2 in *. split; [assumption|]. unfold ran. destruct (p (mkInput true rest)); cbn [whole] in G5; try contradiction; destruct G5 as [G5 G6]; split; auto.
    rewrite Nat.add_comm. assumption.
Qed.
Theorem C34_slice_answers : forall I T E (data : list I) s (p : parser I T E), slice_reached data s -> well_behaved p ->
  (forall i, p i <> Panic) -> (forall i, p i <> NoFuel) -> exists s' out, slice_parse p s = Done (s', out).
Proof.
  intros I T E data s p H Hw Hp Hf. destruct (slice_inv _ _ _ H) as (H1 & H2).
  destruct (slice_parse_spec s ltac:(rewrite H1; exact H2) Hw) as [[G1 G2]|[G0 [[G1 _]|[[G1 _]|(s1 & out1 & G2 & _)]]]]; eauto; exfalso; [eapply Hp|eapply Hf]; eassumption.
Qed.
(** A parser which hands back more than it was given makes the stream panic. *)
Theorem C34_longer_remainder : forall I T E (p : parser I T E) (data : list I) x d i v, data = x :: d -> p (mkInput true data) = Data i v -> length data < length (buf i) ->
  slice_parse p (slice_new data) = Panicked.
Proof.
  intros I T E p data x d i v -> Hp Hl. unfold slice_parse, slice_is_empty, slice_len, slice_new. cbn [ss_slice ss_pos]. rewrite usize_sub_ok by lia. cbn [run_bind length Nat.sub Nat.eqb].
  cbn [skipn]. rewrite Hp. unfold usize_sub. cbn [length] in *. destruct (Nat.leb_spec (length (buf i)) (S (length d))); [lia|reflexivity].
Qed.
Print Assumptions C34_fixed.
Print Assumptions C34_growing.
Print Assumptions C34_slice.
Print Assumptions C34_slice_answers.
Print Assumptions C34_longer_remainder.
Example C34_case_slice : exists s, slice_reached [1; 2; 3; 4] s /\ skipn (ss_pos s) [1; 2; 3; 4] = [3; 4] /\ exists s', slice_parse (take 3) s = Done (s', inr (SIncomplete 3)).
Proof.
  pose proof (sl_new [1; 2; 3; 4]) as H. eapply (fun s s' o h => @sl_parse _ _ s _ _ (take 2) s' o h (take_well_behaved _ 2)) in H; [|vm_compute; reflexivity].
  eexists. split; [exact H|]. split; [reflexivity|]. eexists. vm_compute. reflexivity.
Qed.
Example C34_case : exists b0 st st' e, fixed_with_size 3 = Done b0 /\ history demo_source (fixed_ops nat) anything [Some [1; 2]; None; Some [0; 5; 6]] b0 st [1] /\
  src_parse (logged demo_source) (fixed_ops nat) item (watch st) = Done (st', inr (SIoError e)) /\
  exists st2, src_parse (logged demo_source) (fixed_ops nat) item st' = Done (st2, inl [2]) /\ src_view (fixed_ops nat) st2 = Done [5].
Proof.
  eexists.
  pose proof (h_new demo_source (fixed_ops nat) anything [Some [1; 2]; None; Some [0; 5; 6]] (mkFixed [None; None; None] 0 0)) as H.
  eapply (fun s o st' r h => @h_parse _ _ _ _ _ _ _ _ s o _ _ any st' r h (any_well_behaved _) Logic.I) in H; [|vm_compute; reflexivity].
  eapply (fun s o st' r h => @h_parse _ _ _ _ _ _ _ _ s o _ _ (take 3) st' r h (take_well_behaved _ 3) Logic.I) in H; [|vm_compute; reflexivity].
  eexists _, _, _. split; [reflexivity|]. split; [exact H|]. split; [vm_compute; reflexivity|]. eexists. split; vm_compute; reflexivity.
Qed.

(** * C35 *)
Section Reading.
  Context {St I B : Type}.
  Variable ds : data_source St I.
  Variables (ops : buffer_ops I B) (inv : B -> Prop) (view : B -> list I) (room : B -> nat) (fits : nat -> Prop).
  Hypothesis Q : queue_like ops inv view room fits.
  Hypothesis Ho : obeys ds.

  (** The contract of [read] into a slice of [n]; [whole]: it may only stop short at the end, or where [short] items are got. *)
  Definition reads_right (short : nat -> Prop) (st : src St B) : Prop :=
    forall n v, src_view ops st = Done v -> exists st' r v', src_read (logged ds) ops n (watch st) = Done (st', r) /\ src_view ops st' = Done v' /\
      match r with
      | IoOk out => out ++ v' = v ++ log_items (src_source st') /\ length out <= n /\
          (length out = n \/ v' = [] /\ (log_ended (src_source st') = true \/ short (length out)))
      | IoErr _ => v' = v ++ log_items (src_source st')
      end.
  (** And that of [fill_buf]: the data is shown, none is consumed, and only at the end there is none. *)
  Definition shows_right (short : nat -> Prop) (st : src St B) : Prop :=
    forall v, src_view ops st = Done v -> exists st' r v', src_fill_buf (logged ds) ops (watch st) = Done (st', r) /\ src_view ops st' = Done v' /\
      v' = v ++ log_items (src_source st') /\
      match r with
      | IoOk out => out = v' /\ (out = [] -> log_ended (src_source st') = true \/ short 0)
      | IoErr _ => True
      end.

  Lemma call_reads_right : forall st (short : nat -> Prop), inv (src_buffer st) -> (forall k, ~ fits (S k) -> short k) -> reads_right short st.
  Proof.
    intros st short Hi Hshort n v Hv. pose proof (obeys_logged Ho) as Hol. unfold src_view in Hv. rewrite (q_deref Q _ Hi) in Hv. inversion Hv; subst v. clear Hv.
    destruct (src_read_spec Q Hol n (watch st) Hi) as (b' & s' & new & e & en & r & H1 & H2 & H3 & H4). destruct (reads_logged H1) as [H5 H6].
    cbn [watch src_source log_items log_ended app orb] in H5, H6. cbn [watch src_buffer] in H4. eexists _, r, (view b'). split; [exact H3|]. split; [apply (q_deref Q _ H2)|].
    cbn [src_with src_source]. rewrite H5, H6. destruct r as [out|x].
    - destruct H4 as (_ & H7 & H8 & _ & H9). rewrite H7, H8, firstn_skipn. split; [reflexivity|]. split; [rewrite firstn_length; lia|]. rewrite <- H7.
      destruct H9 as [H9|(H9 & H10 & H11)]; [auto|right]. split; [|destruct H11; auto]. apply skipn_all2. rewrite <- H10. lia.
    - apply H4.
  Qed.
  Lemma call_shows_right : forall st (short : nat -> Prop), inv (src_buffer st) -> (forall k, ~ fits (S k) -> short k) -> (op_capacity ops (src_buffer st) = 0 -> short 0) -> shows_right short st.
  Proof.
    intros st short Hi Hshort Hcap v Hv. pose proof (obeys_logged Ho) as Hol. unfold src_view in Hv. rewrite (q_deref Q _ Hi) in Hv. inversion Hv; subst v. clear Hv.
    destruct (src_fill_buf_spec Q Hol (watch st) Hi) as (b' & s' & new & e & en & r & H1 & H2 & H3 & H4 & H5). destruct (reads_logged H1) as [H6 H7].
    cbn [watch src_source log_items log_ended app orb] in H6, H7. cbn [watch src_buffer] in H4, H5. eexists _, r, (view b'). split; [exact H3|]. split; [apply (q_deref Q _ H2)|].
    cbn [src_with src_source]. rewrite H6, H7. split; [assumption|]. destruct r as [out|x]; [|trivial]. destruct H5 as (_ & H5 & H8). split; [assumption|].
    intros ->. cbn [length] in H8. destruct H8 as [H8|[H8|H8]]; [|auto|right; auto]. right. apply Hcap. lia.
  Qed.
End Reading.
Lemma fixed_cap : forall I size (b : fixed I), fixed_inv size b -> op_capacity (fixed_ops I) b = size.
Proof. intros I size b [_ H]. exact H. Qed.
(** FixedSizeBuffer: a read may also stop at the size of the buffer. *)
(** Missing: reads longer than the buffer, which stop at its size. *)
Theorem C35_fixed_partial : forall St I (ds : data_source St I) size b0 s0 st out, obeys ds -> fixed_with_size size = Done b0 ->
  history ds (fixed_ops I) anything s0 b0 st out -> reads_right ds (fixed_ops I) (fun k => 0 < size /\ size <= k) st /\ shows_right ds (fixed_ops I) (fun _ => False) st.
Proof.
  intros St I ds size b0 s0 st out Ho Hb H. destruct (fixed_fresh _ _ _ Hb) as (Hs & Hi & Hv).
  destruct (history_inv (fixed_queue size) Ho Hi Hv H) as [Hist _]. split.
  - apply (call_reads_right ds _ _ _ _ _ (fixed_queue size) Ho st _ Hist). intros. lia.
  - intros v Hvw. destruct (call_shows_right ds _ _ _ _ _ (fixed_queue size) Ho st (fun k => size <= k) Hist ltac:(cbn; intros; lia) ltac:(rewrite (fixed_cap _ _ _ Hist); cbn; lia) v Hvw) as (st' & r & v' & H1 & H2 & H3 & H4).
    exists st', r, v'. repeat split; auto. destruct r; [|trivial]. destruct H4 as [H4 H5]. split; [assumption|]. intros E. destruct (H5 E); [auto|lia].
Qed.
(** GrowingBuffer without limit: a read stops short only at the end; so does [fill_buf] once there is some capacity. *)
(** Missing: [fill_buf] at capacity 0 and buffers with a limit; there the claim is false ([C35_fill_buf_refuted], [C35_limit_refuted]). *)
Theorem C35_growing_partial : forall St I (ds : data_source St I) alloc s0 st out, obeys ds ->
  history ds (growing_ops I) anything s0 (growing_with_limit 0 alloc 0) st out ->
  reads_right ds (growing_ops I) (fun _ => False) st /\ shows_right ds (growing_ops I) (fun _ => src_capacity (growing_ops I) st = 0) st.
Proof.
  intros St I ds alloc s0 st out Ho H. destruct (growing_fresh I alloc) as [Hi Hv].
  destruct (history_inv growing_queue0 Ho Hi Hv H) as [Hist _]. split.
  - apply (call_reads_right ds _ _ _ _ _ growing_queue0 Ho st _ Hist). auto.
  - apply (call_shows_right ds _ _ _ _ _ growing_queue0 Ho st _ Hist); auto. intros k Hk. exfalso. apply Hk. exact Logic.I.
Qed.
(** A fresh GrowingBuffer has no capacity: [fill_buf] reports the end at once, without asking the source. *)
Theorem C35_fill_buf_refuted : exists st', src_fill_buf (logged demo_source) (growing_ops nat) (watch (src_with_buffer [Some [1; 2]] (growing_with_limit 0 (fun _ => 0) 0))) = Done (st', IoOk []) /\
  log_ended (src_source st') = false /\ log_state (src_source st') = [Some [1; 2]].
Proof. eexists. split; [vm_compute; reflexivity|]. split; reflexivity. Qed.
(** Over its limit a GrowingBuffer makes [read] report the end in the middle of the data. *)
Theorem C35_limit_refuted : exists st, history demo_source (growing_ops nat) anything [Some [1; 2; 3; 4]; Some [5]] (growing_with_limit 0 (fun _ => 0) 2) st [1; 2; 3; 4] /\
  exists st', src_read (logged demo_source) (growing_ops nat) 2 (watch st) = Done (st', IoOk []) /\ log_state (src_source st') = [Some [5]].
Proof.
  pose proof (h_new demo_source (growing_ops nat) anything [Some [1; 2; 3; 4]; Some [5]] (growing_with_limit 0 (fun _ => 0) 2)) as H.
  eapply h_read with (n := 4) in H; [|vm_compute; reflexivity]. eexists. split; [exact H|]. eexists. split; [vm_compute; reflexivity|reflexivity].
Qed.
Print Assumptions C35_fixed_partial.
Print Assumptions C35_growing_partial.
Print Assumptions C35_fill_buf_refuted.
Print Assumptions C35_limit_refuted.
Example C35_case : exists b0 st, fixed_with_size 3 = Done b0 /\ history demo_source (fixed_ops nat) anything [Some [1; 2]; None; Some [3; 4; 5]] b0 st [1] /\
  exists st' st2, src_read (logged demo_source) (fixed_ops nat) 3 (watch st) = Done (st', IoErr 0) /\ src_read (logged demo_source) (fixed_ops nat) 3 st' = Done (st2, IoOk [2; 3; 4]) /\
    exists st3 st4, src_fill_buf (logged demo_source) (fixed_ops nat) st2 = Done (st3, IoOk [5]) /\ src_read (logged demo_source) (fixed_ops nat) 5 st3 = Done (st4, IoOk [5]) /\ log_ended (src_source st4) = true.
Proof.
  eexists. pose proof (h_new demo_source (fixed_ops nat) anything [Some [1; 2]; None; Some [3; 4; 5]] (mkFixed [None; None; None] 0 0)) as H.
  eapply h_read with (n := 1) in H; [|vm_compute; reflexivity]. eexists. split; [reflexivity|]. split; [exact H|]. eexists _, _. split; [vm_compute; reflexivity|].
  split; [vm_compute; reflexivity|]. eexists _, _. split; [vm_compute; reflexivity|]. split; [vm_compute; reflexivity|reflexivity].
Qed.

(** * C36 *)
(** What [reset] keeps; and with [set_autofill(true)] after it, parsing goes on with the data as it stands - whatever happened before, also
    over a FixedSizeBuffer. *)
(** Missing: that automatic filling stays as configured, which is false ([C36_autofill_refuted]). *)
Theorem C36_fixed_partial : forall St I T E (ds : data_source St I) R size b0 s0 data e st out (c : script I T E) fuel, obeys ds -> delivers ds R -> R s0 data e ->
  fixed_with_size size = Done b0 -> history ds (fixed_ops I) anything s0 b0 st out ->
  src_view (fixed_ops I) (src_reset st) = src_view (fixed_ops I) st /\
  (script_suits (fun m => m <= size) (slice_new (skipn (length out) data)) c -> 2 * length data + e + 2 <= fuel ->
   on_source ds (fixed_ops I) fuel c (src_set_autofill true (src_reset st)) = on_slice c (slice_new (skipn (length out) data))).
Proof.
  intros St I T E ds R size b0 s0 data e st out c fuel Ho HR Hs Hb Hh. split; [reflexivity|]. intros Hc Hf. destruct (fixed_fresh _ _ _ Hb) as (Hsz & Hi & Hv).
  destruct (history_delivers (fixed_queue size) Ho HR _ _ Hi Hv Hh Hs) as (d & e1 & H1 & H2 & H3 & H4).
  assert (Hsk : skipn (length out) data = fixed_view (src_buffer st) ++ d) by (rewrite H3, skipn_app, skipn_all, Nat.sub_diag; reflexivity).
  eapply (on_source_spec (fixed_queue size) Ho HR) with (d := d) (e := e1); auto; [cbn; lia| |].
  - split; [assumption|]. split; [assumption|]. cbn [rest_of slice_new ss_pos ss_slice skipn]. split; [assumption|]. cbn. repeat split; discriminate.
  - rewrite H3, !app_length in Hf. lia.
Qed.
Theorem C36_growing_partial : forall St I T E (ds : data_source St I) R alloc s0 data e st out (c : script I T E) fuel, obeys ds -> delivers ds R -> R s0 data e ->
  history ds (growing_ops I) anything s0 (growing_with_limit 0 alloc 0) st out ->
  src_view (growing_ops I) (src_reset st) = src_view (growing_ops I) st /\
  (script_suits (fun _ => True) (slice_new (skipn (length out) data)) c -> 2 * length data + e + 2 <= fuel ->
   on_source ds (growing_ops I) fuel c (src_set_autofill true (src_reset st)) = on_slice c (slice_new (skipn (length out) data))).
Proof.
  intros St I T E ds R alloc s0 data e st out c fuel Ho HR Hs Hh. split; [reflexivity|]. intros Hc Hf.
  eapply C31_resume; eauto. apply h_autofill, h_reset. exact Hh.
Qed.
(** Switching automatic filling changes nothing else: switched back, the Source is the one it was. *)
Theorem C36_switch : forall St B v w (st : src St B), src_set_autofill (src_auto st) (src_set_autofill v st) = st /\ src_auto (src_set_autofill v st) = v /\
  src_set_autofill v (src_set_autofill w st) = src_set_autofill v st.
Proof. intros St B v w [s b q i e a]. repeat split. Qed.
(** But [reset] alone switches automatic filling off: a Source on which [any] works is retried without end after it. *)
Theorem C36_autofill_refuted : forall fuel, let st := src_with_buffer [Some [1; 2]] (growing_with_limit 0 (fun _ => 0) 0) in
  (exists st', src_parse demo_source (growing_ops nat) any st = Done (st', inl 1)) /\ insist demo_source (growing_ops nat) fuel any (src_reset st) = Stuck.
Proof.
  intros fuel st. split; [eexists; vm_compute; reflexivity|]. destruct fuel as [|fuel]; [reflexivity|]. cbn [insist].
  match goal with |- context [src_parse ?a ?b ?c ?d] => destruct (src_parse a b c d) as [[st' r]| | |] eqn:E end; vm_compute in E; inversion E. cbn [run_bind].
  match goal with |- insist _ _ _ _ ?x = _ => set (st1 := x) end. clear. induction fuel as [|fuel IH]; [reflexivity|]. cbn [insist].
  assert (E1 : src_parse demo_source (growing_ops nat) any st1 = Done (st1, inr SRetry)) by (vm_compute; reflexivity).
  rewrite E1. cbn [run_bind]. exact IH.
Qed.
Print Assumptions C36_fixed_partial.
Print Assumptions C36_growing_partial.
Print Assumptions C36_switch.
Print Assumptions C36_autofill_refuted.
(** After a false end of input over a full buffer, reading on. *)
Example C36_case : exists b0 st st', fixed_with_size 2 = Done b0 /\ history demo_source (fixed_ops nat) anything [Some [3; 4; 5]] b0 st [3; 4] /\ 
  src_parse demo_source (fixed_ops nat) any st = Done (st', inr SEndOfInput) /\
  on_source demo_source (fixed_ops nat) 10 (forever any 2) (src_set_autofill true (src_reset st')) = Done [inl 5; inr SEndOfInput].
Proof.
  eexists. pose proof (h_new demo_source (fixed_ops nat) anything [Some [3; 4; 5]] (mkFixed [None; None] 0 0)) as H.
  eapply (fun s o st' r h => @h_parse _ _ _ _ _ _ _ _ s o _ _ (take 3) st' r h (take_well_behaved _ 3) Logic.I) in H; [|vm_compute; reflexivity].
  eapply (fun s o st' r h => @h_parse _ _ _ _ _ _ _ _ s o _ _ (take 3) st' r h (take_well_behaved _ 3) Logic.I) in H; [|vm_compute; reflexivity].
  eapply h_consume with (n := 2) in H; [|vm_compute; reflexivity|cbn; lia|vm_compute; reflexivity].
  eexists _, _. split; [reflexivity|]. split; [exact H|]. split; vm_compute; reflexivity.
Qed.

(** * C37 *)
Theorem C37_agree : forall I T E (p : parser I T E) s, s <> [] -> well_behaved p ->
  match parse_only p s with
  | OOk v => exists ss, slice_parse p (slice_new s) = Done (ss, inl v) /\ exists i, p (mkInput true s) = Data i v /\ skipn (ss_pos ss) (ss_slice ss) = buf i
  | OErr (PErr b e) => exists ss, slice_parse p (slice_new s) = Done (ss, inr (SParseError b e)) /\ skipn (ss_pos ss) (ss_slice ss) = b /\ stream_error_from (PErr b e) = SParseError b e
  | OErr (PIncomplete n) => slice_parse p (slice_new s) = Done (slice_new s, inr (SIncomplete (n + length s))) /\ (stream_error_from (PIncomplete n) : stream_error I E) = SIncomplete n
  | OPanic => slice_parse p (slice_new s) = Panicked
  | ONoFuel => slice_parse p (slice_new s) = Stuck
  end.
Proof.
  intros I T E p s Hs Hw. unfold parse_only. pose proof (slice_parse_spec (slice_new s) ltac:(cbn; lia) Hw) as H. cbn [rest_of slice_new ss_pos ss_slice skipn] in H.
  destruct H as [[H _]|[_ [[G1 G2]|[[G1 G2]|(ss & out & G1 & G2 & G3 & G4)]]]]; [contradiction|rewrite G1; assumption|rewrite G1; assumption|].
  unfold rest_of in G4. destruct (p (mkInput true s)) as [j v|b e|n| |] eqn:Ep; cbn [whole] in G4; try contradiction; destruct G4 as [G4 ->]; eauto.
  split; [|reflexivity]. unfold slice_parse, slice_is_empty, slice_len, slice_new. cbn [ss_slice ss_pos]. rewrite usize_sub_ok by lia. cbn [run_bind]. rewrite Nat.sub_0_r.
  destruct s as [|x s]; [contradiction|]. cbn [length Nat.eqb skipn]. rewrite Ep. reflexivity.
Qed.
(** On the empty slice only [parse_only] runs the parser. *)
Theorem C37_empty : forall I T E (p : parser I T E), slice_parse p (slice_new []) = Done (slice_new [], inr SEndOfInput).
Proof. reflexivity. Qed.
(** A parser called by hand on [Input::new(s)] does what it does under [parse_only]: on the slice [s], which is the last. *)
Theorem C37_by_hand : forall I T E (p : parser I T E) s, parse_only p s =
  match p (input_new s) with
  | Data _ v => OOk v
  | Error b e => OErr (PErr b e)
  | Incomplete n => OErr (PIncomplete n)
  | Panic => OPanic
  | NoFuel => ONoFuel
  end /\ parse_only (fun i => Data i (last i, buf i) : pres I (bool * list I) E) s = OOk (true, s).
Proof. split; reflexivity. Qed.
Print Assumptions C37_agree.
Print Assumptions C37_empty.
Print Assumptions C37_by_hand.
Example C37_case : parse_only item [1; 2] = OErr (PIncomplete 1) /\ slice_parse item (slice_new [1; 2]) = Done (slice_new [1; 2], inr (SIncomplete 3)) /\
  parse_only item [1; 2; 0; 5] = OOk [1; 2] /\ (exists ss, slice_parse item (slice_new [1; 2; 0; 5]) = Done (ss, inl [1; 2]) /\ skipn (ss_pos ss) (ss_slice ss) = [5]) /\
  parse_only item [0; 5] = OErr (PErr [0; 5] (err_unexpected true)).
Proof. repeat split; try (vm_compute; reflexivity). eexists. split; vm_compute; reflexivity. Qed.

(** * C38 *)
Theorem C38_iff : forall I E (ieqb : I -> I -> bool) (eeqb : E -> E -> bool), (forall a b, ieqb a b = true <-> a = b) -> (forall a b, eeqb a b = true <-> a = b) ->
  forall x y, stream_error_eqb ieqb eeqb x y = true <-> x = y /\ forall k, x <> SIoError k.
Proof.
  intros I E ieqb eeqb Hi He.
  assert (Hl : forall l1 l2, list_eqb ieqb l1 l2 = true <-> l1 = l2).
  { induction l1 as [|a l1 IH]; destruct l2 as [|b l2]; cbn [list_eqb]; split; intros H; try discriminate; auto.
    - apply andb_true_iff in H. destruct H as [H1 H2]. apply Hi in H1. apply IH in H2. congruence.
    - inversion H; subst. apply andb_true_iff. split; [apply Hi|apply IH]; reflexivity. }
  intros x y. destruct x as [b e|n|k| |]; destruct y as [b' e'|n'|k'| |]; cbn [stream_error_eqb]; split; intros H; try discriminate H; try (destruct H as [H _]; discriminate H).
  - apply andb_true_iff in H. destruct H as [H1 H2]. apply Hl in H1. apply He in H2. subst. split; [reflexivity|discriminate].
  - destruct H as [H _]. inversion H; subst. apply andb_true_iff. split; [apply Hl|apply He]; reflexivity.
  - apply Nat.eqb_eq in H. subst. split; [reflexivity|discriminate].
  - destruct H as [H _]. inversion H; subst. apply Nat.eqb_refl.
  - destruct H as [_ H]. exfalso. exact (H _ eq_refl).
  - split; [reflexivity|discriminate].
  - reflexivity.
  - split; [reflexivity|discriminate].
  - reflexivity.
Qed.
(** Symmetric and transitive as far as the comparisons of items and errors are. *)
Theorem C38_symmetric : forall I E (ieqb : I -> I -> bool) (eeqb : E -> E -> bool), (forall a b, ieqb a b = ieqb b a) -> (forall a b, eeqb a b = eeqb b a) ->
  forall x y, stream_error_eqb ieqb eeqb x y = stream_error_eqb ieqb eeqb y x.
Proof.
  intros I E ieqb eeqb Hi He. assert (Hl : forall l1 l2, list_eqb ieqb l1 l2 = list_eqb ieqb l2 l1) by (induction l1 as [|a l1 IH]; destruct l2 as [|b l2]; cbn; auto; rewrite Hi, IH; reflexivity).
  intros [] []; cbn; auto; [rewrite Hl, He; reflexivity|apply Nat.eqb_sym].
Qed.
Theorem C38_transitive : forall I E (ieqb : I -> I -> bool) (eeqb : E -> E -> bool),
  (forall a b c, ieqb a b = true -> ieqb b c = true -> ieqb a c = true) -> (forall a b c, eeqb a b = true -> eeqb b c = true -> eeqb a c = true) ->
  forall x y z, stream_error_eqb ieqb eeqb x y = true -> stream_error_eqb ieqb eeqb y z = true -> stream_error_eqb ieqb eeqb x z = true.
Proof.
  intros I E ieqb eeqb Hi He.
  assert (Hl : forall l1 l2 l3, list_eqb ieqb l1 l2 = true -> list_eqb ieqb l2 l3 = true -> list_eqb ieqb l1 l3 = true).
  { induction l1 as [|a l1 IH]; destruct l2 as [|b l2]; destruct l3 as [|c l3]; cbn; auto; try discriminate. intros H1 H2. apply andb_true_iff in H1, H2. destruct H1, H2. apply andb_true_iff. eauto. }
  intros [] [] []; cbn; auto; try discriminate.
  - intros H1 H2. apply andb_true_iff in H1, H2. destruct H1, H2. apply andb_true_iff. eauto.
  - intros H1 H2. apply Nat.eqb_eq in H1, H2. apply Nat.eqb_eq. congruence.
Qed.
(** Not reflexive. *)
Theorem C38_io_error : forall I E (ieqb : I -> I -> bool) (eeqb : E -> E -> bool) k x, stream_error_eqb ieqb eeqb (SIoError k) x = false /\ stream_error_eqb ieqb eeqb x (SIoError k) = false.
Proof. intros I E ieqb eeqb k []; auto. Qed.
Print Assumptions C38_iff.
Print Assumptions C38_symmetric.
Print Assumptions C38_transitive.
Print Assumptions C38_io_error.
Example C38_case : stream_error_eqb Nat.eqb Bool.eqb (SParseError [1; 2] true) (SParseError [1; 2] true) = true /\
  stream_error_eqb Nat.eqb Bool.eqb (SParseError [1; 2] true) (SParseError [1] true) = false /\ stream_error_eqb Nat.eqb Bool.eqb (SIncomplete 1) (SIoError 1) = false.
Proof. repeat split. Qed.
Example C38_case_equalities : (forall a b, Nat.eqb a b = true <-> a = b) /\ (forall a b, Nat.eqb a b = Nat.eqb b a) /\
  (forall a b c, Nat.eqb a b = true -> Nat.eqb b c = true -> Nat.eqb a c = true) /\ (forall a b, Bool.eqb a b = true <-> a = b).
Proof.
  split; [apply Nat.eqb_eq|]. split; [apply Nat.eqb_sym|]. split; [intros a b c H1 H2; apply Nat.eqb_eq in H1, H2; subst; apply Nat.eqb_refl|apply eqb_true_iff].
Qed.
