(** Property theorems C66: a loop over a stream is [many]. *)
From Coq Require Import List Bool Arith Lia.
From Verif Require Import Base Parsers Combinators Buffer Stream SpecBase SpecSafe SpecBuffer SpecStream SpecIter SpecLaws SpecLoop
  IterProofs ManyProofs LawsProofs SafeProofs StreamProofs SimProofs SpecAnyBuffer LoopProofs PropsStream PropsAnyBuffer.
Import ListNotations.

Set Implicit Arguments.

(** The values a loop over a slice collects until [parse] fails are those of [many] on the slice, and the failure is the end of the input if [many]
    leaves nothing, else the failure of the parser on what [many] leaves.  The parser must fail on the empty input. *)
Theorem C66_many : forall I T E (p : parser I T E), well_behaved p -> fails_on p (mkInput true []) -> (forall i, p i <> NoFuel) ->
  forall data vs e,
  (exists rest, settles (fun fuel => many fuel (vec_collector T) tt (pure p) (mkInput true data)) (Data (mkInput true rest) vs) /\ ending p rest e) <->
  (exists n, on_slice (until_failure p n) (slice_new data) = Done (List.map inl vs ++ [inr e])).
Proof.
  intros I T E p Hp He Hd data vs e. split.
  - intros (rest & H & Hx). apply (many_data Hp He) in H. destruct H as (rest' & Heq & Hr & _). inversion Heq; subst rest'.
    exists (S (length vs)). eapply loop_ends with (rest := rest); eauto; cbn; lia.
  - intros [n H]. apply (on_slice_ends Hp He Hd) in H. destruct H as (rest & Hr & Hx & _). exists rest. split; [|assumption].
    apply (many_data Hp He). eauto.
Qed.
Print Assumptions C66_many.

(** One call more than there are values is enough, and further calls are not made. *)
Theorem C66_calls : forall I T E (p : parser I T E), well_behaved p -> fails_on p (mkInput true []) -> (forall i, p i <> NoFuel) ->
  forall data vs e n, on_slice (until_failure p n) (slice_new data) = Done (List.map inl vs ++ [inr e]) ->
  length vs < n /\ forall m, length vs < m -> on_slice (until_failure p m) (slice_new data) = Done (List.map inl vs ++ [inr e]).
Proof.
  intros I T E p Hp He Hd data vs e n H. apply (on_slice_ends Hp He Hd) in H. destruct H as (rest & Hr & Hx & Hn). split; [assumption|].
  intros m Hm. eapply loop_ends with (rest := rest); eauto; cbn; lia.
Qed.
Print Assumptions C66_calls.

(** The one panics if the other does; the one goes on for ever if the other does. *)
Theorem C66_panics : forall I T E (p : parser I T E), well_behaved p -> fails_on p (mkInput true []) -> (forall i, p i <> NoFuel) -> forall data,
  settles (fun fuel => many fuel (vec_collector T) tt (pure p) (mkInput true data)) Panic <->
  exists n, on_slice (until_failure p n) (slice_new data) = Panicked.
Proof.
  intros I T E p Hp He Hd data. rewrite (many_panic Hp). split.
  - intros (vs & rest & Hr & H). exists (S (length vs)). eapply loop_panics with (rest := rest); eauto; cbn; lia.
  - intros [n H]. apply (on_slice_panics Hp He Hd) in H. destruct H as (vs & rest & Hr & H & _). eauto.
Qed.
Print Assumptions C66_panics.
Theorem C66_forever : forall I T E (p : parser I T E), well_behaved p -> fails_on p (mkInput true []) -> (forall i, p i <> NoFuel) -> forall data,
  (forall res, ~ settles (fun fuel => many fuel (vec_collector T) tt (pure p) (mkInput true data)) res) <->
  (forall n, exists vs, length vs = n /\ on_slice (until_failure p n) (slice_new data) = Done (List.map inl vs)).
Proof.
  intros I T E p Hp He Hd data. split.
  - intros H n. destruct (loop_cases Hp Hd n data) as (vs & rest & Hr & [Hn|[Hn [[e Hx]|Hx]]]).
    + exists vs. split; [assumption|]. subst n. eapply loop_goes_on with (rest := rest); eauto; cbn; lia.
    + exfalso. eapply H. apply (many_data Hp He). eauto.
    + exfalso. eapply H. apply (many_panic Hp). eauto.
  - intros H res Hs. destruct (@many_only _ _ _ p Hp data res Hs) as [->|(j & vs & ->)].
    + apply (C66_panics Hp He Hd) in Hs. destruct Hs as [n Hs]. destruct (H n) as (ws & _ & Hw). congruence.
    + apply (many_data Hp He) in Hs. destruct Hs as (rest & -> & Hr & e & Hx). destruct (H (S (length vs))) as (ws & _ & Hw). unfold slice_new in Hw.
      rewrite (@loop_ends _ _ _ p Hp He vs (S (length vs)) 0 data rest e) in Hw by (auto; cbn; lia). inversion Hw. symmetry in H1. eapply values_neq; eassumption.
Qed.
Print Assumptions C66_forever.

(** A loop which runs to the end of the input is [many] followed by [eof]. *)
Theorem C66_all : forall I T E v (conv : error I -> E) (p : parser I T E), well_behaved p -> fails_on p (mkInput true []) -> (forall i, p i <> NoFuel) ->
  forall data vs,
  (exists f0, forall fuel, f0 <= fuel -> parse_only (all_of v conv p fuel) data = OOk vs) <->
  (exists n, on_slice (until_failure p n) (slice_new data) = Done (List.map inl vs ++ [inr SEndOfInput])).
Proof.
  intros I T E v conv p Hp He Hd data vs. rewrite <- (C66_many Hp He Hd data vs SEndOfInput). split.
  - intros [f0 H]. pose proof (H f0 (le_n _)) as H0.
    unfold parse_only, all_of in H0. destruct (many f0 (vec_collector T) tt (pure p) (mkInput true data)) as [j ts|b x|n| |] eqn:Hm; cbn in H0; try discriminate.
    assert (Hset : settles (fun fuel => many fuel (vec_collector T) tt (pure p) (mkInput true data)) (Data j ts)).
    { unfold many. rewrite many_settles by (exists 0; exact Logic.I). eapply bmany_sound; [exists 0; exact Logic.I|exact Hm|discriminate]. }
    pose proof (proj1 (many_data Hp He data j ts) Hset) as (rest & -> & Hr & e & Hx). exists rest.
    unfold eof in H0. cbn [buf last] in H0. destruct rest as [|x l]; [|cbn in H0; discriminate]. cbn in H0. inversion H0; subst. split; [assumption|reflexivity].
  - intros (rest & [_ [f0 H]] & Hx). exists f0. intros fuel Hf. unfold parse_only, all_of. rewrite (H fuel Hf). destruct rest as [|x l]; [reflexivity|].
    exfalso. cbn in Hx. destruct Hx as [(b & y & _ & Hx)|(n & _ & Hx)]; discriminate.
Qed.
Print Assumptions C66_all.

(** The same for a Source, over any buffer which behaves as a queue and can hold what is asked for, whatever the pieces in which the data comes and whatever
    I/O errors there are, [Retry] and I/O errors being tried again. *)
Theorem C66_source : forall St I B T E v (conv : error I -> E) (ds : data_source St I) (ops : buffer_ops I B) fits b0 R s data e (p : parser I T E) fuel,
  obeys ds -> delivers ds R -> R s data e -> lawful ops fits b0 -> fits 1 -> (forall rest, suits fits rest p) -> fails_on p (mkInput true []) ->
  2 * length data + e + 2 <= fuel -> forall vs,
  (exists f0, forall f, f0 <= f -> parse_only (all_of v conv p f) data = OOk vs) <->
  (exists n, on_source ds ops fuel (until_failure p n) (src_with_buffer s b0) = Done (List.map inl vs ++ [inr SEndOfInput])).
Proof.
  intros St I B T E v conv ds ops fits b0 R s data e p fuel Ho HR Hs L Hone Hsu He Hf vs.
  rewrite (C66_all v conv (su_well_behaved (Hsu [])) He (su_decides (Hsu [])) data vs).
  assert (Hss : forall n, script_suits fits (slice_new data) (until_failure p n)).
  { intros n. generalize (slice_new data). clear - Hsu. induction n as [|n IH]; intros ss; [apply ss_stop|]. apply ss_next; [apply Hsu|].
    intros s' [t|x] _; cbn; [apply IH|]. destruct x; apply ss_stop. }
  split; intros [n H]; exists n; [rewrite <- H|rewrite <- H; symmetry]; eapply C63_answers; eauto.
Qed.
Print Assumptions C66_source.

(** A parser which succeeds at the end of the input: the loop ends, [many] does not. *)
Definition C66_padding : parser nat nat unit := fun i => match buf i with [] => Data i 0 | x :: r => Data (replace i r) x end.
Theorem C66_padding_refuted : well_behaved C66_padding /\
  on_slice (until_failure C66_padding 4) (slice_new [7; 8]) = Done [inl 7; inl 8; inr SEndOfInput] /\
  forall res, ~ settles (fun fuel => many fuel (vec_collector nat) tt (pure C66_padding) (mkInput true [7; 8])) res.
Proof.
  assert (Hw : well_behaved C66_padding).
  { intros [l [|x b]]; cbn; (split; [reflexivity|]); [exists []; reflexivity|exists [x]; reflexivity]. }
  split; [exact Hw|]. split; [reflexivity|].
  intros res H. unfold many in H. rewrite many_settles in H by (exists 0; exact Logic.I).
  assert (Hi : forall s i us s' j, iterates (pure C66_padding) s i us s' j -> exists k v, fst (pure C66_padding s' j) = Data k v).
  { intros s i us s' [l [|x b]] _; cbn; eauto. }
  inversion H as [us s j H0 _ H1|us s j b e H0 _ _ H1|us s j n H0 _ H1 _|us s j H0 _ H1]; subst; destruct (Hi _ _ _ _ _ H0) as (k & v & Hk).
  - destruct H1 as [H1|[(b & e & H1)|(n & H1 & _)]]; try congruence. apply H1. exists (S (length us)). split; [lia|exact Logic.I].
  - congruence.
  - congruence.
  - congruence.
Qed.
Print Assumptions C66_padding_refuted.

(** * Cases *)
Example C66_case : let p := satisfy true Nat.even in
  fails_on p (mkInput true []) /\ on_slice (until_failure p 9) (slice_new [2; 4; 5; 6]) = Done [inl 2; inl 4; inr (SParseError [] (Unexpected))] /\
  on_slice (until_failure p 9) (slice_new [2; 4]) = Done [inl 2; inl 4; inr SEndOfInput] /\
  parse_only (all_of true (fun e => e) p 9) [2; 4] = OOk [2; 4].
Proof. repeat split. right. exists 1. reflexivity. Qed.
(** The hypotheses for a Source: an item at a time from any pieces, over the unlimited buffer. *)
Example C66_case_source : forall cs vs, let p := satisfy true Nat.even in ~ In (Some []) cs ->
  (exists f0, forall f, f0 <= f -> parse_only (all_of true (fun e => e) p f) (chunks_data cs) = OOk vs) <->
  (exists n, on_source (read_data_source chunk_read) (growing_ops nat) (2 * length (chunks_data cs) + chunks_errors cs + 2) (until_failure p n)
     (src_with_buffer cs (growing_with_limit 0 (fun n => n) 0)) = Done (List.map inl vs ++ [inr SEndOfInput])).
Proof.
  intros cs vs p Hcs. eapply C66_source with (fits := fun _ => True) (R := schedule); eauto using chunk_obeys, chunk_delivers.
  - split; [assumption|split; reflexivity].
  - apply tight_lawful. apply C63_growing.
  - intros rest. apply C31_safe_suits; auto; [apply s_satisfy|intros [l [|x b]]; unfold p, satisfy; cbn; try discriminate; destruct (Nat.even x); discriminate|].
    intros _. exists 1. reflexivity.
  - right. exists 1. reflexivity.
Qed.
