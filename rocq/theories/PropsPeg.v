(** Property theorems C70 and C71: parsing expression grammars. *)
From Coq Require Import List Bool Arith Lia.
From Verif Require Import Base Parsers Combinators Buffer Stream SpecBase SpecSafe SpecBuffer SpecStream SpecIter SpecLaws SpecLoop
  IterProofs ManyProofs LawsProofs SafeProofs StreamProofs SimProofs SpecAnyBuffer LoopProofs PropsStream PropsAnyBuffer PropsLoop
  SpecPeg Peg PegProofs PegTotal.
Import ListNotations.

Set Implicit Arguments.

(** * C70 *)

(** On a whole text the parser does what the expression does: it succeeds with that value and leaves that text, it fails, or it never returns; it never
    panics. *)
Theorem C70_slice : forall I v eqb (g : nat -> peg I) e s,
  (forall t rest, (exists d, derives eqb g e s (Some (t, rest)) d) <-> settles (fun f => peg_parser v eqb g f e (mkInput true s)) (Data (mkInput true rest) t)) /\
  ((exists d, derives eqb g e s None d) <->
     exists res, settles (fun f => peg_parser v eqb g f e (mkInput true s)) res /\ ((exists b x, res = Error b x) \/ (exists n, res = Incomplete n))) /\
  ((forall r d, ~ derives eqb g e s r d) <-> forall f, peg_parser v eqb g f e (mkInput true s) = NoFuel) /\
  (forall f l, peg_parser v eqb g f e (mkInput l s) <> Panic).
Proof.
  intros I v eqb g e s. split; [|split; [|split]].
  - intros t rest. split.
    + intros [d D]. split; [discriminate|]. destruct (proj1 (derives_does v eqb g) _ _ _ _ D) as [f0 H]. exists f0. intros f Hf. apply (H f Hf).
    + intros (_ & f0 & H). pose proof (sound v eqb g f0 e true s) as Hs. rewrite (H f0 (le_n _)) in Hs. destruct Hs as (_ & d & D & _). eauto.
  - split.
    + intros [d D]. destruct (proj1 (derives_does v eqb g) _ _ _ _ D) as [f0 H]. destruct (H f0 (le_n _)) as (Ha & _). exists (peg_parser v eqb g f0 e (mkInput true s)).
      split; [|exact Ha]. apply comp_settles. destruct Ha as [(b & x & ->)|(n & ->)]; discriminate.
    + intros (res & (Hn & f0 & H) & Hr). specialize (H f0 (le_n _)). pose proof (sound v eqb g f0 e true s) as Hs. rewrite H in Hs.
      destruct Hr as [(b & x & ->)|(n & ->)]; [destruct Hs as (d & D & _); eauto|auto].
  - split.
    + intros H f. pose proof (sound v eqb g f e true s) as Hs. destruct (peg_parser v eqb g f e (mkInput true s)) as [j t|b x|n| |]; auto; exfalso.
      * destruct Hs as (_ & d & D & _). eapply H; eauto.
      * destruct Hs as (d & D & _). eapply H; eauto.
      * destruct (Hs eq_refl) as (d & D). eapply H; eauto.
      * exact Hs.
    + intros H r d D. destruct (derives_returns v true D) as [f Hf]. auto.
  - intros f l H. pose proof (sound v eqb g f e l s) as Hs. rewrite H in Hs. exact Hs.
Qed.
Print Assumptions C70_slice.

(** An expression does at most one thing on a text, after looking at the same items. *)
Theorem C70_unique : forall I eqb (g : nat -> peg I) e s r r' d d', derives eqb g e s r d -> derives eqb g e s r' d' -> r = r' /\ d = d'.
Proof.
  intros I eqb g e s r r' d d' H H'. pose proof (derives_one_result H H'). subst r'. split; [reflexivity|]. eapply (proj1 (derives_one_look eqb g)); eauto.
Qed.
Print Assumptions C70_unique.

(** While more input may come, the parser answers as soon as the items which the expression looks at are there, whatever follows them; before that it
    asks, and never for more than is looked at. *)
Theorem C70_stream : forall I v eqb (g : nat -> peg I) e s r d, derives eqb g e s r d -> exists f0, forall f, f0 <= f ->
  (d <= length s -> forall l c,
     match r with
     | Some (t, rest) => peg_parser v eqb g f e (mkInput l (s ++ c)) = Data (mkInput l (rest ++ c)) t
     | None => exists b x, peg_parser v eqb g f e (mkInput l (s ++ c)) = Error b x
     end) /\
  (length s < d -> exists n, 1 <= n /\ length s + n <= d /\ peg_parser v eqb g f e (mkInput false s) = Incomplete n).
Proof.
  intros I v eqb g e s r d D. destruct (proj1 (derives_does v eqb g) _ _ _ _ D) as [f0 H]. exists f0. intros f Hf. destruct (H f Hf) as (_ & H2 & H3). split; assumption.
Qed.
Print Assumptions C70_stream.

(** So what it answers before the end of the input is what the expression does on every text that begins like this. *)
Theorem C70_prefix : forall I v eqb (g : nat -> peg I) e s f,
  (forall j t, peg_parser v eqb g f e (mkInput false s) = Data j t -> forall c, exists d, derives eqb g e (s ++ c) (Some (t, buf j ++ c)) d) /\
  (forall b x, peg_parser v eqb g f e (mkInput false s) = Error b x -> forall c, exists d, derives eqb g e (s ++ c) None d).
Proof.
  intros I v eqb g e s f. pose proof (sound v eqb g f e false s) as Hs. split.
  - intros j t H c. rewrite H in Hs. destruct Hs as (_ & d & D & Hd). destruct (proj1 (derives_does v eqb g) _ _ _ _ D) as [f0 Hf]. destruct (Hf f0 (le_n _)) as (_ & H2 & _).
    specialize (H2 (Hd eq_refl) true c). cbn in H2. pose proof (sound v eqb g f0 e true (s ++ c)) as Hs. rewrite H2 in Hs. destruct Hs as (_ & d' & D' & _). eauto.
  - intros b x H c. rewrite H in Hs. destruct Hs as (d & D & Hd). destruct (proj1 (derives_does v eqb g) _ _ _ _ D) as [f0 Hf]. destruct (Hf f0 (le_n _)) as (_ & H2 & _).
    destruct (H2 (Hd eq_refl) true c) as (b' & x' & H3). pose proof (sound v eqb g f0 e true (s ++ c)) as Hs. rewrite H3 in Hs. destruct Hs as (d' & D' & _). eauto.
Qed.
Print Assumptions C70_prefix.

(** [parse_only] with the expression and then [eof] accepts the texts which the expression matches to the end. *)
Definition whole {I} v eqb (g : nat -> peg I) e f : parser I (tree I) (error I) := fun i =>
  bind (fun x => x) (peg_parser v eqb g f e i) (fun j t => map (fun _ => t) (eof v j)).
Theorem C70_whole : forall I v eqb (g : nat -> peg I) e s t,
  (exists d, derives eqb g e s (Some (t, [])) d) <-> exists f0, forall f, f0 <= f -> parse_only (whole v eqb g e f) s = OOk t.
Proof.
  intros I v eqb g e s t. split.
  - intros [d D]. destruct (proj1 (derives_does v eqb g) _ _ _ _ D) as [f0 H]. exists f0. intros f Hf. destruct (H f Hf) as (Ha & _). cbn in Ha.
    unfold parse_only, whole. rewrite Ha. reflexivity.
  - intros [f0 H]. specialize (H f0 (le_n _)). unfold parse_only, whole in H. pose proof (sound v eqb g f0 e true s) as Hs.
    destruct (peg_parser v eqb g f0 e (mkInput true s)) as [[l j] u|b x|n| |]; cbn in H; try discriminate. destruct Hs as (Hl & d & D & _). cbn [last buf] in *. subst l.
    destruct j as [|x j]; cbn in H; [inversion H; subst; eauto|discriminate].
Qed.
Print Assumptions C70_whole.

(** Left recursion never returns, whatever else the rule says; nor does the repetition of what matches nothing. *)
Theorem C70_left_recursion : forall I v eqb (g : nat -> peg I) n b c, g n = Alt (Seq (Rule n) b) c -> forall f i, peg_parser v eqb g f (Rule n) i = NoFuel.
Proof.
  intros I v eqb g n b c Hn f. induction f as [|f IH]; intros i; [reflexivity|]. rewrite comp_eq, Hn, comp_eq. unfold or_. rewrite comp_eq, IH. reflexivity.
Qed.
Print Assumptions C70_left_recursion.
Theorem C70_idle_loop : forall I v eqb (g : nat -> peg I) a s t d, derives eqb g a s (Some (t, s)) d ->
  (forall r d, ~ derives eqb g (Star a) s r d) /\ forall f, peg_parser v eqb g f (Star a) (mkInput true s) = NoFuel.
Proof.
  intros I v eqb g a s t d D. assert (H : forall r d, ~ derives eqb g (Star a) s r d).
  { intros r d' D'. inversion D' as [| | | | | | | | | | | | | | | | | | | | |a' s' ts s1 d1 d2 Hst Hno| | | | | | |]; subst. clear D'.
    assert (Hs : s1 = s).
    { revert Hst. clear - D. revert d1. induction ts as [|u ts IH]; intros d1 Hst; inversion Hst as [|? ? u' s2 d2 ts' s3 d3 D2 Hst2]; subst; auto.
      pose proof (derives_one_result D D2) as E. inversion E; subst. eauto. }
    subst s1. pose proof (derives_one_result D Hno). discriminate. }
  split; [exact H|]. apply C70_slice. exact H.
Qed.
Print Assumptions C70_idle_loop.

(** It does not always answer as soon as it could: a literal is looked at as a whole. *)
Theorem C70_earliest_refuted : forall I v eqb (g : nat -> peg I) (a b x : I), eqb a x = false ->
  let e := Lit [a; b] in
  (forall c, exists d, derives eqb g e (x :: c) None d) /\ forall f, peg_parser v eqb g f e (mkInput false [x]) = Incomplete 1.
Proof.
  intros I v eqb g a b x Hx e. split.
  - intros c. eexists. apply d_lit_not. intros y z E Hs. inversion Hs as [|? y1 ? ys Hab Hs']; subst. cbn in E. inversion E; subst. congruence.
  - intros f. unfold e. rewrite comp_eq. reflexivity.
Qed.
Print Assumptions C70_earliest_refuted.

(** * C71 *)

(** The parsers of a well-formed grammar return on every input, whole or not. *)
Theorem C71_returns : forall I v eqb nul rank (g : nat -> peg I) e, well_formed nul rank g -> good nul rank None e ->
  (forall s, exists r d, derives eqb g e s r d) /\
  (forall i, exists res, res <> Panic /\ settles (fun f => peg_parser v eqb g f e i) res).
Proof.
  intros I v eqb nul rank g e Hg He. assert (H : forall s, exists r d, derives eqb g e s r d) by (intros s; apply (wf_total eqb Hg s e He)). split; [exact H|].
  intros [l s]. destruct (H s) as (r & d & D). destruct (derives_returns v l D) as [f Hf]. exists (peg_parser v eqb g f e (mkInput l s)). split; [|apply comp_settles; assumption].
  apply (C70_slice v eqb g e s).
Qed.
Print Assumptions C71_returns.

(** So there is such a function, and it keeps the contract of parsers (C24, C25): it returns a rest of its input, and more input does not change answers. *)
Theorem C71_parser : forall I v eqb nul rank (g : nat -> peg I) e, well_formed nul rank g -> good nul rank None e ->
  exists p, (forall i, settles (fun f => peg_parser v eqb g f e i) (p i)) /\ stable p /\ well_behaved p /\ (forall i, p i <> NoFuel) /\
    forall s t rest, (exists d, derives eqb g e s (Some (t, rest)) d) <-> p (mkInput true s) = Data (mkInput true rest) t.
Proof.
  intros I v eqb nul rank g e Hg He. destruct (limit_exists v eqb g e) as [p Hp].
  { intros i. destruct (proj2 (@C71_returns I v eqb nul rank g e Hg He) i) as (res & _ & Hn & f0 & H). exists f0. rewrite (H f0 (le_n _)). assumption. }
  exists p. split; [exact Hp|]. split; [eapply limit_stable; eauto|]. split; [eapply limit_well_behaved; eauto|]. split; [eapply limit_decides; eauto|].
  intros s t rest. split.
  - intros [d D]. exact (proj1 (limit_does v p Hp D)).
  - intros H. pose proof (@limit_sound I v eqb g e p Hp true s) as Hs. rewrite H in Hs. destruct Hs as (_ & d & D & _). eauto.
Qed.
Print Assumptions C71_parser.

(** * C71 over a Source *)

Lemma limit_suits : forall I v eqb nul rank (g : nat -> peg I) e p (fits : nat -> Prop) n rest, well_formed nul rank g -> good nul rank None e -> may_empty nul e = false ->
  (forall i, settles (fun f => peg_parser v eqb g f e i) (p i)) -> (forall b r d m, derives eqb g e b r d -> m <= d -> m <= n -> fits m) -> length rest <= n ->
  suits fits rest p.
Proof.
  intros I v eqb nul rank g e p fits n rest Hg He Hm Hp Hf Hl. split.
  - eapply limit_stable; eauto.
  - eapply limit_well_behaved; eauto.
  - eapply limit_decides; eauto.
  - intros _. destruct (proj1 (@C71_returns I v eqb nul rank g e Hg He) []) as ([[t s1]|] & d & D).
    + pose proof (proj1 (derives_consumes eqb Hg) _ _ _ _ D Hm _ _ eq_refl) as H. cbn in H. lia.
    + pose proof (proj1 (fails_looks eqb g) _ _ _ _ D eq_refl) as Hd. destruct (limit_does v p Hp D) as (_ & _ & H). destruct (H Hd) as (k & _ & _ & Hk). eauto.
  - intros b c k -> Hk. destruct (proj1 (@C71_returns I v eqb nul rank g e Hg He) b) as (r & d & D). destruct (limit_does v p Hp D) as (_ & H2 & H3).
    destruct (Nat.le_gt_cases d (length b)) as [Hd|Hd].
    + specialize (H2 Hd false []). rewrite app_nil_r in H2. destruct r as [[t s1]|]; [|destruct H2 as (y & x & H2)]; unfold verdict in *; congruence.
    + destruct (H3 Hd) as (k' & _ & Hle & Hk'). rewrite Hk in Hk'. inversion Hk'; subst. apply (Hf b r d); [assumption|lia|]. rewrite app_length in *. lia.
Qed.

(** A loop of calls on a Source gives what [e*] gives on the whole data: the same values, and an error in the end, which is [EndOfInput] when all has been
    matched.  The data may come in pieces and with I/O errors, over every buffer which behaves as a queue and can hold what is looked at (or all of the
    data). *)
Theorem C71_source : forall St I B v eqb nul rank (g : nat -> peg I) e p (ds : data_source St I) (ops : buffer_ops I B) fits b0 R s data k fuel,
  well_formed nul rank g -> good nul rank None e -> may_empty nul e = false -> (forall i, settles (fun f => peg_parser v eqb g f e i) (p i)) ->
  obeys ds -> delivers ds R -> R s data k -> lawful ops fits b0 -> fits 1 ->
  (forall b r d m, derives eqb g e b r d -> m <= d -> m <= length data -> fits m) -> 2 * length data + k + 2 <= fuel ->
  exists ts rest d x, derives eqb g (Star e) data (Some (Many ts, rest)) d /\ (x = SEndOfInput <-> rest = []) /\
    forall n, length ts < n -> on_source ds ops fuel (until_failure p n) (src_with_buffer s b0) = Done (List.map inl ts ++ [inr x]).
Proof.
  intros St I B v eqb nul rank g e p ds ops fits b0 R s data k fuel Hg He Hm Hp Ho HR Hs L Hone Hfit Hf.
  pose proof (@limit_suits I v eqb nul rank g e p fits (length data)) as Hsu.
  destruct (proj1 (@C71_returns I v eqb nul rank g (Star e) Hg (conj Hm He)) data) as (r & d & D).
  inversion D as [| | | | | | | | | | | | | | | | | | | | |a' s' ts rest d1 d2 Hst Hno| | | | | | |]; subst.
  assert (Hruns : iterates (pure p) tt (mkInput true data) ts tt (mkInput true rest)).
  { clear - Hst Hp. induction Hst as [a s|a s t s1 d1 ts s2 d2 D H IH]; [constructor|]. econstructor; [|apply IH; assumption].
    unfold pure. rewrite (proj1 (limit_does v p Hp D)). reflexivity. }
  assert (Hend : fails_on p (mkInput true rest)) by exact (proj1 (limit_does v p Hp Hno)).
  assert (Hx : exists x, ending p rest x /\ (x = SEndOfInput <-> rest = [])).
  { unfold ending. destruct rest as [|y rest]; [exists SEndOfInput; split; [reflexivity|tauto]|].
    destruct Hend as [(b & x & H)|(m & H)]; [exists (SParseError [] x)|exists (SIncomplete (m + length (y :: rest)))]; (split; [eauto|split; discriminate]). }
  destruct Hx as (x & Hx & Hxe). exists ts, rest, (seen data rest d1 d2), x. split; [exact D|]. split; [exact Hxe|].
  assert (Hss : forall m ss, ss_slice ss = data -> script_suits fits ss (until_failure p m)).
    { induction m as [|m IH]; intros ss Hd; [apply ss_stop|]. apply ss_next.
      - apply Hsu; auto. rewrite Hd, skipn_length. lia.
      - intros s' [t|y] Hpar; cbn [forget]; [|destruct y; apply ss_stop]. apply IH. rewrite <- Hd. clear - Hpar.
        unfold slice_parse in Hpar. destruct (slice_is_empty ss) as [[|]| | |]; cbn [run_bind] in Hpar; try discriminate.
        destruct (p _); try discriminate; destruct (slice_len ss); cbn [run_bind] in Hpar; try discriminate;
          [destruct (usize_sub _ _); cbn [run_bind] in Hpar; try discriminate|destruct (usize_sub _ _); cbn [run_bind] in Hpar; discriminate]; inversion Hpar; reflexivity. }
  intros n Hn. rewrite (proj1 (@C63_answers _ _ _ _ _ ds ops fits b0 R s data k (until_failure p n) fuel Ho HR Hs L Hone (Hss n (slice_new data) eq_refl) Hf)).
  unfold slice_new. eapply loop_ends with (rest := rest); eauto; cbn; try lia; [eapply limit_well_behaved; eauto|].
    destruct (proj1 (@C71_returns I v eqb nul rank g e Hg He) []) as ([[t s1]|] & d & D0); [|exact (proj1 (limit_does v p Hp D0))].
    pose proof (proj1 (derives_consumes eqb Hg) _ _ _ _ D0 Hm _ _ eq_refl) as H. cbn in H. lia.
Qed.
Print Assumptions C71_source.

(** * Cases *)

(** Brackets: a rule which calls itself, with repetitions, alternatives and look-ahead. *)
Definition brackets : nat -> peg nat := fun n =>
  match n with
  | 0 => Seq (Lit [1]) (Then (Star (Rule 1)) (Lit [2]))          (* ( item* ) *)
  | 1 => Alt (Rule 0) (Slice (Plus (Sat (fun x => 2 <? x))))     (* item *)
  | 2 => Alt (Seq (Rule 2) (Lit [1])) (Lit [1])                  (* left recursive *)
  | _ => Empty
  end.
Definition brackets_nul (n : nat) : bool := 2 <? n.

(** The parser on them, and so (C70_slice) the derivations. *)
Example C70_case : let s := [1; 1; 2; 5; 6; 1; 7; 2; 2; 9] in
  (exists t d, derives Nat.eqb brackets (Rule 0) s (Some (t, [9])) d) /\ (exists d, derives Nat.eqb brackets (Rule 0) [1; 1; 2] None d) /\
  (exists d, derives Nat.eqb brackets (Rule 0) [1; 2; 2] (Some (Both (Span [1]) (Span [2]), [2])) d) /\ (forall r d, ~ derives Nat.eqb brackets (Rule 2) s r d).
Proof.
  intros s. split; [|split; [|split]].
  - pose proof (sound true Nat.eqb brackets 20 (Rule 0) true s) as H. vm_compute in H. destruct H as (_ & d & D & _). eauto.
  - pose proof (sound true Nat.eqb brackets 20 (Rule 0) true [1; 1; 2]) as H. vm_compute in H. exact (H eq_refl).
  - pose proof (sound true Nat.eqb brackets 20 (Rule 0) true [1; 2; 2]) as H. vm_compute in H. destruct H as (_ & d & D & _). eauto.
  - apply (C70_slice true Nat.eqb brackets (Rule 2) s). intros f. eapply C70_left_recursion. reflexivity.
Qed.
(** While more may come: the closing bracket decides; without it the parser asks. *)
Example C70_case_stream : exists d, derives Nat.eqb brackets (Rule 0) [1; 2] (Some (Both (Span [1]) (Span [2]), [])) d /\ d = 2.
Proof.
  eexists. split; [|reflexivity]. apply d_rule. cbn [brackets].
  change 2 with (seen [1; 2] [2] 1 (seen [2] [2] 1 1)).
  apply d_seq with (s1 := [2]); [apply (@d_lit nat Nat.eqb brackets [1] [1] [2]); repeat constructor|].
  apply d_then with (t := Many []) (s1 := [2]); [|apply (@d_lit nat Nat.eqb brackets [2] [2] []); repeat constructor].
  change 1 with (seen [2] [2] 0 1). apply d_star; [apply s_nil|]. apply d_rule. cbn [brackets]. change 1 with (Nat.max 1 1). apply d_alt2.
  - apply d_rule. apply d_seq_not1. apply (@d_lit_not nat Nat.eqb brackets [1] [2]). intros x y E H. inversion H as [|? ? ? ? Hx]; subst. inversion E; subst. discriminate.
  - apply d_slice_not, d_plus_not, d_sat_not. reflexivity.
Qed.

(** The brackets without the left recursive rule are well-formed. *)
Definition nested : nat -> peg nat := fun n => if n =? 2 then Empty else brackets n.
Definition nested_nul (n : nat) : bool := 1 <? n.
Example C71_case : well_formed nested_nul (fun n => n) nested /\ good nested_nul (fun n => n) None (@Rule nat 0) /\ may_empty nested_nul (@Rule nat 0) = false /\
  ~ well_formed brackets_nul (fun n => n) brackets.
Proof.
  split; [|split; [exact Logic.I|split; [reflexivity|]]].
  - intros [|[|[|n]]]; cbn; repeat split; auto; try discriminate; lia.
  - intros H. destruct (proj1 (H 2)) as [[Hr _] _]. cbn in Hr. lia.
Qed.
(** Nested lists from any pieces, over the unlimited buffer. *)
Example C71_case_source : forall cs, ~ In (Some []) cs -> exists p ts rest d x,
  (forall i, settles (fun f => peg_parser true Nat.eqb nested f (Rule 0) i) (p i)) /\
  derives Nat.eqb nested (Star (Rule 0)) (chunks_data cs) (Some (Many ts, rest)) d /\ (x = SEndOfInput <-> rest = []) /\
  forall n, length ts < n -> on_source (read_data_source chunk_read) (growing_ops nat) (2 * length (chunks_data cs) + chunks_errors cs + 2) (until_failure p n)
     (src_with_buffer cs (growing_with_limit 0 (fun n => n) 0)) = Done (List.map inl ts ++ [inr x]).
Proof.
  intros cs Hcs. destruct C71_case as (Hg & He & Hm & _). destruct (C71_parser true Nat.eqb (Rule 0) Hg He) as (p & Hp & _). exists p.
  destruct (@C71_source _ _ _ true Nat.eqb nested_nul (fun n => n) nested (Rule 0) p (read_data_source chunk_read) (growing_ops nat) (fun _ => True)
    (growing_with_limit 0 (fun n => n) 0) schedule cs (chunks_data cs) (chunks_errors cs) (2 * length (chunks_data cs) + chunks_errors cs + 2) Hg He Hm Hp) as (ts & rest & d & x & H); auto.
  - apply chunk_obeys.
  - apply chunk_delivers.
  - repeat split; auto.
  - apply tight_lawful. apply C63_growing.
  - exists ts, rest, d, x. split; [exact Hp|exact H].
Qed.
(** A buffer of four places is enough when at most three items are looked at. *)
Example C71_case_fixed : forall cs b0, ~ In (Some []) cs -> fixed_with_size 4 = Done b0 -> let e := Seq (Sat Nat.odd) (Opt (Lit [2; 4])) in
  exists p ts rest d x, (forall i, settles (fun f => peg_parser true Nat.eqb nested f e i) (p i)) /\
  derives Nat.eqb nested (Star e) (chunks_data cs) (Some (Many ts, rest)) d /\ (x = SEndOfInput <-> rest = []) /\
  forall n, length ts < n -> on_source (read_data_source chunk_read) (fixed_ops nat) (2 * length (chunks_data cs) + chunks_errors cs + 2) (until_failure p n)
     (src_with_buffer cs b0) = Done (List.map inl ts ++ [inr x]).
Proof.
  intros cs b0 Hcs Hb e. destruct C71_case as (Hg & _). assert (He : good nested_nul (fun n => n) None e) by (repeat split).
  destruct (C71_parser true Nat.eqb e Hg He) as (p & Hp & _). exists p.
  destruct (@C71_source _ _ _ true Nat.eqb nested_nul (fun n => n) nested e p (read_data_source chunk_read) (fixed_ops nat) (fun m => m <= 4)
    b0 schedule cs (chunks_data cs) (chunks_errors cs) (2 * length (chunks_data cs) + chunks_errors cs + 2) Hg He eq_refl Hp) as (ts & rest & d & x & H); auto; try lia.
  - apply chunk_obeys.
  - apply chunk_delivers.
  - repeat split; auto.
  - apply tight_lawful. apply (C63_fixed _ Hb).
  - intros b r d m D Hm _. assert (Hd : d <= 3); [|lia]. clear - D. unfold e in D.
    repeat match goal with D : derives _ _ (Seq _ _) _ _ _ |- _ => inversion D; subst; clear D | D : derives _ _ (Sat _) _ _ _ |- _ => inversion D; subst; clear D
      | D : derives _ _ (Opt _) _ _ _ |- _ => inversion D; subst; clear D | D : derives _ _ (Lit _) _ _ _ |- _ => inversion D; subst; clear D end; unfold seen; cbn [length]; lia.
  - exists ts, rest, d, x. split; [exact Hp|exact H].
Qed.
