(** Property theorems C73: LL(1) grammars mean what BNF says. *)
From Coq Require Import List Bool Arith Lia.
From Verif Require Import Base Parsers Combinators Buffer Stream SpecBase SpecSafe SpecBuffer SpecStream SpecIter SpecLaws SpecLoop
  BufferProofs IterProofs SafeProofs StableProofs StreamProofs SimProofs SpecAnyBuffer LoopProofs PropsSafe PropsStream PropsAnyBuffer
  SpecPeg Peg PegProofs PegTotal PropsPeg SpecBnf BnfProofs.
Import ListNotations.

Set Implicit Arguments.

(** Whatever the grammar: without look-ahead, what a parser consumes is a phrase, and its value is that of the phrase. *)
Theorem C73_phrases : forall I v eqb (g : nat -> peg I) e, (forall n, context_free (g n)) -> context_free e ->
  forall f l s j t, peg_parser v eqb g f e (mkInput l s) = Data j t -> exists x, s = x ++ buf j /\ matches eqb g e x t.
Proof.
  intros I v eqb g e Hg He f l s j t H. pose proof (sound v eqb g f e l s) as Hs. rewrite H in Hs. destruct Hs as (_ & d & D & _).
  exact (proj1 (derives_matches eqb g Hg) _ _ _ _ D He _ _ eq_refl).
Qed.
Print Assumptions C73_phrases.

(** For LL(1) grammars every phrase is found, in front of anything that may follow it; at most [k] items behind it are looked at, [k] being the length of the
    longest literal (or one). *)
Theorem C73_found : forall I v eqb nul rank follow k (g : nat -> peg I) F e x t rest, ll1_grammar eqb nul rank follow k g ->
  ll1 eqb g nul follow F e -> good nul rank None e -> short k e -> matches eqb g e x t -> follows F rest ->
  settles (fun f => peg_parser v eqb g f e (mkInput true (x ++ rest))) (Data (mkInput true rest) t) /\
  (k <= length rest -> forall l c, settles (fun f => peg_parser v eqb g f e (mkInput l (x ++ rest ++ c))) (Data (mkInput l (rest ++ c)) t)).
Proof.
  intros I v eqb nul rank follow k g F e x t rest Hg HF He Hs M Hr. destruct (proj1 (matches_derives Hg) _ _ _ M F rest HF He Hs Hr) as (d & D & Hd).
  destruct (proj1 (derives_does v eqb g) _ _ _ _ D) as [f0 H]. split.
  - split; [discriminate|]. exists f0. intros f Hf. apply (H f Hf).
  - intros Hk l c. split; [discriminate|]. exists f0. intros f Hf. destruct (H f Hf) as (_ & H2 & _). rewrite app_assoc. apply H2. rewrite app_length. lia.
Qed.
Print Assumptions C73_found.

(** So the texts accepted as a whole are the phrases. *)
Theorem C73_language : forall I v eqb nul rank follow k (g : nat -> peg I) F e, ll1_grammar eqb nul rank follow k g ->
  ll1 eqb g nul follow F e -> good nul rank None e -> short k e ->
  forall s t, matches eqb g e s t <-> exists f0, forall f, f0 <= f -> parse_only (whole v eqb g e f) s = OOk t.
Proof.
  intros I v eqb nul rank follow k g F e Hg HF He Hs s t. rewrite <- C70_whole. split.
  - intros M. destruct (proj1 (matches_derives Hg) _ _ _ M F [] HF He Hs Logic.I) as (d & D & _). rewrite app_nil_r in D. eauto.
  - intros [d D]. destruct (proj1 (derives_matches eqb g (fun n => ll1_context_free _ _ _ _ _ _ (lg_ll1 Hg n))) _ _ _ _ D (ll1_context_free _ _ _ _ _ _ HF) _ _ eq_refl) as (x & -> & M).
    rewrite app_nil_r. exact M.
Qed.
Print Assumptions C73_language.

(** And a text is a phrase in one way, also at the beginning of a longer text. *)
Theorem C73_unambiguous : forall I eqb nul rank follow k (g : nat -> peg I) F e, ll1_grammar eqb nul rank follow k g ->
  ll1 eqb g nul follow F e -> good nul rank None e -> short k e ->
  forall x t rest x' t' rest', matches eqb g e x t -> follows F rest -> matches eqb g e x' t' -> follows F rest' -> x ++ rest = x' ++ rest' -> x = x' /\ t = t' /\ rest = rest'.
Proof.
  intros I eqb nul rank follow k g F e Hg HF He Hs x t rest x' t' rest' M Hr M' Hr' E.
  destruct (proj1 (matches_derives Hg) _ _ _ M F rest HF He Hs Hr) as (d & D & _). destruct (proj1 (matches_derives Hg) _ _ _ M' F rest' HF He Hs Hr') as (d' & D' & _).
  rewrite E in D. pose proof (derives_one_result D D') as H. inversion H; subst. apply app_inv_tail in E. auto.
Qed.
Print Assumptions C73_unambiguous.

(** * Records on a Source *)

(** While a record is incomplete, no more is asked for than is looked at to match it. *)
Lemma asks_within : forall I v eqb (g : nat -> peg I) e p s r d b c n, (forall i, settles (fun f => peg_parser v eqb g f e i) (p i)) ->
  derives eqb g e s r d -> s = b ++ c -> p (mkInput false b) = Incomplete n -> Nat.min (length b + n) (length s) <= d.
Proof.
  intros I v eqb g e p s r d b c n Hp D -> Hn. destruct (Nat.le_gt_cases d (length (b ++ c))) as [Hd|Hd]; [|lia].
  destruct (Nat.le_gt_cases d (length b)) as [Hb|Hb].
  - destruct (proj1 (derives_local eqb g) _ _ _ _ D b c eq_refl Hb) as (r' & D' & _). destruct (limit_does v p Hp D') as (_ & H2 & _). specialize (H2 Hb false []).
    rewrite app_nil_r in H2. unfold verdict in H2. destruct r' as [[t s1]|]; [congruence|destruct H2 as (y & z & H2); congruence].
  - rewrite app_length in Hd. assert (Hu : length (b ++ firstn (d - length b) c) = d) by (rewrite app_length, firstn_length; lia).
    destruct (proj1 (derives_local eqb g) _ _ _ _ D (b ++ firstn (d - length b) c) (skipn (d - length b) c)) as (r' & D' & _); [rewrite <- app_assoc, firstn_skipn; reflexivity|lia|].
    destruct (limit_does v p Hp D') as (_ & H2 & _). rewrite Hu in H2. specialize (H2 (le_n _) false []). rewrite app_nil_r in H2.
    destruct (limit_at v eqb g e p Hp (mkInput false b) (mkInput false (b ++ firstn (d - length b) c))) as (f & E1 & E2).
    pose proof (@C26_waiting_is_needed _ _ _ _ (comp_safe v eqb g f e) b n (eq_trans E1 Hn) (firstn (d - length b) c)) as H. rewrite E2 in H. rewrite firstn_length in H.
    assert (n <= Nat.min (d - length b) (length c)); [|lia]. apply H. intros m Hm. unfold verdict in H2. destruct r' as [[t s1]|]; [congruence|destruct H2 as (y & z & H2); congruence].
Qed.

(** A loop of calls on a Source: if the data is a sequence of phrases, the answers are their values, then [EndOfInput], however the data comes in; the buffer
    has to hold one phrase and [k] items more (or the data). *)
Theorem C73_source : forall St I B v eqb nul rank follow k (g : nat -> peg I) e p (ds : data_source St I) (ops : buffer_ops I B) fits b0 R s xs ts n fuel,
  ll1_grammar eqb nul rank follow k g -> ll1 eqb g nul follow (starts eqb g nul e) e -> good nul rank None e -> short k e -> may_empty nul e = false ->
  (forall i, settles (fun f => peg_parser v eqb g f e i) (p i)) ->
  obeys ds -> delivers ds R -> R s (concat xs) n -> lawful ops fits b0 -> fits 1 ->
  Forall2 (matches eqb g e) xs ts -> (forall x m, In x ([] :: xs) -> m <= length x + k -> m <= length (concat xs) -> fits m) -> 2 * length (concat xs) + n + 2 <= fuel ->
  forall calls, length ts < calls -> on_source ds ops fuel (until_failure p calls) (src_with_buffer s b0) = Done (List.map inl ts ++ [inr SEndOfInput]).
Proof.
  intros St I B v eqb nul rank follow k g e p ds ops fits b0 R s xs ts n fuel Hg HF He Hs Hm Hp Ho HR Hd L Hone HM Hfit Hfuel calls Hc.
  pose proof (lg_well_formed Hg) as Hwf.
  (* what each call does *)
  assert (Hstep : forall x t xs' ts', matches eqb g e x t -> Forall2 (matches eqb g e) xs' ts' ->
    exists d, derives eqb g e (x ++ concat xs') (Some (t, concat xs')) d /\ d <= length x + k).
  { intros x t xs' ts' M Ms. apply (proj1 (matches_derives Hg) _ _ _ M _ _ HF He Hs). destruct Ms as [|x' t' xs' ts' M' Ms]; [exact Logic.I|]. cbn [concat].
    destruct x' as [|c x']; [|exact (proj1 (matches_starts Hg) _ _ _ M' _ _ eq_refl)]. rewrite (proj1 (matches_empty Hg) _ _ _ M' eq_refl) in Hm. discriminate. }
  assert (Hempty : (exists m, p (mkInput false []) = Incomplete m) /\ fails_on p (mkInput true [])).
  { destruct (@apart_fails _ _ _ _ _ _ _ Hg e []) as (d & D & _); auto; [exact Logic.I|].
    pose proof (proj1 (fails_looks eqb g) _ _ _ _ D eq_refl) as H1. destruct (limit_does v p Hp D) as (H2 & _ & H). destruct (H H1) as (m & _ & _ & E). split; [eauto|exact H2]. }
  destruct Hempty as [Hempty Hnone].
  assert (Hsuits : forall xs' ts', Forall2 (matches eqb g e) xs' ts' -> (forall x, In x xs' -> In x xs) -> length (concat xs') <= length (concat xs) -> suits fits (concat xs') p).
  { intros xs' ts' Ms Hin Hlen. split.
    - eapply limit_stable; eauto.
    - eapply limit_well_behaved; eauto.
    - eapply limit_decides; eauto.
    - intros _. exact Hempty.
    - intros b c m E Hb. destruct Ms as [|x t xs' ts' M Ms].
      + cbn in *. apply (Hfit [] _ (or_introl eq_refl)); [lia|]. lia.
      + destruct (Hstep _ _ _ _ M Ms) as (d & D & Hd'). apply (Hfit x); [right; apply Hin; left; reflexivity| |lia].
        pose proof (@asks_within _ v _ _ _ p _ _ _ _ _ _ Hp D E Hb). cbn [concat]. lia. }
  assert (Hdata : forall x t xs' ts', matches eqb g e x t -> Forall2 (matches eqb g e) xs' ts' -> p (mkInput true (x ++ concat xs')) = Data (mkInput true (concat xs')) t).
  { intros x t xs' ts' M Ms. destruct (Hstep _ _ _ _ M Ms) as (d & D & _). exact (proj1 (limit_does v p Hp D)). }
  assert (Hss : forall xs' ts', Forall2 (matches eqb g e) xs' ts' -> (forall x, In x xs' -> In x xs) -> length (concat xs') <= length (concat xs) ->
    forall m pos data, pos <= length data -> skipn pos data = concat xs' -> script_suits fits (mkSliceStream pos data) (until_failure p m)).
  { induction 1 as [|x t xs' ts' M Ms IH]; intros Hin Hlen [|m] pos data Hpos E; try apply ss_stop.
    - apply ss_next; [cbn [ss_pos ss_slice]; rewrite E; apply (Hsuits [] []); auto|]. intros s' r H. unfold slice_parse, slice_is_empty, slice_len, usize_sub in H. cbn [ss_pos ss_slice] in H.
      destruct (Nat.leb_spec pos (length data)); [|lia]. cbn [run_bind] in H. pose proof (f_equal (@length I) E) as El. rewrite skipn_length in El. cbn in El. rewrite El in H. cbn in H.
      inversion H; subst. apply ss_stop.
    - apply ss_next; [cbn [ss_pos ss_slice]; rewrite E; apply (Hsuits (x :: xs') (t :: ts')); auto|]. intros s' r H.
      cbn [concat] in E. pose proof (Hdata _ _ _ _ M Ms) as HD. destruct (@slice_data I (tree I) (error I) p (@limit_well_behaved I v eqb g e p Hp) Hnone pos data (mkInput true (concat xs')) t Hpos) as (pos' & Hsl & Hl' & E').
      { rewrite E. exact HD. }
      rewrite Hsl in H. inversion H; subst. cbn [forget]. injection E' as E'. apply IH; [intros y Hy; apply Hin; right; exact Hy|cbn [concat] in Hlen; rewrite app_length in Hlen; lia|exact Hl'|symmetry; exact E']. }
  rewrite (proj1 (@C63_answers _ _ _ _ _ ds ops fits b0 R s (concat xs) n (until_failure p calls) fuel Ho HR Hd L Hone
    (Hss xs ts HM (fun _ H => H) (le_n _) calls 0 (concat xs) (Nat.le_0_l _) eq_refl) Hfuel)).
  unfold slice_new. eapply loop_ends with (rest := []); [eapply limit_well_behaved; eauto|exact Hnone|cbn; lia| |reflexivity|exact Hc]. cbn [skipn].
  clear - HM Hdata. induction HM as [|x t xs ts M Ms IH]; [constructor|]. econstructor; [|exact IH]. unfold pure. cbn [concat]. rewrite (Hdata _ _ _ _ M Ms). reflexivity.
Qed.
Print Assumptions C73_source.

(** A loop that has ended does the same when it may call more often. *)
Lemma more_calls : forall St I B T E (ds : data_source St I) (ops : buffer_ops I B) fuel (p : parser I T E) n ts (x : stream_error I E) m st,
  on_source ds ops fuel (until_failure p n) st = Done (List.map inl ts ++ [inr x]) -> n <= m -> on_source ds ops fuel (until_failure p m) st = Done (List.map inl ts ++ [inr x]).
Proof.
  intros St I B T E ds ops fuel p. induction n as [|n IH]; intros ts x [|m] st H Hm; try lia; try (destruct ts; discriminate); cbn [until_failure on_source] in *.
  destruct (insist ds ops fuel p st) as [[st' r]| | |]; cbn [run_bind] in *; try discriminate.
  destruct (forget r) as [t|x'] eqn:Ef; [|exact H].
  destruct (on_source ds ops fuel (until_failure p n) st') as [rs| | |] eqn:Er; cbn [run_bind] in *; try discriminate. injection H as H.
  destruct ts as [|t' ts]; cbn in H; [discriminate|]. injection H as -> ->. rewrite (IH ts x m st' Er ltac:(lia)). reflexivity.
Qed.

(** And only then: if the answers are values and then [EndOfInput], the data is a sequence of phrases with these values.  For every well-formed grammar
    without look-ahead. *)
Theorem C73_source_only : forall St I B v eqb nul rank (g : nat -> peg I) e p (ds : data_source St I) (ops : buffer_ops I B) fits b0 R s data n fuel,
  (forall m, context_free (g m)) -> context_free e ->
  well_formed nul rank g -> good nul rank None e -> may_empty nul e = false -> (forall i, settles (fun f => peg_parser v eqb g f e i) (p i)) ->
  obeys ds -> delivers ds R -> R s data n -> lawful ops fits b0 -> fits 1 ->
  (forall b r d m, derives eqb g e b r d -> m <= d -> m <= length data -> fits m) -> 2 * length data + n + 2 <= fuel ->
  forall calls ts, on_source ds ops fuel (until_failure p calls) (src_with_buffer s b0) = Done (List.map inl ts ++ [inr SEndOfInput]) ->
  exists xs, data = concat xs /\ Forall2 (matches eqb g e) xs ts.
Proof.
  intros St I B v eqb nul rank g e p ds ops fits b0 R s data n fuel Hcg Hce Hg He Hm Hp Ho HR Hs L Hone Hfit Hfuel calls ts H.
  destruct (@C71_source St I B v eqb nul rank g e p ds ops fits b0 R s data n fuel Hg He Hm Hp Ho HR Hs L Hone Hfit Hfuel) as (us & rest & d & x & D & Hx & Hn).
  assert (E : ts = us /\ x = SEndOfInput).
  { pose proof (Hn (calls + S (length us)) ltac:(lia)) as Hall. rewrite (more_calls _ _ _ _ _ _ _ H (Nat.le_add_r _ _)) in Hall. injection Hall as Hall. clear - Hall. revert us Hall.
    induction ts as [|t ts IH]; intros [|u us] Hall; cbn in Hall; try discriminate.
    - injection Hall as <-. auto.
    - injection Hall as <- Hall. destruct (IH us Hall) as [-> ->]. auto. }
  destruct E as [-> ->]. rewrite (proj1 Hx eq_refl) in D.
  destruct (proj1 (derives_matches eqb g Hcg) _ _ _ _ D Hce _ _ eq_refl) as (y & Hy & M). rewrite app_nil_r in Hy. subst y.
  inversion M as [| | | | | | | | | | |a x0 ts Hrep| | | |]; subst. clear - Hrep. induction Hrep as [a|a x y t ts M Hrep IH]; [exists []; split; [reflexivity|constructor]|].
  destruct IH as (xs & -> & HF). exists (x :: xs). split; [reflexivity|constructor; assumption].
Qed.
Print Assumptions C73_source_only.

(** * The conditions are needed *)

(** Alternatives which start alike: the text is a phrase, but the first alternative is taken.  Repetitions: they take what should follow them. *)
Theorem C73_order_refuted : forall v,
  (matches Nat.eqb (fun _ => Empty) (Alt (Lit [1]) (Lit [1; 2])) [1; 2] (Span [1; 2]) /\
   forall f, parse_only (whole v Nat.eqb (fun _ => Empty) (Alt (Lit [1]) (Lit [1; 2])) f) [1; 2] <> OOk (Span [1; 2])) /\
  (exists t, matches Nat.eqb (fun _ => Empty) (Seq (Run Nat.odd) (Lit [1])) [3; 1] t /\
   forall f u, parse_only (whole v Nat.eqb (fun _ => Empty) (Seq (Run Nat.odd) (Lit [1])) f) [3; 1] <> OOk u) /\
  (exists t u, matches Nat.eqb (fun _ => Empty) (Seq (Opt (Lit [1])) (Opt (Lit [1]))) [1] t /\ matches Nat.eqb (fun _ => Empty) (Seq (Opt (Lit [1])) (Opt (Lit [1]))) [1] u /\ t <> u).
Proof.
  intros v. split; [|split].
  - split; [apply m_alt2, m_lit; repeat constructor|]. intros [|f]; destruct v; vm_compute; discriminate.
  - eexists. split; [change [3; 1] with ([3] ++ [1]); constructor; [apply m_run; repeat constructor|apply m_lit; repeat constructor]|].
    intros [|f] u; destruct v; vm_compute; discriminate.
  - eexists _, _. split; [change [1] with ([1] ++ @nil nat); constructor; [apply m_opt, m_lit; repeat constructor|apply m_opt_not]|].
    split; [change [1] with (@nil nat ++ [1]); constructor; [apply m_opt_not|apply m_opt, m_lit; repeat constructor]|discriminate].
Qed.
Print Assumptions C73_order_refuted.

(** * Cases *)

(** Nested lists of numbers, [[1,23],[],4]: digits below 10, brackets 10 and 11, comma 12, and 13 to end a record. *)
Definition lists : nat -> peg nat := fun n =>
  match n with
  | 0 => Alt (Plus (Sat (fun c => c <? 10))) (Then (Lit [10]) (Seq (Opt (Sep (Rule 0) (Lit [12]))) (Lit [11])))
  | _ => Empty
  end.
Definition lists_nul (n : nat) : bool := 0 <? n.
Definition lists_follow (n c : nat) : Prop := 11 <= c <= 13.
Definition list_record : peg nat := Seq (Rule 0) (Lit [13]).

(** Takes the items apart with which an expression may start. *)
Ltac first_items := repeat match goal with
  | H : starts _ _ _ (Rule _) _ |- _ => fail 1
  | H : starts _ _ _ _ _ |- _ => inversion H; subst; clear H
  end; repeat match goal with H : (_ =? _) = true |- _ => apply Nat.eqb_eq in H | H : (_ <? _) = true |- _ => apply Nat.ltb_lt in H end.

Lemma lists_starts : forall c, starts Nat.eqb lists lists_nul (Rule 0) c -> c <= 10.
Proof. intros c H. inversion H as [| | | | | | | | | | | | | | | | |n c' H0]; subst. cbn [lists] in H0. clear H. first_items; try discriminate; lia. Qed.
Lemma lists_ll1 : ll1_grammar Nat.eqb lists_nul (fun n => 1) lists_follow 1 lists.
Proof.
  split.
  - intros [|n]; cbn; auto. repeat split; auto; try discriminate.
  - intros [|n]; [|exact Logic.I]. cbn [lists ll1 may_empty]. unfold lists_follow. repeat split; try discriminate.
    + intros c H1 H2. first_items; try discriminate; lia.
    + intros c Hc H. first_items. lia.
    + intros c Hc. assert (c = 11) by (destruct Hc as [Hc|[? _]]; [first_items; congruence|discriminate]). subst c. intros H. inversion H; subst; [|discriminate].
      match goal with H : starts _ _ _ (Rule 0) _ |- _ => apply lists_starts in H; lia end.
    + intros c Hc. assert (c = 11) by (destruct Hc as [Hc|[? _]]; [first_items; congruence|discriminate]). subst c. intros H. inversion H; subst; [first_items; discriminate|discriminate].
    + destruct H as [H|[H|[H _]]]; [inversion H; subst; [first_items; lia|discriminate]|first_items; lia|discriminate].
    + destruct H as [H|[H|[H _]]]; [inversion H; subst; [first_items; lia|discriminate]|first_items; lia|discriminate].
  - intros [|n]; cbn; auto.
  - auto.
Qed.
(** [[1,23],[]] and a record. *)
Example C73_case : ll1_grammar Nat.eqb lists_nul (fun n => 1) lists_follow 1 lists /\
  ll1 Nat.eqb lists lists_nul lists_follow (starts Nat.eqb lists lists_nul list_record) list_record /\ good lists_nul (fun n => 1) None list_record /\ short 1 list_record /\
  may_empty lists_nul list_record = false /\ (forall n, context_free (lists n)) /\ exists t, matches Nat.eqb lists list_record [10; 10; 1; 12; 2; 3; 11; 12; 10; 11; 11; 13] t.
Proof.
  split; [exact lists_ll1|]. split; [|split; [repeat split|split; [repeat split; auto|split; [reflexivity|split]]]].
  - cbn [ll1 list_record may_empty]. split; [|exact Logic.I]. intros c [H|[H _]]; [|discriminate]. unfold lists_follow. first_items. lia.
  - cbn. lia.
  - intros [|n]; cbn; auto.
  - assert (H : exists t, peg_parser true Nat.eqb lists 20 list_record (mkInput true [10; 10; 1; 12; 2; 3; 11; 12; 10; 11; 11; 13]) = Data (mkInput true []) t) by (eexists; vm_compute; reflexivity).
    destruct H as [t H]. apply C73_phrases in H; [|intros [|n]; cbn; auto|repeat split]. destruct H as (x & E & M). cbn [buf] in E. rewrite app_nil_r in E. subst x. eauto.
Qed.
(** Records from any pieces, in a buffer of eight places. *)
Example C73_case_source : forall xs ts cs b0, Forall2 (matches Nat.eqb lists list_record) xs ts -> Forall (fun x => length x <= 7) xs ->
  ~ In (Some []) cs -> chunks_data cs = concat xs -> fixed_with_size 8 = Done b0 -> exists p, (forall i, settles (fun f => peg_parser true Nat.eqb lists f list_record i) (p i)) /\
  on_source (read_data_source chunk_read) (fixed_ops nat) (2 * length (chunks_data cs) + chunks_errors cs + 2) (until_failure p (S (length ts))) (src_with_buffer cs b0) =
    Done (List.map inl ts ++ [inr SEndOfInput]).
Proof.
  intros xs ts cs b0 HM Hl Hcs Hd Hb. destruct C73_case as (Hg & HF & He & Hs & Hm & _). destruct (C71_parser true Nat.eqb list_record (lg_well_formed Hg) He) as (p & Hp & _).
  exists p. split; [exact Hp|].
  eapply (@C73_source _ _ _ true Nat.eqb lists_nul (fun n => 1) lists_follow 1 lists list_record p (read_data_source chunk_read) (fixed_ops nat) (fun m => m <= 8) b0 schedule cs xs ts (chunks_errors cs)); auto;
    try lia.
  - apply chunk_obeys.
  - apply chunk_delivers.
  - repeat split; auto.
  - apply tight_lawful. apply (C63_fixed _ Hb).
  - intros x m Hx Hk _. rewrite Forall_forall in Hl. destruct Hx as [<-|Hx]; [cbn in Hk; lia|]. specialize (Hl x Hx). cbn in Hl. lia.
  - rewrite Hd. lia.
Qed.

(** Over the unlimited buffer: these answers exactly if the data is a sequence of records. *)
Example C73_case_exactly : forall cs ts, ~ In (Some []) cs -> exists p, (forall i, settles (fun f => peg_parser true Nat.eqb lists f list_record i) (p i)) /\
  ((exists xs, chunks_data cs = concat xs /\ Forall2 (matches Nat.eqb lists list_record) xs ts) <->
   on_source (read_data_source chunk_read) (growing_ops nat) (2 * length (chunks_data cs) + chunks_errors cs + 2) (until_failure p (S (length ts)))
     (src_with_buffer cs (growing_with_limit 0 (fun n => n) 0)) = Done (List.map inl ts ++ [inr SEndOfInput])).
Proof.
  intros cs ts Hcs. destruct C73_case as (Hg & HF & He & Hs & Hm & Hcf & _). destruct (C71_parser true Nat.eqb list_record (lg_well_formed Hg) He) as (p & Hp & _).
  exists p. split; [exact Hp|]. split.
  - intros (xs & E & HM).
    eapply (@C73_source _ _ _ true Nat.eqb lists_nul (fun n => 1) lists_follow 1 lists list_record p (read_data_source chunk_read) (growing_ops nat) (fun _ => True)
      (growing_with_limit 0 (fun n => n) 0) schedule cs xs ts (chunks_errors cs)); auto using chunk_obeys, chunk_delivers.
    + repeat split; auto.
    + apply tight_lawful. apply C63_growing.
    + rewrite E. apply Nat.le_refl.
  - apply (@C73_source_only _ _ _ true Nat.eqb lists_nul (fun n => 1) lists list_record p (read_data_source chunk_read) (growing_ops nat) (fun _ => True)
      (growing_with_limit 0 (fun n => n) 0) schedule cs (chunks_data cs) (chunks_errors cs)); auto using chunk_obeys, chunk_delivers; try (repeat split; auto; fail).
    + exact (lg_well_formed Hg).
    + apply tight_lawful. apply C63_growing.
Qed.
