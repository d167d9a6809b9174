(** Property theorems C76: a malformed line of a file spoils only itself. *)
From Coq Require Import List Bool Arith Lia.
From Verif Require Import Base Parsers Combinators Buffer Stream SpecBase SpecBuffer SpecSafe SpecStream SpecAnyBuffer BaseProofs StableProofs BufferProofs StreamProofs SimProofs SafeProofs
  PropsStream PropsAnyBuffer SpecPeg Peg PegProofs PegTotal PropsPeg SpecLaws LawsProofs SpecBlame BlameProofs PropsBlame SpecBnf BnfProofs PropsBnf SpecLines LinesProofs.
Import ListNotations.

Set Implicit Arguments.

(** * Any parser which keeps to its line *)

(** A program which skips the line after an error gets for each line the answers it would get if the file had no other lines; what follows the lines is read
    as if it were all there is. *)
Theorem C76_slice : forall I T E (mark : I -> bool) (p : parser I T E) conv t0 xs z n out, reads_lines mark p -> Forall (is_line mark) xs ->
  on_slice (recovering p (skip_line mark conv t0) n) (slice_new z) = Done out ->
  on_slice (recovering p (skip_line mark conv t0) (length xs + n)) (slice_new (concat xs ++ z)) = Done (flat_map (answers_of p t0) xs ++ out).
Proof.
  intros I T E mark p conv t0 xs z n out Hp Hxs Hz.
  assert (H : forall pos data, pos <= length data -> skipn pos data = concat xs ++ z ->
    on_slice (recovering p (skip_line mark conv t0) (length xs + n)) (mkSliceStream pos data) = Done (flat_map (answers_of p t0) xs ++ out)).
  { clear - Hp Hxs Hz. induction Hxs as [|x xs (y & c & -> & Hy & Hc) Hxs IH]; intros pos data Hl Eq.
    - cbn [length concat flat_map app Nat.add] in *. rewrite <- Hz. apply on_slice_from; cbn [slice_new ss_pos ss_slice]; [assumption|lia|rewrite Eq; reflexivity].
    - cbn [length concat flat_map Nat.add] in *. rewrite <- !app_assoc in Eq. cbn [app] in Eq. cbn [recovering on_slice]. destruct (Hp y c Hy Hc) as [(t & H)|(w & u & e & -> & H)].
      + destruct (@call_data I T E p pos data (y ++ [c]) (concat xs ++ z) t) as (H1 & H2 & H3); [assumption|rewrite <- app_assoc; exact Eq|destruct y; discriminate|rewrite <- app_assoc; apply H|].
        rewrite H1. cbn [run_bind forget]. rewrite (IH _ _ H2 H3). unfold answers_of at 2. rewrite (H true []). reflexivity.
      + rewrite <- app_assoc in Eq. destruct (@call_error I T E p pos data w (u ++ c :: concat xs ++ z) e) as (H1 & H2 & H3); [assumption|exact Eq|destruct u; discriminate|rewrite app_assoc; apply H|].
        rewrite H1. cbn [run_bind forget on_slice]. apply Forall_app in Hy. destruct Hy as [_ Hu].
        destruct (@call_data I T E (skip_line mark conv t0) (pos + length w) data (u ++ [c]) (concat xs ++ z) t0) as (H4 & H5 & H6);
          [assumption|rewrite <- app_assoc; exact H3|destruct u; discriminate|rewrite <- app_assoc; apply skip_skips; assumption|].
        rewrite H4. cbn [run_bind forget]. rewrite (IH _ _ H5 H6). unfold answers_of at 2. rewrite (H true []). reflexivity. }
  apply H; cbn; [lia|reflexivity].
Qed.
Print Assumptions C76_slice.

(** So another line in its place changes the answers of that place only. *)
Theorem C76_isolated : forall I T E (mark : I -> bool) (p : parser I T E) conv t0 xs ys n, reads_lines mark p -> Forall (is_line mark) (xs ++ ys) -> length xs + length ys < n ->
  exists before behind, forall x, is_line mark x ->
    on_slice (recovering p (skip_line mark conv t0) (S n)) (slice_new (concat (xs ++ x :: ys))) = Done (before ++ answers_of p t0 x ++ behind) /\
    ((exists t, answers_of p t0 x = [inl t]) \/ (exists e, answers_of p t0 x = [inr (SParseError [] e); inl t0])).
Proof.
  intros I T E mark p conv t0 xs ys n Hp H Hn. exists (flat_map (answers_of p t0) xs), (flat_map (answers_of p t0) ys ++ [inr SEndOfInput]). intros x Hx.
  assert (Hr : on_slice (recovering p (skip_line mark conv t0) (S n)) (slice_new (concat (xs ++ x :: ys))) =
    Done (flat_map (answers_of p t0) xs ++ answers_of p t0 x ++ flat_map (answers_of p t0) ys ++ [inr SEndOfInput])).
  { rewrite <- (app_nil_r (concat _)). replace (S n) with (length (xs ++ x :: ys) + S (n - length xs - length ys - 1)) by (rewrite app_length; cbn; lia).
    rewrite (@C76_slice I T E mark p conv t0 _ [] _ [inr SEndOfInput] Hp).
    - rewrite flat_map_app. cbn [flat_map]. rewrite <- !app_assoc. reflexivity.
    - apply Forall_app in H. apply Forall_app. split; [|constructor]; tauto.
    - reflexivity. }
  split; [exact Hr|]. destruct Hx as (y & c & -> & Hy & Hc). unfold answers_of. destruct (Hp y c Hy Hc) as [(t & K)|(w & u & e & _ & K)]; rewrite (K true []); [left|right]; eauto.
Qed.
Print Assumptions C76_isolated.

(** From a Source it is the same, however the data comes in; the buffer has to hold the longest line. *)
Theorem C76_source : forall St I B T E (mark : I -> bool) (p : parser I T E) conv t0 (ds : data_source St I) (ops : buffer_ops I B) fits b0 R s xs k fuel n,
  reads_lines mark p -> stable p -> well_behaved p -> (forall i, p i <> NoFuel) -> (exists m, p (mkInput false []) = Incomplete m) -> Forall (is_line mark) xs ->
  obeys ds -> delivers ds R -> R s (concat xs) k -> lawful ops fits b0 -> fits 1 -> (forall x m, In x ([] :: xs) -> m <= length x -> fits m) ->
  2 * length (concat xs) + k + 2 <= fuel -> length xs < n ->
  on_source ds ops fuel (recovering p (skip_line mark conv t0) n) (src_with_buffer s b0) = Done (flat_map (answers_of p t0) xs ++ [inr SEndOfInput]).
Proof.
  intros St I B T E mark p conv t0 ds ops fits b0 R s xs k fuel n Hp St0 Wb Dec Hemp Hxs Ho HR Hd L Hone Hfit Hfuel Hn.
  set (skip := skip_line mark conv t0).
  assert (Hskip : reads_lines mark skip) by (intros x c Hx Hc; left; exists t0; intros; apply skip_skips; assumption).
  assert (Sst : stable skip) by (apply safe_stable, skip_safe).
  assert (Swb : well_behaved skip) by (apply built_well_behaved, safe_built, skip_safe).
  assert (Sdec : forall i, skip i <> NoFuel) by apply skip_decides.
  assert (Semp : exists m, skip (mkInput false []) = Incomplete m) by (exists 1; apply skip_waits; constructor).
  assert (Hsuits : forall q : parser I T E, reads_lines mark q -> stable q -> well_behaved q -> (forall i, q i <> NoFuel) -> (exists m, q (mkInput false []) = Incomplete m) ->
    forall rest, rest = [] \/ (exists u c y, rest = u ++ c :: y /\ plain mark u /\ mark c = true /\ forall m, m <= length u + 1 -> fits m) -> suits fits rest q).
  { intros q Hq Q1 Q2 Q3 Q4 rest Hr. split; auto. intros b c m Eq Hb. destruct Hr as [->|(u & a & y & -> & Hu & Ha & Hf)].
    - cbn. rewrite Nat.min_0_r. apply (Hfit [] 0 (or_introl eq_refl)). lia.
    - apply Hf. enough (length b + m <= length u + 1) by lia.
      assert (Hq' : forall l z m', q (mkInput l (u ++ a :: z)) <> Incomplete m').
      { intros l z m'. destruct (Hq u a Hu Ha) as [(t & K)|(w & v & e & _ & K)]; rewrite K; discriminate. }
      assert (Hlen : length b <= length u).
      { destruct (le_lt_dec (length b) (length u)) as [|Hlt]; [assumption|exfalso]. assert (Hpre : exists z, b = u ++ a :: z).
        { clear - Eq Hlt. revert b Eq Hlt. induction u as [|x u IH]; intros [|x' b] Eq Hlt; cbn in *; try lia; inversion Eq; subst.
          - exists b. reflexivity.
          - destruct (IH b H1) as [z ->]; [lia|]. exists z. reflexivity. }
        destruct Hpre as [z ->]. exact (Hq' _ _ _ Hb). }
      assert (Hpre : exists z, u = b ++ z).
      { clear - Eq Hlen. revert b Eq Hlen. induction u as [|x u IH]; intros [|x' b] Eq Hlen; cbn in *; try lia; [exists []; reflexivity|exists (x :: u); reflexivity|]. inversion Eq; subst.
        destruct (IH b H1) as [z ->]; [lia|]. exists z. reflexivity. }
      destruct Hpre as [z ->]. pose proof (Q1 b false (z ++ [a])) as U. rewrite Hb in U. cbn in U. rewrite app_length in *. cbn in *.
      destruct (le_lt_dec m (length z + 1)); [lia|]. destruct (U eq_refl) as [m' Hm']; [lia|]. rewrite app_assoc in Hm'. exfalso. exact (Hq' _ _ _ Hm'). }
  assert (Hss : forall xs', Forall (is_line mark) xs' -> (forall x, In x xs' -> In x xs) -> forall m pos data, pos <= length data -> skipn pos data = concat xs' ->
    script_suits fits (mkSliceStream pos data) (recovering p skip m)).
  { induction 1 as [|x xs' (y & c & -> & Hy & Hc) Hxs' IH]; intros Hin [|m] pos data Hpos Eq; try apply ss_stop; cbn [recovering].
    - apply ss_next; [apply Hsuits; auto; left; exact Eq|]. intros s' r H. rewrite call_end in H; [inversion H; subst; apply ss_stop|].
      pose proof (f_equal (@length I) Eq) as El. rewrite skipn_length in El. cbn in El. lia.
    - cbn [concat] in Eq. rewrite <- app_assoc in Eq. cbn [app] in Eq.
      assert (Hf : forall u : list I, length u <= length y -> forall m, m <= length u + 1 -> fits m).
      { intros u Hu m' Hm'. apply (Hfit (y ++ [c])); [right; apply Hin; left; reflexivity|rewrite app_length; cbn; lia]. }
      apply ss_next; [apply Hsuits; auto; right; exists y, c, (concat xs'); eauto 10|]. intros s' r H.
      assert (Hin' : forall x, In x xs' -> In x xs) by (intros x Hx; apply Hin; right; exact Hx). destruct (Hp y c Hy Hc) as [(t & K)|(w & u & e & -> & K)].
      + destruct (@call_data I T E p pos data (y ++ [c]) (concat xs') t) as (H1 & H2 & H3); [assumption|rewrite <- app_assoc; exact Eq|destruct y; discriminate|rewrite <- app_assoc; apply K|].
        rewrite H1 in H. inversion H; subst. cbn [forget]. apply IH; auto.
      + rewrite <- app_assoc in Eq. destruct (@call_error I T E p pos data w (u ++ c :: concat xs') e) as (H1 & H2 & H3); [assumption|exact Eq|destruct u; discriminate|rewrite app_assoc; apply K|].
        rewrite H1 in H. inversion H; subst. cbn [forget]. apply Forall_app in Hy. destruct Hy as [_ Hu].
        apply ss_next; [apply Hsuits; auto; right; exists u, c, (concat xs'); cbn [ss_pos ss_slice]; repeat split; auto; apply Hf; rewrite app_length; lia|]. intros s' r H'.
        destruct (@call_data I T E skip (pos + length w) data (u ++ [c]) (concat xs') t0) as (H4 & H5 & H6);
          [assumption|rewrite <- app_assoc; exact H3|destruct u; discriminate|rewrite <- app_assoc; apply skip_skips; assumption|].
        rewrite H4 in H'. inversion H'; subst. cbn [forget]. apply IH; auto. }
  rewrite (proj1 (@C63_answers _ _ _ _ _ ds ops fits b0 R s (concat xs) k (recovering p skip n) fuel Ho HR Hd L Hone
    (Hss xs Hxs (fun _ H => H) n 0 (concat xs) (Nat.le_0_l _) eq_refl) Hfuel)).
  rewrite <- (app_nil_r (concat xs)). replace n with (length xs + S (n - length xs - 1)) by lia. apply C76_slice; auto.
Qed.
Print Assumptions C76_source.

(** * Grammars *)

(** The parsers of well-formed grammars (C71) whose expressions match no end of a line are such parsers. *)
Theorem C76_grammar : forall I v eqb nul rank (mark : I -> bool) (g : nat -> peg I) e p, well_formed nul rank g -> good nul rank None e ->
  (forall n, within_line mark eqb (g n)) -> within_line mark eqb e -> (forall i, settles (fun f => peg_parser v eqb g f (Seq e (Sat mark)) i) (p i)) ->
  reads_lines mark p /\ stable p /\ well_behaved p /\ (forall i, p i <> NoFuel) /\ (exists m, p (mkInput false []) = Incomplete m).
Proof.
  intros I v eqb nul rank mark g e p Hg He Hwg Hwe Hp. assert (Hgood : good nul rank None (Seq e (Sat mark))) by (cbn; auto).
  pose proof (limit_well_behaved v eqb g _ p Hp) as H2.
  split; [|split; [eapply limit_stable; eauto|split; [exact H2|split; [eapply limit_decides; eauto|]]]].
  - intros x c Hx Hc. destruct (proj1 (@C71_returns I v eqb nul rank g _ Hg Hgood) (x ++ [c])) as (r & d & D).
    destruct (line_kept Hwg c [] Hwe Hx Hc D) as [Hd Hr]. destruct (limit_does v p Hp D) as (_ & Hv & _). rewrite app_length in Hv. specialize (Hv Hd).
    assert (Hv' : forall l y, verdict l y r (p (mkInput l (x ++ c :: y)))) by (intros l y; specialize (Hv l y); rewrite <- app_assoc in Hv; exact Hv).
    destruct r as [[t s1]|].
    + left. exists t. intros l y. destruct (Hr _ _ eq_refl) as [-> _]. exact (Hv' l y).
    + right. destruct (proj1 (proj1 (@C72_cause I eqb g (Seq e (Sat mark)) (x ++ [c]))) (ex_intro _ d D)) as (q & u & Hb).
      destruct (@C72_stream I v eqb g _ _ _ _ _ D ltac:(rewrite app_length; cbn; lia) Hb) as (b & err & Hrep & Hset).
      assert (Hpb : forall l y, p (mkInput l (x ++ c :: y)) = Error (b ++ y) err).
      { intros l y. specialize (Hset l y). rewrite <- app_assoc in Hset. eapply settles_det; [apply Hp|exact Hset]. }
      pose proof (H2 (mkInput true (x ++ [c]))) as Hh. rewrite (Hpb true []) in Hh. rewrite app_nil_r in Hh. destruct Hh as [z Hz]. cbn [buf] in Hz.
      assert (Hne : b <> []).
      { remember (Error b err) as res eqn:Er. destruct Hrep as [f a u' Ha|f|w u' m Hm1 Hm2|w x0 y0 m Hl (a1 & a2 & _ & Hn & _)]; try discriminate; [inversion Er; subst; discriminate|].
        intros ->. pose proof (proj1 (nth_error_Some x0 m) ltac:(congruence)) as Hlt. destruct v; injection Er as Eb _; apply (f_equal (@length I)) in Eb.
        - rewrite app_length in Eb. cbn in Eb. lia.
        - rewrite skipn_length, app_length in Eb. cbn in Eb. lia. }
      destruct (exists_last Hne) as (b' & a & ->). rewrite app_assoc in Hz. apply app_inj_tail in Hz. destruct Hz as [-> ->].
      exists z, b', err. split; [reflexivity|]. intros l y. rewrite Hpb, <- app_assoc. reflexivity.
  - destruct (proj1 (@C71_returns I v eqb nul rank g _ Hg Hgood) []) as (r & d & D). destruct r as [[t s1]|].
    + exfalso. inversion D; subst. match goal with K : SpecPeg.derives _ _ (Sat mark) _ _ _ |- _ => inversion K; subst end.
      match goal with K : SpecPeg.derives _ _ e [] _ _ |- _ => apply derives_length in K; cbn in K; lia end.
    + destruct (limit_does v p Hp D) as (_ & _ & H). destruct (H (proj1 (fails_looks eqb g) _ _ _ _ D eq_refl)) as (m & _ & _ & Em). eauto.
Qed.
Print Assumptions C76_grammar.

(** The answers for a file, by the grammar alone. *)
Lemma file_answers : forall I v eqb nul rank (mark : I -> bool) (g : nat -> peg I) e p t0 xs, well_formed nul rank g -> good nul rank None e ->
  (forall n, within_line mark eqb (g n)) -> within_line mark eqb e -> (forall i, settles (fun f => peg_parser v eqb g f (Seq e (Sat mark)) i) (p i)) ->
  Forall (is_line mark) xs -> forall out, file mark eqb g v e t0 xs out <-> out = flat_map (answers_of p t0) xs ++ [inr SEndOfInput].
Proof.
  intros I v eqb nul rank mark g e p t0 xs Hg He Hwg Hwe Hp. assert (Hgood : good nul rank None (Seq e (Sat mark))) by (cbn; auto).
  induction 1 as [|x xs (y & c & -> & Hy & Hc) Hxs IH]; intros out.
  - cbn. split; [intros H; inversion H; reflexivity|intros ->; constructor].
  - assert (Hright : forall t d, derives eqb g e (y ++ [c]) (Some (t, [c])) d -> p (mkInput true (y ++ [c])) = Data (mkInput true []) (Both t (One c))).
    { intros t d D. exact (proj1 (limit_does v p Hp (d_seq D (d_sat eqb g mark c [] Hc)))). }
    assert (Hwrong : forall q u b err, blames eqb g (Seq e (Sat mark)) (y ++ [c]) q u -> reports eqb v q u (Error b err) -> p (mkInput true (y ++ [c])) = Error b err).
    { intros q u b err Hb Hr. destruct (C72_report v Hb) as (res & _ & Hu & Hset). rewrite (Hu _ Hr). eapply settles_det; [apply Hp|exact Hset]. }
    cbn [flat_map]. unfold answers_of at 1. split.
    + intros H. inversion H; subst.
      * match goal with K : _ ++ [_] = y ++ [c] |- _ => apply app_inj_tail in K; destruct K; subst end.
        match goal with K : SpecPeg.derives _ _ _ _ _ _ |- _ => rewrite (Hright _ _ K) end. cbn [app]. f_equal. apply IH. assumption.
      * match goal with K : SpecBlame.blames _ _ _ _ _ _, K' : SpecBlame.reports _ _ _ _ _ |- _ => rewrite (Hwrong _ _ _ _ K K') end. cbn [app]. do 2 f_equal. apply IH. assumption.
    + intros ->. destruct (proj1 (@C71_returns I v eqb nul rank g _ Hg Hgood) (y ++ [c])) as (r & d & D).
      destruct (line_kept Hwg c [] Hwe Hy Hc D) as [Hd Hr]. destruct r as [[t s1]|].
      * destruct (Hr _ _ eq_refl) as (-> & t1 & d1 & -> & D1). rewrite (Hright _ _ D1). cbn [app]. eapply f_right; [exact D1|]. apply IH. reflexivity.
      * destruct (proj1 (proj1 (@C72_cause I eqb g (Seq e (Sat mark)) (y ++ [c]))) (ex_intro _ d D)) as (q & u & Hb).
        destruct (@C72_stream I v eqb g _ _ _ _ _ D ltac:(rewrite app_length; cbn; lia) Hb) as (b & err & Hrep & _). rewrite (Hwrong _ _ _ _ Hb Hrep). cbn [app].
        eapply f_wrong; [exact Hb|exact Hrep|]. apply IH. reflexivity.
Qed.

(** The program reads a file of lines as the grammar says, to the end, whatever the lines are ... *)
Theorem C76_file : forall I v eqb nul rank (mark : I -> bool) (g : nat -> peg I) e p t0 xs n, well_formed nul rank g -> good nul rank None e ->
  (forall n, within_line mark eqb (g n)) -> within_line mark eqb e -> (forall i, settles (fun f => peg_parser v eqb g f (Seq e (Sat mark)) i) (p i)) ->
  Forall (is_line mark) xs -> length xs < n ->
  (exists out, file mark eqb g v e t0 xs out) /\
  (forall out, file mark eqb g v e t0 xs out <-> on_slice (recovering p (skip_line mark (fun x => x) t0) n) (slice_new (concat xs)) = Done out).
Proof.
  intros I v eqb nul rank mark g e p t0 xs n Hg He Hwg Hwe Hp Hxs Hn. pose proof (@file_answers I v eqb nul rank mark g e p t0 xs Hg He Hwg Hwe Hp Hxs) as Hf.
  destruct (@C76_grammar I v eqb nul rank mark g e p Hg He Hwg Hwe Hp) as [Hr _]. split; [eexists; apply Hf; reflexivity|]. intros out. rewrite Hf.
  rewrite <- (app_nil_r (concat xs)). replace n with (length xs + S (n - length xs - 1)) by lia.
  rewrite (@C76_slice I _ _ mark p (fun x => x) t0 xs [] _ [inr SEndOfInput] Hr Hxs); [|reflexivity]. split; congruence.
Qed.
Print Assumptions C76_file.

(** ... and so it does from a Source. *)
Theorem C76_file_source : forall St I B v eqb nul rank (mark : I -> bool) (g : nat -> peg I) e p t0 (ds : data_source St I) (ops : buffer_ops I B) fits b0 R s xs k fuel n,
  well_formed nul rank g -> good nul rank None e -> (forall n, within_line mark eqb (g n)) -> within_line mark eqb e ->
  (forall i, settles (fun f => peg_parser v eqb g f (Seq e (Sat mark)) i) (p i)) -> Forall (is_line mark) xs ->
  obeys ds -> delivers ds R -> R s (concat xs) k -> lawful ops fits b0 -> fits 1 -> (forall x m, In x ([] :: xs) -> m <= length x -> fits m) ->
  2 * length (concat xs) + k + 2 <= fuel -> length xs < n ->
  forall out, file mark eqb g v e t0 xs out <-> on_source ds ops fuel (recovering p (skip_line mark (fun x => x) t0) n) (src_with_buffer s b0) = Done out.
Proof.
  intros St I B v eqb nul rank mark g e p t0 ds ops fits b0 R s xs k fuel n Hg He Hwg Hwe Hp Hxs Ho HR Hd L Hone Hfit Hfuel Hn out.
  destruct (@C76_grammar I v eqb nul rank mark g e p Hg He Hwg Hwe Hp) as (Hr & H1 & H2 & H3 & H4).
  rewrite (@file_answers I v eqb nul rank mark g e p t0 xs Hg He Hwg Hwe Hp Hxs out).
  rewrite (@C76_source St I B _ _ mark p (fun x => x) t0 ds ops fits b0 R s xs k fuel n Hr H1 H2 H3 H4 Hxs Ho HR Hd L Hone Hfit Hfuel Hn). split; congruence.
Qed.
Print Assumptions C76_file_source.

(** * The conditions are needed *)

(** A literal of several items asks for items of the next lines; after the last line there are none, and the program never gets to the end. *)
Theorem C76_literal_refuted : forall v, let p f := peg_parser v Nat.eqb (fun _ => Empty) f (Seq (Lit [1; 2]) (Sat (Nat.eqb 0))) in
  let skip := skip_line (Nat.eqb 0) (fun x => x) Nothing in
  Forall (is_line (Nat.eqb 0)) [[1; 2; 0]; [0]] /\
  forall f n, 1 <= f -> 2 <= n -> on_slice (recovering (p f) skip n) (slice_new (concat [[1; 2; 0]; [0]])) = Done [inl (Both (Span [1; 2]) (One 0)); inr (SIncomplete 2)].
Proof.
  intros v p skip. split.
  - repeat constructor; [exists [1; 2], 0|exists [], 0]; repeat split; repeat constructor.
  - intros [|f] [|[|n]] Hf Hn; try lia. destruct v; vm_compute; reflexivity.
Qed.
Print Assumptions C76_literal_refuted.

(** A quotation that is not closed takes the next line, though that would be read if it were alone. *)
Theorem C76_quotation_refuted : forall v, let e := Then (Lit [5]) (Seq (Run (fun c => negb (c =? 5))) (Lit [5])) in
  let p f := peg_parser v Nat.eqb (fun _ => Empty) f (Seq (Opt e) (Sat (Nat.eqb 0))) in
  let skip := skip_line (Nat.eqb 0) (fun x => x) Nothing in
  Forall (is_line (Nat.eqb 0)) [[5; 1; 0]; [5; 2; 5; 0]] /\
  forall f n, 1 <= f -> 3 <= n ->
    on_slice (recovering (p f) skip n) (slice_new [5; 2; 5; 0]) = Done [inl (Both (Both (Span [2]) (Span [5])) (One 0)); inr SEndOfInput] /\
    exists err, on_slice (recovering (p f) skip n) (slice_new (concat [[5; 1; 0]; [5; 2; 5; 0]])) = Done [inr (SParseError [] err); inl Nothing; inr SEndOfInput].
Proof.
  intros v e p skip. split.
  - repeat constructor; [exists [5; 1], 0|exists [5; 2; 5], 0]; repeat split; repeat constructor.
  - intros [|f] [|[|[|n]]] Hf Hn; try lia. split; [destruct v; vm_compute; reflexivity|]. destruct v; eexists; vm_compute; reflexivity.
Qed.
Print Assumptions C76_quotation_refuted.

(** * Cases *)

(** Files of nested lists, one in a line (C73_case); 13 ends a line. *)
Example C76_case : let mark := Nat.eqb 13 in
  well_formed lists_nul (fun n => 1) lists /\ good lists_nul (fun n => 1) None (Rule 0 : peg nat) /\ (forall n, within_line mark Nat.eqb (lists n)) /\ within_line mark Nat.eqb (Rule 0) /\
  Forall (is_line mark) [[10; 1; 12; 2; 3; 11; 13]; [10; 1; 12; 12; 13]; [13]; [7; 13]].
Proof.
  intros mark. split; [exact (lg_well_formed lists_ll1)|]. split; [exact Logic.I|]. split; [|split; [exact Logic.I|]].
  - intros [|n]; [|exact Logic.I]. cbn [lists within_line length In].
    assert (H : forall a c, In a [10] \/ In a [11] \/ In a [12] -> mark c = true -> (a =? c) = false).
    { intros a c Ha Hc. apply Nat.eqb_eq in Hc. subst c. destruct Ha as [[<-|[]]|[[<-|[]]|[<-|[]]]]; reflexivity. }
    repeat split; auto; try (intros a c Ha; apply H; tauto). intros c Hc. apply Nat.eqb_eq in Hc. subst c. reflexivity.
  - assert (H : forall y, forallb (fun a => negb (mark a)) y = true -> is_line mark (y ++ [13])).
    { intros y Hy. exists y, 13. repeat split. rewrite forallb_forall in Hy. apply Forall_forall. intros a Ha. apply negb_true_iff, Hy, Ha. }
    repeat constructor; [apply (H [10; 1; 12; 2; 3; 11])|apply (H [10; 1; 12; 12])|apply (H [])|apply (H [7])]; reflexivity.
Qed.
(** From any pieces, with any I/O errors, in a buffer of eight places. *)
Example C76_case_source : forall xs cs b0, Forall (is_line (Nat.eqb 13)) xs -> Forall (fun x => length x <= 8) xs -> ~ In (Some []) cs -> chunks_data cs = concat xs ->
  fixed_with_size 8 = Done b0 -> exists p, (forall i, settles (fun f => peg_parser true Nat.eqb lists f (Seq (Rule 0) (Sat (Nat.eqb 13))) i) (p i)) /\
  forall out, file (Nat.eqb 13) Nat.eqb lists true (Rule 0) Nothing xs out <->
    on_source (read_data_source chunk_read) (fixed_ops nat) (2 * length (chunks_data cs) + chunks_errors cs + 2) (recovering p (skip_line (Nat.eqb 13) (fun x => x) Nothing) (S (length xs)))
      (src_with_buffer cs b0) = Done out.
Proof.
  intros xs cs b0 Hxs Hl Hcs Hd Hb. destruct C76_case as (Hg & He & Hwg & Hwe & _).
  assert (Hgood : good lists_nul (fun n => 1) None (Seq (Rule 0) (Sat (Nat.eqb 13)))) by (cbn; auto).
  destruct (C71_parser true Nat.eqb _ Hg Hgood) as (p & Hp & _). exists p. split; [exact Hp|].
  eapply (@C76_file_source _ _ _ true Nat.eqb lists_nul (fun n => 1) (Nat.eqb 13) lists (Rule 0) p Nothing (read_data_source chunk_read) (fixed_ops nat) (fun m => m <= 8) b0 schedule cs xs
    (chunks_errors cs)); auto; try lia.
  - apply chunk_obeys.
  - apply chunk_delivers.
  - repeat split; auto.
  - apply tight_lawful. apply (C63_fixed _ Hb).
  - intros x m Hx Hk. rewrite Forall_forall in Hl. destruct Hx as [<-|Hx]; [cbn in Hk; lia|]. specialize (Hl x Hx). cbn in Hl. lia.
  - rewrite Hd. lia.
Qed.
(** A right line, two wrong ones, and a right one. *)
Example C76_case_answers : let p := peg_parser true Nat.eqb lists 40 (Seq (Rule 0) (Sat (Nat.eqb 13))) in
  on_slice (recovering p (skip_line (Nat.eqb 13) (fun x => x) Nothing) 5) (slice_new (concat [[10; 1; 11; 13]; [10; 1; 12; 12; 13]; [13]; [7; 13]])) =
  Done [inl (Both (Both (Many [Many [One 1]]) (Span [11])) (One 13)); inr (SParseError [] (EString [11])); inl Nothing; inr (SParseError [] (EString [10])); inl Nothing;
        inl (Both (Many [One 7]) (One 13)); inr SEndOfInput].
Proof. vm_compute. reflexivity. Qed.
